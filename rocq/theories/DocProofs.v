(** The documented statements: proofs for PropDocs.v. *)
From Coq Require Import String Lia.
From Verif Require Import Lexer Parser Api Lines LinesSim ParseFuel Clean ProgComplete LexProofs StrFacts LexProps2 RelabelProofs SourceProofs Recovery RecoveryProps.
From Verif Require Export DocSpec.
Local Open Scope list_scope.

Lemma outcome_of ls code : source_with ls code -> outcome code = api_of (parse_logical (map (map bare) ls)).
Proof.
  intros (ts & Et & <-). unfold outcome, tokenize_and_parse. rewrite Et, parse_logical_lines, <- parse_erase.
  destruct (parse_logical (logical_lines ts)); reflexivity.
Qed.

Lemma outcome_derived ls code ns : source_with ls code -> d_program (map (map bare) ls) ns ->
  outcome code = ApiOk (ASTBlock ns).
Proof.
  intros H HD. rewrite (outcome_of _ _ H). apply program_iff in HD as [-> _]. reflexivity.
Qed.

Lemma one_statement_program ls n : d_stmt ls n -> d_program ls [n].
Proof.
  intros H. exists 1%nat, ls, []. split; [reflexivity|]. apply d_block_stmts; [|discriminate].
  rewrite <- (app_nil_r ls). apply d_stmts_cons; [assumption|constructor].
Qed.
Lemma two_statements_program ls n ls' n' : d_stmt ls n -> d_stmt ls' n' -> d_program (ls ++ ls') [n; n'].
Proof.
  intros H H'. exists 1%nat, (ls ++ ls'), []. split; [reflexivity|]. apply d_block_stmts; [|discriminate].
  apply d_stmts_cons; [assumption|]. rewrite <- (app_nil_r ls'). apply d_stmts_cons; [assumption|constructor].
Qed.
(** The last line of a function or a WTF? statement, and the empty line after it. *)
Lemma last_statement_program ls e n : d_stmt (ls ++ [e; []]) n -> d_program (ls ++ [e]) [n].
Proof.
  intros H. exists 2%nat, (ls ++ [e; []]), []. split.
  { rewrite <- !app_assoc. reflexivity. }
  apply d_block_stmts; [|discriminate]. rewrite <- (app_nil_r (ls ++ _)). apply d_stmts_cons; [assumption|constructor].
Qed.
Lemma after_line_program l m ls e n : d_line l m -> d_stmt (ls ++ [e; []]) n -> d_program (l :: ls ++ [e]) [m; n].
Proof.
  intros Hl H. exists 2%nat, (l :: ls ++ [e; []]), []. split.
  { cbn. rewrite <- !app_assoc. reflexivity. }
  apply d_block_stmts; [|discriminate]. change (l :: ls ++ [e; []]) with ([l] ++ ls ++ [e; []]).
  apply d_stmts_cons; [now constructor|]. rewrite <- (app_nil_r (ls ++ _)). apply d_stmts_cons; [assumption|constructor].
Qed.

Lemma d_the_name s : d_identifier [bare (name_ s)] (the_name s).
Proof. constructor. eexists; reflexivity. Qed.
Lemma d_the_variable s : d_va [bare (name_ s)] (the_variable s).
Proof. exact (d_access [_] _ [] [] (d_the_name s) d_no_slot). Qed.
Lemma d_variable_ s : d_expr false [bare (name_ s)] (variable_ s).
Proof. constructor. apply d_the_variable. Qed.
Lemma d_literal_ v : d_expr false [bare (value_ v)] (literal_ v).
Proof. constructor. eexists; reflexivity. Qed.
Lemma d_both_saem_ ls l rs r : d_expr false ls l -> d_expr false rs r ->
  d_expr false (key BOTH_SAEM :: ls ++ key AN :: rs) (both_saem_ l r).
Proof.
  intros Hl Hr. apply (d_binary BOTH_SAEM BothSaem (key BOTH_SAEM) false ls l [key AN] (Some (key AN)) rs r).
  - constructor.
  - reflexivity.
  - assumption.
  - constructor. reflexivity.
  - assumption.
Qed.
Lemma d_comparison s v : d_expr false (map bare [TKeyword BOTH_SAEM; name_ s; TKeyword AN; value_ v])
  (both_saem_ (variable_ s) (literal_ v)).
Proof. exact (d_both_saem_ [_] _ [_] _ (d_variable_ s) (d_literal_ v)). Qed.

(** ** Loops *)
Section Loop.
Variables (code label last : str) (body : list (list token_type)) (ns : list node).
Hypothesis Hb : d_block (map (map bare) body) ns.
Definition loop_source (hs : list token_type) : Prop :=
  source_with ((TKeyword IM_IN_YR :: name_ label :: hs) :: body ++ [[TKeyword IM_OUTTA_YR; name_ last]]) code.
Lemma loop_outcome hs its it cs cond : map bare hs = its ++ cs -> d_iteration its it -> d_condition cs cond ->
  loop_source hs ->
  outcome code = ApiOk (ASTBlock [NImInYr (ImInYr (key IM_IN_YR) (bare (name_ label)) it cond (ASTBlock ns) (bare (name_ last)))]).
Proof.
  intros E Hi Hc H. apply (outcome_derived _ _ _ H). cbn [map]. rewrite E, map_app. cbn [map].
  apply one_statement_program. apply d_loop; try assumption; try reflexivity; eexists; reflexivity.
Qed.
End Loop.

(** ** The example of the crate documentation *)
Theorem library_example v : Writes (TIdentifier v) v ->
  tokenize_and_parse (lit "GIMMEH " ++ v) = ApiOk (ASTBlock [NGimmeh (mkGimmeh
    (mkToken (TKeyword GIMMEH) (mkRange (mkPos 1 1 0 0) (mkPos 1 7 6 6)))
    (mkVA (mkIdentifier (mkToken (TIdentifier v)
       (mkRange (mkPos 1 8 7 7) (mkPos 1 (8 + Z.of_nat (length v)) (7 + Z.of_nat (length v)) (7 + Z.of_nat (length v))))) None) []))]).
Proof.
  intros H. inversion H as [s Hn Hl Hk E1 E2| | | | | | | | | | | | | |]; subst.
  assert (Hbl : byte_len v = length v).
  { apply byte_len_ascii. apply forallb_forall. intros c Hc. rewrite Forall_forall in Hl. specialize (Hl c Hc). unfold letter in Hl.
    apply N.ltb_lt. lia. }
  set (ps := [Tok (spelling GIMMEH) (TKeyword GIMMEH); Gap 32%N; Tok v (TIdentifier v)]).
  assert (Et : tokenize (lit "GIMMEH " ++ v) = LexOk (tokens_after [] ps)).
  { apply tokenize_ok_iff. exists ps. split; [|reflexivity].
    change (lit "GIMMEH " ++ v) with (spelling GIMMEH ++ 32%N :: v). apply lexes_tok; [|apply lexes_gap; [now left|]].
    - apply tt_keyword; [simpl; intuition discriminate|]. intros k _ (u & E). destruct k; try discriminate E; cbn; lia.
    - rewrite <- (app_nil_r v) at 1. apply lexes_tok; [|constructor]. apply tt_identifier; auto.
      + intros (c & r & [=] & _).
      + now rewrite app_nil_r. }
  unfold tokenize_and_parse. rewrite Et.
  assert (Ep : tokens_after [] ps = [
    mkToken (TKeyword GIMMEH) (mkRange (mkPos 1 1 0 0) (mkPos 1 7 6 6));
    mkToken (TIdentifier v) (mkRange (mkPos 1 8 7 7)
      (mkPos 1 (8 + Z.of_nat (length v)) (7 + Z.of_nat (length v)) (7 + Z.of_nat (length v))))]).
  { subst ps. unfold tokens_after, pos_after, text_of.
    cbn [app map piece_text concat since_break existsb is_break filter length N.eqb].
    f_equal. f_equal. f_equal. f_equal. rewrite app_nil_r. change (spelling GIMMEH) with (lit "GIMMEH").
    change (byte_len (lit "GIMMEH" ++ 32%N :: v)) with (7 + byte_len v)%nat.
    change (length (lit "GIMMEH" ++ 32%N :: v)) with (7 + length v)%nat. rewrite Hbl.
    f_equal; [|lia|lia]. change (byte_len (concat _)) with (byte_len (lit "GIMMEH" ++ 32%N :: v ++ [])). rewrite app_nil_r.
    change (byte_len (lit "GIMMEH" ++ 32%N :: v)) with (7 + byte_len v)%nat. rewrite Hbl. lia. }
  rewrite Ep. clear Ep Et ps. rewrite parse_logical_lines.
  generalize (mkPos 1 (8 + Z.of_nat (length v)) (7 + Z.of_nat (length v)) (7 + Z.of_nat (length v))). intros p.
  vm_compute. reflexivity.
Qed.

(** ** Statements with blocks *)
Section Blocks.
Variables (code v : str) (a b : token_value).
Variables (body1 body2 body3 : list (list token_type)) (ns1 ns2 ns3 : list node).
Hypothesis H1 : d_block (map (map bare) body1) ns1.
Hypothesis H2 : d_block (map (map bare) body2) ns2.
Hypothesis H3 : d_block (map (map bare) body3) ns3.

Lemma o_rly_example :
  source_with ([[TKeyword BOTH_SAEM; name_ v; TKeyword AN; value_ a]; [TKeyword O_RLY; question_]; [TKeyword YA_RLY]] ++ body1 ++
               [[TKeyword MEBBE; TKeyword BOTH_SAEM; name_ v; TKeyword AN; value_ b]] ++ body2 ++
               [[TKeyword NO_WAI]] ++ body3 ++ [[TKeyword OIC]]) code ->
  outcome code = ApiOk (ASTBlock [NExpression (both_saem_ (variable_ v) (literal_ a));
    NORly (ORly (key O_RLY) (Some (YaRly (key YA_RLY) (ASTBlock ns1))) (Some (NoWai (key NO_WAI) (ASTBlock ns3)))
      [Mebbe (key MEBBE) (both_saem_ (variable_ v) (literal_ b)) (ASTBlock ns2)])]).
Proof.
  intros H. apply (outcome_derived _ _ _ H). clear H.
  assert (D : d_stmt ([key O_RLY; bare question_] :: ([key YA_RLY] :: map (map bare) body1) ++
     ((key MEBBE :: map bare [TKeyword BOTH_SAEM; name_ v; TKeyword AN; value_ b]) :: map (map bare) body2 ++ []) ++
     ([key NO_WAI] :: map (map bare) body3) ++ [[key OIC]])
     (NORly (ORly (key O_RLY) (Some (YaRly (key YA_RLY) (ASTBlock ns1))) (Some (NoWai (key NO_WAI) (ASTBlock ns3)))
      [Mebbe (key MEBBE) (both_saem_ (variable_ v) (literal_ b)) (ASTBlock ns2)]))).
  { apply d_o_rly; try reflexivity.
    - apply d_ya; [reflexivity|assumption].
    - apply (d_mebbes_cons _ false); [reflexivity|apply d_comparison|assumption|constructor].
    - apply d_no; [reflexivity|assumption]. }
  pose proof (two_statements_program [map bare [TKeyword BOTH_SAEM; name_ v; TKeyword AN; value_ a]] _ _ _
    (d_single _ _ (d_expression _ _ _ (d_comparison v a))) D) as P.
  rewrite app_nil_r in P. rewrite !map_app. cbn [map app] in *. exact P.
Qed.

Lemma wtf_example :
  source_with ([[name_ v]; [TKeyword WTF; question_]; [TKeyword OMG; value_ a]] ++ body1 ++
               [[TKeyword OMG; value_ b]] ++ body2 ++ [[TKeyword OMGWTF]] ++ body3 ++ [[TKeyword OIC]]) code ->
  outcome code = ApiOk (ASTBlock [NExpression (variable_ v);
    NWtf (Wtf (key WTF) [WtfOmg (key OMG) (literal_ a) (ASTBlock ns1); WtfOmg (key OMG) (literal_ b) (ASTBlock ns2)]
      (Some (WtfOmgWtf (key OMGWTF) (ASTBlock ns3))))]).
Proof.
  intros H. apply (outcome_derived _ _ _ H). clear H.
  assert (D : d_stmt ([key WTF; bare question_] :: ([key OMG; bare (value_ a)] :: map (map bare) body1 ++
     [key OMG; bare (value_ b)] :: map (map bare) body2 ++ []) ++ ([key OMGWTF] :: map (map bare) body3) ++ [[key OIC]; []])
     (NWtf (Wtf (key WTF) [WtfOmg (key OMG) (literal_ a) (ASTBlock ns1); WtfOmg (key OMG) (literal_ b) (ASTBlock ns2)]
      (Some (WtfOmgWtf (key OMGWTF) (ASTBlock ns3)))))).
  { apply d_wtf; try reflexivity.
    - apply (d_omgs_cons _ false); [reflexivity|apply d_literal_|assumption|].
      apply (d_omgs_cons _ false); [reflexivity|apply d_literal_|assumption|constructor].
    - apply d_omg_wtf; [reflexivity|assumption]. }
  rewrite !app_nil_r in D.
  pose proof (after_line_program [bare (name_ v)] _
    ([key WTF; bare question_] :: ([key OMG; bare (value_ a)] :: map (map bare) body1 ++
     [key OMG; bare (value_ b)] :: map (map bare) body2) ++ [key OMGWTF] :: map (map bare) body3) [key OIC]
    (NWtf (Wtf (key WTF) [WtfOmg (key OMG) (literal_ a) (ASTBlock ns1); WtfOmg (key OMG) (literal_ b) (ASTBlock ns2)]
      (Some (WtfOmgWtf (key OMGWTF) (ASTBlock ns3)))))
    (d_expression _ _ _ (d_variable_ v))) as P.
  repeat (rewrite ?map_app in *; cbn [map app] in *; rewrite <- ?app_assoc in * ). exact (P D).
Qed.

Lemma function_example f x y :
  source_with ([TKeyword HOW_IZ_I; name_ f; TKeyword YR; name_ x; TKeyword AN; TKeyword YR; name_ y] :: body1 ++ [[TKeyword IF_U_SAY_SO]]) code ->
  outcome code = ApiOk (ASTBlock [NHowIzI (HowIzI (key HOW_IZ_I) (the_name f) [the_name x; the_name y] (ASTBlock ns1))]).
Proof.
  intros H. apply (outcome_derived _ _ _ H). clear H. cbn [map]. rewrite map_app.
  apply (last_statement_program (_ :: _) [key IF_U_SAY_SO]).
  apply (d_function (key HOW_IZ_I) [bare (name_ f)] (the_name f)
    (key YR :: [bare (name_ x)] ++ key AN :: key YR :: [bare (name_ y)])); try reflexivity.
  - apply d_the_name.
  - apply d_params_cons; [reflexivity|apply d_the_name|reflexivity|]. apply d_params_last; [reflexivity|apply d_the_name].
  - assumption.
Qed.
End Blocks.

Theorem loop_example l v o cs e body ns code : d_block (map (map bare) body) ns -> d_expr o (map bare cs) e ->
  forall hs it cond,
  (hs = [] /\ it = None /\ cond = None \/
   hs = TKeyword TIL :: cs /\ it = None /\ cond = Some (LTil e) \/
   hs = [TKeyword UPPIN; TKeyword YR; name_ v] /\ it = Some (mkLoopIteration (LUppin (key UPPIN)) (the_variable v)) /\ cond = None \/
   hs = [TKeyword UPPIN; TKeyword YR; name_ v; TKeyword TIL] ++ cs /\
     it = Some (mkLoopIteration (LUppin (key UPPIN)) (the_variable v)) /\ cond = Some (LTil e)) ->
  source_with ((TKeyword IM_IN_YR :: name_ l :: hs) :: body ++ [[TKeyword IM_OUTTA_YR; name_ l]]) code ->
  outcome code = ApiOk (ASTBlock [NImInYr (ImInYr (key IM_IN_YR) (bare (name_ l)) it cond (ASTBlock ns) (bare (name_ l)))]).
Proof.
  intros Hb He hs it cond C.
  assert (Hu : d_iteration [key UPPIN; key YR; bare (name_ v)] (Some (mkLoopIteration (LUppin (key UPPIN)) (the_variable v)))).
  { apply d_uppin; [reflexivity|reflexivity|apply d_the_variable]. }
  assert (Ht : d_condition (key TIL :: map bare cs) (Some (LTil e))) by (eapply d_til; [reflexivity|exact He]).
  destruct C as [(-> & -> & ->)|[(-> & -> & ->)|[(-> & -> & ->)|(-> & -> & ->)]]];
    intros H.
  - exact (loop_outcome code l l body ns Hb [] [] None [] None eq_refl d_no_iteration d_no_condition H).
  - exact (loop_outcome code l l body ns Hb (TKeyword TIL :: cs) [] None (key TIL :: map bare cs) _ eq_refl d_no_iteration Ht H).
  - exact (loop_outcome code l l body ns Hb [TKeyword UPPIN; TKeyword YR; name_ v] [key UPPIN; key YR; bare (name_ v)] _ [] None eq_refl Hu d_no_condition H).
  - exact (loop_outcome code l l body ns Hb ([TKeyword UPPIN; TKeyword YR; name_ v; TKeyword TIL] ++ cs) [key UPPIN; key YR; bare (name_ v)] _ (key TIL :: map bare cs) _ eq_refl Hu Ht H).
Qed.

(** ** A value after a parameter *)
Theorem numbered_parameter f x n more ls code :
  source_with (([TKeyword HOW_IZ_I; name_ f; TKeyword YR; name_ x; value_ n] ++ more) :: ls) code ->
  forall b, tokenize_and_parse code = ApiOk b -> exists t us ns,
  b = ASTBlock (NASTError (TooManyTokens (t :: us)) :: ns) /\ tok_type t = value_ n.
Proof.
  intros (ts & Et & El) b H. unfold tokenize_and_parse in H. rewrite Et in H.
  destruct (parse ts) as [[ns]| |] eqn:Ep; try discriminate. injection H as <-.
  apply RecoveryProps.parse_nodes in Ep as (p & Ep).
  destruct (logical_lines ts) as [|l ls']; [discriminate|]. cbn [map] in El. injection El as El _.
  destruct l as [|t1 [|t2 [|t3 [|t4 [|t5 us]]]]]; try discriminate. cbn [map app] in El.
  injection El as E1 E2 E3 E4 E5 _.
  assert (S : r_stmt (t1 :: [t2; t3; t4; t5] ++ us) ls' (Err (TooManyTokens (t5 :: us)) (line_of ls'))).
  { apply (r_function_junk t1 ([t2; t3; t4; t5] ++ us) ls' (mkIdentifier t2 None) [mkIdentifier t4 None] t5 us E1).
    assert (B : forall k, ~ begins (kw k) (t5 :: us)).
    { intros k (u & c & [= <- <-] & Hk). unfold kw, value_ in *. congruence. }
    exists [t2], [t3; t4]. split; [reflexivity|]. split; [constructor; now exists f|].
    split; [apply (d_params_last t3 [t4]); [exact E3|constructor; now exists x]|].
    split; intros; apply B. }
  cbn [app] in S.
  destruct (stmt_one_outcome (t1 :: [t2; t3; t4; t5] ++ us) ls' ltac:(discriminate)) as (o & _ & U). cbn [app] in U.
  pose proof (U _ S) as Eo. subst o.
  cbn [line_of] in Ep. inversion Ep as [|? ? ? ? ? ? ? ? Hs Hm E|? ? ? ? ? ? ? ? Hs Hm E|]; subst.
  - apply U in Hs. discriminate.
  - apply U in Hs. injection Hs as -> Hp. destruct o as [ns'| |]; try discriminate. injection H2 as <- _.
    exists t5, us, (left_over r ++ ns'). split; [reflexivity|assumption].
Qed.
