(** Every error with the right shape occurs: proofs for PropErrors.v. *)
From Coq Require Import Lia.
From Verif Require Import Lines LinesSim ParseFuel Clean Shape Unparse ProgComplete ShapeProofs UnparseProofs EqFacts NodeKind LineTrace ProgTrace Free ParserProps RecoveryProps ErrorShapeProofs LinesImage ParserProps2.

Definition here : range := mkRange position_start position_start.
Definition k_ (k : keyword) : token := mkToken (TKeyword k) here.
Definition x_ : token := mkToken (TIdentifier [120%N]) here.
Definition q_ : token := mkToken (TSymbol [63%N]) here.

Lemma x_ident : ident_tok x_.
Proof. exists [120%N]. reflexivity. Qed.
Lemma k_kw k : kw k (k_ k).
Proof. reflexivity. Qed.
Lemma q_question : question_tok q_.
Proof. reflexivity. Qed.
Lemma x_id : d_identifier [x_] (mkIdentifier x_ None).
Proof. constructor. apply x_ident. Qed.
Lemma x_access : d_va [x_] (mkVA (mkIdentifier x_ None) []).
Proof. exact (d_access [x_] _ [] [] x_id d_no_slot). Qed.

Definition v_ : token := mkToken (TValue VNoob) here.

(** ** A program for every error.  The tokens that are not in the error are
    keywords, [x], [?] and [NOOB]; [P] is any property of tokens that these have. *)
Section Occurs.
Variable P : token -> Prop.
Hypothesis Px : P x_.
Hypothesis Pq : P q_.
Hypothesis Pv : P v_.
Hypothesis Pk : forall k, ~ In k [BTW; OBTW; WIN; FAIL; NOOB; ANY_OF] -> P (k_ k).

Definition occurs (e : ast_error) : Prop :=
  exists ls ns, Forall (Forall P) ls /\ program_nodes ls ns /\ In (NASTError e) ns.

Lemma occurs_lines ls ns e : Forall (Forall P) ls -> program_nodes ls ns ->
  In (NASTError e) ns -> occurs e.
Proof.
  intros Hl H Hin. exists ls, ns. auto.
Qed.
(** The program ends after the statement. *)
Lemma occurs_stmt t c ls e r : Forall (Forall P) ((t :: c) :: ls) ->
  r_stmt (t :: c) ls (Err e (r, [])) -> occurs e.
Proof.
  intros Hl H. eapply (occurs_lines _ _ e Hl).
  - eexists. eapply (r_block_err Root t c ls e r [] (Done [] ([], []))); [exact H|].
    apply (r_more_empty Root []). reflexivity.
  - cbn. left. reflexivity.
Qed.
Lemma occurs_line t c e r : Forall P (t :: c) -> fails_stmt (t :: c) (FErr e r) -> occurs e.
Proof.
  intros Hl H. apply (occurs_stmt t c [] e r); [constructor; [exact Hl|constructor]|].
  exact (r_fails (t :: c) [] (FErr e r) H).
Qed.

Ltac inn := repeat (apply Forall_cons || apply Forall_nil);
  solve [assumption | apply Pk; cbn; intuition discriminate].
Ltac off := intros ?; repeat match goal with
  | H : begins _ _ |- _ => destruct H as (?u & ?w & ?E & H); try discriminate; injection E as <- <-
  | H : _ \/ _ |- _ => destruct H as [H|H]
  | H : exists _, _ |- _ => destruct H as [? H]
  | H : _ /\ _ |- _ => destruct H
  | H : block_start _ |- _ => unfold block_start in H
  | H : line_start _ |- _ => unfold line_start, id_start, ident_tok in H
  | H : kw _ ?t, H' : tok_type ?t = _ |- _ => unfold kw in H; congruence
  | H : kw ?a ?t, H' : kw ?b ?t |- _ => assert (a = b) by (exact (kw_unique _ _ _ H H')); discriminate
  end.

Lemma itz_dec t : kw ITZ t \/ ~ kw ITZ t.
Proof. unfold kw. destruct (tok_type t) as [ |k| | | | | | | | | ]; try (right; discriminate). destruct k; auto; right; discriminate. Qed.
Lemma slot_yr_dec t : (slot_tok t \/ kw YR t) \/ ~ (slot_tok t \/ kw YR t).
Proof.
  unfold kw, slot_tok. destruct (tok_type t) as [ |k| | | | | | | | | ];
    try (right; intros [|]; discriminate); try (left; left; reflexivity).
  destruct k; try (right; intros [|]; discriminate). left. right. reflexivity.
Qed.
Lemma itz_plain t : kw ITZ t -> ~ starts_expr t /\ ~ kw MAEK t.
Proof.
  intros H. unfold kw in H. split; [|unfold kw; congruence].
  intros [[v E]|[E|[[[v E]|E]|[(k & op & Hop & E)|[E|(k & op & Hop & E)]]]]]; unfold kw in *; try congruence;
    destruct Hop; congruence.
Qed.
Lemma no_begin (p : token -> Prop) : ~ begins p [].
Proof. intros (t & r & E & _). discriminate. Qed.
Lemma header_x : loop_header [x_] x_ None None [].
Proof.
  exists [], []. repeat split; try constructor; try apply x_ident; try (intros _; apply no_begin); try contradiction.
  intros [_ H]. exact (no_begin _ H).
Qed.
Lemma function_x : function_header [x_] (mkIdentifier x_ None) [] [].
Proof.
  exists [x_], []. split; [reflexivity|]. split; [apply x_id|]. split; [constructor|]. split; [intros _; apply no_begin|].
  congruence.
Qed.
Lemma empty_block k : r_block k ([], []) (Done [] ([], [])).
Proof. apply r_block_empty, (r_more_empty k []). reflexivity. Qed.
Lemma empty_block_at k t c ls : closes k t -> r_block k ([], (t :: c) :: ls) (Done [] (t :: c, ls)).
Proof. intros H. apply r_block_empty, r_more_close, H. Qed.

Lemma occurs_all e : error_shape e -> Forall P (error_tokens e) -> occurs e.
Proof.
  destruct e as [t|ts|[t|t|t]|[t|t]|[t]|t|[t|t]|t|[t]|[t|t|t|t|t|t|t|t|t|t]|[t|t|t]]; intros H Hi; cbn [error_shape] in H;
    try contradiction; cbn [error_tokens] in Hi.
  all: try (apply Forall_cons_iff in Hi as [Hi _]).
  - (* UnexpectedToken *)
    destruct (itz_dec t) as [Ht|Ht].
    + apply (occurs_line (k_ FOUND_YR) [t] _ []); [inn|]. apply f_found_yr; [apply k_kw|]. constructor 2. constructor; apply itz_plain, Ht.
    + apply (occurs_line (k_ I_HAS_A) [x_; t] _ []); [inn|].
      apply (f_i_has_a_initial (k_ I_HAS_A) [x_] (mkIdentifier x_ None) [t]); [apply k_kw|apply x_id|]. constructor. exact Ht.
  - (* TooManyTokens *)
    apply (occurs_lines [k_ KTHXBYE :: ts] ([NKThxBye (mkKthxbye (k_ KTHXBYE))] ++ left_over ts)).
    + constructor; [|constructor]. constructor; [inn|exact Hi].
    + exists ([], []). pose proof (r_block_done Root (k_ KTHXBYE) ts [] (NKThxBye (mkKthxbye (k_ KTHXBYE))) ts [] (Done [] ([], []))) as R.
      cbn [omap] in R. rewrite app_nil_r in R. apply R.
      * apply r_reads. exists [k_ KTHXBYE]. split; [reflexivity|]. split; [constructor; reflexivity|]. split; [contradiction|].
        intros [E _]. destruct E as (us & u & E & Eu). destruct us as [|? [|? ?]]; try discriminate.
        injection E as <-. destruct Eu as [? Eu]. discriminate.
      * apply (r_more_empty Root []). reflexivity.
    + apply in_app_iff. right. destruct ts; [congruence|]. left. reflexivity.
  - apply (occurs_line (k_ I_HAS_A) [t] _ []); [inn|]. apply f_i_has_a_name; [apply k_kw|exact H].
  - apply (occurs_line t [] _ []); [inn|]. apply f_i_has_a_end, H.
  - apply (occurs_line (k_ I_HAS_A) [x_; t] _ []); [inn|].
    apply (f_i_has_a_initial (k_ I_HAS_A) [x_] (mkIdentifier x_ None) [t]); [apply k_kw|apply x_id|].
    apply x_initial_expr; [exact H|apply no_begin|constructor].
  - (* ExpectedValue *)
    destruct H as [H|H].
    + apply (occurs_line x_ [t] _ []); [inn|]. apply (f_assignment [x_] _ t [] _ x_access H). constructor.
    + apply (occurs_line x_ [t] _ []); [inn|]. apply (f_set_slot [x_] _ t [] _ x_access H). constructor.
  - (* MissingOperands *)
    apply (occurs_line t [] _ []); [inn|]. apply f_expression.
    + destruct H as [(k & op & Hop & Hk)|H]; [destruct Hop|]; off.
    + destruct H as [(k & op & Hop & Hk)|H]; [destruct Hop|]; off.
    + destruct H as [H|H]; [apply x_binary_left_missing|apply x_not_missing]; exact H.
  - (* MissingToken *)
    destruct H as [H|[H|[H|[H|[H|[H|[H|H]]]]]]].
    + apply (occurs_line t [] _ []); [inn|]. apply f_va; [exists t, []; split; [reflexivity|right; exact H]|].
      constructor. constructor. exact H.
    + apply (occurs_line x_ [t] _ []); [inn|]. apply f_va; [exists x_, [t]; split; [reflexivity|left; apply x_ident]|].
      exact (x_va_end [x_] _ t x_access H).
    + apply (occurs_line x_ [k_ HAS_A; t] _ []); [inn|]. apply (f_set_slot [x_] _ (k_ HAS_A) [t] _ x_access (k_kw _)).
      apply (x_slot_no_itz _ [t] (mkIdentifier t None)). constructor. exact H.
    + apply (occurs_line x_ [k_ HAS_A; x_; t] _ []); [inn|].
      apply (f_set_slot [x_] _ (k_ HAS_A) [x_; t] _ x_access (k_kw _)).
      apply (x_slot_value _ [x_] _ t [] _ x_id H). constructor.
    + apply (occurs_line t [] _ []); [inn|]. apply f_gimmeh_end, H.
    + apply (occurs_line t [] _ []); [inn|]. apply f_found_yr; [exact H|constructor].
    + apply (occurs_stmt (k_ HOW_IZ_I) [x_; t] [] _ []); [constructor; [inn|constructor]|].
      apply (r_function_header (k_ HOW_IZ_I) [x_; t] [] (FErr (MissingToken t) [])); [apply k_kw|].
      apply (x_function_params _ [x_] _ [t] _ x_id). constructor. exact H.
    + apply (occurs_stmt (k_ WTF) [q_] [[t]] _ []); [constructor; [inn|constructor; [inn|constructor]]|].
      eapply r_wtf_cases; [apply k_kw|apply q_question| |apply aborts_err].
      apply (r_cases_expr OMG MissingToken SwitchBody t [] (FErr (MissingToken t) [])); [exact H|constructor].
  - (* MissingQuestionMark *)
    destruct H as [H|H]; (apply (occurs_stmt t [] [] _ []); [constructor; [inn|constructor]|]).
    + exact (r_wtf_question t [] [] _ H (x_question_end t)).
    + exact (r_o_rly_question t [] [] _ H (x_question_end t)).
  - (* MissingMebbeExpression *)
    apply (occurs_stmt (k_ O_RLY) [q_] [[t]] _ []); [constructor; [inn|constructor; [inn|constructor]]|].
    eapply r_o_rly_mebbes; [apply k_kw|apply q_question| | |apply aborts_err].
    + apply r_section_none. off.
    + apply (r_cases_expr MEBBE _ IfBody t [] (FErr (EORly (MissingMebbeExpression t)) [])); [exact H|constructor].
  - (* MissingBlockClosingToken *)
    destruct H as [H|[H|H]].
    + apply (occurs_stmt t [x_] [] _ []); [constructor; [inn|constructor]|].
      eapply r_function_unclosed; [exact H|apply function_x|apply empty_block].
    + apply (occurs_stmt t [q_] [] _ []); [constructor; [inn|constructor]|].
      eapply r_wtf_closing; [exact H|apply q_question| | |apply closing_missing|apply aborts_err].
      * apply r_cases_none, no_begin.
      * apply r_section_none, no_begin.
    + apply (occurs_stmt t [q_] [] _ []); [constructor; [inn|constructor]|].
      eapply r_o_rly_closing; [exact H|apply q_question| | | |apply closing_missing|apply aborts_err].
      * apply r_section_none, no_begin.
      * apply r_cases_none, no_begin.
      * apply r_section_none, no_begin.
  - apply (occurs_stmt t [] [] _ []); [constructor; [inn|constructor]|].
    exact (r_function_header t [] [] _ H (x_function_end t)).
  - (* MissingYr *)
    apply (occurs_stmt (k_ IM_IN_YR) [x_; k_ UPPIN; t] [] _ []); [constructor; [inn|constructor]|].
    apply (r_loop_header (k_ IM_IN_YR) [x_; k_ UPPIN; t] [] (FErr (EImInYr (MissingYr t)) [])); [apply k_kw|].
    apply x_loop_iteration; [apply x_ident|]. constructor; [left; apply k_kw|exact H].
  - apply (occurs_stmt t [] [] _ []); [constructor; [inn|constructor]|].
    exact (r_loop_header t [] [] _ H (x_loop_end t)).
  - apply (occurs_stmt (k_ IM_IN_YR) [t] [] _ []); [constructor; [inn|constructor]|].
    exact (r_loop_header (k_ IM_IN_YR) [t] [] _ (k_kw _) (x_loop_label _ t [] H)).
  - (* MissingEndLabel *)
    apply (occurs_stmt (k_ IM_IN_YR) [x_] [[]; [t]] _ []);
      [constructor; [inn|constructor; [inn|constructor; [inn|constructor]]]|].
    eapply r_loop_no_label; [apply k_kw|apply header_x|]. apply empty_block_at. exact H.
  - apply (occurs_stmt (k_ IM_IN_YR) [x_] [[]; [k_ IM_OUTTA_YR; t]] _ []);
      [constructor; [inn|constructor; [inn|constructor; [inn|constructor]]]|].
    eapply r_loop_bad_label; [apply k_kw|apply header_x| |exact H]. apply empty_block_at. apply k_kw.
  - apply (occurs_stmt t [x_] [] _ []); [constructor; [inn|constructor]|].
    eapply r_loop_unclosed; [exact H|apply header_x|apply empty_block].
  - (* MissingOperand *)
    apply (occurs_stmt (k_ IM_IN_YR) [x_; t] [] _ []); [constructor; [destruct H; inn|constructor]|].
    apply (r_loop_header (k_ IM_IN_YR) [x_; t] [] (FErr (EImInYr (MissingOperand t)) [])); [apply k_kw|].
    apply x_loop_iteration; [apply x_ident|]. constructor. exact H.
  - apply (occurs_stmt (k_ IM_IN_YR) [x_; t] [] _ []); [constructor; [destruct H; inn|constructor]|].
    apply (r_loop_header (k_ IM_IN_YR) [x_; t] [] (FErr (EImInYr (MissingConditionalExpression t)) [])); [apply k_kw|].
    apply (x_loop_condition _ x_ [] None [t]); [apply x_ident|constructor|]. constructor; [exact H|constructor].
  - apply (occurs_line t [] _ []); [inn|]. apply f_i_iz_end, H.
  - apply (occurs_line (k_ I_IZ) [x_; t] _ []); [inn|].
    apply (f_i_iz_args (k_ I_IZ) [x_] (mkVA (mkIdentifier x_ None) []) [t]); [apply k_kw|apply x_access| |].
    + intros (u & r & E & Hu). injection E as <- <-. unfold kw, slot_tok in *. congruence.
    + apply x_args_expr; [exact H|constructor].
  - (* MissingMkay *)
    destruct (slot_yr_dec t) as [Ht|Ht].
    + apply (occurs_line (k_ I_IZ) [x_; k_ YR; v_; t] _ []); [inn|].
      apply (f_i_iz_args (k_ I_IZ) [x_] (mkVA (mkIdentifier x_ None) []) [k_ YR; v_; t]); [apply k_kw|apply x_access| |].
      { intros (u & r & E & Hu). injection E as <- <-. discriminate. }
      apply (x_args_last _ (k_ YR) false [v_] (Value (LiteralValue v_)) [t]); [apply k_kw| | | |constructor; exact H].
      * constructor. exists VNoob. reflexivity.
      * split; [discriminate|]. intros [(us & u & E & Eu) _]. destruct us as [|? [|? ?]]; try discriminate.
        injection E as <-. destruct Eu as [? Eu]. discriminate.
      * intros (u & r & E & Hu). injection E as <- <-. unfold kw, slot_tok in *. destruct Ht; congruence.
    + apply (occurs_line (k_ I_IZ) [x_; t] _ []); [inn|].
      apply (f_i_iz_args (k_ I_IZ) [x_] (mkVA (mkIdentifier x_ None) []) [t]); [apply k_kw|apply x_access| |].
      * intros (u & r & E & Hu). injection E as <- <-. tauto.
      * apply x_args_stop; [|constructor; exact H]. intros (u & r & E & Hu). injection E as <- <-. tauto.
Qed.
End Occurs.

(** ** The tokens of errors are those of logical lines *)
Lemma all_in_flat {A B} (f : A -> list B) x l : In x l -> incl (f x) (flat_map f l).
Proof. intros H y Hy. apply in_flat_map. eauto. Qed.
Lemma block_in b m : all_nodes (fun n => In m (node_all n) -> incl (node_tokens m) (node_tokens n)) b ->
  In m (block_all b) -> incl (node_tokens m) (block_tokens b).
Proof.
  destruct b as [ns]. unfold all_nodes. cbn [block_nodes block_all block_tokens]. intros H Hin.
  apply in_flat_map in Hin as (n & Hn & Hm). rewrite Forall_forall in H.
  eapply incl_tran; [exact (H n Hn Hm)|]. apply all_in_flat, Hn.
Qed.
Lemma node_in m n : In m (node_all n) -> incl (node_tokens m) (node_tokens n).
Proof.
  induction n as [t l it c b e Hb|t omgs d Ho Hd|t yes no mebbes Hy Hn Hm|t i params b Hb|n Hn] using node_ind'.
  - intros [<-|H]; [apply incl_refl|]. apply (block_in b m Hb) in H. intros x Hx. cbn [node_tokens im_in_yr_tokens].
    right. right. rewrite !in_app_iff. auto.
  - intros [<-|H]; [apply incl_refl|]. cbn [node_tokens wtf_tokens]. apply in_app_iff in H as [H|H].
    + apply in_flat_map in H as ([t' e' b'] & Hx & H). rewrite Forall_forall in Ho. apply (block_in b' m (Ho _ Hx)) in H.
      intros y Hy. right. apply in_app_iff. left. apply in_flat_map. exists (WtfOmg t' e' b'). split; [exact Hx|].
      cbn [wtf_omg_tokens]. right. apply in_app_iff. auto.
    + destruct d as [[t' b']|]; [|contradiction]. apply (block_in b' m Hd) in H. intros y Hy. right. apply in_app_iff. right.
      cbn [wtf_omg_wtf_tokens]. right. auto.
  - intros [<-|H]; [apply incl_refl|]. cbn [node_tokens o_rly_tokens]. rewrite !in_app_iff in H. destruct H as [H|[H|H]].
    + destruct yes as [[t' b']|]; [|contradiction]. apply (block_in b' m Hy) in H. intros y Hy'. right. apply in_app_iff. left.
      cbn [ya_rly_tokens]. right. auto.
    + apply in_flat_map in H as ([t' e' b'] & Hx & H). rewrite Forall_forall in Hm. apply (block_in b' m (Hm _ Hx)) in H.
      intros y Hy'. right. rewrite !in_app_iff. right. left. apply in_flat_map. exists (Mebbe t' e' b'). split; [exact Hx|].
      cbn [mebbe_tokens]. right. apply in_app_iff. auto.
    + destruct no as [[t' b']|]; [|contradiction]. apply (block_in b' m Hn) in H. intros y Hy'. right. rewrite !in_app_iff. right. right.
      cbn [no_wai_tokens]. right. auto.
  - intros [<-|H]; [apply incl_refl|]. apply (block_in b m Hb) in H. intros x Hx. cbn [node_tokens how_iz_i_tokens].
    right. rewrite !in_app_iff. auto.
  - intros H. destruct n; try contradiction; destruct H as [<-|[]]; apply incl_refl.
Qed.
Lemma error_in b e : In e (block_errors b) -> incl (error_tokens e) (block_tokens b).
Proof.
  intros H. unfold block_errors in H. apply in_flat_map in H as (n & Hn & He).
  destruct n; try contradiction. destruct He as [<-|[]].
  apply (block_in b (NASTError x)); [|exact Hn]. apply Forall_forall. intros n _. apply node_in.
Qed.
Lemma parse_inner ts b : parse ts = ParseOk b -> Forall inner (block_tokens b).
Proof.
  rewrite parse_logical_lines. unfold parse_logical. intros H.
  pose proof (root_ok (logical_lines ts) (lsum (logical_lines ts) + 4)) as R. rewrite H in R. destruct R as [R _].
  apply Forall_forall. intros t Ht. apply (subseq_incl _ _ R) in Ht. apply in_concat in Ht as (l & Hl & Ht).
  pose proof (proj1 (lines_image (logical_lines ts)) (ex_intro _ ts eq_refl)) as F.
  rewrite Forall_forall in F. specialize (F l Hl). rewrite Forall_forall in F. auto.
Qed.

Theorem errors_image e :
  (exists ts b, parse ts = ParseOk b /\ In e (block_errors b)) <-> error_shape e /\ Forall inner (error_tokens e).
Proof.
  split.
  2:{ intros [H Hi]. destruct (occurs_all inner) with (e := e) as (ls & ns & HP & Hn & Hin); try assumption; try (intros; split; discriminate).
      apply lines_image in HP as [ts <-]. exists ts, (ASTBlock ns). split; [apply RecoveryProps.parse_nodes, Hn|].
      unfold block_errors. apply in_flat_map. exists (NASTError e). split; [|left; reflexivity].
      cbn [block_all]. apply in_flat_map. exists (NASTError e). split; [exact Hin|left; reflexivity]. }
  intros (ts & b & H & He). split; [eapply errors_have_their_shape; eassumption|].
  apply Forall_forall. intros t Ht. apply (error_in b e He) in Ht. apply parse_inner in H. rewrite Forall_forall in H. auto.
Qed.

(** ** The error-free ASTs of token vectors *)
Lemma made_up_inner : Forall inner made_up.
Proof. unfold made_up. cbn [map]. repeat constructor; discriminate. Qed.
Theorem clean_image ns :
  (exists ts, parse ts = ParseOk (ASTBlock ns)) /\ forallb node_clean ns = true <->
  Forall node_shape ns /\ forallb node_clean ns = true /\ Forall inner (block_tokens (ASTBlock ns)).
Proof.
  split.
  - intros [(ts & H) HC]. split; [|split; [exact HC|exact (parse_inner ts _ H)]].
    apply block_shape_eq. exact (parse_shape ts _ H).
  - intros (HS & HC & HI). split; [|exact HC].
    assert (F : Forall (Forall inner) (unparse_nodes ns)) by (apply Q_nodes; [exact made_up_inner|exact HI]).
    apply lines_image in F as [ts E]. exists ts. rewrite parse_logical_lines, E.
    apply program_iff. apply unparse_program; assumption.
Qed.
