(** Formatting a source and parsing the result gives the AST again. *)
From Coq Require Import String Lia Sorted.
From Verif Require Import Lexer Parser ExprGrammar EqFacts RelabelTokens RelabelProofs Clean ParseFuel ProgComplete RecoveryProps
  Recovery LinesSim Lines LineTrace ProgTrace ParserProps ParserProps2 StrFacts LexBasics LexProofs LexProps LexProps2 LexProps3 Api
  Grammar Shape ShapeProofs Unparse UnparseProofs SourceProofs Format.

(** ** The tokens of a node *)
Section Plain.
Variable P : token -> Prop.
Hypothesis HK : forall k t, kw k t -> P t.
Hypothesis HI : forall t, ident_tok t -> P t.
Hypothesis HS : forall t, slot_tok t -> P t.
Hypothesis HV : forall t, value_tok t -> P t.
Hypothesis HE : forall t, exclamation_tok t -> P t.

Lemma p_opt k o : opt_kw k o -> Forall P (opt_token o).
Proof. destruct o; cbn; intros H; [constructor; eauto|constructor]. Qed.
Lemma p_identifier i : identifier_shape i -> Forall P (identifier_tokens i).
Proof.
  destruct i as [n [s|]]; intros [H1 H2]; cbn in *; [constructor; [apply (HK SRS), H2|]|]; constructor; auto.
Qed.
Lemma p_va v : va_shape v -> Forall P (va_tokens v).
Proof.
  destruct v as [i sl]. intros [H1 H2]. cbn in *. unfold va_tokens. apply Forall_app. split; [apply p_identifier, H1|].
  cbn. induction H2 as [|s sl [H3 H4] H2 IH]; [constructor|]. cbn [flat_map]. apply Forall_app. split; [|exact IH].
  unfold slot_tokens. constructor; [auto|apply p_identifier, H4].
Qed.
Lemma p_expr : forall e, expr_shape e -> Forall P (expr_tokens e).
Proof.
  intros e He. assert (HD : d_expr (unclosed e) (expr_tokens e) e) by (apply expr_iff; auto).
  revert HD. generalize (unclosed e) (expr_tokens e). clear He. intros o ts HD.
  assert (H : (forall o ts e, d_expr o ts e -> Forall P ts) /\ (forall ts es, d_operands ts es -> Forall P ts)).
  { apply d_expr_mut.
    - intros; constructor; [auto|constructor].
    - intros; constructor; [eauto|constructor].
    - intros ? ? H. apply va_iff in H as [-> H]. apply p_va, H.
    - intros k op t o' ls l ans an rs r B K D1 I1 O D2 I2. constructor; [eauto|]. rewrite !Forall_app.
      split; [exact I1|split; [|exact I2]]. destruct O; repeat constructor; eauto.
    - intros; constructor; eauto.
    - intros; constructor; [eauto|]; apply Forall_app; split; [assumption|constructor; [eauto|constructor]].
    - intros; constructor; eauto.
    - intros; constructor; [eauto|]; apply Forall_app; split; assumption.
    - constructor.
    - intros ts' e' ans an us es D1 I1 O D2 I2. rewrite !Forall_app. split; [exact I1|split; [|exact I2]].
      destruct O; repeat constructor; eauto. }
  exact (proj1 H _ _ _ HD).
Qed.
Lemma p_closed es : closed_exprs es -> Forall P (flat_map expr_tokens es).
Proof. induction 1 as [|e es [He _] _ IH]; cbn; [constructor|]. apply Forall_app. auto using p_expr. Qed.
Lemma p_exprs es : exprs_shape es -> Forall P (flat_map expr_tokens es).
Proof. induction es as [|e es IH]; cbn; [constructor|]. intros (H1 & _ & H2). apply Forall_app. auto using p_expr. Qed.
Lemma p_identifiers es : Forall identifier_shape es -> Forall P (flat_map identifier_tokens es).
Proof. induction 1 as [|e es He _ IH]; cbn; [constructor|]. apply Forall_app. auto using p_identifier. Qed.
Lemma p_initial i : initial_shape i -> Forall P (initial_tokens i).
Proof.
  destruct i as [[e|ty]|]; cbn; [intros [H _]; apply p_expr, H| |constructor].
  destruct ty; cbn; intros H; constructor; eauto.
Qed.
Lemma p_iteration i : iteration_shape i -> Forall P (iteration_tokens i).
Proof.
  destruct i as [[[t|t] v]|]; cbn; [| |constructor]; intros [H1 H2]; constructor; eauto using p_va.
Qed.
Lemma p_condition i : condition_shape i -> Forall P (condition_tokens i).
Proof. destruct i as [[e|e]|]; cbn; [apply p_expr|apply p_expr|constructor]. Qed.

Definition p_ok (n : node) : Prop :=
  node_shape n -> node_clean n = true -> Forall P (flat_map version_tokens (node_all n)) -> Forall P (node_tokens n).
Lemma p_block b : all_nodes p_ok b -> block_shape b -> block_clean b = true -> Forall P (versions b) ->
  Forall P (block_tokens b).
Proof.
  destruct b as [ns]. unfold all_nodes, versions. cbn [block_nodes block_tokens block_all]. rewrite block_shape_eq.
  change (block_clean (ASTBlock ns)) with (forallb node_clean ns).
  induction 1 as [|n ns Hn _ IH]; cbn [flat_map forallb]; [constructor|]. rewrite Forall_cons_iff, flat_map_app, !Forall_app.
  intros [S1 S2] C [V1 V2]. apply andb_prop in C as [C1 C2]. auto.
Qed.
Lemma p_node n : p_ok n.
Proof.
  induction n as [t l it c b e Hb|t omgs d Ho Hd|t yes no mebbes Hy Hn Hm|t i params b Hb|n Hn] using node_ind';
    unfold p_ok; intros SH HC HT.
  - cbn [node_shape im_in_yr_shape] in SH. destruct SH as (H1 & H2 & H3 & H4 & H5 & H6).
    cbn [node_clean im_in_yr_clean] in HC. cbn [node_all flat_map version_tokens app] in HT.
    cbn [node_tokens im_in_yr_tokens]. constructor; [eauto|]. constructor; [auto|]. rewrite !Forall_app.
    splits; auto using p_iteration, p_condition. apply p_block; assumption.
  - cbn [node_shape wtf_shape] in SH. rewrite omgs_shape_eq in SH. destruct SH as (H1 & H2 & H3).
    cbn [node_clean wtf_clean] in HC. apply andb_prop in HC as [C1 C2].
    cbn [node_all flat_map version_tokens app] in HT. rewrite flat_map_app, Forall_app in HT. destruct HT as [T1 T2].
    cbn [node_tokens wtf_tokens]. constructor; [eauto|]. apply Forall_app. split.
    + induction Ho as [|[u e b] omgs Hb Hbs IH]; [constructor|].
      apply Forall_cons_iff in H2 as [(H21 & H22 & H23) H2]. cbn in C1. apply andb_prop in C1 as [C11 C1].
      cbn [flat_map] in T1. rewrite flat_map_app, Forall_app in T1. destruct T1 as [T11 T1].
      cbn [flat_map wtf_omg_tokens]. apply Forall_app. split; [|auto]. constructor; [eauto|]. apply Forall_app.
      split; [apply p_expr, H22|apply p_block; assumption].
    + destruct d as [[u b]|]; [|constructor]. destruct H3 as [H31 H32]. cbn [wtf_omg_wtf_tokens].
      constructor; [eauto|apply p_block; assumption].
  - cbn [node_shape o_rly_shape] in SH. rewrite mebbes_shape_eq in SH. destruct SH as (H1 & H2 & H3 & H4).
    cbn [node_clean o_rly_clean] in HC. apply andb_prop in HC as [C1 C3]. apply andb_prop in C1 as [C1 C2].
    cbn [node_all flat_map version_tokens app] in HT. rewrite !flat_map_app, !Forall_app in HT. destruct HT as (T1 & T2 & T3).
    cbn [node_tokens o_rly_tokens]. constructor; [eauto|]. rewrite !Forall_app. split; [|split].
    + destruct yes as [[u b]|]; [|constructor]. destruct H2 as [H21 H22]. cbn [ya_rly_tokens].
      constructor; [eauto|apply p_block; assumption].
    + induction Hm as [|[u e b] omgs Hb Hbs IH]; [constructor|].
      apply Forall_cons_iff in H4 as [(H41 & H42 & H43) H4]. cbn in C3. apply andb_prop in C3 as [C31 C3].
      cbn [flat_map] in T2. rewrite flat_map_app, Forall_app in T2. destruct T2 as [T21 T2].
      cbn [flat_map mebbe_tokens]. apply Forall_app. split; [|auto]. constructor; [eauto|]. apply Forall_app.
      split; [apply p_expr, H42|apply p_block; assumption].
    + destruct no as [[u b]|]; [|constructor]. destruct H3 as [H31 H32]. cbn [no_wai_tokens].
      constructor; [eauto|apply p_block; assumption].
  - cbn [node_shape how_iz_i_shape] in SH. destruct SH as (H1 & H2 & H3 & H4).
    cbn [node_clean how_iz_i_clean] in HC. cbn [node_all flat_map version_tokens app] in HT.
    cbn [node_tokens how_iz_i_tokens]. constructor; [eauto|]. rewrite !Forall_app.
    splits; auto using p_identifier, p_identifiers. apply p_block; assumption.
  - destruct n as [[t i v]|[t v]|x|[v i e]|[v e r]|[t es [x|]]|[t e]|x|x|[t v es]|x|[t]|[t v]|e|x|[t]];
      try (exact (False_ind _ Hn)); try discriminate HC; cbn [node_shape] in SH; cbn in SH; cbn [node_tokens].
    + destruct SH as (H1 & H2 & H3). unfold i_has_a_tokens. cbn. constructor; [eauto|]. apply Forall_app.
      auto using p_identifier, p_initial.
    + cbn [node_all flat_map version_tokens hai_version app] in HT. rewrite app_nil_r in HT.
      unfold hai_tokens. cbn. constructor; [eauto|exact HT].
    + destruct SH as (H1 & H2 & H3). unfold set_slot_tokens. cbn. rewrite !Forall_app.
      auto using p_va, p_identifier, p_expr.
    + destruct SH as (H1 & H2 & H3). unfold assignment_tokens. cbn. rewrite Forall_app, Forall_cons_iff.
      split; [auto using p_va|]. split; [eauto|auto using p_expr].
    + destruct SH as (H1 & H2 & H3). unfold visible_tokens. cbn. constructor; [eauto|]. apply Forall_app.
      split; [apply p_closed, H3|constructor; [auto|constructor]].
    + destruct SH as (H1 & H2). unfold visible_tokens. cbn. rewrite app_nil_r. constructor; [eauto|]. apply p_exprs, H2.
    + destruct SH as (H1 & H2). unfold found_yr_tokens. cbn. constructor; [eauto|]. apply p_expr, H2.
    + destruct SH as (H1 & H2 & H3). unfold i_iz_tokens. cbn. constructor; [eauto|]. apply Forall_app.
      auto using p_va, p_closed.
    + constructor; [eauto|constructor].
    + destruct SH as (H1 & H2). unfold gimmeh_tokens. cbn. constructor; [eauto|]. apply p_va, H2.
    + apply p_expr, SH.
    + constructor; [eauto|constructor].
Qed.
Lemma p_nodes ns : Forall node_shape ns -> forallb node_clean ns = true -> Forall P (versions (ASTBlock ns)) ->
  Forall P (block_tokens (ASTBlock ns)).
Proof.
  intros SH HC HT. apply p_block; auto; [|apply block_shape_eq, SH]. apply Forall_forall. intros n _. apply p_node.
Qed.
End Plain.

(** ** The texts of tokens *)
Lemma slice_raw code t a raw b : code = a ++ raw ++ b -> chars (start_of t) = Z.of_nat (length a) ->
  chars (end_of t) = Z.of_nat (length (a ++ raw)) -> slice code t = raw.
Proof.
  intros -> Hs He. unfold slice. rewrite Hs, He, app_length.
  replace (Z.to_nat (Z.of_nat (length a))) with (length a) by lia.
  replace (Z.to_nat (Z.of_nat (length a + length raw) - Z.of_nat (length a))) with (length raw + 0) by lia.
  rewrite skipn_app, skipn_all, Nat.sub_diag. cbn [app skipn].
  rewrite firstn_app_2. cbn. apply app_nil_r.
Qed.
Lemma slice_at code ts t a raw b : tokenize code = LexOk ts -> In t ts -> token_at code t a raw b -> slice code t = raw.
Proof.
  intros E Hin Hat. destruct (token_positions _ _ _ _ _ _ E Hin Hat) as [Hs He]. destruct Hat as (Hcode & _ & _).
  apply (slice_raw _ _ a raw b Hcode); [rewrite Hs|rewrite He]; reflexivity.
Qed.

Lemma source_writes code ts t : ascii_str code -> ~ ends_with_colon code -> tokenize code = LexOk ts -> In t ts ->
  plain_version t -> Writes (tok_type t) (source_text code t).
Proof.
  intros Ha Hc E Hin HP. unfold source_text, plain_version in *.
  destruct (tok_type t) as [s|k|s|[n|s|[|]|]|s|s| | | | |] eqn:Et; try (constructor; fail).
  - destruct (LexProps2.identifier_tokens _ _ _ _ E Hin Et) as (a & b & _ & Hne & Hl & _ & Hk). constructor; auto.
    intros k (u & ->). apply (Hk k). exists (u ++ b). rewrite app_assoc. reflexivity.
  - constructor. intros Hk. exact (keywords_never_produced _ _ _ _ E Hin Hk Et).
  - destruct (token_tok_text _ _ _ E Hin) as (ps & a & raw & b & _ & _ & Hat & HT). rewrite Et in HT.
    inversion HT as [| | | | | | | | | | | | | |c rest H1 H2 H3 H4 H5 H6 H7 H8 H9 H10]; subst. constructor; auto.
  - destruct (number_tokens _ _ _ _ E Hin Et) as (a & raw & b & Hat & HN).
    rewrite (slice_at _ _ _ _ _ _ E Hin Hat). destruct HN; constructor; assumption.
  - destruct (string_tokens_ascii _ _ _ _ Ha E Hin Et) as (a & raw & b & (Hcode & _) & [[-> HB]|(-> & -> & HB)]); subst code.
    + constructor; [|exact HB]. rewrite !ascii_app, ascii_cons, !ascii_app in Ha. tauto.
    + constructor.
      * rewrite !ascii_app, ascii_cons in Ha. tauto.
      * split; [exact HB|]. intros (x & ->). apply Hc. exists (a ++ quote :: x). rewrite app_nil_r, <- app_assoc. reflexivity.
  - destruct HP.
  - destruct (multi_comment_tokens _ _ _ _ E Hin Et) as (a & b & _ & H). constructor. intros x y Ex.
    pose proof (H _ _ Ex). subst. apply app_inv_head in Ex. destruct y; [reflexivity|].
    apply (f_equal (@length _)) in Ex. rewrite app_length in Ex. cbn in Ex. lia.
  - destruct (no_question_mark _ _ _ E Hin Et).
Qed.

(** ** The tokens on the lines *)
Definition on_line (t : token) : bool := negb (is_comma t) && negb (is_ellipsis t).
Lemma comma_chunk ts : Forall (fun g => existsb is_comma g = true -> exists t, g = [t] /\ is_comma t = true) (chunks ts).
Proof.
  induction ts as [|t ts IH]; [constructor|]. cbn [chunks].
  assert (H1 : existsb is_comma [t] = true -> exists u, [t] = [u] /\ is_comma u = true).
  { cbn. intros H. exists t. rewrite orb_false_r in H. auto. }
  destruct (chunks ts) as [|[|u g] gs]; [constructor; [exact H1|constructor]|constructor; [exact H1|constructor]|].
  destruct (joined t u) eqn:J; [|constructor; [exact H1|exact IH]].
  apply Forall_cons_iff in IH as [IH1 IH]. constructor; [|exact IH].
  unfold joined in J. apply andb_prop in J as [J _]. apply andb_prop in J as [J1 J2].
  apply negb_true_iff in J1. apply negb_true_iff in J2. intros H. cbn [existsb] in *. rewrite J1, J2 in H. cbn [orb] in H.
  cbn [existsb] in IH1. rewrite J2 in IH1. destruct (IH1 H) as (v & E & Hv). injection E as -> _. congruence.
Qed.
Lemma filter_filter {A} (p q : A -> bool) l : filter p (filter q l) = filter (fun x => q x && p x) l.
Proof.
  induction l as [|x l IH]; [reflexivity|]. cbn. destruct (q x); cbn; [destruct (p x)|]; rewrite ?IH; reflexivity.
Qed.
Lemma statements_tokens ts : concat (statements ts) = filter on_line ts.
Proof.
  unfold statements. rewrite <- (ParseFuel.chunks_concat ts) at 2. induction (comma_chunk ts) as [|g gs Hg _ IH]; [reflexivity|].
  cbn [filter concat]. rewrite filter_app. destruct (existsb is_comma g) eqn:E; cbn [negb].
  - destruct (Hg eq_refl) as (t & -> & Ht). cbn [filter]. unfold on_line at 1. rewrite Ht. cbn. exact IH.
  - cbn [map concat]. rewrite IH. f_equal. clear Hg IH. induction g as [|t g IHg]; [reflexivity|].
    cbn [existsb] in E. apply orb_false_iff in E as [E1 E2]. cbn [filter]. unfold on_line at 1. rewrite E1. cbn [negb andb].
    destruct (is_ellipsis t); cbn [negb]; rewrite IHg by exact E2; reflexivity.
Qed.
Lemma lines_tokens ts : concat (logical_lines ts) = filter on_line ts.
Proof.
  rewrite <- statements_tokens. unfold logical_lines. destruct ts as [|t ts]; [reflexivity|]. destruct (is_comma t); reflexivity.
Qed.
Lemma ast_tokens ts b : parse ts = ParseOk b -> incl (block_tokens b) (concat (logical_lines ts)).
Proof.
  rewrite parse_logical_lines. unfold parse_logical. intros H.
  pose proof (root_ok (logical_lines ts) (lsum (logical_lines ts) + 4)) as R. rewrite H in R. apply subseq_incl, R.
Qed.

(** ** The tokens of a printed source have their texts *)
Definition printed_raw (x : printed) : str := snd (fst x).
Lemma printed_slices xs : forall before,
  Forall2 (fun t x => tok_type t = printed_type x /\ slice (text_of before ++ print xs) t = printed_raw x)
    (tokens_after before (printed_pieces xs)) xs.
Proof.
  induction xs as [|[[ty raw] sep] xs IH]; intros before; [constructor|].
  unfold printed_pieces. cbn [map concat]. fold (printed_pieces xs). cbn [app tokens_after].
  rewrite tokens_after_gaps. constructor.
  - split; [reflexivity|]. unfold print. cbn [map concat]. fold (print xs). rewrite <- !app_assoc.
    apply (slice_raw _ _ (text_of before) raw (sep ++ print xs) eq_refl); [reflexivity|].
    cbn [end_of tok_range r_end pos_after chars]. unfold end_of. cbn [tok_range r_end pos_after chars].
    rewrite text_of_app. unfold text_of at 2. cbn. rewrite app_nil_r. reflexivity.
  - specialize (IH ((before ++ [Tok raw ty]) ++ map Gap sep)).
    assert (E : text_of ((before ++ [Tok raw ty]) ++ map Gap sep) ++ print xs = text_of before ++ print ((ty, raw, sep) :: xs)).
    { rewrite !text_of_app. unfold print. cbn [map concat]. fold (print xs). rewrite <- !app_assoc. f_equal.
      unfold text_of. cbn. rewrite app_nil_r. f_equal. f_equal. clear. induction sep; [reflexivity|]. cbn. f_equal. exact IHsep. }
    rewrite E in IH. exact IH.
Qed.

Section Corr.
Variable w : token -> str.
Definition prints (x : printed) (t : token) : Prop := printed_type x = tok_type t /\ printed_raw x = w t.
Definition kept (x : printed) : bool := negb (comma_type (printed_type x)) && negb (ellipsis_type (printed_type x)).
Lemma kept_token t sep : writable w t -> kept (tok_type t, w t, sep) = true.
Proof.
  intros (_ & H1 & H2 & _). unfold kept, printed_type. cbn. destruct (tok_type t); try reflexivity; contradiction.
Qed.
Lemma kept_line l : Forall (writable w) l -> Forall2 prints (filter kept (print_line w l)) l.
Proof.
  intros H. destruct l as [|u l]; [constructor|]. cbn [print_line]. generalize dependent u.
  induction l as [|v l IH]; intros u H.
  - apply Forall_inv in H. cbn [print_tokens filter]. rewrite kept_token by exact H. repeat constructor.
  - apply Forall_cons_iff in H as [Hu H].
    change (print_tokens w (u :: v :: l)) with ((tok_type u, w u, tab) :: print_tokens w (v :: l)).
    cbn [filter]. rewrite kept_token by exact Hu. constructor; [repeat constructor|apply IH, H].
Qed.
Lemma kept_lines ls : Forall (Forall (writable w)) ls ->
  Forall2 prints (filter kept (flat_map (print_line w) ls)) (concat ls).
Proof.
  induction 1 as [|l ls Hl _ IH]; cbn; [constructor|]. rewrite filter_app. apply Forall2_app; [apply kept_line, Hl|exact IH].
Qed.
End Corr.

(** ** From the tokens of the formatted source back to the tokens of the AST *)
Definition token_dec (t u : token) : {t = u} + {t <> u}.
Proof. repeat decide equality. Defined.
Definition back (ps : list (token * token)) (t : token) : token :=
  match List.find (fun p => if token_dec t (fst p) then true else false) ps with Some p => snd p | None => t end.
Lemma back_other ps t : ~ In t (map fst ps) -> back ps t = t.
Proof.
  unfold back. intros H. destruct (List.find _ ps) as [p|] eqn:E; [|reflexivity]. apply find_some in E as [Hp Ht].
  destruct (token_dec t (fst p)); [|discriminate]. subst. destruct H. apply in_map, Hp.
Qed.
Lemma back_spec ps t : In t (map fst ps) -> exists u, In (t, u) ps /\ back ps t = u.
Proof.
  unfold back. intros H. destruct (List.find _ ps) as [p|] eqn:E.
  - apply find_some in E as [Hp Ht]. destruct (token_dec t (fst p)); [|discriminate]. exists (snd p). subst.
    rewrite <- surjective_pairing. auto.
  - apply in_map_iff in H as (p & <- & Hp). apply (find_none _ _ E) in Hp. destruct (token_dec (fst p) (fst p)); congruence.
Qed.
Lemma back_map ls1 : forall ls0, length ls1 = length ls0 -> NoDup ls1 -> map (back (combine ls1 ls0)) ls1 = ls0.
Proof.
  induction ls1 as [|t ls1 IH]; intros [|u ls0] L N; try discriminate; [reflexivity|]. inversion N as [|? ? N1 N2]; subst.
  cbn [combine map]. f_equal.
  - unfold back. cbn [List.find fst]. destruct (token_dec t t); [reflexivity|congruence].
  - injection L as L. rewrite <- (IH ls0 L N2) at 2. apply map_ext_in. intros v Hv. unfold back. cbn [List.find fst].
    destruct (token_dec v t) as [->|]; [contradiction|reflexivity].
Qed.
Lemma regroup {A B} (f : A -> B) ls1 : forall ls0, map (@length _) ls1 = map (@length _) ls0 ->
  map f (concat ls1) = concat ls0 -> map (map f) ls1 = ls0.
Proof.
  induction ls1 as [|l ls1 IH]; intros [|m ls0] L E; try discriminate; [reflexivity|].
  cbn in L. injection L as L1 L. cbn [concat] in E. rewrite map_app in E. cbn [map].
  assert (El : map f l = m).
  { apply (f_equal (firstn (length m))) in E. rewrite !firstn_app, map_length, L1, Nat.sub_diag in E. cbn in E.
    rewrite !app_nil_r, firstn_all in E. rewrite <- L1, <- (map_length f l), firstn_all in E. exact E. }
  f_equal; [exact El|]. apply IH; [exact L|]. rewrite El in E. apply app_inv_head in E. exact E.
Qed.
Lemma Forall2_filter {A B} (R : A -> B -> Prop) p q l m : Forall2 R l m -> (forall x y, R x y -> p x = q y) ->
  Forall2 R (filter p l) (filter q m).
Proof.
  intros H E. induction H as [|x y l m Hxy H IH]; cbn; [constructor|]. rewrite (E _ _ Hxy).
  destruct (q y); [constructor; assumption|exact IH].
Qed.
Lemma Forall2_join {A B C} (R : A -> B -> Prop) (S : B -> C -> Prop) l m n :
  Forall2 R l m -> Forall2 S m n -> Forall2 (fun x z => exists y, R x y /\ S y z) l n.
Proof.
  intros H. revert n. induction H as [|x y l m Hxy H IH]; intros n H'; inversion H'; subst; constructor; eauto.
Qed.
Lemma Forall2_combine {A B} (R : A -> B -> Prop) l m x y : Forall2 R l m -> In (x, y) (combine l m) -> R x y.
Proof.
  induction 1 as [|a b l m Hab _ IH]; cbn; [tauto|]. intros [E|E]; [congruence|auto].
Qed.
Lemma sorted_nodup code ts : tokenize code = LexOk ts -> NoDup ts.
Proof.
  intros E. destruct (tokenize_lossless _ _ E) as (HB & HS & _). clear E. induction HS as [|t ts HS IH HF]; [constructor|].
  apply Forall_cons_iff in HB as [H1 HB]. constructor.
  - intros Hin. rewrite Forall_forall in HF. apply HF in Hin. lia.
  - apply IH, HB.
Qed.

Lemma same_print (v w : token -> str) f ls : (forall t, tok_type (f t) = tok_type t) ->
  Forall (Forall (fun t => v t = w (f t))) ls -> print_program v ls = print_program w (map (map f) ls).
Proof.
  intros Hty HQ. unfold print_program. f_equal. induction HQ as [|l ls Hl _ IH]; [reflexivity|]. cbn [flat_map map].
  f_equal; [|exact IH]. destruct Hl as [|t l Ht Hl]; [reflexivity|]. cbn [map print_line]. revert t Ht.
  induction Hl as [|u l Hu Hl IHl]; intros t Ht.
  - cbn. rewrite Hty, Ht. reflexivity.
  - specialize (IHl u Hu). cbn [map] in *.
    change (print_tokens w (f t :: f u :: map f l)) with ((tok_type (f t), w (f t), tab) :: print_tokens w (f u :: map f l)).
    rewrite <- IHl. rewrite Hty, <- Ht. reflexivity.
Qed.

Theorem format_parses code ns : ascii_str code -> ~ ends_with_colon code ->
  tokenize_and_parse code = ApiOk (ASTBlock ns) -> forallb node_clean ns = true ->
  Forall plain_version (versions (ASTBlock ns)) ->
  exists ns', tokenize_and_parse (format code ns) = ApiOk (ASTBlock ns') /\
              map (map_node erase) ns' = map (map_node erase) ns /\ forallb node_clean ns' = true /\
              format (format code ns) ns' = format code ns.
Proof.
  intros Ha Hcol E HC HVer. unfold tokenize_and_parse in E. destruct (tokenize code) as [ts| | |] eqn:Et; try discriminate.
  destruct (parse ts) as [b|c|] eqn:Ep; try discriminate. injection E as ->.
  set (w := source_text code). set (ls := unparse_nodes ns).
  assert (HS : Forall node_shape ns) by (apply block_shape_eq, (parse_shape _ _ Ep)).
  pose proof (unparse_program ns HS HC) as HD. fold ls in HD.
  (* all tokens can be written *)
  assert (HP : Forall (fun t => plain_version t) (block_tokens (ASTBlock ns))).
  { apply p_nodes; try assumption; unfold plain_version.
    - intros k t Hk. unfold kw in Hk. rewrite Hk. exact I.
    - intros t (s & Hk). rewrite Hk. exact I.
    - intros t Hk. unfold slot_tok in Hk. rewrite Hk. exact I.
    - intros t (v & Hk). rewrite Hk. exact I.
    - intros t Hk. unfold exclamation_tok in Hk. rewrite Hk. exact I. }
  assert (HW : Forall (Forall (writable w)) ls).
  { apply Q_nodes.
    - repeat constructor; try discriminate; cbn; try lia; unfold ws, letter, digit; intuition (try discriminate; try lia).
    - rewrite Forall_forall in HP. apply Forall_forall. intros t Hin. pose proof (ast_tokens _ _ Ep t Hin) as Hl.
      rewrite lines_tokens in Hl. apply filter_In in Hl as [Hts Hon]. split; [|split; [|split]].
      + apply (source_writes code ts); auto.
      + intros X. unfold on_line, is_comma in Hon. rewrite X in Hon. discriminate.
      + intros X. unfold on_line, is_comma, is_ellipsis in Hon. rewrite X in Hon. discriminate.
      + intros s X. specialize (HP t Hin). unfold plain_version in HP. rewrite X in HP. exact HP. }
  destruct (program_round_trip w ls ns HW HD) as (ns' & E1 & E2 & E3). exists ns'. split; [exact E1|].
  split; [exact E2|]. split; [exact E3|].
  (* the tokens of the formatted source *)
  set (xs := flat_map (print_line w) ls). set (code1 := format code ns).
  assert (Ecode1 : code1 = print xs) by reflexivity.
  assert (Hok : Forall printed_ok xs).
  { unfold xs. clear - HW. induction HW as [|l ls H1 H IH]; [constructor|]. cbn [flat_map]. apply Forall_app.
    split; [apply print_line_ok, H1|exact IH]. }
  set (ts1 := tokens_after [] (printed_pieces xs)).
  assert (Et1 : tokenize code1 = LexOk ts1).
  { apply tokenize_ok_iff. exists (printed_pieces xs). split; [apply print_lexes, Hok|reflexivity]. }
  set (ls1 := logical_lines ts1).
  assert (Ety : map (map tok_type) ls1 = map (map tok_type) ls).
  { unfold ls1. rewrite (agree_lines ts1 xs (agree_printed xs [])). apply printed_program_lines, HW. }
  assert (Hcorr : Forall2 (fun t u => exists x, (tok_type t = printed_type x /\ slice code1 t = printed_raw x) /\ prints w x u)
    (concat ls1) (concat ls)).
  { unfold ls1. rewrite lines_tokens. apply (Forall2_join _ _ _ (filter kept xs)); [|apply kept_lines, HW].
    apply Forall2_filter; [exact (printed_slices xs [])|]. intros t x [Hx _]. unfold on_line, kept, is_comma, is_ellipsis.
    rewrite Hx. destruct (printed_type x); reflexivity. }
  set (ps := combine (concat ls1) (concat ls)). set (f := back ps).
  assert (Hfst : map fst ps = concat ls1).
  { unfold ps. clear - Hcorr. induction Hcorr as [|x y l m _ _ IH]; [reflexivity|]. cbn. rewrite IH. reflexivity. }
  assert (Hsub : forall t, In t (concat ls1) -> In t ts1).
  { intros t Ht. unfold ls1 in Ht. rewrite lines_tokens in Ht. apply filter_In in Ht. apply Ht. }
  assert (Hf : forall t, In t (concat ls1) -> tok_type (f t) = tok_type t /\ slice code1 t = w (f t)).
  { intros t Ht. rewrite <- Hfst in Ht. apply back_spec in Ht as (u & Hu & Eu). fold f in Eu. rewrite Eu.
    apply (Forall2_combine _ _ _ _ _ Hcorr) in Hu as (x & [X1 X2] & Y1 & Y2). split; congruence. }
  assert (Hty : forall t, tok_type (f t) = tok_type t).
  { intros t. destruct (in_dec token_dec t (concat ls1)) as [Hin|Hout]; [apply Hf, Hin|].
    unfold f. rewrite back_other by (rewrite Hfst; exact Hout). reflexivity. }
  assert (Hbare : forall ty, f (bare ty) = bare ty).
  { intros ty. apply back_other. rewrite Hfst. intros Hin. apply Hsub in Hin.
    destruct (tokenize_lossless _ _ Et1) as (HB & _). rewrite Forall_forall in HB. apply HB in Hin.
    unfold start_of, end_of, bare in Hin. cbn in Hin. lia. }
  assert (Els : map (map f) ls1 = ls).
  { apply regroup.
    - apply (f_equal (map (@length _))) in Ety. rewrite !map_map in Ety.
      erewrite map_ext in Ety by (intros; apply map_length). symmetry in Ety.
      erewrite map_ext in Ety by (intros; apply map_length). symmetry. exact Ety.
    - apply back_map.
      + clear - Hcorr. induction Hcorr; cbn; congruence.
      + unfold ls1. rewrite lines_tokens. apply NoDup_filter, (sorted_nodup code1), Et1. }
  (* the AST of the formatted source *)
  assert (Ep1 : parse ts1 = ParseOk (ASTBlock ns')).
  { fold code1 in E1. change (print_program w ls) with code1 in E1. unfold tokenize_and_parse in E1. rewrite Et1 in E1.
    destruct (parse ts1) as [b|c|]; try discriminate. injection E1 as ->. reflexivity. }
  assert (En : map (map_node f) ns' = ns).
  { apply program_iff in HD as [HD _]. rewrite <- Els, parse_logical_map in HD.
    - unfold ls1 in HD. rewrite <- parse_logical_lines, Ep1 in HD. cbn [map_result] in HD. rewrite map_block_eq in HD.
      injection HD as HD. exact HD.
    - intros t. unfold tok_kind. rewrite Hty. reflexivity. }
  assert (Eu : ls = map (map f) (unparse_nodes ns')).
  { unfold ls. rewrite <- En. apply nodes_commute, Hbare. }
  assert (HQ : Forall (Forall (fun t => source_text code1 t = w (f t))) (unparse_nodes ns')).
  { apply Q_nodes.
    - unfold w, made_up, question, word. cbn [map]. repeat (apply Forall_cons; [rewrite Hbare; reflexivity|]). apply Forall_nil.
    - apply Forall_forall. intros t Ht. apply (ast_tokens _ _ Ep1) in Ht. fold ls1 in Ht. destruct (Hf t Ht) as [F1 F2].
      unfold source_text at 1. unfold w at 1, source_text in F2. unfold w, source_text. rewrite F1 in *.
      destruct (tok_type t) as [| | |[| |[]|]| | | | | | |]; try reflexivity. exact F2. }
  change (print_program (source_text code1) (unparse_nodes ns') = print_program w ls). rewrite Eu.
  apply same_print; assumption.
Qed.
