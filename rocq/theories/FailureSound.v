(** Failures of the parser on single lines are failures of the specification. *)
From Coq Require Import Lia.
From Verif Require Import Lines Grammar ExprGrammar LineGrammar Failure.

(** A result on a state of the line machine: a failure satisfies [F] and leaves
    the later lines alone. *)
Definition fl {A} (F : failure -> Prop) (ls : list (list token)) (r : res lstate A) : Prop :=
  match r with
  | RErr e s => exists c, s = (c, ls) /\ F (FErr e c)
  | RPanic p => F (FPanic p)
  | _ => True
  end.

Lemma fl_bind {A B} F ls (m : lstate -> res lstate A) (k : A -> lstate -> res lstate B) s :
  fl F ls (m s) -> (forall a s1, m s = ROk a s1 -> fl F ls (k a s1)) -> fl F ls (bind m k s).
Proof.
  unfold bind. intros H Hk. destruct (m s) as [a s1|e s1|p|] eqn:E; try exact H. apply Hk. reflexivity.
Qed.
Lemma fl_weaken {A} (F G : failure -> Prop) ls (r : res lstate A) :
  fl F ls r -> (forall f, F f -> G f) -> fl G ls r.
Proof. destruct r; cbn; intros H HF; auto. destruct H as (c & -> & H). eauto. Qed.
Lemma fl_ret {A} F ls (a : A) s : fl F ls (ret a s).
Proof. exact I. Qed.
Lemma fl_fail {A} (F : failure -> Prop) ls e c : F (FErr e c) -> fl F ls (fail (A := A) e (c, ls)).
Proof. intros H. exists c. auto. Qed.
Lemma fl_panic {A} (F : failure -> Prop) ls p s : F (FPanic p) -> fl F ls (panic (A := A) p s).
Proof. intros H. exact H. Qed.
Lemma fl_next {B} F ls (k : option token -> lstate -> res lstate B) c :
  (forall t c', c = t :: c' -> fl F ls (k (Some t) (c', ls))) ->
  (c = [] -> fl F ls (k None ([], ls))) ->
  fl F ls (bind (next l_next) k (c, ls)).
Proof. intros H1 H2. destruct c as [|t c]; [apply H2|apply H1]; reflexivity. Qed.
Lemma fl_next_if {B} F ls (f : token -> bool) (k : option token -> lstate -> res lstate B) c :
  (forall t c', c = t :: c' -> f t = true -> fl F ls (k (Some t) (c', ls))) ->
  ((forall t c', c = t :: c' -> f t = false) -> fl F ls (k None (c, ls))) ->
  fl F ls (bind (next_if l_next l_peek f) k (c, ls)).
Proof.
  intros H1 H2. destruct c as [|t c].
  - erewrite bind_eq by (apply next_if_no; discriminate). apply H2. discriminate.
  - destruct (f t) eqn:E.
    + erewrite bind_eq by (apply next_if_yes; exact E). apply H1; [reflexivity|exact E].
    + assert (Hn : forall t0 c', t :: c = t0 :: c' -> f t0 = false) by (intros ? ? H; injection H as <- _; exact E).
      erewrite bind_eq by (apply next_if_no; exact Hn). apply H2. exact Hn.
Qed.

Lemma no_begins (p : token -> Prop) c : (forall t c', c = t :: c' -> ~ p t) -> ~ begins p c.
Proof. intros H (t & r & -> & Ht). exact (H t r eq_refl Ht). Qed.
Lemma no_begins_kw k c : (forall t c', c = t :: c' -> is_kw k t = false) -> ~ begins (kw k) c.
Proof. intros H. apply no_begins. intros t c' E. apply is_kw_false, (H _ _ E). Qed.

(** ** Identifiers and accesses *)
Lemma identifier_fl t c ls : fl (x_identifier (t :: c)) ls (identifier_parse l_next t (c, ls)).
Proof.
  unfold identifier_parse.
  destruct (tok_type t) as [n|k| | | | | | | | |] eqn:Et;
    try (apply fl_fail; constructor; intros [[? H]|H]; unfold kw in *; congruence); [exact I|].
  destruct k; try (apply fl_fail; constructor; intros [[? H]|H]; unfold kw in *; congruence).
  apply fl_next; [intros u c' ->|intros ->].
  - destruct (tok_type u) eqn:Eu; try exact I;
      (apply fl_fail; apply x_srs_bad; [exact Et|]; intros [? H]; congruence).
  - apply fl_fail. apply x_srs_end. exact Et.
Qed.

Lemma d_va_snoc ts v a us i : d_va ts v -> slot_tok a -> d_identifier us i ->
  exists v', d_va (ts ++ a :: us) v'.
Proof.
  intros H Ha Hi. destruct H as [ts j ws sl Hj Hs].
  assert (Hx : exists sl', d_slots (ws ++ a :: us) sl').
  { induction Hs as [|b bs k ws sl Hb Hk Hs IH].
    - exists [mkSlot a i]. cbn [app]. rewrite <- (app_nil_r us). constructor; [assumption..|constructor].
    - destruct IH as (sl' & IH). exists (mkSlot b k :: sl'). cbn [app]. rewrite <- app_assoc.
      constructor; assumption. }
  destruct Hx as (sl' & Hx). exists (mkVA j sl'). rewrite <- app_assoc. constructor; assumption.
Qed.

Lemma accesses_fl f : forall ts v c ls, d_va ts v ->
  fl (x_va (ts ++ c)) ls (accesses_loop l_next l_peek f (c, ls)).
Proof.
  induction f as [|f IH]; intros ts v c ls Hv; [exact I|]. cbn [accesses_loop].
  apply fl_next_if; [intros a c' -> Ha|intros _; exact I]. apply is_slot_iff in Ha.
  apply fl_next; [intros t c'' ->|intros ->].
  - apply fl_bind.
    + eapply fl_weaken; [apply identifier_fl|]. intros x Hx. eapply x_va_slot; eassumption.
    + intros i s1 H. apply identifier_sound in H as (us & c3 & E & -> & Hi).
      destruct (d_va_snoc _ _ _ _ _ Hv Ha Hi) as (v' & Hv').
      apply fl_bind; [|intros; exact I].
      replace (ts ++ a :: t :: c'') with ((ts ++ a :: us) ++ c3) by (rewrite <- app_assoc; cbn [app]; rewrite E; reflexivity).
      eapply IH. exact Hv'.
  - apply fl_fail. eapply x_va_end; eassumption.
Qed.

Lemma va_fl f t c ls : fl (x_va (t :: c)) ls (va_parse l_next l_peek f t (c, ls)).
Proof.
  unfold va_parse. apply fl_bind.
  - eapply fl_weaken; [apply identifier_fl|]. apply x_va_identifier.
  - intros i s1 H. apply identifier_sound in H as (us & c3 & E & -> & Hi). rewrite E.
    apply fl_bind; [|intros; exact I]. eapply (accesses_fl f us (mkVA i [])).
    rewrite <- (app_nil_r us). constructor; [exact Hi|constructor].
Qed.

(** ** Expressions *)
Definition fl_pe (pe : token -> lstate -> res lstate expr) : Prop :=
  forall t c ls, fl (x_expr (t :: c)) ls (pe t (c, ls)).

Lemma then_an_of o ts c1 ans an c2 : d_opt AN ans an -> c1 = ans ++ c2 -> fits o ts c1 ->
  (an = None -> forall t c'', c2 = t :: c'' -> ~ kw AN t) -> c1 <> [] -> o = false /\ then_an ts ans an c2.
Proof.
  intros Ha -> Hf Hn Hc. destruct o.
  { destruct Hf as [Hf _]. destruct (Hc (Hf eq_refl)). }
  split; [reflexivity|]. unfold then_an. splits; [exact Ha|exact Hf|].
  intros ->. inversion Ha; subst. apply no_begins. apply Hn. reflexivity.
Qed.

Lemma nary_loop_fl pe : sound_pe pe -> fl_pe pe -> forall f c ls,
  fl (x_operands c) ls (nary_loop l_next l_peek pe f (c, ls)).
Proof.
  intros Hs Hx f. induction f as [|f IH]; intros c ls; [exact I|]. cbn [nary_loop].
  apply fl_next_if; [intros t c' -> Ht|intros _; exact I].
  assert (Hm : ~ begins (kw MKAY) (t :: c')).
  { apply no_begins_kw. intros u c'' E. injection E as <- _. destruct (is_kw MKAY t); [discriminate|reflexivity]. }
  apply fl_bind.
  - eapply fl_weaken; [apply Hx|]. intros x H. apply x_operand_here; assumption.
  - intros e s1 H. apply Hs in H as (o & ts & c1 & E & -> & He & Hf). rewrite E.
    apply fl_bind; [unfold next_if, bind, peek, next; destruct c1 as [|y c1]; cbn; [exact I|destruct (is_kw AN y); exact I]|].
    intros an s2 H. apply opt_of_next_if in H as (ans & c2 & E1 & -> & Ha & Hn).
    apply fl_bind; [|intros; exact I].
    destruct c1 as [|y c1].
    + symmetry in E1. apply app_eq_nil in E1 as [-> ->].
      destruct f as [|f]; [exact I|]. cbn [nary_loop]. apply fl_next_if; [discriminate|intros; exact I].
    + destruct (then_an_of _ _ _ _ _ _ Ha E1 Hf Hn ltac:(discriminate)) as [-> Hta]. rewrite E1.
      eapply fl_weaken; [apply IH|]. intros x Hx'. eapply x_operand_later; eassumption.
Qed.

Lemma expr_start_starts t : expr_start t <-> starts_expr t.
Proof.
  unfold expr_start, starts_expr, id_start, is_binary, is_nary. split.
  - intros [H|[H|[H|[H|[H|[(k & op & H & H')|(k & op & H & H')]]]]]]; eauto 12.
  - intros [H|[H|[[H|H]|[(k & op & H & H')|[H|(k & op & H & H')]]]]]; eauto 12.
Qed.

Lemma expr_fl f : fl_pe (expr_parse l_next l_peek f).
Proof.
  induction f as [|f IH]; intros t c ls; [exact I|]. cbn [expr_parse].
  assert (Hva : id_start t -> fl (x_expr (t :: c)) ls
    (bind (va_parse l_next l_peek f t) (fun v => ret (Value (VariableAccess v))) (c, ls))).
  { intros Ht. apply fl_bind; [|intros; exact I].
    eapply fl_weaken; [apply va_fl|]. intros x Hx. apply x_expr_va; [|exact Hx]. exists t, c. auto. }
  assert (Hbin : forall k op, binary_operator k op -> kw k t ->
    fl (x_expr (t :: c)) ls (binary_parse l_next l_peek (expr_parse l_next l_peek f) (op t) (c, ls))).
  { intros k op Hop Hk. unfold binary_parse. rewrite (d_binary_token _ _ t Hop).
    assert (Hb : is_binary t) by (exists k, op; auto).
    apply fl_next; [intros u c' ->|intros ->; apply fl_fail; constructor; exact Hb].
    apply fl_bind.
    { eapply fl_weaken; [apply IH|]. intros x Hx. apply x_binary_left; assumption. }
    intros l s1 H. apply expr_sound in H as (o & ts & c1 & E & -> & He & Hf). rewrite E.
    apply fl_bind; [unfold next_if, bind, peek, next; destruct c1 as [|y c1]; cbn; [exact I|destruct (is_kw AN y); exact I]|].
    intros an s2 H. apply opt_of_next_if in H as (ans & c2 & E1 & -> & Ha & Hn).
    apply fl_next; [intros y c3 ->|intros ->].
    - destruct (then_an_of _ _ _ _ _ _ Ha E1 Hf Hn) as [-> Hta].
      { subst c1. intros E1. apply app_eq_nil in E1 as [_ E1]. discriminate. }
      rewrite E1. apply fl_bind; [|intros; exact I].
      eapply fl_weaken; [apply IH|]. intros x Hx. eapply x_binary_right; eassumption.
    - apply fl_fail. rewrite app_nil_r in E1. subst c1. eapply x_binary_right_missing; try eassumption.
      apply Hf. }
  assert (Hnary : forall k op, nary_operator k op -> kw k t ->
    fl (x_expr (t :: c)) ls (nary_parse l_next l_peek (expr_parse l_next l_peek f) f (op t) (c, ls))).
  { intros k op Hop Hk. unfold nary_parse. assert (Hb : is_nary t) by (exists k, op; auto).
    apply fl_bind.
    - eapply fl_weaken; [apply nary_loop_fl; [apply expr_sound|exact IH]|].
      intros x Hx. apply x_nary; assumption.
    - intros es s1 H. apply (nary_loop_sound _ (expr_sound f)) in H as (c' & -> & _).
      apply fl_next; intros; exact I. }
  assert (Hother : ~ starts_expr t -> ~ kw MAEK t ->
    fl (x_expr (t :: c)) ls (fail (A := expr) (UnexpectedToken t) (c, ls))).
  { intros H1 H2. apply fl_fail. constructor; assumption. }
  assert (Hno : (forall k, ~ kw k t) -> ~ value_tok t -> ~ ident_tok t ->
    fl (x_expr (t :: c)) ls (fail (A := expr) (UnexpectedToken t) (c, ls))).
  { intros H1 H2 H3. apply Hother; [|apply H1]. intros H. apply expr_start_starts in H.
    destruct H as [H|[H|[H|[H|[H|[(k & op & H & _)|(k & op & H & _)]]]]]]; first [exact (H1 _ H)|exact (H2 H)|exact (H3 H)]. }
  destruct (tok_type t) as [n|k|sy|v|cm|cm| | | | |] eqn:Et;
    try (apply Hno; unfold kw, value_tok, ident_tok; rewrite Et; [discriminate|intros [? H]; discriminate|intros [? H]; discriminate]; fail).
  - apply Hva. left. exists n. exact Et.
  - destruct k;
      try (eapply Hbin; [constructor|exact Et]; fail);
      try (eapply Hnary; [constructor|exact Et]; fail);
      try (apply Hother;
           [intros H; apply expr_start_starts in H; eapply no_expr_kw_of; [|exact Et|exact H]; exact I
           |unfold kw; rewrite Et; discriminate]; fail).
    + apply Hva. right. exact Et.
    + exact I.
    + unfold unary_parse. apply fl_next; [intros u c' ->|intros ->; apply fl_fail; apply x_not_missing; exact Et].
      apply fl_bind; [|intros; exact I]. eapply fl_weaken; [apply IH|]. intros x Hx. apply x_not; assumption.
    + apply fl_panic. apply x_expr_maek. exact Et.
  - exact I.
Qed.

(** ** The pieces of statements *)
Lemma expected_expr_fl {B} (F : failure -> Prop) er f c ls (k : expr -> lstate -> res lstate B) t :
  (forall x, x_expected er (t :: c) x -> F x) -> (forall e s, fl F ls (k e s)) ->
  fl F ls (bind (expr_parse l_next l_peek f t) k (c, ls)).
Proof.
  intros HF Hk. apply fl_bind; [|intros; apply Hk].
  eapply fl_weaken; [apply expr_fl|]. intros x Hx. apply HF. constructor. exact Hx.
Qed.

Lemma i_has_a_fl f t c ls : kw I_HAS_A t ->
  fl (fails_stmt (t :: c)) ls (i_has_a_parse l_next l_peek f t (c, ls)).
Proof.
  intros Ht. unfold i_has_a_parse.
  apply fl_next; [intros u c' ->|intros ->; apply fl_fail; constructor; exact Ht].
  destruct (va_is_valid u) eqn:Ev.
  2:{ apply fl_fail. apply f_i_has_a_name; [exact Ht|]. intros H. apply va_valid_iff in H. congruence. }
  apply va_valid_iff in Ev. apply fl_bind.
  { eapply fl_weaken; [apply identifier_fl|]. intros x Hx. apply f_i_has_a_identifier; [exact Ht| |exact Hx].
    exists u, c'. auto. }
  intros i s1 H. apply identifier_sound in H as (us & c2 & E & -> & Hi). rewrite E.
  apply fl_next; [intros a c3 ->|intros; exact I].
  destruct (is_kw ITZ a) eqn:Ea.
  2:{ apply fl_fail. eapply f_i_has_a_initial; [exact Ht|exact Hi|]. apply x_initial_no_itz. apply is_kw_false. exact Ea. }
  apply is_kw_iff in Ea.
  assert (HF : forall l x, ~ begins (fun u => exists ty, d_type u ty) l ->
             x_expected (EIHasA (ExpectedInitialValue a)) l x -> fails_stmt (t :: us ++ a :: l) x).
  { intros l x Hl Hx. eapply f_i_has_a_initial; [exact Ht|exact Hi|]. apply x_initial_expr; assumption. }
  apply fl_next; [intros b c4 ->|intros ->].
  - destruct (ast_type_try_from b) eqn:Eb; [exact I|].
    eapply expected_expr_fl; [|intros; exact I]. intros x Hx. eapply HF; [|exact Hx].
    apply no_begins. intros y c5 E5 (ty & Hty). injection E5 as <- _. apply type_complete in Hty. congruence.
  - apply fl_fail. apply HF; [|constructor]. apply no_begins. discriminate.
Qed.

Lemma visible_loop_fl pe : sound_pe pe -> fl_pe pe -> forall f c ls,
  fl (x_exprs c) ls (visible_loop l_next l_peek pe f (c, ls)).
Proof.
  intros Hs Hx f. induction f as [|f IH]; intros c ls; [exact I|]. cbn [visible_loop].
  apply fl_next_if; [intros t c' -> Ht|intros; exact I].
  apply fl_bind.
  - eapply fl_weaken; [apply Hx|]. intros x H. apply x_exprs_here; [|exact H].
    apply no_begins. intros u c'' E Hu. injection E as <- _. apply is_exclamation_iff in Hu. rewrite Hu in Ht. discriminate.
  - intros e s1 H. apply Hs in H as (o & ts & c1 & E & -> & He & Hf). rewrite E.
    apply fl_bind; [|intros; exact I].
    destruct o.
    + destruct Hf as [Hf _]. rewrite (Hf eq_refl).
      destruct f as [|f]; [exact I|]. cbn [visible_loop]. apply fl_next_if; [discriminate|intros; exact I].
    + eapply fl_weaken; [apply IH|]. intros x H. eapply x_exprs_later; eassumption.
Qed.

Lemma visible_fl f t c ls : kw VISIBLE t ->
  fl (fails_stmt (t :: c)) ls (visible_parse l_next l_peek f t (c, ls)).
Proof.
  intros Ht. unfold visible_parse. apply fl_bind.
  - eapply fl_weaken; [apply visible_loop_fl; [apply expr_sound|apply expr_fl]|].
    intros x Hx. apply f_visible; assumption.
  - intros es s1 H. apply (visible_loop_sound _ (expr_sound f)) in H as (c' & o & ts & -> & _).
    apply fl_next_if; intros; exact I.
Qed.

Lemma gimmeh_fl f t c ls : kw GIMMEH t ->
  fl (fails_stmt (t :: c)) ls (gimmeh_parse l_next l_peek f t (c, ls)).
Proof.
  intros Ht. unfold gimmeh_parse. apply fl_next; [intros u c' ->|intros ->; apply fl_fail; constructor; exact Ht].
  apply fl_bind; [|intros; exact I]. eapply fl_weaken; [apply va_fl|]. intros x Hx. apply f_gimmeh; assumption.
Qed.

Lemma found_yr_fl f t c ls : kw FOUND_YR t ->
  fl (fails_stmt (t :: c)) ls (found_yr_parse l_next l_peek f t (c, ls)).
Proof.
  intros Ht. unfold found_yr_parse.
  apply fl_next; [intros u c' ->|intros ->; apply fl_fail; apply f_found_yr; [exact Ht|constructor]].
  eapply expected_expr_fl; [|intros; exact I]. intros x Hx. apply f_found_yr; eassumption.
Qed.

(** What the loop over the arguments of I IZ leaves, for the MKAY test after it. *)
Lemma i_iz_loop_fl pe : sound_pe pe -> fl_pe pe -> forall t f c ls,
  fl (x_args t c) ls (i_iz_loop l_next l_peek pe f (c, ls)) /\
  forall es s', i_iz_loop l_next l_peek pe f (c, ls) = ROk es s' ->
    exists c', s' = (c', ls) /\ forall x, x_no_mkay t c' x -> x_args t c x.
Proof.
  intros Hs Hx t f. induction f as [|f IH]; intros c ls; [split; [exact I|discriminate]|]. cbn [i_iz_loop].
  split.
  - apply fl_next_if; [intros yr c' -> Hyr|intros; exact I]. apply is_kw_iff in Hyr.
    apply fl_next; [intros u c'' ->|intros ->; apply fl_fail; apply x_args_expr; [exact Hyr|constructor]].
    apply fl_bind.
    { eapply fl_weaken; [apply Hx|]. intros x H. apply x_args_expr; [exact Hyr|]. constructor. exact H. }
    intros e s1 H. apply Hs in H as (o & ts & c1 & E & -> & He & Hf). rewrite E.
    apply fl_next_if; [intros an c2 -> Han|intros; exact I]. apply is_kw_iff in Han.
    destruct o; [destruct Hf as [Hf _]; discriminate (Hf eq_refl)|].
    apply fl_bind; [|intros; exact I]. eapply fl_weaken; [apply IH|]. intros x H.
    eapply x_args_later; eassumption.
  - intros es s' H. inv_next_if H.
    + apply is_kw_iff in Ht. inv_next H; [|discriminate]. inv_bind H.
      apply Hs in Hm as (o & ts & c' & E & -> & He & Hf). inv_next_if H.
      * apply is_kw_iff in Ht0. destruct o; [destruct Hf as [Hf _]; discriminate (Hf eq_refl)|].
        inv_bind H. apply IH in Hm as (c2 & -> & HL). inv_ret H. exists c2. split; [reflexivity|].
        intros x Hm. rewrite E. eapply x_args_later; eauto.
      * inv_ret H. exists c'. split; [reflexivity|]. intros x Hm. rewrite E.
        eapply x_args_last; try eassumption. apply no_begins_kw. exact Ht0.
    + inv_ret H. exists c. split; [reflexivity|]. intros x Hm. apply x_args_stop; [|exact Hm].
      apply no_begins_kw. exact Ht.
Qed.

Lemma not_slot_begins c : ~ starts_with_slot c -> ~ begins slot_tok c.
Proof. intros H (t & r & E & Ht). apply H. exists t, r. auto. Qed.

Lemma i_iz_fl f t c ls : kw I_IZ t ->
  fl (fails_stmt (t :: c)) ls (i_iz_parse l_next l_peek f t (c, ls)).
Proof.
  intros Ht. unfold i_iz_parse. apply fl_next; [intros u c' ->|intros ->; apply fl_fail; constructor; exact Ht].
  apply fl_bind.
  { eapply fl_weaken; [apply va_fl|]. intros x Hx. apply f_i_iz_name; assumption. }
  intros v s1 H. apply va_sound in H as (ts & c1 & E & -> & Hv & Hn). rewrite E. apply not_slot_begins in Hn.
  assert (HF : forall x, x_args t c1 x -> fails_stmt (t :: ts ++ c1) x).
  { intros x Hx. eapply f_i_iz_args; eassumption. }
  destruct (i_iz_loop_fl _ (expr_sound f) (expr_fl f) t f c1 ls) as [H1 H2].
  apply fl_bind; [eapply fl_weaken; [exact H1|exact HF]|].
  intros es s2 H. destruct (H2 _ _ H) as (c2 & -> & H3).
  apply fl_next; [intros m c3 ->|intros ->; apply fl_fail, HF, H3; constructor].
  destruct (is_kw MKAY m) eqn:Em; [exact I|]. apply fl_fail, HF, H3. constructor. apply is_kw_false. exact Em.
Qed.

(** ** Statements that start with a variable access *)
Lemma assignment_fl f ts v u c ls : d_va ts v -> kw R u ->
  fl (fails_stmt (ts ++ u :: c)) ls (assignment_parse l_next l_peek f v (u :: c, ls)).
Proof.
  intros Hv Hu. unfold assignment_parse. apply fl_next; [|discriminate]. intros t c' E. injection E as <- <-.
  rewrite (kw_eval _ _ Hu).
  apply fl_next; [intros y c' ->|intros ->; apply fl_fail; eapply f_assignment; [exact Hv|exact Hu|constructor]].
  eapply expected_expr_fl; [|intros; exact I]. intros x Hx. eapply f_assignment; eassumption.
Qed.

Lemma set_slot_fl f ts v u c ls : d_va ts v -> kw HAS_A u ->
  fl (fails_stmt (ts ++ u :: c)) ls (bukkit_set_slot_parse l_next l_peek f v (u :: c, ls)).
Proof.
  intros Hv Hu. unfold bukkit_set_slot_parse. apply fl_next; [|discriminate]. intros t c' E. injection E as <- <-.
  rewrite (kw_eval _ _ Hu).
  assert (HF : forall x, x_set_slot u c x -> fails_stmt (ts ++ u :: c) x).
  { intros x Hx. eapply f_set_slot; eassumption. }
  eapply fl_weaken; [|exact HF].
  apply fl_next; [intros y c' ->|intros ->; apply fl_fail; constructor].
  apply fl_bind.
  { eapply fl_weaken; [apply identifier_fl|]. apply x_slot_name. }
  intros i s1 H. apply identifier_sound in H as (us & c2 & E & -> & Hi). rewrite E.
  apply fl_next; [intros z c3 ->|intros ->; apply fl_fail; rewrite app_nil_r; apply x_slot_no_itz; exact Hi].
  destruct (is_kw ITZ z) eqn:Ez.
  2:{ apply fl_fail. eapply x_slot_bad_itz; [exact Hi|]. apply is_kw_false. exact Ez. }
  apply is_kw_iff in Ez.
  apply fl_next; [intros w c4 ->|intros ->; apply fl_fail; eapply x_slot_value; [exact Hi|exact Ez|constructor]].
  eapply expected_expr_fl; [|intros; exact I]. intros x Hx. eapply x_slot_value; eassumption.
Qed.

Lemma va_statement_fl f t c ls : id_start t ->
  fl (fails_stmt (t :: c)) ls (va_statement l_next l_peek f t (c, ls)).
Proof.
  intros Ht. unfold va_statement. apply fl_bind.
  { eapply fl_weaken; [apply va_fl|]. intros x Hx. apply f_va; [|exact Hx]. exists t, c. auto. }
  intros v s1 H. apply va_sound in H as (ts & c1 & E & -> & Hv & Hn). rewrite E.
  apply fl_bind; [destruct c1; exact I|]. intros o s2 H. apply peek_ok in H as [-> ->].
  destruct c1 as [|u c1]; [exact I|]. cbn [hd_error].
  destruct (is_kw R u) eqn:Er.
  { unfold as_node. apply fl_bind; [|intros; exact I]. apply assignment_fl; [exact Hv|apply is_kw_iff; exact Er]. }
  destruct (is_kw HAS_A u) eqn:Eh.
  { unfold as_node. apply fl_bind; [|intros; exact I]. apply set_slot_fl; [exact Hv|apply is_kw_iff; exact Eh]. }
  apply fl_panic. apply f_va_unreachable; [exact Hv| |apply is_kw_false; assumption..].
  intros Hs. apply Hn. exists u, c1. auto.
Qed.

(** ** Single-line statements *)
Lemma single_fl f t c ls : ~ multi_line t ->
  fl (fails_stmt (t :: c)) ls (parse_statement l_next l_peek l_next_statement f t (c, ls)).
Proof.
  intros Hm. destruct f as [|f]; [exact I|]. cbn [parse_statement].
  destruct (va_is_valid t) eqn:Ev; [apply va_statement_fl, va_valid_iff; exact Ev|].
  assert (Hid : ~ id_start t) by (intros H; apply va_valid_iff in H; congruence).
  assert (Hexpr : ~ line_start t ->
    fl (fails_stmt (t :: c)) ls (as_node NExpression (expr_parse l_next l_peek f t) (c, ls))).
  { intros Hl. unfold as_node. apply fl_bind; [|intros; exact I]. eapply fl_weaken; [apply expr_fl|].
    intros x Hx. apply f_expression; [| |exact Hx]; apply no_begins; intros u c' E; injection E as <- _; assumption. }
  destruct (tok_type t) as [nm|k|sy|v|cm|cm| | | | |] eqn:Et;
    try (apply Hexpr; unfold line_start, kw; rewrite Et;
         intros [H|H]; [exact (Hid H)|]; intuition discriminate; fail).
  destruct k;
    try (apply Hexpr; unfold line_start, kw; rewrite Et;
         intros [H|H]; [exact (Hid H)|]; intuition discriminate; fail);
    try (destruct Hm; unfold multi_line, kw; tauto; fail);
    try exact I; unfold as_node; (apply fl_bind; [|intros; exact I]).
  - apply i_has_a_fl. exact Et.
  - apply visible_fl. exact Et.
  - apply gimmeh_fl. exact Et.
  - apply found_yr_fl. exact Et.
  - apply i_iz_fl. exact Et.
Qed.
