(** Proofs for C90. *)
From Coq Require Import String Lia.
From Verif Require Import Parser Lines ParseFuel Grammar Clean ExprGrammar LineGrammar ProgComplete LinesImage CheckerProofs.
From Verif Require Export Reader.
Local Open Scope list_scope.

Lemma reads_app q l q' m q'' : reads_to q l q' -> reads_to q' m q'' -> reads_to q (l ++ m) q''.
Proof. induction 1 as [|q t q1 l q2 H _ IH]; intros K; [exact K|]. cbn [app]. econstructor; [exact H|apply IH, K]. Qed.
Lemma reads_one q t q' : rstep q t q' -> reads_to q [t] q'.
Proof. intros H. econstructor; [exact H|constructor]. Qed.
Lemma reads_split l : forall q m q'', reads_to q (l ++ m) q'' -> exists q', reads_to q l q' /\ reads_to q' m q''.
Proof.
  induction l as [|t l IH]; intros q m q'' H; [exists q; split; [constructor|exact H]|].
  cbn [app] in H. inversion H as [|? ? q1 ? ? H1 H2]; subst. destruct (IH _ _ _ H2) as (q' & K1 & K2).
  exists q'. split; [econstructor; eassumption|exact K2].
Qed.

(** ** Lines of the grammar are read *)
Definition names (c : naming) (q : reader) : Prop :=
  (forall t, ident_tok t -> rstep q t (RNamed c)) /\ (forall t, kw SRS t -> rstep q t (RSrs c)).
Lemma names_name c : names c (RName c).
Proof. split; intros t H; constructor; exact H. Qed.
Lemma names_expects k x q : expects k x q -> names (AsOperand k x) q.
Proof. intros H. split; intros t K; eapply rs_expr; [exact H|apply opens_name, K|exact H|apply opens_srs, K]. Qed.
Lemma names_first s open : in_block s open -> names AsFirst (RStart s).
Proof. intros H. split; intros t K; econstructor; eassumption. Qed.
Lemma read_identifier c q ts i : names c q -> d_identifier ts i -> reads_to q ts (RNamed c).
Proof.
  intros (N1 & N2) [t H|s t H1 H2]; [apply reads_one, N1, H|]. econstructor; [apply N2, H1|]. apply reads_one. constructor. exact H2.
Qed.
Lemma read_slots c us sl : slots_allowed c -> d_slots us sl -> reads_to (RNamed c) us (RNamed c).
Proof.
  intros S H. induction H as [|a ts i us sl H1 H2 _ IH]; [constructor|]. econstructor; [apply rs_slot; assumption|].
  eapply reads_app; [eapply read_identifier; [apply names_name|exact H2]|exact IH].
Qed.
Lemma read_va c q ts v : names c q -> slots_allowed c -> d_va ts v -> reads_to q ts (RNamed c).
Proof. intros N S [us i ws sl H1 H2]. eapply reads_app; [eapply read_identifier; eassumption|eapply read_slots; eassumption]. Qed.

Definition in_nary (k : list pending) (x : context) (q : reader) : Prop := done (PNary :: k) x q \/ q = RMore k x.
Lemma in_nary_expects k x q : in_nary k x q -> expects (PNary :: k) x q.
Proof. intros [H| ->]; [apply expects_operand, H|apply expects_first_operand]. Qed.
Lemma in_nary_final k x q : in_nary k x q -> may_end k x -> final q.
Proof. intros [[]| ->] (H1 & H2); split; try constructor; auto. Qed.
Lemma done_final k x q : done k x q -> may_end k x -> final q.
Proof. intros [] H; exact H. Qed.

Lemma read_exprs_mut :
  (forall o ts e, d_expr o ts e -> forall k x q, expects k x q ->
     (o = false -> exists q', done k x q' /\ reads_to q ts q') /\
     (o = true -> may_end k x -> exists q', final q' /\ reads_to q ts q')) /\
  (forall us es, d_operands us es -> forall k x q, in_nary k x q -> exists q', in_nary k x q' /\ reads_to q us q').
Proof.
  apply d_expr_mut.
  - intros t H k x q E. split; [intros _|discriminate]. eexists. split; [apply done_value|]. apply reads_one. eapply rs_expr; [exact E|apply opens_value, H].
  - intros t H k x q E. split; [intros _|discriminate]. eexists. split; [apply done_value|]. apply reads_one. eapply rs_expr; [exact E|apply opens_noob, H].
  - intros ts v H k x q E. split; [intros _|discriminate]. eexists. split; [apply done_name|]. eapply read_va; [apply names_expects, E|exact I|exact H].
  - intros w op t o ls l ans an rs r Hop Ht _ IH1 Han _ IH2 k x q E.
    destruct (proj1 (IH1 (PBinary :: k) x _ (expects_now _ _)) eq_refl) as (q1 & D1 & R1).
    assert (R0 : reads_to q (t :: ls) q1) by (econstructor; [eapply rs_expr; [exact E|eapply opens_binary; eassumption]|exact R1]).
    assert (X : exists q2, expects k x q2 /\ reads_to q1 ans q2).
    { destruct Han as [|u Hu]; [exists q1; split; [apply expects_second, D1|constructor]|].
      eexists. split; [apply expects_now|]. apply reads_one. eapply rs_binary_an; eassumption. }
    destruct X as (q2 & E2 & R2). destruct (IH2 k x q2 E2) as (A & B).
    change (t :: ls ++ ans ++ rs) with ((t :: ls) ++ ans ++ rs). split.
    + intros Ho. destruct (A Ho) as (q3 & D3 & R3). exists q3. split; [exact D3|]. eapply reads_app; [exact R0|]. eapply reads_app; eassumption.
    + intros Ho M. destruct (B Ho M) as (q3 & D3 & R3). exists q3. split; [exact D3|]. eapply reads_app; [exact R0|]. eapply reads_app; eassumption.
  - intros t o ts e Ht _ IH k x q E. destruct (IH k x _ (expects_now _ _)) as (A & B). split.
    + intros Ho. destruct (A Ho) as (q3 & D3 & R3). exists q3. split; [exact D3|]. econstructor; [eapply rs_expr; [exact E|apply opens_not, Ht]|exact R3].
    + intros Ho M. destruct (B Ho M) as (q3 & D3 & R3). exists q3. split; [exact D3|]. econstructor; [eapply rs_expr; [exact E|apply opens_not, Ht]|exact R3].
  - intros w op t ts es m Hop Ht _ IH Hm k x q E. split; [intros _|discriminate]. destruct (IH k x _ (or_intror eq_refl)) as (q1 & N1 & R1).
    eexists. split; [apply done_value|]. econstructor; [eapply rs_expr; [exact E|eapply opens_nary; eassumption]|]. eapply reads_app; [exact R1|].
    apply reads_one. eapply rs_nary_mkay; [exact N1|exact Hm].
  - intros w op t ts es Hop Ht _ IH k x q E. split; [discriminate|]. intros _ M. destruct (IH k x _ (or_intror eq_refl)) as (q1 & N1 & R1).
    exists q1. split; [eapply in_nary_final; eassumption|]. econstructor; [eapply rs_expr; [exact E|eapply opens_nary; eassumption]|exact R1].
  - intros w op t ts es us e Hop Ht _ IH _ IH2 k x q E. split; [discriminate|]. intros _ M. destruct (IH k x _ (or_intror eq_refl)) as (q1 & N1 & R1).
    destruct (proj2 (IH2 _ _ _ (in_nary_expects _ _ _ N1)) eq_refl) as (q2 & F2 & R2).
    { destruct M as (M1 & M2). split; [constructor; auto|exact M2]. }
    exists q2. split; [exact F2|]. econstructor; [eapply rs_expr; [exact E|eapply opens_nary; eassumption]|]. eapply reads_app; eassumption.
  - intros k x q N. exists q. split; [exact N|constructor].
  - intros ts e ans an us es _ IH1 Han _ IH2 k x q N.
    destruct (proj1 (IH1 _ _ _ (in_nary_expects _ _ _ N)) eq_refl) as (q1 & D1 & R1).
    assert (X : exists q2, in_nary k x q2 /\ reads_to q1 ans q2).
    { destruct Han as [|u Hu]; [exists q1; split; [left; exact D1|constructor]|].
      eexists. split; [right; reflexivity|]. apply reads_one. eapply rs_nary_an; eassumption. }
    destruct X as (q2 & N2 & R2). destruct (IH2 _ _ _ N2) as (q3 & N3 & R3). exists q3. split; [exact N3|].
    eapply reads_app; [exact R1|]. eapply reads_app; eassumption.
Qed.
Lemma read_closed ts e k x q : d_expr false ts e -> expects k x q -> exists q', done k x q' /\ reads_to q ts q'.
Proof. intros H E. exact (proj1 (proj1 read_exprs_mut _ _ _ H k x q E) eq_refl). Qed.
Lemma read_last o ts e k x q : d_expr o ts e -> expects k x q -> may_end k x -> exists q', final q' /\ reads_to q ts q'.
Proof.
  intros H E M. destruct o; [exact (proj2 (proj1 read_exprs_mut _ _ _ H k x q E) eq_refl M)|].
  destruct (read_closed _ _ _ _ _ H E) as (q' & D & R). exists q'. split; [eapply done_final; eassumption|exact R].
Qed.
Lemma read_end o ts e : d_expr o ts e -> exists q', final q' /\ reads_to (RExpr [] AtEnd) ts q'.
Proof. intros H. eapply read_last; [exact H|constructor|]. split; [constructor|discriminate]. Qed.
Lemma read_visible o us es : d_exprs o us es -> forall q, done [] InVisible q ->
  exists q', final q' /\ (o = false -> done [] InVisible q') /\ reads_to q us q'.
Proof.
  assert (M : may_end [] InVisible) by (split; [constructor|discriminate]).
  intros H. induction H as [|o ts e H|o ts e us es H _ IH _]; intros q D.
  - exists q. split; [eapply done_final; eassumption|]. split; [auto|constructor].
  - destruct o.
    + destruct (read_last _ _ _ _ _ _ H (expects_argument _ D) M) as (q' & F & R). exists q'. split; [exact F|]. split; [discriminate|exact R].
    + destruct (read_closed _ _ _ _ _ H (expects_argument _ D)) as (q' & F & R). exists q'. split; [eapply done_final; eassumption|]. split; [auto|exact R].
  - destruct (read_closed _ _ _ _ _ H (expects_argument _ D)) as (q' & F & R). destruct (IH _ F) as (q2 & F2 & D2 & R2).
    exists q2. split; [exact F2|]. split; [exact D2|]. eapply reads_app; eassumption.
Qed.
Definition in_args (q : reader) : Prop := q = RNamed AsCalled \/ q = RArgs.
Lemma read_args us es : d_args us es -> forall q, in_args q -> exists q', (in_args q' \/ done [] InCall q') /\ reads_to q us q'.
Proof.
  intros H. induction H as [|yr ts e H1 H2|yr ts e an us es H1 H2 H3 _ IH]; intros q A.
  - exists q. split; [left; exact A|constructor].
  - destruct (read_closed _ _ _ _ _ H2 (expects_now [] InCall)) as (q' & D & R). exists q'. split; [right; exact D|].
    econstructor; [apply rs_yr; eassumption|exact R].
  - destruct (read_closed _ _ _ _ _ H2 (expects_now [] InCall)) as (q' & D & R). destruct (IH RArgs (or_intror eq_refl)) as (q2 & A2 & R2).
    exists q2. split; [exact A2|]. econstructor; [apply rs_yr; eassumption|]. eapply reads_app; [exact R|].
    econstructor; [eapply rs_arg_an; eassumption|exact R2].
Qed.
Lemma read_params us ps : d_params us ps -> forall q, q = RNamed AsFunction \/ q = RParams -> exists q', final q' /\ reads_to q us q'.
Proof.
  intros H. induction H as [|yr ts e H1 H2|yr ts e an us es H1 H2 H3 _ IH]; intros q A.
  - exists q. split; [destruct A; subst; exact I|constructor].
  - exists (RNamed AsParam). split; [exact I|]. econstructor; [apply rs_param; eassumption|]. eapply read_identifier; [apply names_name|exact H2].
  - destruct (IH RParams (or_intror eq_refl)) as (q2 & A2 & R2). exists q2. split; [exact A2|].
    econstructor; [apply rs_param; eassumption|]. eapply reads_app; [eapply read_identifier; [apply names_name|exact H2]|].
    econstructor; [apply rs_param_an, H3|exact R2].
Qed.
Lemma expr_step t q : rstep (RExpr [] AtEnd) t q -> opens [] AtEnd t q.
Proof.
  intros H. inversion H; subst; repeat match goal with
  | H : _ \/ _ |- _ => destruct H
  | H : done _ _ _ |- _ => inversion H; clear H; subst
  | H : RExpr _ _ = _ |- _ => discriminate H
  end.
  match goal with H : expects _ _ _ |- _ => inversion H; subst end; [assumption|..];
    match goal with H : done _ _ _ |- _ => inversion H end.
Qed.
Lemma read_start s open t l q : in_block s open -> reads_to (RExpr [] AtEnd) (t :: l) q -> ~ ident_tok t -> ~ kw SRS t ->
  reads_to (RStart s) (t :: l) q.
Proof.
  intros B H N1 N2. inversion H as [|? ? q1 ? ? H1 H2]; subst. econstructor; [|exact H2]. eapply rs_expression; [exact B|apply expr_step, H1|exact N1|exact N2].
Qed.
Lemma read_line s open l n : in_block s open -> d_line l n -> exists q, final q /\ reads_to (RStart s) l q.
Proof.
  intros B H. destruct H as [t ts i us init H1 H2 H3|t o ts es H1 H2|t ts es x H1 H2 H3|t ts v H1 H2|t o ts e H1 H2|t H1|t H1
    |t ts v us es m H1 H2 H3 H4|ts v r o us e H1 H2 H3|ts v h us i itz o ws e H1 H2 H3 H4 H5|o ts e H1].
  - assert (R : reads_to (RStart s) (t :: ts) (RNamed AsDeclared)).
    { econstructor; [eapply rs_i_has_a; eassumption|]. eapply read_identifier; [apply names_name|exact H2]. }
    change (t :: ts ++ us) with ((t :: ts) ++ us). destruct H3 as [|itz u ty K1 K2|itz o ws e K1 K2 _].
    + exists (RNamed AsDeclared). split; [exact I|]. rewrite app_nil_r. exact R.
    + assert (X : exists q, final q /\ rstep RInit u q).
      { destruct K2; try (exists REnd; split; [exact I|]; apply rs_type; eexists; split; [|eassumption]; cbn [In]; tauto).
        exists (RDone [] AtEnd). split; [split; [constructor|discriminate]|]. eapply rs_expr; [apply expects_initial|apply opens_noob; assumption]. }
      destruct X as (q & F & X). exists q. split; [exact F|]. eapply reads_app; [exact R|]. econstructor; [apply rs_itz, K1|apply reads_one, X].
    + destruct (read_last _ _ _ _ _ _ K2 expects_initial) as (q & F & X); [split; [constructor|discriminate]|].
      exists q. split; [exact F|]. eapply reads_app; [exact R|]. econstructor; [apply rs_itz, K1|exact X].
  - destruct (read_visible _ _ _ H2 _ (done_value _ _)) as (q & F & _ & R). exists q. split; [exact F|]. econstructor; [eapply rs_visible; eassumption|exact R].
  - destruct (read_visible _ _ _ H2 _ (done_value _ _)) as (q & F & D & R). exists REnd. split; [exact I|].
    econstructor; [eapply rs_visible; eassumption|]. eapply reads_app; [exact R|]. apply reads_one. apply rs_bang; auto.
  - exists (RNamed AsInput). split; [exact I|]. econstructor; [eapply rs_gimmeh; eassumption|]. eapply read_va; [apply names_name|exact I|exact H2].
  - destruct (read_end _ _ _ H2) as (q & F & R). exists q. split; [exact F|]. econstructor; [eapply rs_found_yr; eassumption|exact R].
  - exists REnd. split; [exact I|]. apply reads_one. eapply rs_kthxbye; eassumption.
  - exists REnd. split; [exact I|]. apply reads_one. eapply rs_gtfo; eassumption.
  - destruct (read_args _ _ H3 _ (or_introl eq_refl)) as (q & A & R). exists REnd. split; [exact I|].
    econstructor; [eapply rs_i_iz; eassumption|]. eapply reads_app; [eapply read_va; [apply names_name|exact I|exact H2]|].
    eapply reads_app; [exact R|]. apply reads_one. apply rs_call_end; [unfold in_args in A; tauto|exact H4].
  - destruct (read_end _ _ _ H3) as (q & F & R). exists q. split; [exact F|].
    eapply reads_app; [eapply read_va; [eapply names_first, B|exact I|exact H1]|]. econstructor; [apply rs_r, H2|exact R].
  - destruct (read_end _ _ _ H5) as (q & F & R). exists q. split; [exact F|].
    eapply reads_app; [eapply read_va; [eapply names_first, B|exact I|exact H1]|]. econstructor; [apply rs_has_a, H2|].
    eapply reads_app; [eapply read_identifier; [apply names_name|exact H3]|]. econstructor; [apply rs_slot_itz, H4|exact R].
  - destruct (read_end _ _ _ H1) as (q & F & R).
    destruct H1 as [t H|t H|ts v H|w op t o ls l ans an rs r Hop Ht HL HA HR|t o ts e Ht HE|w op t ts es m Hop Ht HO Hm|w op t ts es Hop Ht HO|w op t ts es us e Hop Ht HO HE].
    3: { exists (RNamed AsFirst). split; [exact I|]. eapply read_va; [eapply names_first, B|exact I|exact H]. }
    all: exists q; (split; [exact F|]); eapply read_start; [exact B|exact R| |].
    all: try (intros (z & Z); unfold kw, value_tok in *; try destruct H as (y & H); congruence).
    all: intros Z; unfold kw, value_tok in *; try (destruct H as (y & H)); try congruence; rewrite Ht in Z; injection Z as ->; inversion Hop.
Qed.

Lemma read_step s l s' : step s l s' -> exists q, final q /\ reads_to (RStart s) l q.
Proof.
  intros H. destruct H as [s open l n Hs Hl|s open t v Hs Hk|s open t lb its it cs cond Hs H1 H2 H3 H4|s open t ts i us ps Hs H1 H2 H3
    |s open t q Hs H1 H2|s open t q Hs H1 H2|open|open| |l|open t lb H1 H2|open t H1|s open t o ts e Hs H1 H2|s open t Hs H1|s open t Hs H1
    |open t H1|s open t o ts e Hs H1 H2|s open t Hs H1|s open t Hs H1].
  - eapply read_line; eassumption.
  - exists RRest. split; [exact I|]. econstructor; [eapply rs_hai; eassumption|]. induction v; econstructor; [apply rs_rest|assumption].
  - assert (X : exists q, (q = RLoop \/ q = RNamed AsCounter) /\ reads_to RLoop its q).
    { destruct H3 as [|u yr ts v K1 K2 K3|u yr ts v K1 K2 K3].
      - exists RLoop. split; [left; reflexivity|constructor].
      - exists (RNamed AsCounter). split; [right; reflexivity|]. econstructor; [apply rs_uppin; left; exact K1|].
        econstructor; [apply rs_counter, K2|]. eapply read_va; [apply names_name|exact I|exact K3].
      - exists (RNamed AsCounter). split; [right; reflexivity|]. econstructor; [apply rs_uppin; right; exact K1|].
        econstructor; [apply rs_counter, K2|]. eapply read_va; [apply names_name|exact I|exact K3]. }
    destruct X as (q & Q & R). assert (Y : exists q', final q' /\ reads_to q cs q').
    { destruct H4 as [|u o ts e K1 K2|u o ts e K1 K2].
      - exists q. split; [destruct Q; subst; exact I|constructor].
      - destruct (read_end _ _ _ K2) as (q' & F & R'). exists q'. split; [exact F|]. econstructor; [apply rs_until; [exact Q|left; exact K1]|exact R'].
      - destruct (read_end _ _ _ K2) as (q' & F & R'). exists q'. split; [exact F|]. econstructor; [apply rs_until; [exact Q|right; exact K1]|exact R']. }
    destruct Y as (q' & F & R'). exists q'. split; [exact F|]. econstructor; [eapply rs_loop; eassumption|].
    econstructor; [apply rs_label, H2|]. eapply reads_app; eassumption.
  - destruct (read_params _ _ H3 _ (or_introl eq_refl)) as (q & F & R). exists q. split; [exact F|].
    econstructor; [eapply rs_function; eassumption|]. eapply reads_app; [eapply read_identifier; [apply names_name|exact H2]|exact R].
  - exists REnd. split; [exact I|]. econstructor; [eapply rs_wtf; [exact Hs|left; exact H1]|]. apply reads_one. apply rs_question, H2.
  - exists REnd. split; [exact I|]. econstructor; [eapply rs_wtf; [exact Hs|right; exact H1]|]. apply reads_one. apply rs_question, H2.
  - eexists. split; [|constructor]. exact I.
  - eexists. split; [|constructor]. exact I.
  - eexists. split; [|constructor]. exact I.
  - destruct l as [|t l]; [eexists; split; [|constructor]; exact I|]. exists RRest. split; [exact I|].
    econstructor; [apply rs_ended|]. induction l; econstructor; [apply rs_rest|assumption].
  - exists REnd. split; [exact I|]. econstructor; [apply rs_loop_end, H1|]. apply reads_one. apply rs_end_label, H2.
  - exists REnd. split; [exact I|]. apply reads_one. apply rs_function_end, H1.
  - destruct (read_end _ _ _ H2) as (q & F & R). exists q. split; [exact F|]. econstructor; [eapply rs_omg; eassumption|exact R].
  - exists REnd. split; [exact I|]. apply reads_one. eapply rs_omgwtf; eassumption.
  - exists REnd. split; [exact I|]. apply reads_one. eapply rs_switch_end; eassumption.
  - exists REnd. split; [exact I|]. apply reads_one. eapply rs_ya_rly; eassumption.
  - destruct (read_end _ _ _ H2) as (q & F & R). exists q. split; [exact F|]. econstructor; [eapply rs_mebbe; eassumption|exact R].
  - exists REnd. split; [exact I|]. apply reads_one. eapply rs_no_wai; eassumption.
  - exists REnd. split; [exact I|]. apply reads_one. eapply rs_if_end; eassumption.
Qed.

(** ** What is read is a line of the grammar *)
Section Needs.
Variable follow : list token -> Prop.
Variable ok : Prop.
(** An expression and what follows it. *)
Definition needs_ (R : list token) : Prop :=
  exists o ts e R', R = ts ++ R' /\ d_expr o ts e /\ (o = false /\ follow R' \/ o = true /\ R' = [] /\ ok).
(** The rest of an n-ary operation and what follows it. *)
Definition more_ (R : list token) : Prop :=
  exists us es, d_operands us es /\
    ((exists m R', R = us ++ m :: R' /\ kw MKAY m /\ follow R') \/ (R = us /\ ok) \/ exists ws e, R = us ++ ws /\ d_expr true ws e /\ ok).
End Needs.
Definition visible_rest (R : list token) : Prop :=
  (exists o es, d_exprs o R es) \/ exists us es x, R = us ++ [x] /\ d_exprs false us es /\ exclamation_tok x.
Definition args_rest (R : list token) : Prop := exists us es m, R = us ++ [m] /\ d_args us es /\ kw MKAY m.
Fixpoint follows (k : list pending) (x : context) (R : list token) : Prop :=
  match k with
  | [] => match x with
          | AtEnd => R = []
          | InVisible => visible_rest R
          | InCall => (exists m, R = [m] /\ kw MKAY m) \/ exists an R', R = an :: R' /\ kw AN an /\ args_rest R'
          end
  | PBinary :: k' => exists ans an R', R = ans ++ R' /\ d_opt AN ans an /\ needs_ (follows k' x) (may_end k' x) R'
  | PNary :: k' => exists ans an R', R = ans ++ R' /\ d_opt AN ans an /\ more_ (follows k' x) (may_end k' x) R'
  end.
Definition needs k x := needs_ (follows k x) (may_end k x).
Definition more k x := more_ (follows k x) (may_end k x).
Definition after_name (c : naming) (R : list token) : Prop :=
  match c with
  | AsOperand k x => follows k x R
  | AsDeclared => exists init, d_initial R init
  | AsInput => R = []
  | AsCalled => args_rest R
  | AsFirst => R = [] \/ (exists r R', R = r :: R' /\ kw Keywords.R r /\ needs [] AtEnd R') \/
               exists h us i itz R', R = h :: us ++ itz :: R' /\ kw HAS_A h /\ d_identifier us i /\ kw ITZ itz /\ needs [] AtEnd R'
  | AsSlot => exists itz R', R = itz :: R' /\ kw ITZ itz /\ needs [] AtEnd R'
  | AsCounter => exists cond, d_condition R cond
  | AsFunction => exists ps, d_params R ps
  | AsParam => R = [] \/ exists an R' ps, R = an :: R' /\ kw AN an /\ d_params R' ps
  end.
Definition named (c : naming) (R : list token) : Prop :=
  exists us sl R', R = us ++ R' /\ d_slots us sl /\ (us = [] \/ slots_allowed c) /\ after_name c R'.
Definition lang (q : reader) (R : list token) : Prop :=
  match q with
  | RStart s => exists s', step s R s'
  | RName c => exists ts i R', R = ts ++ R' /\ d_identifier ts i /\ named c R'
  | RSrs c => exists t R', R = t :: R' /\ ident_tok t /\ named c R'
  | RNamed c => named c R
  | RExpr k x => needs k x R
  | RDone k x => follows k x R
  | RMore k x => more k x R
  | RInit => (exists t ty, R = [t] /\ d_type t ty) \/ needs [] AtEnd R
  | RArgs => args_rest R
  | RParams => exists ps, d_params R ps
  | RLabel => exists lb its it cs cond, R = lb :: its ++ cs /\ ident_tok lb /\ d_iteration its it /\ d_condition cs cond
  | RLoop => exists its it cs cond, R = its ++ cs /\ d_iteration its it /\ d_condition cs cond
  | RCounter => exists yr ts v cs cond, R = yr :: ts ++ cs /\ kw YR yr /\ d_va ts v /\ d_condition cs cond
  | REndLabel => exists lb, R = [lb] /\ ident_tok lb
  | RQuestion => exists z, R = [z] /\ question_tok z
  | RRest => True
  | REnd => R = []
  end.

Lemma needs_end R : needs [] AtEnd R <-> exists o e, d_expr o R e.
Proof.
  split.
  - intros (o & ts & e & R' & -> & H & [(_ & E)|(_ & E & _)]); cbn in E; subst; rewrite app_nil_r; eauto.
  - intros (o & e & H). exists o, R, e, []. split; [symmetry; apply app_nil_r|]. split; [exact H|].
    destruct o; [right|left]; repeat split; [constructor|discriminate].
Qed.
Lemma final_lang q : final q -> lang q [].
Proof.
  assert (F : forall k x, may_end k x -> follows k x []).
  { intros k x (H1 & H2). destruct k as [|p k].
    - destruct x; [reflexivity|left; exists false, []; constructor|contradiction].
    - inversion H1; subst. exists [], None, []. split; [reflexivity|]. split; [constructor|]. exists [], []. split; [constructor|].
      right. left. split; [reflexivity|split; assumption]. }
  assert (N : forall c, after_name c [] -> named c []).
  { intros c H. exists [], [], []. split; [reflexivity|]. split; [constructor|]. auto. }
  destruct q as [s|c|c|c|k x|k x|k x| | | | | | | | | |]; cbn [final lang]; try contradiction; intros H.
  - destruct s as [o|[|f o]|o|o|o|]; try contradiction; eexists; constructor.
  - apply N. destruct c; cbn [after_name]; try contradiction.
    + apply F, H.
    + exists None. constructor.
    + reflexivity.
    + left; reflexivity.
    + exists None. constructor.
    + exists []. constructor.
    + left; reflexivity.
  - apply F, H.
  - exists [], []. split; [constructor|]. right. left. auto.
  - exists []. constructor.
  - exists [], None, [], None. repeat split; constructor.
  - exact I.
  - reflexivity.
Qed.

Lemma named_now c R : after_name c R -> named c R.
Proof. intros H. exists [], [], R. split; [reflexivity|]. split; [constructor|]. auto. Qed.
Lemma done_lang k x q R : done k x q -> follows k x R -> lang q R.
Proof. intros [] H; [exact H|apply named_now, H]. Qed.
Lemma operand_more k x R : needs (PNary :: k) x R -> more k x R.
Proof.
  intros (o & ts & e & R' & -> & H & [(-> & ans & an & R1 & -> & HA & us & es & HO & K)|(-> & -> & M)]).
  - exists (ts ++ ans ++ us), (Operand e an :: es). split; [constructor; assumption|].
    destruct K as [(m & R2 & -> & K)|[(-> & K)|(ws & e' & -> & K)]].
    + left. exists m, R2. rewrite <- !app_assoc. auto.
    + right. left. auto.
    + right. right. exists ws, e'. rewrite <- !app_assoc. auto.
  - exists [], []. split; [constructor|]. right. right. exists ts, e. split; [apply app_nil_r|]. split; [exact H|].
    destruct M as (M1 & M2). inversion M1; subst. split; assumption.
Qed.
Lemma argument_rest R : needs [] InVisible R -> visible_rest R.
Proof.
  intros (o & ts & e & R' & -> & H & [(-> & [(o' & es & K)|(us & es & b & -> & K & B)])|(-> & -> & _)]).
  - left. exists o', (e :: es). destruct es as [|e' es].
    + inversion K; subst. rewrite app_nil_r. constructor. exact H.
    + apply d_exprs_cons; [exact H|exact K|discriminate].
  - right. exists (ts ++ us), (e :: es), b. split; [apply app_assoc|]. split; [|exact B]. destruct es as [|e' es].
    + inversion K; subst. rewrite app_nil_r. constructor. exact H.
    + apply d_exprs_cons; [exact H|exact K|discriminate].
  - left. exists true, [e]. rewrite app_nil_r. constructor. exact H.
Qed.
Lemma expects_lang k x q R : expects k x q -> needs k x R -> lang q R.
Proof.
  intros [k0 x0|k0 x0 q0 D|k0 x0 q0 D|k0 x0|q0 D|] H.
  - exact H.
  - apply (done_lang _ _ _ _ D). exists [], None, R. split; [reflexivity|]. split; [constructor|exact H].
  - apply (done_lang _ _ _ _ D). exists [], None, R. split; [reflexivity|]. split; [constructor|apply operand_more, H].
  - apply operand_more, H.
  - apply (done_lang _ _ _ _ D). apply argument_rest, H.
  - right. exact H.
Qed.
Lemma opens_lang k x t q R : opens k x t q -> lang q R -> needs k x (t :: R).
Proof.
  intros [u H|u H|u H|u H|w op u H1 H2|u H|w op u H1 H2] L; cbn [lang] in L.
  - exists false, [u], (Value (LiteralValue u)), R. split; [reflexivity|]. split; [apply d_literal, H|auto].
  - exists false, [u], (Value (LiteralValue u)), R. split; [reflexivity|]. split; [apply d_noob, H|auto].
  - destruct L as (us & sl & R' & -> & S & _ & A). exists false, ([u] ++ us), (Value (VariableAccess (mkVA (mkIdentifier u None) sl))), R'.
    split; [reflexivity|]. split; [|auto]. apply d_variable. constructor; [constructor; exact H|exact S].
  - destruct L as (v & R0 & -> & Hv & us & sl & R' & -> & S & _ & A).
    exists false, ([u; v] ++ us), (Value (VariableAccess (mkVA (mkIdentifier v (Some u)) sl))), R'.
    split; [reflexivity|]. split; [|auto]. apply d_variable. constructor; [constructor; assumption|exact S].
  - destruct L as (o1 & ls & l & R' & -> & HL & [(-> & ans & an & R1 & -> & HA & o & rs & r & R2 & -> & HR & K)|(-> & -> & M & _)]); [|inversion M; discriminate].
    exists o, (u :: ls ++ ans ++ rs), (BinaryOperation l (op u) r an), R2. split; [cbn [app]; rewrite <- !app_assoc; reflexivity|].
    split; [eapply d_binary; eassumption|exact K].
  - destruct L as (o & ts & e & R' & -> & HE & K). exists o, (u :: ts), (UnaryOperation (UNot u) e), R'. split; [reflexivity|].
    split; [apply d_not; assumption|exact K].
  - destruct L as (us & es & HO & [(m & R' & -> & Hm & K)|[(-> & M)|(ws & e & -> & HE & M)]]).
    + exists false, (u :: us ++ [m]), (NaryOperation (op u) es (Some m)), R'. split; [cbn [app]; rewrite <- app_assoc; reflexivity|].
      split; [eapply d_nary_closed; eassumption|auto].
    + exists true, (u :: us), (NaryOperation (op u) es None), []. split; [symmetry; apply app_nil_r|]. split; [eapply d_nary_open; eassumption|auto].
    + exists true, (u :: us ++ ws), (NaryOperation (op u) (es ++ [Operand e None]) None), []. split; [symmetry; apply app_nil_r|].
      split; [eapply d_nary_open_last; eassumption|auto].
Qed.
Lemma va_slots ts i c R : d_identifier ts i -> named c R -> exists vs v R', ts ++ R = vs ++ R' /\ d_va vs v /\ after_name c R'.
Proof.
  intros H (ws & sl' & R' & -> & S & _ & A). exists (ts ++ ws), (mkVA i sl'), R'. split; [apply app_assoc|]. split; [constructor; assumption|exact A].
Qed.
Lemma first_line ts i R : d_identifier ts i -> named AsFirst R -> exists n, d_line (ts ++ R) n.
Proof.
  intros H N. destruct (va_slots ts i AsFirst R H N) as (vs & v & R' & -> & V & A). cbn [after_name] in A.
  destruct A as [->|[(r & R1 & -> & Hr & K)|(h & us & j & itz & R1 & -> & Hh & Hj & Hi & K)]].
  - rewrite app_nil_r. eexists. eapply d_expression. apply d_variable, V.
  - apply needs_end in K as (o & e & K). eexists. eapply d_assignment; eassumption.
  - apply needs_end in K as (o & e & K). eexists. eapply d_set_slot; eassumption.
Qed.
Lemma line_lang s open l : in_block s open -> (exists n, d_line l n) -> lang (RStart s) l.
Proof. intros B (n & H). eexists. eapply step_line; eassumption. Qed.

Lemma initial_expr itz R o e : kw ITZ itz -> d_expr o R e -> exists init, d_initial (itz :: R) init.
Proof.
  intros H K. assert (D : (exists z, R = [z] /\ kw NOOB z) \/ forall z, R = [z] -> ~ kw NOOB z).
  { destruct R as [|z [|z' R]]; try (right; intros ? X; discriminate X). destruct (is_kw NOOB z) eqn:E.
    - left. exists z. split; [reflexivity|]. apply is_kw_iff, E.
    - right. intros z0 X N. injection X as <-. apply is_kw_iff in N. congruence. }
  destruct D as [(z & -> & N)|D]; eexists; [eapply d_initial_type; [exact H|constructor; exact N]|eapply d_initial_expr; eassumption].
Qed.
Lemma lang_step q t q' R : rstep q t q' -> lang q' R -> lang q (t :: R).
Proof.
  intros H. destruct H; intros L; cbn [lang] in L.
  - exists [t], (mkIdentifier t None), R. split; [reflexivity|]. split; [constructor; assumption|exact L].
  - destruct L as (u & R' & -> & Hu & N). exists [t; u], (mkIdentifier u (Some t)), R'. split; [reflexivity|]. split; [constructor; assumption|exact N].
  - exists t, R. auto.
  - destruct L as (ts & i & R0 & -> & Hi & us & sl & R' & -> & S & _ & A). exists (t :: ts ++ us), (mkSlot t i :: sl), R'.
    split; [cbn [app]; rewrite <- app_assoc; reflexivity|]. split; [constructor; assumption|]. split; [right; assumption|exact A].
  - eapply expects_lang; [eassumption|]. eapply opens_lang; eassumption.
  - eapply done_lang; [eassumption|]. exists [t], (Some t), R. split; [reflexivity|]. split; [constructor; assumption|exact L].
  - eapply done_lang; [eassumption|]. exists [t], (Some t), R. split; [reflexivity|]. split; [constructor; assumption|exact L].
  - assert (M : more k x (t :: R)) by (exists [], []; split; [constructor|]; left; exists t, R; auto).
    destruct H as [H| ->]; [|exact M]. eapply done_lang; [eassumption|]. exists [], None, (t :: R). split; [reflexivity|]. split; [constructor|exact M].
  - destruct L as (ts & i & R0 & -> & Hi & us & sl & R' & -> & _ & [->|[]] & init & A). eapply line_lang; [eassumption|].
    eexists. eapply d_i_has_a; eassumption.
  - apply named_now. destruct L as [(u & ty & -> & Hu)|L].
    + eexists. eapply d_initial_type; eassumption.
    + apply needs_end in L as (o & e & L). apply initial_expr with (o := o) (e := e); assumption.
  - destruct H as (k & Hk & Ht). left. exists t. destruct Hk as [<-|[<-|[<-|[<-|[<-|[]]]]]]; subst R; eexists; (split; [reflexivity|]); constructor; exact Ht.
  - eapply line_lang; [eassumption|]. destruct L as [(o & es & L)|(us & es & b & -> & L & B)]; eexists; [eapply d_visible; eassumption|eapply d_visible_bang; eassumption].
  - eapply done_lang; [eassumption|]. subst R. right. exists [], [], t. split; [reflexivity|]. split; [constructor|assumption].
  - eapply line_lang; [eassumption|]. destruct L as (ts & i & R0 & -> & Hi & N). destruct (va_slots ts i _ _ Hi N) as (vs & v & R' & -> & V & ->).
    rewrite app_nil_r. eexists. eapply d_gimmeh; eassumption.
  - eapply line_lang; [eassumption|]. apply needs_end in L as (o & e & L). eexists. eapply d_found_yr; eassumption.
  - subst R. eapply line_lang; [eassumption|]. eexists. apply d_kthxbye. assumption.
  - subst R. eapply line_lang; [eassumption|]. eexists. apply d_gtfo. assumption.
  - eapply line_lang; [eassumption|]. destruct L as (ts & i & R0 & -> & Hi & N). destruct (va_slots ts i _ _ Hi N) as (vs & v & R' & -> & V & us & es & m & -> & A & M).
    eexists. eapply d_i_iz; eassumption.
  - destruct L as (o & ts & e & R' & -> & HE & [(-> & K)|(_ & _ & _ & X)]); [|contradiction].
    assert (A : args_rest (t :: ts ++ R')).
    { destruct K as [(m & -> & M)|(an & R1 & -> & HA & us & es & m & -> & A & M)].
      - exists (t :: ts), [e], m. split; [reflexivity|]. split; [constructor; assumption|exact M].
      - exists (t :: ts ++ an :: us), (e :: es), m. split; [cbn [app]; rewrite <- app_assoc; reflexivity|]. split; [constructor; assumption|exact M]. }
    destruct H as [-> | ->]; [apply named_now, A|exact A].
  - eapply done_lang; [eassumption|]. right. exists t, R. auto.
  - subst R. assert (A : args_rest [t]) by (exists [], [], t; split; [reflexivity|]; split; [constructor|assumption]).
    destruct H as [-> |[-> |D]]; [apply named_now, A|exact A|]. eapply done_lang; [exact D|]. left. exists t. auto.
  - eapply line_lang; [eassumption|]. apply (first_line [t] (mkIdentifier t None)); [constructor; assumption|exact L].
  - eapply line_lang; [eassumption|]. destruct L as (u & R' & -> & Hu & N). apply (first_line [t; u] (mkIdentifier u (Some t))); [constructor; assumption|exact N].
  - apply named_now. right. left. exists t, R. auto.
  - apply named_now. right. right. destruct L as (ts & i & R0 & -> & Hi & us & sl & R' & -> & _ & [->|[]] & itz & R1 & -> & Hz & K).
    exists t, ts, i, itz, R1. auto.
  - apply named_now. exists t, R. auto.
  - eapply line_lang; [eassumption|]. pose proof (opens_lang _ _ _ _ _ H0 L) as K. apply needs_end in K as (o & e & K). eexists. eapply d_expression, K.
  - eexists. eapply step_hai; eassumption.
  - destruct L as (lb & its & it & cs & cond & -> & K1 & K2 & K3). eexists. eapply step_loop; eassumption.
  - destruct L as (its & it & cs & cond & -> & K1 & K2). exists t, its, it, cs, cond. auto.
  - destruct L as (yr & ts & v & cs & cond & -> & K1 & K2 & K3). destruct H as [H|H];
      (eexists (t :: yr :: ts), _, cs, cond; split; [reflexivity|]; split; [constructor; eassumption|exact K3]).
  - destruct L as (ts & i & R0 & -> & Hi & N). destruct (va_slots ts i _ _ Hi N) as (vs & v & R' & -> & V & cond & A). exists t, vs, v, R', cond. auto.
  - apply needs_end in L as (o & e & L). assert (A : exists cond, d_condition (t :: R) cond) by (destruct H0; eexists; econstructor; eassumption).
    destruct H as [-> | ->]; [|apply named_now, A]. destruct A as (cond & A). exists [], None, (t :: R), cond. split; [reflexivity|]. split; [constructor|exact A].
  - destruct L as (ts & i & R0 & -> & Hi & us & sl & R' & -> & _ & [->|[]] & ps & A). eexists. eapply step_function; eassumption.
  - destruct L as (ts & i & R0 & -> & Hi & us & sl & R' & -> & _ & [->|[]] & A). assert (P : exists ps, d_params (t :: ts ++ R') ps).
    { destruct A as [->|(an & R1 & ps & -> & HA & P)]; [rewrite app_nil_r; eexists; apply d_params_last; eassumption|eexists; apply d_params_cons; eassumption]. }
    destruct H as [-> | ->]; [apply named_now, P|exact P].
  - destruct L as (ps & L). apply named_now. right. exists t, R, ps. auto.
  - destruct L as (z & -> & Hz). destruct H0; eexists; [eapply step_wtf; eassumption|eapply step_o_rly; eassumption].
  - subst R. exists t. auto.
  - eexists. apply step_ended.
  - exact I.
  - destruct L as (lb & -> & K). eexists. apply step_loop_end; assumption.
  - subst R. exists t. auto.
  - subst R. eexists. apply step_function_end. assumption.
  - apply needs_end in L as (o & e & L). eexists. eapply step_omg; eassumption.
  - subst R. eexists. eapply step_omgwtf; eassumption.
  - subst R. eexists. eapply step_switch_end; eassumption.
  - subst R. eexists. eapply step_ya_rly; eassumption.
  - apply needs_end in L as (o & e & L). eexists. eapply step_mebbe; eassumption.
  - subst R. eexists. eapply step_no_wai; eassumption.
  - subst R. eexists. eapply step_if_end; eassumption.
Qed.
Lemma reads_lang q l q' : reads_to q l q' -> forall R, lang q' R -> lang q (l ++ R).
Proof.
  induction 1 as [|q t q1 l q2 H _ IH]; intros R L; [exact L|]. cbn [app]. eapply lang_step; [exact H|apply IH, L].
Qed.
Theorem line_iff s l : (exists s', step s l s') <-> exists q, reads_to (RStart s) l q /\ final q.
Proof.
  split.
  - intros (s' & H). destruct (read_step _ _ _ H) as (q & F & R). eauto.
  - intros (q & R & F). pose proof (reads_lang _ _ _ R [] (final_lang _ F)) as L. rewrite app_nil_r in L. exact L.
Qed.

(** ** Finishing a line *)
Lemma finish_ok k : forall x q, done k x q -> exists q', reads_to q (finish k x) q' /\ final q'.
Proof.
  assert (V : value_tok some_value) by (eexists; reflexivity).
  induction k as [|[] k IH]; intros x q D; cbn [finish].
  - destruct x.
    + exists q. split; [constructor|]. eapply done_final; [exact D|]. split; [constructor|discriminate].
    + exists q. split; [constructor|]. eapply done_final; [exact D|]. split; [constructor|discriminate].
    + exists REnd. split; [|exact I]. apply reads_one. apply rs_call_end; [auto|reflexivity].
  - destruct (IH x _ (done_value k x)) as (q' & R & F). exists q'. split; [|exact F].
    econstructor; [eapply rs_expr; [apply expects_second, D|apply opens_value, V]|exact R].
  - destruct (IH x _ (done_value k x)) as (q' & R & F). exists q'. split; [|exact F].
    econstructor; [eapply rs_nary_mkay; [left; exact D|reflexivity]|exact R].
Qed.
Lemma finish_name_ok c : exists q', reads_to (RNamed c) (finish_name c) q' /\ final q'.
Proof.
  assert (V : value_tok some_value) by (eexists; reflexivity).
  destruct c; cbn [finish_name]; try (eexists; split; [constructor|exact I]).
  - apply finish_ok. constructor.
  - exists REnd. split; [|exact I]. apply reads_one. apply rs_call_end; [auto|reflexivity].
  - exists (RDone [] AtEnd). split; [|split; [constructor|discriminate]]. econstructor; [apply rs_slot_itz; reflexivity|].
    apply reads_one. eapply rs_expr; [apply expects_now|apply opens_value, V].
Qed.
Lemma finish_line_ok q : exists q', reads_to q (finish_line q) q' /\ final q'.
Proof.
  assert (V : value_tok some_value) by (eexists; reflexivity).
  assert (X : ident_tok some_label) by (eexists; reflexivity).
  destruct q as [s|c|c|c|k x|k x|k x| | | | | | | | | |]; cbn [finish_line]; try (eexists; split; [constructor|exact I]).
  - destruct s as [o|o|o|o|o|]; try (exists REnd; split; [|exact I]; apply reads_one).
    + eapply rs_gtfo; [constructor|reflexivity].
    + eapply rs_gtfo; [constructor|reflexivity].
    + eexists; split; [constructor|exact I].
    + eapply rs_switch_end; [left; constructor|reflexivity].
    + eapply rs_if_end; [left; constructor|reflexivity].
    + eexists; split; [constructor|exact I].
  - destruct (finish_name_ok c) as (q' & R & F). exists q'. split; [|exact F]. econstructor; [apply rs_name, X|exact R].
  - destruct (finish_name_ok c) as (q' & R & F). exists q'. split; [|exact F]. econstructor; [apply rs_srs_name, X|exact R].
  - apply finish_name_ok.
  - destruct (finish_ok k x _ (done_value k x)) as (q' & R & F). exists q'. split; [|exact F].
    econstructor; [eapply rs_expr; [apply expects_now|apply opens_value, V]|exact R].
  - apply finish_ok. constructor.
  - destruct (finish_ok k x _ (done_value k x)) as (q' & R & F). exists q'. split; [|exact F].
    econstructor; [eapply rs_nary_mkay; [right; reflexivity|reflexivity]|exact R].
  - exists (RDone [] AtEnd). split; [|split; [constructor|discriminate]]. apply reads_one. eapply rs_expr; [apply expects_initial|apply opens_value, V].
  - exists REnd. split; [|exact I]. apply reads_one. apply rs_call_end; [auto|reflexivity].
  - exists RLoop. split; [|exact I]. apply reads_one. apply rs_label, X.
  - exists (RNamed AsCounter). split; [|exact I]. econstructor; [apply rs_counter; reflexivity|]. apply reads_one. apply rs_name, X.
  - exists REnd. split; [|exact I]. apply reads_one. apply rs_end_label, X.
  - exists REnd. split; [|exact I]. apply reads_one. apply rs_question. reflexivity.
Qed.
Theorem begun_line_iff s l : (exists r s', step s (l ++ r) s') <-> exists q, reads_to (RStart s) l q.
Proof.
  split.
  - intros (r & s' & H). destruct (proj1 (line_iff s (l ++ r)) (ex_intro _ s' H)) as (q & R & _).
    apply reads_split in R as (q' & R & _). eauto.
  - intros (q & R). destruct (finish_line_ok q) as (q' & R' & F). exists (finish_line q). apply line_iff. exists q'. split; [eapply reads_app; eassumption|exact F].
Qed.

(** ** One way only *)
Definition opener (t : token) : bool :=
  match tok_type t with
  | TValue _ | TIdentifier _ => true
  | TKeyword k => match k with
    | NOOB | SRS | NOT | BOTH_OF | EITHER_OF | WON_OF | SUM_OF | DIFF_OF | PRODUKT_OF | QUOSHUNT_OF | MOD_OF | BIGGR_OF | SMALLR_OF
    | BOTH_SAEM | DIFFRINT | ALL_OF | ANY_OF | SMOOSH => true
    | _ => false
    end
  | _ => false
  end.
Lemma opens_opener k x t q : opens k x t q -> opener t = true.
Proof.
  unfold opener. intros [u H|u H|u H|u H|w op u H1 H|u H|w op u H1 H]; unfold kw in H; try (destruct H as (y & H)); rewrite H; try reflexivity;
    destruct H1; reflexivity.
Qed.
Lemma opens_fun k x t q1 q2 : opens k x t q1 -> opens k x t q2 -> q1 = q2.
Proof.
  intros H K. destruct H as [u H|u H|u H|u H|w op u H1 H|u H|w op u H1 H]; inversion K as [v L|v L|v L|v L|w' op' v L1 L|v L|w' op' v L1 L]; subst; try reflexivity;
    unfold kw in *; try (destruct H as (y & H)); try (destruct L as (z & L)); rewrite H in L; try discriminate L; injection L as X; subst;
    try (destruct H1; discriminate); try (inversion H1; fail); try (inversion L1; fail); destruct H1; inversion L1.
Qed.
Lemma done_fun k x k' x' q : done k x q -> done k' x' q -> k = k' /\ x = x'.
Proof. intros [] H; inversion H; auto. Qed.

Ltac clash :=
  exfalso;
  repeat match goal with
  | H : is_type _ |- _ => destruct H as (? & H & ?); cbn [In] in H
  | H : _ \/ _ |- _ => destruct H
  | H : False |- _ => destruct H
  end; subst;
  repeat match goal with H : opens _ _ _ _ |- _ => apply opens_opener in H; unfold opener in H end;
  unfold kw, ident_tok, slot_tok, question_tok, exclamation_tok in *;
  repeat match goal with H : exists _, _ |- _ => destruct H end;
  match goal with
  | H : tok_type ?t = _, K : tok_type ?t = _ |- _ => rewrite H in K; discriminate K
  | H : tok_type ?t = _, K : context [tok_type ?t] |- _ => rewrite H in K; discriminate K
  | _ => congruence
  end.
Ltac places :=
  repeat match goal with
  | H : in_block _ _ |- _ => inversion H; clear H; subst
  | H : before_case _ _ |- _ => inversion H; clear H; subst
  | H : before_mebbe _ _ |- _ => inversion H; clear H; subst
  | H : expects _ _ _ |- _ => inversion H; clear H; subst
  | H : done _ _ _ |- _ => inversion H; clear H; subst
  | H : slots_allowed _ |- _ => cbn [slots_allowed] in H; try contradiction; clear H
  | H : _ \/ _ |- _ => match type of H with
      | _ = _ \/ _ => destruct H; try discriminate; subst
      | _ \/ done _ _ _ => destruct H; try discriminate; subst
      | done _ _ _ \/ _ => destruct H; try discriminate; subst
      | before_case _ _ \/ _ => destruct H; try discriminate; subst
      | before_mebbe _ _ \/ _ => destruct H; try discriminate; subst
      end
  end; try discriminate.
Theorem rstep_fun q t q1 q2 : rstep q t q1 -> rstep q t q2 -> q1 = q2.
Proof.
  intros H K. destruct H; inversion K; clear K; subst; places; try reflexivity; try congruence;
    try (eapply opens_fun; eassumption); try clash.
Qed.
Theorem reads_fun l : forall q q1 q2, reads_to q l q1 -> reads_to q l q2 -> q1 = q2.
Proof.
  induction l as [|t l IH]; intros q q1 q2 H K; inversion H; inversion K; subst; [reflexivity|].
  match goal with A : rstep q t ?x, B : rstep q t ?y |- _ => pose proof (rstep_fun _ _ _ _ A B); subst end. eapply IH; eassumption.
Qed.
Theorem next_iff s l q t : reads_to (RStart s) l q -> (exists r s', step s (l ++ t :: r) s') <-> exists q', rstep q t q'.
Proof.
  intros R. split.
  - intros (r & s' & H). change (t :: r) with ([t] ++ r) in H. rewrite app_assoc in H.
    destruct (proj1 (begun_line_iff s (l ++ [t]))) as (q2 & R2); [eauto|]. apply reads_split in R2 as (q1 & R1 & R2).
    rewrite (reads_fun _ _ _ _ R1 R) in R2. inversion R2; subst. eauto.
  - intros (q' & H). destruct (proj2 (begun_line_iff s (l ++ [t]))) as (r & s' & K).
    { exists q'. eapply reads_app; [exact R|apply reads_one, H]. }
    rewrite <- app_assoc in K. eauto.
Qed.

(** ** Programs *)
Definition error_free (ts : list token) : Prop := exists ns, parse ts = ParseOk (ASTBlock ns) /\ forallb node_clean ns = true.
Lemma inner_close_blocks open : Forall (Forall inner) (close_blocks open).
Proof. induction open as [|[] open IH]; cbn [close_blocks]; repeat first [exact IH|discriminate|constructor]. Qed.
Lemma inner_closing s : Forall (Forall inner) (closing s).
Proof. destruct s as [[|f o]|o|o|o|o|]; cbn [closing]; repeat first [apply inner_close_blocks|discriminate|constructor]. Qed.
Lemma inner_finish k x : Forall inner (finish k x).
Proof. induction k as [|[] k IH]; cbn [finish]; [destruct x|..]; repeat first [exact IH|discriminate|constructor]. Qed.
Lemma inner_finish_line q : Forall inner (finish_line q).
Proof.
  assert (N : forall c, Forall inner (finish_name c)) by (intros []; cbn [finish_name]; try apply inner_finish; repeat first [discriminate|constructor]).
  destruct q as [[]|c|c|c|k x|k x|k x| | | | | | | | | |]; cbn [finish_line]; try apply N; try apply inner_finish;
    repeat first [apply N|apply inner_finish|discriminate|constructor].
Qed.
Theorem tokens_iff ls l : Forall (Forall inner) ls -> Forall inner l ->
  (exists ts r ls2, logical_lines ts = ls ++ (l ++ r) :: ls2 /\ error_free ts) <->
  exists s q, steps (Fresh []) ls s /\ reads_to (RStart s) l q.
Proof.
  intros I1 I2. split.
  - intros (ts & r & ls2 & E & F). apply checked_tokens in F as (s' & S & _). rewrite E in S.
    apply steps_split in S as (s & S1 & S2). inversion S2 as [|? ? s1 ? ? H1 H2]; subst. exists s.
    destruct (proj1 (begun_line_iff s l)) as (q & Q); [eauto|]. eauto.
  - intros (s & q & S & Q). destruct (finish_line_ok q) as (q' & R' & F).
    destruct (proj2 (line_iff s (l ++ finish_line q))) as (s1 & S1); [exists q'; split; [eapply reads_app; eassumption|exact F]|].
    destruct (closing_ok s1) as (s2 & S2 & C).
    destruct (proj2 (lines_image (ls ++ (l ++ finish_line q) :: closing s1))) as (ts & E).
    { apply Forall_app. split; [exact I1|]. constructor; [apply Forall_app; split; [exact I2|apply inner_finish_line]|apply inner_closing]. }
    exists ts, (finish_line q), (closing s1). split; [exact E|]. apply checked_tokens. exists s2. split; [|exact C].
    rewrite E. eapply steps_app; [exact S|]. econstructor; [exact S1|exact S2].
Qed.
