(** Proofs for C93. *)
From Coq Require Import Lia List Bool.
From Verif Require Import Lines FirstError ExprGrammar CheckerProofs ReaderProofs AutomatonProofs FailureComplete Recovery RecoveryProps.
From Verif Require Export Earliest.
From Verif Require Import Failure.
Import ListNotations.
Local Open Scope list_scope.

Definition stops (p : list token) (q : reader) (l : list token) (f : failure) : Prop :=
  match f with
  | FErr e r =>
    (exists l1 t q', l = l1 ++ t :: r /\ error_tokens e = [t] /\ reads_to q l1 q' /\ reader_f q' t = None) \/
    (r = [] /\ exists t q', error_tokens e = [t] /\ In t (p ++ l) /\ reads_to q l q' /\ ~ final q')
  | FPanic c => exists l1 t r q', l = l1 ++ t :: r /\ panic_tokens c = [t] /\ reads_to q l1 q' /\ reader_f q' t = None
  end.
Lemma stops_app p q l1 q' l f : reads_to q l1 q' -> stops (p ++ l1) q' l f -> stops p q (l1 ++ l) f.
Proof.
  intros R S. destruct f as [e r|c]; cbn [stops] in *.
  - destruct S as [(l2 & t & q2 & -> & E & R2 & N)|(-> & t & q2 & E & I & R2 & N)].
    + left. exists (l1 ++ l2), t, q2. rewrite <- app_assoc. repeat split; auto. eapply reads_app; eassumption.
    + right. split; [reflexivity|]. exists t, q2. rewrite app_assoc. repeat split; auto. eapply reads_app; eassumption.
  - destruct S as (l2 & t & r & q2 & -> & E & R2 & N). exists (l1 ++ l2), t, r, q2. rewrite <- app_assoc. repeat split; auto. eapply reads_app; eassumption.
Qed.
Lemma stops_cons p q t q' l f : rstep q t q' -> stops (p ++ [t]) q' l f -> stops p q (t :: l) f.
Proof. intros R. apply (stops_app p q [t] q' l f). apply reads_one, R. Qed.
Lemma stops_here p q t r e : error_tokens e = [t] -> reader_f q t = None -> stops p q (t :: r) (FErr e r).
Proof. intros E N. left. exists [], t, q. repeat split; auto. constructor. Qed.
Lemma stops_panic p q t r c : panic_tokens c = [t] -> reader_f q t = None -> stops p q (t :: r) (FPanic c).
Proof. intros E N. exists [], t, r, q. repeat split; auto. constructor. Qed.
Lemma stops_end p q l q' e t : error_tokens e = [t] -> In t (p ++ l) -> reads_to q l q' -> ~ final q' -> stops p q l (FErr e []).
Proof. intros E I R N. right. split; [reflexivity|]. exists t, q'. auto. Qed.

Lemma name_blocked c t : ~ id_start t -> reader_f (RName c) t = None.
Proof.
  intros N. cbn [reader_f]. destruct (tok_type t) as [i|w|s|v|s|s| | | | |] eqn:E; try reflexivity; [destruct N; left; exists i; exact E|].
  destruct w; try reflexivity. destruct N. right. exact E.
Qed.
Lemma srs_blocked c t : ~ ident_tok t -> reader_f (RSrs c) t = None.
Proof. intros N. cbn [reader_f]. destruct (tok_type t) as [i|w|s|v|s|s| | | | |] eqn:E; try reflexivity. destruct N. exists i. exact E. Qed.
Lemma no_rstep q t : (forall q', ~ rstep q t q') -> reader_f q t = None.
Proof. intros N. destruct (reader_f q t) as [q'|] eqn:E; [|reflexivity]. destruct (N q'). apply reader_iff, E. Qed.
Lemma no_opens k x t : ~ starts_expr t -> opens_f k x t = None.
Proof.
  intros N. destruct (opens_f k x t) as [q|] eqn:E; [|reflexivity]. destruct N. apply opens_f_iff in E. unfold starts_expr, id_start, is_binary, is_nary. destruct E; eauto 10.
Qed.

(** ** Identifiers *)
Lemma stop_identifier l f : x_identifier l f -> forall p c q, names c q -> q = RName c \/ begins id_start l -> stops p q l f.
Proof.
  intros H p c q (N1 & N2) S. destruct H as [t r N|s H|s t r H N].
  - destruct S as [->|(u & r' & E & U)]; [|injection E as <- <-; contradiction]. apply stops_here; [reflexivity|apply name_blocked, N].
  - eapply (stops_end p q [s] (RSrs c) _ s); [reflexivity|apply in_or_app; right; left; reflexivity|apply reads_one, N2, H|auto].
  - eapply stops_cons; [apply N2, H|]. apply stops_here; [reflexivity|apply srs_blocked, N].
Qed.
Lemma stop_va l f : x_va l f -> forall p c q, names c q -> slots_allowed c -> q = RName c \/ begins id_start l -> stops p q l f.
Proof.
  intros H p c q N A S. destruct H as [l f H|ts v a H K|ts v a l f H K X].
  - eapply stop_identifier; eassumption.
  - eapply (stops_end p q (ts ++ [a]) (RName c) _ a); [reflexivity|rewrite !in_app_iff; right; right; left; reflexivity| |auto].
    eapply reads_app; [eapply read_va; eassumption|apply reads_one, rs_slot; assumption].
  - eapply stops_app; [eapply read_va; eassumption|]. eapply stops_cons; [apply rs_slot; assumption|].
    eapply stop_identifier; [exact X|apply names_name|left; reflexivity].
Qed.

(** ** Expressions *)
Definition ready (q : reader) (l : list token) : Prop := forall t r, l = t :: r -> ~ starts_expr t -> reader_f q t = None.
Definition ready_operand (q : reader) (l : list token) : Prop := forall t r, l = t :: r -> ~ starts_expr t -> ~ kw MKAY t -> reader_f q t = None.
Lemma ready_expr k x l : ready (RExpr k x) l.
Proof. intros t r -> N. apply no_opens, N. Qed.
Lemma ready_more k x l : ready_operand (RMore k x) l.
Proof.
  intros t r -> N M. cbn [reader_f]. unfold more_f. rewrite no_opens by exact N. destruct (tok_type t) as [i|w|s|v|s|s| | | | |] eqn:E; try reflexivity.
  destruct w; try reflexivity. destruct (M E).
Qed.
Lemma reads_named ts : forall q c, ts <> [] -> reads_to q ts (RNamed c) -> ends_with_identifier ts.
Proof.
  intros q c N R. destruct (exists_last N) as (us & t & ->). apply reads_split in R as (q' & _ & R). inversion R as [|? ? q2 ? ? S R2]; subst. inversion R2; subst.
  exists us, t. split; [reflexivity|]. inversion S; subst; try assumption; repeat match goal with H : opens _ _ _ _ |- _ => inversion H; clear H; subst end; assumption.
Qed.
Lemma slot_blocked q ts q' l o k x : ts <> [] -> reads_to q ts q' -> done k x q' -> fits o ts l ->
  forall t r, l = t :: r -> (forall q2, done_f k x t = Some q2 -> False) -> reader_f q' t = None.
Proof.
  intros N R D (_ & F) t r -> G. assert (G' : done_f k x t = None) by (destruct (done_f k x t) as [q2|]; [destruct (G q2 eq_refl)|reflexivity]).
  destruct D; cbn [reader_f named_f]; [exact G'|].
  assert (S : ~ slot_tok t) by (intros S; apply F; split; [eapply reads_named; eassumption|exists t, r; auto]).
  destruct (tok_type t) eqn:E; try exact G'. destruct (S E).
Qed.
Lemma expr_nonempty o ts e : d_expr o ts e -> ts <> [].
Proof. intros H. apply d_expr_first in H as (t & us & -> & _). discriminate. Qed.

Lemma read_open_mut :
  (forall o ts e, d_expr o ts e -> forall k x q, expects k x q -> o = true -> exists k' q', in_nary (k' ++ k) x q' /\ reads_to q ts q') /\
  (forall us es, d_operands us es -> True).
Proof.
  apply d_expr_mut; try (intros; exact I); try (intros; discriminate).
  - intros w op t o ls l ans an rs r Hop Ht Hl _ Han Hr IH2 k x q E ->.
    destruct (read_closed _ _ _ _ _ Hl (expects_now (PBinary :: k) x)) as (q1 & D1 & R1).
    assert (X : exists q2, expects k x q2 /\ reads_to q1 ans q2).
    { destruct Han as [|a Ha]; [exists q1; split; [apply expects_second, D1|constructor]|]. eexists. split; [apply expects_now|]. apply reads_one. eapply rs_binary_an; eassumption. }
    destruct X as (q2 & E2 & R2). destruct (IH2 k x q2 E2 eq_refl) as (k' & q3 & I3 & R3). exists k', q3. split; [exact I3|].
    econstructor; [eapply rs_expr; [exact E|eapply opens_binary; eassumption]|]. eapply reads_app; [exact R1|]. eapply reads_app; eassumption.
  - intros t o ts e Ht He IH k x q E ->. destruct (IH k x _ (expects_now k x) eq_refl) as (k' & q' & I' & R). exists k', q'. split; [exact I'|].
    econstructor; [eapply rs_expr; [exact E|apply opens_not, Ht]|exact R].
  - intros w op t ts es Hop Ht Hes _ k x q E _. destruct (proj2 read_exprs_mut _ _ Hes k x (RMore k x) (or_intror eq_refl)) as (q' & I' & R).
    exists [], q'. split; [exact I'|]. econstructor; [eapply rs_expr; [exact E|eapply opens_nary; eassumption]|exact R].
  - intros w op t ts es us e Hop Ht Hes _ He IH k x q E _. destruct (proj2 read_exprs_mut _ _ Hes k x (RMore k x) (or_intror eq_refl)) as (q1 & I1 & R1).
    destruct (IH _ x q1 (in_nary_expects _ _ _ I1) eq_refl) as (k' & q2 & I2 & R2). exists (k' ++ [PNary]), q2. rewrite <- app_assoc. split; [exact I2|].
    econstructor; [eapply rs_expr; [exact E|eapply opens_nary; eassumption]|]. eapply reads_app; eassumption.
Qed.
Lemma in_nary_not_final k x q : in_nary k x q -> ~ may_end k x -> ~ final q.
Proof. intros [[]| ->] N F; cbn [final] in F; apply N; [destruct F as (A & B); inversion A; split; auto..|exact F]. Qed.
Lemma done_not_final k x q : done k x q -> ~ may_end k x -> ~ final q.
Proof. intros [] N F; exact (N F). Qed.
Lemma read_unfinished o ts e k x q : d_expr o ts e -> expects k x q -> (forall k', ~ may_end (k' ++ k) x) ->
  exists q', ~ final q' /\ reads_to q ts q' /\ (o = false -> done k x q').
Proof.
  intros H E N. destruct o.
  - destruct (proj1 read_open_mut _ _ _ H k x q E eq_refl) as (k' & q' & I & R). exists q'. split; [eapply in_nary_not_final; [exact I|apply N]|]. split; [exact R|discriminate].
  - destruct (read_closed _ _ _ _ _ H E) as (q' & D & R). exists q'. split; [eapply done_not_final; [exact D|exact (N [])]|]. split; auto.
Qed.
Lemma binary_unfinished k' k x : ~ may_end (k' ++ PBinary :: k) x.
Proof. intros (A & _). apply Forall_app in A as (_ & A). inversion A. discriminate. Qed.
Lemma call_unfinished k : ~ may_end k InCall.
Proof. intros (_ & A). apply A. reflexivity. Qed.

Lemma stop_exprs_mut :
  (forall l f, x_expr l f -> forall p k x q, expects k x q -> ready q l -> stops p q l f) /\
  (forall l f, x_operands l f -> forall p k x q, in_nary k x q -> ready_operand q l -> stops p q l f).
Proof.
  apply x_expr_mut.
  - intros t r N _ p k x q E A. apply stops_here; [reflexivity|exact (A t r eq_refl N)].
  - intros t r M p k x q E A. apply stops_panic; [reflexivity|]. apply (A t r eq_refl). unfold starts_expr, id_start, is_binary, is_nary, value_tok, ident_tok, kw in *. rewrite M.
    intros [(v & X)|[X|[[(i & X)|X]|[(w & op & B & X)|[X|(w & op & B & X)]]]]]; try discriminate X; injection X as <-; inversion B.
  - intros l f B X p k x q E A. eapply stop_va; [exact X|apply names_expects, E|exact I|right; exact B].
  - intros t (w & op & B & K) p k x q E A. eapply (stops_end p q [t] (RExpr (PBinary :: k) x) _ t); [reflexivity|apply in_or_app; right; left; reflexivity| |auto].
    apply reads_one. eapply rs_expr; [exact E|eapply opens_binary; eassumption].
  - intros t l f (w & op & B & K) _ IH p k x q E A. eapply stops_cons; [eapply rs_expr; [exact E|eapply opens_binary; eassumption]|]. eapply IH; [apply expects_now|apply ready_expr].
  - intros t o ls e ans an (w & op & B & K) H Han O p k x q E A.
    destruct (read_unfinished _ _ _ _ _ _ H (expects_now (PBinary :: k) x)) as (q1 & N1 & R1 & D1); [intros k'; apply binary_unfinished|].
    assert (X : exists q2, ~ final q2 /\ reads_to q1 ans q2).
    { destruct Han as [|a Ha]; [exists q1; split; [exact N1|constructor]|]. destruct o; [discriminate (O eq_refl)|]. exists (RExpr k x). split; [auto|].
      apply reads_one. eapply rs_binary_an; [exact (D1 eq_refl)|exact Ha]. }
    destruct X as (q2 & N2 & R2). eapply (stops_end p q (t :: ls ++ ans) q2 _ t); [reflexivity|apply in_or_app; right; left; reflexivity| |exact N2].
    econstructor; [eapply rs_expr; [exact E|eapply opens_binary; eassumption]|]. eapply reads_app; eassumption.
  - intros t ls e ans an l f (w & op & B & K) H (Han & F & NA) _ IH p k x q E A.
    destruct (read_closed _ _ _ _ _ H (expects_now (PBinary :: k) x)) as (q1 & D1 & R1).
    eapply stops_cons; [eapply rs_expr; [exact E|eapply opens_binary; eassumption]|]. eapply stops_app; [exact R1|].
    destruct Han as [|a Ha].
    + eapply IH; [apply expects_second, D1|]. intros u r -> N. eapply (slot_blocked _ _ _ _ _ _ _ (expr_nonempty _ _ _ H) R1 D1 F); [reflexivity|].
      intros q2. cbn [done_f]. rewrite no_opens by exact N. destruct (tok_type u) as [i|v|s|v|s|s| | | | |] eqn:T; try discriminate. destruct v; try discriminate.
      intros _. apply (NA eq_refl). exists u, r. auto.
    + eapply stops_cons; [eapply rs_binary_an; eassumption|]. eapply IH; [apply expects_now|apply ready_expr].
  - intros t K p k x q E A. eapply (stops_end p q [t] (RExpr k x) _ t); [reflexivity|apply in_or_app; right; left; reflexivity| |auto].
    apply reads_one. eapply rs_expr; [exact E|apply opens_not, K].
  - intros t l f K _ IH p k x q E A. eapply stops_cons; [eapply rs_expr; [exact E|apply opens_not, K]|]. eapply IH; [apply expects_now|apply ready_expr].
  - intros t l f (w & op & B & K) _ IH p k x q E A. eapply stops_cons; [eapply rs_expr; [exact E|eapply opens_nary; eassumption]|].
    eapply IH; [right; reflexivity|apply ready_more].
  - intros l f M _ IH p k x q E A. eapply IH; [apply in_nary_expects, E|]. intros t r -> N. apply (A t r eq_refl N). intros X. apply M. exists t, r. auto.
  - intros ts e ans an l f H (Han & F & NA) _ IH p k x q E A.
    destruct (read_closed _ _ _ _ _ H (in_nary_expects _ _ _ E)) as (q1 & D1 & R1). eapply stops_app; [exact R1|].
    destruct Han as [|a Ha].
    + eapply IH; [left; exact D1|]. intros u r -> N M. eapply (slot_blocked _ _ _ _ _ _ _ (expr_nonempty _ _ _ H) R1 D1 F); [reflexivity|].
      intros q2. cbn [done_f]. unfold more_f. rewrite no_opens by exact N. destruct (tok_type u) as [i|v|s|v|s|s| | | | |] eqn:T; try discriminate. destruct v; try discriminate; intros _;
        first [exact (M T)|apply (NA eq_refl); exists u, r; auto].
    + eapply stops_cons; [eapply rs_nary_an; eassumption|]. eapply IH; [right; reflexivity|apply ready_more].
Qed.
Lemma stop_expr l f p k x q : x_expr l f -> expects k x q -> ready q l -> stops p q l f.
Proof. intros H. exact (proj1 stop_exprs_mut _ _ H p k x q). Qed.
Lemma stop_expected e l f p k x t : x_expected e l f -> error_tokens e = [t] -> In t p -> stops p (RExpr k x) l f.
Proof.
  intros [|l' f' H] E I; [|eapply stop_expr; [exact H|apply expects_now|apply ready_expr]].
  eapply (stops_end p _ [] _ _ t); [exact E|apply in_or_app; left; exact I|constructor|auto].
Qed.

(** ** Statements *)
Definition ready_argument (q : reader) (l : list token) : Prop := forall t r, l = t :: r -> ~ starts_expr t -> ~ exclamation_tok t -> reader_f q t = None.
Lemma stop_visible l f : x_exprs l f -> forall p q, done [] InVisible q -> ready_argument q l -> stops p q l f.
Proof.
  intros H. induction H as [l f N H|ts e l f H F _ IH]; intros p q D A.
  - eapply stop_expr; [exact H|apply expects_argument, D|]. intros t r -> M. apply (A t r eq_refl M). intros X. apply N. exists t, r. auto.
  - destruct (read_closed _ _ _ _ _ H (expects_argument _ D)) as (q1 & D1 & R1). eapply stops_app; [exact R1|]. apply IH; [exact D1|].
    intros u r -> N M. eapply (slot_blocked _ _ _ _ _ _ _ (expr_nonempty _ _ _ H) R1 D1 F); [reflexivity|].
    intros q2. cbn [done_f]. rewrite no_opens by exact N. destruct (tok_type u) eqn:T; try discriminate. intros _. exact (M T).
Qed.
Lemma stop_no_mkay t l f : x_no_mkay t l f -> forall p q, In t p -> ~ final q -> (forall u r, l = u :: r -> ~ kw MKAY u -> reader_f q u = None) -> stops p q l f.
Proof.
  intros [|u r N] p q I F A.
  - eapply (stops_end p q [] q _ t); [reflexivity|apply in_or_app; left; exact I|constructor|exact F].
  - apply stops_here; [reflexivity|exact (A u r eq_refl N)].
Qed.
Lemma stop_args t l f : x_args t l f -> forall p q, In t p -> in_args q -> (q = RNamed AsCalled -> ~ begins slot_tok l) -> stops p q l f.
Proof.
  intros H. induction H as [l f N H|yr l f K H|yr o ts e l f K H F N M|yr ts e an l f K H KA _ IH]; intros p q I A S.
  - eapply stop_no_mkay; [exact H|exact I|destruct A; subst; auto|]. intros u r -> M.
    assert (NY : ~ kw YR u) by (intros X; apply N; exists u, r; auto).
    destruct A; subst; cbn [reader_f named_f]; unfold kw in *; destruct (tok_type u) as [i|v|s|v|s|s| | | | |] eqn:T; try reflexivity; try (destruct v; try reflexivity; congruence).
    destruct (S eq_refl). exists u, r. auto.
  - eapply stops_cons; [apply rs_yr; eassumption|]. eapply stop_expected; [exact H|reflexivity|apply in_or_app; right; left; reflexivity].
  - eapply stops_cons; [apply rs_yr; eassumption|].
    destruct (read_unfinished _ _ _ _ _ _ H (expects_now [] InCall)) as (q1 & N1 & R1 & D1); [intros k'; apply call_unfinished|].
    eapply stops_app; [exact R1|]. eapply stop_no_mkay; [exact M|rewrite !in_app_iff; auto|exact N1|].
    intros u r -> NM. destruct o; [destruct F as (F & _); discriminate (F eq_refl)|].
    eapply (slot_blocked _ _ _ _ _ _ _ (expr_nonempty _ _ _ H) R1 (D1 eq_refl) F); [reflexivity|]. intros q2. cbn [done_f].
    destruct (tok_type u) as [i|v|s|v|s|s| | | | |] eqn:T; try discriminate. destruct v; try discriminate; intros _; first [exact (NM T)|apply N; exists u, r; auto].
  - eapply stops_cons; [apply rs_yr; eassumption|]. destruct (read_closed _ _ _ _ _ H (expects_now [] InCall)) as (q1 & D1 & R1).
    eapply stops_app; [exact R1|]. eapply stops_cons; [eapply rs_arg_an; eassumption|]. apply IH; [rewrite !in_app_iff; auto|right; reflexivity|discriminate].
Qed.
Lemma stop_set_slot h l f p : x_set_slot h l f -> In h p -> stops p (RName AsSlot) l f.
Proof.
  intros H I. destruct H as [|l f H|ts i H|ts i u r H N|ts i u l f H K X].
  - eapply (stops_end p _ [] _ _ h); [reflexivity|apply in_or_app; left; exact I|constructor|auto].
  - eapply stop_identifier; [exact H|apply names_name|left; reflexivity].
  - eapply (stops_end p _ ts (RNamed AsSlot) _ (id_name i)); [reflexivity| |eapply read_identifier; [apply names_name|exact H]|auto].
    apply in_or_app. right. destruct H; cbn; auto.
  - eapply stops_app; [eapply read_identifier; [apply names_name|exact H]|]. apply stops_here; [reflexivity|]. cbn [reader_f named_f].
    destruct (tok_type u) as [y|v|s|v|s|s| | | | |] eqn:T; try reflexivity. destruct v; try reflexivity. destruct (N T).
  - eapply stops_app; [eapply read_identifier; [apply names_name|exact H]|]. eapply stops_cons; [apply rs_slot_itz, K|].
    eapply stop_expected; [exact X|reflexivity|apply in_or_app; right; left; reflexivity].
Qed.
Lemma stop_initial l f p : x_initial l f -> stops p (RNamed AsDeclared) l f.
Proof.
  intros [t r N|t l' f' K N X].
  - apply stops_here; [reflexivity|]. cbn [reader_f named_f]. destruct (tok_type t) as [y|v|s|v|s|s| | | | |] eqn:T; try reflexivity. destruct v; try reflexivity. destruct (N T).
  - eapply stops_cons; [apply rs_itz, K|]. destruct X as [|l2 f2 X].
    + eapply (stops_end _ _ [] _ _ t); [reflexivity|rewrite !in_app_iff; left; right; left; reflexivity|constructor|auto].
    + eapply stop_expr; [exact X|apply expects_initial|]. intros u r -> M. cbn [reader_f]. rewrite no_opens by exact M.
      destruct (tok_type u) as [y|v|s|v|s|s| | | | |] eqn:T; try reflexivity.
      destruct v; try reflexivity; exfalso; apply N; exists u, r; (split; [reflexivity|eexists; constructor; exact T]).
Qed.
Lemma stop_stmt l f open : fails_stmt l f -> l <> [] -> stops [] (RStart (Fresh open)) l f.
Proof.
  assert (B : in_block (Fresh open) open) by constructor.
  intros H NE. destruct H as [t K|t u r K N|t l f K N H|t ts i l f K H X|t l f K H|t K|t l f K H|t l f K H|t K|t l f K H|t ts v l f K H N X
    |l f N H|ts v u r H N1 N2 N3|ts v u l f H K X|ts v u l f H K X|l f NB NL X].
  - eapply (stops_end _ _ [t] (RName AsDeclared) _ t); [reflexivity|left; reflexivity|apply reads_one; eapply rs_i_has_a; eassumption|auto].
  - eapply stops_cons; [eapply rs_i_has_a; eassumption|]. apply stops_here; [reflexivity|apply name_blocked, N].
  - eapply stops_cons; [eapply rs_i_has_a; eassumption|]. eapply stop_identifier; [exact H|apply names_name|left; reflexivity].
  - eapply stops_cons; [eapply rs_i_has_a; eassumption|]. eapply stops_app; [eapply read_identifier; [apply names_name|exact H]|]. apply stop_initial, X.
  - eapply stops_cons; [eapply rs_visible; eassumption|]. eapply stop_visible; [exact H|constructor|]. intros u r -> M E. cbn [reader_f done_f].
    rewrite no_opens by exact M. destruct (tok_type u) eqn:T; try reflexivity. destruct (E T).
  - eapply (stops_end _ _ [t] (RName AsInput) _ t); [reflexivity|left; reflexivity|apply reads_one; eapply rs_gimmeh; eassumption|auto].
  - eapply stops_cons; [eapply rs_gimmeh; eassumption|]. eapply stop_va; [exact H|apply names_name|exact I|left; reflexivity].
  - eapply stops_cons; [eapply rs_found_yr; eassumption|]. eapply stop_expected; [exact H|reflexivity|left; reflexivity].
  - eapply (stops_end _ _ [t] (RName AsCalled) _ t); [reflexivity|left; reflexivity|apply reads_one; eapply rs_i_iz; eassumption|auto].
  - eapply stops_cons; [eapply rs_i_iz; eassumption|]. eapply stop_va; [exact H|apply names_name|exact I|left; reflexivity].
  - eapply stops_cons; [eapply rs_i_iz; eassumption|]. eapply stops_app; [eapply read_va; [apply names_name|exact I|exact H]|].
    eapply stop_args; [exact X|left; reflexivity|left; reflexivity|intros _; exact N].
  - eapply stop_va; [exact H|eapply names_first; exact B|exact I|right; exact N].
  - eapply stops_app; [eapply read_va; [eapply names_first; exact B|exact I|exact H]|]. apply stops_panic; [reflexivity|]. cbn [reader_f named_f].
    destruct (tok_type u) as [y|w|s|w|s|s| | | | |] eqn:T; try reflexivity; [|destruct (N1 T)]. destruct w; try reflexivity; first [destruct (N3 T)|destruct (N2 T)].
  - eapply stops_app; [eapply read_va; [eapply names_first; exact B|exact I|exact H]|]. eapply stops_cons; [apply rs_r, K|].
    eapply stop_expected; [exact X|reflexivity|apply in_or_app; right; left; reflexivity].
  - eapply stops_app; [eapply read_va; [eapply names_first; exact B|exact I|exact H]|]. eapply stops_cons; [apply rs_has_a, K|].
    eapply stop_set_slot; [exact X|apply in_or_app; right; left; reflexivity].
  - destruct l as [|t l]; [congruence|].
    assert (NL' : ~ line_start t) by (intros Y; apply NL; exists t, l; auto). assert (NB' : ~ block_start t) by (intros Y; apply NB; exists t, l; auto).
    assert (NI : ~ id_start t) by (intros Y; apply NL'; left; exact Y).
    assert (S := stop_expr (t :: l) f [] [] AtEnd (RExpr [] AtEnd) X (expects_now _ _) (ready_expr _ _ _)).
    assert (G : forall m q, reads_to (RExpr [] AtEnd) (t :: m) q -> reads_to (RStart (Fresh open)) (t :: m) q).
    { intros m q R. eapply read_start; [exact B|exact R|intros Y; apply NI; left; exact Y|intros Y; apply NI; right; exact Y]. }
    assert (Z : reader_f (RExpr [] AtEnd) t = None -> reader_f (RStart (Fresh open)) t = None).
    { intros Z. apply no_rstep. intros q Y. destruct (reader_f (RStart (Fresh open)) t) eqn:Q; [|apply reader_iff in Y; congruence].
      apply reader_iff in Y. cbn [reader_f start_f] in Y. unfold first_f in Y. cbn [reader_f] in Z. rewrite Z in Y.
      unfold block_start, line_start, id_start, ident_tok, kw in *.
      destruct (tok_type t) as [y|v|s|v|s|s| | | | |] eqn:T; try discriminate Y; [destruct NL'; left; left; exists y; reflexivity|].
      destruct v; try discriminate Y; first [apply NB'; tauto|apply NL'; tauto]. }
    destruct f as [e r|c]; cbn [stops] in *.
    + destruct S as [(l1 & u & q' & E & EE & R & N)|(-> & u & q' & EE & I & R & N)].
      * left. destruct l1 as [|v l1].
        -- injection E as -> ->. inversion R; subst. exists [], u, (RStart (Fresh open)). repeat split; auto. constructor.
        -- injection E as <- ->. exists (t :: l1), u, q'. repeat split; auto.
      * right. split; [reflexivity|]. exists u, q'. repeat split; auto.
    + destruct S as (l1 & u & r & q' & E & EE & R & N). destruct l1 as [|v l1].
      * injection E as -> ->. inversion R; subst. exists [], u, r, (RStart (Fresh open)). repeat split; auto. constructor.
      * injection E as <- ->. exists (t :: l1), u, r, q'. repeat split; auto.
Qed.

(** ** Beginnings of lines *)
Lemma begins_app p l m : l <> [] -> ~ begins p (l ++ m) -> ~ begins p l.
Proof. intros N H (t & r & -> & K). apply H. exists t, (r ++ m). auto. Qed.
Lemma plain_step open l s' : l <> [] -> ~ begins block_start l -> step (Fresh open) l s' -> exists n, d_line l n.
Proof.
  intros N B H. inversion H; subst;
    repeat match goal with H : before_case (Fresh _) _ |- _ => inversion H | H : before_mebbe (Fresh _) _ |- _ => inversion H | H : _ \/ _ |- _ => destruct H; try discriminate end;
    try congruence; try (eexists; eassumption); exfalso; apply B; eexists _, _; (split; [reflexivity|]); unfold block_start; tauto.
Qed.
Lemma begins_iff open l : l <> [] -> ~ begins block_start l -> begins_line l <-> exists q, reads_to (RStart (Fresh open)) l q.
Proof.
  intros N B. rewrite <- begun_line_iff. split.
  - intros (r & n & H). exists r. eexists. eapply step_line; [constructor|exact H].
  - intros (r & s' & H). exists r. eapply plain_step; [|intros (t & u & E & K)|exact H].
    + destruct l; [congruence|discriminate].
    + apply B. destruct l as [|v l]; [congruence|]. injection E as <- <-. exists v, l. auto.
Qed.
Lemma begins_nil : begins_line [].
Proof. exists [word GTFO]. eexists. apply d_gtfo. reflexivity. Qed.
Lemma first_wrong_read open l t r q : ~ begins block_start (l ++ t :: r) -> reads_to (RStart (Fresh open)) l q -> reader_f q t = None -> first_wrong l t.
Proof.
  intros B R N. split.
  - destruct l as [|u l]; [apply begins_nil|]. apply (begins_iff open); [discriminate|apply (begins_app _ _ (t :: r)); [discriminate|exact B]|exists q; exact R].
  - intros H. apply (begins_iff open) in H as (q2 & R2).
    + apply reads_split in R2 as (q3 & R3 & R4). rewrite (reads_fun _ _ _ _ R3 R) in R4. inversion R4 as [|? ? q4 ? ? S _]; subst. apply reader_iff in S. congruence.
    + destruct l; discriminate.
    + apply (begins_app _ _ r); [destruct l; discriminate|]. rewrite <- app_assoc. exact B.
Qed.

Theorem located_line l ns : l <> [] -> ~ begins block_start l -> line_result l (inl ns) -> located l ns.
Proof.
  intros NE B H. inversion H as [|? n r (ts & E & D & G & S)|? e r F|]; subst; [congruence|..].
  - destruct r as [|t r]; cbn [left_over].
    + rewrite app_nil_r. apply loc_line, D.
    + apply loc_rest; [exact D|]. split; [exists [], n; rewrite app_nil_r; exact D|]. intros (r' & n' & D'). rewrite <- app_assoc in D'. cbn [app] in D'.
      assert (X : line_result (ts ++ t :: r') (inl (n :: left_over (t :: r')))).
      { apply lr_reads. exists ts. repeat split; auto; [intros Y; discriminate (G Y)|]. intros (Y1 & Y2). apply S. split; [exact Y1|].
        destruct Y2 as (u & w & Y2 & Y3). injection Y2 as <- <-. exists t, r. auto. }
      assert (Y : line_result (ts ++ t :: r') (inl (n' :: left_over []))).
      { apply lr_reads. exists (ts ++ t :: r'). rewrite app_nil_r. repeat split; auto. intros (_ & u & w & Z & _). discriminate Z. }
      pose proof (line_result_unique _ _ _ X Y) as Z. discriminate Z.
  - destruct (stop_stmt _ _ [] F NE) as [(l1 & t & q & -> & E & R & N)|(-> & t & q & E & I & R & N)].
    + apply loc_token; [eapply first_wrong_read; eassumption|exact E].
    + cbn [left_over]. eapply loc_end; [apply (begins_iff []); eauto| |exact E|exact I].
      intros n D. destruct (read_line (Fresh []) [] l n (in_fresh []) D) as (q2 & F2 & R2). rewrite (reads_fun _ _ _ _ R2 R) in F2. contradiction.
Qed.
Theorem located_panic l c : l <> [] -> ~ begins block_start l -> line_result l (inr c) ->
  exists l1 t r, l = l1 ++ t :: r /\ panic_tokens c = [t] /\ first_wrong l1 t.
Proof.
  intros NE B H. inversion H as [| | |? ? F]; subst. destruct (stop_stmt _ _ [] F NE) as (l1 & t & r & q & -> & E & R & N).
  exists l1, t, r. repeat split; auto; eapply first_wrong_read; eassumption.
Qed.

(** ** Programs of such lines *)
Lemma in_order_inl xs : forall ns, in_order xs = inl ns -> exists nss, xs = map inl nss /\ ns = concat nss.
Proof.
  induction xs as [|[ms|c] xs IH]; intros ns H; cbn [in_order] in H.
  - injection H as <-. exists []. auto.
  - destruct (in_order xs) as [rest|c]; [|discriminate H]. injection H as <-. destruct (IH _ eq_refl) as (nss & -> & ->). exists (ms :: nss). auto.
  - discriminate H.
Qed.
Lemma in_order_inr xs : forall c, in_order xs = inr c -> exists nss ys, xs = map inl nss ++ inr c :: ys.
Proof.
  induction xs as [|[ms|d] xs IH]; intros c H; cbn [in_order] in H; [discriminate H| |].
  - destruct (in_order xs) as [rest|d]; [discriminate H|]. injection H as <-. destruct (IH _ eq_refl) as (nss & ys & ->). exists (ms :: nss), ys. auto.
  - injection H as <-. exists [], xs. reflexivity.
Qed.
Theorem located_program ts ns : Forall plain_line (logical_lines ts) -> parse ts = ParseOk (ASTBlock ns) ->
  exists nss, ns = concat nss /\ Forall2 located (logical_lines ts) nss.
Proof.
  intros P H. destruct (proj1 (lines_iff ts (inl ns) P) H) as (xs & F & O). apply in_order_inl in O as (nss & -> & ->). exists nss. split; [reflexivity|]. clear H.
  revert nss F. induction P as [|l ls (P1 & P2) _ IH]; intros nss F; inversion F as [|? x ? ys F1 F2 E1 E2]; subst.
  - destruct nss; [constructor|discriminate].
  - destruct nss as [|ns nss]; [discriminate|]. injection E2 as -> ->. constructor; [apply located_line; assumption|apply IH, F2].
Qed.
Theorem located_crash ts c : Forall plain_line (logical_lines ts) -> parse ts = ParsePanic c ->
  exists ls1 nss l1 t r ls2, logical_lines ts = ls1 ++ (l1 ++ t :: r) :: ls2 /\ Forall2 located ls1 nss /\ panic_tokens c = [t] /\ first_wrong l1 t.
Proof.
  intros P H. destruct (proj1 (lines_iff ts (inr c) P) H) as (xs & F & O). apply in_order_inr in O as (nss & ys & ->). clear H.
  enough (exists ls1 l1 t r ls2, logical_lines ts = ls1 ++ (l1 ++ t :: r) :: ls2 /\ Forall2 located ls1 nss /\ panic_tokens c = [t] /\ first_wrong l1 t) as (ls1 & l1 & t & r & ls2 & X)
    by (exists ls1, nss, l1, t, r, ls2; exact X).
  revert nss F. induction P as [|l ls (P1 & P2) _ IH]; intros nss F.
  - inversion F as [E1 E2|]. destruct nss; discriminate.
  - inversion F as [|? x ? zs F1 F2 E1 E2]; subst. destruct nss as [|ns nss]; cbn [map app] in E2; injection E2 as -> ->.
    + destruct (located_panic _ _ P1 P2 F1) as (l1 & t & r & -> & E & W). exists [], l1, t, r, ls. repeat split; auto; apply W.
    + destruct (IH _ F2) as (ls1 & l1 & t & r & ls2 & -> & A & E & W). exists (l :: ls1), l1, t, r, ls2. split; [reflexivity|].
      split; [constructor; [apply located_line; assumption|exact A]|]. auto.
Qed.
Lemma begins_prefix l m : begins_line (l ++ m) -> begins_line l.
Proof. intros (r & n & H). exists (m ++ r), n. rewrite app_assoc. exact H. Qed.
Lemma split_two (l1 l2 : list token) t u r s : l1 ++ t :: r = l2 ++ u :: s ->
  (l1 = l2 /\ t = u /\ r = s) \/ (exists m, l2 = (l1 ++ [t]) ++ m) \/ (exists m, l1 = (l2 ++ [u]) ++ m).
Proof.
  revert l2. induction l1 as [|a l1 IH]; intros [|b l2] E; cbn [app] in E; injection E as -> E.
  - subst. auto.
  - right. left. exists l2. reflexivity.
  - right. right. exists l1. reflexivity.
  - destruct (IH _ E) as [(-> & -> & ->)|[(m & ->)|(m & ->)]]; [auto|right; left; exists m; reflexivity|right; right; exists m; reflexivity].
Qed.
Theorem first_wrong_unique l1 t r l2 u s : l1 ++ t :: r = l2 ++ u :: s -> first_wrong l1 t -> first_wrong l2 u -> l1 = l2 /\ t = u /\ r = s.
Proof.
  intros E (A1 & A2) (B1 & B2). destruct (split_two _ _ _ _ _ _ E) as [X|[(m & ->)|(m & ->)]]; [exact X|destruct A2|destruct B2]; eapply begins_prefix; eassumption.
Qed.
