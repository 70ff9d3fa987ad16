(** What the parse functions that stay within a line do with its tokens: they
    use up the beginning of the line, and store a subsequence of it. *)
From Coq Require Import Lia.
From Verif Require Import Lines LinesSim Grammar ExprGrammar NodeTokens.

Lemma subseq_refl {A} (l : list A) : Subseq l l.
Proof. induction l; constructor; auto. Qed.
Lemma subseq_trans {A} (a b c : list A) : Subseq a b -> Subseq b c -> Subseq a c.
Proof.
  intros H H'. revert a H. induction H' as [l|x b c H' IH|x b c H' IH]; intros a H.
  - inversion H. constructor.
  - inversion H; subst; constructor; auto.
  - constructor. auto.
Qed.
Lemma subseq_app {A} (a b c d : list A) : Subseq a b -> Subseq c d -> Subseq (a ++ c) (b ++ d).
Proof.
  intros H H'. induction H as [l|x a b H IH|x a b H IH]; cbn.
  - induction l; cbn; [assumption|constructor; assumption].
  - constructor. assumption.
  - constructor. assumption.
Qed.
Lemma subseq_app_same {A} (a c d : list A) : Subseq c d -> Subseq (a ++ c) (a ++ d).
Proof. apply subseq_app, subseq_refl. Qed.
Lemma subseq_skip_app {A} (a c d : list A) : Subseq c d -> Subseq c (a ++ d).
Proof. apply (subseq_app [] a). constructor. Qed.
Lemma subseq_skip_end {A} (a c : list A) : Subseq a (a ++ c).
Proof. rewrite <- (app_nil_r a) at 1. apply subseq_app_same. constructor. Qed.
Lemma subseq_in {A} (x : A) l : In x l -> Subseq [x] l.
Proof. induction l as [|y l IH]; intros []; [subst; repeat constructor|constructor; auto]. Qed.
Lemma subseq_incl {A} (a b : list A) : Subseq a b -> incl a b.
Proof. induction 1; intros y Hy; [destruct Hy|destruct Hy; [left|right]; auto|right; auto]. Qed.

Definition not_too_many (e : ast_error) : Prop := match e with TooManyTokens _ => False | _ => True end.

(** [pre]: tokens already taken that the result may contain; [tk]: the tokens
    of a result. *)
Definition lin {A} (pre : list token) (m : lstate -> res lstate A) (tk : A -> list token) (s : lstate) : Prop :=
  match m s with
  | ROk a s' => exists used, fst s = used ++ fst s' /\ snd s' = snd s /\ Subseq (tk a) (pre ++ used)
  | RErr e s' => exists used, fst s = used ++ fst s' /\ snd s' = snd s /\
                   Subseq (error_tokens e) (pre ++ used) /\ not_too_many e
  | RPanic c => exists t, c = PanicMaek t /\ kw MAEK t /\ In t (pre ++ fst s)
  | RFuel => True
  end.

Lemma lin_bind {A B} pre p (m : lstate -> res lstate A) tka (k : A -> lstate -> res lstate B) tkb s :
  lin p m tka s -> (forall a s', lin (pre ++ tka a) (k a) tkb s') -> lin (pre ++ p) (bind m k) tkb s.
Proof.
  intros Hm Hk. unfold lin, bind in *. destruct (m s) as [a s1|e s1|c|].
  - destruct Hm as (u & E & El & Hs). specialize (Hk a s1). destruct (k a s1) as [b s2|e s2|c|].
    + destruct Hk as (u' & E' & El' & Hs'). exists (u ++ u'). rewrite E, E', app_assoc, El'. splits; auto.
      eapply subseq_trans; [exact Hs'|]. replace ((pre ++ p) ++ u ++ u') with ((pre ++ (p ++ u)) ++ u') by (rewrite <- !app_assoc; reflexivity).
      apply subseq_app; [apply subseq_app_same; exact Hs|apply subseq_refl].
    + destruct Hk as (u' & E' & El' & Hs' & Hn). exists (u ++ u'). rewrite E, E', app_assoc, El'. splits; auto.
      eapply subseq_trans; [exact Hs'|]. replace ((pre ++ p) ++ u ++ u') with ((pre ++ (p ++ u)) ++ u') by (rewrite <- !app_assoc; reflexivity).
      apply subseq_app; [apply subseq_app_same; exact Hs|apply subseq_refl].
    + destruct Hk as (t & -> & Ht & Hin). exists t. splits; auto.
      rewrite E. rewrite !in_app_iff in *. apply subseq_incl in Hs.
      destruct Hin as [[Hin|Hin]|Hin]; [auto|apply Hs in Hin; apply in_app_iff in Hin; tauto|auto].
    + exact I.
  - destruct Hm as (u & E & El & Hs & Hn). exists u. splits; auto. rewrite <- app_assoc. apply subseq_skip_app. exact Hs.
  - destruct Hm as (t & -> & Ht & Hin). exists t. splits; auto. rewrite <- app_assoc. apply in_or_app. auto.
  - exact I.
Qed.
Lemma lin_bind0 {A B} pre (m : lstate -> res lstate A) tka (k : A -> lstate -> res lstate B) tkb s :
  lin [] m tka s -> (forall a s', lin (pre ++ tka a) (k a) tkb s') -> lin pre (bind m k) tkb s.
Proof. intros. rewrite <- (app_nil_r pre). apply lin_bind with (tka := tka); assumption. Qed.
Lemma lin_ret {A} pre (a : A) tk s : Subseq (tk a) pre -> lin pre (ret a) tk s.
Proof. intros H. exists []. rewrite app_nil_r. auto. Qed.
Lemma lin_fail {A} pre e tk s : Subseq (error_tokens e) pre -> not_too_many e -> lin (A := A) pre (fail e) tk s.
Proof. intros H H'. exists []. rewrite app_nil_r. auto. Qed.
Lemma lin_out {A} pre tk s : lin (A := A) pre out_of_fuel tk s.
Proof. exact I. Qed.
Lemma lin_maek {A} pre t tk s : kw MAEK t -> In t pre -> lin (A := A) pre (panic (PanicMaek t)) tk s.
Proof. intros H H'. exists t. splits; auto. apply in_or_app. auto. Qed.
Lemma lin_step {A B} pre (m : lstate -> res lstate A) (k : A -> lstate -> res lstate B) tkb s a s' used :
  m s = ROk a s' -> fst s = used ++ fst s' -> snd s' = snd s ->
  lin (pre ++ used) (k a) tkb s' -> lin pre (bind m k) tkb s.
Proof.
  intros E Ef Es H. unfold lin, bind in *. rewrite E. destruct (k a s') as [b s2|e s2|c|].
  - destruct H as (u' & E' & El' & Hs'). exists (used ++ u'). rewrite Ef, E', app_assoc, El'. splits; auto.
    rewrite app_assoc. exact Hs'.
  - destruct H as (u' & E' & El' & Hs' & Hn). exists (used ++ u'). rewrite Ef, E', app_assoc, El'. splits; auto.
    rewrite app_assoc. exact Hs'.
  - destruct H as (t & -> & Ht & Hin). exists t. splits; auto. rewrite Ef, app_assoc. exact Hin.
  - exact I.
Qed.
Lemma lin_next {B} pre (k : option token -> lstate -> res lstate B) tkb s :
  (forall t s', lin (pre ++ [t]) (k (Some t)) tkb s') -> (forall s', lin pre (k None) tkb s') ->
  lin pre (bind (next l_next) k) tkb s.
Proof.
  intros H1 H2. destruct s as [[|t c] ls].
  - eapply (lin_step _ _ _ _ _ _ _ []); [reflexivity|reflexivity|reflexivity|]. rewrite app_nil_r. apply H2.
  - eapply (lin_step _ _ _ _ _ _ _ [t]); [reflexivity|reflexivity|reflexivity|]. apply H1.
Qed.
Lemma lin_peek {B} pre (k : option token -> lstate -> res lstate B) tkb s :
  (forall o s', lin pre (k o) tkb s') -> lin pre (bind (peek l_peek) k) tkb s.
Proof.
  intros H. destruct s as [[|t c] ls]; (eapply (lin_step _ _ _ _ _ _ _ []);
    [reflexivity|reflexivity|reflexivity|]; rewrite app_nil_r; apply H).
Qed.
Lemma lin_next_if {B} pre f (k : option token -> lstate -> res lstate B) tkb s :
  (forall t s', lin (pre ++ [t]) (k (Some t)) tkb s') -> (forall s', lin pre (k None) tkb s') ->
  lin pre (bind (next_if l_next l_peek f) k) tkb s.
Proof.
  intros H1 H2. destruct s as [[|t c] ls]; [|destruct (f t) eqn:E].
  - eapply (lin_step _ _ _ _ _ _ _ []); [reflexivity|reflexivity|reflexivity|]. rewrite app_nil_r. apply H2.
  - eapply (lin_step _ _ _ _ _ _ _ [t]); [apply next_if_yes; exact E|reflexivity|reflexivity|]. apply H1.
  - eapply (lin_step _ _ _ _ _ _ (t :: c, ls) []); [|reflexivity|reflexivity|].
    + apply next_if_no. intros u c' E'. injection E' as <- _. exact E.
    + rewrite app_nil_r. apply H2.
Qed.

(** ** Tactics *)
Ltac sub_solve :=
  lazymatch goal with
  | |- Subseq [] _ => apply sub_nil
  | |- Subseq ?a ?a => apply subseq_refl
  | |- Subseq (?x :: _) (?x :: _) => apply sub_take; sub_solve
  | |- Subseq (?x ++ _) (?x ++ _) => apply subseq_app_same; sub_solve
  | |- Subseq ?a (?a ++ _) => apply subseq_skip_end
  | |- Subseq _ (_ :: _) => apply sub_skip; sub_solve
  | |- Subseq _ (_ ++ _) => apply subseq_skip_app; sub_solve
  end.
Ltac subs := cbn [error_tokens flat_map]; repeat rewrite app_nil_r; repeat (repeat rewrite <- app_assoc; progress cbn [app]); repeat rewrite <- app_assoc;
  first [sub_solve | apply subseq_in; repeat rewrite in_app_iff; cbn [In]; tauto].
Ltac lstep :=
  lazymatch goal with
  | |- lin _ (bind (next _) _) _ _ => apply lin_next; intros
  | |- lin _ (bind (peek _) _) _ _ => apply lin_peek; intros
  | |- lin _ (bind (next_if _ _ _) _) _ _ => apply lin_next_if; intros
  | |- lin _ (ret _) _ _ => apply lin_ret
  | |- lin _ (fail _) _ _ => apply lin_fail; [|exact I]
  | |- lin _ out_of_fuel _ _ => apply lin_out
  | |- lin _ (match ?o with _ => _ end) _ _ => destruct o eqn:?
  | |- lin _ (if ?o then _ else _) _ _ => destruct o eqn:?
  end.

(** ** The functions *)
Ltac kwtac := unfold kw; match goal with H : tok_type ?t = _ |- tok_type ?t = _ => exact H end.

Lemma lin_identifier t s : lin [t] (identifier_parse l_next t) identifier_tokens s.
Proof.
  unfold identifier_parse. destruct (tok_type t) as [|k| | | | | | | | |] eqn:Et;
    try (apply lin_fail; [subs|exact I]); try (apply lin_ret; unfold identifier_tokens; cbn; subs).
  destruct k; try (apply lin_fail; [subs|exact I]).
  repeat lstep; cbn [error_tokens]; unfold identifier_tokens; cbn [id_srs id_name app]; subs.
Qed.

(** [bind] of a function that gets the token taken last. *)
Lemma lin_call {A B} pre t (m : lstate -> res lstate A) tka (k : A -> lstate -> res lstate B) tkb s :
  lin [t] m tka s -> (forall a s', lin (pre ++ tka a) (k a) tkb s') -> lin (pre ++ [t]) (bind m k) tkb s.
Proof. apply lin_bind. Qed.

Lemma lin_accesses f : forall s, lin [] (accesses_loop l_next l_peek f) (flat_map slot_tokens) s.
Proof.
  induction f as [|f IH]; intros s; [exact I|]. cbn [accesses_loop].
  repeat lstep; try (cbn [error_tokens]; subs).
  eapply lin_call; [apply lin_identifier|]. intros i s2.
  eapply lin_bind0; [apply IH|]. intros rest s3. lstep. cbn [flat_map]. unfold slot_tokens at 1.
  cbn [slot_access_token slot_identifier app]. subs.
Qed.
Lemma lin_va f t s : lin [t] (va_parse l_next l_peek f t) va_tokens s.
Proof.
  unfold va_parse. eapply (lin_call []); [apply lin_identifier|]. intros i s2.
  eapply lin_bind0; [apply lin_accesses|]. intros l s3. lstep. unfold va_tokens. cbn. subs.
Qed.

Section Expr.
  Variable pe : token -> lstate -> res lstate expr.
  Hypothesis Hpe : forall t s, lin [t] (pe t) expr_tokens s.

  Lemma lin_binary o s : lin [binary_opt_token o] (binary_parse l_next l_peek pe o) expr_tokens s.
  Proof.
    unfold binary_parse. repeat lstep; try (cbn [error_tokens]; subs).
    eapply lin_call; [apply Hpe|]. intros e s2.
    repeat lstep; try (cbn [error_tokens]; subs).
    all: eapply lin_call; [apply Hpe|]; intros e2 s3; lstep; cbn [expr_tokens opt_token]; subs.
  Qed.
  Lemma lin_unary o s : lin [unary_opt_token o] (unary_parse l_next pe o) expr_tokens s.
  Proof.
    unfold unary_parse. repeat lstep; try (cbn [error_tokens]; subs).
    eapply lin_call; [apply Hpe|]. intros e s2. lstep. cbn [expr_tokens opt_token]; subs.
  Qed.
  Lemma lin_nary_loop f : forall s, lin [] (nary_loop l_next l_peek pe f) (flat_map operand_tokens) s.
  Proof.
    induction f as [|f IH]; intros s; [exact I|]. cbn [nary_loop]. repeat lstep; try subs.
    eapply lin_call; [apply Hpe|]. intros e s2. lstep.
    all: eapply lin_bind0; [apply IH|]; intros rest s3; lstep; cbn [flat_map operand_tokens opt_token]; subs.
  Qed.
  Lemma lin_nary f o s : lin [nary_opt_token o] (nary_parse l_next l_peek pe f o) expr_tokens s.
  Proof.
    unfold nary_parse. eapply lin_bind0; [apply lin_nary_loop|]. intros l s2.
    repeat lstep; cbn [expr_tokens opt_token]; fold operand_tokens; subs.
  Qed.
  Lemma lin_visible_loop f : forall s, lin [] (visible_loop l_next l_peek pe f) (flat_map expr_tokens) s.
  Proof.
    induction f as [|f IH]; intros s; [exact I|]. cbn [visible_loop]. repeat lstep; try subs.
    eapply lin_call; [apply Hpe|]. intros e s2.
    eapply lin_bind0; [apply IH|]; intros rest s3; lstep; cbn [flat_map]; subs.
  Qed.
  Lemma lin_i_iz_loop f : forall s, lin [] (i_iz_loop l_next l_peek pe f) (flat_map expr_tokens) s.
  Proof.
    induction f as [|f IH]; intros s; [exact I|]. cbn [i_iz_loop]. repeat lstep; try (cbn [error_tokens]; subs).
    eapply lin_call; [apply Hpe|]. intros e s2. repeat lstep.
    - eapply lin_bind0; [apply IH|]; intros rest s3; lstep; cbn [flat_map]; subs.
    - cbn [flat_map]. subs.
  Qed.
End Expr.

Lemma lin_expr f : forall t s, lin [t] (expr_parse l_next l_peek f t) expr_tokens s.
Proof.
  induction f as [|f IH]; intros t s; [exact I|]. cbn [expr_parse].
  assert (HV : lin [t] (v <- va_parse l_next l_peek f t;; ret (Value (VariableAccess v)))%parser expr_tokens s).
  { eapply (lin_call []); [apply lin_va|]. intros v s2. lstep. cbn. subs. }
  destruct (tok_type t) as [|k| | | | | | | | |] eqn:Et;
    try (apply lin_fail; [cbn; subs|exact I]); try (apply lin_ret; cbn; subs); try exact HV.
  destruct k; try (apply lin_fail; [cbn; subs|exact I]); try (apply lin_ret; cbn; subs); try exact HV.
  all: try match goal with |- lin _ (binary_parse _ _ _ ?o) _ _ => exact (lin_binary _ IH o s) end.
  all: try match goal with |- lin _ (nary_parse _ _ _ _ ?o) _ _ => exact (lin_nary _ IH f o s) end.
  - exact (lin_unary _ IH (UNot t) s).
  - apply lin_maek; [kwtac|left; reflexivity].
Qed.

Lemma va_last_in v : In (va_last_token v) (va_tokens v).
Proof.
  unfold va_last_token, va_tokens. destruct (rev (va_accesses v)) as [|sl r] eqn:E.
  - apply in_or_app. left. unfold identifier_tokens. apply in_or_app. right. left. reflexivity.
  - apply in_or_app. right. apply in_flat_map. exists sl. split; [apply in_rev; rewrite E; left; reflexivity|].
    right. unfold identifier_tokens. apply in_or_app. right. left. reflexivity.
Qed.
Lemma id_name_in i : In (id_name i) (identifier_tokens i).
Proof. unfold identifier_tokens. apply in_or_app. right. left. reflexivity. Qed.
Ltac one := cbn [error_tokens]; apply subseq_in; repeat rewrite in_app_iff; cbn [In];
  pose proof va_last_in; pose proof id_name_in; auto 10.

Lemma lin_assignment f v s : lin (va_tokens v) (assignment_parse l_next l_peek f v) assignment_tokens s.
Proof.
  unfold assignment_parse. repeat lstep; try one.
  eapply lin_call; [apply lin_expr|]. intros e s2. lstep. unfold assignment_tokens. cbn. subs.
Qed.
Lemma lin_set_slot f v s : lin (va_tokens v) (bukkit_set_slot_parse l_next l_peek f v) set_slot_tokens s.
Proof.
  unfold bukkit_set_slot_parse. repeat lstep; try one.
  eapply lin_call; [apply lin_identifier|]. intros i s2. repeat lstep; try one.
  eapply lin_call; [apply lin_expr|]. intros e s3. lstep. unfold set_slot_tokens. cbn. subs.
Qed.
Lemma ast_type_token_eq t ty : ast_type_try_from t = Some ty -> ast_type_token ty = t.
Proof.
  unfold ast_type_try_from. destruct (tok_type t) as [|k| | | | | | | | |]; try discriminate.
  destruct k; try discriminate; injection 1 as <-; reflexivity.
Qed.
Lemma lin_i_has_a f t s : lin [t] (i_has_a_parse l_next l_peek f t) i_has_a_tokens s.
Proof.
  unfold i_has_a_parse. repeat lstep; try one.
  eapply lin_call; [apply lin_identifier|]. intros i s2. repeat lstep; try one.
  - unfold i_has_a_tokens. cbn. rewrite (ast_type_token_eq _ _ Heqo). subs.
  - eapply lin_call; [apply lin_expr|]. intros e s3. lstep. unfold i_has_a_tokens. cbn. subs.
  - unfold i_has_a_tokens. cbn. subs.
Qed.
Lemma lin_visible f t s : lin [t] (visible_parse l_next l_peek f t) visible_tokens s.
Proof.
  unfold visible_parse. eapply lin_bind0; [apply lin_visible_loop; apply lin_expr|]. intros l s2.
  repeat lstep; unfold visible_tokens; cbn; subs.
Qed.
Lemma lin_gimmeh f t s : lin [t] (gimmeh_parse l_next l_peek f t) gimmeh_tokens s.
Proof.
  unfold gimmeh_parse. repeat lstep; try one. eapply lin_call; [apply lin_va|]. intros v s2. lstep.
  unfold gimmeh_tokens. cbn. subs.
Qed.
Lemma lin_found_yr f t s : lin [t] (found_yr_parse l_next l_peek f t) found_yr_tokens s.
Proof.
  unfold found_yr_parse. repeat lstep; try one. eapply lin_call; [apply lin_expr|]. intros v s2. lstep.
  unfold found_yr_tokens. cbn. subs.
Qed.
Lemma lin_i_iz f t s : lin [t] (i_iz_parse l_next l_peek f t) i_iz_tokens s.
Proof.
  unfold i_iz_parse. repeat lstep; try one. eapply lin_call; [apply lin_va|]. intros v s2.
  eapply lin_bind0; [apply lin_i_iz_loop; apply lin_expr|]. intros l s3.
  repeat lstep; try one. unfold i_iz_tokens. cbn. subs.
Qed.
Lemma lin_iteration f s : lin [] (iteration_operation_parse l_next l_peek f) iteration_tokens s.
Proof.
  unfold iteration_operation_parse. repeat lstep; try subs.
  all: try (cbn [error_tokens]; destruct (is_kw UPPIN t); cbn [loop_operation_token]; subs).
  all: try (eapply lin_call; [apply lin_va|]; intros v s2; lstep; cbn [iteration_tokens li_operation li_operand];
    destruct (is_kw UPPIN t); cbn [loop_operation_token]; subs).
  all: constructor.
Qed.
Lemma lin_conditional f s : lin [] (conditional_parse l_next l_peek f) condition_tokens s.
Proof.
  unfold conditional_parse. repeat lstep; try one; try subs.
  all: try constructor.
  eapply lin_call; [apply lin_expr|]. intros e s2. lstep. destruct (is_kw TIL t); cbn; subs.
Qed.
Lemma lin_how_iz_i_loop f : forall s, lin [] (how_iz_i_loop l_next l_peek f) (flat_map identifier_tokens) s.
Proof.
  induction f as [|f IH]; intros s; [exact I|]. cbn [how_iz_i_loop]. repeat lstep; try one; try subs.
  eapply lin_call; [apply lin_identifier|]. intros i s2. repeat lstep; try (cbn [flat_map]; subs).
  all: eapply lin_bind0; [apply IH|]; intros l s3; lstep; cbn [flat_map]; subs.
Qed.
Lemma lin_question t s : lin [t] (question_mark l_next t) (fun _ => []) s.
Proof. unfold question_mark. repeat lstep; try one; subs. Qed.
Lemma lin_oic t s : lin [t] (oic l_next t) (fun _ => []) s.
Proof. unfold oic. repeat lstep; try one; subs. Qed.
