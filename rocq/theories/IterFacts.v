(** Facts about the statement iterator, and the expression parser run on it. *)
From Coq Require Import Lia.
From Verif Require Import Lines LinesSim Grammar ExprGrammar.

(** The states the parser can bring the iterator into. *)
Inductive reachable : stmt_iter -> Prop :=
| reach_new ts : reachable (iter_new ts)
| reach_next it : reachable it -> reachable (snd (iter_next it))
| reach_peek it : reachable it -> reachable (snd (iter_peek it))
| reach_statement it : reachable it -> reachable (snd (iter_next_statement it)).

(** What the current statement still contains: the tokens that calling [next]
    until it returns [None] returns. *)
Definition rest_of_line (it : stmt_iter) : list token := fst (iter_collect it).
(** The iterator after them. *)
Definition after_line (it : stmt_iter) : stmt_iter := snd (iter_collect it).

(** ** Peeking *)
Lemma peek_then_next it : iter_next (snd (iter_peek it)) = iter_next it.
Proof.
  destruct it as [ts cur [o|]]; unfold iter_peek; cbn [peeked]; [reflexivity|].
  unfold iter_next. cbn [peeked tokens_iter current_line].
  destruct (advance ts cur) as [[o' ts'] c']. reflexivity.
Qed.
Lemma peek_is_next it : fst (iter_peek it) = fst (iter_next it).
Proof.
  destruct it as [ts cur [o|]]; unfold iter_peek; cbn [peeked]; [reflexivity|].
  destruct (iter_next _) as [o it']. reflexivity.
Qed.
Lemma peek_collect it : iter_collect (snd (iter_peek it)) = iter_collect it.
Proof. rewrite (collect_unfold (snd (iter_peek it))), (collect_unfold it), peek_then_next. reflexivity. Qed.
Lemma peek_peek it : iter_peek (snd (iter_peek it)) = iter_peek it.
Proof.
  destruct it as [ts cur [o|]]; unfold iter_peek; cbn [peeked]; [reflexivity|].
  destruct (iter_next _) as [o it']. reflexivity.
Qed.
Lemma peek_next_statement it : iter_next_statement (snd (iter_peek it)) = iter_next_statement it.
Proof. unfold iter_next_statement. rewrite peek_collect. reflexivity. Qed.

(** ** Reachable states are related to lines *)
Lemma reachable_rel it : reachable it -> exists s, IterRel it s.
Proof.
  induction 1 as [ts|it H [s IH]|it H [s IH]|it H [s IH]].
  - eexists. apply R_init.
  - eexists. apply (R_next _ _ IH).
  - eexists. apply (R_peek _ _ IH).
  - eexists. apply (R_next_statement _ _ IH).
Qed.
Lemma rel_rest it s : IterRel it s -> rest_of_line it = fst s.
Proof.
  intros H. destruct (R_next_statement _ _ H) as [E _]. unfold iter_next_statement, l_next_statement in E.
  unfold rest_of_line. destruct (iter_collect it). exact E.
Qed.

(** [next] and [peek] stay in the statement. *)
Lemma next_after it s : IterRel it s -> after_line (snd (iter_next it)) = after_line it.
Proof.
  intros H. unfold after_line. rewrite (collect_unfold it).
  destruct (R_next _ _ H) as [E HR].
  destruct (iter_next it) as [[t|] it1] eqn:En; cbn [fst snd] in *.
  - destruct (iter_collect it1). reflexivity.
  - (* at the end of the statement *)
    destruct it as [ts cur pk]. unfold iter_next in En. cbn [peeked tokens_iter current_line] in En.
    unfold IterRel in H. cbn [peeked tokens_iter current_line] in H. destruct pk as [[t|]|].
    + discriminate.
    + injection En as <-. destruct H as [_ H]. unfold iter_collect. cbn. rewrite H. reflexivity.
    + destruct (advance ts cur) as [[o ts'] c'] eqn:Ea. injection En as -> <-.
      apply advance_view in Ea as [_ Ea]. unfold iter_collect. cbn. rewrite Ea. reflexivity.
Qed.

Lemma line_expr f t it s : IterRel it s ->
  res_rel (fun i s' => IterRel i s' /\ after_line i = after_line it)
          (expr_parse iter_next iter_peek f t it) (expr_parse l_next l_peek f t s).
Proof.
  intros H.
  apply (sim_expr iter_next iter_peek l_next l_peek (fun i s' => IterRel i s' /\ after_line i = after_line it)).
  - intros i s' [HR Ha]. destruct (R_next _ _ HR) as [E HR']. split; [exact E|]. split; [exact HR'|].
    rewrite (next_after _ _ HR). exact Ha.
  - intros i s' [HR Ha]. destruct (R_peek _ _ HR) as [E HR']. split; [exact E|]. split; [exact HR'|].
    unfold after_line in *. rewrite peek_collect. exact Ha.
  - auto.
Qed.

Theorem iter_expr_sound f t it e it' : reachable it ->
  expr_parse iter_next iter_peek f t it = ROk e it' ->
  after_line it' = after_line it /\
  exists open ts, t :: rest_of_line it = ts ++ rest_of_line it' /\ d_expr open ts e /\
                  fits open ts (rest_of_line it').
Proof.
  intros Hr H. destruct (reachable_rel _ Hr) as [s Hs]. pose proof (line_expr f t it s Hs) as HL.
  rewrite H in HL. unfold res_rel in HL.
  destruct (expr_parse l_next l_peek f t s) as [e' s'| | |] eqn:E; try contradiction.
  destruct HL as (<- & HR & Ha). split; [exact Ha|].
  destruct s as [c ls]. apply expr_sound in E as (o & ts & c' & E & -> & He & Hf).
  rewrite (rel_rest _ _ Hs), (rel_rest _ _ HR). cbn [fst]. exists o, ts. auto.
Qed.

Theorem iter_expr_complete f t ts open e c it : reachable it ->
  d_expr open (t :: ts) e -> rest_of_line it = ts ++ c -> fits open (t :: ts) c ->
  length (t :: ts) < f ->
  exists it', expr_parse iter_next iter_peek f t it = ROk e it' /\
              rest_of_line it' = c /\ after_line it' = after_line it.
Proof.
  intros Hr He Hl Hf Hlen. destruct (reachable_rel _ Hr) as [s Hs]. pose proof (line_expr f t it s Hs) as HL.
  rewrite (rel_rest _ _ Hs) in Hl. destruct s as [c0 ls]. cbn [fst] in Hl. subst c0.
  rewrite (expr_complete _ _ _ He t ts f c ls eq_refl Hlen Hf) in HL.
  destruct (expr_parse iter_next iter_peek f t it) as [e' it'| | |]; try contradiction.
  destruct HL as (-> & HR & Ha). exists it'. rewrite (rel_rest _ _ HR). auto.
Qed.

(** ** The grammar is unambiguous *)
Theorem expr_unambiguous o o' ts ts' e e' c c' :
  d_expr o ts e -> d_expr o' ts' e' -> fits o ts c -> fits o' ts' c' -> ts ++ c = ts' ++ c' ->
  ts = ts' /\ e = e' /\ c = c'.
Proof.
  intros H H' Hf Hf' E.
  destruct (d_expr_first _ _ _ H) as (t & us & E1 & _). destruct (d_expr_first _ _ _ H') as (t' & us' & E2 & _).
  set (f := S (length ts + length ts')).
  pose proof (expr_complete _ _ _ H t us f c [] E1 ltac:(unfold f; lia) Hf) as P.
  pose proof (expr_complete _ _ _ H' t' us' f c' [] E2 ltac:(unfold f; lia) Hf') as P'.
  subst ts ts'. cbn [app] in E. injection E as <- E. rewrite E in P. rewrite P in P'. injection P' as <- <-.
  split; [|auto]. apply app_inv_tail in E. congruence.
Qed.
