(** The errors of ASTs: proofs for PropErrors.v. *)
From Coq Require Import Lia.
From Verif Require Import Lines LinesSim ParserProps RecoveryProps.
From Verif Require Export ErrorShape Recovery.

Definition f_ok (f : failure) : Prop := match f with FErr e _ => error_shape e | FPanic _ => True end.

Ltac sh := cbn [f_ok error_shape]; unfold is_step, is_until in *; tauto.

Lemma x_identifier_shape l f : x_identifier l f -> f_ok f.
Proof. destruct 1; sh. Qed.
Lemma x_va_shape l f : x_va l f -> f_ok f.
Proof. induction 1; eauto using x_identifier_shape. sh. Qed.
Lemma x_expr_shapes : (forall l f, x_expr l f -> f_ok f) /\ (forall l f, x_operands l f -> f_ok f).
Proof. apply x_expr_mut; intros; eauto using x_va_shape; sh. Qed.
Lemma x_expr_shape l f : x_expr l f -> f_ok f.
Proof. apply (proj1 x_expr_shapes). Qed.
Lemma x_expected_shape e l f : error_shape e -> x_expected e l f -> f_ok f.
Proof. destruct 2; [assumption|]. eapply x_expr_shape; eassumption. Qed.
Lemma x_initial_shape l f : x_initial l f -> f_ok f.
Proof. destruct 1; [sh|]. eapply x_expected_shape; [|eassumption]. sh. Qed.
Lemma x_exprs_shape l f : x_exprs l f -> f_ok f.
Proof. induction 1; [|assumption]. eapply x_expr_shape; eassumption. Qed.
Lemma kw_unique k k' t : kw k t -> kw k' t -> k = k'.
Proof. unfold kw. congruence. Qed.
Lemma x_no_mkay_shape t l f : kw I_IZ t -> x_no_mkay t l f -> f_ok f.
Proof. intros Ht. destruct 1; [|sh]. cbn. intros H. discriminate (kw_unique _ _ _ Ht H). Qed.
Lemma x_args_shape t l f : kw I_IZ t -> x_args t l f -> f_ok f.
Proof.
  intros Ht. induction 1; eauto using x_no_mkay_shape. eapply x_expected_shape; [|eassumption]. sh.
Qed.
Lemma x_set_slot_shape t l f : kw HAS_A t -> x_set_slot t l f -> f_ok f.
Proof.
  intros Ht. destruct 1 as [ |l f H|ts i H|ts i u r H Hu|ts i u l f H Hu Hx]; eauto using x_identifier_shape; try sh.
  - cbn. destruct H; cbn; tauto.
  - eapply x_expected_shape; [|eassumption]. sh.
Qed.
Lemma fails_stmt_shape l f : fails_stmt l f -> f_ok f.
Proof.
  destruct 1; eauto using x_identifier_shape, x_va_shape, x_initial_shape, x_exprs_shape, x_args_shape, x_set_slot_shape;
    try sh; try (eapply x_expected_shape; [|eassumption]; sh).
  eapply x_expr_shape; eassumption.
Qed.
Lemma x_iteration_shape l f : x_iteration l f -> f_ok f.
Proof. destruct 1; eauto using x_va_shape; sh. Qed.
Lemma x_condition_shape l f : x_condition l f -> f_ok f.
Proof. destruct 1. eapply x_expected_shape; [|eassumption]. sh. Qed.
Lemma x_loop_shape t l f : kw IM_IN_YR t -> x_loop t l f -> f_ok f.
Proof. intros Ht. destruct 1; eauto using x_iteration_shape, x_condition_shape; sh. Qed.
Lemma x_params_shape l f : x_params l f -> f_ok f.
Proof. induction 1; eauto using x_identifier_shape; sh. Qed.
Lemma x_function_shape t l f : kw HOW_IZ_I t -> x_function t l f -> f_ok f.
Proof. intros Ht. destruct 1; eauto using x_identifier_shape, x_params_shape; sh. Qed.
Lemma x_question_shape t l f : kw WTF t \/ kw O_RLY t -> x_question t l f -> f_ok f.
Proof. intros Ht. destruct 1; sh. Qed.

(** ** Programs *)
Definition n_ok (n : node) : Prop := Forall error_shape (flat_map node_error (node_all n)).
Definition b_ok (b : block) : Prop := Forall error_shape (block_errors b).
Definition o_ok {A} (P : A -> place -> Prop) (o : out A) : Prop :=
  match o with Done a p => P a p | Err e _ => error_shape e | Crash _ => True end.

Lemma b_ok_nodes ns : b_ok (ASTBlock ns) <-> Forall n_ok ns.
Proof.
  unfold b_ok, block_errors. cbn [block_all].
  induction ns as [|n ns IH]; cbn; [split; constructor|].
  rewrite flat_map_app, Forall_app, Forall_cons_iff, IH. reflexivity.
Qed.
Lemma flat_map_flat_map {A B C} (f : B -> list C) (g : A -> list B) l :
  flat_map f (flat_map g l) = flat_map (fun x => flat_map f (g x)) l.
Proof. induction l as [|x l IH]; cbn; [reflexivity|]. rewrite flat_map_app, IH. reflexivity. Qed.
Lemma Forall_flat_map {A B} (P : B -> Prop) (f : A -> list B) l :
  Forall P (flat_map f l) <-> Forall (fun x => Forall P (f x)) l.
Proof.
  induction l as [|x l IH]; cbn; [split; constructor|]. rewrite Forall_app, Forall_cons_iff, IH. reflexivity.
Qed.
Lemma n_ok_loop t l it c b e : n_ok (NImInYr (ImInYr t l it c b e)) <-> b_ok b.
Proof. reflexivity. Qed.
Lemma n_ok_function t i ps b : n_ok (NHowIzI (HowIzI t i ps b)) <-> b_ok b.
Proof. reflexivity. Qed.
Definition sections_ok (d : option (token * list node)) : Prop :=
  match d with Some (_, ns) => Forall n_ok ns | None => True end.
Definition cases_ok (d : list (token * expr * list node)) : Prop := Forall (fun '(_, _, ns) => Forall n_ok ns) d.
Lemma n_ok_wtf t omgs d : cases_ok omgs -> sections_ok d ->
  n_ok (NWtf (Wtf t (map (fun '(a, e, ns) => WtfOmg a e (ASTBlock ns)) omgs)
                    (option_map (fun '(a, ns) => WtfOmgWtf a (ASTBlock ns)) d))).
Proof.
  intros Ho Hd. unfold n_ok. cbn [node_all flat_map node_error app]. rewrite flat_map_app, Forall_app. split.
  - rewrite flat_map_flat_map, Forall_flat_map, Forall_map. eapply Forall_impl; [|exact Ho].
    intros [[a e] ns] H. apply b_ok_nodes, H.
  - destruct d as [[a ns]|]; cbn [option_map]; [|constructor]. apply b_ok_nodes, Hd.
Qed.
Lemma n_ok_o_rly t y ms n : sections_ok y -> cases_ok ms -> sections_ok n ->
  n_ok (NORly (ORly t (option_map (fun '(a, ns) => YaRly a (ASTBlock ns)) y)
                      (option_map (fun '(a, ns) => NoWai a (ASTBlock ns)) n)
                      (map (fun '(a, e, ns) => Mebbe a e (ASTBlock ns)) ms))).
Proof.
  intros Hy Hm Hn. unfold n_ok. cbn [node_all flat_map node_error app]. rewrite !flat_map_app, !Forall_app.
  split; [|split].
  - destruct y as [[a ns]|]; cbn [option_map]; [|constructor]. apply b_ok_nodes, Hy.
  - rewrite flat_map_flat_map, Forall_flat_map, Forall_map. eapply Forall_impl; [|exact Hm].
    intros [[a e] ns] H. apply b_ok_nodes, H.
  - destruct n as [[a ns]|]; cbn [option_map]; [|constructor]. apply b_ok_nodes, Hn.
Qed.
Lemma n_ok_line l n : d_line l n -> n_ok n.
Proof. destruct 1; constructor. Qed.
Lemma n_ok_error e : error_shape e -> n_ok (NASTError e).
Proof. repeat constructor. assumption. Qed.
Lemma left_over_ok r : Forall n_ok (left_over r).
Proof. destruct r; repeat constructor. discriminate. Qed.

Definition s_post (n : node) (p : place) : Prop := n_ok n.
(** A block ends at an empty line or at a closing line. *)
Definition b_post (k : kind) (ns : list node) (p : place) : Prop :=
  Forall n_ok ns /\ match fst p with [] => True | t :: _ => closes k t end.
Definition sec_post (d : option (token * list node)) (p : place) : Prop := sections_ok d.
Definition cases_post (d : list (token * expr * list node)) (p : place) : Prop := cases_ok d.

Lemma failed_ok {A} (P : A -> place -> Prop) f ls : f_ok f -> o_ok P (failed f ls).
Proof. destruct f; auto. Qed.
Lemma aborts_ok {A B} (P : A -> place -> Prop) (Q : B -> place -> Prop) o o' : aborts o o' -> o_ok P o -> o_ok Q o'.
Proof. destruct 1; auto. Qed.
Lemma omap_ok {A B} (P : A -> place -> Prop) (Q : B -> place -> Prop) (f : A -> B) o :
  (forall a p, P a p -> Q (f a) p) -> o_ok P o -> o_ok Q (omap f o).
Proof. intros H. destruct o; cbn; auto. Qed.
Lemma closing_ok t p o : kw WTF t \/ kw O_RLY t -> closing t p o -> o_ok (fun _ _ => True) o.
Proof. intros Ht. destruct 1; cbn; tauto. Qed.

Lemma r_shape :
  (forall l ls o, r_stmt l ls o -> o_ok s_post o) /\
  (forall k p o, r_block k p o -> o_ok (b_post k) o) /\
  (forall k ls o, r_more k ls o -> o_ok (b_post k) o) /\
  (forall w k p o, r_section w k p o -> o_ok sec_post o) /\
  (forall w m k p o, r_cases w m k p o -> (forall t, kw w t -> error_shape (m t)) -> o_ok cases_post o).
Proof.
  apply r_mut; intros.
  all: repeat match goal with
  | H : (forall t, kw OMG t -> _) -> _ |- _ => specialize (H ltac:(cbn; tauto))
  | H : (forall t, kw MEBBE t -> _) -> _ |- _ => specialize (H ltac:(cbn; tauto))
  end.
  all: try (apply failed_ok; eauto using fails_stmt_shape, x_loop_shape, x_function_shape, x_question_shape; fail).
  all: try (eapply aborts_ok; eauto using closing_ok; fail).
  all: try (cbn; try discriminate; tauto).
  all: try match goal with H : o_ok (b_post _) (Done _ _) |- _ => destruct H as [G1 G2] end.
  all: try (cbn in *; tauto).
  - destruct H as (ts & -> & H & _). eapply n_ok_line. exact H.
  - constructor.
  - apply n_ok_loop, b_ok_nodes, G1.
  - apply n_ok_function, b_ok_nodes, G1.
  - apply n_ok_wtf; assumption.
  - apply n_ok_o_rly; assumption.
  - eapply omap_ok; [|eassumption]. intros ns p [G1 G2]. split; [|exact G2].
    cbn [app]. constructor; [assumption|]. apply Forall_app. split; [apply left_over_ok|exact G1].
  - eapply omap_ok; [|eassumption]. intros ns p [G1 G2]. split; [|exact G2].
    cbn [app]. constructor; [apply n_ok_error; assumption|]. apply Forall_app. split; [apply left_over_ok|exact G1].
  - split; [constructor|]. rewrite H. exact I.
  - split; [constructor|]. exact H.
  - eapply omap_ok; [|eassumption]. intros ns p [G1 _]. exact G1.
  - constructor.
  - apply failed_ok. eapply x_expected_shape; [|eassumption]. auto.
  - eapply omap_ok; [|eauto]. intros xs q G. constructor; [exact G1|exact G].
Qed.

Theorem errors_have_their_shape ts b e : parse ts = ParseOk b -> In e (block_errors b) -> error_shape e.
Proof.
  destruct b as [ns]. intros H He. apply parse_nodes in H as [p H]. apply r_shape in H as [H _].
  apply b_ok_nodes in H. unfold b_ok in H. rewrite Forall_forall in H. exact (H e He).
Qed.
