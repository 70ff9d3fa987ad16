(** The nodes of every line: proofs for PropNodeLines.v. *)
From Coq Require Import Lia.
From Verif Require Import Lines LinesSim LineTrace ExprGrammar LineGrammar ShapeProofs SameAstProofs DepthProofs ParserProps ParserProps2 RecoveryProps RecoverySound.
From Verif Require Export NodeLines Recovery.

(** ** Failures on a line *)
Definition on_line (l : list token) (f : failure) : Prop :=
  match f with
  | FErr e r => exists p, l = p ++ r /\ error_at p r e
  | FPanic _ => True
  end.
(** The errors of expressions and identifiers do not say what comes before. *)
Definition floats (e : ast_error) : Prop :=
  match e with
  | UnexpectedToken _ | MissingToken _ | EExpression _ => True
  | _ => False
  end.
Definition loose (l : list token) (f : failure) : Prop :=
  on_line l f /\ match f with FErr e _ => floats e | FPanic _ => True end.
Lemma floats_app q p r e : floats e -> error_at p r e -> error_at (q ++ p) r e.
Proof.
  destruct e as [t| | | |[t]|t| | | | |]; try contradiction; intros _ H; cbn [error_at] in *.
  - destruct H as (q' & ->). exists (q ++ q'). now rewrite app_assoc.
  - destruct H as (-> & q' & us & -> & H). split; [reflexivity|]. exists (q ++ q'), us. split; [now rewrite app_assoc|exact H].
  - destruct H as (-> & q' & ->). split; [reflexivity|]. exists (q ++ q'). now rewrite app_assoc.
Qed.
Lemma loose_app q l f : loose l f -> loose (q ++ l) f.
Proof.
  destruct f as [e r|c]; [|auto]. intros [(p & -> & H) F]. split; [|exact F].
  exists (q ++ p). split; [now rewrite app_assoc|]. apply floats_app; assumption.
Qed.
Lemma loose_cons t l f : loose l f -> loose (t :: l) f.
Proof. apply (loose_app [t]). Qed.
Lemma loose_on l f : loose l f -> on_line l f.
Proof. apply proj1. Qed.
Lemma unexpected_loose t r : loose (t :: r) (FErr (UnexpectedToken t) r).
Proof. split; [|exact I]. exists [t]. split; [reflexivity|]. exists []. reflexivity. Qed.
Lemma missing_loose q t : loose (q ++ [t]) (FErr (MissingToken t) []).
Proof. split; [|exact I]. exists (q ++ [t]). rewrite app_nil_r. split; [reflexivity|]. split; eauto. Qed.
(** The error [e] when [p] has been read and the line ends. *)
Lemma end_on e p : error_at p [] e -> on_line p (FErr e []).
Proof. intros H. exists p. rewrite app_nil_r. auto. Qed.
Lemma here_on e p r l : l = p ++ r -> error_at p r e -> on_line l (FErr e r).
Proof. intros ->. exists p. auto. Qed.

Lemma x_identifier_loose l f : x_identifier l f -> loose l f.
Proof.
  destruct 1; [apply unexpected_loose|apply (missing_loose [])|apply loose_cons, unexpected_loose].
Qed.
Lemma x_va_loose l f : x_va l f -> loose l f.
Proof.
  induction 1; [now apply x_identifier_loose|apply missing_loose|].
  apply loose_app, loose_cons, x_identifier_loose. assumption.
Qed.
Lemma operands_loose t p : 
  ((is_binary t \/ kw Keywords.NOT t) /\ p = [] \/
   is_binary t /\ exists o ls l ans an, d_expr o ls l /\ d_opt AN ans an /\ p = ls ++ ans) ->
  loose (t :: p) (FErr (EExpression (MissingOperands t)) []).
Proof. intros H. split; [|exact I]. apply end_on. split; [reflexivity|]. exists [], p. auto. Qed.
Lemma x_expr_looses : (forall l f, x_expr l f -> loose l f) /\ (forall l f, x_operands l f -> loose l f).
Proof.
  apply x_expr_mut; intros; eauto using x_va_loose, loose_app, loose_cons, unexpected_loose.
  - split; exact I.
  - apply operands_loose. auto.
  - apply operands_loose. right. split; [assumption|]. exists o, ls, e, ans, an. auto.
  - apply operands_loose. auto.
Qed.
Lemma x_expr_loose l f : x_expr l f -> loose l f.
Proof. apply (proj1 x_expr_looses). Qed.
Lemma x_expected_on e q l f : error_at q [] e -> x_expected e l f -> on_line (q ++ l) f.
Proof.
  intros H. destruct 1; [rewrite app_nil_r; apply end_on, H|]. apply loose_on, loose_app, x_expr_loose. assumption.
Qed.
Lemma x_expected_on' e q l' l f : l' = q ++ l -> error_at q [] e -> x_expected e l f -> on_line l' f.
Proof. intros ->. apply x_expected_on. Qed.
Lemma x_initial_on h ts i l f : kw I_HAS_A h -> d_identifier ts i -> x_initial l f -> on_line (h :: ts ++ l) f.
Proof.
  intros Hh Hi. destruct 1 as [t r N|t l f Ht _ H].
  - apply loose_on, loose_cons, loose_app, unexpected_loose.
  - eapply x_expected_on'; [|  |exact H].
    + instantiate (1 := h :: ts ++ [t]). cbn. now rewrite <- app_assoc.
    + split; [exact Ht|]. split; [reflexivity|]. exists h, ts, i. auto.
Qed.
Lemma x_exprs_loose l f : x_exprs l f -> loose l f.
Proof. induction 1; eauto using x_expr_loose, loose_app. Qed.
Lemma x_no_mkay_on t q l f : kw I_IZ t -> x_no_mkay t l f -> on_line (t :: q ++ l) f.
Proof.
  intros Ht. destruct 1 as [|u r N].
  - rewrite app_nil_r. apply end_on. left. eauto.
  - apply (here_on _ (t :: q ++ [u]) r).
    + cbn. now rewrite <- app_assoc.
    + right. split; [exact N|]. exists t, q. auto.
Qed.
Lemma x_args_on t q l f : kw I_IZ t -> x_args t l f -> on_line (t :: q ++ l) f.
Proof.
  intros Ht H. revert q. induction H as [l f _ H|yr l f Hy H|yr o ts e l f Hy He _ _ H|yr ts e an l f Hy He Ha H IH]; intros q.
  - now apply x_no_mkay_on.
  - eapply x_expected_on'; [|  |exact H].
    + instantiate (1 := t :: q ++ [yr]). cbn. now rewrite <- app_assoc.
    + split; [exact Hy|]. split; [reflexivity|]. exists t, q. auto.
  - replace (q ++ yr :: ts ++ l) with ((q ++ yr :: ts) ++ l) by (now rewrite <- app_assoc).
    now apply x_no_mkay_on.
  - replace (q ++ yr :: ts ++ an :: l) with ((q ++ yr :: ts ++ [an]) ++ l); [apply IH|].
    rewrite <- app_assoc. cbn. now rewrite <- app_assoc.
Qed.
Lemma x_set_slot_on ts v t l f : d_va ts v -> kw HAS_A t -> x_set_slot t l f -> on_line (ts ++ t :: l) f.
Proof.
  intros Hv Ht. destruct 1 as [ |l f H|us i H|us i u r H Hu|us i u l f H Hu Hx].
  - apply end_on. split; [auto|]. split; [reflexivity|]. eauto.
  - apply loose_on, loose_app, loose_cons, x_identifier_loose, H.
  - apply loose_on, loose_app, loose_cons. destruct H; [apply (missing_loose [])|apply (missing_loose [_])].
  - apply loose_on, loose_app, loose_cons, loose_app, unexpected_loose.
  - eapply x_expected_on'; [|  |exact Hx].
    + instantiate (1 := (ts ++ t :: us) ++ [u]). rewrite <- !app_assoc. reflexivity.
    + split; eauto.
Qed.
Lemma fails_stmt_on l f : fails_stmt l f -> on_line l f.
Proof.
  destruct 1.
  - apply end_on. cbn. auto.
  - apply (here_on _ [t; u] r); [reflexivity|]. exists t. auto.
  - apply loose_on, loose_cons, x_identifier_loose. assumption.
  - eapply x_initial_on; eassumption.
  - apply loose_on, loose_cons, x_exprs_loose. assumption.
  - apply loose_on, (missing_loose []).
  - apply loose_on, loose_cons, x_va_loose. assumption.
  - apply (x_expected_on _ [t]) in H0; [exact H0|]. split; [reflexivity|]. exists []. reflexivity.
  - apply end_on. cbn. auto.
  - apply loose_on, loose_cons, x_va_loose. assumption.
  - apply x_args_on; assumption.
  - apply loose_on, x_va_loose. assumption.
  - exact I.
  - eapply x_expected_on'; [|  |eassumption].
    + instantiate (1 := ts ++ [u]). now rewrite <- app_assoc.
    + split; [auto|]. split; [reflexivity|]. eauto.
  - eapply x_set_slot_on; eassumption.
  - apply loose_on, x_expr_loose. assumption.
Qed.
Lemma x_iteration_on m l u f : kw IM_IN_YR m -> ident_tok u -> x_iteration l f -> on_line (m :: u :: l) f.
Proof.
  intros Hm Hu. destruct 1 as [t Ht|t w r Ht Hw|t yr Ht Hy|t yr l f Ht Hy H].
  - apply end_on. cbn. split; [exact Ht|]. split; [reflexivity|]. exists m, u. auto.
  - apply (here_on _ [m; u; t; w] r); [reflexivity|]. cbn. split; [exact Hw|]. exists m, u, t. auto.
  - apply end_on. cbn. split; [exact Ht|]. split; [reflexivity|]. exists m, u. split; [exact Hm|]. split; [exact Hu|]. right. exists yr. auto.
  - apply loose_on. do 4 apply loose_cons. apply x_va_loose. assumption.
Qed.
Lemma x_loop_on t l f : kw IM_IN_YR t -> x_loop t l f -> on_line (t :: l) f.
Proof.
  intros Ht. destruct 1 as [|u r Hu|u l f Hu H|u its it l f Hu Hi H].
  - apply end_on. cbn. auto.
  - apply (here_on _ [t; u] r); [reflexivity|]. cbn. split; [exact Hu|]. eauto.
  - apply x_iteration_on; assumption.
  - destruct H as [w l f Hw H]. eapply x_expected_on'; [|  |exact H].
    + instantiate (1 := t :: u :: its ++ [w]). cbn. now rewrite <- app_assoc.
    + split; [exact Hw|]. split; [reflexivity|]. exists t, u, its, it. auto.
Qed.
Lemma x_params_loose l f : x_params l f -> loose l f.
Proof.
  induction 1; [apply (missing_loose [])|apply loose_cons, x_identifier_loose; assumption|].
  apply loose_cons, loose_app, loose_cons. assumption.
Qed.
Lemma x_function_on t l f : kw HOW_IZ_I t -> x_function t l f -> on_line (t :: l) f.
Proof.
  intros Ht. destruct 1.
  - apply end_on. cbn. auto.
  - apply loose_on, loose_cons, x_identifier_loose. assumption.
  - apply loose_on, loose_cons, loose_app, x_params_loose. assumption.
Qed.
Lemma x_question_on t l f : kw WTF t \/ kw O_RLY t -> x_question t l f -> on_line (t :: l) f.
Proof.
  intros Ht. destruct 1 as [|u r Hu].
  - apply end_on. cbn. auto.
  - apply (here_on _ [t; u] r); [reflexivity|]. cbn. split; [exact Ht|]. right. eauto.
Qed.

(** ** Programs *)

(** From the lines [ls], after lines with the errors [es], to the lines [ls']. *)
Inductive runs : list (list token) -> list node -> list (list token) -> Prop :=
| runs_here ls : runs ls [] ls
| runs_line l g ls es ls' : line_nodes l g -> runs ls es ls' -> runs (l :: ls) (g ++ es) ls'
| runs_end es ls : runs [[]] es ls -> runs [] es ls.

Lemma runs_trans a e b e' c : runs a e b -> runs b e' c -> runs a (e ++ e') c.
Proof.
  induction 1; cbn; auto.
  - rewrite <- app_assoc. constructor; auto.
  - intros. constructor. auto.
Qed.
Lemma runs_drop a e b : runs a e b -> runs a [] b.
Proof.
  induction 1; [constructor| |].
  - apply (runs_line l []); [constructor|assumption].
  - constructor. assumption.
Qed.
Lemma runs_next l ls : runs (l :: ls) [] ls.
Proof. apply (runs_line l []); constructor. Qed.
Lemma runs_one l g ls : line_nodes l g -> runs (l :: ls) g ls.
Proof. intros H. rewrite <- (app_nil_r g). constructor; [assumption|constructor]. Qed.
Lemma runs_app a e b e' c : runs a e b -> runs b e' c -> runs a (e ++ e') c.
Proof. apply runs_trans. Qed.

Definition at_ (p : place) : list (list token) := fst p :: snd p.
Lemma runs_line_of ls : runs ls [] (at_ (line_of ls)).
Proof. destruct ls; repeat constructor. Qed.

Lemma left_nodes l p r : l = p ++ r -> line_nodes l (left_over r).
Proof. intros ->. destruct r as [|x r]; [apply no_node|apply left_node; discriminate]. Qed.
(** The next line is left. *)
Lemma runs_left ls : runs ls (left_over (fst (line_of ls))) (snd (line_of ls)).
Proof.
  destruct ls as [|l ls]; cbn; [constructor|]. apply runs_one. apply (left_nodes l [] l). reflexivity.
Qed.

Lemma error_at_on p r e : error_at p r e -> exists t, error_tokens e = [t] /\ In t p.
Proof.
  destruct e as [t| |[t|t|t]|[t|t]|[t]|t|[t|t]|t|[t]|[t|t|t|t|t|t|t|t|t|t]|[t|t|t]]; cbn [error_at error_tokens]; intros H;
    try contradiction; exists t; (split; [reflexivity|]).
  - destruct H as [q ->]. apply in_elt.
  - destruct H as (h & _ & _ & ->). cbn. auto.
  - destruct H as (_ & -> & _). now left.
  - destruct H as (_ & _ & h & ts & i & _ & _ & ->). right. apply in_elt.
  - destruct H as (_ & _ & ts & v & _ & ->). apply in_elt.
  - destruct H as (_ & q & us & -> & _). apply in_elt.
  - destruct H as (_ & q & ->). apply in_elt.
  - destruct H as (_ & [[-> _]|(u & _ & ->)]); now left.
  - destruct H as (_ & -> & _). now left.
  - destruct H as (_ & [(_ & c & i & ps & _ & ->)|(_ & q & _ & ->)]); now left.
  - destruct H as (_ & -> & _). now left.
  - destruct H as (_ & m & l & s & _ & _ & _ & ->). cbn. auto.
  - destruct H as (_ & -> & _). now left.
  - destruct H as (_ & m & _ & ->). cbn. auto.
  - destruct H as (_ & -> & _). now left.
  - destruct H as (_ & m & _ & ->). cbn. auto.
  - destruct H as (_ & _ & c & l & it & cond & _ & ->). now left.
  - destruct H as (_ & _ & m & l & _ & _ & [->|(yr & _ & ->)]); cbn; auto.
  - destruct H as (_ & _ & m & l & its & it & _ & _ & _ & ->). right. right. apply in_elt.
  - destruct H as (_ & -> & _). now left.
  - destruct H as (_ & _ & h & q & _ & ->). right. apply in_elt.
  - destruct H as [(_ & _ & q & ->)|(_ & h & q & _ & ->)]; [now left|]. right. apply in_elt.
Qed.
Lemma node_at_nil r n : ~ node_at [] r n.
Proof.
  intros H.
  assert (T : (exists e, error_at [] r e) \/ exists t us c, node_tokens n = t :: us /\ ([] : list token) = t :: c)
    by (destruct n; first [right; exact (proj2 (proj2 H)) | right; exact (proj2 H) | (elim (proj2 (proj2 H)); reflexivity) | (left; eauto)]).
  destruct T as [[e He]|(t & us & c & _ & E)]; [|discriminate].
  apply error_at_on in He as (t & _ & []).
Qed.
Lemma line_nodes_nil g : line_nodes [] g -> g = [].
Proof.
  remember [] as l eqn:E. destruct 1 as [l|l n H|p r Hr|p r n H Hr]; subst; [reflexivity| | |].
  - elim (node_at_nil _ n H).
  - apply app_eq_nil in E as [_ E]. contradiction.
  - apply app_eq_nil in E as [_ E]. contradiction.
Qed.
Lemma groups_of ls es ls' : runs ls es ls' -> exists gs, Forall2 line_nodes ls gs /\ es = concat gs.
Proof.
  induction 1 as [ls|l g ls es ls' Hl _ (gs & Hg & ->)|es ls _ (gs & Hg & ->)].
  - exists (map (fun _ => []) ls). split.
    + induction ls; repeat constructor. assumption.
    + induction ls; cbn; auto.
  - exists (g :: gs). split; [constructor; assumption|reflexivity].
  - exists []. split; [constructor|]. inversion Hg as [|? ? ? ? Hl Hn]; subst. inversion Hn; subst.
    apply line_nodes_nil in Hl as ->. reflexivity.
Qed.

Definition ns_all (ns : list node) : list node := flat_map node_all ns.
Lemma ns_all_app a b : ns_all (a ++ b) = ns_all a ++ ns_all b.
Proof. apply flat_map_app. Qed.
Lemma ns_all_left r : ns_all (left_over r) = left_over r.
Proof. destruct r; reflexivity. Qed.
Definition sec_all (d : option (token * list node)) : list node :=
  match d with Some (_, ns) => ns_all ns | None => [] end.
Definition cases_all (d : list (token * expr * list node)) : list node := flat_map (fun x => ns_all (snd x)) d.
(** The nodes inside a node. *)
Definition inside (n : node) : list node := tl (node_all n).
Lemma node_all_eq n : node_all n = n :: inside n.
Proof. destruct n; reflexivity. Qed.

Lemma inside_line l n : d_line l n -> inside n = [].
Proof. destruct 1; reflexivity. Qed.
Lemma all_cases {X} (mk : token -> expr -> block -> X) (all : X -> list node) ms :
  (forall a e b, all (mk a e b) = block_all b) ->
  flat_map all (map (fun '(a, e, ns) => mk a e (ASTBlock ns)) ms) = cases_all ms.
Proof.
  intros H. induction ms as [|[[a e] ns] ms IH]; [reflexivity|].
  cbn [map flat_map cases_all snd]. rewrite IH, H. reflexivity.
Qed.
Lemma inside_wtf t omgs d :
  inside (NWtf (Wtf t (map (fun '(a, e, ns) => WtfOmg a e (ASTBlock ns)) omgs)
                      (option_map (fun '(a, ns) => WtfOmgWtf a (ASTBlock ns)) d))) = cases_all omgs ++ sec_all d.
Proof.
  unfold inside. cbn [node_all tl]. f_equal.
  - apply (all_cases WtfOmg). reflexivity.
  - destruct d as [[a ns]|]; reflexivity.
Qed.
Lemma inside_o_rly t y ms n :
  inside (NORly (ORly t (option_map (fun '(a, ns) => YaRly a (ASTBlock ns)) y)
                        (option_map (fun '(a, ns) => NoWai a (ASTBlock ns)) n)
                        (map (fun '(a, e, ns) => Mebbe a e (ASTBlock ns)) ms))) = sec_all y ++ cases_all ms ++ sec_all n.
Proof.
  unfold inside. cbn [node_all tl]. f_equal; [|f_equal].
  - destruct y as [[a ns]|]; reflexivity.
  - apply (all_cases Mebbe). reflexivity.
  - destruct n as [[a ns]|]; reflexivity.
Qed.

(** What every outcome has: from the lines [ls]; the nodes of the result are [f]. *)
Definition stmt_runs (ls : list (list token)) (o : out node) : Prop :=
  match o with
  | Done n p => runs ls (node_all n ++ left_over (fst p)) (snd p)
  | Err e p => runs ls (NASTError e :: left_over (fst p)) (snd p)
  | Crash _ => True
  end.
Definition part_runs {A} (f : A -> list node) (ls : list (list token)) (o : out A) : Prop :=
  match o with
  | Done a p => runs ls (f a) (at_ p)
  | Err e p => runs ls (NASTError e :: left_over (fst p)) (snd p)
  | Crash _ => True
  end.

(** A node, and what is left of its line. *)
Lemma node_runs n p r ls : node_at p r n -> runs ((p ++ r) :: ls) (n :: left_over r) ls.
Proof.
  intros H. apply runs_one. destruct r as [|x r].
  - rewrite app_nil_r. apply one_node, H.
  - apply two_nodes; auto. discriminate.
Qed.
(** An error when [p] of the line [p ++ r] has been read. *)
Lemma here_runs e p r ls : error_at p r e -> runs ((p ++ r) :: ls) (NASTError e :: left_over r) ls.
Proof. intros H. apply node_runs, H. Qed.
Lemma failure_runs l f ls : on_line l f ->
  match f with
  | FErr e r => runs (l :: ls) (NASTError e :: left_over r) ls
  | _ => True
  end.
Proof. destruct f as [e r|c]; [|auto]. intros (p & -> & H). apply here_runs, H. Qed.
Lemma failed_stmt l f ls : on_line l f -> stmt_runs (l :: ls) (failed f ls).
Proof. intros H. apply (failure_runs l f ls) in H. destruct f; exact H. Qed.
Lemma failed_part {A} (g : A -> list node) l f ls : on_line l f -> part_runs g (l :: ls) (failed f ls).
Proof. intros H. apply (failure_runs l f ls) in H. destruct f; exact H. Qed.

(** Junk at the end of the line: the next line is left too. *)
Lemma junk_runs p x r l ls : l = p ++ x :: r ->
  runs (l :: ls) (NASTError (TooManyTokens (x :: r)) :: left_over (fst (line_of ls))) (snd (line_of ls)).
Proof.
  intros ->. apply (runs_line _ [_]); [|apply runs_left].
  apply left_node. discriminate.
Qed.
(** An error about the first line, and nothing left. *)
Lemma first_runs e l ls ls' : error_at l [] e -> runs ls [] ls' -> runs (l :: ls) [NASTError e] ls'.
Proof. intros He H. apply (runs_line _ [NASTError e]); [|exact H]. apply one_node, He. Qed.
(** A statement that starts on the line [l]. *)
Lemma start_runs n l ls es ls' : node_at l [] n -> runs ls es ls' -> runs (l :: ls) (n :: es) ls'.
Proof. intros H. apply (runs_line _ [n]). apply one_node, H. Qed.


Lemma expr_tokens_of o ts e : d_expr o ts e -> ts = expr_tokens e.
Proof. intros H. apply expr_iff in H. tauto. Qed.
Lemma args_subseq us es : d_args us es -> Subseq (flat_map expr_tokens es) us.
Proof.
  induction 1; cbn; [constructor| |].
  - apply sub_skip. apply expr_tokens_of in H0 as ->. rewrite app_nil_r. apply subseq_refl.
  - apply sub_skip. apply expr_tokens_of in H0 as ->. apply subseq_app_same, sub_skip. assumption.
Qed.
Lemma line_subseq l n : d_line l n -> Subseq (node_tokens n) l.
Proof.
  destruct 1; cbn.
  - apply sub_take. apply d_identifier_shape in H0 as ->. apply subseq_app_same. destruct H1; cbn.
    + constructor.
    + destruct H1; apply sub_skip, subseq_refl.
    + apply sub_skip. apply expr_tokens_of in H1 as ->. apply subseq_refl.
  - apply sub_take. apply exprs_tokens in H0 as ->. rewrite app_nil_r. apply subseq_refl.
  - apply sub_take. apply exprs_tokens in H0 as ->. apply subseq_refl.
  - apply sub_take. apply d_va_shape in H0 as ->. apply subseq_refl.
  - apply sub_take. apply expr_tokens_of in H0 as ->. apply subseq_refl.
  - apply subseq_refl.
  - apply subseq_refl.
  - apply sub_take. apply d_va_shape in H0 as ->. apply subseq_app_same.
    eapply subseq_trans; [apply args_subseq; eassumption|apply subseq_skip_end].
  - apply d_va_shape in H as ->. apply expr_tokens_of in H1 as ->. apply subseq_refl.
  - apply d_va_shape in H as ->. apply d_identifier_shape in H1 as ->. apply expr_tokens_of in H3 as ->.
    apply subseq_app_same, sub_skip, subseq_app_same, sub_skip, subseq_refl.
  - apply expr_tokens_of in H as ->. apply subseq_refl.
Qed.
Lemma line_first l n : d_line l n -> exists t us c, node_tokens n = t :: us /\ l = t :: c.
Proof.
  destruct 1; try (eexists _, _, _; split; reflexivity).
  - destruct (d_va_first _ _ H) as (x & xs & -> & Hx). cbn. unfold assignment_tokens. cbn.
    rewrite <- (d_va_shape _ _ H). eexists _, _, _; split; reflexivity.
  - destruct (d_va_first _ _ H) as (x & xs & -> & Hx). cbn. unfold set_slot_tokens. cbn.
    rewrite <- (d_va_shape _ _ H). eexists _, _, _; split; reflexivity.
  - destruct (d_expr_first _ _ _ H) as (x & xs & -> & Hx). cbn. rewrite <- (expr_tokens_of _ _ _ H).
    eexists _, _, _; split; reflexivity.
Qed.
Lemma line_node_at l r n : d_line l n -> node_at l r n.
Proof.
  intros H. pose proof (line_first _ _ H). pose proof (line_subseq _ _ H).
  assert (G : d_line l n /\ Subseq (node_tokens n) l /\ exists t us c, node_tokens n = t :: us /\ l = t :: c) by auto.
  destruct H; exact G.
Qed.
Lemma aborts_stmt {A} (g : A -> list node) ls o o' : aborts o o' -> part_runs g ls o -> stmt_runs ls o'.
Proof. destruct 1; auto. Qed.
Lemma aborts_part {A B} (g : A -> list node) (h : B -> list node) ls o o' :
  aborts o o' -> part_runs g ls o -> part_runs h ls o'.
Proof. destruct 1; auto. Qed.
Lemma runs_to {A} (g : A -> list node) a e b o : runs a e b -> e = [] -> part_runs g b o -> part_runs g a o.
Proof.
  intros H ->. destruct o as [x p|x [r ls']|c]; cbn; auto; intros G; [exact (runs_trans _ _ _ _ _ H G)|].
  exact (runs_trans _ _ _ _ _ H G).
Qed.
(** A part after lines with errors that are dropped if the part fails. *)
Lemma runs_after {A} (g : A -> list node) a e b o : runs a e b -> part_runs g b o ->
  part_runs (fun x => e ++ g x) a o.
Proof.
  intros H. destruct o as [x p|x [r ls']|c]; cbn; auto; intros G; [exact (runs_trans _ _ _ _ _ H G)|].
  exact (runs_trans _ _ _ _ _ (runs_drop _ _ _ H) G).
Qed.
Lemma header_runs {A} (g : A -> list node) l ls o : part_runs g (at_ (line_of ls)) o -> part_runs g (l :: ls) o.
Proof.
  apply (runs_to g _ _ _ _ (runs_trans _ _ _ _ _ (runs_next l ls) (runs_line_of ls))). reflexivity.
Qed.
Lemma part_ext {A} (g h : A -> list node) ls o : (forall x, g x = h x) -> part_runs g ls o -> part_runs h ls o.
Proof. intros E. destruct o as [x p|x [r ls']|c]; cbn; auto. now rewrite E. Qed.
Lemma omap_part {A B} (f : A -> B) (g : A -> list node) (h : B -> list node) ls o :
  (forall x, g x = h (f x)) -> part_runs g ls o -> part_runs h ls (omap f o).
Proof. intros E. destruct o as [x p|x [r ls']|c]; cbn; auto. now rewrite E. Qed.
Lemma body_runs {A} (g : A -> list node) ls a p : part_runs g (at_ (line_of ls)) (Done a p) -> runs ls (g a) (at_ p).
Proof. intros H. exact (runs_trans _ _ _ _ _ (runs_line_of ls) H). Qed.
Lemma dropped_runs {A} (g : A -> list node) ls a l ls' :
  part_runs g (at_ (line_of ls)) (Done a (l, ls')) -> runs ls [] ls'.
Proof.
  intros H. apply body_runs, runs_drop in H. exact (runs_trans _ _ _ _ _ H (runs_next l ls')).
Qed.
(** An error about the closing line [l]. *)
Lemma end_runs {A} (g : A -> list node) h ls a l ls' es ls'' : part_runs g (at_ (line_of ls)) (Done a (l, ls')) ->
  runs (l :: ls') es ls'' -> runs (h :: ls) es ls''.
Proof.
  intros H G. apply header_runs with (l := h) in H. apply runs_drop in H. exact (runs_trans _ _ _ _ _ H G).
Qed.
(** The statement, the nodes of the blocks and those of the closing line [l]. *)
Lemma all_runs {A} (g : A -> list node) n h ls a l ls' es ls'' : node_at h [] n -> inside n = g a ->
  part_runs g (at_ (line_of ls)) (Done a (l, ls')) ->
  runs (l :: ls') es ls'' -> runs (h :: ls) (node_all n ++ es) ls''.
Proof.
  intros Hn Hi H G. rewrite node_all_eq, Hi. apply start_runs; [exact Hn|].
  exact (runs_trans _ _ _ _ _ (body_runs _ _ _ _ H) G).
Qed.
Lemma closing_runs {A} (g : A -> list node) t q ls a p o : kw WTF t \/ kw O_RLY t -> question_tok q ->
  part_runs g (at_ (line_of ls)) (Done a p) ->
  closing t p o -> part_runs (fun _ => []) ([t; q] :: ls) o \/ exists p', o = Done tt p'.
Proof.
  intros Ht Hq H K. destruct K as [ls'|u r ls' Hu|u r ls' Hu]; [left|left|right; eauto]; cbn.
  - apply first_runs; [|eapply dropped_runs, H]. split; [reflexivity|]. right. eauto.
  - eapply end_runs; [exact H|]. apply (here_runs _ [u]). exists []. reflexivity.
Qed.
Lemma then_section {A B} (g : A -> list node) (h : B -> list node) ls a p o :
  part_runs g ls (Done a p) -> part_runs h (at_ p) o -> part_runs (fun x => g a ++ h x) ls o.
Proof. intros H. apply runs_after. exact H. Qed.

Lemma r_runs :
  (forall l ls o, r_stmt l ls o -> stmt_runs (l :: ls) o) /\
  (forall k p o, r_block k p o -> part_runs ns_all (at_ p) o) /\
  (forall k ls o, r_more k ls o -> part_runs ns_all ls o) /\
  (forall w k p o, r_section w k p o -> part_runs sec_all (at_ p) o) /\
  (forall w m k p o, r_cases w m k p o -> (forall t, kw w t -> error_at [t] [] (m t)) ->
    part_runs cases_all (at_ p) o).
Proof.
  apply r_mut; intros.
  all: repeat match goal with
  | H : (forall t, kw OMG t -> _) -> _ |- _ => specialize (H ltac:(intros ? _; split; [reflexivity|exists []; reflexivity]))
  | H : (forall t, kw MEBBE t -> _) -> _ |- _ => specialize (H ltac:(cbn; auto))
  end.
  all: try (apply failed_stmt; eauto using fails_stmt_on, x_loop_on, x_function_on, x_question_on; fail).
  all: try exact I.
  - (* reads *)
    destruct H as (ts & -> & H & _). cbn [stmt_runs fst snd]. rewrite node_all_eq, (inside_line _ _ H).
    apply node_runs. exact (line_node_at _ _ _ H).
  - (* HAI *)
    apply start_runs; [|apply runs_left]. split; [reflexivity|]. split; [reflexivity|discriminate].
  - destruct H0 as (its & cs & -> & _). apply (junk_runs (t :: label :: its ++ cs)). cbn. now rewrite app_assoc.
  - apply first_runs; [|eapply dropped_runs; eassumption]. split; [assumption|]. split; [reflexivity|]. eauto 7.
  - eapply end_runs; [eassumption|]. apply (here_runs _ [imo] []). pose proof (block_end_kw _ _ _ _ _ _ H1). cbn. auto.
  - eapply end_runs; [eassumption|]. apply (here_runs _ [imo; e]). pose proof (block_end_kw _ _ _ _ _ _ H1). cbn. eauto.
  - eapply all_runs; [repeat econstructor|reflexivity|eassumption|]. apply runs_one, (left_nodes _ [imo; e]). reflexivity.
  - destruct H0 as (ts & us & -> & _). apply (junk_runs (t :: ts ++ us)). cbn. now rewrite app_assoc.
  - apply first_runs; [|eapply dropped_runs; eassumption]. split; [reflexivity|]. left. eauto 7.
  - eapply end_runs; [eassumption|]. apply (junk_runs [e]). reflexivity.
  - eapply all_runs; [repeat econstructor|reflexivity|eassumption|]. apply (runs_line _ []); [constructor|apply runs_left].
  - apply (junk_runs [t; q]). reflexivity.
  - eapply aborts_stmt; [eassumption|]. apply header_runs. eassumption.
  - eapply aborts_stmt; [eassumption|]. apply header_runs. eapply then_section; eassumption.
  - eapply closing_runs with (q := q) in H5; [|auto|assumption|eapply then_section; eassumption].
    destruct H5 as [G|[p3 ->]]; [|now inversion H6]. eapply aborts_stmt; eassumption.
  - inversion H5; subst. eapply end_runs; [eapply then_section; eassumption|]. apply (junk_runs [u]). reflexivity.
  - inversion H5; subst. 
    eapply (all_runs (fun x => cases_all omgs ++ sec_all x)); [repeat econstructor|apply inside_wtf|eapply then_section; eassumption|].
    apply (runs_line _ []); [constructor|apply runs_left].
  - apply (junk_runs [t; q]). reflexivity.
  - eapply aborts_stmt; [eassumption|]. apply header_runs. eassumption.
  - eapply aborts_stmt; [eassumption|]. apply header_runs. eapply then_section; eassumption.
  - eapply aborts_stmt; [eassumption|]. apply header_runs.
    eapply then_section; [eapply then_section; eassumption|eassumption].
  - eapply closing_runs with (q := q) in H7; [|auto|assumption|eapply then_section; [eapply then_section; eassumption|eassumption]].
    destruct H7 as [G|[p4 ->]]; [|now inversion H8]. eapply aborts_stmt; eassumption.
  - inversion H7; subst. 
    eapply (all_runs (fun x => (sec_all y ++ cases_all ms) ++ sec_all x)).
    + repeat econstructor.
    + rewrite <- app_assoc. apply inside_o_rly.
    + apply (then_section (fun x => sec_all y ++ cases_all x)) with (p := p'); [|eassumption]. eapply (then_section sec_all); eassumption.
    + apply runs_one, (left_nodes _ [u]). reflexivity.
  - (* block *)
    eapply runs_to; [apply runs_next|reflexivity|assumption].
  - eapply omap_part; [|eapply runs_after; eassumption]. intros x. cbn [fst snd app].
    change (n :: left_over r ++ x) with ([n] ++ left_over r ++ x). rewrite !ns_all_app, app_assoc. f_equal. f_equal.
    + cbn. now rewrite app_nil_r.
    + now rewrite ns_all_left.
  - eapply omap_part; [|eapply runs_after; eassumption]. intros x. cbn [fst snd app].
    change (NASTError e :: left_over r ++ x) with ([NASTError e] ++ left_over r ++ x). rewrite !ns_all_app, app_assoc. f_equal.
    now rewrite ns_all_left.
  - apply runs_line_of.
  - constructor.
  - assumption.
  - constructor.
  - apply (junk_runs [t]). reflexivity.
  - eapply omap_part; [|apply header_runs; eassumption]. reflexivity.
  - constructor.
  - apply failed_part. apply (x_expected_on (m t) [t] l f); [apply H1|]; assumption.
  - apply (junk_runs (t :: ts)). reflexivity.
  - eapply aborts_part; [eassumption|]. apply header_runs. eassumption.
  - eapply omap_part; [|eapply then_section; [apply header_runs; eassumption|auto]]. reflexivity.
Qed.

Theorem nodes_by_line ts b : parse ts = ParseOk b ->
  exists gs, Forall2 line_nodes (logical_lines ts) gs /\ block_all b = concat gs.
Proof.
  destruct b as [ns]. intros H. apply parse_nodes in H as [p H]. apply r_runs in H.
  apply body_runs, groups_of in H. exact H.
Qed.

Lemma line_nodes_two l g : line_nodes l g -> length g <= 2 /\ length g <= length l.
Proof.
  destruct 1 as [l|l n H|p r Hr|p r n H Hr]; cbn; [lia| | |].
  - split; [lia|]. destruct l; cbn; [|lia]. elim (node_at_nil _ n H).
  - rewrite app_length. destruct r; [contradiction|]. cbn. lia.
  - rewrite app_length. destruct p; [elim (node_at_nil _ n H)|]. destruct r; [contradiction|]. cbn. lia.
Qed.
Theorem nodes_number ts b : parse ts = ParseOk b ->
  length (block_all b) <= 2 * length (filter (fun l => match l with [] => false | _ => true end) (logical_lines ts)) /\
  length (block_all b) <= length ts.
Proof.
  intros H. apply nodes_by_line in H as (gs & H & ->).
  assert (G : length (concat gs) <= 2 * length (filter (fun l => match l with [] => false | _ => true end) (logical_lines ts)) /\
              length (concat gs) <= length (concat (logical_lines ts))).
  { induction H as [|l g ls gs Hl _ IH]; [cbn; lia|]. apply line_nodes_two in Hl as [H1 H2].
    cbn [concat filter]. rewrite !app_length. destruct l; cbn [length] in *; lia. }
  pose proof (subseq_length _ _ (lines_subseq ts)). lia.
Qed.

Lemma error_on_at p r e : error_at p r e -> error_on (p ++ r) e.
Proof.
  intros H. assert (N : forall ts, e <> TooManyTokens ts) by (intros ts ->; exact H).
  apply error_at_on in H as (t & E & Ht).
  assert (T : exists t, error_tokens e = [t] /\ In t (p ++ r)).
  { exists t. split; [exact E|]. apply in_or_app. auto. }
  destruct e; try exact T. elim (N ts eq_refl).
Qed.
Lemma errors_of_nodes l g : line_nodes l g ->
  length (flat_map node_error g) <= 2 /\ Forall (error_on l) (flat_map node_error g).
Proof.
  assert (X : forall p r n, node_at p r n -> length (node_error n) <= 1 /\ Forall (error_on (p ++ r)) (node_error n)).
  { intros p r n H. destruct n; cbn; auto. split; [auto|]. constructor; [apply error_on_at, H|constructor]. }
  destruct 1 as [l|l n H|p r Hr|p r n H Hr]; cbn; [auto| | |].
  - apply X in H as [H1 H2]. rewrite app_nil_r in *. auto.
  - split; [lia|]. repeat constructor; [exact Hr|]. exists p. reflexivity.
  - apply X in H as [H1 H2]. rewrite app_length, Forall_app. cbn. split; [lia|]. split; [exact H2|].
    repeat constructor; [exact Hr|]. exists p. reflexivity.
Qed.
Theorem errors_by_line ts b : parse ts = ParseOk b ->
  exists gs, Forall2 (fun l es => length es <= 2 /\ Forall (error_on l) es) (logical_lines ts) gs /\
    block_errors b = concat gs.
Proof.
  intros H. apply nodes_by_line in H as (gs & H & E). exists (map (flat_map node_error) gs). split.
  - clear E. induction H; constructor; [apply errors_of_nodes|]; assumption.
  - unfold block_errors. rewrite E. clear. induction gs as [|g gs IH]; cbn; [reflexivity|].
    rewrite flat_map_app, IH. reflexivity.
Qed.
