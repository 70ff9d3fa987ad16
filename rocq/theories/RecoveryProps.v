(** Lemmas behind the theorems of PropFailure.v. *)
From Coq Require Import Lia.
From Verif Require Import Lines LinesSim ParseFuel Free Grammar ExprGrammar LineGrammar ProgGrammar ProgComplete
  Failure FailureSound FailureComplete Reads Recovery RecoverySound RecoveryComplete ParserProps.

(** ** The parser's results are exactly those of the specification *)
Lemma blk_out k s : exists o, blk (stop_of k) s = as_res o /\ r_block k s o.
Proof.
  pose proof (block_sp _ (statement_sp (sz s + 3)) (sz s + 3) k s) as H. change (sp (r_block k s) (blk (stop_of k) s)) in H.
  pose proof (blk_no_fuel (stop_of k) s) as HF.
  destruct (blk (stop_of k) s) as [ns p|e p|c|]; cbn [sp] in H.
  - exists (Done ns p). split; [reflexivity|exact H].
  - exists (Err e p). split; [reflexivity|exact H].
  - exists (Crash c). split; [reflexivity|exact H].
  - destruct (HF eq_refl).
Qed.
Lemma stmt_out t c ls : exists o, stmt t (c, ls) = as_res o /\ r_stmt (t :: c) ls o.
Proof.
  pose proof (statement_sp (sz (c, ls) + 3) t c ls) as H. change (sp (r_stmt (t :: c) ls) (stmt t (c, ls))) in H.
  pose proof (stmt_no_fuel t (c, ls)) as HF.
  destruct (stmt t (c, ls)) as [n p|e p|x|]; cbn [sp] in H.
  - exists (Done n p). split; [reflexivity|exact H].
  - exists (Err e p). split; [reflexivity|exact H].
  - exists (Crash x). split; [reflexivity|exact H].
  - destruct (HF eq_refl).
Qed.
Lemma as_res_inj {A} (o o' : out A) : as_res o = as_res o' -> o = o'.
Proof. destruct o, o'; cbn; congruence. Qed.
Lemma blk_iff k s o : blk (stop_of k) s = as_res o <-> r_block k s o.
Proof.
  split; [|apply complete_mut]. intros H. destruct (blk_out k s) as (o' & E & Ho).
  rewrite E in H. apply as_res_inj in H. congruence.
Qed.

Lemma block_one_outcome k s : exists o, r_block k s o /\ forall o', r_block k s o' -> o' = o.
Proof.
  destruct (blk_out k s) as (o & E & Ho). exists o. split; [exact Ho|]. intros o' Ho'.
  apply blk_iff in Ho'. rewrite E in Ho'. apply as_res_inj. congruence.
Qed.
Lemma stmt_one_outcome l ls : l <> [] -> exists o, r_stmt l ls o /\ forall o', r_stmt l ls o' -> o' = o.
Proof.
  intros Hn. destruct l as [|t c]; [destruct (Hn eq_refl)|]. destruct (stmt_out t c ls) as (o & E & Ho).
  exists o. split; [exact Ho|]. intros o' Ho'. apply (proj1 complete_mut) in Ho'. specialize (Ho' _ _ eq_refl).
  rewrite E in Ho'. apply as_res_inj. congruence.
Qed.

Lemma logical_nodes ls ns : parse_logical ls = ParseOk (ASTBlock ns) <-> program_nodes ls ns.
Proof.
  rewrite parse_logical_blk. change (l_start ls) with (line_of ls). unfold program_nodes.
  pose proof (blk_iff Root (line_of ls)) as H. change (stop_of Root) with stop_root in H. split.
  - intros E. destruct (blk stop_root (line_of ls)) as [ms p|e p|c|]; cbn in E; try discriminate.
    injection E as ->. exists p. apply H. reflexivity.
  - intros (p & Hp). apply H in Hp. rewrite Hp. reflexivity.
Qed.
Lemma logical_panics ls c : parse_logical ls = ParsePanic c <-> program_panics ls c.
Proof.
  rewrite parse_logical_blk. change (l_start ls) with (line_of ls). unfold program_panics.
  pose proof (blk_iff Root (line_of ls)) as H. change (stop_of Root) with stop_root in H. split.
  - intros E. destruct (blk stop_root (line_of ls)) as [ms p|e p|k|]; cbn in E; try discriminate.
    injection E as ->. apply H. reflexivity.
  - intros Hp. apply H in Hp. rewrite Hp. reflexivity.
Qed.
Lemma parse_nodes ts ns : parse ts = ParseOk (ASTBlock ns) <-> program_nodes (logical_lines ts) ns.
Proof. rewrite parse_logical_lines. apply logical_nodes. Qed.
Lemma parse_panics_iff ts c : parse ts = ParsePanic c <-> program_panics (logical_lines ts) c.
Proof. rewrite parse_logical_lines. apply logical_panics. Qed.

(** ** Programs without block statements *)
Lemma multi_block_start t : multi_line t <-> block_start t.
Proof. unfold multi_line, block_start. tauto. Qed.

Lemma line_out t c ls : ~ block_start t -> exists x, line_result (t :: c) x /\
  forall y, y = rest_result ls -> parse_logical ((t :: c) :: ls) =
    match x with inl ns => put ns y | inr p => ParsePanic p end.
Proof.
  intros Hb. assert (Hm : ~ multi_line t) by (rewrite multi_block_start; exact Hb).
  rewrite parse_logical_unfold. pose proof (single_fl (sz (c, ls) + 3) t c ls Hm) as Hf.
  pose proof (fun n s => single_reads (sz (c, ls) + 3) t c ls n s Hm) as Hr.
  fold (stmt t (c, ls)) in Hf, Hr. pose proof (stmt_no_fuel t (c, ls)) as HF.
  destruct (stmt t (c, ls)) as [n s|e s|p|].
  - destruct (Hr _ _ eq_refl) as (r & -> & H). exists (inl (n :: left_over r)).
    split; [constructor; exact H|]. intros y ->. reflexivity.
  - destruct Hf as (r & -> & H). exists (inl (NASTError e :: left_over r)).
    split; [constructor; exact H|]. intros y ->. reflexivity.
  - exists (inr p). split; [constructor; exact Hf|]. reflexivity.
  - destruct (HF eq_refl).
Qed.

Lemma line_result_unique l x y : line_result l x -> line_result l y -> x = y.
Proof.
  intros H1 H2. destruct l as [|t c].
  - assert (G : forall z, line_result [] z -> z = inl []).
    { intros z H. inversion H as [|l' n r (ts & E & Hd & _)|l' e r Hx|l' p Hx]; subst; [reflexivity|..].
      - destruct (d_line_first _ _ Hd) as (u & us & -> & _). discriminate.
      - destruct (fails_nonnil _ _ Hx) as (? & ? & ?). discriminate.
      - destruct (fails_nonnil _ _ Hx) as (? & ? & ?). discriminate. }
    rewrite (G _ H1), (G _ H2). reflexivity.
  - assert (G : forall z, line_result (t :: c) z ->
      z = match parse_statement l_next l_peek l_next_statement (length (t :: c) + 2) t (c, []) with
          | ROk n s => inl (n :: left_over (fst s))
          | RErr e s => inl (NASTError e :: left_over (fst s))
          | RPanic p => inr p
          | RFuel => inl []
          end).
    { intros z H. inversion H as [|l' n r Hr|l' e r Hx|l' p Hx]; subst.
      - rewrite (single_reads_complete _ _ _ Hr t c (length (t :: c) + 2) [] eq_refl) by lia. reflexivity.
      - rewrite (single_x _ _ Hx t c (length (t :: c) + 2) [] eq_refl) by lia. reflexivity.
      - rewrite (single_x _ _ Hx t c (length (t :: c) + 2) [] eq_refl) by lia. reflexivity. }
    rewrite (G _ H1), (G _ H2). reflexivity.
Qed.
Lemma line_result_total l : ~ begins block_start l -> exists x, line_result l x.
Proof.
  intros H. destruct l as [|t c]; [exists (inl []); constructor|].
  destruct (line_out t c []) as (x & Hx & _); [|eauto]. intros Hb. apply H. exists t, c. auto.
Qed.

Lemma lines_out ls : Forall (fun l => l <> [] /\ ~ begins block_start l) ls ->
  exists xs, Forall2 line_result ls xs /\ parse_logical ls = result_ (in_order xs).
Proof.
  induction 1 as [|l ls [Hn Hb] Hl IH].
  - exists []. split; [constructor|reflexivity].
  - destruct IH as (xs & Hxs & E). destruct l as [|t c]; [destruct (Hn eq_refl)|].
    destruct (line_out t c ls) as (x & Hx & Ex). { intros H. apply Hb. exists t, c. auto. }
    exists (x :: xs). split; [constructor; assumption|]. rewrite (Ex _ eq_refl).
    assert (Er : rest_result ls = parse_logical ls).
    { destruct ls as [|[|u l] ls]; [reflexivity| |reflexivity]. inversion Hl as [|? ? [H _] _]; destruct (H eq_refl). }
    rewrite Er, E. destruct x as [ns|p]; [|reflexivity]. cbn [in_order]. destruct (in_order xs); reflexivity.
Qed.
Lemma Forall2_unique {A B} (P : A -> B -> Prop) l xs ys : (forall a x y, P a x -> P a y -> x = y) ->
  Forall2 P l xs -> Forall2 P l ys -> xs = ys.
Proof.
  intros HP H. revert ys. induction H as [|a x l xs Hx H IH]; intros ys H'; inversion H'; subst; [reflexivity|].
  f_equal; eauto.
Qed.
Lemma lines_iff ts x : Forall (fun l => l <> [] /\ ~ begins block_start l) (logical_lines ts) ->
  parse ts = result_ x <-> exists xs, Forall2 line_result (logical_lines ts) xs /\ in_order xs = x.
Proof.
  intros H. rewrite parse_logical_lines. destruct (lines_out _ H) as (xs & Hxs & E). split.
  - intros Hp. exists xs. split; [exact Hxs|]. rewrite E in Hp.
    destruct (in_order xs), x; cbn in Hp; congruence.
  - intros (ys & Hys & <-). rewrite E. f_equal. f_equal.
    eapply Forall2_unique; [apply line_result_unique|eassumption..].
Qed.
