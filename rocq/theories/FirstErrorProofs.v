(** Proofs for C91. *)
From Coq Require Import String Lia.
From Verif Require Import Parser Lines LinesSim ParseFuel Free Relabel RelabelProofs ExprGrammar Grammar Clean LineGrammar ProgGrammar ProgComplete
  Failure Reads Recovery RecoveryProps RecoverySound ParserProps AppendProofs LineEffect LineEffectProofs StmtSubst NodeLines NodeLinesProofs CheckerProofs.
From Verif Require Export FirstError.
Local Open Scope list_scope.

(** ** Statements of the grammar have their outcomes *)
Lemma stmt_outcome L n X : d_stmt L n -> exists t c M, L = (t :: c) :: M /\ ~ closer t /\ r_stmt (t :: c) (M ++ X) (Done n ([], X)).
Proof.
  intros H. destruct (d_stmt_first _ _ H) as (t & c & M & -> & Ht). exists t, c, M. split; [reflexivity|]. split; [exact Ht|].
  destruct (proj1 ProgComplete.complete_mut _ _ H) as [F HF]. apply stmt_iff.
  set (s := (c, M ++ X)). rewrite <- (stmt_eq (F + (sz s + 3)) t s) by lia.
  unfold s at 2. rewrite (HF (F + (sz s + 3)) ltac:(lia) t c M X eq_refl). reflexivity.
Qed.
Lemma closes_closer k t : closes k t -> closer t.
Proof. destruct k; cbn; unfold closer; tauto. Qed.
Lemma omap_id {A} (f : A -> A) o : (forall a, f a = a) -> omap f o = o.
Proof. intros H. destruct o; cbn; [now rewrite H|reflexivity..]. Qed.
Lemma omap_app (a b : list node) o : omap (app a) (omap (app b) o) = omap (app (a ++ b)) o.
Proof. destruct o; cbn; [now rewrite app_assoc|reflexivity..]. Qed.
Lemma stmts_more L ns k X o : d_stmts L ns -> r_more k X o -> r_more k (L ++ X) (omap (app ns) o).
Proof.
  induction 1 as [|L n M ns Hn _ IH]; intros H; [rewrite omap_id by reflexivity; exact H|].
  rewrite <- app_assoc. destruct (stmt_outcome L n (M ++ X) Hn) as (t & c & L' & -> & Ht & Hs).
  change (((t :: c) :: L') ++ M ++ X) with ((t :: c) :: L' ++ M ++ X).
  apply r_more_go; [intros K; exact (Ht (closes_closer _ _ K))|].
  rewrite <- (omap_app (n :: left_over []) ns o : _ = omap (app (n :: ns)) o).
  eapply r_block_done; [exact Hs|exact (IH H)].
Qed.
Lemma stmts_block L ns k X o : d_stmts L ns -> ns <> [] -> r_more k X o -> r_block k (line_of (L ++ X)) (omap (app ns) o).
Proof.
  intros H Hn Hm. pose proof (stmts_more _ _ _ _ _ H Hm) as K. destruct H as [|L n M ns H _]; [contradiction|].
  destruct (d_stmt_first _ _ H) as (t & c & M' & -> & Ht). cbn [app line_of] in *.
  inversion K as [k0 ls0 E|k0 t0 c0 ls0 E|k0 t0 c0 ls0 o0 E1 E2]; subst; [discriminate|destruct (Ht (closes_closer _ _ ltac:(eassumption)))|assumption].
Qed.
Lemma block_block L ns k X o : d_block L ns -> r_more k X o -> r_block k (line_of (L ++ X)) (omap (app ns) o).
Proof.
  intros [L' ns' H Hn|L' ns' H] Hm; [exact (stmts_block _ _ _ _ _ H Hn Hm)|]. cbn [app line_of].
  apply r_block_empty. exact (stmts_more _ _ _ _ _ H Hm).
Qed.
Lemma block_snoc B ns L n : B = [] /\ ns = [] \/ d_block B ns -> d_stmt L n -> d_block (B ++ L) (ns ++ [n]).
Proof.
  intros H Hn. assert (K : d_stmts L [n]) by (rewrite <- (app_nil_r L); constructor; [exact Hn|constructor]).
  destruct H as [(-> & ->)|[B' ns' H Hne|B' ns' H]]; cbn [app].
  - apply d_block_stmts; [exact K|discriminate].
  - apply d_block_stmts; [apply stmts_app; assumption|]. destruct ns'; [contradiction|discriminate].
  - apply d_block_empty_line. apply stmts_app; assumption.
Qed.

(** ** What has been read *)
(** The lines of the innermost block: none, or a block. *)
Definition in_part (B : list (list token)) (ns : list node) : Prop := B = [] /\ ns = [] \/ d_block B ns.

(** A statement that is open, up to its innermost block; [t] is its first token. *)
Inductive opened : frame -> list (list token) -> token -> Prop :=
| op_loop t label its it cs cond : kw IM_IN_YR t -> ident_tok label -> d_iteration its it -> d_condition cs cond ->
    opened FLoop [t :: label :: its ++ cs] t
| op_function t ts i us params : kw HOW_IZ_I t -> d_identifier ts i -> d_params us params -> opened FFunction [t :: ts ++ us] t
| op_switch t q L x u o ts e : kw WTF t -> question_tok q -> d_omgs L x -> kw OMG u -> d_expr o ts e ->
    opened FSwitch ([t; q] :: L ++ [u :: ts]) t
| op_default t q L x u : kw WTF t -> question_tok q -> d_omgs L x -> kw OMGWTF u -> opened FDefault ([t; q] :: L ++ [[u]]) t
| op_ya_rly t q u : kw O_RLY t -> question_tok q -> kw YA_RLY u -> opened FIf [[t; q]; [u]] t
| op_mebbe t q Y y L x u o ts e : kw O_RLY t -> question_tok q -> d_ya_rly Y y -> d_mebbes L x -> kw MEBBE u -> d_expr o ts e ->
    opened FIf ([t; q] :: Y ++ L ++ [u :: ts]) t
| op_no_wai t q Y y L x u : kw O_RLY t -> question_tok q -> d_ya_rly Y y -> d_mebbes L x -> kw NO_WAI u ->
    opened FElse ([t; q] :: Y ++ L ++ [[u]]) t.

(** The lines before the innermost block; [T]: the first tokens of the open statements. *)
Fixpoint before (open : list frame) (T : list token) (P : list (list token)) : Prop :=
  match open with
  | [] => P = [] /\ T = []
  | f :: open' => exists P0 B ns M t T', T = t :: T' /\ P = P0 ++ B ++ M /\ before open' T' P0 /\ in_part B ns /\ opened f M t
  end.
Definition past (s : state) (T : list token) (ls : list (list token)) : Prop :=
  match s with
  | Fresh open => before open T ls
  | Begun open => exists P B ns, ls = P ++ B /\ before open T P /\ d_block B ns
  | NeedEmpty open => exists P B ns M n, ls = P ++ B ++ M /\ before open T P /\ in_part B ns /\ d_stmt (M ++ [[]]) n
  | SwitchHead open => exists P B ns t q T', T = t :: T' /\ ls = P ++ B ++ [[t; q]] /\ before open T' P /\ in_part B ns /\ kw WTF t /\ question_tok q
  | IfHead open => exists P B ns t q T', T = t :: T' /\ ls = P ++ B ++ [[t; q]] /\ before open T' P /\ in_part B ns /\ kw O_RLY t /\ question_tok q
  | Ended => T = [] /\ exists L ns L', ls = L ++ [] :: L' /\ d_block L ns
  end.

Lemma omgs_snoc L x u o ts e B ns : d_omgs L x -> kw OMG u -> d_expr o ts e -> d_block B ns -> exists x', d_omgs (L ++ (u :: ts) :: B) x'.
Proof.
  intros H Hu He HB. induction H as [|t o' ts' e' L ns' M x Ht He' HB' _ (x' & IH)].
  - exists [WtfOmg u e (ASTBlock ns)]. cbn [app]. rewrite <- (app_nil_r B). econstructor; [exact Hu|exact He|exact HB|constructor].
  - exists (WtfOmg t e' (ASTBlock ns') :: x'). cbn [app]. rewrite <- app_assoc. econstructor; eassumption.
Qed.
Lemma mebbes_snoc L x u o ts e B ns : d_mebbes L x -> kw MEBBE u -> d_expr o ts e -> d_block B ns -> exists x', d_mebbes (L ++ (u :: ts) :: B) x'.
Proof.
  intros H Hu He HB. induction H as [|t o' ts' e' L ns' M x Ht He' HB' _ (x' & IH)].
  - exists [Mebbe u e (ASTBlock ns)]. cbn [app]. rewrite <- (app_nil_r B). econstructor; [exact Hu|exact He|exact HB|constructor].
  - exists (Mebbe t e' (ASTBlock ns') :: x'). cbn [app]. rewrite <- app_assoc. econstructor; eassumption.
Qed.
Lemma past_in s open T ls : in_block s open -> past s T ls -> exists P B ns, ls = P ++ B /\ before open T P /\ in_part B ns.
Proof.
  destruct 1; cbn [past].
  - intros H. exists ls, [], []. rewrite app_nil_r. unfold in_part. auto.
  - intros (P & B & ns & -> & H & HB). exists P, B, ns. unfold in_part. auto.
Qed.
(** The sections of a WTF? before the next one. *)
Lemma past_case s open T ls : before_case s open -> past s T ls ->
  exists P B ns t q L x T', T = t :: T' /\ ls = P ++ B ++ [t; q] :: L /\ before open T' P /\ in_part B ns /\ kw WTF t /\ question_tok q /\ d_omgs L x.
Proof.
  destruct 1; cbn [past].
  - intros (P & B & ns & t & q & T' & -> & -> & H & HB & Ht & Hq). exists P, B, ns, t, q, [], [], T'.
    repeat (split; [assumption||reflexivity|]). constructor.
  - intros (P & B & ns & -> & (P0 & B0 & ns0 & M & t & T' & -> & -> & H & HB0 & HM) & HB). inversion HM; subst.
    destruct (omgs_snoc L x u o ts e B ns) as (x' & Hx); try assumption.
    exists P0, B0, ns0, t, q, (L ++ (u :: ts) :: B), x', T'. split; [reflexivity|].
    split; [rewrite <- !app_assoc; cbn [app]; rewrite <- app_assoc; reflexivity|].
    repeat (split; [assumption|]). assumption.
Qed.
Lemma past_mebbe s open T ls : before_mebbe s open -> past s T ls ->
  exists P B ns t q Y y L x T', T = t :: T' /\ ls = P ++ B ++ [t; q] :: Y ++ L /\ before open T' P /\ in_part B ns /\ kw O_RLY t /\ question_tok q /\
    d_ya_rly Y y /\ d_mebbes L x.
Proof.
  destruct 1; cbn [past].
  - intros (P & B & ns & t & q & T' & -> & -> & H & HB & Ht & Hq). exists P, B, ns, t, q, [], None, [], [], T'.
    repeat (split; [assumption||reflexivity||constructor|]). constructor.
  - intros (P & B & ns & -> & (P0 & B0 & ns0 & M & t & T' & -> & -> & H & HB0 & HM) & HB). inversion HM; subst.
    + exists P0, B0, ns0, t, q, ([u] :: B), (Some (YaRly u (ASTBlock ns))), [], [], T'. split; [reflexivity|].
      split; [rewrite <- !app_assoc, app_nil_r; reflexivity|]. repeat (split; [assumption|]). split; constructor; assumption.
    + destruct (mebbes_snoc L x u o ts e B ns) as (x' & Hx); try assumption.
      exists P0, B0, ns0, t, q, Y, y, (L ++ (u :: ts) :: B), x', T'. split; [reflexivity|].
      split; [rewrite <- !app_assoc; cbn [app]; rewrite <- !app_assoc; reflexivity|].
      repeat (split; [assumption|]). assumption.
Qed.
Lemma past_begun open T P B ns L n ls : before open T P -> in_part B ns -> d_stmt L n -> ls = P ++ B ++ L -> past (Begun open) T ls.
Proof. intros H HB HL ->. exists P, (B ++ L), (ns ++ [n]). split; [reflexivity|]. split; [exact H|]. apply block_snoc; assumption. Qed.

(** The tokens on [T]. *)
Lemma in_depth s open : in_block s open -> depth s = length open.
Proof. destruct 1; reflexivity. Qed.
Lemma case_depth s open : before_case s open -> depth s = S (length open).
Proof. destruct 1; reflexivity. Qed.
Lemma mebbe_depth s open : before_mebbe s open -> depth s = S (length open).
Proof. destruct 1; reflexivity. Qed.
Lemma oc_same s s' l T : depth s = depth s' -> opens_closes s s' l T = T.
Proof. unfold opens_closes. intros ->. now rewrite Nat.compare_refl. Qed.
Lemma oc_open s s' t c T : S (depth s) = depth s' -> opens_closes s s' (t :: c) T = t :: T.
Proof. unfold opens_closes. intros H. replace (Nat.compare (depth s) (depth s')) with Lt; [reflexivity|]. symmetry. apply Nat.compare_lt_iff. lia. Qed.
Lemma oc_close s s' l t T : depth s = S (depth s') -> opens_closes s s' l (t :: T) = T.
Proof. unfold opens_closes. intros H. replace (Nat.compare (depth s) (depth s')) with Gt; [reflexivity|]. symmetry. apply Nat.compare_gt_iff. lia. Qed.
Ltac depths := repeat match goal with
  | H : in_block _ _ |- _ => apply in_depth in H
  | H : before_case _ _ |- _ => apply case_depth in H
  | H : before_mebbe _ _ |- _ => apply mebbe_depth in H end; cbn [depth length] in *; congruence.
Ltac same := rewrite oc_same by depths.
Ltac opens := rewrite oc_open by depths.
Ltac closes_ := rewrite oc_close by depths.

Ltac shape := rewrite <- ?app_assoc; cbn [app]; rewrite <- ?app_assoc; reflexivity.
Lemma past_step s l s' T ls : step s l s' -> past s T ls -> past s' (opens_closes s s' l T) (ls ++ [l]).
Proof.
  intros H Hp. destruct H.
  - same. destruct (past_in _ _ _ _ H Hp) as (P & B & ns & -> & K & HB).
    apply (past_begun open T P B ns [l] n); auto; [constructor; assumption|shape].
  - same. destruct (past_in _ _ _ _ H Hp) as (P & B & ns & -> & K & HB).
    exists P, B, ns, [t :: version], (NHai (mkHai t version)). split; [shape|]. split; [exact K|]. split; [exact HB|].
    constructor. assumption.
  - opens. destruct (past_in _ _ _ _ H Hp) as (P & B & ns & -> & K & HB).
    exists P, B, ns, [t :: label :: its ++ cs], t, T. split; [reflexivity|]. split; [shape|]. split; [exact K|]. split; [exact HB|]. econstructor; eassumption.
  - opens. destruct (past_in _ _ _ _ H Hp) as (P & B & ns & -> & K & HB).
    exists P, B, ns, [t :: ts ++ us], t, T. split; [reflexivity|]. split; [shape|]. split; [exact K|]. split; [exact HB|]. econstructor; eassumption.
  - opens. destruct (past_in _ _ _ _ H Hp) as (P & B & ns & -> & K & HB).
    exists P, B, ns, t, q, T. split; [reflexivity|]. split; [shape|]. repeat (split; [assumption|]). assumption.
  - opens. destruct (past_in _ _ _ _ H Hp) as (P & B & ns & -> & K & HB).
    exists P, B, ns, t, q, T. split; [reflexivity|]. split; [shape|]. repeat (split; [assumption|]). assumption.
  - same. exists ls, [[]], []. split; [reflexivity|]. split; [exact Hp|]. apply d_block_empty_line. constructor.
  - same. destruct Hp as (P & B & ns & M & n & -> & K & HB & HM).
    apply (past_begun open T P B ns (M ++ [[]]) n); auto. shape.
  - same. destruct Hp as (P & B & ns & -> & (-> & ->) & HB). split; [reflexivity|]. exists B, ns, []. split; [reflexivity|exact HB].
  - same. destruct Hp as (-> & L & ns & L' & -> & HL). split; [reflexivity|]. exists L, ns, (L' ++ [l]). split; [shape|exact HL].
  - destruct Hp as (P & B & ns & -> & (P0 & B0 & ns0 & M & u & T' & -> & -> & K & HB0 & HM) & HB). closes_. inversion HM; subst.
    eapply (past_begun open T' P0 B0 ns0 ((u :: label0 :: its ++ cs) :: B ++ [[t; label]])); [exact K|exact HB0| |shape].
    econstructor; eassumption.
  - destruct Hp as (P & B & ns & -> & (P0 & B0 & ns0 & M & u & T' & -> & -> & K & HB0 & HM) & HB). closes_. inversion HM; subst.
    eexists P0, B0, ns0, ((u :: ts ++ us) :: B ++ [[t]]), _. split; [shape|]. split; [exact K|]. split; [exact HB0|].
    cbn [app]. rewrite <- app_assoc. eapply d_function; eassumption.
  - same. destruct (past_case _ _ _ _ H Hp) as (P & B & ns & u & q & L & x & T' & -> & -> & K & HB & Hu & Hq & HL).
    exists P, B, ns, ([u; q] :: L ++ [t :: ts]), u, T'. split; [reflexivity|]. split; [shape|]. split; [exact K|]. split; [exact HB|]. econstructor; eassumption.
  - same. destruct (past_case _ _ _ _ H Hp) as (P & B & ns & u & q & L & x & T' & -> & -> & K & HB & Hu & Hq & HL).
    exists P, B, ns, ([u; q] :: L ++ [[t]]), u, T'. split; [reflexivity|]. split; [shape|]. split; [exact K|]. split; [exact HB|]. econstructor; eassumption.
  - destruct H as [H| ->].
    + destruct (past_case _ _ _ _ H Hp) as (P & B & ns & u & q & L & x & T' & -> & -> & K & HB & Hu & Hq & HL). closes_.
      eexists P, B, ns, ([u; q] :: L ++ [[t]]), _. split; [shape|]. split; [exact K|]. split; [exact HB|].
      cbn [app]. rewrite <- app_assoc. apply (d_wtf u q L x [] None t); try assumption. constructor.
    + destruct Hp as (P & B & ns & -> & (P0 & B0 & ns0 & M & u & T' & -> & -> & K & HB0 & HM) & HB). closes_. inversion HM; subst.
      match goal with Hw : kw OMGWTF ?w |- _ => 
      eexists P0, B0, ns0, ([u; q] :: L ++ ([w] :: B) ++ [[t]]), _; split; [shape|]; split; [exact K|]; split; [exact HB0|];
      cbn [app]; rewrite <- !app_assoc; cbn [app]; rewrite <- !app_assoc; apply (d_wtf u q L x ([w] :: B) (Some (WtfOmgWtf w (ASTBlock ns))) t); try assumption end.
      constructor; assumption.
  - same. destruct Hp as (P & B & ns & u & q & T' & -> & -> & K & HB & Hu & Hq).
    exists P, B, ns, [[u; q]; [t]], u, T'. split; [reflexivity|]. split; [shape|]. split; [exact K|]. split; [exact HB|]. constructor; assumption.
  - same. destruct (past_mebbe _ _ _ _ H Hp) as (P & B & ns & u & q & Y & y & L & x & T' & -> & -> & K & HB & Hu & Hq & HY & HL).
    exists P, B, ns, ([u; q] :: Y ++ L ++ [t :: ts]), u, T'. split; [reflexivity|]. split; [shape|]. split; [exact K|]. split; [exact HB|]. eapply op_mebbe; eassumption.
  - same. destruct (past_mebbe _ _ _ _ H Hp) as (P & B & ns & u & q & Y & y & L & x & T' & -> & -> & K & HB & Hu & Hq & HY & HL).
    exists P, B, ns, ([u; q] :: Y ++ L ++ [[t]]), u, T'. split; [reflexivity|]. split; [shape|]. split; [exact K|]. split; [exact HB|]. eapply op_no_wai; eassumption.
  - destruct H as [H| ->].
    + destruct (past_mebbe _ _ _ _ H Hp) as (P & B & ns & u & q & Y & y & L & x & T' & -> & -> & K & HB & Hu & Hq & HY & HL). closes_.
      eapply (past_begun open T' P B ns ([u; q] :: Y ++ L ++ [] ++ [[t]])); [exact K|exact HB| |shape].
      eapply d_o_rly; try eassumption. constructor.
    + destruct Hp as (P & B & ns & -> & (P0 & B0 & ns0 & M & u & T' & -> & -> & K & HB0 & HM) & HB). closes_. inversion HM; subst.
      match goal with Hw : kw NO_WAI ?w |- _ =>
      eapply (past_begun open T' P0 B0 ns0 ([u; q] :: Y ++ L ++ ([w] :: B) ++ [[t]])); [exact K|exact HB0| |shape];
      eapply d_o_rly; try eassumption; constructor; eassumption end.
Qed.
Lemma past_tracks s T ms s' T' : tracks s T ms s' T' -> forall ls, past s T ls -> past s' T' (ls ++ ms).
Proof.
  induction 1 as [s T|s T l s1 ms s2 T2 H _ IH]; intros ls Hp; [rewrite app_nil_r; exact Hp|].
  change (l :: ms) with ([l] ++ ms). rewrite app_assoc. apply IH, past_step; assumption.
Qed.
Lemma past_run ls s T : tracks (Fresh []) [] ls s T -> past s T ls.
Proof. intros H. apply (past_tracks _ _ _ _ _ H []). split; reflexivity. Qed.
