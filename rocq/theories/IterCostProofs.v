(** Proofs for C75. *)
From Coq Require Import Lia.
From Coq Require Import String.
From Verif Require Import Lexer LexSpec LexPropSpec LexProps2 Lines LinesSim Cost CostProofs CostLimit CostPanic IterCost.
Local Open Scope string_scope.
Local Open Scope list_scope.
Local Open Scope nat_scope.

(** ** Single calls *)
Lemma advance_bound ts : forall cur o ts' cur', advance ts cur = (o, ts', cur') ->
  advance_calls ts cur + length ts' <= 1 + length ts /\ advance_calls ts cur <= 1 + leading_ellipses ts /\ longest_run ts' <= longest_run ts.
Proof.
  induction ts as [|t ts IH]; intros cur o ts' cur' E; cbn [advance advance_calls] in *; [injection E as <- <- <-; cbn; lia|].
  cbn [leading_ellipses longest_run length]. 
  destruct (is_comma t); [injection E as <- <- <-; cbn [leading_ellipses longest_run length]; lia|].
  destruct (is_ellipsis t) eqn:Et; cbn [andb] in *.
  - destruct (start_line (tok_range t) =? cur)%Z.
    + apply IH in E. lia.
    + injection E as <- <- <-. cbn [leading_ellipses longest_run length]. rewrite Et. lia.
  - destruct (start_line (tok_range t) =? cur)%Z; injection E as <- <- <-; cbn [leading_ellipses longest_run length]; rewrite ?Et; lia.
Qed.

Lemma leading_le ts : leading_ellipses ts <= longest_run ts.
Proof. destruct ts; [cbn; lia|cbn [longest_run]; lia]. Qed.

Lemma next_bound it : next_work it + length (tokens_iter (snd (iter_next it))) <= 1 + length (tokens_iter it) /\
  next_work it <= 1 + longest_run (tokens_iter it) /\ longest_run (tokens_iter (snd (iter_next it))) <= longest_run (tokens_iter it).
Proof.
  unfold next_work, iter_next. destruct (peeked it); [cbn; lia|].
  destruct (advance _ _) as [[o ts'] cur'] eqn:E. pose proof (advance_bound _ _ _ _ _ E). pose proof (leading_le (tokens_iter it)). cbn [snd tokens_iter]. lia.
Qed.

Lemma peek_bound it : peek_work it + length (tokens_iter (snd (iter_peek it))) <= 2 + length (tokens_iter it) /\
  peek_stack it <= 1 + longest_run (tokens_iter it) /\ longest_run (tokens_iter (snd (iter_peek it))) <= longest_run (tokens_iter it).
Proof.
  pose proof (next_bound it). unfold peek_work, peek_stack, iter_peek. destruct (peeked it); [cbn; lia|].
  destruct (iter_next it). cbn [snd tokens_iter] in *. lia.
Qed.

Lemma collect_bound ts : forall cur l r c, collect_tokens ts cur = (l, r, c) ->
  collect_calls ts cur + length r <= 1 + length ts /\ longest_run r <= longest_run ts.
Proof.
  induction ts as [|t ts IH]; intros cur l r c E; cbn [collect_tokens collect_calls] in *; [injection E as <- <- <-; cbn; lia|].
  cbn [longest_run length].
  destruct (is_comma t); [injection E as <- <- <-; cbn [longest_run length]; lia|].
  destruct (is_ellipsis t && _); [apply IH in E; lia|].
  destruct (start_line (tok_range t) =? cur)%Z; [|injection E as <- <- <-; cbn [longest_run length]; lia].
  destruct (collect_tokens ts cur) as [[l' r'] c'] eqn:E'. apply IH in E'. injection E as <- <- <-. lia.
Qed.
Lemma open_bound ts : forall run cur, collect_open run ts cur <= 1 + Nat.max (run + leading_ellipses ts) (longest_run ts).
Proof.
  induction ts as [|t ts IH]; intros run cur; cbn [collect_open leading_ellipses longest_run]; [lia|].
  destruct (is_comma t); [lia|]. destruct (is_ellipsis t) eqn:Et; cbn [andb].
  - destruct (_ =? _)%Z; [|lia]. specialize (IH (S run) (line_of_next ts cur)). pose proof (leading_le ts). lia.
  - destruct (_ =? _)%Z; [|lia]. specialize (IH 0 cur). pose proof (leading_le ts). lia.
Qed.

Lemma commas_bound ts : comma_tests ts + length (skip_commas ts) <= 1 + length ts /\ longest_run (skip_commas ts) <= longest_run ts.
Proof.
  induction ts as [|t ts IH]; cbn [comma_tests skip_commas]; [cbn; lia|]. destruct (is_comma t); cbn [length longest_run]; lia.
Qed.

Lemma statement_bound it :
  statement_work it + length (tokens_iter (snd (iter_next_statement it))) <=
    3 * (1 + length (fst (iter_next_statement it))) + length (tokens_iter it) /\
  collect_stack it <= 1 + longest_run (tokens_iter it) /\
  longest_run (tokens_iter (snd (iter_next_statement it))) <= longest_run (tokens_iter it).
Proof.
  assert (HS : collect_stack it <= 1 + longest_run (tokens_iter it)).
  { unfold collect_stack. pose proof (open_bound (tokens_iter it) 0 (current_line it)). pose proof (leading_le (tokens_iter it)).
    destruct (peeked it) as [[t|]|]; lia. }
  unfold statement_work, collect_work, iter_next_statement, iter_collect.
  destruct (collect_tokens (tokens_iter it) (current_line it)) as [[l r] c] eqn:E.
  apply collect_bound in E. pose proof (commas_bound r). pose proof (commas_bound (tokens_iter it)).
  destruct (peeked it) as [[t|]|]; cbn [fst snd tokens_iter length]; lia.
Qed.

(** ** Collecting is a loop of [next] *)
Lemma collecting it :
  collect_work it = next_work it + match iter_next it with (None, _) => 0 | (Some _, it') => collect_work it' end /\
  collect_stack it = Nat.max (next_work it) (match iter_next it with (None, _) => 0 | (Some _, it') => collect_stack it' end).
Proof.
  destruct it as [ts cur pk]. unfold collect_work, collect_stack, next_work, iter_next. cbn [peeked tokens_iter current_line].
  destruct pk as [[t|]|]; cbn [peeked tokens_iter current_line]; [|lia|].
  - split; [reflexivity|]. assert (H : forall run, S run <= collect_open run ts cur); [|specialize (H 0); lia].
    revert cur. induction ts as [|u ts IH]; intros cur run; cbn [collect_open]; [lia|].
    destruct (is_comma u); [lia|]. destruct (is_ellipsis u && _); [pose proof (IH (line_of_next ts cur) (S run)); lia|]. destruct (_ =? _)%Z; lia.
  - split.
    + revert cur. induction ts as [|u ts IH]; intros cur; cbn [collect_calls advance_calls advance]; [reflexivity|].
      destruct (is_comma u); [reflexivity|]. destruct (is_ellipsis u && _).
      * rewrite IH. destruct (advance ts _) as [[[o|] ts'] c']; reflexivity.
      * destruct (_ =? _)%Z; reflexivity.
    + assert (H : forall run cur, collect_open run ts cur =
        Nat.max (run + advance_calls ts cur) (let '(o, ts', c') := advance ts cur in match o with None => 0 | Some _ => collect_open 0 ts' c' end)).
      { induction ts as [|u ts IH]; intros run c0; cbn [collect_open advance_calls advance]; [lia|].
        destruct (is_comma u); [lia|]. destruct (is_ellipsis u && _).
        - rewrite IH. destruct (advance ts _) as [[[o|] ts'] c']; lia.
        - destruct (_ =? _)%Z; lia. }
      rewrite H. destruct (advance ts cur) as [[[o|] ts'] c']; reflexivity.
Qed.

(** ** The parse *)
Lemma metered_result ts : result_of (metered_parse ts) = parse ts.
Proof.
  assert (HC : forall A w d (op : stmt_iter -> A * stmt_iter) (a : (nat * nat) * stmt_iter) it, snd a = it ->
    fst (metered w d op a) = fst (op it) /\ snd (snd (metered w d op a)) = snd (op it)).
  { intros A w d op a it <-. unfold metered. destruct (op (snd a)). auto. }
  pose proof (sim_root (metered next_work next_work iter_next) (metered peek_work peek_stack iter_peek)
    (metered statement_work collect_stack iter_next_statement) iter_next iter_peek iter_next_statement
    (fun a it => snd a = it) (HC _ _ _ _) (HC _ _ _ _) (HC _ _ _ _) (parse_fuel (length ts)) ((0, 0), iter_new ts) _ eq_refl) as H.
  unfold parse, metered_parse. cbn [snd] in H.
  destruct (parse_block_root (metered _ _ _) _ _ _ _), (parse_block_root iter_next _ _ _ _);
    cbn [res_rel result_of] in *; try contradiction; try reflexivity; [destruct H as [-> _]|subst]; reflexivity.
Qed.

Section Bound.
Variable n L : nat.
(** The work is paid by calls and by tokens removed. *)
Definition MRel (a : (nat * nat) * stmt_iter) (b : nat * stmt_iter) : Prop :=
  snd a = snd b /\ fst (fst a) + length (tokens_iter (snd a)) <= n + 3 * fst b /\
  snd (fst a) <= 1 + L /\ longest_run (tokens_iter (snd a)) <= L.
Lemma metered_rel {A} w d (cost : A -> nat) op :
  (forall it, w it + length (tokens_iter (snd (op it))) <= 3 * cost (fst (op it)) + length (tokens_iter it) /\
     d it <= 1 + longest_run (tokens_iter it) /\ longest_run (tokens_iter (snd (op it))) <= longest_run (tokens_iter it)) ->
  forall a b, MRel a b -> fst (metered w d op a) = fst (counted cost op b) /\ MRel (snd (metered w d op a)) (snd (counted cost op b)).
Proof.
  intros H [[k m] it] [k' it'] (E & H1 & H2 & H3). cbn [fst snd] in *. subst it'. unfold metered, counted, MRel. cbn [fst snd].
  specialize (H it). destruct (op it) as [x it']. cbn [fst snd] in *. split; [reflexivity|]. split; [reflexivity|]. lia.
Qed.
End Bound.

Lemma parse_work ts b w d it : metered_parse ts = ROk b ((w, d), it) -> w <= 22 * length ts + 9 /\ d <= 1 + longest_run ts.
Proof.
  intros E. unfold metered_parse in E.
  assert (H0 : MRel (length ts) (longest_run ts) ((0, 0), iter_new ts) (0, iter_new ts)).
  { unfold MRel, iter_new. cbn [fst snd tokens_iter]. repeat split; lia. }
  pose proof (sim_root (metered next_work next_work iter_next) (metered peek_work peek_stack iter_peek)
    (metered statement_work collect_stack iter_next_statement) c_next c_peek c_next_statement (MRel (length ts) (longest_run ts))
    ltac:(apply metered_rel; intros x; pose proof (next_bound x); lia)
    ltac:(apply metered_rel; intros x; pose proof (peek_bound x); lia)
    ltac:(apply metered_rel; intros x; pose proof (statement_bound x); lia)
    (parse_fuel (length ts)) _ _ H0) as H.
  rewrite E in H. destruct (parse_block_root c_next _ _ _ _) as [b' [k it']| | |] eqn:E'; cbn [res_rel] in H; try contradiction.
  destruct H as [_ (_ & H1 & H2 & _)]. pose proof (parse_cost ts b' k it' E'). cbn [fst snd] in *. lia.
Qed.

Lemma shallow_result limit late late' late'' ts : 1 + longest_run ts <= limit -> shallow_parse limit late late' late'' ts = parse ts.
Proof.
  intros HL.
  assert (HC : forall A l d (op : stmt_iter -> A * stmt_iter),
    (forall it, d it <= 1 + longest_run (tokens_iter it) /\ longest_run (tokens_iter (snd (op it))) <= longest_run (tokens_iter it)) ->
    forall a it, a = it /\ longest_run (tokens_iter it) <= longest_run ts ->
    fst (shallow limit l d op a) = fst (op it) /\ snd (shallow limit l d op a) = snd (op it) /\
    longest_run (tokens_iter (snd (op it))) <= longest_run ts).
  { intros A l d op H a it [-> Hr]. specialize (H it). unfold shallow. destruct (Nat.leb_spec (d it) limit); [|lia].
    split; [reflexivity|]. split; [reflexivity|]. lia. }
  pose proof (sim_root (shallow limit late next_work iter_next) (shallow limit late' peek_stack iter_peek)
    (shallow limit late'' collect_stack iter_next_statement) iter_next iter_peek iter_next_statement
    (fun a it => a = it /\ longest_run (tokens_iter it) <= longest_run ts)
    (HC _ _ _ _ (fun it => proj2 (next_bound it))) (HC _ _ _ _ (fun it => proj2 (peek_bound it)))
    (HC _ _ _ _ (fun it => proj2 (statement_bound it))) (parse_fuel (length ts)) (iter_new ts) (iter_new ts) (conj eq_refl (le_n _))) as H.
  unfold shallow_parse, parse.
  destruct (parse_block_root (shallow _ _ _ _) _ _ _ _), (parse_block_root iter_next _ _ _ _);
    cbn [res_rel result_of] in *; try contradiction; try reflexivity; [destruct H as [-> _]|subst]; reflexivity.
Qed.

(** ** Budgets *)
Section Budget.
Variables n calls work : nat.
Hypothesis Hwork : n + 3 * calls <= work.
Definition BRel (a : (nat * nat) * stmt_iter) (b : nat * stmt_iter) : Prop :=
  snd a = snd b /\ fst (fst a) = fst b /\ snd (fst a) + length (tokens_iter (snd a)) <= n + 3 * fst b.
Lemma budgeted_rel {A} (any : A) late cost w op :
  (forall it, w it + length (tokens_iter (snd (op it))) <= 3 * cost (fst (op it)) + length (tokens_iter it)) ->
  forall a b, BRel a b ->
    fst (budgeted calls work any late cost w op a) = fst (limited calls any (counted cost op) b) /\
    BRel (snd (budgeted calls work any late cost w op a)) (snd (limited calls any (counted cost op) b)).
Proof.
  intros H [[k m] it] [k' it'] (E & Ek & Em). cbn [fst snd] in *. subst it' k'. unfold budgeted, limited. cbn [fst snd].
  destruct (Nat.ltb_spec k calls); [|split; [reflexivity|]; split; [reflexivity|]; split; [reflexivity|exact Em]].
  destruct (Nat.ltb_spec m work); [|lia]. unfold counted, BRel. cbn [fst snd].
  specialize (H it). destruct (op it) as [x it']. cbn [fst snd] in *. split; [reflexivity|]. split; [reflexivity|]. split; [reflexivity|lia].
Qed.
End Budget.

Lemma budgeted_result ts calls work o o' l late late' late'' :
  7 * length ts + 3 <= calls -> length ts + 3 * calls <= work ->
  budgeted_parse calls work o o' l late late' late'' ts = parse ts.
Proof.
  intros HL HW. rewrite <- (limited_result calls o o' l ts HL). unfold budgeted_parse, limited_parse.
  assert (H0 : BRel (length ts) ((0, 0), iter_new ts) (0, iter_new ts)).
  { unfold BRel, iter_new. cbn [fst snd tokens_iter]. repeat split; lia. }
  pose proof (sim_root _ _ _ _ _ _ (BRel (length ts))
    (budgeted_rel (length ts) calls work HW o late (fun _ => 1) next_work iter_next ltac:(cbv beta; intros x; pose proof (next_bound x); lia))
    (budgeted_rel (length ts) calls work HW o' late' (fun _ => 1) peek_work iter_peek ltac:(cbv beta; intros x; pose proof (peek_bound x); lia))
    (budgeted_rel (length ts) calls work HW l late'' (fun l => 1 + length l) statement_work iter_next_statement
       ltac:(cbv beta; intros x; pose proof (statement_bound x); lia))
    (parse_fuel (length ts)) _ _ H0) as H.
  unfold c_next, c_peek, c_next_statement.
  destruct (parse_block_root (budgeted _ _ _ _ _ _ _) _ _ _ _), (parse_block_root (limited _ _ _) _ _ _ _);
    cbn [res_rel result_of] in *; try contradiction; try reflexivity; [destruct H as [-> _]|subst]; reflexivity.
Qed.

(** ** Ellipses *)
Lemma advance_ellipses ts : Forall (fun t => is_ellipsis t = true) ts -> forall d,
  advance ts (line_of_next ts d) = (None, [], snd (advance ts (line_of_next ts d))) /\
  advance_calls ts (line_of_next ts d) = S (length ts).
Proof.
  induction 1 as [|t ts Ht H IH]; intros d; [split; reflexivity|].
  assert (Hc : is_comma t = false) by (unfold is_comma, is_ellipsis in *; destruct (tok_type t); congruence).
  cbn [advance advance_calls line_of_next length]. rewrite Hc, Ht, Z.eqb_refl. cbn [andb].
  destruct (IH (start_line (tok_range t))) as [-> ->]. split; reflexivity.
Qed.
Lemma ellipses_stack ts : Forall (fun t => is_ellipsis t = true) ts ->
  exists w it, metered_parse ts = ROk (ASTBlock []) ((w, S (length ts)), it).
Proof.
  intros H. destruct (advance_ellipses ts H 0%Z) as [E1 E2].
  unfold metered_parse, parse_fuel. rewrite Nat.add_comm. cbn [Nat.add].
  assert (En : iter_new ts = {| tokens_iter := ts; current_line := line_of_next ts 0; peeked := None |}) by (destruct ts; reflexivity).
  rewrite En. clear En. set (it := {| tokens_iter := ts; current_line := line_of_next ts 0; peeked := None |}).
  assert (EW : next_work it = S (length ts)) by exact E2.
  assert (EN : iter_next it = (None, {| tokens_iter := []; current_line := snd (advance ts (line_of_next ts 0)); peeked := None |})).
  { unfold iter_next, it. cbn [peeked tokens_iter current_line]. rewrite E1. reflexivity. }
  unfold parse_block_root, block_of. cbn [parse_block].
  unfold bind at 1 2. unfold next at 1. unfold metered at 1. cbn [fst snd]. rewrite EN, EW.
  generalize (snd (advance ts (line_of_next ts 0))) as c. intros c. cbn. do 2 eexists. rewrite ?Nat.max_0_r. reflexivity.
Qed.

Definition ellipses (n : nat) : str := concat (repeat (lit "..." ++ [c_nl]) n).
Lemma ellipses_tokens n : exists ts, tokenize (ellipses n) = LexOk ts /\ length ts = n /\ Forall (fun t => is_ellipsis t = true) ts.
Proof.
  destruct (print_tokenize [] (repeat (TEllipsis, lit "...", [c_nl]) n)) as (ts & E & Et).
  - constructor.
  - apply Forall_forall. intros x Hx. apply repeat_spec in Hx as ->. split; [constructor|]. repeat split; [discriminate|].
    constructor; [right; right; reflexivity || left; reflexivity|constructor].
  - exists ts. replace (ellipses n) with ([] ++ LexPropSpec.print (repeat (TEllipsis, lit "...", [c_nl]) n)).
    2:{ unfold ellipses, LexPropSpec.print. cbn [app]. f_equal. clear.
        induction n as [|n IH]; [reflexivity|]. cbn [repeat map]. rewrite <- IH. reflexivity. }
    split; [exact E|]. split.
    + apply (f_equal (@length _)) in Et. rewrite !map_length, repeat_length in Et. exact Et.
    + apply Forall_forall. intros t Ht. assert (Hi : In (tok_type t) (map tok_type ts)) by (apply in_map; exact Ht).
      rewrite Et in Hi. apply in_map_iff in Hi as (x & E0 & Hx). apply repeat_spec in Hx as ->. unfold is_ellipsis. rewrite <- E0. reflexivity.
Qed.
