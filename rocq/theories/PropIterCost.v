(** Theorems about the work inside the statement iterator, by property number.
    Vocabulary: IterCost.v. *)
From Coq Require Import String Lia.
From Verif Require Import Lexer Parser Api IterCost IterCostProofs PropLexer PropParser.
Local Open Scope string_scope.
Local Open Scope list_scope.

(** ** C75 *)

(** What a call does is paid by the tokens it takes from the vector, up to a
    constant, and a call has at most one activation of [next] open for each
    ellipsis of a run and one more. *)
Theorem C75_next it : next_work it + length (tokens_iter (snd (iter_next it))) <= 1 + length (tokens_iter it) /\
  next_work it <= 1 + longest_run (tokens_iter it).
Proof. destruct (next_bound it) as (H1 & H2 & _). exact (conj H1 H2). Qed.
Print Assumptions C75_next.
Theorem C75_peek it : peek_work it + length (tokens_iter (snd (iter_peek it))) <= 2 + length (tokens_iter it) /\
  peek_stack it <= 1 + longest_run (tokens_iter it).
Proof. destruct (peek_bound it) as (H1 & H2 & _). exact (conj H1 H2). Qed.
Print Assumptions C75_peek.
Theorem C75_next_statement it :
  statement_work it + length (tokens_iter (snd (iter_next_statement it))) <=
    3 * (1 + length (fst (iter_next_statement it))) + length (tokens_iter it) /\
  collect_stack it <= 1 + longest_run (tokens_iter it).
Proof. destruct (statement_bound it) as (H1 & H2 & _). exact (conj H1 H2). Qed.
Print Assumptions C75_next_statement.

(** Collecting is a loop of calls of [next]: the sum of their work, the maximum
    of their stacks. *)
Theorem C75_collecting it :
  collect_work it = next_work it + match iter_next it with (None, _) => 0 | (Some _, it') => collect_work it' end /\
  collect_stack it = Nat.max (next_work it) (match iter_next it with (None, _) => 0 | (Some _, it') => collect_stack it' end).
Proof. exact (collecting it). Qed.
Print Assumptions C75_collecting.

Theorem C75_metering_changes_nothing ts : result_of (metered_parse ts) = parse ts.
Proof. exact (metered_result ts). Qed.
Print Assumptions C75_metering_changes_nothing.

(** A whole parse does a linear amount of work in the iterator. *)
Theorem C75_linear_work ts b w d it : metered_parse ts = ROk b ((w, d), it) -> w <= 22 * length ts + 9.
Proof. intros H. exact (proj1 (parse_work ts b w d it H)). Qed.
Print Assumptions C75_linear_work.

(** Panics too: calls after the first [7 n + 3] do not happen (C56), and none of
    them starts after [22 n + 9] activations; whatever the iterator answers then
    does not matter. *)
Theorem C75_more_work_does_not_happen ts calls work o o' l late late' late'' :
  7 * length ts + 3 <= calls -> length ts + 3 * calls <= work ->
  budgeted_parse calls work o o' l late late' late'' ts = parse ts.
Proof. exact (budgeted_result ts calls work o o' l late late' late''). Qed.
Print Assumptions C75_more_work_does_not_happen.

(** It never has more activations of [next] open than ellipses follow each
    other, and one: whatever the iterator does in calls that need more does
    not matter.  This holds for panics too. *)
Theorem C75_stack ts b w d it : metered_parse ts = ROk b ((w, d), it) -> d <= 1 + longest_run ts.
Proof. intros H. exact (proj2 (parse_work ts b w d it H)). Qed.
Print Assumptions C75_stack.
Theorem C75_deeper_calls_do_not_happen ts limit late late' late'' : 1 + longest_run ts <= limit ->
  shallow_parse limit late late' late'' ts = parse ts.
Proof. exact (shallow_result limit late late' late'' ts). Qed.
Print Assumptions C75_deeper_calls_do_not_happen.

(** Lines of ellipses are as deep as they are many, though the AST is empty: no
    stack is large enough for all sources. *)
Theorem C75_ellipses n : exists ts w it, tokenize (ellipses n) = LexOk ts /\ length (ellipses n) = 4 * n /\
  metered_parse ts = ROk (ASTBlock []) ((w, S n), it).
Proof.
  destruct (ellipses_tokens n) as (ts & E & <- & H). destruct (ellipses_stack ts H) as (w & it & Em).
  exists ts, w, it. split; [exact E|]. split; [|exact Em]. clear. generalize (length ts) as n. intros n.
  induction n as [|n IH]; [reflexivity|]. unfold ellipses in *. cbn [repeat concat]. rewrite app_length, IH. cbn [lit app length]. lia.
Qed.
Print Assumptions C75_ellipses.
Theorem C75_bounded_stack_refuted :
  ~ exists d, forall code ts b w k it, tokenize code = LexOk ts -> metered_parse ts = ROk b ((w, k), it) -> k <= d.
Proof.
  intros (d & H). destruct (C75_ellipses d) as (ts & w & it & E & _ & Em). pose proof (H _ _ _ _ _ _ E Em). lia.
Qed.
Print Assumptions C75_bounded_stack_refuted.

(** A continued statement, a comma list and an error. *)
Definition c75_code : str :=
  lit "VISIBLE ... ..." ++ nl ++ lit "x, , x R" ++ nl ++ lit "...GIMMEH 1" ++ nl.
Example C75_case : exists ts b it, tokenize c75_code = LexOk ts /\ longest_run ts = 2 /\ length ts = 11 /\
  parse ts = ParseOk b /\ metered_parse ts = ROk b ((36, 3), it).
Proof. do 3 eexists. split; [vm_compute; reflexivity|]. split; [reflexivity|]. split; [reflexivity|]. split; vm_compute; reflexivity. Qed.

(** A panic within its budget of 24 calls and 75 activations, and with too little work. *)
Example C75_panic_case : exists ts c, tokenize (lit "VISIBLE ..." ++ nl ++ lit "MAEK") = LexOk ts /\ length ts = 3 /\
  let run w := budgeted_parse 24 w None None [] (fun s => (None, s)) (fun s => (None, s)) (fun s => ([], s)) ts in
  run 75 = ParsePanic c /\ run 2 <> ParsePanic c.
Proof. do 2 eexists. split; [vm_compute; reflexivity|]. split; [reflexivity|]. split; [vm_compute; reflexivity|vm_compute; discriminate]. Qed.
