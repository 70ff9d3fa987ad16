(** Property C74: how deep a call of [next] recurses on the iterators behind
    [tokens()], and how many calls it makes.  Statements; the proofs are in
    TokCostProofs.v. *)
From Coq Require Import String.
From Verif Require Import AstTokens TokIterFacts TokCostProofs PropParser.
From Verif Require Export TokCost.

(** The counting functions compute what those of the model compute. *)
Theorem C74_counting f it : answer (expr_next_counted f it) = expr_next f it.
Proof. exact (proj1 (expr_counted f) it). Qed.
Print Assumptions C74_counting.
Theorem C74_counting_assignments f it :
  answer (assignment_next_counted f it) = assignment_next f it.
Proof. exact (assignment_counted f it). Qed.
Print Assumptions C74_counting_assignments.

(** The fuel of the model is the depth of the recursion.  For a variable access
    5 is enough, however many slots it has; for an expression 13 for each
    level, however many operands its operations have. *)
Theorem C74_variable_access_stack n v f : 5 <= f ->
  calls (va_next f) n (variable_access_iter v) = Some (map (nth_error (va_tokens v)) (seq 0 n)).
Proof. exact (va_stack n v f). Qed.
Print Assumptions C74_variable_access_stack.
Theorem C74_expression_stack n e f : 13 * expr_depth e <= f ->
  calls (expr_next f) n (expression_iter e) = Some (map (nth_error (expr_tokens e)) (seq 0 n)).
Proof. exact (expr_stack n e f). Qed.
Print Assumptions C74_expression_stack.
Theorem C74_assignment_stack n a f : 13 * expr_depth (asg_expression a) + 1 <= f ->
  calls (assignment_next f) n (variable_assignment_iter a)
  = Some (map (nth_error (assignment_tokens a)) (seq 0 n)).
Proof. exact (assignment_stack n a f). Qed.
Print Assumptions C74_assignment_stack.
(** No depth is enough for all expressions. *)
Theorem C74_bounded_stack_refuted : ~ exists f, forall n e,
  calls (expr_next f) n (expression_iter e) = Some (map (nth_error (expr_tokens e)) (seq 0 n)).
Proof. exact stack_refuted. Qed.
Print Assumptions C74_bounded_stack_refuted.

(** One call of [next] makes at most as many calls. *)
Theorem C74_variable_access_calls n v f : 5 <= f -> exists ks,
  counted_calls (va_next_counted f) n (variable_access_iter v) = Some ks /\
  map fst ks = map (nth_error (va_tokens v)) (seq 0 n) /\
  Forall (fun x => 1 <= snd x <= 5) ks.
Proof. exact (va_counted_calls n v f). Qed.
Print Assumptions C74_variable_access_calls.
Theorem C74_expression_calls n e f : 13 * expr_depth e <= f -> exists ks,
  counted_calls (expr_next_counted f) n (expression_iter e) = Some ks /\
  map fst ks = map (nth_error (expr_tokens e)) (seq 0 n) /\
  Forall (fun x => 1 <= snd x <= 13 * expr_depth e) ks.
Proof. exact (expr_counted_calls n e f). Qed.
Print Assumptions C74_expression_calls.
Theorem C74_assignment_calls n a f : 13 * expr_depth (asg_expression a) + 1 <= f -> exists ks,
  counted_calls (assignment_next_counted f) n (variable_assignment_iter a) = Some ks /\
  map fst ks = map (nth_error (assignment_tokens a)) (seq 0 n) /\
  Forall (fun x => 1 <= snd x <= 13 * expr_depth (asg_expression a) + 1) ks.
Proof. exact (assignment_counted_calls n a f). Qed.
Print Assumptions C74_assignment_calls.

(** All of [n] calls: at most [n] times the depth, up to the factor 13. *)
Theorem C74_total n e f : 13 * expr_depth e <= f -> exists ks,
  counted_calls (expr_next_counted f) n (expression_iter e) = Some ks /\
  map fst ks = map (nth_error (expr_tokens e)) (seq 0 n) /\
  total_calls ks <= n * (13 * expr_depth e).
Proof. exact (expr_total n e f). Qed.
Print Assumptions C74_total.
(** [n] NOTs take at least [n * n] calls for their [n] tokens, so the calls are
    not linear in the number of tokens. *)
Theorem C74_nots t x n f : 13 * expr_depth (nots t n x) <= f -> exists ks,
  counted_calls (expr_next_counted f) n (expression_iter (nots t n x)) = Some ks /\
  n * n <= total_calls ks.
Proof. exact (nots_total t x n f). Qed.
Print Assumptions C74_nots.
Theorem C74_linear_refuted : ~ exists c, forall e f ks, 13 * expr_depth e <= f ->
  counted_calls (expr_next_counted f) (length (expr_tokens e)) (expression_iter e) = Some ks ->
  total_calls ks <= c * length (expr_tokens e).
Proof. exact linear_refuted. Qed.
Print Assumptions C74_linear_refuted.

(** The expression of C27, of depth 4 with 12 tokens. *)
Example C74_case :
  expr_depth expression_value = 4 /\
  option_map (map snd) (counted_calls (expr_next_counted 52) 14 (expression_iter expression_value))
  = Some [3; 9; 9; 7; 7; 9; 5; 9; 10; 10; 10; 9; 5; 1].
Proof. vm_compute. auto. Qed.
