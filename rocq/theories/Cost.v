(** Specification: counting the calls of iterator operations during a parse. *)
From Verif Require Export Parser.

Section Counted.
Context {S : Type}.
(** The operation [op] with a counter. *)
Definition counted {A} (cost : A -> nat) (op : S -> A * S) : nat * S -> A * (nat * S) :=
  fun ks => let (a, s) := op (snd ks) in (a, (fst ks + cost a, s)).
End Counted.

(** [next] and [peek] count 1, [next_statement] 1 and one for each token it
    collects. *)
Definition c_next : nat * stmt_iter -> option token * (nat * stmt_iter) := counted (fun _ => 1) iter_next.
Definition c_peek : nat * stmt_iter -> option token * (nat * stmt_iter) := counted (fun _ => 1) iter_peek.
Definition c_next_statement : nat * stmt_iter -> list token * (nat * stmt_iter) :=
  counted (fun l => 1 + length l) iter_next_statement.

(** [parse] with a counter. *)
Definition counted_parse (tokens : list token) : res (nat * stmt_iter) block :=
  parse_block_root c_next c_peek c_next_statement (parse_fuel (length tokens)) (0, iter_new tokens).
