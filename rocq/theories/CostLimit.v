(** Specification: a parse in which only the first calls of iterator operations
    are answered as they should. *)
From Verif Require Export Cost.

(** The operation [op] until the counter reaches [limit], then any answer. *)
Definition limited {S A} (limit : nat) (any : A) (op : nat * S -> A * (nat * S)) : nat * S -> A * (nat * S) :=
  fun ks => if fst ks <? limit then op ks else (any, ks).

(** [parse] with answers [o], [o'] and [l] of [next], [peek] and
    [next_statement] after [limit] calls. *)
Definition limited_parse (limit : nat) (o o' : option token) (l : list token) (tokens : list token) : parse_result :=
  result_of (parse_block_root (limited limit o c_next) (limited limit o' c_peek) (limited limit l c_next_statement)
                              (parse_fuel (length tokens)) (0, iter_new tokens)).
