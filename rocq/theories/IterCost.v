(** Specification: what the operations of the statement iterator do inside.
    Cost.v counts their calls; here every activation of
    [StatementIterator::next] counts (it calls itself after an ellipsis,
    src/parser/statement_iterator.rs:114-120), and so does every iteration of
    the comma loop of [next_statement]. *)
From Verif Require Export Parser.
Local Open Scope nat_scope.

(** Activations of [next] in one call with nothing peeked,
    src/parser/statement_iterator.rs:112-128.  They are nested: each is the
    last action of the one before. *)
Fixpoint advance_calls (ts : list token) (cur : Z) : nat :=
  match ts with
  | [] => 1
  | t :: ts' =>
    if is_comma t then 1
    else if is_ellipsis t && (start_line (tok_range t) =? cur)%Z then
      S (advance_calls ts' (line_of_next ts' cur))
    else 1
  end.

(** [next], src/parser/statement_iterator.rs:106-129. *)
Definition next_work (it : stmt_iter) : nat :=
  match peeked it with
  | Some _ => 1
  | None => advance_calls (tokens_iter it) (current_line it)
  end.

(** [peek], src/parser/statement_iterator.rs:21-29: itself and [next]. *)
Definition peek_work (it : stmt_iter) : nat :=
  match peeked it with
  | Some _ => 1
  | None => 1 + next_work it
  end.
Definition peek_stack (it : stmt_iter) : nat :=
  match peeked it with
  | Some _ => 0
  | None => next_work it
  end.

(** [self.collect()], src/parser/statement_iterator.rs:62, with nothing peeked:
    all activations of [next] until it returns [None] ([run] of them are
    already open in the call that reads [ts]), and the most of them open at once.
    Theorem C75_collecting states that these are the sum and the maximum over
    the calls of [next]. *)
Fixpoint collect_calls (ts : list token) (cur : Z) : nat :=
  match ts with
  | [] => 1
  | t :: ts' =>
    if is_comma t then 1
    else if is_ellipsis t && (start_line (tok_range t) =? cur)%Z then
      S (collect_calls ts' (line_of_next ts' cur))
    else if (start_line (tok_range t) =? cur)%Z then S (collect_calls ts' cur)
    else 1
  end.
Fixpoint collect_open (run : nat) (ts : list token) (cur : Z) : nat :=
  match ts with
  | [] => S run
  | t :: ts' =>
    if is_comma t then S run
    else if is_ellipsis t && (start_line (tok_range t) =? cur)%Z then
      collect_open (S run) ts' (line_of_next ts' cur)
    else if (start_line (tok_range t) =? cur)%Z then Nat.max (S run) (collect_open 0 ts' cur)
    else S run
  end.
Definition collect_work (it : stmt_iter) : nat :=
  match peeked it with
  | Some None => 1
  | Some (Some _) => 1 + collect_calls (tokens_iter it) (current_line it)
  | None => collect_calls (tokens_iter it) (current_line it)
  end.
Definition collect_stack (it : stmt_iter) : nat :=
  match peeked it with
  | Some None => 1
  | _ => collect_open 0 (tokens_iter it) (current_line it)
  end.

(** The comma loop, src/parser/statement_iterator.rs:65-69: one more test than
    commas. *)
Fixpoint comma_tests (ts : list token) : nat :=
  match ts with
  | t :: ts' => if is_comma t then S (comma_tests ts') else 1
  | [] => 1
  end.

(** [next_statement], src/parser/statement_iterator.rs:61-76. *)
Definition statement_work (it : stmt_iter) : nat :=
  1 + collect_work it + comma_tests (tokens_iter (snd (iter_collect it))).

(** An operation with a meter: the work of all calls so far and the most
    activations of [next] that were open at once. *)
Definition metered {A} (work stack : stmt_iter -> nat) (op : stmt_iter -> A * stmt_iter)
  : (nat * nat) * stmt_iter -> A * ((nat * nat) * stmt_iter) :=
  fun s => let (a, it) := op (snd s) in
    (a, ((fst (fst s) + work (snd s), Nat.max (snd (fst s)) (stack (snd s))), it)).

(** [parse] with a meter. *)
Definition metered_parse (tokens : list token) : res ((nat * nat) * stmt_iter) block :=
  parse_block_root (metered next_work next_work iter_next) (metered peek_work peek_stack iter_peek)
    (metered statement_work collect_stack iter_next_statement)
    (parse_fuel (length tokens)) ((0, 0), iter_new tokens).

(** An operation that is not answered as it should if it needs more than [limit]
    activations of [next] at once. *)
Definition shallow {A} (limit : nat) (late : stmt_iter -> A * stmt_iter) (stack : stmt_iter -> nat)
  (op : stmt_iter -> A * stmt_iter) : stmt_iter -> A * stmt_iter :=
  fun it => if stack it <=? limit then op it else late it.
Definition shallow_parse (limit : nat) (late late' : stmt_iter -> option token * stmt_iter)
  (late'' : stmt_iter -> list token * stmt_iter) (tokens : list token) : parse_result :=
  result_of (parse_block_root (shallow limit late next_work iter_next) (shallow limit late' peek_stack iter_peek)
    (shallow limit late'' collect_stack iter_next_statement) (parse_fuel (length tokens)) (iter_new tokens)).

(** The calls of Cost.v and the work, both counted, for panics too: after [calls]
    calls the answer is [any], and a call that starts when [work] activations
    have happened is answered by [late]. *)
Definition budgeted {A} (calls work : nat) (any : A)
  (late : (nat * nat) * stmt_iter -> A * ((nat * nat) * stmt_iter))
  (cost : A -> nat) (w : stmt_iter -> nat) (op : stmt_iter -> A * stmt_iter)
  : (nat * nat) * stmt_iter -> A * ((nat * nat) * stmt_iter) :=
  fun s => if fst (fst s) <? calls then
             if snd (fst s) <? work then
               let (a, it) := op (snd s) in (a, ((fst (fst s) + cost a, snd (fst s) + w (snd s)), it))
             else late s
           else (any, s).
Definition budgeted_parse (calls work : nat) (o o' : option token) (l : list token)
  (late late' : (nat * nat) * stmt_iter -> option token * ((nat * nat) * stmt_iter))
  (late'' : (nat * nat) * stmt_iter -> list token * ((nat * nat) * stmt_iter)) (tokens : list token) : parse_result :=
  result_of (parse_block_root
    (budgeted calls work o late (fun _ => 1) next_work iter_next)
    (budgeted calls work o' late' (fun _ => 1) peek_work iter_peek)
    (budgeted calls work l late'' (fun l => 1 + length l) statement_work iter_next_statement)
    (parse_fuel (length tokens)) ((0, 0), iter_new tokens)).

(** The longest run of consecutive ellipses. *)
Fixpoint leading_ellipses (ts : list token) : nat :=
  match ts with
  | t :: ts' => if is_ellipsis t then S (leading_ellipses ts') else 0
  | [] => 0
  end.
Fixpoint longest_run (ts : list token) : nat :=
  match ts with
  | [] => 0
  | _ :: ts' => Nat.max (leading_ellipses ts) (longest_run ts')
  end.
