(** Specification: positions cut to 32 bits. *)
From Verif Require Export Machine SourceSpec.
Local Open Scope Z_scope.

(** [w] is the number that 32 bits hold in place of [z]. *)
Definition held (z w : Z) : Prop :=
  - 2 ^ 31 <= w < 2 ^ 31 /\ exists k, z = w + k * 2 ^ 32.

Definition cut_position (p : position) : position :=
  {| line := as_i32 (line p); column := as_i32 (column p);
     bytes := as_i32 (bytes p); chars := as_i32 (chars p) |}.
Definition cut_range (r : range) : range :=
  {| r_start := cut_position (r_start r); r_end := cut_position (r_end r) |}.
Definition cut_token (t : token) : token :=
  {| tok_type := tok_type t; tok_range := cut_range (tok_range t) |}.
Definition cut_error (e : token_error) : token_error :=
  match e with UnclosedMultilineComment r => UnclosedMultilineComment (cut_range r) end.
Definition cut_lex (r : lex_result) : lex_result :=
  match r with
  | LexOk ts => LexOk (map cut_token ts)
  | LexErr e => LexErr (cut_error e)
  | r => r
  end.
Definition cut_api (r : api_result) : api_result :=
  match r with
  | ApiOk b => ApiOk (map_block cut_token b)
  | ApiErr e => ApiErr (cut_error e)
  | r => r
  end.

(** The text of a token, in bytes. *)
Definition token_bytes (t : token) : Z := bytes (r_end (tok_range t)) - bytes (r_start (tok_range t)).
