(** Logical lines (statements) of a token vector, defined without the iterator
    of the parser, and the trivial machine over them on which the parser is
    specified. *)
From Verif Require Export Token Parser.
Local Open Scope Z_scope.

Definition tok_line (t : token) : Z := line (r_start (tok_range t)).

(** Two consecutive tokens belong to the same statement: neither is a comma,
    and they start on the same line or the first is an ellipsis. *)
Definition joined (t u : token) : bool :=
  negb (is_comma t) && negb (is_comma u) && (is_ellipsis t || (tok_line t =? tok_line u)).

(** Cuts a vector between all consecutive tokens that are not joined. *)
Fixpoint chunks (ts : list token) : list (list token) :=
  match ts with
  | [] => []
  | t :: ts' =>
    match chunks ts' with
    | (u :: g) :: gs => if joined t u then (t :: u :: g) :: gs else [t] :: (u :: g) :: gs
    | _ => [[t]]
    end
  end.

(** The statements of a vector: the chunks other than commas, without their
    ellipses. *)
Definition statements (ts : list token) : list (list token) :=
  map (filter (fun t => negb (is_ellipsis t)))
      (filter (fun g => negb (existsb is_comma g)) (chunks ts)).

(** What the parser gets to see: a vector that starts with a comma has an empty
    first line. *)
Definition logical_lines (ts : list token) : list (list token) :=
  match ts with
  | t :: _ => if is_comma t then [] :: statements ts else statements ts
  | [] => []
  end.

(** The machine over lines: what is left of the current line, and the lines
    after it. *)
Definition lstate : Set := (list token * list (list token))%type.

Definition l_next (s : lstate) : option token * lstate :=
  match s with
  | (t :: c, ls) => (Some t, (c, ls))
  | ([], ls) => (None, ([], ls))
  end.
Definition l_peek (s : lstate) : option token * lstate :=
  match s with
  | (t :: _, _) => (Some t, s)
  | ([], _) => (None, s)
  end.
Definition l_start (ls : list (list token)) : lstate :=
  match ls with
  | l :: ls' => (l, ls')
  | [] => ([], [])
  end.
Definition l_next_statement (s : lstate) : list token * lstate :=
  (fst s, l_start (snd s)).

(** The parser run on lines. *)
Definition parse_lines (fuel : nat) (ls : list (list token)) : parse_result :=
  result_of (parse_block_root l_next l_peek l_next_statement fuel (l_start ls)).
