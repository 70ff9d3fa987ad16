(** Specification for C91: the checker of C89, with the first tokens of the
    statements that are open. *)
From Verif Require Export Checker NodeTokens.

(** The error of a statement that starts with [t] and is not closed. *)
Inductive unclosed (t : token) : ast_error -> Prop :=
| unclosed_loop : kw IM_IN_YR t -> unclosed t (EImInYr (MissingImOuttaYr t))
| unclosed_other : kw HOW_IZ_I t \/ kw WTF t \/ kw O_RLY t -> unclosed t (MissingBlockClosingToken t).

(** The number of statements that are open. *)
Definition depth (s : state) : nat :=
  match s with
  | Fresh open | Begun open | NeedEmpty open => length open
  | SwitchHead open | IfHead open => S (length open)
  | Ended => 0
  end.

(** A line that opens a statement puts its first token on [T], and the line that
    closes the statement takes it off. *)
Definition opens_closes (s s' : state) (l : list token) (T : list token) : list token :=
  match Nat.compare (depth s) (depth s') with
  | Lt => firstn 1 l ++ T
  | Eq => T
  | Gt => tl T
  end.
Inductive tracks : state -> list token -> list (list token) -> state -> list token -> Prop :=
| tracks_nil s T : tracks s T [] s T
| tracks_cons s T l s' ls s'' T'' : step s l s' -> tracks s' (opens_closes s s' l T) ls s'' T'' -> tracks s T (l :: ls) s'' T''.

(** The token at which the parser panics. *)
Definition panic_tokens (c : panic_cause) : list token :=
  match c with
  | PanicMaek t => [t]
  | PanicUnreachable _ u => [u]
  end.
