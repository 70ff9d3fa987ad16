(** Specification: a source with Windows line endings. *)
From Verif Require Export LexSpec LexPropSpec.
Local Open Scope N_scope.

Definition cr : char := 13.

(** Every newline becomes carriage return and newline. *)
Fixpoint crlf (s : str) : str :=
  match s with
  | [] => []
  | c :: s' => if N.eqb c newline then cr :: c :: crlf s' else c :: crlf s'
  end.

(** Strings and multi-line comments contain the carriage returns of their text. *)
Definition win_type (ty : token_type) : token_type :=
  match ty with
  | TValue (VString s) => TValue (VString (crlf s))
  | TCommentMultiLine s => TCommentMultiLine (crlf s)
  | ty => ty
  end.

(** The carriage return of a line break: part of the comment that ends the
    line, otherwise a token of its own. *)
Fixpoint win (ps : list piece) : list piece :=
  match ps with
  | [] => []
  | Gap c :: ps' =>
    if N.eqb c newline then Tok [cr] (TSymbol [cr]) :: Gap c :: win ps' else Gap c :: win ps'
  | Tok raw (TCommentSingleLine s) :: Gap c :: ps' =>
    Tok (raw ++ [cr]) (TCommentSingleLine (s ++ [cr])) :: Gap c :: win ps'
  | Tok raw ty :: ps' => Tok (crlf raw) (win_type ty) :: win ps'
  end.

(** Carriage returns taken out of the texts of strings and comments. *)
Definition strip (s : str) : str := filter (fun c => negb (N.eqb c cr)) s.
Definition strip_type (ty : token_type) : token_type :=
  match ty with
  | TValue (VString s) => TValue (VString (strip s))
  | TCommentSingleLine s => TCommentSingleLine (strip s)
  | TCommentMultiLine s => TCommentMultiLine (strip s)
  | ty => ty
  end.
Definition is_cr (t : token) : bool :=
  match tok_type t with TSymbol [c] => N.eqb c cr | _ => false end.
