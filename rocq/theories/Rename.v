(** Specification: renaming identifiers and changing strings in a source, by
    replacing the texts of their tokens. *)
From Verif Require Export LexPropSpec.
Local Open Scope N_scope.

(** A word that starts with a small letter or an underscore.  (All keywords
    start with a capital letter and have no small letter.) *)
Definition small (c : char) : Prop := c = 95 \/ 97 <= c <= 122.
Definition small_b (c : char) : bool := N.eqb c 95 || (N.leb 97 c && N.leb c 122).
Definition small_word (s : str) : Prop := starts small s /\ Forall letter s.

(** What is written for a token, when the identifiers that start with a small
    letter are renamed with [names] and the strings changed with [strings];
    [None] if its text stays. *)
Definition new_text (names strings : str -> str) (ty : token_type) : option str :=
  match ty with
  | TIdentifier (c :: s) => if small_b c then Some (names (c :: s)) else None
  | TValue (VString s) => Some (quote :: strings s ++ [quote])
  | _ => None
  end.
(** The token that is meant. *)
Definition new_type (names strings : str -> str) (ty : token_type) : token_type :=
  match ty with
  | TIdentifier (c :: s) => if small_b c then TIdentifier (names (c :: s)) else ty
  | TValue (VString s) => TValue (VString (strings s))
  | _ => ty
  end.
Definition new_token (names strings : str -> str) (t : token) : token :=
  mkToken (new_type names strings (tok_type t)) (tok_range t).

(** What an editor does: in [code], which starts at character [o] of the source,
    the characters from the start to the end of the tokens are replaced. *)
Fixpoint splice (names strings : str -> str) (o : nat) (code : str) (ts : list token) : str :=
  match ts with
  | [] => code
  | t :: ts' =>
    match new_text names strings (tok_type t) with
    | None => splice names strings o code ts'
    | Some w =>
      let i := Z.to_nat (chars (start_of t)) in
      let j := Z.to_nat (chars (end_of t)) in
      (firstn (i - o) code ++ w ++ splice names strings j (skipn (j - o) code) ts')%list
    end
  end.
