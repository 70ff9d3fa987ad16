(** Specification: how much of the text after a token decides the token. *)
From Verif Require Export LexPropSpec.

(** The characters of the longest run of digits and dots at the start of [s]. *)
Fixpoint number_run (s : str) : nat :=
  match s with
  | c :: s' => if (N.leb 48 c && N.leb c 57) || N.eqb c 46 then S (number_run s') else 0
  | [] => 0
  end.

(** Digits, signs and the dot. *)
Definition numeric (c : char) : Prop := digit c \/ c = dot \/ c = 43%N \/ c = 45%N.
Definition numeric_b (c : char) : bool := (N.leb 48 c && N.leb c 57) || N.eqb c 46 || N.eqb c 43 || N.eqb c 45.

(** How many characters of [rest], the text after a token of type [ty], decide
    that the token is what it is.
    - keywords and identifiers: whether there is a longer keyword; the longest
      has 11 characters
    - a string: for every character of two or more bytes the token ends before
      the closing quote; that an unclosed string is the end of the source is
      one character
    - another symbol: one, because of 'Z
    - a digit, sign or dot that is not part of a number literal: all the digits
      and dots after it *)
Definition lookahead (ty : token_type) (rest : str) : nat :=
  match ty with
  | TIdentifier s => Nat.max 1 (11 - length s)
  | TKeyword k => 11 - length (spelling k)
  | TSymbol [c] => if numeric_b c then 2 + number_run rest else 1
  | TValue (VNumber _) => 1
  | TValue (VString s) => 1 + (byte_len s - length s)
  | TCommentSingleLine _ => 1
  | _ => 0
  end.

(** The same for sources: [t], a token of [code], is decided by the first [n]
    characters. *)
Definition decided (code : str) (n : nat) (t : token) : Prop :=
  (chars (end_of t) + Z.of_nat (lookahead (tok_type t) (skipn (Z.to_nat (chars (end_of t))) code)) <= Z.of_nat n)%Z.

(** No token of [ts] lies on both sides of byte [b]. *)
Definition no_token_over (b : Z) (ts : list token) : Prop :=
  Forall (fun t => bytes (end_of t) <= b \/ b <= bytes (start_of t))%Z ts.
