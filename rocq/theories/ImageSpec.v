(** Specification: the sequences of tokens that sources have. *)
From Coq Require Import Floats.SpecFloat String.
From Verif Require Import LexSpec LexPropSpec.
Local Open Scope Z_scope.
Local Open Scope list_scope.

(** The type and the line of a token: all that the parser looks at. *)
Definition with_line (t : token) : token_type * Z := (tok_type t, line (start_of t)).

(** Types that occur anywhere in a source. *)
Definition anywhere (ty : token_type) : Prop :=
  match ty with
  | TIdentifier s => s <> [] /\ Forall letter s /\ forall k, ~ prefix_of (spelling k) s
  | TKeyword k => ~ In k [BTW; OBTW; WIN; FAIL; NOOB; ANY_OF]
  | TSymbol s => exists c, s = [c] /\ (c < 128)%N /\ ~ ws c /\ ~ letter c /\ ~ digit c /\ ~ In c (lit ",!" ++ [quote])
  | TValue (VNumber (Int n)) => - 2 ^ 31 <= n < 2 ^ 31
  | TValue (VNumber (Float x)) => valid_binary 24 128 x = true /\ x <> S754_nan
  | TValue (VString s) => ascii_str s /\ StringBody s
  | TCommentSingleLine s => ascii_str s /\ ~ In newline s
  | TCommentMultiLine s => ascii_str s /\ forall a b, s ++ lit "TLDR" = a ++ lit "TLDR" ++ b -> b = []
  | TQuestionMark => False
  | _ => True
  end.

Definition digit_symbol (d : char) : token_type := TSymbol [d].

(** [Yields l xs]: the types and lines [xs] are those of the tokens of a source
    whose first token is not before line [l]. *)
Inductive Yields : Z -> list (token_type * Z) -> Prop :=
| yields_nothing l : Yields l []
| yields_token l n ty xs :
    l <= n -> anywhere ty ->
    (* after a single-line comment comes a new line *)
    Yields (match ty with TCommentSingleLine _ => n + 1 | _ => n end) xs ->
    Yields l ((ty, n) :: xs)
(* a string that is not closed *)
| yields_open_string l n s :
    l <= n -> ascii_str s -> quotes_escaped s -> Yields l [(TValue (VString s), n)]
(* digits as symbols: at the end of the source, ... *)
| yields_last_digit l n d : l <= n -> digit d -> Yields l [(digit_symbol d, n)]
| yields_last_decimal l n d ds :
    l <= n -> digit d -> Forall digit ds ->
    Yields l ((digit_symbol d, n) :: (TSymbol [dot], n) :: map (fun c => (digit_symbol c, n)) ds)
(* ... before the rest of an integer that is too large, ... *)
| yields_overflow l n d v xs :
    l <= n -> digit d -> d <> 48%N -> 0 <= v < 2 ^ 31 -> Yields n xs ->
    Yields l ((digit_symbol d, n) :: (TValue (VNumber (Int v)), n) :: xs)
(* ... and before such digits *)
| yields_more_digits l n d d' xs :
    l <= n -> digit d -> digit d' -> Yields n ((digit_symbol d', n) :: xs) ->
    Yields l ((digit_symbol d, n) :: (digit_symbol d', n) :: xs).
