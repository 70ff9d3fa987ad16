(** The vocabulary in which the properties of the lexer are stated: only the
    source text, the tokens returned and their ranges. *)
From Coq Require Import String Sorted.
From Verif Require Export LexSpec.
Local Open Scope Z_scope.

Definition start_of (t : token) : position := r_start (tok_range t).
Definition end_of (t : token) : position := r_end (tok_range t).

(** [raw] is the source text in the byte range of [t]: the source is
    [a ++ raw ++ b] and [t] ranges over exactly the bytes of [raw]. *)
Definition token_at (code : str) (t : token) (a raw b : str) : Prop :=
  code = a ++ raw ++ b /\
  bytes (start_of t) = Z.of_nat (byte_len a) /\
  bytes (end_of t) = Z.of_nat (byte_len (a ++ raw)).

(** C04 *)
Definition Lossless (code : str) (ts : list token) : Prop :=
  Forall (fun t => 0 <= bytes (start_of t) < bytes (end_of t) /\
                   bytes (end_of t) <= Z.of_nat (byte_len code)) ts /\
  StronglySorted (fun t u => bytes (end_of t) <= bytes (start_of u)) ts /\
  forall a c b, code = a ++ c :: b ->
    ws c \/
    exists t, In t ts /\ bytes (start_of t) <= Z.of_nat (byte_len a) /\
              Z.of_nat (byte_len a + utf8_len c) <= bytes (end_of t).

(** C05: [raw] is the text of a token of type [ty] which [b] follows. *)
Definition OwnText (ty : token_type) (raw b : str) : Prop :=
  match ty with
  | TIdentifier s => raw = s
  | TKeyword k => raw = spelling k
  | TSymbol s => raw = s
  | TValue (VNumber n) => NumberText raw b n
  | TValue (VString s) =>
      (raw = quote :: s /\ b = []) \/ (exists c, raw = quote :: s ++ [c])
  | TValue (VBoolean true) => raw = lit "WIN"
  | TValue (VBoolean false) => raw = lit "FAIL"
  | TValue VNoob => raw = lit "NOOB"
  | TCommentSingleLine s => raw = lit "BTW" ++ s
  | TCommentMultiLine s => raw = lit "OBTW" ++ s ++ lit "TLDR"
  | TBukkitSlotAccess => raw = lit "'Z"
  | TEllipsis => raw = lit "..."
  | TComma => raw = lit ","
  | TExclamationMark => raw = lit "!"
  | TQuestionMark => raw = lit "?"
  end.

(** C07, C08: line breaks are the newlines that no token covers. *)
Definition outside (ts : list token) (o : Z) : bool :=
  forallb (fun t => (o <? bytes (start_of t)) || (bytes (end_of t) <=? o)) ts.

(** The byte offsets of the line breaks in [s], a part of the source that
    starts at byte offset [o]. *)
Fixpoint line_breaks (ts : list token) (o : Z) (s : str) : list Z :=
  match s with
  | [] => []
  | c :: s' =>
    (if (N.eqb c newline && outside ts o)%bool then [o] else [])
    ++ line_breaks ts (o + Z.of_nat (utf8_len c)) s'
  end.

(** The byte offset at which the line of the end of [a] starts. *)
Definition line_start (ts : list token) (a : str) : Z :=
  last (map (Z.add 1) (line_breaks ts 0 a)) 0.

Definition count_newlines (s : str) : nat := count_occ N.eq_dec s newline.

(** The position of the end of [a] in a source that starts with [a] and has the
    tokens [ts]. *)
Definition pos_at (ts : list token) (a : str) : position :=
  {| line := 1 + Z.of_nat (length (line_breaks ts 0 a));
     column := 1 + (Z.of_nat (byte_len a) - line_start ts a);
     bytes := Z.of_nat (byte_len a);
     chars := Z.of_nat (length a) |}.

(** C09 *)
Definition boundary (ts : list token) (p : position) : Prop :=
  exists t, In t ts /\ (p = start_of t \/ p = end_of t).

(** C10 *)
Definition i32 (z : Z) : Prop := - 2 ^ 31 <= z < 2 ^ 31.
Definition i32_position (p : position) : Prop :=
  i32 (line p) /\ i32 (column p) /\ i32 (bytes p) /\ i32 (chars p).

(** The states that the loop of [tokenize] goes through. *)
Inductive LoopState (code : str) : str -> position -> Prop :=
| loop_init : LoopState code code {| line := 1; column := 1; bytes := 0; chars := 0 |}
| loop_skip code1 p1 code2 p2 :
    LoopState code code1 p1 -> code1 <> [] ->
    Lexer.lex_step code1 p1 = Lexer.SSkip code2 p2 -> LoopState code code2 p2
| loop_token code1 p1 t code2 p2 :
    LoopState code code1 p1 -> code1 <> [] ->
    Lexer.lex_step code1 p1 = Lexer.SToken t code2 p2 -> LoopState code code2 p2.

(** C19: [raw] may be written for a token of type [ty]. *)
Inductive Writes : token_type -> str -> Prop :=
| writes_identifier s :
    s <> [] -> Forall letter s -> (forall k, ~ prefix_of (spelling k) s) ->
    Writes (TIdentifier s) s
| writes_keyword k :
    ~ In k [BTW; OBTW; WIN; FAIL; NOOB; ANY_OF] -> Writes (TKeyword k) (spelling k)
| writes_symbol c :
    (c < 128)%N -> ~ ws c -> ~ letter c -> ~ digit c -> ~ In c (lit ",!" ++ [quote]) ->
    Writes (TSymbol [c]) [c]
| writes_int sg neg ds :
    SignText sg neg -> ds <> [] -> Forall digit ds ->
    (- 2 ^ 31 <= signed neg (dec ds) < 2 ^ 31)%Z ->
    Writes (TValue (VNumber (Int (signed neg (dec ds))))) (sg ++ ds)
| writes_float sg neg ip fp :
    SignText sg neg -> ip ++ fp <> [] -> Forall digit ip -> Forall digit fp ->
    Writes (TValue (VNumber (Float (Lexer.f32_of_decimal neg (dec (ip ++ fp)) (length fp)))))
           (sg ++ ip ++ dot :: fp)
| writes_string s :
    ascii_str s -> StringBody s -> Writes (TValue (VString s)) (quote :: s ++ [quote])
| writes_win : Writes (TValue (VBoolean true)) (lit "WIN")
| writes_fail : Writes (TValue (VBoolean false)) (lit "FAIL")
| writes_noob : Writes (TValue VNoob) (lit "NOOB")
| writes_single s : ~ In newline s -> Writes (TCommentSingleLine s) (lit "BTW" ++ s)
| writes_multi s :
    (forall a b, s ++ lit "TLDR" = a ++ lit "TLDR" ++ b -> b = []) ->
    Writes (TCommentMultiLine s) (lit "OBTW" ++ s ++ lit "TLDR")
| writes_slot : Writes TBukkitSlotAccess (lit "'Z")
| writes_ellipsis : Writes TEllipsis (lit "...")
| writes_comma : Writes TComma (lit ",")
| writes_exclamation : Writes TExclamationMark (lit "!").

(** [s] is the first word of a keyword of several words. *)
Definition first_word (s : str) : Prop := exists k t, spelling k = s ++ 32%N :: t.

(** Whitespace that may follow a token of type [ty]: a newline after a
    single-line comment; no space after an identifier that starts a keyword. *)
Definition SepOk (ty : token_type) (sep : str) : Prop :=
  sep <> [] /\ Forall ws sep /\
  match ty with
  | TCommentSingleLine _ => starts (eq newline) sep
  | TIdentifier s => first_word s -> starts (fun c => c <> 32%N) sep
  | _ => True
  end.

(** A printed token: type, text and following whitespace. *)
Definition printed : Type := token_type * str * str.
Definition printed_ok (x : printed) : Prop :=
  let '(ty, raw, sep) := x in Writes ty raw /\ SepOk ty sep.
Definition print (xs : list printed) : str :=
  concat (map (fun x : printed => let '(_, raw, sep) := x in raw ++ sep) xs).

(** C20: [p], a position in a text, as a position in the source in which that
    text comes after [base]. *)
Definition shift (base p : position) : position :=
  {| line := line base + (line p - 1);
     column := if line p =? 1 then column base + (column p - 1) else column p;
     bytes := bytes base + bytes p;
     chars := chars base + chars p |}.
Definition shift_range (base : position) (r : range) : range :=
  {| r_start := shift base (r_start r); r_end := shift base (r_end r) |}.
Definition shift_token (base : position) (t : token) : token :=
  {| tok_type := tok_type t; tok_range := shift_range base (tok_range t) |}.
