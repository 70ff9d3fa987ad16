(** Specification of the lexer: which text each token stands for, and how a
    source decomposes.  Uses none of the functions of [Lexer] except the
    rounding function [f32_of_decimal], whose correctness is a separate theorem
    (C12_float_rounding). *)
From Coq Require Import String.
From Verif Require Export Token.
From Verif Require Lexer.
Local Open Scope N_scope.

(** ** Vocabulary *)

(** The LOLCODE spelling of the keywords. *)
Definition kw_text (k : keyword) : string :=
  match k with
  | BTW => "BTW" | HAS_A => "HAS A" | OBTW => "OBTW" | SRS => "SRS"
  | TLDR => "TLDR" | BUKKIT => "BUKKIT" | HAI => "HAI" | KTHXBYE => "KTHXBYE"
  | I_HAS_A => "I HAS A" | ITZ => "ITZ" | NOOB => "NOOB" | TROOF => "TROOF"
  | FAIL => "FAIL" | WIN => "WIN" | NUMBR => "NUMBR" | NUMBAR => "NUMBAR"
  | YARN => "YARN" | MKAY => "MKAY" | AN => "AN" | SUM_OF => "SUM OF"
  | DIFF_OF => "DIFF OF" | PRODUKT_OF => "PRODUKT OF"
  | QUOSHUNT_OF => "QUOSHUNT OF" | MOD_OF => "MOD OF" | BIGGR_OF => "BIGGR OF"
  | SMALLR_OF => "SMALLR OF" | BOTH_SAEM => "BOTH SAEM" | BOTH_OF => "BOTH OF"
  | EITHER_OF => "EITHER OF" | WON_OF => "WON OF" | NOT => "NOT"
  | UPPIN => "UPPIN" | NERFIN => "NERFIN" | ALL_OF => "ALL OF"
  | ANY_OF => "ANY OF" | DIFFRINT => "DIFFRINT" | SMOOSH => "SMOOSH"
  | MAEK => "MAEK" | IS_NOW => "IS NOW" | VISIBLE => "VISIBLE"
  | GIMMEH => "GIMMEH" | O_RLY => "O RLY" | YA_RLY => "YA RLY"
  | NO_WAI => "NO WAI" | OIC => "OIC" | MEBBE => "MEBBE" | WTF => "WTF"
  | OMGWTF => "OMGWTF" | OMG => "OMG" | GTFO => "GTFO" | IM_IN_YR => "IM IN YR"
  | YR => "YR" | TIL => "TIL" | WILE => "WILE" | IM_OUTTA_YR => "IM OUTTA YR"
  | HOW_IZ_I => "HOW IZ I" | IF_U_SAY_SO => "IF U SAY SO"
  | FOUND_YR => "FOUND YR" | I_IZ => "I IZ" | R => "R" | A => "A"
  end.
Definition spelling (k : keyword) : str := lit (kw_text k).

Definition ws (c : char) : Prop := c = 32 \/ c = 9 \/ c = 10.
Definition letter (c : char) : Prop :=
  c = 95 \/ 97 <= c <= 122 \/ 65 <= c <= 90.
Definition digit (c : char) : Prop := 48 <= c <= 57.
Definition newline : char := 10.
Definition quote : char := 34.
Definition colon : char := 58.
Definition dot : char := 46.

Definition prefix_of (p s : str) : Prop := exists t, s = p ++ t.
Definition occurs_in (p s : str) : Prop := exists a b, s = a ++ p ++ b.
Definition starts (P : char -> Prop) (s : str) : Prop := exists c r, s = c :: r /\ P c.

(** ** Number literals *)

(** Value of a decimal digit string. *)
Fixpoint dec (ds : str) : Z :=
  match ds with
  | [] => 0
  | d :: ds' => (Z.of_N d - 48) * 10 ^ Z.of_nat (length ds') + dec ds'
  end.

Definition signed (neg : bool) (v : Z) : Z := if neg then (- v)%Z else v.

Inductive SignText : str -> bool -> Prop :=
| sign_none : SignText [] false
| sign_plus : SignText [43] false
| sign_minus : SignText [45] true.

(** [NumberText raw rest n]: [raw], followed by [rest], is the literal of [n]. *)
Inductive NumberText : str -> str -> number_token -> Prop :=
| number_int sg neg ds rest :
    SignText sg neg -> ds <> [] -> Forall digit ds ->
    (- 2 ^ 31 <= signed neg (dec ds) < 2 ^ 31)%Z ->
    starts (fun c => ~ digit c /\ c <> dot) rest ->
    NumberText (sg ++ ds) rest (Int (signed neg (dec ds)))
| number_float sg neg ip fp rest :
    SignText sg neg -> ip ++ fp <> [] -> Forall digit ip -> Forall digit fp ->
    starts (fun c => ~ digit c) rest ->
    NumberText (sg ++ ip ++ dot :: fp) rest
               (Float (Lexer.f32_of_decimal neg (dec (ip ++ fp)) (length fp))).

(** ** Strings *)

(** Every quote of [s] is escaped: it directly follows a colon. *)
Definition quotes_escaped (s : str) : Prop :=
  forall a b, s = a ++ quote :: b -> exists a', a = a' ++ [colon].
Definition ends_with_colon (s : str) : Prop := exists a, s = a ++ [colon].

(** The text between an opening quote and the quote that closes it. *)
Definition StringBody (s : str) : Prop := quotes_escaped s /\ ~ ends_with_colon s.

(** ** Tokens *)

(** [TokText raw rest tt]: at a token position where the source goes on with
    [raw ++ rest], the token is [tt] and its text is [raw]. *)
Inductive TokText : str -> str -> token_type -> Prop :=
| tt_comma rest : TokText (lit ",") rest TComma
| tt_exclamation rest : TokText (lit "!") rest TExclamationMark
| tt_single_comment s rest :
    ~ In newline s -> (rest = [] \/ starts (eq newline) rest) ->
    TokText (lit "BTW" ++ s) rest (TCommentSingleLine s)
| tt_multi_comment s rest :
    (forall a b, lit "OBTW" ++ s ++ lit "TLDR" ++ rest = a ++ lit "TLDR" ++ b ->
                 (4 + length s <= length a)%nat) ->
    TokText (lit "OBTW" ++ s ++ lit "TLDR") rest (TCommentMultiLine s)
| tt_slot_access rest : TokText (lit "'Z") rest TBukkitSlotAccess
| tt_ellipsis rest : TokText (lit "...") rest TEllipsis
| tt_win rest : TokText (lit "WIN") rest (TValue (VBoolean true))
| tt_fail rest : TokText (lit "FAIL") rest (TValue (VBoolean false))
| tt_noob rest : TokText (lit "NOOB") rest (TValue VNoob)
| tt_keyword k rest :
    ~ In k [BTW; OBTW; WIN; FAIL; NOOB; ANY_OF] ->
    (* longest match, except that ANY OF is never considered *)
    (forall k', k' <> ANY_OF -> prefix_of (spelling k') (spelling k ++ rest) ->
                (length (spelling k') <= length (spelling k))%nat) ->
    TokText (spelling k) rest (TKeyword k)
| tt_number raw rest n :
    NumberText raw rest n -> TokText raw rest (TValue (VNumber n))
| tt_string body after (s : str) (c : char) (rest : str) :
    StringBody body ->
    (* the code slices at the character index of the closing quote, taken as a
       byte index; on ASCII bodies [s = body], [c = quote], [rest = after] *)
    quote :: body ++ quote :: after = quote :: s ++ c :: rest ->
    byte_len s = length body -> c < 128 ->
    TokText (quote :: s ++ [c]) rest (TValue (VString s))
| tt_open_string (s : str) :
    quotes_escaped s -> TokText (quote :: s) [] (TValue (VString s))
| tt_identifier raw rest :
    raw <> [] -> Forall letter raw -> ~ starts letter rest ->
    (forall k, ~ prefix_of (spelling k) (raw ++ rest)) ->
    TokText raw rest (TIdentifier raw)
| tt_symbol (c : char) (rest : str) :
    c < 128 -> ~ ws c -> ~ letter c -> ~ In c (lit ",!" ++ [quote]) ->
    ~ prefix_of (lit "'Z") (c :: rest) -> ~ prefix_of (lit "...") (c :: rest) ->
    (forall (raw rest' : str) n, c :: rest = raw ++ rest' -> ~ NumberText raw rest' n) ->
    TokText [c] rest (TSymbol [c]).

(** ** Whole sources *)

(** A source is cut in whitespace characters and token texts. *)
Inductive piece : Set :=
| Gap (c : char)
| Tok (raw : str) (tt : token_type).

Definition piece_text (x : piece) : str :=
  match x with Gap c => [c] | Tok raw _ => raw end.
Definition text_of (ps : list piece) : str := concat (map piece_text ps).

(** [LexesTo code ps rest]: cutting [code] from the left gives [ps] and leaves
    [rest]. *)
Inductive LexesTo : str -> list piece -> str -> Prop :=
| lexes_nil rest : LexesTo rest [] rest
| lexes_gap c code ps rest :
    ws c -> LexesTo code ps rest -> LexesTo (c :: code) (Gap c :: ps) rest
| lexes_tok raw code tt ps rest :
    TokText raw code tt -> LexesTo code ps rest ->
    LexesTo (raw ++ code) (Tok raw tt :: ps) rest.

(** ** Positions *)

Definition is_break (x : piece) : bool :=
  match x with Gap c => N.eqb c newline | Tok _ _ => false end.

(** The pieces after the last line break (a newline outside tokens). *)
Fixpoint since_break (ps : list piece) : list piece :=
  match ps with
  | [] => []
  | x :: ps' =>
    if existsb is_break ps' then since_break ps'
    else if is_break x then ps' else ps
  end.

(** The position reached after [ps]. *)
Definition pos_after (ps : list piece) : position :=
  {| line := 1 + Z.of_nat (length (filter is_break ps));
     column := 1 + Z.of_nat (byte_len (text_of (since_break ps)));
     bytes := Z.of_nat (byte_len (text_of ps));
     chars := Z.of_nat (length (text_of ps)) |}.

(** The tokens of [ps], when [before] precedes it. *)
Fixpoint tokens_after (before ps : list piece) : list token :=
  match ps with
  | [] => []
  | Gap c :: ps' => tokens_after (before ++ [Gap c]) ps'
  | Tok raw ty :: ps' =>
    {| tok_type := ty;
       tok_range := {| r_start := pos_after before;
                       r_end := pos_after (before ++ [Tok raw ty]) |} |}
    :: tokens_after (before ++ [Tok raw ty]) ps'
  end.

(** ** Sources that do not tokenise *)

(** An unclosed multi-line comment. *)
Definition UnclosedComment (rest : str) : Prop :=
  prefix_of (lit "OBTW") rest /\ ~ occurs_in (lit "TLDR") rest.

(** A place where a byte slice falls inside a character. *)
Definition PanicsAt (rest : str) : Prop :=
  starts (fun c => 128 <= c) rest \/
  exists body after,
    rest = quote :: body ++ quote :: after /\ StringBody body /\
    ~ exists s c r, rest = quote :: s ++ c :: r /\ byte_len s = length body /\ c < 128.
