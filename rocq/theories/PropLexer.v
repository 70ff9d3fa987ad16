(** The lexer's theorems, by property number.  Each is followed by a concrete
    case that meets its hypotheses; the statements use the vocabulary of
    LexSpec.v and LexPropSpec.v. *)
From Coq Require Import String Sorted Reals.
From Flocq Require Import Core.Core IEEE754.BinarySingleNaN.
From Verif Require Import StrFacts Lexer LexSpec LexBasics LexProofs LexPropSpec LexProps LexProps2
  LexProps3 FloatRounding.
Local Open Scope string_scope.
Local Open Scope list_scope.
Local Open Scope Z_scope.

(** For the examples: the token types, or [None] if tokenising fails. *)
Definition types_of (code : str) : option (list token_type) :=
  match tokenize code with LexOk ts => Some (map tok_type ts) | _ => None end.
Definition nl : str := [10%N].

(** A program used as a concrete case below. *)
Definition sample : str :=
  lit "I HAS A x ITZ 12" ++ nl ++ lit "BTW note" ++ nl ++ lit "VISIBLE " ++ [quote] ++ lit "a:" ++
  [quote] ++ lit "b" ++ [quote] ++ lit ", SUM OF x AN -1.50 ..." ++ nl.

Definition sample_types : list token_type :=
  [TKeyword I_HAS_A; TIdentifier (lit "x"); TKeyword ITZ; TValue (VNumber (Int 12));
   TCommentSingleLine (lit " note"); TKeyword VISIBLE;
   TValue (VString (lit "a:" ++ [quote] ++ lit "b")); TComma; TKeyword SUM_OF; TIdentifier (lit "x");
   TKeyword AN; TValue (VNumber (Float (S754_finite true 12582912 (-23)))); TEllipsis].

Example sample_tokenizes : types_of sample = Some sample_types.
Proof. vm_compute. reflexivity. Qed.

Lemma sample_ok : exists ts, tokenize sample = LexOk ts /\ map tok_type ts = sample_types.
Proof. eexists. split; [vm_compute; reflexivity|vm_compute; reflexivity]. Qed.

(** ** C01 *)
(** [LexFuel], "the loop did not finish within the fuel", is not a result, and
    more fuel changes nothing. *)
Theorem C01_tokenize_terminates code fuel :
  (length code < fuel)%nat ->
  tokenize_loop fuel code position_start = tokenize code /\ tokenize code <> LexFuel.
Proof. exact (tokenize_terminates code fuel). Qed.
Print Assumptions C01_tokenize_terminates.

Theorem C01_every_iteration_consumes code p :
  code <> [] ->
  match lex_step code p with
  | SSkip code' _ | SToken _ code' _ => (length code' < length code)%nat
  | SError _ | SPanic => True
  end.
Proof. exact (loop_progress code p). Qed.
Print Assumptions C01_every_iteration_consumes.

Example C01_case : tokenize_loop 1000 sample position_start = tokenize sample.
Proof. apply C01_tokenize_terminates. vm_compute. lia. Qed.

(** ** Complete specification of [tokenize], from which the rest follows *)
Theorem C01_tokenize_result code :
  (forall ts, tokenize code = LexOk ts <->
     exists ps, LexesTo code ps [] /\ ts = tokens_after [] ps) /\
  (forall e, tokenize code = LexErr e <->
     exists ps rem, LexesTo code ps rem /\ UnclosedComment rem /\
       e = UnclosedMultilineComment
             {| r_start := pos_after ps; r_end := position_add (pos_after ps) rem |}) /\
  (tokenize code = LexPanic <-> exists ps rem, LexesTo code ps rem /\ PanicsAt rem).
Proof.
  exact (conj (tokenize_ok_iff code) (conj (tokenize_err_iff code) (tokenize_panic_iff code))).
Qed.
Print Assumptions C01_tokenize_result.

(** ** C02 *)
Theorem C02_ascii_never_panics code : ascii_str code -> tokenize code <> LexPanic.
Proof. exact (tokenize_ascii_no_panic code). Qed.
Print Assumptions C02_ascii_never_panics.

Example C02_case : ascii_str (sample ++ [0%N; 127%N; quote; colon]).
Proof. vm_compute. reflexivity. Qed.

(** ** C03 *)
Theorem C03_never_panics_refuted : ~ forall code, tokenize code <> LexPanic.
Proof. intros H. apply (H (lit "VISIBLE " ++ [8230%N])). vm_compute. reflexivity. Qed.
Print Assumptions C03_never_panics_refuted.

Theorem C03_panics_iff code :
  tokenize code = LexPanic <-> exists ps rem, LexesTo code ps rem /\ PanicsAt rem.
Proof. exact (tokenize_panic_iff code). Qed.
Print Assumptions C03_panics_iff.

(** A panic is confined to a non-ASCII character at a token position or inside
    a closed string. *)
Theorem C03_panic_site code : tokenize code = LexPanic ->
  exists ps rem, LexesTo code ps rem /\
    (starts (fun c => (128 <= c)%N) rem \/
     exists body after c, rem = quote :: body ++ quote :: after /\ StringBody body /\
       In c body /\ (128 <= c)%N).
Proof. exact (tokenize_panic_site code). Qed.
Print Assumptions C03_panic_site.

Theorem C03_nonascii_at_token_position_panics code ps c rest :
  LexesTo code ps (c :: rest) -> (128 <= c)%N -> tokenize code = LexPanic.
Proof. exact (nonascii_start_panics code ps c rest). Qed.
Print Assumptions C03_nonascii_at_token_position_panics.

(** The fancy ellipsis, which the code means to support. *)
Example C03_case_ellipsis : tokenize [8230%N] = LexPanic.
Proof. vm_compute. reflexivity. Qed.
Example C03_case_string : tokenize ([quote; 233%N; quote] ++ nl) = LexPanic.
Proof. vm_compute. reflexivity. Qed.
Example C03_case_gap : exists ps, LexesTo (32%N :: [233%N]) ps [233%N].
Proof. exists [Gap 32%N]. constructor; [left; reflexivity|constructor]. Qed.
(** Non-ASCII characters in comments are harmless. *)
Example C03_case_comment :
  types_of (lit "BTW " ++ [8230%N]) = Some [TCommentSingleLine (32%N :: [8230%N])].
Proof. vm_compute. reflexivity. Qed.

(** ** C04 *)
Theorem C04_lossless code ts : tokenize code = LexOk ts -> Lossless code ts.
Proof. exact (tokenize_lossless code ts). Qed.
Print Assumptions C04_lossless.
Example C04_case : exists ts, tokenize sample = LexOk ts /\ length ts = 13%nat.
Proof. destruct sample_ok as (ts & E & H). exists ts. split; [assumption|].
  rewrite <- (map_length tok_type), H. reflexivity. Qed.

(** ** C05 *)
Theorem C05_token_text code ts t : tokenize code = LexOk ts -> In t ts ->
  exists a raw b, token_at code t a raw b /\ OwnText (tok_type t) raw b /\
    (forall s, tok_type t = TValue (VString s) -> ascii_str code ->
               raw = quote :: s ++ [quote] \/ (raw = quote :: s /\ b = [])).
Proof. exact (token_text code ts t). Qed.
Print Assumptions C05_token_text.

(** Without the ASCII hypothesis a string token can end before its quote. *)
Theorem C05_string_text_refuted : ~ forall code ts t s,
  tokenize code = LexOk ts -> In t ts -> tok_type t = TValue (VString s) ->
  exists a raw b, token_at code t a raw b /\
    (raw = quote :: s ++ [quote] \/ (raw = quote :: s /\ b = [])).
Proof. exact string_text_refuted. Qed.
Print Assumptions C05_string_text_refuted.

Example C05_case : exists t, In t (match tokenize sample with LexOk ts => ts | _ => [] end) /\
  tok_type t = TValue (VString (lit "a:" ++ [quote] ++ lit "b")) /\
  exists a b, token_at sample t a ([quote] ++ lit "a:" ++ [quote] ++ lit "b" ++ [quote]) b.
Proof.
  eexists. split; [vm_compute; do 6 right; left; reflexivity|]. split; [reflexivity|].
  exists (lit "I HAS A x ITZ 12" ++ nl ++ lit "BTW note" ++ nl ++ lit "VISIBLE "),
         (lit ", SUM OF x AN -1.50 ..." ++ nl).
  split; [reflexivity|split; reflexivity].
Qed.

(** ** C06 *)
Theorem C06_byte_and_char_offsets code ts t : tokenize code = LexOk ts -> In t ts ->
  exists a raw b, code = a ++ raw ++ b /\ raw <> [] /\ OwnText (tok_type t) raw b /\
    bytes (start_of t) = Z.of_nat (byte_len a) /\ chars (start_of t) = Z.of_nat (length a) /\
    bytes (end_of t) = Z.of_nat (byte_len (a ++ raw)) /\
    chars (end_of t) = Z.of_nat (length (a ++ raw)).
Proof. exact (token_offsets code ts t). Qed.
Print Assumptions C06_byte_and_char_offsets.
(** Bytes and characters differ after a non-ASCII comment. *)
Example C06_case :
  match tokenize (lit "BTW " ++ [233%N] ++ nl ++ lit "HAI") with
  | LexOk [_; t] => bytes (start_of t) = 7 /\ chars (start_of t) = 6
  | _ => False
  end.
Proof. vm_compute. auto. Qed.

(** ** C07 *)
Theorem C07_line_counts_line_breaks code ts t : tokenize code = LexOk ts -> In t ts ->
  exists a raw b, token_at code t a raw b /\
    line (start_of t) = 1 + Z.of_nat (length (line_breaks ts 0 a)) /\
    line (end_of t) = line (start_of t) /\
    column (start_of t) = 1 + (Z.of_nat (byte_len a) - line_start ts a) /\
    column (end_of t) = column (start_of t) + Z.of_nat (byte_len raw).
Proof. exact (token_lines code ts t). Qed.
Print Assumptions C07_line_counts_line_breaks.

Theorem C07_line_without_multiline_tokens code ts t a raw b :
  tokenize code = LexOk ts -> In t ts -> token_at code t a raw b ->
  (forall u x raw' y, In u ts -> token_at code u x raw' y ->
     bytes (start_of u) < bytes (start_of t) -> ~ In newline raw') ->
  line (start_of t) = 1 + Z.of_nat (count_newlines a).
Proof. exact (token_line_no_newline_tokens code ts t a raw b). Qed.
Print Assumptions C07_line_without_multiline_tokens.

Theorem C07_lines_refuted : ~ forall code ts t a raw b,
  tokenize code = LexOk ts -> In t ts -> token_at code t a raw b ->
  line (start_of t) = 1 + Z.of_nat (count_newlines a).
Proof. exact lines_refuted. Qed.
Print Assumptions C07_lines_refuted.
Example C07_case :
  option_map (map (fun t => line (start_of t)))
    (match tokenize sample with LexOk ts => Some ts | _ => None end) =
  Some [1; 1; 1; 1; 2; 3; 3; 3; 3; 3; 3; 3; 3].
Proof. vm_compute. reflexivity. Qed.
(** A token after a comment of two lines is on line 1. *)
Example C07_case_comment :
  option_map (map (fun t => (line (start_of t), column (start_of t))))
    (match tokenize (lit "OBTW" ++ nl ++ lit "TLDR HAI") with LexOk ts => Some ts | _ => None end) =
  Some [(1, 1); (1, 11)].
Proof. vm_compute. reflexivity. Qed.

(** ** C08 *)
Theorem C08_positions code ts t a raw b :
  tokenize code = LexOk ts -> In t ts -> token_at code t a raw b ->
  start_of t = pos_at ts a /\ end_of t = pos_at ts (a ++ raw).
Proof. exact (token_positions code ts t a raw b). Qed.
Print Assumptions C08_positions.

Theorem C08_columns_in_chars_refuted : ~ forall code ts t a raw b,
  tokenize code = LexOk ts -> In t ts -> token_at code t a raw b -> ~ In newline a ->
  column (start_of t) = 1 + Z.of_nat (length a).
Proof. exact columns_in_chars_refuted. Qed.
Print Assumptions C08_columns_in_chars_refuted.
Example C08_case :
  option_map (map (fun t => column (start_of t)))
    (match tokenize sample with LexOk ts => Some ts | _ => None end) =
  Some [1; 9; 11; 15; 1; 1; 9; 15; 17; 24; 26; 29; 35].
Proof. vm_compute. reflexivity. Qed.

(** ** C09 *)
Theorem C09_boundaries_ordered code ts p q :
  tokenize code = LexOk ts -> boundary ts p -> boundary ts q ->
  (position_eqb p q = true <-> bytes p = bytes q) /\
  (position_cmp p q = Lt <-> line p < line q \/ (line p = line q /\ column p < column q)).
Proof. exact (boundaries_ordered code ts p q). Qed.
Print Assumptions C09_boundaries_ordered.

(** [PartialEq] and [PartialOrd] of arbitrary positions disagree. *)
Theorem C09_arbitrary_positions_refuted : ~ forall p q,
  position_eqb p q = true <-> position_cmp p q = Eq.
Proof.
  intros H. destruct (H (mkPos 1 1 0 0) (mkPos 1 1 1 1)) as [H1 _]. discriminate (H1 eq_refl).
Qed.
Print Assumptions C09_arbitrary_positions_refuted.
Example C09_case : exists ts, tokenize sample = LexOk ts /\
  boundary ts (mkPos 3 9 34 34) /\ boundary ts (mkPos 3 15 40 40).
Proof.
  eexists. split; [vm_compute; reflexivity|].
  split; eexists; (split; [do 6 right; left; reflexivity|]); [left|right]; reflexivity.
Qed.

(** ** C10 *)
Theorem C10_loop_positions_fit code code' p :
  Z.of_nat (byte_len code) < 2 ^ 31 - 1 -> LoopState code code' p ->
  i32_position p /\ i32_position (position_add p code').
Proof. exact (loop_positions_i32 code code' p). Qed.
Print Assumptions C10_loop_positions_fit.
Theorem C10_token_positions_fit code ts p :
  Z.of_nat (byte_len code) < 2 ^ 31 - 1 -> tokenize code = LexOk ts -> boundary ts p ->
  i32_position p.
Proof. exact (token_positions_i32 code ts p). Qed.
Print Assumptions C10_token_positions_fit.
Example C10_case : Z.of_nat (byte_len sample) < 2 ^ 31 - 1 /\
  LoopState (nl ++ lit "HAI") (lit "HAI") (mkPos 2 1 1 1).
Proof.
  split; [vm_compute; reflexivity|].
  eapply loop_skip; [constructor|discriminate|vm_compute; reflexivity].
Qed.

(** ** C11 *)
Theorem C11_unclosed_comment_iff code r :
  tokenize code = LexErr (UnclosedMultilineComment r) <->
  exists ps rem, LexesTo code ps rem /\ UnclosedComment rem /\
    r = {| r_start := pos_after ps; r_end := position_add (pos_after ps) rem |}.
Proof. exact (unclosed_comment_iff code r). Qed.
Print Assumptions C11_unclosed_comment_iff.
Theorem C11_unclosed_comment_range code r :
  tokenize code = LexErr (UnclosedMultilineComment r) ->
  exists a rem, code = a ++ lit "OBTW" ++ rem /\ ~ occurs_in (lit "TLDR") (lit "OBTW" ++ rem) /\
    bytes (r_start r) = Z.of_nat (byte_len a) /\ chars (r_start r) = Z.of_nat (length a) /\
    bytes (r_end r) = Z.of_nat (byte_len code) /\ chars (r_end r) = Z.of_nat (length code) /\
    line (r_end r) = line (r_start r).
Proof. exact (unclosed_comment_range code r). Qed.
Print Assumptions C11_unclosed_comment_range.
Example C11_case :
  tokenize (lit "HAI" ++ nl ++ lit "OBTW x") =
  LexErr (UnclosedMultilineComment (mkRange (mkPos 2 1 4 4) (mkPos 2 7 10 10))).
Proof. vm_compute. reflexivity. Qed.

(** ** C12 *)
Theorem C12_int_tokens code ts t n : tokenize code = LexOk ts -> In t ts ->
  tok_type t = TValue (VNumber (Int n)) ->
  exists a sg neg ds b, token_at code t a (sg ++ ds) b /\ SignText sg neg /\
    ds <> [] /\ Forall digit ds /\ n = signed neg (dec ds) /\ - 2 ^ 31 <= n < 2 ^ 31.
Proof. exact (int_tokens code ts t n). Qed.
Print Assumptions C12_int_tokens.
Theorem C12_float_tokens code ts t x : tokenize code = LexOk ts -> In t ts ->
  tok_type t = TValue (VNumber (Float x)) ->
  exists a sg neg ip fp b, token_at code t a (sg ++ ip ++ dot :: fp) b /\ SignText sg neg /\
    ip ++ fp <> [] /\ Forall digit ip /\ Forall digit fp /\ valid_binary 24 128 x = true /\
    let r := decimal neg (dec (ip ++ fp)) (length fp) in
    (Rlt (Rabs (round32 r)) (bpow radix2 128) ->
       SF2R radix2 x = round32 r /\ is_finite_SF x = true /\ sign_SF x = neg) /\
    (~ Rlt (Rabs (round32 r)) (bpow radix2 128) -> x = S754_infinity neg).
Proof. exact (float_tokens code ts t x). Qed.
Print Assumptions C12_float_tokens.
Theorem C12_float_rounding neg m k : 0 <= m ->
  valid_binary 24 128 (f32_of_decimal neg m k) = true /\
  if Rlt_bool (Rabs (round32 (decimal neg m k))) (bpow radix2 128)
  then SF2R radix2 (f32_of_decimal neg m k) = round32 (decimal neg m k) /\
       is_finite_SF (f32_of_decimal neg m k) = true /\
       sign_SF (f32_of_decimal neg m k) = neg
  else f32_of_decimal neg m k = S754_infinity neg.
Proof. exact (f32_of_decimal_correct neg m k). Qed.
Print Assumptions C12_float_rounding.
(** Both ends of the integer range, a rounded literal and an overflowing one. *)
Example C12_case :
  types_of (lit "-2147483648 +2147483647 0.1 -.5 7. ") =
  Some (map (fun n => TValue (VNumber n))
    [Int (-2147483648); Int 2147483647; Float (S754_finite false 13421773 (-27));
     Float (S754_finite true 8388608 (-24)); Float (S754_finite false 14680064 (-21))]).
Proof. vm_compute. reflexivity. Qed.
Example C12_case_overflow :
  types_of (lit "400000000000000000000000000000000000000.0 ") =
  Some [TValue (VNumber (Float (S754_infinity false)))].
Proof. vm_compute. reflexivity. Qed.

(** ** C13 *)
Theorem C13_integer_recognised code ts ps sg neg ds rest :
  SignText sg neg -> ds <> [] -> Forall digit ds ->
  - 2 ^ 31 <= signed neg (dec ds) < 2 ^ 31 ->
  starts (fun c => ~ digit c /\ c <> dot) rest ->
  tokenize code = LexOk ts -> LexesTo code ps ((sg ++ ds) ++ rest) ->
  exists t, In t ts /\ tok_type t = TValue (VNumber (Int (signed neg (dec ds)))) /\
            token_at code t (text_of ps) (sg ++ ds) rest.
Proof. exact (integer_recognised code ts ps sg neg ds rest). Qed.
Print Assumptions C13_integer_recognised.
(** At the end of the source no digit string is a number. *)
Theorem C13_integer_at_end_refuted ds : Forall digit ds ->
  exists ts, tokenize ds = LexOk ts /\ map tok_type ts = map (fun c => TSymbol [c]) ds.
Proof. exact (integer_at_end_refused ds). Qed.
Print Assumptions C13_integer_at_end_refuted.
Example C13_case : exists ts, tokenize (lit " -12,") = LexOk ts /\
  LexesTo (lit " -12,") [Gap 32%N] ((lit "-" ++ lit "12") ++ lit ",") /\ Forall digit (lit "12") /\
  SignText (lit "-") true /\ starts (fun c => ~ digit c /\ c <> dot) (lit ",").
Proof.
  eexists. split; [vm_compute; reflexivity|].
  split; [change (lit " -12,") with (32%N :: lit "-12,"); constructor; [left; reflexivity|constructor]|].
  split; [repeat constructor; discriminate|]. split; [constructor|].
  exists 44%N, []. repeat split; try discriminate. unfold digit. lia.
Qed.
Example C13_case_at_end : types_of (lit "12") = Some [TSymbol (lit "1"); TSymbol (lit "2")].
Proof. vm_compute. reflexivity. Qed.
(** A literal that does not fit in an i32 turns into a symbol and another number. *)
Example C13_case_out_of_range :
  types_of (lit "2147483648 ") = Some [TSymbol (lit "2"); TValue (VNumber (Int 147483648))].
Proof. vm_compute. reflexivity. Qed.

(** ** C14 *)
Theorem C14_keyword_recognised code ts ps k rest :
  ~ In k [BTW; OBTW; WIN; FAIL; NOOB; ANY_OF] ->
  (k = A -> ~ prefix_of (lit "N") rest /\ ~ prefix_of (lit "LL OF") rest) ->
  (k = OMG -> ~ prefix_of (lit "WTF") rest) ->
  tokenize code = LexOk ts -> LexesTo code ps (spelling k ++ rest) ->
  exists t, In t ts /\ tok_type t = TKeyword k /\ token_at code t (text_of ps) (spelling k) rest.
Proof. exact (keyword_recognised code ts ps k rest). Qed.
Print Assumptions C14_keyword_recognised.
Theorem C14_keywords_never_produced code ts t k : tokenize code = LexOk ts -> In t ts ->
  In k [BTW; OBTW; WIN; FAIL; NOOB; ANY_OF] -> tok_type t <> TKeyword k.
Proof. exact (keywords_never_produced code ts t k). Qed.
Print Assumptions C14_keywords_never_produced.
Theorem C14_all_keywords_refuted : ~ forall k, exists r, types_of (spelling k) = Some (TKeyword k :: r).
Proof. intros H. destruct (H ANY_OF) as (r & E). vm_compute in E. discriminate E. Qed.
Print Assumptions C14_all_keywords_refuted.
Example C14_case : types_of (lit "HOW IZ I ANY OF x") =
  Some [TKeyword HOW_IZ_I; TKeyword AN; TIdentifier (lit "Y"); TIdentifier (lit "OF"); TIdentifier (lit "x")].
Proof. vm_compute. reflexivity. Qed.

(** ** C15 *)
Theorem C15_identifier_tokens code ts t s : tokenize code = LexOk ts -> In t ts ->
  tok_type t = TIdentifier s ->
  exists a b, token_at code t a s b /\ s <> [] /\ Forall letter s /\ ~ starts letter b /\
    (forall k, ~ prefix_of (spelling k) (s ++ b)).
Proof. exact (identifier_tokens code ts t s). Qed.
Print Assumptions C15_identifier_tokens.
(** Conversely, where a token is looked for, every such word is an identifier. *)
Theorem C15_identifier_recognised code ts ps s rest : s <> [] -> Forall letter s -> ~ starts letter rest ->
  (forall k, ~ prefix_of (spelling k) (s ++ rest)) ->
  tokenize code = LexOk ts -> LexesTo code ps (s ++ rest) ->
  exists t, In t ts /\ tok_type t = TIdentifier s /\ token_at code t (text_of ps) s rest.
Proof. exact (identifier_recognised code ts ps s rest). Qed.
Print Assumptions C15_identifier_recognised.
(** That every word that is no keyword is one identifier is refuted: keywords
    are not looked for as whole words. *)
Theorem C15_words_are_identifiers_refuted :
  ~ forall s, s <> [] -> Forall letter s -> (forall k, s <> spelling k) -> types_of s = Some [TIdentifier s].
Proof.
  intros H. specialize (H (lit "ANSWER")).
  assert (F : types_of (lit "ANSWER") = Some [TIdentifier (lit "ANSWER")]); [|vm_compute in F; discriminate F].
  apply H; [discriminate| |intros []; discriminate].
  cbn. repeat (constructor; [unfold letter; lia|]). constructor.
Qed.
Print Assumptions C15_words_are_identifiers_refuted.
(** Identifiers cannot start with a keyword: [Apple] is [A] and [pple]. *)
Example C15_case : types_of (lit "some_Name Apple") =
  Some [TIdentifier (lit "some_Name"); TKeyword A; TIdentifier (lit "pple")].
Proof. vm_compute. reflexivity. Qed.

(** ** C16 *)
Theorem C16_string_tokens code ts t s : ascii_str code -> tokenize code = LexOk ts -> In t ts ->
  tok_type t = TValue (VString s) ->
  exists a raw b, token_at code t a raw b /\
    ((raw = quote :: s ++ [quote] /\ StringBody s) \/
     (raw = quote :: s /\ b = [] /\ quotes_escaped s)).
Proof. exact (string_tokens_ascii code ts t s). Qed.
Print Assumptions C16_string_tokens.
(** An escaped quote, an escaped colon before the closing quote, no closing quote. *)
Example C16_case :
  types_of ([quote] ++ lit "a:" ++ [quote] ++ lit "b" ++ [quote] ++ lit " " ++ [quote] ++ lit "c::" ++ [quote])
  = Some [TValue (VString (lit "a:" ++ [quote] ++ lit "b")); TValue (VString (lit "c::" ++ [quote]))].
Proof. vm_compute. reflexivity. Qed.

(** ** C17 *)
Theorem C17_single_line_comments code ts t s : tokenize code = LexOk ts -> In t ts ->
  tok_type t = TCommentSingleLine s ->
  exists a b, token_at code t a (lit "BTW" ++ s) b /\ ~ In newline s /\
    (b = [] \/ starts (eq newline) b).
Proof. exact (single_comment_tokens code ts t s). Qed.
Print Assumptions C17_single_line_comments.
Theorem C17_multi_line_comments code ts t s : tokenize code = LexOk ts -> In t ts ->
  tok_type t = TCommentMultiLine s ->
  exists a b, token_at code t a (lit "OBTW" ++ s ++ lit "TLDR") b /\
    (forall x y, s ++ lit "TLDR" = x ++ lit "TLDR" ++ y -> x = s).
Proof. exact (multi_comment_tokens code ts t s). Qed.
Print Assumptions C17_multi_line_comments.
Example C17_case : types_of (lit "OBTW a" ++ nl ++ lit "BTW TLDR TLDR BTW OBTW" ++ nl ++ lit "HAI") =
  Some [TCommentMultiLine (lit " a" ++ nl ++ lit "BTW "); TKeyword TLDR; TCommentSingleLine (lit " OBTW");
        TKeyword HAI].
Proof. vm_compute. reflexivity. Qed.

(** ** C18 *)
Theorem C18_question_mark_never_produced code ts t : tokenize code = LexOk ts -> In t ts ->
  tok_type t <> TQuestionMark.
Proof. exact (no_question_mark code ts t). Qed.
Print Assumptions C18_question_mark_never_produced.
Theorem C18_question_mark_is_symbol code ts a b : tokenize code = LexOk ts -> code = a ++ 63%N :: b ->
  exists t, In t ts /\ bytes (start_of t) <= Z.of_nat (byte_len a) < bytes (end_of t) /\
    (tok_type t = TSymbol (lit "?") \/
     (exists s, tok_type t = TValue (VString s)) \/
     (exists s, tok_type t = TCommentSingleLine s) \/
     (exists s, tok_type t = TCommentMultiLine s)).
Proof. exact (question_mark_is_symbol code ts a b). Qed.
Print Assumptions C18_question_mark_is_symbol.
Example C18_case : types_of (lit "O RLY?") = Some [TKeyword O_RLY; TSymbol (lit "?")].
Proof. vm_compute. reflexivity. Qed.

(** ** C19 *)
Theorem C19_print_tokenize gap xs : Forall ws gap -> Forall printed_ok xs ->
  exists ts, tokenize (gap ++ print xs) = LexOk ts /\ map tok_type ts = map (fun x => fst (fst x)) xs.
Proof. exact (print_tokenize gap xs). Qed.
Print Assumptions C19_print_tokenize.
(** With a space after every token it fails: the identifiers [I] and [IZ]. *)
Theorem C19_space_separated_refuted : ~ forall xs : list (token_type * str),
  Forall (fun x => Writes (fst x) (snd x)) xs ->
  types_of (concat (map (fun x => snd x ++ lit " ") xs)) = Some (map fst xs).
Proof.
  intros H.
  specialize (H [(TIdentifier (lit "I"), lit "I"); (TIdentifier (lit "IZ"), lit "IZ")]).
  assert (HW : forall s, In s [lit "I"; lit "IZ"] -> Writes (TIdentifier s) s).
  { intros s Hs. destruct Hs as [<-|[<-|[]]]; (apply writes_identifier;
      [discriminate|apply Forall_forall; intros c Hc; simpl in Hc; unfold letter; lia|]);
      intros k (u & E); destruct k; discriminate E. }
  specialize (H ltac:(apply Forall_cons; [|apply Forall_cons; [|apply Forall_nil]]; apply HW; simpl; auto)). vm_compute in H. discriminate H.
Qed.
Print Assumptions C19_space_separated_refuted.
Example C19_case : printed_ok (TKeyword VISIBLE, spelling VISIBLE, lit " ") /\
  printed_ok (TIdentifier (lit "I"), lit "I", nl) /\
  printed_ok (TCommentMultiLine (lit "TL"), lit "OBTW" ++ lit "TL" ++ lit "TLDR", lit " ") /\
  print [(TKeyword VISIBLE, spelling VISIBLE, lit " "); (TIdentifier (lit "I"), lit "I", nl)] =
  lit "VISIBLE I" ++ nl.
Proof.
  assert (Hsp : Forall ws (lit " ")) by (constructor; [left; reflexivity|constructor]).
  assert (Hnl : Forall ws nl) by (constructor; [right; right; reflexivity|constructor]).
  split; [|split; [|split; [|reflexivity]]]; (split; [|split; [discriminate|split; [assumption|]]]);
    try exact I.
  - apply writes_keyword. simpl. intuition discriminate.
  - apply writes_identifier; [discriminate|apply Forall_forall; intros c Hc; simpl in Hc; unfold letter; lia|].
    intros k (u & E). destruct k; discriminate E.
  - intros _. exists 10%N, []. split; [reflexivity|discriminate].
  - apply writes_multi. intros a b E.
    do 3 (destruct a as [|? a]; [injection E; intros; subst; try discriminate; auto|
      injection E as ? E; subst]).
    apply (f_equal (@length char)) in E. rewrite app_length in E. simpl in E. lia.
Qed.

(** ** C20 *)
Theorem C20_compositional (code0 : str) (w : char) (more : str) ts :
  w = 9%N \/ w = 10%N ->
  tokenize (code0 ++ [w]) = LexOk ts ->
  Forall (fun t => bytes (end_of t) <= Z.of_nat (byte_len code0)) ts ->
  tokenize (code0 ++ w :: more) =
  shift_result (pos_at ts (code0 ++ [w])) ts (tokenize more).
Proof. exact (tokenize_compositional code0 w more ts). Qed.
Print Assumptions C20_compositional.
(** With a space it fails, because keywords contain spaces. *)
Theorem C20_space_refuted : ~ forall (code0 more : str) ts us,
  types_of (code0 ++ lit " ") = Some ts -> types_of more = Some us ->
  types_of (code0 ++ lit " " ++ more) = Some (ts ++ us).
Proof.
  intros H. specialize (H (lit "I") (lit "HAS A") _ _ eq_refl eq_refl). vm_compute in H. discriminate H.
Qed.
Print Assumptions C20_space_refuted.
Example C20_case : exists ts, tokenize (lit "VISIBLE 1" ++ nl) = LexOk ts /\
  Forall (fun t => bytes (end_of t) <= 9) ts /\
  tokenize (lit "VISIBLE 1" ++ 10%N :: lit "OBTW") =
  shift_result (mkPos 2 1 10 10) ts (tokenize (lit "OBTW")).
Proof.
  eexists. split; [vm_compute; reflexivity|].
  split; [repeat constructor; discriminate|vm_compute; reflexivity].
Qed.

(** ** C47 *)
Theorem C47_spelling_injective k k' : to_string_slice k = to_string_slice k' -> k = k'.
Proof. exact (spelling_injective k k'). Qed.
Print Assumptions C47_spelling_injective.
Theorem C47_spelling_shape k :
  to_string_slice k = spelling k /\ to_string_slice k <> [] /\ ~ In 95%N (to_string_slice k) /\
  Forall (fun c => (65 <= c <= 90)%N \/ c = 32%N) (to_string_slice k).
Proof. exact (spelling_shape k). Qed.
Print Assumptions C47_spelling_shape.
Example C47_case : to_string_slice IM_OUTTA_YR = lit "IM OUTTA YR".
Proof. reflexivity. Qed.
