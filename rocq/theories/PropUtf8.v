(** C83: the strings of the model (lists of characters, Str.v) and the bytes of
    Rust's [str].  Vocabulary: Utf8.v. *)
From Coq Require Import String.
From Verif Require Import Str Lexer LexSpec LexPropSpec Utf8 Utf8Proofs.
Local Open Scope string_scope.
Local Open Scope list_scope.

(** The lists of scalar values are the strings that have bytes, and bytes and
    strings determine each other. *)
Theorem C83_encoding s : Forall scalar s <-> exists bs, Utf8 s bs.
Proof. exact (utf8_exists s). Qed.
Print Assumptions C83_encoding.
Theorem C83_encoding_is_a_bijection s bs s' bs' : Utf8 s bs -> Utf8 s' bs' -> (s = s' <-> bs = bs').
Proof.
  intros H H'. split; [intros <-; exact (utf8_bytes _ _ H _ H')|intros <-; exact (utf8_chars _ _ _ H H')].
Qed.
Print Assumptions C83_encoding_is_a_bijection.
Theorem C83_bytes s bs : Utf8 s bs -> Forall (fun b => (b < 256)%N) bs.
Proof. exact (utf8_all_bytes s bs). Qed.
Print Assumptions C83_bytes.

(** [len] counts bytes. *)
Theorem C83_len s bs : Utf8 s bs -> byte_len s = length bs.
Proof. exact (utf8_len_ok s bs). Qed.
Print Assumptions C83_len.

(** Slices are slices of the bytes, and panic exactly off the boundaries. *)
Theorem C83_slice_to s bs n : Utf8 s bs ->
  match slice_to s n with Ret a => char_boundary bs n /\ Utf8 a (firstn n bs) | Panic => ~ char_boundary bs n end.
Proof. exact (slice_to_refines s bs n). Qed.
Print Assumptions C83_slice_to.
Theorem C83_slice_from s bs n : Utf8 s bs ->
  match slice_from s n with Ret b => char_boundary bs n /\ Utf8 b (skipn n bs) | Panic => ~ char_boundary bs n end.
Proof. exact (slice_from_refines s bs n). Qed.
Print Assumptions C83_slice_from.
Theorem C83_slice s bs n m : Utf8 s bs ->
  match slice s n m with
  | Ret a => n <= m /\ char_boundary bs n /\ char_boundary bs m /\ Utf8 a (skipn n (firstn m bs))
  | Panic => ~ (n <= m /\ char_boundary bs n /\ char_boundary bs m)
  end.
Proof. exact (slice_refines s bs n m). Qed.
Print Assumptions C83_slice.

(** [starts_with] and [find] compare bytes. *)
Theorem C83_starts_with p pb s bs : Utf8 p pb -> Utf8 s bs -> (starts_with p s = true <-> exists r, bs = pb ++ r).
Proof. exact (starts_with_refines p pb s bs). Qed.
Print Assumptions C83_starts_with.
Theorem C83_find p pb s bs : Utf8 p pb -> Utf8 s bs ->
  match find p s with Some n => bytes_found_at pb bs n | None => forall x y, bs <> x ++ pb ++ y end.
Proof. exact (find_refines p pb s bs). Qed.
Print Assumptions C83_find.

(** The byte offsets of a token cut its text out of the bytes of the source. *)
Theorem C83_tokens code bs ts t : Utf8 code bs -> tokenize code = LexOk ts -> In t ts ->
  exists ab rb bb raw b, bs = ab ++ rb ++ bb /\
    bytes (start_of t) = Z.of_nat (length ab) /\ bytes (end_of t) = Z.of_nat (length (ab ++ rb)) /\
    char_boundary bs (length ab) /\ char_boundary bs (length (ab ++ rb)) /\
    Utf8 raw rb /\ Utf8 b bb /\ OwnText (tok_type t) raw b.
Proof. exact (token_bytes code bs ts t). Qed.
Print Assumptions C83_tokens.
Theorem C83_error code bs r : Utf8 code bs -> tokenize code = LexErr (UnclosedMultilineComment r) ->
  exists ab cb s, bs = ab ++ cb /\ Utf8 (lit "OBTW" ++ s) cb /\
    bytes (r_start r) = Z.of_nat (length ab) /\ bytes (r_end r) = Z.of_nat (length bs) /\ char_boundary bs (length ab).
Proof. exact (error_bytes code bs r). Qed.
Print Assumptions C83_error.

(** Characters of one to four bytes: U+41, U+E9, U+2026, U+1F600, and the last ones
    of every length; as in the tables of the standard. *)
Example C83_case :
  Utf8 [65; 233; 8230; 128512]%N [65; 195; 169; 226; 128; 166; 240; 159; 152; 128]%N /\
  Utf8 [127; 2047; 65535; 1114111]%N [127; 223; 191; 239; 191; 191; 244; 143; 191; 191]%N /\
  slice_to [65; 233; 8230; 128512]%N 3 = Ret [65; 233]%N /\ slice_to [65; 233; 8230; 128512]%N 4 = Panic /\
  find [8230; 128512]%N [65; 233; 8230; 128512]%N = Some 3 /\
  exists ts, tokenize ([34; 65; 128512; 65; 66; 67; 34]%N) = LexOk ts /\ map (fun t => bytes (end_of t)) ts = [7; 9; 10]%Z.
Proof.
  split.
  { apply (utf8_cons _ [65%N]); [apply utf8_1; reflexivity|].
    apply (utf8_cons _ [195; 169]%N); [apply (utf8_2 233 3 41); reflexivity || discriminate|].
    apply (utf8_cons _ [226; 128; 166]%N); [apply (utf8_3 8230 2 0 38); try reflexivity; try discriminate; left; reflexivity|].
    apply (utf8_cons _ [240; 159; 152; 128]%N _ []); [|constructor].
    apply (utf8_4 128512 0 31 24 0); try reflexivity; try discriminate. right. split; [discriminate|reflexivity]. }
  split.
  { apply (utf8_cons _ [127%N]); [apply utf8_1; reflexivity|].
    apply (utf8_cons _ [223; 191]%N); [apply (utf8_2 2047 31 63); reflexivity || discriminate|].
    apply (utf8_cons _ [239; 191; 191]%N).
    { apply (utf8_3 65535 15 63 63); try reflexivity; try discriminate. right. split; [discriminate|reflexivity]. }
    apply (utf8_cons _ [244; 143; 191; 191]%N _ []); [|constructor].
    apply (utf8_4 1114111 4 15 63 63); try reflexivity; try discriminate. right. split; [discriminate|reflexivity]. }
  split; [vm_compute; reflexivity|]. split; [vm_compute; reflexivity|]. split; [vm_compute; reflexivity|].
  eexists. split; vm_compute; reflexivity.
Qed.
