(** C85: the lexer on the bytes of the source (ByteLexer.v), where slices are
    slices of bytes and [chars()] decodes, computes what the lexer on characters
    does, with every text encoded.  Vocabulary: Utf8.v and ByteSpec.v. *)
From Coq Require Import String.
From Verif Require Import Utf8 ByteSpec ByteProofs MachineProofs Utf8Proofs PropLexer.
Local Open Scope string_scope.
Local Open Scope list_scope.

(** [encode] is the encoding of Utf8.v, and [chars()] is its inverse. *)
Theorem C85_encoding s bs : Utf8 s bs <-> Forall scalar s /\ bs = encode s.
Proof. exact (encode_iff s bs). Qed.
Print Assumptions C85_encoding.
Theorem C85_chars s bs : Utf8 s bs -> b_chars bs = s.
Proof. exact (chars_ok s bs). Qed.
Print Assumptions C85_chars.

(** Every source, in both builds, with 32-bit positions: the same result, panics
    and errors included. *)
Theorem C85_tokenize b s bs : Utf8 s bs -> b_tokenize b bs = encode_lex (tokenize_m b s).
Proof. intros H. apply encode_iff in H as [H ->]. exact (tokenize_encode b s H). Qed.
Print Assumptions C85_tokenize.
Theorem C85_tokenize_and_parse b s bs : Utf8 s bs -> b_tokenize_and_parse b bs = encode_api (tokenize_and_parse_m b s).
Proof. intros H. apply encode_iff in H as [H ->]. exact (api_encode b s H). Qed.
Print Assumptions C85_tokenize_and_parse.

(** Together with C80: below [2^31 - 1] bytes, the model of Lexer.v and Parser.v. *)
Theorem C85_same_below_the_bound b s bs : Utf8 s bs -> (Z.of_nat (length bs) < 2 ^ 31 - 1)%Z ->
  b_tokenize b bs = encode_lex (tokenize s) /\ b_tokenize_and_parse b bs = encode_api (tokenize_and_parse s).
Proof.
  intros H L. pose proof H as H'. apply encode_iff in H as [H ->]. rewrite <- (utf8_len_ok _ _ H') in L.
  rewrite (tokenize_encode b s H), (api_encode b s H), (tokenize_same b s L), (api_same b s L). split; reflexivity.
Qed.
Print Assumptions C85_same_below_the_bound.

(** The texts in tokens are whole characters again, and the loop ends. *)
Theorem C85_texts_are_strings b s bs ts t x : Utf8 s bs -> b_tokenize b bs = LexOk ts -> In t ts -> text_in (tok_type t) = Some x ->
  exists y, Utf8 y x.
Proof. exact (texts_encode b s bs ts t x). Qed.
Print Assumptions C85_texts_are_strings.
Theorem C85_terminates b s bs : Utf8 s bs -> b_tokenize b bs <> LexFuel.
Proof.
  intros H E. rewrite (C85_tokenize b s bs H) in E. apply (tokenize_m_total b s).
  destruct (tokenize_m b s); try discriminate E. reflexivity.
Qed.
Print Assumptions C85_terminates.

(** A comment and a string with characters of two, three and four bytes; a source
    that panics between two bytes of a character; an unclosed comment. *)
Definition c85_text : str := lit "BTW " ++ [233; 8364; 128512]%N ++ nl ++ lit "VISIBLE ""ab"" x" ++ nl.
Definition c85_bytes : list N := lit "BTW " ++ [195; 169; 226; 130; 172; 240; 159; 152; 128]%N ++ nl ++ lit "VISIBLE ""ab"" x" ++ nl.
Example C85_case : encode c85_text = c85_bytes /\ b_chars c85_bytes = c85_text /\
  (exists ts, b_tokenize Checked c85_bytes = LexOk ts /\ map tok_type ts =
    [TCommentSingleLine (lit " " ++ [195; 169; 226; 130; 172; 240; 159; 152; 128]%N); TKeyword VISIBLE;
     TValue (VString (lit "ab")); TIdentifier (lit "x")] /\
    map (fun t => (bytes (r_end (tok_range t)), chars (r_end (tok_range t)))) ts = [(13, 7); (21, 15); (26, 20); (28, 22)]%Z) /\
  b_tokenize Wrapping (lit "x " ++ [195; 169]%N) = LexPanic /\ tokenize (lit "x " ++ [233]%N) = LexPanic /\
  (exists r, b_tokenize Checked (lit "OBTW " ++ [195; 169]%N) = LexErr (UnclosedMultilineComment r) /\ bytes (r_end r) = 7%Z).
Proof.
  split; [vm_compute; reflexivity|]. split; [vm_compute; reflexivity|].
  split; [eexists; split; [vm_compute; reflexivity|split; vm_compute; reflexivity]|].
  split; [vm_compute; reflexivity|]. split; [vm_compute; reflexivity|].
  eexists; split; vm_compute; reflexivity.
Qed.
(** The hypothesis holds of it. *)
Example C85_case_is_utf8 : Utf8 c85_text c85_bytes.
Proof.
  apply C85_encoding. split; [|vm_compute; reflexivity]. unfold scalar.
  repeat (apply Forall_cons; [vm_compute; first [left; reflexivity|right; split; [discriminate|reflexivity]]|]). apply Forall_nil.
Qed.
