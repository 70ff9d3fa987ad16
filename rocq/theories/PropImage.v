(** C84: which sequences of tokens sources have.  Vocabulary: ImageSpec.v. *)
From Coq Require Import String.
From Verif Require Import Lexer Parser Api LexSpec LexPropSpec Relabel ImageProofs ImageParse PropLexer.
Local Open Scope string_scope.
Local Open Scope list_scope.
Local Open Scope Z_scope.

(** The types and lines that [tokenize] returns for ASCII sources are exactly
    those of [Yields]. *)
Theorem C84_sequences xs :
  (exists code ts, ascii_str code /\ tokenize code = LexOk ts /\ map with_line ts = xs) <-> Yields 1 xs.
Proof. exact (sequences xs). Qed.
Print Assumptions C84_sequences.

(** A digit as a symbol, an integer, a float and a comment that ends its line:
    a sequence that occurs and one that does not. *)
Example C84_digits :
  let xs := [(TSymbol [49%N], 1); (TValue (VNumber (Int 5)), 1); (TCommentSingleLine (lit " x"), 1); (TComma, 3); (TSymbol [50%N], 3)] in
  Yields 1 xs /\
  exists ts, tokenize (lit "1000000000000005 BTW x" ++ nl ++ nl ++ lit ",2") = LexOk ts /\ map with_line ts = xs.
Proof.
  cbv zeta. split; [|eexists; split; vm_compute; reflexivity].
  apply yields_overflow; [lia|unfold digit; lia|discriminate|lia|].
  apply yields_token; [lia|split; [reflexivity|intros H; repeat (destruct H as [H|H]; [discriminate H|]); exact H]|].
  apply yields_token; [lia|exact I|]. apply yields_last_digit; [lia|unfold digit; lia].
Qed.
Example C84_digit_then_comma : ~ Yields 1 [(TSymbol [49%N], 1); (TComma, 1)].
Proof.
  intros Y. inversion Y as [|? ? ? ? _ Ha| | | | |]; subst. destruct Ha as (c & E & _ & _ & _ & Hd & _). injection E as <-.
  apply Hd. unfold digit. lia.
Qed.

(** The types of tokens, one by one. *)
Theorem C84_types ty :
  (exists code ts t, ascii_str code /\ tokenize code = LexOk ts /\ In t ts /\ tok_type t = ty) <->
  anywhere ty \/ (exists s, ty = TValue (VString s) /\ ascii_str s /\ quotes_escaped s) \/
  exists d, ty = TSymbol [d] /\ digit d.
Proof. exact (types_that_occur ty). Qed.
Print Assumptions C84_types.

(** One might expect that tokens that occur can be written one after another. *)
Theorem C84_any_order_refuted : ~ forall ty ty',
  (exists code ts t, ascii_str code /\ tokenize code = LexOk ts /\ In t ts /\ tok_type t = ty) ->
  (exists code ts t, ascii_str code /\ tokenize code = LexOk ts /\ In t ts /\ tok_type t = ty') ->
  exists code ts, ascii_str code /\ tokenize code = LexOk ts /\ map tok_type ts = [ty; ty'].
Proof. exact any_order_refuted. Qed.
Print Assumptions C84_any_order_refuted.

(** The float literals reach every binary32 number except NaN. *)
Theorem C84_floats x :
  (exists code ts t, tokenize code = LexOk ts /\ In t ts /\ tok_type t = TValue (VNumber (Float x))) <->
  valid_binary 24 128 x = true /\ x <> S754_nan.
Proof. exact (floats_that_occur x). Qed.
Print Assumptions C84_floats.
Example C84_smallest_float : exists t, tokenize (lit "0.00000000000000000000000000000000000000000000140129846432481707 ") = LexOk [t] /\
  tok_type t = TValue (VNumber (Float (S754_finite false 1 (-149)))).
Proof. eexists. split; vm_compute; reflexivity. Qed.

(** The ASTs of sources, positions aside, are those of the vectors of tokens
    with such types and lines: nothing else about a vector matters. *)
Theorem C84_results r :
  (exists code ts, ascii_str code /\ tokenize code = LexOk ts /\ map_result erase (parse ts) = r) <->
  exists ts, Yields 1 (map with_line ts) /\ map_result erase (parse ts) = r.
Proof. exact (results_of_sources r). Qed.
Print Assumptions C84_results.
