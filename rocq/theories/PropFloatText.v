(** Property C86: the texts of floats.  Statements; the proofs are in
    FloatTextProofs.v and FloatTextRead.v. *)
From Coq Require Import String ZArith Reals List Floats.SpecFloat.
From Flocq Require Import Core.Core IEEE754.BinarySingleNaN.
From Verif Require Import PropLexer PropParser Eq EqSpec NodeTokens DebugProofs DebugAst PrettyProofs FloatTextRead Pretty.
From Verif Require Export FloatTextSpec DebugSpec.
From Verif Require Import Api.
Local Open Scope Z_scope.
Local Open Scope string_scope.
Local Open Scope list_scope.

(** The text of a finite float is a decimal, and the float is the binary32 number
    nearest to that decimal. *)
Theorem C86_read_back x : valid_binary 24 128 x = true -> is_finite_SF x = true ->
  exists neg d k, read_decimal (f32_debug x) = Some (neg, d, k) /\ nearest neg d k x.
Proof. exact (text_read_back x). Qed.
Print Assumptions C86_read_back.

(** No decimal has fewer digits and is read as the same float, and none with as
    many digits is nearer, or as near and larger; at most nine digits are needed. *)
Theorem C86_shortest s m e : valid_binary 24 128 (S754_finite s m e) = true ->
  exists d k d' k', 0 < d < 10 ^ 9 /\ shortest_text (S754_finite s m e) d k /\
    read_decimal (f32_debug (S754_finite s m e)) = Some (s, d', k') /\ value d' k' = value d k.
Proof.
  intros V. destruct (finite_text s m e V) as (d & k & d' & k' & H1 & H2 & H3 & _ & H4 & _). exists d, k, d', k'. auto.
Qed.
Print Assumptions C86_shortest.

(** There is only one such decimal. *)
Theorem C86_shortest_unique x d k d' k' : shortest_text x d k -> shortest_text x d' k' -> value d k = value d' k'.
Proof. exact (shortest_unique x d k d' k'). Qed.
Print Assumptions C86_shortest_unique.

(** Numbers from 0.0001 up to 10^16 and zero have a plain text, others one with an
    exponent; neither has zeros to spare. *)
Theorem C86_forms x : valid_binary 24 128 x = true -> is_finite_SF x = true ->
  (written_plainly x -> plain_form x (f32_debug x)) /\ (~ written_plainly x -> exponent_form x (f32_debug x)).
Proof. exact (forms x). Qed.
Print Assumptions C86_forms.

(** Different floats have different texts, which have the characters that C69
    and C71 ask for; so these hold for the text of the standard library. *)
Theorem C86_float_texts : float_texts f32_debug.
Proof. exact f32_debug_ok. Qed.
Print Assumptions C86_float_texts.

Theorem C86_vectors shown ts us :
  tokens_debug shown f32_debug ts = tokens_debug shown f32_debug us <-> map drop_offsets ts = map drop_offsets us.
Proof. exact (tokens_debug_iff f32_debug f32_debug_ok shown ts us). Qed.
Print Assumptions C86_vectors.

Theorem C86_asts shown b b' :
  block_debug shown f32_debug b = block_debug shown f32_debug b' <-> map_block drop_offsets b = map_block drop_offsets b'.
Proof. exact (block_debug_iff f32_debug f32_debug_ok shown b b'). Qed.
Print Assumptions C86_asts.

Theorem C86_pretty_asts shown b b' :
  block_pretty shown f32_debug b = block_pretty shown f32_debug b' <-> map_block drop_offsets b = map_block drop_offsets b'.
Proof. exact (block_pretty_iff f32_debug f32_debug_ok shown b b'). Qed.
Print Assumptions C86_pretty_asts.

(** The text is a LOLCODE literal of the float iff it is a plain one. *)
Theorem C86_literals x : valid_binary 24 128 x = true ->
  Writes (TValue (VNumber (Token.Float x))) (f32_debug x) <-> written_plainly x.
Proof. exact (literal_iff x). Qed.
Print Assumptions C86_literals.

Theorem C86_tokenize x : valid_binary 24 128 x = true -> written_plainly x ->
  exists ts, tokenize (f32_debug x ++ [newline]) = LexOk ts /\ map tok_type ts = [TValue (VNumber (Token.Float x))].
Proof. exact (plain_tokenize x). Qed.
Print Assumptions C86_tokenize.

(** The other texts are not the text of a number token, whatever the source. *)
Theorem C86_no_number x code ts t a b n : valid_binary 24 128 x = true -> ~ written_plainly x ->
  tokenize code = LexOk ts -> In t ts -> token_at code t a (f32_debug x) b -> tok_type t <> TValue (VNumber n).
Proof. exact (exponent_not_number x code ts t a b n). Qed.
Print Assumptions C86_no_number.

(** Some floats, their bits and their texts. *)
Definition C86_float (neg : bool) (d : Z) (k : nat) : spec_float := f32_of_decimal neg d k.
Example C86_texts :
  map f32_debug [C86_float false 1 1; C86_float true 314159265 8; C86_float false 16777217 0; C86_float false (10 ^ 16) 0;
                 C86_float true 1 4; C86_float false 99 6; C86_float false 1 45; C86_float false 104857625 2; S754_infinity true; S754_zero true] =
  [lit "0.1"; lit "-3.1415927"; lit "16777216.0"; lit "1e16"; lit "-0.0001"; lit "9.9e-5"; lit "1e-45"; lit "1048576.3"; lit "-inf"; lit "-0.0"].
Proof. vm_compute. reflexivity. Qed.
Example C86_hypotheses :
  forallb (valid_binary 24 128) [C86_float false 1 1; C86_float false 1 45; S754_zero true] = true /\
  written_plainly (S754_zero true) /\ ~ written_plainly (S754_infinity true).
Proof.
  split; [vm_compute; reflexivity|]. split; [split; [reflexivity|left; reflexivity]|]. intros [X _]. discriminate X.
Qed.
Example C86_plain : written_plainly (C86_float true 5 1) /\ f32_debug (C86_float true 5 1) = lit "-0.5".
Proof.
  assert (E : f32_debug (C86_float true 5 1) = lit "-0.5") by (vm_compute; reflexivity). split; [|exact E].
  apply C86_literals; [vm_compute; reflexivity|]. rewrite E.
  replace (C86_float true 5 1) with (f32_of_decimal true (dec (lit "0" ++ lit "5")) (List.length (lit "5"))) by (vm_compute; reflexivity).
  apply (writes_float (lit "-") true (lit "0") (lit "5")); [constructor|discriminate| |]; repeat constructor.
  all: unfold digit; cbn; discriminate.
Qed.
Example C86_exponent : ~ written_plainly (C86_float false 1 5) /\ f32_debug (C86_float false 1 5) = lit "1e-5".
Proof.
  assert (V : valid_binary 24 128 (C86_float false 1 5) = true) by (vm_compute; reflexivity).
  assert (E : f32_debug (C86_float false 1 5) = lit "1e-5") by (vm_compute; reflexivity). split; [|exact E].
  intros P. destruct (C86_tokenize _ V P) as (ts & H1 & H2). rewrite E in H1. vm_compute in H1. injection H1 as <-. discriminate H2.
Qed.
