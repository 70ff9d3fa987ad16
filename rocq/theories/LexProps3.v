(** Properties of the lexer: corollaries in the form of the property list. *)
From Coq Require Import String Sorted ZifyBool ZifyNat ZifyN Reals.
From Flocq Require Import Core.Core IEEE754.BinarySingleNaN.
From Verif Require Import StrFacts Lexer LexSpec LexBasics LexProofs LexPropSpec LexProps LexProps2 FloatRounding.
Local Open Scope Z_scope.

(** Every token has a text, to which all the positional statements apply. *)
Theorem token_offsets code ts t : tokenize code = LexOk ts -> In t ts ->
  exists a raw b, code = a ++ raw ++ b /\ raw <> [] /\ OwnText (tok_type t) raw b /\
    bytes (start_of t) = Z.of_nat (byte_len a) /\ chars (start_of t) = Z.of_nat (length a) /\
    bytes (end_of t) = Z.of_nat (byte_len (a ++ raw)) /\
    chars (end_of t) = Z.of_nat (length (a ++ raw)).
Proof.
  intros E Hin.
  destruct (token_tok_text _ _ _ E Hin) as (ps & a & raw & b & _ & _ & Hat & Htt).
  destruct (token_positions _ _ _ _ _ _ E Hin Hat) as [Hs He].
  exists a, raw, b. rewrite Hs, He. destruct Hat as (Hc & _ & _).
  repeat split; auto. - eapply TokText_nonempty; eauto. - eapply TokText_own; eauto.
Qed.

Theorem token_lines code ts t : tokenize code = LexOk ts -> In t ts ->
  exists a raw b, token_at code t a raw b /\
    line (start_of t) = 1 + Z.of_nat (length (line_breaks ts 0 a)) /\
    line (end_of t) = line (start_of t) /\
    column (start_of t) = 1 + (Z.of_nat (byte_len a) - line_start ts a) /\
    column (end_of t) = column (start_of t) + Z.of_nat (byte_len raw).
Proof.
  intros E Hin. apply tokenize_ok_iff in E as (ps & HL & ->).
  destruct (token_facts _ _ _ _ HL Hin) as (ps1 & raw & ps2 & Hps & _ & _ & _ & Hat & Hs & He).
  exists (text_of ps1), raw, (text_of ps2 ++ []).
  assert (E : tokenize code = LexOk (tokens_after [] ps)) by (apply tokenize_ok_iff; eauto).
  destruct (token_positions _ _ _ _ _ _ E Hin Hat) as [Hs' _].
  rewrite pos_after_tok, <- Hs in He.
  split; [assumption|]. rewrite He, Hs'. auto.
Qed.

Lemma dec_nonneg ds : Forall digit ds -> 0 <= dec ds.
Proof.
  induction 1 as [|d ds Hd _ IH]; cbn [dec]; [lia|].
  assert (0 <= 10 ^ Z.of_nat (length ds)) by (apply Z.pow_nonneg; lia).
  unfold digit in Hd. nia.
Qed.

Theorem int_tokens code ts t n : tokenize code = LexOk ts -> In t ts ->
  tok_type t = TValue (VNumber (Int n)) ->
  exists a sg neg ds b, token_at code t a (sg ++ ds) b /\ SignText sg neg /\
    ds <> [] /\ Forall digit ds /\ n = signed neg (dec ds) /\ - 2 ^ 31 <= n < 2 ^ 31.
Proof.
  intros E Hin Ht. destruct (number_tokens _ _ _ _ E Hin Ht) as (a & raw & b & Hat & HN).
  inversion HN; subst. exists a, sg, neg, ds, b. auto 10.
Qed.

(** The value of a float literal: its binary32 rounding, or an infinity when
    that is out of range. *)
Theorem float_tokens code ts t x : tokenize code = LexOk ts -> In t ts ->
  tok_type t = TValue (VNumber (Float x)) ->
  exists a sg neg ip fp b, token_at code t a (sg ++ ip ++ dot :: fp) b /\ SignText sg neg /\
    ip ++ fp <> [] /\ Forall digit ip /\ Forall digit fp /\ valid_binary 24 128 x = true /\
    let r := decimal neg (dec (ip ++ fp)) (length fp) in
    (Rlt (Rabs (round32 r)) (bpow radix2 128) ->
       SF2R radix2 x = round32 r /\ is_finite_SF x = true /\ sign_SF x = neg) /\
    (~ Rlt (Rabs (round32 r)) (bpow radix2 128) -> x = S754_infinity neg).
Proof.
  intros E Hin Ht. destruct (number_tokens _ _ _ _ E Hin Ht) as (a & raw & b & Hat & HN).
  inversion HN; subst. exists a, sg, neg, ip, fp, b.
  assert (Hd : 0 <= dec (ip ++ fp)) by (apply dec_nonneg, Forall_app; auto).
  destruct (f32_of_decimal_correct neg _ (length fp) Hd) as [HV H]. cbv zeta.
  repeat (split; [assumption|]).
  destruct (Rlt_bool_spec (Rabs (round32 (decimal neg (dec (ip ++ fp)) (length fp)))) (bpow radix2 128))
    as [Hlt|Hge]; split; intros Hr; auto.
  - contradiction.
  - exfalso. apply (Rlt_irrefl (bpow radix2 128)). eapply Rle_lt_trans; eassumption.
Qed.

Theorem string_text_refuted : ~ forall code ts t s,
  tokenize code = LexOk ts -> In t ts -> tok_type t = TValue (VString s) ->
  exists a raw b, token_at code t a raw b /\
    (raw = quote :: s ++ [quote] \/ (raw = quote :: s /\ b = [])).
Proof.
  intros H.
  specialize (H [quote; 233%N; 97%N; quote] _ _ _ eq_refl (or_introl eq_refl) eq_refl).
  destruct H as (a & raw & b & (Hc & Hs & He) & Hraw).
  assert (a = []).
  { destruct a as [|x a]; [reflexivity|]. exfalso.
    pose proof (byte_len_nonempty (x :: a) ltac:(discriminate)) as Hp.
    change (0 = Z.of_nat (byte_len (x :: a))) in Hs. lia. }
  subst a. destruct Hraw as [->|[-> ->]]; discriminate Hc.
Qed.

(** C07 *)
Theorem lines_refuted : ~ forall code ts t a raw b,
  tokenize code = LexOk ts -> In t ts -> token_at code t a raw b ->
  line (start_of t) = 1 + Z.of_nat (count_newlines a).
Proof.
  intros H.
  specialize (H (lit "OBTW" ++ [10%N] ++ lit "TLDR HAI") _ _ (lit "OBTW" ++ [10%N] ++ lit "TLDR ") (lit "HAI") []
    eq_refl (or_intror (or_introl eq_refl))).
  specialize (H ltac:(split; [reflexivity|split; reflexivity])). discriminate H.
Qed.

(** C08 *)
Theorem columns_in_chars_refuted : ~ forall code ts t a raw b,
  tokenize code = LexOk ts -> In t ts -> token_at code t a raw b -> ~ In newline a ->
  column (start_of t) = 1 + Z.of_nat (length a).
Proof.
  intros H.
  specialize (H (lit "OBTW" ++ [233%N] ++ lit "TLDR HAI") _ _ (lit "OBTW" ++ [233%N] ++ lit "TLDR ") (lit "HAI") []
    eq_refl (or_intror (or_introl eq_refl))).
  specialize (H ltac:(split; [reflexivity|split; reflexivity])).
  specialize (H ltac:(vm_compute; intuition discriminate)). discriminate H.
Qed.
