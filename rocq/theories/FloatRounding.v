(** The value of a float literal is its correctly rounded binary32 value. *)
From Coq Require Import ZArith Reals Lia Lra Floats.SpecFloat.
From Flocq Require Import Core.Core IEEE754.BinarySingleNaN.
From Verif Require Import Str Lexer.
Local Open Scope R_scope.

(** The rounding of IEEE 754 binary32: 24 bits of precision, smallest exponent
    -149, to nearest, ties to even. *)
Definition round32 (x : Rdefinitions.R) : Rdefinitions.R := round radix2 (FLT_exp (-149) 24) ZnearestE x.

(** [neg], [m], [k]: the real number (-1)^neg * m / 10^k. *)
Definition decimal (neg : bool) (m : Z) (k : nat) : Rdefinitions.R :=
  (if neg then - IZR m else IZR m) / 10 ^ k.

Local Instance prec24 : Prec_gt_0 24. Proof. reflexivity. Qed.
Local Instance emax128 : Prec_lt_emax 24 128. Proof. reflexivity. Qed.

Lemma nearest_even_equiv s m l : round_nearest_even m l = choice_mode mode_NE s m l.
Proof.
  case l; [reflexivity|intro c].
  case c; [|reflexivity..].
  now simpl; unfold Round.cond_incr; case Z.even.
Qed.

Lemma round_aux_equiv prec emax sx mx ex lx :
  SpecFloat.binary_round_aux prec emax sx mx ex lx
  = BinarySingleNaN.binary_round_aux prec emax mode_NE sx mx ex lx.
Proof.
  unfold SpecFloat.binary_round_aux, BinarySingleNaN.binary_round_aux.
  set (mrse' := shr_fexp _ _ _ _ _). case mrse'; intros mrs' e'. cbv zeta beta iota.
  rewrite (nearest_even_equiv sx). unfold binary_overflow. cbn [overflow_to_inf].  reflexivity.
Qed.

Theorem f32_of_decimal_correct neg m k : (0 <= m)%Z ->
  valid_binary 24 128 (f32_of_decimal neg m k) = true /\
  if Rlt_bool (Rabs (round32 (decimal neg m k))) (bpow radix2 128)
  then SF2R radix2 (f32_of_decimal neg m k) = round32 (decimal neg m k) /\
       is_finite_SF (f32_of_decimal neg m k) = true /\
       sign_SF (f32_of_decimal neg m k) = neg
  else f32_of_decimal neg m k = S754_infinity neg.
Proof.
  intros Hm. destruct m as [|p|p]; [| |lia].
  - cbn [f32_of_decimal]. split; [reflexivity|].
    assert (decimal neg 0 k = 0) as -> by (unfold decimal; destruct neg; unfold Rdiv; rewrite ?Ropp_0; apply Rmult_0_l).
    unfold round32. rewrite round_0 by auto with typeclass_instances.
    rewrite Rabs_R0, Rlt_bool_true by apply bpow_gt_0. auto.
  - assert (Hpow : (0 < 10 ^ Z.of_nat k)%Z) by (apply Z.pow_pos_nonneg; lia).
    set (q := Z.to_pos (10 ^ Z.of_nat k)).
    assert (Hq : Zpos q = (10 ^ Z.of_nat k)%Z) by (unfold q; apply Z2Pos.id; assumption).
    pose proof (Bdiv_correct_aux 24 128 _ _ mode_NE neg p 0 false q 0) as H. cbv zeta in H.
    assert (Hx : F2R (Defs.Float radix2 (cond_Zopp neg (Zpos p)) 0) / F2R (Defs.Float radix2 (cond_Zopp false (Zpos q)) 0)
                 = decimal neg (Zpos p) k).
    { unfold decimal, F2R. cbn [Fnum Fexp bpow cond_Zopp]. rewrite !Rmult_1_r, Hq.
      f_equal.
      - destruct neg; cbn [cond_Zopp]; [|reflexivity]. apply (opp_IZR (Zpos p)).
      - rewrite <- (pow_IZR 10 k). reflexivity. }
    rewrite Hx in H. rewrite xorb_false_r in H.
    change (f32_of_decimal neg (Zpos p) k) with
      (let '(mz, ez, lz) := SFdiv_core_binary 24 128 (Zpos p) 0 (Zpos q) 0 in
       SpecFloat.binary_round_aux 24 128 (xorb neg false) mz ez lz).
    rewrite xorb_false_r.
    destruct (SFdiv_core_binary 24 128 (Zpos p) 0 (Zpos q) 0) as [[mz ez] lz].
    rewrite round_aux_equiv.
    change (SpecFloat.fexp 24 128) with (FLT_exp (-149) 24) in H. exact H.
Qed.
