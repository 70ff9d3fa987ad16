(** Every binary32 number except NaN is the value of a decimal. *)
From Coq Require Import ZArith Reals Lia Lra Floats.SpecFloat.
From Flocq Require Import Core.Core IEEE754.BinarySingleNaN.
From Verif Require Import Str Lexer FloatRounding.
Local Open Scope R_scope.

Local Instance prec24' : Prec_gt_0 24. Proof. reflexivity. Qed.
Local Instance emax128' : Prec_lt_emax 24 128. Proof. reflexivity. Qed.

Lemma decimal_of_finite s m e :
  exists v k, (0 <= v)%Z /\ decimal s v k = SF2R radix2 (S754_finite s m e).
Proof.
  unfold decimal, SF2R, F2R. cbn [Fnum Fexp].
  assert (Hs : forall v : Z, (if s then - IZR v else IZR v) = (if s then -1 else 1) * IZR v) by (intros v; destruct s; lra).
  assert (Hc : IZR (cond_Zopp s (Zpos m)) = (if s then -1 else 1) * IZR (Zpos m)).
  { rewrite <- Hs. destruct s; cbn [cond_Zopp]; [apply (opp_IZR (Zpos m))|reflexivity]. }
  destruct (Z.leb_spec 0 e) as [He|He].
  - exists (Zpos m * 2 ^ e)%Z, 0%nat. split; [apply Z.mul_nonneg_nonneg; [lia|apply Z.pow_nonneg; lia]|].
    rewrite Hs, Hc, mult_IZR. cbn [pow]. rewrite <- (IZR_Zpower radix2) by assumption.
    change (Zpower radix2 e) with (2 ^ e)%Z. field.
  - exists (Zpos m * 5 ^ (- e))%Z, (Z.to_nat (- e)). split; [apply Z.mul_nonneg_nonneg; [lia|apply Z.pow_nonneg; lia]|].
    rewrite Hs, Hc, mult_IZR. rewrite <- (Z2Nat.id (- e)) at 1 by lia.
    replace e with (- Z.of_nat (Z.to_nat (- e)))%Z at 3 by lia.
    set (n := Z.to_nat (- e)). rewrite bpow_opp, <- (IZR_Zpower radix2) by lia.
    change (Zpower radix2 (Z.of_nat n)) with (2 ^ Z.of_nat n)%Z.
    rewrite <- !pow_IZR. replace 10 with (2 * 5) by lra. rewrite Rpow_mult_distr.
    assert (2 ^ n <> 0) by (apply pow_nonzero; lra). assert (5 ^ n <> 0) by (apply pow_nonzero; lra).
    field. auto.
Qed.

Theorem every_f32_is_a_decimal x : valid_binary 24 128 x = true -> x <> S754_nan ->
  exists neg v k, (0 <= v)%Z /\ f32_of_decimal neg v k = x.
Proof.
  intros Hv Hn. destruct x as [s|s| |s m e]; [| |contradiction|].
  - exists s, 0%Z, 0%nat. split; [lia|reflexivity].
  - exists s, (10 ^ 39)%Z, 0%nat. split; [apply Z.pow_nonneg; lia|]. destruct s; vm_compute; reflexivity.
  - destruct (decimal_of_finite s m e) as (v & k & Hp & E). exists s, v, k. split; [exact Hp|].
    destruct (f32_of_decimal_correct s v k Hp) as [Hv' H]. rewrite E in H.
    pose (y := @SF2B 24 128 (S754_finite s m e) Hv). pose (z := @SF2B 24 128 (f32_of_decimal s v k) Hv').
    assert (Hy : B2R y = SF2R radix2 (S754_finite s m e)) by (unfold y; apply B2R_SF2B).
    assert (Hr : round32 (SF2R radix2 (S754_finite s m e)) = SF2R radix2 (S754_finite s m e)).
    { rewrite <- Hy. unfold round32. apply round_generic; [auto with typeclass_instances|].
      apply (generic_format_B2R 24 128). }
    rewrite Hr in H. rewrite Rlt_bool_true in H by (rewrite <- Hy; apply abs_B2R_lt_emax).
    destruct H as (H1 & H2 & H3).
    assert (Hz : z = y).
    { apply B2R_Bsign_inj.
      - unfold z. rewrite is_finite_SF2B. exact H2.
      - unfold y. rewrite is_finite_SF2B. reflexivity.
      - unfold z, y. rewrite !B2R_SF2B. exact H1.
      - unfold z, y. rewrite !Bsign_SF2B. exact H3. }
    rewrite <- (B2SF_SF2B 24 128 _ Hv'). rewrite <- (B2SF_SF2B 24 128 _ Hv). fold y z. rewrite Hz. reflexivity.
Qed.

Lemma float_ok neg m k : (0 <= m)%Z -> valid_binary 24 128 (f32_of_decimal neg m k) = true /\ f32_of_decimal neg m k <> S754_nan.
Proof.
  intros Hm. destruct (f32_of_decimal_correct neg m k Hm) as [Hv H]. split; [exact Hv|].
  destruct (Rlt_bool _ _); [|rewrite H; discriminate]. destruct H as (_ & H & _). intros E. rewrite E in H. discriminate H.
Qed.
