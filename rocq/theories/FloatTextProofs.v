(** Proofs for C86: the decimals that are rounded to a float. *)
From Coq Require Import ZArith Reals Lia Lra Floats.SpecFloat.
From Flocq Require Import Core.Core IEEE754.BinarySingleNaN.
From Verif Require Import FloatTextSpec FloatImage.
Local Open Scope R_scope.

Local Instance prec24'' : Prec_gt_0 24. Proof. reflexivity. Qed.
Local Instance emax128'' : Prec_lt_emax 24 128. Proof. reflexivity. Qed.

(** ** Values *)
Lemma pow10 n : (0 <= n)%Z -> IZR (10 ^ n) = bpow radix10 n.
Proof. intros H. change (10 ^ n)%Z with (Zpower radix10 n). apply IZR_Zpower. exact H. Qed.
Lemma bpow10_pos k : 0 < bpow radix10 k.
Proof. apply bpow_gt_0. Qed.
Lemma decimal_value neg d k : decimal neg d k = (if neg then - value d (- Z.of_nat k) else value d (- Z.of_nat k)).
Proof.
  unfold decimal, value. rewrite bpow_opp. unfold Rdiv.
  assert (E : 10 ^ k = bpow radix10 (Z.of_nat k)). { rewrite <- pow10 by lia. rewrite <- pow_IZR. reflexivity. }
  rewrite E. destruct neg; ring.
Qed.
Lemma value_shift d k n : (0 <= n)%Z -> value (d * 10 ^ n) (k - n) = value d k.
Proof.
  intros H. unfold value. rewrite mult_IZR, pow10 by exact H. rewrite Rmult_assoc, <- bpow_plus. do 2 f_equal. lia.
Qed.
Lemma value_pos d k : (0 < d)%Z -> 0 < value d k.
Proof. intros H. apply Rmult_lt_0_compat; [apply IZR_lt, H|apply bpow_gt_0]. Qed.
Lemma value_nonneg d k : (0 <= d)%Z -> 0 <= value d k.
Proof. intros H. apply Rmult_le_pos; [apply IZR_le, H|apply bpow_ge_0]. Qed.
Lemma round32_opp x : round32 (- x) = - round32 x.
Proof. apply round_NE_opp. Qed.
Lemma round32_le x y : x <= y -> round32 x <= round32 y.
Proof. apply round_le; auto with typeclass_instances. Qed.

(** ** [f32_of_scaled] is the nearest number *)
Lemma scaled_nearest neg d k : (0 <= d)%Z -> nearest neg d k (f32_of_scaled neg d k).
Proof.
  intros Hd.
  assert (X : exists d' k', (0 <= d')%Z /\ f32_of_scaled neg d k = f32_of_decimal neg d' k' /\ value d' (- Z.of_nat k') = value d k).
  { unfold f32_of_scaled. destruct (Z.ltb_spec k 0).
    - exists d, (Z.to_nat (- k)). split; [exact Hd|]. split; [reflexivity|]. f_equal. lia.
    - exists (d * 10 ^ k)%Z, 0%nat. split; [apply Z.mul_nonneg_nonneg; [exact Hd|apply Z.pow_nonneg; lia]|]. split; [reflexivity|].
      rewrite <- (value_shift d k k) by lia. f_equal. lia. }
  destruct X as (d' & k' & Hd' & -> & V). destruct (f32_of_decimal_correct neg d' k' Hd') as [Hv H].
  split; [exact Hv|]. rewrite decimal_value, V in H.
  assert (E : round32 (if neg then - value d k else value d k) = if neg then - round32 (value d k) else round32 (value d k)).
  { destruct neg; [apply round32_opp|reflexivity]. }
  rewrite E in H.
  assert (A : Rabs (if neg then - round32 (value d k) else round32 (value d k)) = Rabs (round32 (value d k))).
  { destruct neg; [apply Rabs_Ropp|reflexivity]. }
  rewrite A in H. split; intros L.
  - rewrite Rlt_bool_true in H by exact L. tauto.
  - rewrite Rlt_bool_false in H by lra. exact H.
Qed.

Lemma same_real (x y : spec_float) : valid_binary 24 128 x = true -> valid_binary 24 128 y = true ->
  is_finite_SF x = true -> is_finite_SF y = true -> sign_SF x = sign_SF y -> SF2R radix2 x = SF2R radix2 y -> x = y.
Proof.
  intros Vx Vy Fx Fy S E.
  assert (H : @SF2B 24 128 x Vx = @SF2B 24 128 y Vy).
  { apply B2R_Bsign_inj; rewrite ?is_finite_SF2B, ?B2R_SF2B, ?Bsign_SF2B; assumption. }
  rewrite <- (B2SF_SF2B 24 128 _ Vx), <- (B2SF_SF2B 24 128 _ Vy), H. reflexivity.
Qed.
Lemma nearest_fun neg d k d' k' x y : value d k = value d' k' -> nearest neg d k x -> nearest neg d' k' y -> x = y.
Proof.
  intros V (Vx & Fx & Ix) (Vy & Fy & Iy). rewrite V in Fx, Ix.
  destruct (Rlt_dec (Rabs (round32 (value d' k'))) (bpow radix2 128)) as [L|L].
  - destruct (Fx L) as (F & S & E), (Fy L) as (F' & S' & E'). apply same_real; congruence.
  - rewrite Ix, Iy by exact L. reflexivity.
Qed.
Lemma scaled_iff neg d k x : (0 <= d)%Z -> nearest neg d k x <-> f32_of_scaled neg d k = x.
Proof.
  intros H. split.
  - intros N. exact (nearest_fun _ _ _ _ _ _ _ eq_refl (scaled_nearest neg d k H) N).
  - intros <-. apply scaled_nearest, H.
Qed.

(** ** A positive float *)
Section Float.
  Variables (m : positive) (e : Z).
  Hypothesis V : valid_binary 24 128 (S754_finite false m e) = true.
  Notation v := (F2R (Defs.Float radix2 (Zpos m) e)).

  Lemma v_format : generic_format radix2 (FLT_exp (-149) 24) v.
  Proof.
    assert (E : v = B2R (@SF2B 24 128 (S754_finite false m e) V)) by (rewrite B2R_SF2B; reflexivity).
    rewrite E. apply (generic_format_B2R 24 128).
  Qed.
  Lemma v_round : round32 v = v.
  Proof. apply round_generic; [auto with typeclass_instances|exact v_format]. Qed.
  Lemma v_bound : v < bpow radix2 128.
  Proof.
    assert (E : v = B2R (@SF2B 24 128 (S754_finite false m e) V)) by (rewrite B2R_SF2B; reflexivity).
    eapply Rle_lt_trans; [apply Rle_abs|]. rewrite E. apply abs_B2R_lt_emax.
  Qed.
  Lemma v_pos : 0 < v.
  Proof. apply F2R_gt_0. reflexivity. Qed.

  (** Being nearest is being rounded. *)
  Lemma nearest_iff neg d k : valid_binary 24 128 (S754_finite neg m e) = true ->
    nearest neg d k (S754_finite neg m e) <-> round32 (value d k) = v.
  Proof.
    intros Vn. assert (Ev : SF2R radix2 (S754_finite neg m e) = if neg then - v else v).
    { cbn [SF2R]. destruct neg; cbn [cond_Zopp]; [|reflexivity]. change (Z.neg m) with (- Zpos m)%Z. apply F2R_Zopp. }
    unfold nearest. rewrite Ev. split.
    - intros (_ & F & I). destruct (Rlt_dec (Rabs (round32 (value d k))) (bpow radix2 128)) as [L|L].
      + destruct (F L) as (_ & _ & E). destruct neg; lra.
      + specialize (I L). discriminate I.
    - intros ->. split; [exact Vn|]. split; [|intros L; exfalso; apply L; rewrite Rabs_pos_eq by (apply Rlt_le, v_pos); exact v_bound].
      intros _. split; [reflexivity|]. split; [reflexivity|]. destruct neg; reflexivity.
  Qed.
  Lemma rounds_iff d k : (0 <= d)%Z -> rounds_to m e d k = true <-> round32 (value d k) = v.
  Proof.
    intros H. rewrite <- (nearest_iff false d k V), (scaled_iff false d k _ H). unfold rounds_to, same_f32.
    destruct (f32_of_scaled false d k) as [s|s| |s m' e']; try (split; discriminate).
    rewrite !Bool.andb_true_iff, Pos.eqb_eq, Z.eqb_eq. split.
    - intros [[S ->] ->]. apply Bool.eqb_prop in S. subst. reflexivity.
    - intros E. injection E as -> -> ->. auto.
  Qed.
  Lemma rounds_between a k b l c j : round32 (value a k) = v -> round32 (value b l) = v ->
    value a k <= value c j <= value b l -> round32 (value c j) = v.
  Proof.
    intros A B [L1 L2]. apply Rle_antisym; [rewrite <- B|rewrite <- A]; apply round32_le; assumption.
  Qed.
  Lemma rounds_between_v a k c j : round32 (value a k) = v -> value a k <= value c j <= v \/ v <= value c j <= value a k ->
    round32 (value c j) = v.
  Proof.
    intros A [[L1 L2]|[L1 L2]]; apply Rle_antisym; first [rewrite <- A; apply round32_le; assumption|
      apply Rle_trans with (round32 v); [|apply Req_le, v_round]; apply round32_le; assumption|
      apply Rle_trans with (round32 v); [apply Req_le; symmetry; exact v_round|]; apply round32_le; assumption].
  Qed.

  (** ** [v / 10^k = num k / den k] *)
  Lemma den_pos k : (0 < den e k)%Z.
  Proof. unfold den. apply Z.mul_pos_pos; apply Z.pow_pos_nonneg; lia. Qed.
  Lemma num_den k : IZR (num m e k) = v / bpow radix10 k * IZR (den e k).
  Proof.
    unfold num, den, F2R. cbn [Fnum Fexp]. rewrite !mult_IZR, !pow10 by lia.
    assert (P2 : forall n, (0 <= n)%Z -> IZR (2 ^ n) = bpow radix2 n) by (intros n Hn; change (2 ^ n)%Z with (Zpower radix2 n); apply IZR_Zpower; exact Hn).
    rewrite !P2 by lia.
    replace (Z.max e 0) with (e + Z.max (- e) 0)%Z by lia.
    replace (Z.max (- k) 0) with (- k + Z.max k 0)%Z by lia.
    rewrite !bpow_plus, !bpow_opp. unfold Rdiv. ring.
  Qed.
  Lemma quotient k : value (num m e k / den e k) k <= v < value (num m e k / den e k + 1) k.
  Proof.
    pose proof (den_pos k) as D. pose proof (bpow10_pos k) as B. apply IZR_lt in D.
    pose proof (Z.div_mod (num m e k) (den e k)) as E. specialize (E ltac:(pose proof (den_pos k); lia)).
    pose proof (Z.mod_pos_bound (num m e k) (den e k) (den_pos k)) as [M1 M2].
    set (q := (num m e k / den e k)%Z) in *. set (r := (num m e k mod den e k)%Z) in *.
    assert (Ev : v = (IZR q + IZR r / IZR (den e k)) * bpow radix10 k).
    { pose proof (num_den k) as Q. rewrite E, plus_IZR, mult_IZR in Q.
      assert (v = (IZR (den e k) * IZR q + IZR r) / IZR (den e k) * bpow radix10 k) as -> by (rewrite Q; field; split; lra).
      field. lra. }
    apply IZR_le in M1. apply IZR_lt in M2.
    assert (F0 : 0 <= IZR r / IZR (den e k)) by (apply Rmult_le_pos; [exact M1|apply Rlt_le, Rinv_0_lt_compat; exact D]).
    assert (F1 : IZR r / IZR (den e k) < 1) by (apply Rmult_lt_reg_r with (IZR (den e k)); [exact D|]; unfold Rdiv; rewrite Rmult_assoc, Rinv_l, Rmult_1_r, Rmult_1_l by lra; exact M2).
    unfold value. rewrite plus_IZR. rewrite Ev. split; [apply Rmult_le_compat_r; lra|apply Rmult_lt_compat_r; lra].
  Qed.
  Lemma quotient_nonneg k : (0 <= num m e k / den e k)%Z.
  Proof.
    apply Z.div_pos; [|apply den_pos]. unfold num. apply Z.mul_nonneg_nonneg; [apply Z.mul_nonneg_nonneg; [lia|]|]; apply Z.pow_nonneg; lia.
  Qed.
  Lemma half k : (den e k <= 2 * (num m e k mod den e k))%Z <->
    value (num m e k / den e k + 1) k - v <= v - value (num m e k / den e k) k.
  Proof.
    pose proof (den_pos k) as D. pose proof (bpow10_pos k) as B. apply IZR_lt in D.
    pose proof (Z.div_mod (num m e k) (den e k)) as E. specialize (E ltac:(pose proof (den_pos k); lia)).
    set (q := (num m e k / den e k)%Z) in *. set (r := (num m e k mod den e k)%Z) in *.
    assert (Ev : v = (IZR q + IZR r / IZR (den e k)) * bpow radix10 k).
    { pose proof (num_den k) as Q. rewrite E, plus_IZR, mult_IZR in Q.
      assert (v = (IZR (den e k) * IZR q + IZR r) / IZR (den e k) * bpow radix10 k) as -> by (rewrite Q; field; split; lra).
      field. lra. }
    unfold value. rewrite plus_IZR, Ev.
    assert (X : forall t, (IZR q + 1) * bpow radix10 k - (IZR q + t) * bpow radix10 k <= (IZR q + t) * bpow radix10 k - IZR q * bpow radix10 k <-> 1 <= 2 * t).
    { intros t. split; intros H.
      - apply Rmult_le_reg_r with (bpow radix10 k); [exact B|]. lra.
      - apply Rmult_le_compat_r with (r := bpow radix10 k) in H; lra. }
    rewrite X. split; intros H.
    - apply IZR_le in H. rewrite mult_IZR in H. apply Rmult_le_reg_r with (IZR (den e k)); [exact D|].
      unfold Rdiv. rewrite <- !Rmult_assoc, (Rmult_assoc _ (/ _)), Rinv_l by lra. lra.
    - apply le_IZR. rewrite mult_IZR. apply Rmult_le_compat_r with (r := IZR (den e k)) in H; [|lra].
      unfold Rdiv in H. rewrite <- !Rmult_assoc, (Rmult_assoc _ (/ _)), Rinv_l in H by lra. lra.
  Qed.

  (** ** The order of magnitude *)
  Lemma canonical_v : canonical radix2 (FLT_exp (-149) 24) (Defs.Float radix2 (Zpos m) e).
  Proof.
    pose proof V as B. cbn [valid_binary] in B. unfold SpecFloat.bounded in B. apply Bool.andb_true_iff in B as [B _].
    exact (canonical_canonical_mantissa 24 128 false m e B).
  Qed.
  Lemma e_facts : (-149 <= e)%Z /\ (Zpos m < 2 ^ 24)%Z /\ (e = -149 \/ 2 ^ 23 <= Zpos m)%Z.
  Proof.
    pose proof canonical_v as C. unfold canonical, cexp, FLT_exp in C. cbn [Fexp] in C.
    pose proof (mag_F2R_Zdigits radix2 (Zpos m) e ltac:(discriminate)) as M. rewrite M in C.
    destruct (Zdigits_correct radix2 (Zpos m)) as [D1 D2]. change (Z.abs (Zpos m)) with (Zpos m) in D1, D2.
    change (Zpower radix2) with (Z.pow 2) in D1, D2. set (g := Zdigits radix2 (Zpos m)) in *.
    assert (G : (0 < g)%Z) by (apply Zdigits_gt_0; discriminate).
    assert (G' : (g <= 24)%Z) by lia.
    split; [lia|]. split.
    - eapply Z.lt_le_trans; [exact D2|]. apply Z.pow_le_mono_r; lia.
    - destruct (Z.eq_dec g 24) as [E|E]; [right|left; lia]. rewrite E in D1. exact D1.
  Qed.
  Lemma small k : (num m e k < den e k)%Z <-> v < bpow radix10 k.
  Proof.
    pose proof (bpow10_pos k) as B. pose proof (den_pos k) as D. apply IZR_lt in D. split; intros H.
    - apply IZR_lt in H. rewrite num_den in H. rewrite <- (Rmult_1_l (IZR (den e k))) in H at 2. apply Rmult_lt_reg_r in H; [|exact D].
      apply Rmult_lt_compat_r with (r := bpow radix10 k) in H; [|exact B]. unfold Rdiv in H. rewrite Rmult_assoc, Rinv_l in H by lra. lra.
    - apply lt_IZR. rewrite num_den. rewrite <- (Rmult_1_l (IZR (den e k))) at 2. apply Rmult_lt_compat_r; [exact D|].
      apply Rmult_lt_reg_r with (bpow radix10 k); [exact B|]. unfold Rdiv. rewrite Rmult_assoc, Rinv_l by lra. lra.
  Qed.
  Lemma magnitude_spec fuel : forall k, bpow radix10 (k - 1) <= v -> v < bpow radix10 (k + Z.of_nat fuel) ->
    bpow radix10 (magnitude m e fuel k - 1) <= v < bpow radix10 (magnitude m e fuel k).
  Proof.
    induction fuel as [|f IH]; intros k L U; cbn [magnitude].
    - split; [exact L|]. replace k with (k + Z.of_nat 0)%Z by lia. exact U.
    - destruct (Z.ltb_spec (num m e k) (den e k)) as [H|H].
      + split; [exact L|]. apply small. exact H.
      + apply IH.
        * replace (k + 1 - 1)%Z with k by lia. destruct (Rle_lt_dec (bpow radix10 k) v) as [X|X]; [exact X|]. apply small in X. lia.
        * replace (k + 1 + Z.of_nat f)%Z with (k + Z.of_nat (S f))%Z by lia. exact U.
  Qed.
  Definition K : Z := magnitude m e 90 (-45).
  Lemma K_spec : bpow radix10 (K - 1) <= v < bpow radix10 K.
  Proof.
    apply magnitude_spec.
    - apply Rle_trans with (bpow radix2 (-149)).
      + change (-45 - 1)%Z with (- (46))%Z. change (-149)%Z with (- (149))%Z. rewrite !bpow_opp.
        apply Rinv_le; [apply bpow_gt_0|]. rewrite <- !IZR_Zpower by lia. apply IZR_le. vm_compute. discriminate.
      + pose proof e_facts as [E _]. unfold F2R. cbn [Fnum Fexp]. rewrite <- (Rmult_1_l (bpow radix2 (-149))).
        apply Rmult_le_compat; [lra|apply bpow_ge_0|apply IZR_le; lia|apply bpow_le; exact E].
    - apply Rlt_le_trans with (1 := v_bound). rewrite <- !IZR_Zpower by lia. apply IZR_le. vm_compute. discriminate.
  Qed.

  (** ** Decimals with [n] digits *)
  Notation q k := (num m e k / den e k)%Z.
  Lemma dichotomy n d' k' : (1 <= n)%Z -> (0 < d' < 10 ^ n)%Z ->
    value d' k' <= value (q (K - n)) (K - n) \/ value (q (K - n) + 1) (K - n) <= value d' k'.
  Proof.
    intros Hn Hd. destruct K_spec as [K1 K2]. destruct (quotient (K - n)) as [Q1 Q2].
    destruct (Rle_lt_dec (bpow radix10 (K - 1)) (value d' k')) as [L|L].
    - assert (Hk : (K - n <= k')%Z).
      { assert (X : bpow radix10 (K - 1) < bpow radix10 (n + k')).
        { eapply Rle_lt_trans; [exact L|]. unfold value. rewrite bpow_plus. apply Rmult_lt_compat_r; [apply bpow_gt_0|].
          rewrite <- pow10 by lia. apply IZR_lt. lia. }
        apply lt_bpow in X. lia. }
      rewrite <- (value_shift d' k' (k' - (K - n))) by lia. replace (k' - (k' - (K - n)))%Z with (K - n)%Z by lia.
      set (D := (d' * 10 ^ (k' - (K - n)))%Z). pose proof (bpow10_pos (K - n)) as B.
      destruct (Z.le_gt_cases D (q (K - n))) as [H|H]; [left|right]; (apply Rmult_le_compat_r; [lra|apply IZR_le; lia]).
    - left. apply Rle_trans with (bpow radix10 (K - 1)); [lra|].
      assert (E : bpow radix10 (K - 1) = value (10 ^ (n - 1)) (K - n)).
      { unfold value. rewrite pow10, <- bpow_plus by lia. f_equal. lia. }
      rewrite E. rewrite E in K1. apply Rmult_le_compat_r; [apply bpow_ge_0|]. apply IZR_le.
      assert (X : value (10 ^ (n - 1)) (K - n) < value (q (K - n) + 1) (K - n)) by lra.
      unfold value in X. apply Rmult_lt_reg_r in X; [|apply bpow_gt_0]. apply lt_IZR in X. lia.
  Qed.
  Lemma some_reads n d' k' : (1 <= n)%Z -> (0 < d' < 10 ^ n)%Z -> round32 (value d' k') = v ->
    (value d' k' <= value (q (K - n)) (K - n) /\ rounds_to m e (q (K - n)) (K - n) = true) \/
    (value (q (K - n) + 1) (K - n) <= value d' k' /\ rounds_to m e (q (K - n) + 1) (K - n) = true).
  Proof.
    intros Hn Hd R. destruct (quotient (K - n)) as [Q1 Q2]. pose proof (quotient_nonneg (K - n)) as N.
    destruct (dichotomy n d' k' Hn Hd) as [H|H]; [left|right]; (split; [exact H|]; apply rounds_iff; [lia|]; apply (rounds_between_v d' k' _ _ R)); lra.
  Qed.

  (** ** Nine digits suffice *)
  Lemma close_reads c k : Rabs (value c k - v) < bpow radix2 (e - 2) -> round32 (value c k) = v.
  Proof.
    intros H. pose proof v_format as F. pose proof v_pos as P.
    assert (U : ulp radix2 (FLT_exp (-149) 24) v = bpow radix2 e) by (apply ulp_canonical; [discriminate|exact canonical_v]).
    assert (E2 : bpow radix2 e = 4 * bpow radix2 (e - 2)).
    { replace e with (2 + (e - 2))%Z at 1 by lia. rewrite bpow_plus. change (bpow radix2 2) with 4. reflexivity. }
    assert (E1 : bpow radix2 (e - 1) = 2 * bpow radix2 (e - 2)).
    { replace (e - 1)%Z with (1 + (e - 2))%Z at 1 by lia. rewrite bpow_plus. change (bpow radix2 1) with 2. reflexivity. }
    pose proof (bpow_gt_0 radix2 (e - 2)) as B.
    apply Rabs_lt_inv in H. apply Rle_antisym.
    - apply round_N_le_midp; [auto with typeclass_instances|exact F|]. rewrite succ_eq_pos by lra. rewrite U. lra.
    - apply round_N_ge_midp; [auto with typeclass_instances|exact F|]. rewrite pred_eq_pos by lra. unfold pred_pos.
      destruct (Req_bool v _).
      + assert (M : (e - 1 <= FLT_exp (-149) 24 (mag radix2 v - 1))%Z).
        { pose proof canonical_v as C. unfold canonical, cexp in C. cbn [Fexp] in C. unfold FLT_exp in *. lia. }
        apply (bpow_le radix2) in M. lra.
      + rewrite U. lra.
  Qed.
  Lemma nine_digits : rounds_to m e (q (K - 9)) (K - 9) = true \/ rounds_to m e (q (K - 9) + 1) (K - 9) = true.
  Proof.
    destruct (quotient (K - 9)) as [Q1 Q2]. pose proof (quotient_nonneg (K - 9)) as N. destruct K_spec as [K1 _].
    assert (S : bpow radix10 (K - 9) < 2 * bpow radix2 (e - 2)).
    { assert (A : bpow radix10 (K - 9) * 100000000 <= v).
      { change 100000000 with (bpow radix10 8). rewrite <- bpow_plus. replace (K - 9 + 8)%Z with (K - 1)%Z by lia. exact K1. }
      assert (C : v < 16777216 * bpow radix2 e).
      { unfold F2R. cbn [Fnum Fexp]. apply Rmult_lt_compat_r; [apply bpow_gt_0|]. apply IZR_lt. apply e_facts. }
      assert (E2 : bpow radix2 e = 4 * bpow radix2 (e - 2)).
      { replace e with (2 + (e - 2))%Z at 1 by lia. rewrite bpow_plus. change (bpow radix2 2) with 4. reflexivity. }
      pose proof (bpow_gt_0 radix2 (e - 2)). lra. }
    assert (D : value (q (K - 9) + 1) (K - 9) = value (q (K - 9)) (K - 9) + bpow radix10 (K - 9)).
    { unfold value. rewrite plus_IZR. ring. }
    destruct (Rle_lt_dec (v - value (q (K - 9)) (K - 9)) (bpow radix10 (K - 9) / 2)) as [H|H]; [left|right];
      (apply rounds_iff; [lia|]; apply close_reads; apply Rabs_lt; lra).
  Qed.

  (** ** The loop *)
  Definition none (k : Z) : Prop := rounds_to m e (q k) k = false /\ rounds_to m e (q k + 1) k = false.
  Definition chosen (k d : Z) : Prop :=
    rounds_to m e d k = true /\
    ((d = q k /\ (rounds_to m e (q k + 1) k = true -> ~ value (q k + 1) k - v <= v - value (q k) k)) \/
     (d = (q k + 1)%Z /\ (rounds_to m e (q k) k = true -> value (q k + 1) k - v <= v - value (q k) k))).
  Lemma loop fuel : forall k, (k <= K - 1)%Z -> (k - Z.of_nat fuel <= K - 9)%Z -> (forall j, (k < j <= K - 1)%Z -> none j) ->
    exists d k', shortest m e fuel k = (d, k') /\ (K - 9 <= k' <= K - 1)%Z /\ (forall j, (k' < j <= K - 1)%Z -> none j) /\ chosen k' d.
  Proof.
    induction fuel as [|f IH]; intros k Hk Hf Hn; cbn [shortest].
    all: assert (Hk9 : (K - 9 <= k)%Z) by
      (destruct (Z.le_gt_cases (K - 9) k) as [G|G]; [exact G|exfalso]; destruct (Hn (K - 9)%Z ltac:(lia)) as [N1 N2];
       destruct nine_digits; congruence).
    all: destruct (rounds_to m e (q k + 1) k) eqn:U; cbn [andb];
      [destruct (rounds_to m e (q k) k) eqn:D; cbn [negb orb];
       [destruct (Z.leb_spec (den e k) (2 * (num m e k mod den e k))) as [H|H]|]|
       destruct (rounds_to m e (q k) k) eqn:D].
    (* both, up *)
    all: try (exists (q k + 1)%Z, k; split; [reflexivity|]; split; [lia|]; split; [exact Hn|]; split; [exact U|]; right; split; [reflexivity|];
              intros X; first [apply half; exact H|rewrite D in X; discriminate X]).
    all: try (exists (q k), k; split; [reflexivity|]; split; [lia|]; split; [exact Hn|]; split; [exact D|]; left; split; [reflexivity|];
              intros X; first [intros Y; apply half in Y; lia|rewrite U in X; discriminate X]).
    - exfalso. assert (k = K - 9)%Z as -> by lia. destruct nine_digits; congruence.
    - apply IH; [lia|lia|]. intros j Hj. destruct (Z.eq_dec j k) as [->|J]; [split; assumption|apply Hn; lia].
  Qed.

  (** ** The result *)
  Lemma lt_pow n : (0 <= n)%Z -> (q (K - n) < 10 ^ n)%Z.
  Proof.
    intros Hn. destruct (quotient (K - n)) as [Q1 _]. destruct K_spec as [_ K2]. apply lt_IZR. rewrite pow10 by exact Hn.
    apply Rmult_lt_reg_r with (bpow radix10 (K - n)); [apply bpow_gt_0|]. rewrite <- bpow_plus. replace (n + (K - n))%Z with K by lia.
    unfold value in Q1. lra.
  Qed.
  Definition best (d k : Z) : Prop :=
    (0 < d < 10 ^ 9)%Z /\ round32 (value d k) = v /\
    forall d' k', (0 < d')%Z -> round32 (value d' k') = v ->
      no_longer d d' /\ (no_longer d' d -> Rabs (value d k - v) <= Rabs (value d' k' - v) /\
        (Rabs (value d k - v) = Rabs (value d' k' - v) -> value d' k' <= value d k)).
  Lemma zero_not_read k : rounds_to m e 0 k = false.
  Proof.
    destruct (rounds_to m e 0 k) eqn:E; [|reflexivity]. apply rounds_iff in E; [|lia]. exfalso.
    unfold value in E. rewrite Rmult_0_l in E. unfold round32 in E. rewrite round_0 in E by auto with typeclass_instances.
    pose proof v_pos. lra.
  Qed.
  Lemma chosen_pos k d : chosen k d -> (0 < d)%Z.
  Proof.
    intros [R C]. pose proof (quotient_nonneg k). destruct C as [[-> _]|[-> _]]; [|lia].
    destruct (Z.eq_dec (q k) 0) as [E|E]; [|lia]. rewrite E, zero_not_read in R. discriminate R.
  Qed.
  Lemma best_below d k : (K - 9 <= k <= K - 1)%Z -> (forall j, (k < j <= K - 1)%Z -> none j) -> chosen k d ->
    round32 (value 1 K) <> v -> best d k.
  Proof.
    intros Hk Hn C NK. pose proof (chosen_pos k d C) as P. pose (n := (K - k)%Z). assert (En : k = (K - n)%Z) by (unfold n; lia).
    assert (R : round32 (value d k) = v) by (apply rounds_iff; [lia|]; apply C).
    assert (Ld : (d < 10 ^ n)%Z).
    { pose proof (lt_pow n ltac:(lia)) as L. rewrite <- En in L. destruct C as [_ [[-> _]|[-> _]]]; [exact L|].
      destruct (Z.eq_dec (q k + 1) (10 ^ n)) as [E|E]; [|lia]. exfalso. apply NK. rewrite E in R. rewrite <- R. f_equal.
      rewrite En at 1. rewrite <- (value_shift 1 K n) by lia. f_equal. lia. }
    split; [split; [exact P|]; eapply Z.lt_le_trans; [exact Ld|apply Z.pow_le_mono_r; lia]|].
    split; [exact R|]. intros d' k' P' R'. split.
    - intros N HN L. destruct (Z.le_gt_cases n N) as [H|H]; [eapply Z.lt_le_trans; [exact Ld|apply Z.pow_le_mono_r; lia]|]. exfalso.
      assert (1 <= N)%Z by (destruct (Z.eq_dec N 0) as [->|]; [change (10 ^ 0)%Z with 1%Z in L; lia|lia]).
      destruct (Hn (K - N)%Z ltac:(lia)) as [N1 N2].
      destruct (some_reads N d' k' ltac:(lia) (conj P' L) R') as [[_ X]|[_ X]]; congruence.
    - intros L. specialize (L n ltac:(lia) Ld). destruct (quotient k) as [Q1 Q2].
      destruct (some_reads n d' k' ltac:(lia) (conj P' L) R') as [[H X]|[H X]]; rewrite <- En in H, X; destruct C as [_ [[-> Y]|[-> Y]]].
      + rewrite !Rabs_left1 by lra. lra.
      + specialize (Y X). rewrite Rabs_pos_eq, Rabs_left1 by lra. lra.
      + specialize (Y X). rewrite Rabs_left1, Rabs_pos_eq by lra. lra.
      + rewrite !Rabs_pos_eq by lra. lra.
  Qed.

  (** The upper end of the interval is a power of ten: no other number with one
      digit is in the interval. *)
  Lemma interval_width a k b l : round32 (value a k) = v -> round32 (value b l) = v ->
    value b l - value a k <= bpow radix2 e.
  Proof.
    intros A B.
    assert (U : ulp radix2 (FLT_exp (-149) 24) v = bpow radix2 e) by (apply ulp_canonical; [discriminate|exact canonical_v]).
    pose proof v_format as F. pose proof v_pos as P.
    assert (B' : value b l <= (v + succ radix2 (FLT_exp (-149) 24) v) / 2).
    { destruct (Rle_lt_dec (value b l) ((v + succ radix2 (FLT_exp (-149) 24) v) / 2)) as [H|H]; [exact H|exfalso].
      assert (X : succ radix2 (FLT_exp (-149) 24) v <= round32 (value b l)).
      { apply round_N_ge_midp; [auto with typeclass_instances|apply generic_format_succ; [auto with typeclass_instances|exact F]|].
        rewrite pred_succ by (auto with typeclass_instances). lra. }
      rewrite B, succ_eq_pos, U in X by lra. pose proof (bpow_gt_0 radix2 e). lra. }
    assert (A' : (v + pred radix2 (FLT_exp (-149) 24) v) / 2 <= value a k).
    { destruct (Rle_lt_dec ((v + pred radix2 (FLT_exp (-149) 24) v) / 2) (value a k)) as [H|H]; [exact H|exfalso].
      assert (X : round32 (value a k) <= pred radix2 (FLT_exp (-149) 24) v).
      { apply round_N_le_midp; [auto with typeclass_instances|apply generic_format_pred; [auto with typeclass_instances|exact F]|].
        rewrite succ_pred by (auto with typeclass_instances). lra. }
      rewrite A in X. pose proof (pred_lt_id radix2 (FLT_exp (-149) 24) v ltac:(lra)). lra. }
    assert (G : v - bpow radix2 e <= pred radix2 (FLT_exp (-149) 24) v).
    { rewrite pred_eq_pos by lra. unfold pred_pos. destruct (Req_bool v _).
      - assert (M : (FLT_exp (-149) 24 (mag radix2 v - 1) <= e)%Z).
        { pose proof canonical_v as C. unfold canonical, cexp in C. cbn [Fexp] in C. unfold FLT_exp in *. lia. }
        apply (bpow_le radix2) in M. lra.
      - rewrite U. lra. }
    rewrite succ_eq_pos, U in B' by lra. lra.
  Qed.

  Lemma value_ten : value 1 K = 10 * value 1 (K - 1).
  Proof.
    unfold value. replace K with (1 + (K - 1))%Z at 1 by lia. rewrite bpow_plus. change (bpow radix10 1) with 10. ring.
  Qed.
  Lemma not_nine : round32 (value 1 K) = v -> round32 (value 9 (K - 1)) = v -> False.
  Proof.
    intros T N. pose proof (interval_width 9 (K - 1) 1 K N T) as W.
    assert (E9 : value 9 (K - 1) = 9 * value 1 (K - 1)) by (unfold value; ring).
    destruct K_spec as [_ K2]. rewrite value_ten, E9 in W.
    assert (K2' : v < 10 * bpow radix2 e).
    { apply Rlt_le_trans with (1 := K2). replace (bpow radix10 K) with (value 1 K) by (unfold value; ring). rewrite value_ten. lra. }
    assert (M : (Zpos m < 10)%Z).
    { apply lt_IZR. apply Rmult_lt_reg_r with (bpow radix2 e); [apply bpow_gt_0|]. exact K2'. }
    destruct e_facts as (_ & _ & [E|E]); [|change (2 ^ 23)%Z with 8388608%Z in E; lia].
    apply rounds_iff in T; [|lia]. apply rounds_iff in N; [|lia]. unfold K in T, N. clear - T N M E. revert T N. rewrite E.
    assert (C : In m [1; 2; 3; 4; 5; 6; 7; 8; 9]%positive).
    { assert (H : forall p, (Zpos p < 10)%Z -> In p [1; 2; 3; 4; 5; 6; 7; 8; 9]%positive).
      { intros p Hp. destruct p as [[[[]|[]|]|[[]|[]|]|]|[[[]|[]|]|[[]|[]|]|]|]; try (exfalso; lia); cbn [In]; tauto. }
      exact (H m M). }
    cbn [In] in C. decompose [or] C; try contradiction; subst m; intros T N; vm_compute in T; try discriminate T; vm_compute in N; discriminate N.
  Qed.
  Lemma best_power : round32 (value 1 K) = v -> best 1 K.
  Proof.
    intros T. split; [lia|]. split; [exact T|]. intros d' k' P' R'. split.
    - intros n Hn L. destruct (Z.eq_dec n 0) as [->|E]; [change (10 ^ 0)%Z with 1%Z in L; lia|].
      apply Z.lt_le_trans with (10 ^ 1)%Z; [reflexivity|]. apply Z.pow_le_mono_r; lia.
    - intros L. specialize (L 1%Z ltac:(lia) ltac:(reflexivity)). change (10 ^ 1)%Z with 10%Z in L.
      destruct K_spec as [_ K2]. assert (E1 : value 1 K = bpow radix10 K) by (unfold value; ring).
      destruct (Rle_lt_dec (value 1 K) (value d' k')) as [H|H]; [rewrite !Rabs_pos_eq by lra; lra|]. exfalso.
      assert (Hk : (k' <= K - 1)%Z).
      { destruct (Z.le_gt_cases k' (K - 1)) as [G|G]; [exact G|exfalso]. rewrite E1 in H.
        assert (X : bpow radix10 K <= value d' k'); [|lra]. unfold value. rewrite <- (Rmult_1_l (bpow radix10 K)).
        apply Rmult_le_compat; [lra|apply bpow_ge_0|apply IZR_le; lia|apply bpow_le; lia]. }
      assert (Hv : value d' k' <= value 9 (K - 1)).
      { unfold value. apply Rmult_le_compat; [apply IZR_le; lia|apply bpow_ge_0|apply IZR_le; lia|apply bpow_le; exact Hk]. }
      apply (not_nine T). assert (E9 : value 9 (K - 1) = 9 * value 1 (K - 1)) by (unfold value; ring).
      pose proof value_ten as Ten. pose proof (value_pos 1 (K - 1) ltac:(lia)).
      apply (rounds_between d' k' 1 K); [exact R'|exact T|lra].
  Qed.

  Theorem shortest_best : exists d k, shortest_digits m e = (d, k) /\ best d k.
  Proof.
    unfold shortest_digits, scaling. fold K. destruct (rounds_to m e 1 K) eqn:T.
    - apply rounds_iff in T as T'; [|lia]. exists 1%Z, K. split; [|exact (best_power T')].
      replace (K + 1 - 1)%Z with K by lia. cbn [shortest].
      assert (Z0 : q K = 0%Z). { apply Z.div_small. split; [|apply small, K_spec]. unfold num. apply Z.mul_nonneg_nonneg; [apply Z.mul_nonneg_nonneg; [lia|]|]; apply Z.pow_nonneg; lia. }
      rewrite Z0, zero_not_read. change (0 + 1)%Z with 1%Z. rewrite T. reflexivity.
    - destruct (loop 16 (K - 1) ltac:(lia) ltac:(lia)) as (d & k & E & Hk & Hn & C); [intros j Hj; lia|].
      exists d, k. split; [exact E|]. apply best_below; try assumption. intros X. apply rounds_iff in X; [congruence|lia].
  Qed.
End Float.
