(** Proofs for C86: reading the texts of floats. *)
From Coq Require Import String ZArith Reals Lia Lra Floats.SpecFloat.
From Flocq Require Import Core.Core IEEE754.BinarySingleNaN.
From Verif Require Import StrFacts FloatTextSpec FloatTextProofs LexPropSpec EqSpec DisplayProofs ImageProofs LexProps LexProps2 LexProps3.
Local Open Scope Z_scope.
Local Open Scope list_scope.

(** ** Texts *)
Lemma cut_none c s : ~ In c s -> cut c s = (s, None).
Proof.
  induction s as [|x s IH]; intros H; [reflexivity|]. cbn [cut].
  destruct (N.eqb_spec x c) as [->|]; [exfalso; apply H; left; reflexivity|]. rewrite IH by (intros I; apply H; right; exact I). reflexivity.
Qed.
Lemma cut_some c a b : ~ In c a -> cut c (a ++ c :: b) = (a, Some b).
Proof.
  induction a as [|x a IH]; intros H; cbn [app cut].
  - rewrite N.eqb_refl. reflexivity.
  - destruct (N.eqb_spec x c) as [->|]; [exfalso; apply H; left; reflexivity|]. rewrite IH by (intros I; apply H; right; exact I). reflexivity.
Qed.
Lemma number_digits s : s <> [] -> Forall digit s -> number s = Some (dec s).
Proof.
  intros H F. unfold number. assert (E : forallb (fun c => (48 <=? c)%N && (c <=? 57)%N) s = true).
  { apply forallb_forall. intros c I. rewrite Forall_forall in F. specialize (F c I). unfold digit in F.
    apply Bool.andb_true_iff. rewrite !N.leb_le. lia. }
  rewrite E. destruct s; [contradiction|reflexivity].
Qed.
Lemma number_not s c : In c s -> ~ digit c -> number s = None.
Proof.
  intros I D. unfold number. assert (E : forallb (fun c => (48 <=? c)%N && (c <=? 57)%N) s = false); [|rewrite E; reflexivity].
  destruct (forallb (fun c => (48 <=? c)%N && (c <=? 57)%N) s) eqn:E; [|reflexivity]. rewrite forallb_forall in E. specialize (E c I). apply Bool.andb_true_iff in E. rewrite !N.leb_le in E.
  exfalso. apply D. unfold digit. lia.
Qed.
Lemma digits_not c s : Forall digit s -> ~ digit c -> ~ In c s.
Proof. intros F D I. rewrite Forall_forall in F. exact (D (F c I)). Qed.
Lemma not_e : ~ digit 101%N. Proof. unfold digit. lia. Qed.
Lemma not_dot : ~ digit 46%N. Proof. unfold digit. lia. Qed.
Lemma not_minus : ~ digit 45%N. Proof. unfold digit. lia. Qed.

Notation zero_str := (@cons char 48%N (@nil char)).
Definition point (fs : option str) : str := match fs with Some f => 46%N :: f | None => [] end.
Definition after (fs : option str) : str := match fs with Some f => f | None => [] end.
Definition exponent (z : option Z) : str := match z with Some z => 101%N :: i32_text z | None => [] end.

Lemma minus_sign s c r : c <> 45%N -> minus (sign_str s ++ c :: r) = (s, c :: r).
Proof.
  intros H. destruct s; cbn [sign_str lit app minus]; [reflexivity|]. destruct (N.eqb_spec c 45); [contradiction|reflexivity].
Qed.
Lemma minus_text z : exists n u, minus (i32_text z) = (n, u) /\ number u = Some (Z.abs z) /\ signed n (Z.abs z) = z.
Proof.
  destruct (i32_text_spells z) as (neg & ds & E & Hn & Hd & _ & Hs & Hz). rewrite E.
  assert (0 <= dec ds) by (apply dec_nonneg; exact Hd).
  exists neg, ds. split; [|split].
  - destruct neg; [reflexivity|]. cbn [app]. destruct ds as [|c ds]; [contradiction|]. inversion Hd as [|? ? D _]; subst. cbn [minus].
    destruct (N.eqb_spec c 45) as [->|]; [exfalso; exact (not_minus D)|reflexivity].
  - rewrite number_digits by assumption. f_equal. unfold signed in Hz. destruct neg; lia.
  - unfold signed in *. destruct neg; [specialize (Hs eq_refl)|]; lia.
Qed.
Lemma read_parts s ip fs z : ip <> [] -> Forall digit ip -> Forall digit (after fs) ->
  read_decimal (sign_str s ++ ip ++ point fs ++ exponent z) =
  Some (s, dec (ip ++ after fs), match z with Some z => z | None => 0 end - Z.of_nat (length (after fs))).
Proof.
  intros Hn Hi Hf. unfold read_decimal. destruct ip as [|c ip]; [contradiction|].
  assert (Dc : digit c) by (inversion Hi; assumption).
  cbn [app]. rewrite minus_sign by (intros ->; exact (not_minus Dc)).
  change (c :: ip ++ point fs ++ exponent z) with ((c :: ip) ++ point fs ++ exponent z).
  assert (Ne : ~ In 101%N ((c :: ip) ++ point fs)).
  { intros I. apply in_app_or in I as [I|I]; [exact (digits_not _ _ Hi not_e I)|].
    destruct fs as [f|]; [|exact I]. destruct I as [I|I]; [discriminate I|exact (digits_not _ _ Hf not_e I)]. }
  assert (Cut : cut 46%N ((c :: ip) ++ point fs) = (c :: ip, fs)).
  { destruct fs as [f|]; cbn [point]; [apply cut_some; exact (digits_not _ _ Hi not_dot)|].
    rewrite app_nil_r. apply cut_none. exact (digits_not _ _ Hi not_dot). }
  assert (Num : number ((c :: ip) ++ after fs) = Some (dec ((c :: ip) ++ after fs))).
  { apply number_digits; [discriminate|]. apply Forall_app. auto. }
  rewrite (app_assoc (c :: ip) (point fs) (exponent z)). destruct z as [z|]; cbn [exponent].
  - match goal with |- context [cut 101%N ?s] => replace (cut 101%N s) with ((c :: ip) ++ point fs, Some (i32_text z)) by (symmetry; exact (cut_some 101%N _ _ Ne)) end.
    rewrite Cut. fold (after fs). rewrite Num.
    destruct (minus_text z) as (n & u & -> & -> & ->). reflexivity.
  - match goal with |- context [cut 101%N ?s] => replace (cut 101%N s) with ((c :: ip) ++ point fs, @None str) by (symmetry; rewrite app_nil_r; exact (cut_none 101%N _ Ne)) end.
    rewrite Cut. fold (after fs). rewrite Num. do 2 f_equal.
Qed.

Lemma zd_digits n : Forall digit (zero_digits n).
Proof. unfold zero_digits. apply Forall_forall. intros c I. apply repeat_spec in I. subst. split; vm_compute; discriminate. Qed.
Lemma zd_length n : 0 <= n -> Z.of_nat (length (zero_digits n)) = n.
Proof. intros H. unfold zero_digits. rewrite repeat_length. lia. Qed.
Lemma zd_dec n : dec (zero_digits n) = 0.
Proof.
  unfold zero_digits. induction (Z.to_nat n) as [|k IH]; [reflexivity|]. cbn [repeat dec]. rewrite IH.
  change (Z.of_N c_zero - 48) with 0. lia.
Qed.

(** The text of a positive number, [d * 10^k]. *)
Lemma number_text s d k : 0 < d -> let buf := i32_text d in let exp := k + Z.of_nat (length buf) in
  (exists ip f, ip <> [] /\ Forall digit ip /\ f <> [] /\ Forall digit f /\ digits_to_dec_str buf exp = ip ++ 46%N :: f /\
     exists d' k', read_decimal (sign_str s ++ digits_to_dec_str buf exp) = Some (s, d', k') /\ 0 < d' /\ value d' k' = value d k /\
       d' = dec (ip ++ f) /\ k' = - Z.of_nat (length f)) /\
  (exists ip fs z, ip <> [] /\ Forall digit ip /\ Forall digit (after fs) /\ digits_to_exp_str buf exp = ip ++ point fs ++ exponent (Some z)) /\
  read_decimal (sign_str s ++ digits_to_exp_str buf exp) = Some (s, d, k).
Proof.
  intros Hd buf exp. destruct (i32_text_spells d) as (neg & ds & E & Hn & Hds & Hz & Hneg & Hv).
  destruct neg; [specialize (Hneg eq_refl); lia|]. cbn [app signed] in E, Hv. fold buf in E. subst ds.
  assert (D0 : digit 48%N) by (unfold digit; lia).
  split.
  - assert (X : exists ip f, ip <> [] /\ Forall digit ip /\ f <> [] /\ Forall digit f /\ digits_to_dec_str buf exp = ip ++ 46%N :: f /\
      0 < dec (ip ++ f) /\ value (dec (ip ++ f)) (- Z.of_nat (length f)) = value d k).
    { unfold digits_to_dec_str. destruct (Z.leb_spec exp 0) as [L|L]; [|destruct (Z.ltb_spec exp (Z.of_nat (length buf))) as [M|M]].
      - exists zero_str, (zero_digits (- exp) ++ buf). split; [discriminate|]. split; [auto|].
        split; [intros X; apply app_eq_nil in X as [_ X]; exact (Hn X)|]. split; [apply Forall_app; split; [apply zd_digits|exact Hds]|].
        split; [reflexivity|].
        assert (Ev : dec (zero_str ++ zero_digits (- exp) ++ buf) = d).
        { rewrite !dec_app, zd_dec. change (dec zero_str) with 0. lia. }
        rewrite Ev. split; [exact Hd|]. f_equal. rewrite app_length, Nat2Z.inj_add, zd_length by lia. unfold exp. lia.
      - exists (firstn (Z.to_nat exp) buf), (skipn (Z.to_nat exp) buf).
        split; [intros X; apply (f_equal (@length char)) in X; rewrite firstn_length in X; cbn [length] in X; lia|].
        pose proof Hds as Hds'. rewrite <- (firstn_skipn (Z.to_nat exp) buf) in Hds'. apply Forall_app in Hds' as [F1 F2].
        split; [exact F1|]. split; [intros X; apply (f_equal (@length char)) in X; rewrite skipn_length in X; cbn [length] in X; lia|].
        split; [exact F2|]. split; [reflexivity|]. rewrite firstn_skipn, <- Hv. split; [exact Hd|]. f_equal.
        rewrite skipn_length. unfold exp. lia.
      - exists (buf ++ zero_digits (exp - Z.of_nat (length buf))), zero_str.
        split; [intros X; apply app_eq_nil in X as [X _]; exact (Hn X)|]. split; [apply Forall_app; split; [exact Hds|apply zd_digits]|].
        split; [discriminate|]. split; [auto|]. split; [cbn [app]; rewrite <- app_assoc; reflexivity|].
        rewrite !dec_app, zd_dec, <- Hv. change (dec zero_str) with 0. change (Z.of_nat (length zero_str)) with 1.
        rewrite zd_length by lia. rewrite !Z.add_0_r. unfold exp. replace (k + Z.of_nat (length buf) - Z.of_nat (length buf)) with k by lia.
        split; [apply Z.mul_pos_pos; [apply Z.mul_pos_pos; [exact Hd|apply Z.pow_pos_nonneg; unfold exp in M; lia]|reflexivity]|].
        rewrite <- Z.mul_assoc, <- Z.pow_add_r by (unfold exp in M; lia). rewrite <- (value_shift d k (k + 1)) by (unfold exp in M; lia). f_equal. lia. }
    destruct X as (ip & f & H1 & H2 & H3 & H4 & H5 & H6 & H7). exists ip, f. repeat (split; [assumption|]).
    exists (dec (ip ++ f)), (- Z.of_nat (length f)). split; [|repeat split; assumption].
    rewrite H5. pose proof (read_parts s ip (Some f) None H1 H2 H4) as R. cbn [point exponent after] in R. rewrite app_nil_r in R.
    rewrite R. do 2 f_equal.
  - destruct buf as [|c r] eqn:Eb; [contradiction|]. inversion Hds as [|? ? Dc Dr]; subst c.
    assert (X : exists fs, digits_to_exp_str (x :: r) exp = [x] ++ point fs ++ exponent (Some (exp - 1)) /\ after fs = r).
    { unfold digits_to_exp_str. destruct r as [|y r].
      - exists None. split; reflexivity.
      - exists (Some (y :: r)). split; [|reflexivity]. reflexivity. }
    destruct X as (fs & Ef & Ea). split.
    + exists [x], fs, (exp - 1). split; [discriminate|]. split; [auto|]. split; [rewrite Ea; exact Dr|exact Ef].
    + rewrite Ef. rewrite (read_parts s [x] fs (Some (exp - 1))); [|discriminate|auto|rewrite Ea; exact Dr].
      rewrite Ea. cbn [app]. rewrite <- Hv. do 2 f_equal. unfold exp. cbn [length]. lia.
Qed.

(** ** The text of a float *)
Lemma valid_sign s m e : valid_binary 24 128 (S754_finite s m e) = valid_binary 24 128 (S754_finite false m e).
Proof. reflexivity. Qed.
Lemma finite_real s m e : Rabs (SF2R radix2 (S754_finite s m e)) = F2R (Defs.Float radix2 (Zpos m) e).
Proof. cbn [SF2R]. rewrite <- F2R_Zabs. destruct s; reflexivity. Qed.
Lemma finite_text s m e : valid_binary 24 128 (S754_finite s m e) = true ->
  exists d k d' k', 0 < d < 10 ^ 9 /\ shortest_text (S754_finite s m e) d k /\
    read_decimal (f32_debug (S754_finite s m e)) = Some (s, d', k') /\ 0 < d' /\ value d' k' = value d k /\
    if should_use_exponential (S754_finite false m e)
    then exists ip fs z, ip <> [] /\ Forall digit ip /\ Forall digit (after fs) /\
           f32_debug (S754_finite s m e) = sign_str s ++ ip ++ point fs ++ exponent (Some z)
    else exists ip f, ip <> [] /\ Forall digit ip /\ f <> [] /\ Forall digit f /\
           f32_debug (S754_finite s m e) = sign_str s ++ ip ++ 46%N :: f /\ d' = dec (ip ++ f) /\ k' = - Z.of_nat (length f).
Proof.
  intros V. pose proof V as V0. rewrite valid_sign in V0. destruct (shortest_best m e V0) as (d & k & E & (P & R & B)).
  cbn [f32_debug]. rewrite V, E. destruct (number_text s d k (proj1 P)) as ((ip & f & H1 & H2 & H3 & H4 & H5 & d' & k' & R' & P' & Ev & H6 & H7) & (ip' & fs' & z' & G1 & G2 & G3 & G4) & RE).
  assert (S : shortest_text (S754_finite s m e) d k).
  { unfold shortest_text. cbn [sign_SF]. rewrite finite_real. split; [apply P|]. split; [apply (nearest_iff m e V0 s d k V); exact R|].
    intros d0 k0 P0 N0. apply (nearest_iff m e V0 s d0 k0 V) in N0. exact (B d0 k0 P0 N0). }
  destruct (should_use_exponential (S754_finite false m e)).
  - exists d, k, d, k. split; [exact P|]. split; [exact S|]. split; [exact RE|]. split; [apply P|]. split; [reflexivity|].
    exists ip', fs', z'. rewrite G4. auto.
  - exists d, k, d', k'. split; [exact P|]. split; [exact S|]. split; [exact R'|]. split; [exact P'|]. split; [exact Ev|].
    exists ip, f. rewrite H5. repeat (split; [assumption|]). split; [reflexivity|]. auto.
Qed.

Lemma nearest_value neg d k d' k' x : value d k = value d' k' -> nearest neg d k x -> nearest neg d' k' x.
Proof. intros E. unfold nearest. rewrite E. auto. Qed.
Lemma zero_nearest s : nearest s 0 (-1) (S754_zero s).
Proof.
  assert (E : round32 (value 0 (-1)) = 0%R).
  { unfold value. rewrite Rmult_0_l. apply round_0. auto with typeclass_instances. }
  unfold nearest. rewrite E. split; [reflexivity|]. split.
  - intros _. split; [reflexivity|]. split; [reflexivity|]. cbn [SF2R]. destruct s; lra.
  - intros H. exfalso. apply H. rewrite Rabs_R0. apply bpow_gt_0.
Qed.
Theorem text_read_back x : valid_binary 24 128 x = true -> is_finite_SF x = true ->
  exists neg d k, read_decimal (f32_debug x) = Some (neg, d, k) /\ nearest neg d k x.
Proof.
  intros V F. destruct x as [s|s| |s m e]; try discriminate F.
  - exists s, 0, (-1). split; [destruct s; reflexivity|apply zero_nearest].
  - destruct (finite_text s m e V) as (d & k & d' & k' & _ & S & R & _ & E & _). exists s, d', k'. split; [exact R|].
    apply (nearest_value _ d k); [symmetry; exact E|]. apply S.
Qed.

(** ** The text identifies the float *)
Lemma shape x : exists s c r, f32_debug x = sign_str s ++ c :: r /\ c <> 45%N /\
  match x with
  | S754_nan => s = false /\ c = 78%N
  | S754_infinity s' => s = s' /\ c = 105%N /\ r = lit "nf"
  | _ => if valid_binary 24 128 x then digit c /\ is_finite_SF x = true
         else s = false /\ c = 88%N /\ exists s' m e, x = S754_finite s' m e /\ r = sign_str s' ++ i32_text (Zpos m) ++ lit "e" ++ i32_text e
  end.
Proof.
  destruct x as [s|s| |s m e].
  - exists s, 48%N, (lit ".0"). split; [reflexivity|]. split; [discriminate|]. split; [split; discriminate|reflexivity].
  - exists s, 105%N, (lit "nf"). split; [reflexivity|]. split; [discriminate|]. auto.
  - exists false, 78%N, (lit "aN"). split; [reflexivity|]. split; [discriminate|]. auto.
  - destruct (valid_binary 24 128 (S754_finite s m e)) eqn:V.
    + destruct (finite_text s m e V) as (d & k & d' & k' & _ & _ & _ & _ & _ & T).
      assert (X : exists ip r, ip <> [] /\ Forall digit ip /\ f32_debug (S754_finite s m e) = sign_str s ++ ip ++ r).
      { destruct (should_use_exponential _).
        - destruct T as (ip & fs & z & H1 & H2 & _ & H4). exists ip, (point fs ++ exponent (Some z)). auto.
        - destruct T as (ip & f & H1 & H2 & _ & _ & H4 & _). exists ip, (46%N :: f). auto. }
      destruct X as (ip & r & H1 & H2 & H3). destruct ip as [|c ip]; [contradiction|]. inversion H2 as [|? ? Dc _]; subst.
      exists s, c, (ip ++ r). split; [exact H3|]. split; [intros ->; exact (not_minus Dc)|]. auto.
    + exists false, 88%N, (sign_str s ++ i32_text (Zpos m) ++ lit "e" ++ i32_text e). cbn [f32_debug]. rewrite V.
      split; [reflexivity|]. split; [discriminate|]. split; [reflexivity|]. split; [reflexivity|]. exists s, m, e. auto.
Qed.
Lemma sign_cut s s' a b c d : a <> 45%N -> c <> 45%N -> sign_str s ++ a :: b = sign_str s' ++ c :: d -> s = s' /\ a = c /\ b = d.
Proof. destruct s, s'; intros H1 H2 E; cbn in E; injection E; intros; subst; try congruence; auto. Qed.
Lemma i32_text_inj z z' : i32_text z = i32_text z' -> z = z'.
Proof. intros E. eapply spells_value; [apply i32_text_spells|]. rewrite E. apply i32_text_spells. Qed.
Lemma pos_head p : exists c r, i32_text (Zpos p) = c :: r /\ digit c.
Proof.
  destruct (i32_text_spells (Zpos p)) as (neg & ds & E & Hn & Hd & _ & Hneg & _). destruct neg; [specialize (Hneg eq_refl); lia|].
  rewrite E. destruct ds as [|c ds]; [contradiction|]. inversion Hd; subst. eexists _, _. split; [reflexivity|assumption].
Qed.
Lemma text_inj x y : f32_debug x = f32_debug y -> x = y.
Proof.
  intros E. destruct (shape x) as (s & c & r & Ex & Hc & Mx), (shape y) as (s' & c' & r' & Ey & Hc' & My).
  rewrite Ex, Ey in E. apply sign_cut in E as (-> & -> & ->); [|assumption|assumption].
  assert (D : forall a, a = 78%N \/ a = 105%N \/ a = 88%N -> ~ digit a) by (unfold digit; intros a H; lia).
  assert (Fin : is_finite_SF x = true -> is_finite_SF y = true -> valid_binary 24 128 x = true -> valid_binary 24 128 y = true -> x = y).
  { intros Fx Fy Vx Vy. destruct (text_read_back x Vx Fx) as (n & d & k & R & N), (text_read_back y Vy Fy) as (n' & d' & k' & R' & N').
    rewrite Ex in R. rewrite Ey in R'. rewrite R in R'. injection R' as <- <- <-. exact (nearest_fun _ _ _ _ _ _ _ eq_refl N N'). }
  destruct x as [a|a| |a m e], y as [b|b| |b m' e'];
    repeat match goal with H : context [if valid_binary 24 128 ?z then _ else _] |- _ => destruct (valid_binary 24 128 z) eqn:?V in H end;
    repeat match goal with H : _ /\ _ |- _ => destruct H | H : exists _, _ |- _ => destruct H end; subst;
    try congruence; try (exfalso; eapply D; [|eassumption]; tauto); try (apply Fin; reflexivity || assumption).
  match goal with H : S754_finite a m e = S754_finite _ _ _ |- _ => injection H as <- <- <- end.
  match goal with H : S754_finite b m' e' = S754_finite _ _ _ |- _ => injection H as <- <- <- end.
  match goal with H : sign_str _ ++ i32_text _ ++ _ = sign_str _ ++ i32_text _ ++ _ |- _ => rename H into E end.
  destruct (pos_head m) as (c & u & E1 & D1), (pos_head m') as (c' & u' & E2 & D2). pose proof E as E0. rewrite E1, E2 in E0. cbn [app] in E0.
  apply sign_cut in E0 as (-> & -> & E0); [|intros ->; exact (not_minus D1)|intros ->; exact (not_minus D2)].
  apply app_inv_head in E. apply (split_stop (fun c => digit c \/ c = 45%N)) in E as [F1 F2];
    [|apply (spells_chars _ (Zpos m)), i32_text_spells|apply (spells_chars _ (Zpos m')), i32_text_spells|unfold digit; cbn; lia|unfold digit; cbn; lia].
  apply i32_text_inj in F1. injection F2 as F2. apply i32_text_inj in F2. congruence.
Qed.

Lemma float_digits s : Forall digit s -> Forall float_char s.
Proof. apply Forall_impl. unfold digit, float_char. intros. lia. Qed.
Lemma float_i32 z : Forall float_char (i32_text z).
Proof. eapply Forall_impl; [|apply (spells_chars _ z), i32_text_spells]. unfold digit, float_char. intros. cbv beta in *. lia. Qed.
Lemma float_sign s : Forall float_char (sign_str s).
Proof. destruct s; [apply Forall_cons; [unfold float_char; cbn; lia|]|]; apply Forall_nil. Qed.
Lemma float_lit s : forallb (fun c => ((48 <=? c) && (c <=? 57)) || ((65 <=? c) && (c <=? 90)) || ((97 <=? c) && (c <=? 122)) || (c =? 45) || (c =? 46))%N s = true -> Forall float_char s.
Proof.
  intros H. apply Forall_forall. intros c I. rewrite forallb_forall in H. specialize (H c I). unfold float_char.
  rewrite !Bool.orb_true_iff, !Bool.andb_true_iff, !N.leb_le, !N.eqb_eq in H. lia.
Qed.
Theorem f32_debug_ok : float_texts f32_debug.
Proof.
  split; [exact text_inj|]. intros x. split.
  - destruct (shape x) as (s & c & r & -> & _). destruct s; discriminate.
  - destruct x as [s|s| |s m e].
    + apply Forall_app. split; [apply float_sign|apply float_lit; reflexivity].
    + apply Forall_app. split; [apply float_sign|apply float_lit; reflexivity].
    + apply float_lit; reflexivity.
    + destruct (valid_binary 24 128 (S754_finite s m e)) eqn:V.
      * destruct (finite_text s m e V) as (d & k & d' & k' & _ & _ & _ & _ & _ & T). destruct (should_use_exponential _).
        -- destruct T as (ip & fs & z & _ & H2 & H3 & ->). rewrite !Forall_app. split; [apply float_sign|]. split; [apply float_digits, H2|].
           split; [destruct fs as [f|]; [apply Forall_cons; [unfold float_char; lia|apply float_digits, H3]|apply Forall_nil]|].
           apply Forall_cons; [unfold float_char; lia|apply float_i32].
        -- destruct T as (ip & f & _ & H2 & _ & H3 & -> & _). rewrite !Forall_app. split; [apply float_sign|]. split; [apply float_digits, H2|].
           apply Forall_cons; [unfold float_char; lia|apply float_digits, H3].
      * cbn [f32_debug]. rewrite V. rewrite !Forall_app. repeat split; try apply float_sign; try apply float_i32; apply float_lit; reflexivity.
Qed.

(** ** Which texts are literals *)
Local Instance prec24r : Prec_gt_0 24. Proof. reflexivity. Qed.
Local Instance emax128r : Prec_lt_emax 24 128. Proof. reflexivity. Qed.
Lemma SFltb_real x y : valid_binary 24 128 x = true -> valid_binary 24 128 y = true -> is_finite_SF x = true -> is_finite_SF y = true ->
  SFltb x y = Rlt_bool (SF2R radix2 x) (SF2R radix2 y).
Proof.
  intros Vx Vy Fx Fy. pose proof (Bltb_correct 24 128 (SF2B x Vx) (SF2B y Vy)) as H. rewrite !is_finite_SF2B, !B2R_SF2B in H.
  specialize (H Fx Fy). unfold Bltb in H. rewrite !B2SF_SF2B in H. exact H.
Qed.
Lemma SFleb_real x y : valid_binary 24 128 x = true -> valid_binary 24 128 y = true -> is_finite_SF x = true -> is_finite_SF y = true ->
  SFleb x y = Rle_bool (SF2R radix2 x) (SF2R radix2 y).
Proof.
  intros Vx Vy Fx Fy. pose proof (Bleb_correct 24 128 (SF2B x Vx) (SF2B y Vy)) as H. rewrite !is_finite_SF2B, !B2R_SF2B in H.
  specialize (H Fx Fy). unfold Bleb in H. rewrite !B2SF_SF2B in H. exact H.
Qed.
Lemma decimal_real d k d' k' : 0 <= d -> is_finite_SF (f32_of_decimal false d k) = true -> value d (- Z.of_nat k) = value d' k' ->
  SF2R radix2 (f32_of_decimal false d k) = round32 (value d' k').
Proof.
  intros Hd F E. destruct (f32_of_decimal_correct false d k Hd) as [_ H]. rewrite decimal_value, E in H.
  destruct (Rlt_bool _ _); [apply H|]. rewrite H in F. discriminate F.
Qed.
Lemma exponential_iff m e : valid_binary 24 128 (S754_finite false m e) = true ->
  should_use_exponential (S754_finite false m e) = false <->
  (round32 (value 1 (-4)) <= F2R (Defs.Float radix2 (Zpos m) e) < round32 (value 1 16))%R.
Proof.
  intros V. unfold should_use_exponential. rewrite Bool.orb_false_iff, SFltb_real, SFleb_real;
    try exact V; try reflexivity.
  - rewrite (decimal_real 1 4 1 (-4)), (decimal_real (10 ^ 16) 0 1 16);
      [|apply Z.pow_nonneg; lia|vm_compute; reflexivity|rewrite <- (value_shift 1 16 16) by lia; reflexivity|lia|vm_compute; reflexivity|reflexivity].
    cbn [SF2R cond_Zopp]. split.
    + intros [H1 H2]. split.
      * destruct (Rlt_bool_spec (F2R (Defs.Float radix2 (Zpos m) e)) (round32 (value 1 (-4)))); [discriminate H1|lra].
      * destruct (Rle_bool_spec (round32 (value 1 16)) (F2R (Defs.Float radix2 (Zpos m) e))); [discriminate H2|lra].
    + intros [H1 H2]. split; [apply Rlt_bool_false; lra|apply Rle_bool_false; lra].
Qed.

Lemma sign_ok s : SignText (sign_str s) s.
Proof. destruct s; constructor. Qed.
Lemma plain_writes x : valid_binary 24 128 x = true -> written_plainly x -> Writes (TValue (VNumber (Float x))) (f32_debug x).
Proof.
  intros V [F B]. assert (D0 : digit 48%N) by (unfold digit; lia). destruct x as [s|s| |s m e]; try discriminate F.
  - pose proof (writes_float (sign_str s) s [48%N] [48%N] (sign_ok s) ltac:(discriminate) ltac:(auto) ltac:(auto)) as W. exact W.
  - pose proof V as V0. rewrite valid_sign in V0. rewrite finite_real in B.
    assert (B' : should_use_exponential (S754_finite false m e) = false).
    { apply (exponential_iff m e V0). destruct B as [B|B]; [|exact B]. exfalso.
      pose proof (finite_real s m e) as R. rewrite B, Rabs_R0 in R. pose proof (v_pos m e). lra. }
    destruct (finite_text s m e V) as (d & k & d' & k' & _ & S & R & P & E & T). rewrite B' in T.
    destruct T as (ip & f & H1 & H2 & H3 & H4 & H5 & H6 & H7). rewrite H5.
    assert (N : nearest s d' k' (S754_finite s m e)) by (apply (nearest_value _ d k); [symmetry; exact E|apply S]).
    apply (scaled_iff s d' k' _ ltac:(lia)) in N. unfold f32_of_scaled in N.
    assert (Lf : (0 < length f)%nat) by (destruct f; [contradiction|apply Nat.lt_0_succ]).
    destruct (Z.ltb_spec k' 0) as [L|L]; [|lia]. rewrite H6 in N. replace (Z.to_nat (- k')) with (length f) in N by lia. rewrite <- N.
    apply writes_float; [apply sign_ok|intros X; apply app_eq_nil in X as [X _]; exact (H1 X)|exact H2|exact H4].
Qed.

(** The texts of number tokens have no letters. *)
Lemma number_token_text code ts t a raw b n : tokenize code = LexOk ts -> In t ts -> tok_type t = TValue (VNumber n) ->
  token_at code t a raw b -> Forall (fun c => digit c \/ c = 43%N \/ c = 45%N \/ c = 46%N) raw.
Proof.
  intros H I T A.
  assert (X : exists a' raw' b', token_at code t a' raw' b' /\ Forall (fun c => digit c \/ c = 43%N \/ c = 45%N \/ c = 46%N) raw').
  { assert (G : forall sg neg, SignText sg neg -> Forall (fun c => digit c \/ c = 43%N \/ c = 45%N \/ c = 46%N) sg).
    { intros sg neg S. destruct S; repeat (apply Forall_cons; [cbn; tauto|]); apply Forall_nil. }
    assert (Gd : forall ds, Forall digit ds -> Forall (fun c => digit c \/ c = 43%N \/ c = 45%N \/ c = 46%N) ds) by (intros ds; apply Forall_impl; auto).
    destruct n as [n|x].
    - destruct (int_tokens code ts t n H I T) as (a' & sg & neg & ds & b' & A' & S & _ & D & _). exists a', (sg ++ ds), b'. split; [exact A'|].
      apply Forall_app. split; [exact (G _ _ S)|exact (Gd _ D)].
    - destruct (float_tokens code ts t x H I T) as (a' & sg & neg & ip & fp & b' & A' & S & _ & D1 & D2 & _). exists a', (sg ++ ip ++ dot :: fp), b'. split; [exact A'|].
      apply Forall_app. split; [exact (G _ _ S)|]. apply Forall_app. split; [exact (Gd _ D1)|]. apply Forall_cons; [cbn; tauto|exact (Gd _ D2)]. }
  destruct X as (a' & raw' & b' & (E1 & B1 & F1) & Q). destruct A as (E2 & B2 & F2).
  assert (U : a = a' /\ raw = raw').
  { rewrite E2 in E1. rewrite B2 in B1. rewrite F2 in F1. apply Nat2Z.inj in B1, F1. 
    destruct (app_byte_len_inv a (raw ++ b) a' (raw' ++ b') E1 B1) as [-> E3]. split; [reflexivity|].
    rewrite !byte_len_app in F1. destruct (app_byte_len_inv raw b raw' b' E3 ltac:(lia)) as [-> _]. reflexivity. }
  destruct U as [-> ->]. exact Q.
Qed.

Lemma letter_text x : valid_binary 24 128 x = true -> written_plainly x \/ exists c, In c (f32_debug x) /\ (65 <= c)%N.
Proof.
  intros V. destruct x as [s|s| |s m e].
  - left. split; [reflexivity|]. left. reflexivity.
  - right. exists 105%N. split; [|lia]. destruct s; cbn; tauto.
  - right. exists 78%N. split; [|lia]. cbn; tauto.
  - pose proof V as V0. rewrite valid_sign in V0.
    destruct (finite_text s m e V) as (d & k & d' & k' & _ & S & R & _ & E & T).
    destruct (should_use_exponential (S754_finite false m e)) eqn:X.
    + right. exists 101%N. split; [|lia]. destruct T as (ip & fs & z & _ & _ & _ & ->). rewrite !in_app_iff. right. right. right. left. reflexivity.
    + left. split; [reflexivity|]. right. rewrite finite_real. apply (exponential_iff m e V0). exact X.
Qed.
Lemma exponent_not_number x code ts t a b n : valid_binary 24 128 x = true -> ~ written_plainly x ->
  tokenize code = LexOk ts -> In t ts -> token_at code t a (f32_debug x) b -> tok_type t <> TValue (VNumber n).
Proof.
  intros V P H I A T. pose proof (number_token_text _ _ _ _ _ _ _ H I T A) as F. destruct (letter_text x V) as [Y|(c & Ic & L)]; [contradiction|].
  rewrite Forall_forall in F. specialize (F c Ic). unfold digit in F. lia.
Qed.
Lemma writes_plain x n : valid_binary 24 128 x = true -> Writes (TValue (VNumber n)) (f32_debug x) -> written_plainly x.
Proof.
  intros V W. destruct (letter_text x V) as [Y|(c & Ic & L)]; [exact Y|exfalso].
  assert (F : Forall (fun c => digit c \/ c = 43%N \/ c = 45%N \/ c = 46%N) (f32_debug x)).
  { assert (G : forall sg neg, SignText sg neg -> Forall (fun c => digit c \/ c = 43%N \/ c = 45%N \/ c = 46%N) sg).
    { intros sg neg S. destruct S; repeat (apply Forall_cons; [cbn; tauto|]); apply Forall_nil. }
    assert (Gd : forall ds, Forall digit ds -> Forall (fun c => digit c \/ c = 43%N \/ c = 45%N \/ c = 46%N) ds) by (intros ds; apply Forall_impl; auto).
    clear Ic L. remember (TValue (VNumber n)) as ty eqn:Ety. destruct W as [| | |sg neg ds S _ D _|sg neg ip fp S _ D1 D2| | | | | | | | | |]; try discriminate Ety.
    - apply Forall_app. split; [exact (G _ _ S)|exact (Gd _ D)].
    - apply Forall_app. split; [exact (G _ _ S)|]. apply Forall_app. split; [exact (Gd _ D1)|]. apply Forall_cons; [cbn; tauto|exact (Gd _ D2)]. }
  rewrite Forall_forall in F. specialize (F c Ic). unfold digit in F. lia.
Qed.
Lemma literal_iff x : valid_binary 24 128 x = true -> Writes (TValue (VNumber (Float x))) (f32_debug x) <-> written_plainly x.
Proof. intros V. split; [apply writes_plain; exact V|apply plain_writes; exact V]. Qed.

(** ** The forms of the texts *)
Lemma shortest_odd x d k : shortest_text x d k -> ~ exists q, d = 10 * q.
Proof.
  intros (P & N & B) (q & ->). assert (Q : 0 < q) by lia.
  assert (E : value q (k + 1) = value (10 * q) k).
  { unfold value. rewrite bpow_plus, mult_IZR. change (bpow radix10 1) with (IZR 10). ring. }
  destruct (B q (k + 1) Q (nearest_value _ _ _ _ _ _ (eq_sym E) N)) as [L _].
  destruct (Z_lt_le_dec q 1) as [|_]; [lia|].
  assert (X : exists n, 0 <= n /\ 10 ^ n <= 10 * q /\ q < 10 ^ n).
  { assert (G : forall m : nat, q < 10 ^ Z.of_nat m -> exists n, 0 <= n /\ 10 ^ n <= 10 * q /\ q < 10 ^ n).
    { induction m as [|m IH]; intros H; [cbn in H; lia|]. destruct (Z_lt_le_dec q (10 ^ Z.of_nat m)) as [l|l]; [exact (IH l)|].
      exists (Z.of_nat (S m)). split; [lia|]. split; [|exact H]. rewrite Nat2Z.inj_succ, Z.pow_succ_r by lia. lia. }
    apply (G (Z.to_nat q)). rewrite Z2Nat.id by lia. apply Z.pow_gt_lin_r; lia. }
  destruct X as (n & Hn & H1 & H2). specialize (L n Hn H2). lia.
Qed.
Lemma last_zero d r : i32_text d = r ++ [48%N] -> 0 < d -> exists q, d = 10 * q.
Proof.
  intros E P. destruct (i32_text_spells d) as (neg & ds & E' & Hn & Hds & Hz & Hneg & Hv).
  destruct neg; [specialize (Hneg eq_refl); lia|]. cbn [app signed] in E', Hv. rewrite E' in E. rewrite E, dec_app in Hv.
  exists (dec r). rewrite Hv. change (dec [48%N]) with 0. change (Z.of_nat (length [48%N])) with 1. lia.
Qed.
Lemma number_forms d k : 0 < d -> (~ exists q, d = 10 * q) ->
  let buf := i32_text d in let exp := k + Z.of_nat (length buf) in
  (exists ip f, digits_to_dec_str buf exp = ip ++ 46%N :: f /\
    ip <> [] /\ f <> [] /\ Forall digit ip /\ Forall digit f /\ no_leading_zero ip /\ no_trailing_zero f) /\
  (exists c f neg z, digits_to_exp_str buf exp = c :: (match f with [] => [] | _ => 46%N :: f end) ++
                        101%N :: (if neg : bool then [45%N] else []) ++ z /\
    digit c /\ c <> 48%N /\ Forall digit f /\ (forall r, f <> r ++ [48%N]) /\ z <> [] /\ Forall digit z /\ no_leading_zero z).
Proof.
  intros Hd Odd buf exp. assert (Last : forall r, buf <> r ++ [48%N]) by (intros r X; exact (Odd (last_zero d r X Hd))).
  destruct (i32_text_spells d) as (neg & ds & E & Hn & Hds & Hz & Hneg & Hv).
  destruct neg; [specialize (Hneg eq_refl); lia|]. cbn [app signed] in E, Hv. fold buf in E. subst ds.
  assert (D0 : digit 48%N) by (unfold digit; lia).
  assert (First : forall r, buf <> 48%N :: r).
  { intros r X. pose proof (Hz r X) as ->. rewrite X in Hv. cbn in Hv. lia. }
  split.
  - unfold digits_to_dec_str. destruct (Z.leb_spec exp 0) as [L|L]; [|destruct (Z.ltb_spec exp (Z.of_nat (length buf))) as [M|M]].
    + exists [48%N], (zero_digits (- exp) ++ buf). split; [reflexivity|]. split; [discriminate|].
      split; [intros X; apply app_eq_nil in X as [_ X]; exact (Hn X)|]. split; [auto|].
      split; [apply Forall_app; split; [apply zd_digits|exact Hds]|]. split; [intros r X; injection X as <-; reflexivity|].
      intros r X. destruct (exists_last Hn) as (l & c & El). rewrite El, app_assoc in X. apply app_inj_tail in X as [_ ->].
      exfalso. exact (Last _ El).
    + exists (firstn (Z.to_nat exp) buf), (skipn (Z.to_nat exp) buf). split; [reflexivity|].
      assert (S1 : firstn (Z.to_nat exp) buf <> []) by (intros X; apply (f_equal (@length char)) in X; rewrite firstn_length in X; cbn [length] in X; lia).
      assert (S2 : skipn (Z.to_nat exp) buf <> []) by (intros X; apply (f_equal (@length char)) in X; rewrite skipn_length in X; cbn [length] in X; lia).
      pose proof Hds as Hds'. rewrite <- (firstn_skipn (Z.to_nat exp) buf) in Hds'. apply Forall_app in Hds' as [F1 F2].
      repeat (split; [assumption|]). split.
      * intros r X. exfalso. pose proof (firstn_skipn (Z.to_nat exp) buf) as Y. rewrite X in Y. exact (First _ (eq_sym Y)).
      * intros r X. exfalso. pose proof (firstn_skipn (Z.to_nat exp) buf) as Y. rewrite X, app_assoc in Y. exact (Last _ (eq_sym Y)).
    + exists (buf ++ zero_digits (exp - Z.of_nat (length buf))), [48%N].
      split; [rewrite <- app_assoc; reflexivity|]. split; [intros X; apply app_eq_nil in X as [X _]; exact (Hn X)|]. split; [discriminate|].
      split; [apply Forall_app; split; [exact Hds|apply zd_digits]|]. split; [auto|]. split.
      * intros r X. exfalso. destruct buf as [|c b]; [contradiction|]. injection X as -> _. exact (First _ eq_refl).
      * intros r X. destruct r as [|c r]; [reflexivity|]. injection X as _ X. destruct r; discriminate X.
  - destruct (i32_text_spells (exp - 1)) as (ng & z & Ez & Gn & Gd & Gz & _).
    unfold digits_to_exp_str. rewrite Ez. clear Ez Hv Odd. clearbody exp. clearbody buf. destruct buf as [|c r]; [contradiction|]. inversion Hds as [|? ? Dc Dr]; subst.
    exists c, r, ng, z. split; [destruct r as [|c' r]; cbn; destruct ng; reflexivity|].
    split; [exact Dc|]. split; [intros ->; exact (First _ eq_refl)|]. split; [exact Dr|].
    split; [intros r' ->; exact (Last (c :: r') eq_refl)|]. split; [exact Gn|]. split; [exact Gd|exact Gz].
Qed.
Theorem forms x : valid_binary 24 128 x = true -> is_finite_SF x = true ->
  (written_plainly x -> plain_form x (f32_debug x)) /\ (~ written_plainly x -> exponent_form x (f32_debug x)).
Proof.
  intros V F. destruct x as [s|s| |s m e]; try discriminate F.
  - split; [|intros X; exfalso; apply X; split; [reflexivity|left; reflexivity]].
    intros _. exists [48%N], [48%N]. assert (D0 : digit 48%N) by (unfold digit; lia). split; [reflexivity|]. repeat (split; [discriminate|]).
    split; [auto|]. split; [auto|]. split; [intros r X; injection X as <-; reflexivity|]. intros r X. destruct r as [|c r]; [reflexivity|]. injection X as _ X. destruct r; discriminate X.
  - pose proof V as V0. rewrite valid_sign in V0.
    assert (W : written_plainly (S754_finite s m e) <-> should_use_exponential (S754_finite false m e) = false).
    { rewrite (exponential_iff m e V0). unfold written_plainly. rewrite finite_real. split; [|intros Y; split; [reflexivity|right; exact Y]].
      intros [_ [B|B]]; [|exact B]. exfalso. pose proof (finite_real s m e) as R. rewrite B, Rabs_R0 in R. pose proof (v_pos m e). lra. }
    destruct (shortest_best m e V0) as (d & k & E & (P & R & B)).
    assert (S : shortest_text (S754_finite s m e) d k).
    { unfold shortest_text. cbn [sign_SF]. rewrite finite_real. split; [apply P|]. split; [apply (nearest_iff m e V0 s d k V); exact R|].
      intros d0 k0 P0 N0. apply (nearest_iff m e V0 s d0 k0 V) in N0. exact (B d0 k0 P0 N0). }
    destruct (number_forms d k (proj1 P) (shortest_odd _ _ _ S)) as [(ip & f & H1 & H2) (c & f' & ng & z & G1 & G2)].
    cbn [f32_debug]. rewrite V, E. rewrite W. unfold plain_form, exponent_form. cbn [sign_SF]. destruct (should_use_exponential (S754_finite false m e)).
    + split; [discriminate|]. intros _. exists c, f', ng, z. rewrite G1. split; [destruct s; reflexivity|exact G2].
    + split; [|intros X; exfalso; apply X; reflexivity]. intros _. exists ip, f. rewrite H1. split; [destruct s; reflexivity|exact H2].
Qed.
Lemma plain_tokenize x : valid_binary 24 128 x = true -> written_plainly x ->
  exists ts, tokenize (f32_debug x ++ [newline]) = LexOk ts /\ map tok_type ts = [TValue (VNumber (Float x))].
Proof.
  intros V P. destruct (print_tokenize [] [(TValue (VNumber (Float x)), f32_debug x, [newline])]) as (ts & H1 & H2).
  - constructor.
  - constructor; [|constructor]. split; [exact (plain_writes x V P)|].
    split; [discriminate|]. split; [|exact I]. constructor; [unfold ws, newline; lia|constructor].
  - exists ts. cbn [print map concat app] in H1. rewrite app_nil_r in H1. split; [exact H1|exact H2].
Qed.

Lemma shortest_unique x d k d' k' : shortest_text x d k -> shortest_text x d' k' -> value d k = value d' k'.
Proof.
  intros (P & N & B) (P' & N' & B'). destruct (B d' k' P' N') as [L C], (B' d k P N) as [L' C'].
  destruct (C L') as [C1 C2], (C' L) as [C1' C2']. apply Rle_antisym; [apply C2'|apply C2]; lra.
Qed.
