(** Printed positions. *)
From Coq Require Import String.
From Verif Require Import LexSpec LexPropSpec Lexer LexProps LexProps2 LexProps3 Display Eq EqSpec EqProps.
Local Open Scope Z_scope.

Lemma dec_snoc ds d : dec (ds ++ [d]) = 10 * dec ds + (Z.of_N d - 48).
Proof.
  induction ds as [|x ds IH]; cbn [app dec]; [cbn; lia|].
  rewrite IH, app_length. cbn [length]. replace (Z.of_nat (length ds + 1)) with (Z.of_nat (length ds) + 1) by lia.
  rewrite Z.pow_add_r by lia. lia.
Qed.
Lemma digits_spec f : forall n, 0 <= n -> (n < 10 /\ (0 < f)%nat \/ (Z.log2 n < Z.of_nat f)) ->
  let ds := digits_text f n in
  ds <> [] /\ Forall digit ds /\ (forall r, ds = 48%N :: r -> r = [] /\ n = 0) /\ dec ds = n.
Proof.
  induction f as [|f IH]; intros n Hn Hf; [pose proof (Z.log2_nonneg n); lia|]. cbn [digits_text].
  assert (Hm : 0 <= n mod 10 < 10) by (apply Z.mod_pos_bound; lia).
  assert (Hd : digit (Z.to_N (48 + n mod 10))) by (unfold digit; lia).
  assert (Hv : Z.of_N (Z.to_N (48 + n mod 10)) - 48 = n mod 10) by lia.
  destruct (Z.ltb_spec n 10).
  - cbn [app]. rewrite Z.mod_small in * by lia. split; [discriminate|]. split; [auto|].
    split; [|cbn [dec length]; change (10 ^ Z.of_nat 0) with 1; lia].
    intros r E. assert (E1 : Z.to_N (48 + n) = 48%N) by congruence. split; [congruence|lia].
  - destruct (IH (n / 10)) as (H1 & H2 & H3 & H4); [apply Z.div_pos; lia| |].
    { right. destruct Hf as [[? _]|Hf]; [lia|].
      assert (n / 10 <= n / 2) by (apply Z.div_le_compat_l; lia).
      assert (Z.log2 (n / 10) <= Z.log2 (n / 2)) by (apply Z.log2_le_mono; assumption).
      assert (Z.log2 n = Z.succ (Z.log2 (n / 2))).
      { pose proof (Z.div2_div n) as E. rewrite <- E. 
        assert (0 < Z.div2 n) by (rewrite E; apply Z.div_str_pos; lia).
        rewrite (Zdiv2_odd_eqn n) at 1. destruct (Z.odd n).
        - rewrite Z.log2_succ_double; lia.
        - rewrite Z.add_0_r, Z.log2_double; lia. }
      lia. }
    split; [destruct (digits_text f (n / 10)); discriminate|]. split; [apply Forall_app; auto|].
    split.
    + intros r E. exfalso. destruct (digits_text f (n / 10)) as [|x xs] eqn:Ed; [congruence|].
      injection E as -> _. destruct (H3 xs eq_refl) as [_ E]. 
      assert (1 <= n / 10) by (apply Z.div_le_lower_bound; lia). lia.
    + rewrite dec_snoc, H4, Hv. rewrite (Z.div_mod n 10) at 3 by lia. lia.
Qed.
Lemma i32_text_spells z : spells (i32_text z) z.
Proof.
  unfold i32_text. destruct (Z.ltb_spec z 0).
  - destruct (digits_spec (S (Z.to_nat (Z.log2 (- z)))) (- z)) as (H1 & H2 & H3 & H4);
      [lia|right; pose proof (Z.log2_nonneg (- z)); lia|].
    exists true, (digits_text (S (Z.to_nat (Z.log2 (- z)))) (- z)).
    split; [reflexivity|]. split; [assumption|]. split; [assumption|]. split; [intros r E; apply (H3 r E)|].
    split; [auto|]. cbn [signed]. rewrite H4. lia.
  - destruct (digits_spec (S (Z.to_nat (Z.log2 z))) z) as (H1 & H2 & H3 & H4);
      [lia|right; pose proof (Z.log2_nonneg z); lia|].
    exists false, (digits_text (S (Z.to_nat (Z.log2 z))) z).
    split; [reflexivity|]. split; [assumption|]. split; [assumption|]. split; [intros r E; apply (H3 r E)|].
    split; [discriminate|]. cbn [signed]. auto.
Qed.

(** A spelling followed by a comma or a parenthesis. *)
Definition stop_char (c : char) : Prop := ~ digit c /\ c <> 45%N.
Lemma spells_chars s z : spells s z -> Forall (fun c => digit c \/ c = 45%N) s.
Proof.
  intros (neg & ds & -> & _ & Hd & _). apply Forall_app. split; [destruct neg; [apply Forall_cons; [right; reflexivity|]|]; apply Forall_nil|].
  revert Hd. apply Forall_impl. auto.
Qed.
Lemma split_stop (P : char -> Prop) a c b a' c' b' : Forall P a -> Forall P a' -> ~ P c -> ~ P c' ->
  a ++ c :: b = a' ++ c' :: b' -> a = a' /\ c :: b = c' :: b'.
Proof.
  revert a'. induction a as [|x a IH]; intros [|x' a'] Ha Ha' Hc Hc' E.
  - auto.
  - exfalso. injection E as <- _. inversion Ha'. auto.
  - exfalso. injection E as -> _. inversion Ha. auto.
  - injection E as -> E. inversion Ha; inversion Ha'; subst. destruct (IH a') as [-> ->]; auto.
Qed.
Lemma spells_value s z z' : spells s z -> spells s z' -> z = z'.
Proof.
  intros (n & ds & E & Hn & Hd & _ & _ & ->) (n' & ds' & E' & Hn' & Hd' & _ & _ & ->).
  assert (H : forall d r, ~ Forall digit (45%N :: d) /\ 45%N :: r <> [] :> str).
  { intros d r. split; [|discriminate]. intros F. inversion F as [|? ? F1 _]. unfold digit in F1. lia. }
  destruct n, n'; rewrite E in E'; cbn [app] in E'.
  - injection E' as ->. reflexivity.
  - subst ds'. destruct (proj1 (H ds []) Hd').
  - subst ds. destruct (proj1 (H ds' []) Hd).
  - subst. reflexivity.
Qed.
Lemma i32_text_inj z z' c b c' b' : stop_char c -> stop_char c' ->
  i32_text z ++ c :: b = i32_text z' ++ c' :: b' -> z = z' /\ c :: b = c' :: b'.
Proof.
  intros [Hc1 Hc2] [Hc1' Hc2'] E.
  apply (split_stop (fun c => digit c \/ c = 45%N)) in E as [E1 E2];
    [|apply (spells_chars _ z), i32_text_spells|apply (spells_chars _ z'), i32_text_spells|tauto|tauto].
  split; [|assumption]. eapply spells_value; [apply i32_text_spells|]. rewrite E1. apply i32_text_spells.
Qed.
Ltac stopc := split; [unfold digit; cbn; lia|discriminate].

Lemma display_inj p q r r' : position_display p ++ r = position_display q ++ r' ->
  line p = line q /\ column p = column q /\ r = r'.
Proof.
  unfold position_display. change (lit "(L") with [40%N; 76%N]. change (lit ", C") with [44%N; 32%N; 67%N].
  change (lit ")") with [41%N]. rewrite <- !app_assoc. cbn [app]. intros E. injection E as E.
  apply i32_text_inj in E as [-> E]; [|stopc|stopc]. injection E as E.
  apply i32_text_inj in E as [-> E]; [|stopc|stopc]. injection E as E. auto.
Qed.
Lemma debug_inj p q r r' : position_debug p ++ r = position_debug q ++ r' ->
  line p = line q /\ column p = column q /\ r = r'.
Proof.
  unfold position_debug. change (lit "(") with [40%N]. change (lit ", ") with [44%N; 32%N].
  change (lit ")") with [41%N]. rewrite <- !app_assoc. cbn [app]. intros E. injection E as E.
  apply i32_text_inj in E as [-> E]; [|stopc|stopc]. injection E as E.
  apply i32_text_inj in E as [-> E]; [|stopc|stopc]. injection E as E. auto.
Qed.
Theorem display_iff p q : position_display p = position_display q <-> position_eqb p q = true.
Proof.
  unfold position_eqb. rewrite andb_true_iff, !Z.eqb_eq. split.
  - intros E. apply (f_equal (fun s => s ++ [])) in E. apply display_inj in E. tauto.
  - intros [E1 E2]. unfold position_display. rewrite E1, E2. reflexivity.
Qed.
Theorem debug_iff p q : position_debug p = position_debug q <-> position_eqb p q = true.
Proof.
  unfold position_eqb. rewrite andb_true_iff, !Z.eqb_eq. split.
  - intros E. apply (f_equal (fun s => s ++ [])) in E. apply debug_inj in E. tauto.
  - intros [E1 E2]. unfold position_debug. rewrite E1, E2. reflexivity.
Qed.
Theorem range_debug_iff r r' : range_debug r = range_debug r' <-> range_eqb r r' = true.
Proof.
  unfold range_eqb. rewrite andb_true_iff, <- !debug_iff. unfold range_debug. split.
  - intros E. apply debug_inj in E as (E1 & E2 & E).
    apply app_inv_head in E. apply debug_inj in E as (E3 & E4 & _). unfold position_debug. rewrite E1, E2, E3, E4. auto.
  - intros [-> ->]. reflexivity.
Qed.
Theorem position_texts p : exists l c, spells l (line p) /\ spells c (column p) /\
  position_display p = lit "(L" ++ l ++ lit ", C" ++ c ++ lit ")" /\
  position_debug p = lit "(" ++ l ++ lit ", " ++ c ++ lit ")".
Proof. exists (i32_text (line p)), (i32_text (column p)). auto using i32_text_spells. Qed.
Theorem range_texts r : exists l c l' c',
  spells l (line (r_start r)) /\ spells c (column (r_start r)) /\
  spells l' (line (r_end r)) /\ spells c' (column (r_end r)) /\
  range_debug r = lit "(" ++ l ++ lit ", " ++ c ++ lit ") -> (" ++ l' ++ lit ", " ++ c' ++ lit ")" ++ [10%N].
Proof.
  exists (i32_text (line (r_start r))), (i32_text (column (r_start r))),
    (i32_text (line (r_end r))), (i32_text (column (r_end r))).
  do 4 (split; [apply i32_text_spells|]). unfold range_debug, position_debug.
  change (lit ") -> (") with (lit ")" ++ lit " -> " ++ lit "("). rewrite <- !app_assoc. reflexivity.
Qed.
(** In one source the printed start of a token identifies the token. *)
Theorem display_identifies code ts t u : tokenize code = LexOk ts -> In t ts -> In u ts ->
  position_display (start_of t) = position_display (start_of u) -> t = u.
Proof.
  intros E Ht Hu H. apply display_iff in H.
  assert (Hb : forall x, In x ts -> boundary ts (start_of x)) by (intros x Hx; exists x; auto).
  destruct (tokenize_lossless code ts E) as (HF & HS & _). apply (sorted_starts_eq ts); auto.
  - revert HF. apply Forall_impl. tauto.
  - exact (proj1 (proj1 (boundaries_ordered code ts _ _ E (Hb t Ht) (Hb u Hu))) H).
Qed.
