(** The lexer on bytes computes what the lexer on characters does (C85). *)
From Coq Require Import String Lia.
From Verif Require Import SourceJoin EqProps StrFacts LexSpec LexBasics LexProofs Utf8 Utf8Proofs MachineSpec MachineProofs Lines LinesSim ParseFuel RelabelProofs.
From Verif Require Export ByteSpec.
Local Open Scope N_scope.

(** ** Characters *)

Lemma lor_add a b n : b < 2 ^ n -> N.lor (N.shiftl a n) b = a * 2 ^ n + b.
Proof.
  intros H. rewrite <- N.shiftl_mul_pow2.
  assert (D : N.land (N.shiftl a n) b = 0).
  { apply N.bits_inj. intros i. rewrite N.land_spec, N.bits_0.
    destruct (N.lt_ge_cases i n) as [L|L]; [rewrite N.shiftl_spec_low by exact L; reflexivity|].
    apply andb_false_iff. right. destruct (N.eq_dec b 0) as [->|Hb]; [apply N.bits_0|].
    apply N.bits_above_log2. apply N.log2_lt_pow2 in H; lia. }
  rewrite N.add_nocarry_lxor, N.lxor_lor by exact D. reflexivity.
Qed.
Lemma land_mod x n : N.land x (N.ones n) = x mod 2 ^ n.
Proof. apply N.land_ones. Qed.
Lemma mod_add a b m : m <> 0 -> b < m -> (a * m + b) mod m = b.
Proof. intros Hm Hb. rewrite N.add_comm, N.mod_add by exact Hm. apply N.mod_small, Hb. Qed.
Lemma low6 y : y < 64 -> N.land (128 + y) 63 = y.
Proof. intros H. change 63 with (N.ones 6). rewrite land_mod. exact (mod_add 2 y 64 ltac:(discriminate) H). Qed.
Lemma acc_ok a y : y < 64 -> acc_cont_byte a (128 + y) = a * 64 + y.
Proof. intros H. unfold acc_cont_byte. rewrite low6 by exact H. exact (lor_add a y 6 H). Qed.

Lemma ltb_no a b : b <= a -> (a <? b) = false.
Proof. intros H. apply N.ltb_ge. exact H. Qed.
Lemma ltb_yes a b : a < b -> (a <? b) = true.
Proof. intros H. apply N.ltb_lt. exact H. Qed.

Lemma next_ok c cb r : Utf8Char c cb -> next_code_point (cb ++ r) = Some (c, r).
Proof.
  intros H. destruct H as [c L|c x y E Lx Ly L|c x y z E Lx Ly Lz L _|c x y z v E Lx Ly Lz Lv L _]; cbn [app next_code_point].
  - rewrite (ltb_yes _ _ L). reflexivity.
  - rewrite ltb_no, ltb_yes by lia. rewrite acc_ok by exact Ly.
    change 31 with (N.ones 5). rewrite land_mod. change (192 + x) with (6 * 2 ^ 5 + x). rewrite mod_add by (assumption || discriminate).
    rewrite E. reflexivity.
  - rewrite ltb_no, ltb_no, ltb_yes by lia. rewrite low6, acc_ok by assumption.
    change 31 with (N.ones 5). rewrite land_mod. change (224 + x) with (7 * 2 ^ 5 + x).
    rewrite mod_add by (discriminate || (change (2 ^ 5) with 32; lia)).
    rewrite lor_add by (change (2 ^ 12) with 4096; lia). change (2 ^ 12) with 4096. f_equal. f_equal. lia.
  - rewrite ltb_no, ltb_no, ltb_no by lia. rewrite low6, !acc_ok by assumption.
    change 31 with (N.ones 5). rewrite land_mod. replace (240 + x) with (7 * 2 ^ 5 + (16 + x)) by (change (2 ^ 5) with 32; lia).
    rewrite mod_add by (discriminate || (change (2 ^ 5) with 32; lia)).
    change 7 with (N.ones 3). rewrite land_mod. change (16 + x) with (2 * 2 ^ 3 + x). rewrite mod_add by (assumption || discriminate).
    rewrite lor_add by (change (2 ^ 18) with 262144; lia). change (2 ^ 18) with 262144. f_equal. f_equal. lia.
Qed.

Lemma chars_loop_ok s bs : Utf8 s bs -> forall n, (length s <= n)%nat -> chars_loop n bs = s.
Proof.
  induction 1 as [|c cb s bs Hc _ IH]; intros n L.
  - destruct n; reflexivity.
  - destruct n as [|n]; cbn [length] in L; [lia|]. cbn [chars_loop]. rewrite (next_ok _ _ _ Hc). f_equal. apply IH. lia.
Qed.
Theorem chars_ok s bs : Utf8 s bs -> b_chars bs = s.
Proof.
  intros H. apply (chars_loop_ok _ _ H). rewrite <- (utf8_len_ok _ _ H). exact (byte_len_ge s).
Qed.

(** ** The encoding *)

Lemma encode_char_ok c : scalar c -> Utf8Char c (encode_char c).
Proof.
  intros H. unfold encode_char.
  assert (Q : c = c / 64 * 64 + c mod 64) by (rewrite N.mul_comm; apply N.div_mod; discriminate).
  assert (Q1 : c / 64 = c / 4096 * 64 + c / 64 mod 64).
  { change 4096 with (64 * 64). rewrite <- N.div_div by discriminate. rewrite N.mul_comm. apply N.div_mod; discriminate. }
  assert (Q2 : c / 4096 = c / 262144 * 64 + c / 4096 mod 64).
  { change 262144 with (4096 * 64). rewrite <- N.div_div by discriminate. rewrite N.mul_comm. apply N.div_mod; discriminate. }
  pose proof (N.mod_lt c 64 ltac:(discriminate)) as L0. pose proof (N.mod_lt (c / 64) 64 ltac:(discriminate)) as L1.
  pose proof (N.mod_lt (c / 4096) 64 ltac:(discriminate)) as L2.
  set (a := c mod 64) in *. set (b := c / 64 mod 64) in *. set (d := c / 4096 mod 64) in *.
  set (q := c / 64) in *. set (q1 := c / 4096) in *. set (q2 := c / 262144) in *.
  assert (H' := H). unfold scalar in H'.
  destruct (N.ltb_spec c 128); [constructor; assumption|].
  destruct (N.ltb_spec c 2048); [constructor; lia|].
  destruct (N.ltb_spec c 65536); [constructor; try assumption; lia|].
  constructor; try assumption; lia.
Qed.
Theorem encode_ok s : Forall scalar s -> Utf8 s (encode s).
Proof.
  induction 1 as [|c s Hc _ IH]; [constructor|]. unfold encode. cbn [flat_map]. constructor; [exact (encode_char_ok c Hc)|exact IH].
Qed.
Theorem encode_iff s bs : Utf8 s bs <-> Forall scalar s /\ bs = encode s.
Proof.
  split; [|intros [H ->]; exact (encode_ok s H)]. intros H.
  assert (S : Forall scalar s) by (apply utf8_exists; exists bs; exact H).
  split; [exact S|]. exact (utf8_bytes _ _ H _ (encode_ok s S)).
Qed.
Lemma encode_ascii s : ascii_str s -> encode s = s.
Proof.
  induction s as [|c s IH]; [reflexivity|]. rewrite ascii_cons. intros [Hc Hs]. unfold encode in *. cbn [flat_map].
  rewrite (IH Hs). unfold encode_char. unfold is_ascii in Hc. rewrite Hc. reflexivity.
Qed.
Lemma ascii_scalar s : ascii_str s -> Forall scalar s.
Proof.
  induction s as [|c s IH]; [constructor|]. rewrite ascii_cons. intros [Hc Hs]. constructor; [|exact (IH Hs)].
  apply is_ascii_iff in Hc. left. lia.
Qed.
Notation U := (Forall scalar).
Lemma chars_encode s : U s -> b_chars (encode s) = s.
Proof. intros H. apply chars_ok, encode_ok, H. Qed.
Lemma len_encode s : U s -> length (encode s) = byte_len s.
Proof. intros H. symmetry. apply utf8_len_ok, encode_ok, H. Qed.

(** ** Slices *)

Definition omap {A B} (g : A -> B) (m : outcome A) : outcome B :=
  match m with Ret a => Ret (g a) | Panic => Panic end.

Lemma boundary_ok bs n : b_is_char_boundary bs n = true <-> char_boundary bs n.
Proof.
  unfold b_is_char_boundary, char_boundary, continuation. rewrite orb_true_iff, Nat.eqb_eq.
  destruct (nth_error bs n) as [b|] eqn:E.
  - rewrite orb_true_iff, N.ltb_lt, N.leb_le. split.
    + intros [H|H]; [left; exact H|]. right. right. exists b. split; [reflexivity|]. lia.
    + intros [H|[H|(b' & [= <-] & H)]]; [left; exact H| |right; lia].
      exfalso. apply nth_error_Some in E as L || (assert (L : (n < length bs)%nat) by (apply nth_error_Some; congruence)). lia.
  - rewrite Nat.eqb_eq. split; [intros [H|H]; auto|]. intros [H|[H|(b' & [=] & _)]]; auto.
Qed.
Lemma slice_to_encode s n : U s -> b_slice_to (encode s) n = omap encode (slice_to s n).
Proof.
  intros H. pose proof (slice_to_refines s (encode s) n (encode_ok s H)) as R. unfold b_slice_to.
  destruct (slice_to s n) as [a|]; cbn [omap].
  - destruct R as [B Ua]. apply boundary_ok in B. rewrite B. apply encode_iff in Ua as [_ ->]. reflexivity.
  - rewrite <- boundary_ok in R. destruct (b_is_char_boundary (encode s) n); [contradiction (R eq_refl)|reflexivity].
Qed.
Lemma slice_from_encode s n : U s -> b_slice_from (encode s) n = omap encode (slice_from s n).
Proof.
  intros H. pose proof (slice_from_refines s (encode s) n (encode_ok s H)) as R. unfold b_slice_from.
  destruct (slice_from s n) as [a|]; cbn [omap].
  - destruct R as [B Ua]. apply boundary_ok in B. rewrite B. apply encode_iff in Ua as [_ ->]. reflexivity.
  - rewrite <- boundary_ok in R. destruct (b_is_char_boundary (encode s) n); [contradiction (R eq_refl)|reflexivity].
Qed.
Lemma slice_encode s n m : U s -> b_slice (encode s) n m = omap encode (slice s n m).
Proof.
  intros H. pose proof (slice_refines s (encode s) n m (encode_ok s H)) as R. unfold b_slice.
  destruct (slice s n m) as [a|]; cbn [omap].
  - destruct R as (L & B & B' & Ua). apply boundary_ok in B, B'. apply Nat.leb_le in L. rewrite L, B, B'. cbn [andb].
    apply encode_iff in Ua as [_ Ea]. rewrite skipn_firstn_comm in Ea. rewrite Ea. reflexivity.
  - rewrite <- !boundary_ok, <- Nat.leb_le in R.
    destruct (Nat.leb n m), (b_is_char_boundary (encode s) n), (b_is_char_boundary (encode s) m); cbn [andb]; try reflexivity.
    exfalso. apply R. auto.
Qed.
Lemma b_starts_is p bs : b_starts_with p bs = starts_with p bs.
Proof. reflexivity. Qed.
Lemma starts_encode p s : U p -> U s -> b_starts_with (encode p) (encode s) = starts_with p s.
Proof.
  intros Hp H. rewrite b_starts_is. pose proof (starts_with_refines p (encode p) s (encode s) (encode_ok p Hp) (encode_ok s H)) as R.
  rewrite <- (starts_with_iff (encode p) (encode s)) in R.
  destruct (starts_with p s), (starts_with (encode p) (encode s)); try reflexivity.
  - exact (proj1 R eq_refl).
  - symmetry. exact (proj2 R eq_refl).
Qed.
Lemma b_find_spec p bs : match b_find p bs with
  | Some n => bytes_found_at p bs n
  | None => forall x y, bs <> x ++ p ++ y
  end.
Proof.
  induction bs as [|b bs IH]; cbn [b_find].
  - destruct (b_starts_with p []) eqn:E; rewrite b_starts_is in E.
    + apply starts_with_inv in E as [r E]. split; [exists [], r; auto|intros; lia].
    + intros x y Ex. symmetry in Ex. apply app_eq_nil in Ex as [-> Ex]. apply app_eq_nil in Ex as [-> ->]. discriminate E.
  - destruct (b_starts_with p (b :: bs)) eqn:E; rewrite b_starts_is in E.
    + apply starts_with_inv in E as [r E]. split; [exists [], r; auto|intros; lia].
    + assert (K : forall x y, b :: bs = x ++ p ++ y -> exists x', x = b :: x' /\ bs = x' ++ p ++ y).
      { intros [|c x] y Ex; cbn [app] in Ex.
        - apply starts_with_false in E. destruct E. exists y. exact Ex.
        - injection Ex as <- Ex. exists x. auto. }
      destruct (b_find p bs) as [n|].
      * destruct IH as [(x & y & -> & <-) M]. split; [exists (b :: x), y; auto|].
        intros x' y' Ex. destruct (K _ _ Ex) as (x2 & -> & E2). specialize (M _ _ E2). cbn [length]. lia.
      * intros x y Ex. destruct (K _ _ Ex) as (x2 & -> & E2). exact (IH _ _ E2).
Qed.
Lemma find_encode p s : U p -> U s -> b_find (encode p) (encode s) = find p s.
Proof.
  intros Hp H. pose proof (find_refines p (encode p) s (encode s) (encode_ok p Hp) (encode_ok s H)) as R.
  pose proof (b_find_spec (encode p) (encode s)) as R'.
  destruct (find p s) as [n|], (b_find (encode p) (encode s)) as [n'|]; try reflexivity.
  - destruct R as [(x & y & E & L) M], R' as [(x' & y' & E' & L') M']. f_equal. specialize (M _ _ E'). specialize (M' _ _ E). lia.
  - destruct R as [(x & y & E & L) M]. destruct (R' _ _ E).
  - destruct R' as [(x & y & E & L) M]. destruct (R _ _ E).
Qed.

(** Patterns *)
Lemma b_lit_is x : b_lit x = lit x.
Proof. reflexivity. Qed.
Lemma starts_ascii p s : ascii_str p -> U s -> b_starts_with p (encode s) = starts_with p s.
Proof. intros Hp H. rewrite <- (encode_ascii p Hp) at 1. exact (starts_encode p s (ascii_scalar p Hp) H). Qed.
Lemma find_ascii p s : ascii_str p -> U s -> b_find p (encode s) = find p s.
Proof. intros Hp H. rewrite <- (encode_ascii p Hp) at 1. exact (find_encode p s (ascii_scalar p Hp) H). Qed.
Lemma keyword_ascii k : ascii_str (to_string_slice k).
Proof. destruct k; reflexivity. Qed.
Lemma keyword_len k : length (b_keyword k) = byte_len (to_string_slice k).
Proof. symmetry. exact (byte_len_ascii _ (keyword_ascii k)). Qed.

(** ** The recognisers *)

Definition pair_map {A B} (g : A -> B) (x : A * A) : B * B := (g (fst x), g (snd x)).
Definition fst_map {A B C} (g : A -> B) (x : A * C) : B * C := (g (fst x), snd x).
Definition encode_ml (r : ml_result) : ml_result :=
  match r with MlSome a b => MlSome (encode a) (encode b) | r => r end.

Section Code.
Variable s : str.
Hypothesis Hs : U s.
Ltac enc := repeat first
  [ rewrite slice_to_encode by exact Hs
  | rewrite slice_from_encode by exact Hs
  | rewrite slice_encode by exact Hs
  | rewrite chars_encode by exact Hs
  | rewrite keyword_len ].
Ltac fin := repeat match goal with
  | |- context [obind ?m _] => lazymatch m with omap _ ?m' => destruct m' | _ => destruct m end; cbn [omap obind option_map]
  end; try reflexivity.

Lemma one_char_encode c : c < 128 -> b_one_char c (encode s) = omap (option_map encode) (one_char c s).
Proof.
  intros Hc. unfold b_one_char, one_char.
  change (b_starts_with [c] (encode s)) with (b_starts_with (@cons char c (@nil char)) (encode s)).
  rewrite (starts_ascii (@cons char c (@nil char)) s) by (try exact Hs; unfold ascii_str; cbn [forallb]; rewrite andb_true_r; apply is_ascii_iff; exact Hc).
  destruct (starts_with (@cons char c (@nil char)) s); [|reflexivity]. enc. fin.
Qed.
Lemma single_encode : b_parse_single_line_comment (encode s) = omap (option_map (pair_map encode)) (parse_single_line_comment s).
Proof.
  unfold b_parse_single_line_comment, parse_single_line_comment. unfold b_keyword at 1.
  rewrite (starts_ascii _ s (keyword_ascii BTW) Hs). destruct (starts_with (to_string_slice BTW) s); [|reflexivity].
  change (b_find [c_nl] (encode s)) with (b_find (@cons char c_nl (@nil char)) (encode s)).
  rewrite (find_ascii (@cons char c_nl (@nil char)) s eq_refl Hs), (len_encode s Hs), keyword_len. cbv zeta.
  set (n := match find (@cons char c_nl (@nil char)) s with Some n => n | None => byte_len s end). enc. fin.
Qed.
Lemma multi_encode : b_parse_multi_line_comment (encode s) = omap encode_ml (parse_multi_line_comment s).
Proof.
  unfold b_parse_multi_line_comment, parse_multi_line_comment. unfold b_keyword at 1 2.
  rewrite (starts_ascii _ s (keyword_ascii OBTW) Hs). destruct (starts_with (to_string_slice OBTW) s); [|reflexivity].
  rewrite (find_ascii _ s (keyword_ascii TLDR) Hs). destruct (find (to_string_slice TLDR) s) as [n|]; [|reflexivity].
  rewrite !keyword_len. enc. fin.
Qed.
Lemma slot_encode : b_parse_bukkit_slot_access (encode s) = omap (option_map encode) (parse_bukkit_slot_access s).
Proof.
  unfold b_parse_bukkit_slot_access, parse_bukkit_slot_access. rewrite b_lit_is.
  rewrite (starts_ascii _ s) by (reflexivity || exact Hs). destruct (starts_with _ s); [|reflexivity]. enc. fin.
Qed.
Lemma ellipsis_encode : b_parse_ellipsis (encode s) = omap (option_map encode) (parse_ellipsis s).
Proof.
  unfold b_parse_ellipsis, parse_ellipsis. rewrite b_lit_is.
  rewrite (starts_ascii (lit "...") s) by (reflexivity || exact Hs). destruct (starts_with (lit "...") s); [enc; fin|].
  change b_ellipsis with (encode (@cons char c_ellipsis (@nil char))).
  assert (Hc : U (@cons char c_ellipsis (@nil char))) by (repeat constructor).
  rewrite (starts_encode _ s Hc Hs).
  destruct (starts_with (@cons char c_ellipsis (@nil char)) s); [|reflexivity]. enc. fin.
Qed.
Lemma boolean_encode : b_parse_boolean (encode s) = omap (option_map (fst_map encode)) (parse_boolean s).
Proof.
  unfold b_parse_boolean, parse_boolean. cbv zeta. rewrite !keyword_len. unfold b_keyword.
  rewrite (starts_ascii _ s (keyword_ascii WIN) Hs), (starts_ascii _ s (keyword_ascii FAIL) Hs).
  destruct (starts_with (to_string_slice WIN) s); [enc; fin|]. destruct (starts_with (to_string_slice FAIL) s); [|reflexivity]. enc. fin.
Qed.
Lemma noob_encode : b_parse_noob (encode s) = omap (option_map encode) (parse_noob s).
Proof.
  unfold b_parse_noob, parse_noob. cbv zeta. rewrite !keyword_len. unfold b_keyword.
  rewrite (starts_ascii _ s (keyword_ascii NOOB) Hs). destruct (starts_with (to_string_slice NOOB) s); [|reflexivity]. enc. fin.
Qed.
Lemma keyword_encode : b_parse_keyword (encode s) = omap (option_map (fst_map encode)) (parse_keyword s).
Proof.
  unfold b_parse_keyword, parse_keyword.
  assert (E : forall l, List.find (fun k => b_starts_with (b_keyword k) (encode s)) l =
                        List.find (fun k => starts_with (to_string_slice k) s) l).
  { induction l as [|k l IH]; [reflexivity|]. cbn [List.find]. unfold b_keyword at 1.
    rewrite (starts_ascii _ s (keyword_ascii k) Hs), IH. reflexivity. }
  rewrite E. destruct (List.find _ all_symbols) as [k|]; [|reflexivity]. rewrite keyword_len. enc. fin.
Qed.
Lemma identifier_encode : b_parse_identifier (encode s) = omap (option_map encode) (parse_identifier s).
Proof.
  unfold b_parse_identifier, parse_identifier. enc. cbv zeta. destruct (Nat.eqb _ 0); [reflexivity|]. enc. fin.
Qed.
Lemma string_encode : b_parse_string (encode s) = omap (option_map (pair_map encode)) (parse_string s).
Proof.
  unfold b_parse_string, parse_string. rewrite (chars_encode s Hs). cbv zeta.
  assert (K : forall rest,
    match string_end 1 rest with
    | Some index =>
      obind (b_slice_to (encode s) (index + 1)) (fun raw =>
      obind (b_slice (encode s) 1 index) (fun contents => Ret (Some (raw, contents))))
    | None => obind (b_slice_from (encode s) 1) (fun contents => Ret (Some (encode s, contents)))
    end = omap (option_map (pair_map encode))
    match string_end 1 rest with
    | Some index =>
      obind (slice_to s (index + 1)) (fun raw =>
      obind (slice s 1 index) (fun contents => Ret (Some (raw, contents))))
    | None => obind (slice_from s 1) (fun contents => Ret (Some (s, contents)))
    end).
  { intros rest. destruct (string_end 1 rest) as [i|]; enc; fin. }
  destruct s as [|c rest] eqn:E; [exact (K [])|]. destruct (negb (c =? c_quote)); [reflexivity|exact (K rest)].
Qed.

Lemma number_chars : forall i d (t : str) m e, number_position_m i d t = Some (m, e) ->
  exists a b, t = a ++ b /\ ascii_str a /\ m = (i + length a)%nat.
Proof.
  intros i d t. revert i d. induction t as [|c t IH]; intros i d m e; cbn [number_position_m]; [discriminate|].
  assert (K : is_ascii c = true -> forall d', number_position_m (S i) d' t = Some (m, e) ->
    exists a b, c :: t = a ++ b /\ ascii_str a /\ m = (i + length a)%nat).
  { intros Hc d' H. apply IH in H as (a & b & -> & Ha & ->). exists (c :: a), b. split; [reflexivity|].
    split; [apply ascii_cons; auto|]. cbn [length]. lia. }
  destruct (_ && is_sign c)%bool eqn:Es.
  - apply K. apply andb_true_iff in Es as [_ Es]. unfold is_sign, c_minus, c_plus in Es. unfold is_ascii. lia.
  - destruct (is_digit c) eqn:Ed.
    + apply K. unfold is_digit, c_zero, c_nine in Ed. unfold is_ascii. lia.
    + destruct (negb d && (c =? c_dot))%bool eqn:E.
      * apply K. apply andb_true_iff in E as [_ E]. unfold c_dot in E. unfold is_ascii. lia.
      * intros [= <- <-]. exists [], (c :: t). split; [reflexivity|]. split; [reflexivity|]. cbn [length]. lia.
Qed.
Lemma number_encode : b_parse_number (encode s) = omap (option_map (fst_map encode)) (parse_number_m s).
Proof.
  unfold b_parse_number, parse_number_m. enc.
  destruct (number_position_m 0 false s) as [[n d]|] eqn:E; [|reflexivity]. enc.
  apply number_chars in E as (a & b & -> & Ha & ->). rewrite slice_0.
  rewrite slice_to_app by (rewrite (byte_len_ascii a Ha); reflexivity). cbn [omap obind].
  rewrite (encode_ascii a Ha). unfold fst_map.
  destruct d; [destruct (parse_f32 a)|destruct (parse_i32 a)]; cbn [omap option_map fst snd]; rewrite ?(encode_ascii a Ha); reflexivity.
Qed.
End Code.

(** ** One step *)

Definition encode_step (r : step_result) : step_result :=
  match r with
  | SSkip code p => SSkip (encode code) p
  | SToken t code p => SToken (encode_token t) (encode code) p
  | r => r
  end.

Lemma position_add_encode b p raw : U raw -> b_position_add b p (encode raw) = position_add_m b p raw.
Proof. intros H. unfold b_position_add, position_add_m. rewrite (len_encode raw H), (chars_encode raw H). reflexivity. Qed.
Lemma make_encode b s p raw ty : U s -> U raw ->
  of_make (b_make_token b (encode s) p (encode raw) (encode_type ty)) = encode_step (of_make (make_token_m b s p raw ty)).
Proof.
  intros H Hr. unfold b_make_token, make_token_m. rewrite (position_add_encode b p raw Hr).
  destruct (position_add_m b p raw) as [p'|]; [|reflexivity]. cbn [obind]. rewrite (len_encode raw Hr), (slice_from_encode s _ H).
  destruct (slice_from s (byte_len raw)); reflexivity.
Qed.
Lemma try_encode {A B} b s p (m : outcome (option A)) (mb : outcome (option B)) (g : A -> B) raw rawb ty tyb k kb : U s ->
  mb = omap (option_map g) m ->
  (forall a, rawb (g a) = encode (raw a)) -> (forall a, tyb (g a) = encode_type (ty a)) ->
  (forall a, m = Ret (Some a) -> exists rest, s = raw a ++ rest) ->
  kb = encode_step k ->
  b_try_token b (encode s) p mb rawb tyb kb = encode_step (try_token_m b s p m raw ty k).
Proof.
  intros H -> Hr Ht Hp ->. unfold b_try_token, try_token_m. destruct m as [[a|]|]; cbn [omap option_map]; try reflexivity.
  rewrite Hr, Ht. apply make_encode; [exact H|]. destruct (Hp a eq_refl) as [rest E]. rewrite E in H. apply Forall_app in H as [H _]. exact H.
Qed.
Lemma number_prefix_m s a : parse_number_m s = Ret (Some a) -> exists rest, s = fst a ++ rest.
Proof. unfold parse_number_m. pre. Qed.

Theorem step_encode b s p : U s -> b_lex_step b (encode s) p = encode_step (lex_step_m b s p).
Proof.
  intros H. unfold b_lex_step, lex_step_m. rewrite (chars_encode s H).
  destruct (parse_whitespace_m b s p) as [[n p']|]; [|reflexivity].
  destruct (Nat.ltb 0 n).
  { rewrite (slice_from_encode s n H). destruct (slice_from s n); reflexivity. }
  eapply try_encode; [exact H|apply (one_char_encode s H); reflexivity|reflexivity|reflexivity|intros a; apply one_char_prefix|].
  eapply try_encode; [exact H|apply (one_char_encode s H); reflexivity|reflexivity|reflexivity|intros a; apply one_char_prefix|].
  eapply try_encode; [exact H|apply (one_char_encode s H); reflexivity|reflexivity|reflexivity|intros a; apply one_char_prefix|].
  eapply try_encode; [exact H|apply (single_encode s H)|reflexivity|reflexivity|intros a; apply single_prefix|].
  rewrite (multi_encode s H). destruct (parse_multi_line_comment s) as [[| |raw x]|] eqn:E; cbn [omap encode_ml]; try reflexivity.
  1:{ rewrite (position_add_encode b p s H). destruct (position_add_m b p s); reflexivity. }
  2:{ apply (make_encode b s p raw (TCommentMultiLine x) H). destruct (multi_prefix _ _ _ E) as [rest ->].
      apply Forall_app in H as [H _]. exact H. }
  eapply try_encode; [exact H|apply (slot_encode s H)|reflexivity|reflexivity|intros a; apply slot_prefix|].
  eapply try_encode; [exact H|apply (ellipsis_encode s H)|reflexivity|reflexivity|intros a; apply ellipsis_prefix|].
  eapply try_encode; [exact H|apply (boolean_encode s H)|reflexivity|reflexivity|intros a; apply boolean_prefix|].
  eapply try_encode; [exact H|apply (noob_encode s H)|reflexivity|reflexivity|intros a; apply noob_prefix|].
  eapply try_encode; [exact H|apply (keyword_encode s H)|reflexivity|reflexivity|intros a; apply keyword_prefix|].
  eapply try_encode; [exact H|apply (number_encode s H)|reflexivity|reflexivity|intros a; apply number_prefix_m|].
  eapply try_encode; [exact H|apply (string_encode s H)|reflexivity|reflexivity|intros a; apply string_prefix|].
  eapply try_encode; [exact H|apply (identifier_encode s H)|reflexivity|reflexivity|intros a; apply identifier_prefix|].
  rewrite (slice_to_encode s 1 H). destruct (slice_to s 1) as [raw|] eqn:Es; [|reflexivity].
  apply (make_encode b s p raw (TSymbol raw) H). destruct (slice_to_prefix _ _ _ Es) as [rest ->].
  apply Forall_app in H as [H _]. exact H.
Qed.

(** ** The loop *)

Inductive rest_of (s : str) : step_result -> Prop :=
| rest_skip a r p : s = a ++ r -> a <> [] -> rest_of s (SSkip r p)
| rest_token a t r p : s = a ++ r -> a <> [] -> rest_of s (SToken t r p)
| rest_error e : rest_of s (SError e)
| rest_panic : rest_of s SPanic.

Lemma rest_make b s p raw ty : raw <> [] -> (exists r, s = raw ++ r) -> rest_of s (of_make (make_token_m b s p raw ty)).
Proof.
  intros Hr [r ->]. unfold make_token_m. destruct (position_add_m b p raw) as [p'|]; [|constructor]. cbn [obind].
  rewrite slice_from_app by reflexivity. cbn [obind of_make]. econstructor; [reflexivity|exact Hr].
Qed.
Lemma rest_try {A} b s p (m : outcome (option A)) raw ty k :
  (forall a, m = Ret (Some a) -> exists r, s = raw a ++ r) -> (forall a, m = Ret (Some a) -> raw a <> []) ->
  rest_of s k -> rest_of s (try_token_m b s p m raw ty k).
Proof.
  intros Hp Hn Hk. unfold try_token_m. destruct m as [[a|]|]; [|exact Hk|constructor].
  apply rest_make; [exact (Hn a eq_refl)|exact (Hp a eq_refl)].
Qed.
Lemma slice_to_nonempty s n raw : slice_to s (S n) = Ret raw -> raw <> [].
Proof. intros H ->. apply slice_to_inv in H as (b & _ & H). discriminate H. Qed.
Lemma slice_to_nonempty' s n raw : (0 < n)%nat -> slice_to s n = Ret raw -> raw <> [].
Proof. destruct n; [lia|]. intros _. apply slice_to_nonempty. Qed.
Lemma keyword_pos k : (0 < byte_len (to_string_slice k))%nat.
Proof. destruct k; cbn; lia. Qed.
Lemma ws_len b s : forall p n p', parse_whitespace_m b s p = Ret (n, p') -> exists a r, s = a ++ r /\ ascii_str a /\ length a = n.
Proof.
  induction s as [|c s IH]; intros p n p' H; cbn [parse_whitespace_m] in H.
  - injection H as <- _. exists [], []. repeat split.
  - destruct (N.eqb_spec c c_nl) as [->|N1].
    + destruct (add_i32 b (line p) 1); [|discriminate H]. cbn [obind] in H.
      destruct (add_i32 b (bytes p) _); [|discriminate H]. cbn [obind] in H.
      destruct (add_i32 b (chars p) 1); [|discriminate H]. cbn [obind] in H.
      destruct (parse_whitespace_m b s _) as [[m q]|] eqn:E; [|discriminate H]. cbn [obind fst snd] in H. injection H as <- _.
      apply IH in E as (x & r & -> & Hx & <-). exists (c_nl :: x), r. split; [reflexivity|]. split; [apply ascii_cons; auto|reflexivity].
    + destruct (N.eqb c c_space || N.eqb c c_tab)%bool eqn:Ec.
      * destruct (add_i32 b (column p) 1); [|discriminate H]. cbn [obind] in H.
        destruct (add_i32 b (bytes p) _); [|discriminate H]. cbn [obind] in H.
        destruct (add_i32 b (chars p) 1); [|discriminate H]. cbn [obind] in H.
        destruct (parse_whitespace_m b s _) as [[m q]|] eqn:E; [|discriminate H]. cbn [obind fst snd] in H. injection H as <- _.
        apply IH in E as (x & r & -> & Hx & <-). exists (c :: x), r. split; [reflexivity|]. split; [|reflexivity].
        apply ascii_cons. split; [|exact Hx]. unfold is_ascii, c_space, c_tab in *. lia.
      * injection H as <- _. exists [], (c :: s). repeat split.
Qed.

Ltac some_inv := repeat match goal with
  | |- (if ?b then _ else _) = _ -> _ => destruct b
  | |- match ?m with Some _ => _ | None => _ end = _ -> _ => destruct m
  | |- obind ?m _ = _ -> _ => let E := fresh "E" in destruct m eqn:E; cbn [obind]
  | |- Ret (Some _) = Ret (Some _) -> _ => intros [= <-]; cbn [fst]
  | |- Ret None = Ret (Some _) -> _ => discriminate
  | |- Panic = _ -> _ => discriminate
  end.

Theorem step_rest b s p : s <> [] -> rest_of s (lex_step_m b s p).
Proof.
  intros Hs. unfold lex_step_m. destruct (parse_whitespace_m b s p) as [[n p']|] eqn:E; [|constructor].
  destruct (Nat.ltb_spec 0 n) as [L|L].
  { apply ws_len in E as (a & r & -> & Ha & <-). rewrite slice_from_app by (rewrite (byte_len_ascii a Ha); reflexivity).
    econstructor; [reflexivity|]. intros ->. cbn in L. lia. }
  apply rest_try; [intros a; apply one_char_prefix|intros a; unfold one_char; some_inv; exact (slice_to_nonempty _ _ _ E0)|].
  apply rest_try; [intros a; apply one_char_prefix|intros a; unfold one_char; some_inv; exact (slice_to_nonempty _ _ _ E0)|].
  apply rest_try; [intros a; apply one_char_prefix|intros a; unfold one_char; some_inv; exact (slice_to_nonempty _ _ _ E0)|].
  apply rest_try; [intros a; apply single_prefix| |].
  { intros a. unfold parse_single_line_comment. set (n' := match find _ s with Some n => n | None => byte_len s end).
    destruct (starts_with _ s); [|discriminate]. cbv zeta. some_inv.
    refine (slice_to_nonempty' _ _ _ _ E1). apply slice_inv in E0 as (x & z & _ & Lx & Ln). pose proof (keyword_pos BTW). lia. }
  destruct (parse_multi_line_comment s) as [[| |raw x]|] eqn:Em; [destruct (position_add_m b p s); constructor| |apply rest_make|constructor].
  2:{ revert Em. unfold parse_multi_line_comment. destruct (starts_with _ s); [|discriminate]. destruct (find _ s) as [m|]; [|discriminate].
      destruct (slice s _ m); [|discriminate]. cbn [obind]. destruct (slice_to s _) as [y|] eqn:Es; [|discriminate]. cbn [obind].
      intros [= <- _]. refine (slice_to_nonempty' _ _ _ _ Es). pose proof (keyword_pos TLDR). lia. }
  2:{ exact (multi_prefix _ _ _ Em). }
  apply rest_try; [intros a; apply slot_prefix|intros a; unfold parse_bukkit_slot_access; some_inv; exact (slice_to_nonempty _ _ _ E0)|].
  apply rest_try; [intros a; apply ellipsis_prefix|intros a; unfold parse_ellipsis; some_inv; exact (slice_to_nonempty _ _ _ E0)|].
  apply rest_try; [intros a; apply boolean_prefix|intros a; unfold parse_boolean; cbv zeta; some_inv; exact (slice_to_nonempty' _ _ _ (keyword_pos _) E0)|].
  apply rest_try; [intros a; apply noob_prefix|intros a; unfold parse_noob; cbv zeta; some_inv; exact (slice_to_nonempty' _ _ _ (keyword_pos _) E0)|].
  apply rest_try; [intros a; apply keyword_prefix|intros a; unfold parse_keyword; some_inv; rewrite slice_0 in E0; exact (slice_to_nonempty' _ _ _ (keyword_pos _) E0)|].
  apply rest_try; [intros a; apply number_prefix_m| |].
  { intros a. unfold parse_number_m. destruct (number_position_m 0 false s) as [[m d]|]; [|discriminate].
    destruct (slice s 0 m) as [x|]; [|discriminate]. cbn [obind]. destruct x as [|c x].
    - destruct d; discriminate.
    - destruct d; [destruct (parse_f32 _)|destruct (parse_i32 _)]; try discriminate; intros [= <-]; discriminate. }
  apply rest_try; [intros a; apply string_prefix| |].
  { intros a. unfold parse_string. cbv zeta. destruct s as [|c r]; [contradiction|]. destruct (negb (N.eqb c c_quote)); [discriminate|].
    some_inv; [|discriminate]. refine (slice_to_nonempty' _ _ _ _ E0). lia. }
  apply rest_try; [intros a; apply identifier_prefix| |].
  { intros a. unfold parse_identifier. cbv zeta. destruct (Nat.eqb_spec (count_while is_ident_char s) 0) as [|N0]; [discriminate|].
    some_inv. refine (slice_to_nonempty' _ _ _ _ E0). lia. }
  destruct (slice_to s 1) as [raw|] eqn:Es; [|constructor]. apply rest_make; [exact (slice_to_nonempty _ _ _ Es)|exact (slice_to_prefix _ _ _ Es)].
Qed.

Lemma loop_fuel b : forall n s p n', (length s < n)%nat -> (length s < n')%nat ->
  tokenize_loop_m b n s p = tokenize_loop_m b n' s p /\ tokenize_loop_m b n s p <> LexFuel.
Proof.
  induction n as [|n IH]; intros s p n' L L'; [lia|]. destruct n' as [|n']; [lia|]. cbn [tokenize_loop_m].
  destruct s as [|c s]; [split; [reflexivity|discriminate]|].
  pose proof (step_rest b (c :: s) p ltac:(discriminate)) as R. set (r := lex_step_m b (c :: s) p) in *. clearbody r.
  assert (K : forall a t q, c :: s = a ++ t -> a <> [] -> tokenize_loop_m b n t q = tokenize_loop_m b n' t q /\ tokenize_loop_m b n t q <> LexFuel).
  { intros a t q E Ha. apply (f_equal (@length char)) in E. rewrite (app_length a) in E. cbn [length] in E, L, L'. destruct a; [contradiction|].
    cbn [length] in E. unfold str, char in *. apply IH; lia. }
  destruct R as [a t q E Ha|a tok t q E Ha|e|]; try (split; [reflexivity|discriminate]).
  - exact (K a t q E Ha).
  - destruct (K a t q E Ha) as [E1 N0]. rewrite <- E1. split; [reflexivity|].
    destruct (tokenize_loop_m b n t q); try discriminate. contradiction N0. reflexivity.
Qed.
Theorem tokenize_m_total b s : tokenize_m b s <> LexFuel.
Proof. unfold tokenize_m. apply (loop_fuel b _ s position_start (S (length s))); apply Nat.lt_succ_diag_r. Qed.

Lemma encode_nil s : encode s = [] -> U s -> s = [].
Proof. intros E H. pose proof (len_encode s H) as L. rewrite E in L. apply byte_len_0. symmetry. exact L. Qed.
Lemma loop_encode b : forall n s p, U s -> b_tokenize_loop b n (encode s) p = encode_lex (tokenize_loop_m b n s p).
Proof.
  induction n as [|n IH]; intros s p H; [reflexivity|]. cbn [b_tokenize_loop tokenize_loop_m].
  rewrite (step_encode b s p H). destruct s as [|c s]; [reflexivity|].
  destruct (encode (c :: s)) as [|x bs] eqn:E; [apply encode_nil in E; [discriminate E|exact H]|]. clear x bs E.
  pose proof (step_rest b (c :: s) p ltac:(discriminate)) as R. destruct R as [a t q E Ha|a tok t q E Ha|e|]; cbn [encode_step]; try reflexivity.
  - apply IH. rewrite E in H. apply Forall_app in H. apply H.
  - rewrite IH; [destruct (tokenize_loop_m b n t q); reflexivity|]. rewrite E in H. apply Forall_app in H. apply H.
Qed.
Theorem tokenize_encode b s : U s -> b_tokenize b (encode s) = encode_lex (tokenize_m b s).
Proof.
  intros H. unfold b_tokenize, tokenize_m. rewrite (loop_encode b _ s _ H).
  assert (L : (length s < S (length (encode s)))%nat) by (rewrite (len_encode s H); exact (le_n_S _ _ (byte_len_ge s))).
  rewrite (proj1 (loop_fuel b _ s position_start (S (length s)) L (Nat.lt_succ_diag_r _))). reflexivity.
Qed.

(** ** The parser *)

Lemma encode_kind t : tok_kind (encode_token t) = tok_kind t.
Proof.
  unfold tok_kind, encode_token. cbn [tok_type]. destruct (tok_type t) as [x|k|x|[]|x|x| | | | |]; try reflexivity.
  cbn [encode_type kind_of]. destruct x as [|c x]; [reflexivity|].
  assert (C1 : (exists h, encode_char c = [h] /\ h = c /\ c < 128) \/ (128 <= c /\ exists h h' r, encode_char c = h :: h' :: r)).
  { unfold encode_char. destruct (N.ltb_spec c 128); [left; exists c; auto|right; split; [assumption|]].
    destruct (c <? 2048); [eauto|]. destruct (c <? 65536); eauto. }
  unfold encode. cbn [flat_map]. destruct C1 as [(h & -> & -> & _)|(Hc & h & h' & r & ->)]; cbn [app].
  - destruct x as [|d x]; [reflexivity|]. cbn [flat_map]. destruct (encode_char d) as [|y ys] eqn:Ed; [|reflexivity].
    exfalso. revert Ed. unfold encode_char. destruct (d <? 128), (d <? 2048), (d <? 65536); discriminate.
  - destruct x; [|reflexivity]. destruct (N.eqb_spec c 63) as [->|_]; [lia|reflexivity].
Qed.

Lemma encode_comma t : is_comma (encode_token t) = is_comma t.
Proof. destruct t as [[ | | |[]| | | | | | |] r]; reflexivity. Qed.
Lemma encode_is_ellipsis t : is_ellipsis (encode_token t) = is_ellipsis t.
Proof. destruct t as [[ | | |[]| | | | | | |] r]; reflexivity. Qed.
Lemma lines_encode ts : logical_lines (map encode_token ts) = map (map encode_token) (logical_lines ts).
Proof.
  assert (H : statements (map encode_token ts) = map (map encode_token) (statements ts)).
  { unfold statements. rewrite chunks_map by (intros t u; unfold joined; rewrite !encode_comma, encode_is_ellipsis; reflexivity).
    rewrite (filter_map_gen (map encode_token) _ (fun g => negb (existsb is_comma g))).
    - rewrite !map_map. apply map_ext. intros l. apply filter_map_gen. intros t. rewrite encode_is_ellipsis. reflexivity.
    - intros l. f_equal. induction l as [|t l IH]; [reflexivity|]. cbn [map existsb]. rewrite encode_comma, IH. reflexivity. }
  unfold logical_lines. destruct ts as [|t ts]; [reflexivity|]. cbn [map] in *. rewrite encode_comma.
  destruct (is_comma t); cbn [map]; rewrite H; reflexivity.
Qed.
Theorem parse_encode ts : parse (map encode_token ts) = map_result encode_token (parse ts).
Proof. rewrite !parse_logical_lines, lines_encode. apply parse_logical_map, encode_kind. Qed.
Theorem api_encode b s : U s -> b_tokenize_and_parse b (encode s) = encode_api (tokenize_and_parse_m b s).
Proof.
  intros H. unfold b_tokenize_and_parse, tokenize_and_parse_m. rewrite (tokenize_encode b s H).
  destruct (tokenize_m b s) as [ts| | |]; cbn [encode_lex]; try reflexivity. rewrite parse_encode. destruct (parse ts); reflexivity.
Qed.

(** ** Texts *)

Definition good_text (t : token) : Prop := forall x, text_in (tok_type t) = Some x -> U x.
Definition good_step (r : step_result) : Prop := match r with SToken t _ _ => good_text t | _ => True end.
Lemma good_make b s p raw ty : (forall x, text_in ty = Some x -> U x) -> good_step (of_make (make_token_m b s p raw ty)).
Proof.
  intros H. unfold make_token_m. destruct (position_add_m b p raw); [|exact I]. cbn [obind].
  destruct (slice_from s (byte_len raw)); [exact H|exact I].
Qed.
Lemma good_try {A} b s p (m : outcome (option A)) raw ty k : (forall a x, m = Ret (Some a) -> text_in (ty a) = Some x -> U x) ->
  good_step k -> good_step (try_token_m b s p m raw ty k).
Proof. intros H Hk. unfold try_token_m. destruct m as [[a|]|]; [|exact Hk|exact I]. apply good_make. intros x. exact (H a x eq_refl). Qed.
Lemma slice_U s n m x : U s -> slice s n m = Ret x -> U x.
Proof. intros H E. apply slice_inv in E as (a & c & -> & _). apply Forall_app in H as [_ H]. apply Forall_app in H as [H _]. exact H. Qed.
Lemma slice_to_U s n x : U s -> slice_to s n = Ret x -> U x.
Proof. intros H E. apply slice_to_inv in E as (c & -> & _). apply Forall_app in H as [H _]. exact H. Qed.
Lemma slice_from_U s n x : U s -> slice_from s n = Ret x -> U x.
Proof. intros H E. apply slice_from_inv in E as (c & -> & _). apply Forall_app in H as [_ H]. exact H. Qed.
Lemma step_good b s p : U s -> good_step (lex_step_m b s p).
Proof.
  intros H. unfold lex_step_m. destruct (parse_whitespace_m b s p) as [[n p']|]; [|exact I].
  destruct (Nat.ltb 0 n); [destruct (slice_from s n); exact I|].
  apply good_try; [discriminate|]. apply good_try; [discriminate|]. apply good_try; [discriminate|].
  apply good_try.
  { intros a x. unfold parse_single_line_comment. destruct (starts_with _ s); [|discriminate]. cbv zeta. some_inv.
    intros [= <-]. cbn [snd]. exact (slice_U _ _ _ _ H E). }
  destruct (parse_multi_line_comment s) as [[| |raw x]|] eqn:E; [destruct (position_add_m b p s); exact I| |apply good_make|exact I].
  2:{ revert E. unfold parse_multi_line_comment. destruct (starts_with _ s); [|discriminate]. destruct (find _ s) as [m|]; [|discriminate].
      destruct (slice s _ m) as [y|] eqn:E; [|discriminate]. cbn [obind]. destruct (slice_to s _); [|discriminate]. cbn [obind].
      intros [= _ <-] z [= <-]. exact (slice_U _ _ _ _ H E). }
  apply good_try; [discriminate|]. apply good_try; [discriminate|]. apply good_try; [discriminate|].
  apply good_try; [discriminate|]. apply good_try; [discriminate|]. apply good_try; [discriminate|].
  apply good_try.
  { intros a x. unfold parse_string. cbv zeta. destruct s as [|c r]; [discriminate|]. destruct (negb (N.eqb c c_quote)); [discriminate|].
    some_inv; intros [= <-]; cbn [snd]; [exact (slice_U _ _ _ _ H E1)|exact (slice_from_U _ _ _ H E0)]. }
  apply good_try.
  { intros a x. unfold parse_identifier. cbv zeta. destruct (Nat.eqb _ 0); [discriminate|]. some_inv.
    intros [= <-]. exact (slice_to_U _ _ _ H E0). }
  destruct (slice_to s 1) as [raw|] eqn:Es; [|exact I]. apply good_make. intros x [= <-]. exact (slice_to_U _ _ _ H Es).
Qed.
Lemma loop_good b : forall n s p ts, U s -> tokenize_loop_m b n s p = LexOk ts -> Forall good_text ts.
Proof.
  induction n as [|n IH]; intros s p ts H; cbn [tokenize_loop_m]; [discriminate|]. destruct s as [|c s]; [intros [= <-]; constructor|].
  pose proof (step_good b (c :: s) p H) as G.
  pose proof (step_rest b (c :: s) p ltac:(discriminate)) as R. destruct R as [a t q E Ha|a tok t q E Ha|e|]; try discriminate.
  - apply IH. rewrite E in H. apply Forall_app in H. apply H.
  - destruct (tokenize_loop_m b n t q) as [us| | |] eqn:El; try discriminate. intros [= <-]. constructor; [exact G|].
    apply (IH t q); [|exact El]. rewrite E in H. apply Forall_app in H. apply H.
Qed.
Theorem texts_encode b s bs ts t x : Utf8 s bs -> b_tokenize b bs = LexOk ts -> In t ts -> text_in (tok_type t) = Some x ->
  exists y, Utf8 y x.
Proof.
  intros H E Ht Hx. apply encode_iff in H as [H ->]. rewrite (tokenize_encode b s H) in E.
  destruct (tokenize_m b s) as [us| | |] eqn:Em; try discriminate E. injection E as <-. apply in_map_iff in Ht as (u & <- & Hu).
  unfold tokenize_m in Em. apply (loop_good b _ _ _ _ H) in Em. rewrite Forall_forall in Em. specialize (Em u Hu).
  unfold good_text in Em. cbn [encode_token tok_type] in Hx.
  assert (K : exists y, text_in (tok_type u) = Some y /\ x = encode y).
  { destruct (tok_type u) as [y|k|y|[]|y|y| | | | |]; try discriminate Hx; injection Hx as <-; eexists; split; reflexivity. }
  destruct K as (y & Ey & ->). exists y. apply encode_ok, Em, Ey.
Qed.
