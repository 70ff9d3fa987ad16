(** Facts about the string operations of [Str]. *)
From Coq Require Import ZifyBool ZifyNat ZifyN.
From Verif Require Export Str.

Lemma utf8_len_pos c : 0 < utf8_len c.
Proof. unfold utf8_len; repeat destruct (N.ltb _ _); lia. Qed.

Lemma utf8_len_ascii c : is_ascii c = true -> utf8_len c = 1.
Proof. unfold is_ascii, utf8_len; intros ->; reflexivity. Qed.

Lemma utf8_len_1 c : utf8_len c = 1 -> is_ascii c = true.
Proof.
  unfold is_ascii, utf8_len. destruct (N.ltb c 128); [reflexivity|].
  destruct (N.ltb c 2048); [discriminate|]. destruct (N.ltb c 65536); discriminate.
Qed.

Lemma byte_len_app a b : byte_len (a ++ b) = byte_len a + byte_len b.
Proof. induction a as [|c a IH]; cbn [byte_len app]; lia. Qed.

Lemma byte_len_ge s : length s <= byte_len s.
Proof. induction s as [|c s IH]; cbn [byte_len length]; [lia|]. pose proof (utf8_len_pos c); lia. Qed.

Lemma byte_len_0 s : byte_len s = 0 -> s = [].
Proof. destruct s as [|c s]; [reflexivity|]. cbn. pose proof (utf8_len_pos c); lia. Qed.

Lemma ascii_cons c s : ascii_str (c :: s) <-> is_ascii c = true /\ ascii_str s.
Proof. unfold ascii_str; cbn [forallb]. rewrite andb_true_iff. tauto. Qed.

Lemma ascii_app a b : ascii_str (a ++ b) <-> ascii_str a /\ ascii_str b.
Proof. unfold ascii_str. rewrite forallb_app, andb_true_iff. tauto. Qed.

Lemma ascii_nil : ascii_str [].
Proof. reflexivity. Qed.

Lemma byte_len_ascii s : ascii_str s -> byte_len s = length s.
Proof.
  induction s as [|c s IH]; [reflexivity|]. rewrite ascii_cons; intros [Hc Hs].
  cbn [byte_len length]. rewrite (utf8_len_ascii c Hc), (IH Hs); reflexivity.
Qed.

(** ** Splitting *)

Lemma split_bytes_0 s : split_bytes 0 s = Some ([], s).
Proof. destruct s; reflexivity. Qed.

Lemma split_bytes_app a b : split_bytes (byte_len a) (a ++ b) = Some (a, b).
Proof.
  induction a as [|c a IH]; cbn [byte_len app]; [apply split_bytes_0|].
  pose proof (utf8_len_pos c).
  remember (utf8_len c + byte_len a) as n eqn:Hn.
  destruct n as [|n]; [lia|]. cbn [split_bytes].
  replace (Nat.leb (utf8_len c) (S n)) with true by (symmetry; apply Nat.leb_le; lia).
  replace (S n - utf8_len c) with (byte_len a) by lia.
  rewrite IH; reflexivity.
Qed.

Lemma split_bytes_inv s : forall n a b,
  split_bytes n s = Some (a, b) -> s = a ++ b /\ byte_len a = n.
Proof.
  induction s as [|c s IH]; intros n a b H.
  - destruct n; cbn in H; [|discriminate]. injection H as <- <-; auto.
  - destruct n as [|n]; cbn [split_bytes] in H.
    + injection H as <- <-; auto.
    + destruct (Nat.leb_spec (utf8_len c) (S n)); [|discriminate].
      destruct (split_bytes (S n - utf8_len c) s) as [[a' b']|] eqn:E; [|discriminate].
      injection H as <- <-. apply IH in E as [-> Hl]. cbn [app byte_len]. split; [reflexivity|lia].
Qed.

Lemma slice_to_app a b n : n = byte_len a -> slice_to (a ++ b) n = Ret a.
Proof. intros ->. unfold slice_to. rewrite split_bytes_app; reflexivity. Qed.

Lemma slice_from_app a b n : n = byte_len a -> slice_from (a ++ b) n = Ret b.
Proof. intros ->. unfold slice_from. rewrite split_bytes_app; reflexivity. Qed.

Lemma slice_to_inv s n a : slice_to s n = Ret a -> exists b, s = a ++ b /\ byte_len a = n.
Proof.
  unfold slice_to. destruct (split_bytes n s) as [[a' b]|] eqn:E; [|discriminate].
  intros H; injection H as <-. exists b. apply split_bytes_inv; assumption.
Qed.

Lemma slice_from_inv s n b : slice_from s n = Ret b -> exists a, s = a ++ b /\ byte_len a = n.
Proof.
  unfold slice_from. destruct (split_bytes n s) as [[a b']|] eqn:E; [|discriminate].
  intros H; injection H as <-. exists a. apply split_bytes_inv; assumption.
Qed.

Lemma slice_app a b c m n :
  m = byte_len a -> n = byte_len a + byte_len b -> slice (a ++ b ++ c) m n = Ret b.
Proof.
  intros -> ->. unfold slice.
  replace (Nat.leb _ _) with true by (symmetry; apply Nat.leb_le; lia).
  rewrite slice_from_app by reflexivity. cbn [obind].
  apply slice_to_app. lia.
Qed.

Lemma slice_inv s m n b :
  slice s m n = Ret b ->
  exists a c, s = a ++ b ++ c /\ byte_len a = m /\ n = byte_len a + byte_len b.
Proof.
  unfold slice. destruct (Nat.leb_spec m n); [|discriminate].
  destruct (slice_from s m) as [s'|] eqn:E; [|discriminate]. cbn [obind]. intros H'.
  apply slice_from_inv in E as (a & -> & Ha). apply slice_to_inv in H' as (c & -> & Hb).
  exists a, c. split; [reflexivity|]. lia.
Qed.

Lemma slice_0 s n : slice s 0 n = slice_to s n.
Proof.
  unfold slice, slice_from. rewrite split_bytes_0. cbn [Nat.leb obind].
  rewrite Nat.sub_0_r; reflexivity.
Qed.

Lemma app_byte_len_inv a b a' b' :
  a ++ b = a' ++ b' -> byte_len a = byte_len a' -> a = a' /\ b = b'.
Proof.
  intros H Hl. pose proof (split_bytes_app a b) as H1. rewrite H, Hl, split_bytes_app in H1.
  injection H1; auto.
Qed.

Lemma app_length_inv {A} (a b a' b' : list A) :
  a ++ b = a' ++ b' -> length a = length a' -> a = a' /\ b = b'.
Proof.
  revert a'. induction a as [|x a IH]; intros [|y a'] H Hl; try discriminate; auto.
  cbn in *. injection H as -> H. destruct (IH a' H) as [-> ->]; [lia|]. auto.
Qed.

(** ** Prefixes *)

Lemma starts_with_app p s : starts_with p (p ++ s) = true.
Proof. induction p as [|c p IH]; cbn [starts_with app]; [reflexivity|]. rewrite N.eqb_refl, IH; reflexivity. Qed.

Lemma starts_with_inv p : forall s, starts_with p s = true -> exists t, s = p ++ t.
Proof.
  induction p as [|c p IH]; intros s H; [exists s; reflexivity|].
  destruct s as [|d s]; cbn in H; [discriminate|].
  apply andb_true_iff in H as [Hc H]. apply N.eqb_eq in Hc as ->.
  destruct (IH s H) as [t ->]. exists t; reflexivity.
Qed.

Lemma starts_with_iff p s : starts_with p s = true <-> exists t, s = p ++ t.
Proof. split; [apply starts_with_inv|]. intros [t ->]; apply starts_with_app. Qed.

Lemma starts_with_false p s : starts_with p s = false <-> ~ exists t, s = p ++ t.
Proof. rewrite <- starts_with_iff. destruct (starts_with p s); split; congruence. Qed.

(** ** Searching *)

(** [p] occurs at the end of [a] in [a ++ p ++ b]; it is the first occurrence
    when it does not occur at any earlier place. *)
Definition first_at (p a s : str) : Prop :=
  (exists b, s = a ++ p ++ b) /\
  forall a' b', s = a' ++ p ++ b' -> length a <= length a'.

Lemma find_some p : forall s n,
  find p s = Some n -> exists a, first_at p a s /\ byte_len a = n.
Proof.
  induction s as [|c s IH]; intros n H; cbn [find] in H.
  - destruct (starts_with p []) eqn:E; [|discriminate]. injection H as <-.
    apply starts_with_inv in E as [t E]. exists []. split; [|reflexivity].
    split; [exists t; exact E|]. intros; cbn; lia.
  - destruct (starts_with p (c :: s)) eqn:E.
    + injection H as <-. apply starts_with_inv in E as [t E]. exists []. split; [|reflexivity].
      split; [exists t; exact E|]. intros; cbn; lia.
    + destruct (find p s) as [m|]; [|discriminate]. injection H as <-.
      destruct (IH m eq_refl) as (a & [[b Hb] Hmin] & Hl).
      exists (c :: a). cbn [byte_len]. split; [|lia]. split.
      * exists b. rewrite Hb; reflexivity.
      * intros [|d a'] b' Heq; cbn [app] in Heq.
        -- exfalso. rewrite Heq, starts_with_app in E; discriminate.
        -- injection Heq as _ Heq. apply Hmin in Heq. cbn [length]; lia.
Qed.

Lemma find_none p : forall s, find p s = None -> forall a b, s <> a ++ p ++ b.
Proof.
  induction s as [|c s IH]; intros H a b Heq; cbn [find] in H.
  - destruct (starts_with p []) eqn:E; [discriminate|].
    symmetry in Heq. apply app_eq_nil in Heq as [-> Hp].
    apply app_eq_nil in Hp as [-> ->]. discriminate.
  - destruct (starts_with p (c :: s)) eqn:E; [discriminate|].
    destruct (find p s) as [m|] eqn:F; [discriminate|].
    destruct a as [|d a]; cbn [app] in Heq.
    + rewrite Heq, starts_with_app in E; discriminate.
    + injection Heq as _ Heq. exact (IH eq_refl a b Heq).
Qed.

Lemma find_first p a s : first_at p a s -> find p s = Some (byte_len a).
Proof.
  intros [[b Hb] Hmin]. destruct (find p s) as [n|] eqn:F.
  - apply find_some in F as (a' & [[b' Hb'] Hmin'] & <-).
    pose proof (Hmin a' b' Hb'). pose proof (Hmin' a b Hb).
    f_equal. f_equal. rewrite Hb in Hb'.
    destruct (app_length_inv _ _ _ _ Hb') as [-> _]; [lia|reflexivity].
  - exfalso. exact (find_none p s F a b Hb).
Qed.

(** ** Runs *)

Lemma count_while_spec p s :
  exists a b, s = a ++ b /\ length a = count_while p s /\ forallb p a = true /\
              match b with c :: _ => p c = false | [] => True end.
Proof.
  induction s as [|c s IH]; [exists [], []; auto|]. cbn [count_while].
  destruct (p c) eqn:E.
  - destruct IH as (a & b & -> & Hl & Ha & Hb). exists (c :: a), b.
    cbn [app length forallb]. rewrite E, Ha. auto.
  - exists [], (c :: s). cbn. auto.
Qed.

Lemma count_while_app p a b :
  forallb p a = true -> match b with c :: _ => p c = false | [] => True end ->
  count_while p (a ++ b) = length a.
Proof.
  intros Ha Hb. induction a as [|c a IH]; cbn [app count_while length forallb] in *.
  - destruct b as [|c b]; [reflexivity|]. cbn [count_while]; rewrite Hb; reflexivity.
  - apply andb_true_iff in Ha as [-> Ha]. rewrite (IH Ha); reflexivity.
Qed.
