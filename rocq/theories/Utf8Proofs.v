(** Proofs about the bytes of strings (C83). *)
From Coq Require Import String Lia.
From Verif Require Import Str Utf8 StrFacts Lexer LexSpec LexPropSpec LexProofs LexProps LexProps2 LexProps3.
Local Open Scope string_scope.
Local Open Scope list_scope.
Local Open Scope N_scope.

(** ** Characters *)

(* [injection] would compute with the bytes. *)
Lemma cons_eq {A} (a b : A) l m : a :: l = b :: m -> a = b /\ l = m.
Proof. intros E. injection E. auto. Qed.
Ltac cons_inv E := repeat (let Eh := fresh "Eh" in apply cons_eq in E as [Eh E]).

Lemma char_len c bs : Utf8Char c bs -> length bs = utf8_len c.
Proof.
  intros H. destruct H; unfold utf8_len; cbn [length].
  - destruct (N.ltb_spec c 128); [reflexivity|lia].
  - destruct (N.ltb_spec c 128); [lia|]. destruct (N.ltb_spec c 2048); [reflexivity|lia].
  - destruct (N.ltb_spec c 128); [lia|]. destruct (N.ltb_spec c 2048); [lia|]. destruct (N.ltb_spec c 65536); [reflexivity|lia].
  - destruct (N.ltb_spec c 128); [lia|]. destruct (N.ltb_spec c 2048); [lia|]. destruct (N.ltb_spec c 65536); [lia|reflexivity].
Qed.
Lemma char_shape c bs : Utf8Char c bs -> exists h t, bs = h :: t /\ ~ continuation h /\ Forall continuation t.
Proof.
  intros H. unfold continuation. destruct H; eexists _, _; (split; [reflexivity|]); (split; [lia|]);
    repeat (constructor; [lia|]); constructor.
Qed.
Lemma char_prefix c bs c' bs' r r' : Utf8Char c bs -> Utf8Char c' bs' -> bs ++ r = bs' ++ r' -> c = c' /\ bs = bs' /\ r = r'.
Proof.
  intros H H' E. destruct H as [c|c x y|c x y z|c x y z v], H' as [c'|c' x0 y0|c' x0 y0 z0|c' x0 y0 z0 v0];
    cbn [app] in E; cons_inv E; try (exfalso; lia).
  - assert (c = c') as -> by assumption. auto.
  - assert (x = x0) as -> by lia. assert (y = y0) as -> by lia. split; [lia|auto].
  - assert (x = x0) as -> by lia. assert (y = y0) as -> by lia. assert (z = z0) as -> by lia. split; [lia|auto].
  - assert (x = x0) as -> by lia. assert (y = y0) as -> by lia. assert (z = z0) as -> by lia. assert (v = v0) as -> by lia. split; [lia|auto].
Qed.
Lemma char_bytes c bs bs' : Utf8Char c bs -> Utf8Char c bs' -> bs = bs'.
Proof.
  intros H H'. destruct H; inversion H'; subst; try (exfalso; lia).
  - reflexivity.
  - assert (x0 = x) as -> by lia. assert (y0 = y) as -> by lia. reflexivity.
  - assert (x0 = x) as -> by lia. assert (y0 = y) as -> by lia. assert (z0 = z) as -> by lia. reflexivity.
  - assert (x0 = x) as -> by lia. assert (y0 = y) as -> by lia. assert (z0 = z) as -> by lia. assert (v0 = v) as -> by lia. reflexivity.
Qed.
Lemma char_scalar c bs : Utf8Char c bs -> scalar c.
Proof. intros H. destruct H; try assumption; left; lia. Qed.
Lemma char_byte c bs : Utf8Char c bs -> Forall (fun b => b < 256) bs.
Proof. intros H. destruct H; repeat (constructor; [lia|]); constructor. Qed.
Lemma groups n : exists q r, n = q * 64 + r /\ r < 64.
Proof. exists (n / 64), (n mod 64). pose proof (N.div_mod n 64 ltac:(lia)). pose proof (N.mod_lt n 64 ltac:(lia)). lia. Qed.
Lemma char_exists c : scalar c -> exists bs, Utf8Char c bs.
Proof.
  intros H. assert (H' := H). unfold scalar in H'. destruct (groups c) as (q1 & r1 & E1 & L1). destruct (groups q1) as (q2 & r2 & E2 & L2).
  destruct (groups q2) as (q3 & r3 & E3 & L3).
  destruct (N.lt_ge_cases c 128); [eexists; constructor; assumption|].
  destruct (N.lt_ge_cases c 2048); [exists [192 + q1; 128 + r1]; constructor; lia|].
  destruct (N.lt_ge_cases c 65536); [exists [224 + q2; 128 + r2; 128 + r1]; constructor; try assumption; lia|].
  exists [240 + q3; 128 + r3; 128 + r2; 128 + r1]. constructor; try assumption; lia.
Qed.

(** ** Strings *)

Lemma utf8_exists s : Forall scalar s <-> exists bs, Utf8 s bs.
Proof.
  split.
  - induction 1 as [|c s Hc _ [bs IH]]; [exists []; constructor|].
    destruct (char_exists c Hc) as [cb H]. exists (cb ++ bs). constructor; assumption.
  - intros [bs H]. induction H as [|c cb s bs Hc _ IH]; constructor; [exact (char_scalar _ _ Hc)|exact IH].
Qed.
Lemma utf8_bytes s bs : Utf8 s bs -> forall bs', Utf8 s bs' -> bs = bs'.
Proof.
  induction 1 as [|c cb s bs Hc _ IH]; intros bs' H'; inversion H' as [|c' cb' s' bs2 Hc' H2]; subst; [reflexivity|].
  rewrite (char_bytes _ _ _ Hc Hc'), (IH _ H2). reflexivity.
Qed.
Lemma utf8_nonempty c cb : Utf8Char c cb -> cb <> [].
Proof. intros H ->. inversion H. Qed.
Lemma utf8_prefix_inv s bs : Utf8 s bs -> forall p pb r, Utf8 p pb -> bs = pb ++ r -> exists t, s = p ++ t /\ Utf8 t r.
Proof.
  induction 1 as [|c cb s bs Hc H IH]; intros p pb r Hp E.
  - symmetry in E. apply app_eq_nil in E as [-> ->]. inversion Hp as [|c cb s bs Hc H E1 E2]; subst.
    + exists []. split; [reflexivity|constructor].
    + apply app_eq_nil in E2 as [-> _]. destruct (utf8_nonempty _ _ Hc eq_refl).
  - inversion Hp as [|c' cb' s' bs' Hc' H' E1 E2]; subst.
    + exists (c :: s). split; [reflexivity|]. cbn [app] in E. rewrite <- E. constructor; assumption.
    + rewrite <- app_assoc in E. destruct (char_prefix _ _ _ _ _ _ Hc Hc' E) as (-> & -> & E').
      destruct (IH _ _ _ H' E') as (t & -> & Ht). exists t. split; [reflexivity|exact Ht].
Qed.
Lemma utf8_chars s bs s' : Utf8 s bs -> Utf8 s' bs -> s = s'.
Proof.
  intros H H'. destruct (utf8_prefix_inv _ _ H s' bs [] H') as (t & -> & Ht); [rewrite app_nil_r; reflexivity|].
  inversion Ht as [|c cb t' bs' Hc Ht' E1 E2]; subst; [apply app_nil_r|].
  apply app_eq_nil in E2 as [-> _]. destruct (utf8_nonempty _ _ Hc eq_refl).
Qed.
Lemma utf8_len_ok s bs : Utf8 s bs -> byte_len s = length bs.
Proof. induction 1 as [|c cb s bs Hc _ IH]; [reflexivity|]. cbn [byte_len]. rewrite app_length, (char_len _ _ Hc), IH. reflexivity. Qed.
Lemma utf8_all_bytes s bs : Utf8 s bs -> Forall (fun b => b < 256) bs.
Proof. induction 1 as [|c cb s bs Hc _ IH]; [constructor|]. apply Forall_app. split; [exact (char_byte _ _ Hc)|exact IH]. Qed.
Lemma utf8_app a ab b bb : Utf8 a ab -> Utf8 b bb -> Utf8 (a ++ b) (ab ++ bb).
Proof.
  induction 1 as [|c cb s bs Hc _ IH]; intros Hb; [exact Hb|]. cbn [app]. rewrite <- app_assoc. constructor; [exact Hc|exact (IH Hb)].
Qed.
Lemma utf8_split a b bs : Utf8 (a ++ b) bs -> exists ab bb, bs = ab ++ bb /\ Utf8 a ab /\ Utf8 b bb.
Proof.
  revert bs. induction a as [|c a IH]; intros bs H; cbn [app] in H.
  - exists [], bs. split; [reflexivity|]. split; [constructor|exact H].
  - inversion H as [|c' cb s bs' Hc H']; subst. destruct (IH _ H') as (ab & bb & -> & Ha & Hb).
    exists (cb ++ ab), bb. rewrite <- app_assoc. split; [reflexivity|]. split; [constructor; assumption|exact Hb].
Qed.
Lemma utf8_head s bs : Utf8 s bs -> forall h t, bs = h :: t -> ~ continuation h.
Proof.
  intros H h t ->. inversion H as [|c cb s' bs' Hc H' E1 E2]; subst. destruct (char_shape _ _ Hc) as (h' & t' & -> & Hh & _).
  cbn [app] in E2. injection E2 as <- _. exact Hh.
Qed.

(** ** Slices *)

Lemma split_some n s a b : split_bytes n s = Some (a, b) -> s = a ++ b /\ byte_len a = n.
Proof.
  revert n a b. induction s as [|c s IH]; intros n a b E.
  - destruct n; cbn in E; [|discriminate E]. injection E as <- <-. auto.
  - destruct n; cbn [split_bytes] in E; [injection E as <- <-; auto|].
    destruct (Nat.leb_spec (utf8_len c) (S n)) as [L|L]; [|discriminate E].
    destruct (split_bytes (S n - utf8_len c) s) as [[a' b']|] eqn:Es; [|discriminate E]. injection E as <- <-.
    destruct (IH _ _ _ Es) as [-> Hl]. split; [reflexivity|]. cbn [byte_len]. lia.
Qed.
Lemma split_none s bs : Utf8 s bs -> forall n, split_bytes n s = None <-> ~ char_boundary bs n.
Proof.
  induction 1 as [|c cb s bs Hc H IH]; intros n.
  - destruct n; cbn [split_bytes].
    + split; [discriminate|]. intros B. destruct B. left. reflexivity.
    + split; [|reflexivity]. intros _ [B|[B|(b & B & _)]]; discriminate B.
  - destruct n as [|n]; [split; [discriminate|intros B; destruct B; left; reflexivity]|].
    cbn [split_bytes]. pose proof (char_len _ _ Hc) as Lc. rewrite <- Lc.
    destruct (Nat.leb_spec (length cb) (S n)) as [L|L].
    + assert (B : char_boundary (cb ++ bs) (S n) <-> char_boundary bs (S n - length cb)).
      { unfold char_boundary. rewrite app_length, (nth_error_app2 cb bs L). split.
        - intros [B|[B|B]]; [discriminate B|right; left; lia|right; right; exact B].
        - intros [B|[B|B]]; [|right; left; lia|right; right; exact B].
          destruct bs as [|h t]; [right; left; cbn [length]; lia|]. right. right. exists h. rewrite B. split; [reflexivity|].
          exact (utf8_head _ _ H h t eq_refl). }
      rewrite B, <- (IH (S n - length cb)%nat).
      destruct (split_bytes (S n - length cb) s) as [[a b]|]; split; try reflexivity; discriminate.
    + split; [|reflexivity]. intros _ [B|[B|(b & B & Hb)]]; [discriminate B|rewrite app_length in B; lia|].
      destruct (char_shape _ _ Hc) as (h & t & -> & _ & Ht). cbn [length] in L. cbn [app nth_error] in B.
      rewrite nth_error_app1 in B by lia. apply Hb. rewrite Forall_forall in Ht. apply Ht. exact (nth_error_In _ _ B).
Qed.

(** A slice is cut out of the bytes; it is refused exactly off the boundaries. *)
Theorem split_refines s bs n : Utf8 s bs ->
  match split_bytes n s with
  | Some (a, b) => char_boundary bs n /\ (n <= length bs)%nat /\ Utf8 a (firstn n bs) /\ Utf8 b (skipn n bs)
  | None => ~ char_boundary bs n
  end.
Proof.
  intros H. destruct (split_bytes n s) as [[a b]|] eqn:E; [|apply (split_none _ _ H); exact E].
  assert (B : ~ ~ char_boundary bs n) by (intros B; apply (split_none _ _ H) in B; congruence).
  destruct (split_some _ _ _ _ E) as [-> Hl]. destruct (utf8_split _ _ _ H) as (ab & bb & -> & Ha & Hb).
  rewrite (utf8_len_ok _ _ Ha) in Hl. subst n. rewrite firstn_app, skipn_app, Nat.sub_diag, firstn_all, skipn_all.
  cbn [firstn skipn app]. rewrite app_nil_r, app_length. split; [|split; [lia|auto]].
  destruct bb as [|h t]; [right; left; rewrite app_length; cbn [length]; lia|]. right. right. exists h.
  rewrite nth_error_app2, Nat.sub_diag by apply le_n. split; [reflexivity|]. exact (utf8_head _ _ Hb h t eq_refl).
Qed.
Theorem slice_to_refines s bs n : Utf8 s bs ->
  match slice_to s n with Ret a => char_boundary bs n /\ Utf8 a (firstn n bs) | Panic => ~ char_boundary bs n end.
Proof. intros H. pose proof (split_refines s bs n H) as R. unfold slice_to. destruct (split_bytes n s) as [[a b]|]; tauto. Qed.
Theorem slice_from_refines s bs n : Utf8 s bs ->
  match slice_from s n with Ret b => char_boundary bs n /\ Utf8 b (skipn n bs) | Panic => ~ char_boundary bs n end.
Proof. intros H. pose proof (split_refines s bs n H) as R. unfold slice_from. destruct (split_bytes n s) as [[a b]|]; tauto. Qed.

Lemma boundary_le s bs n : Utf8 s bs -> char_boundary bs n -> (n <= length bs)%nat.
Proof.
  intros _ [->|[->|(b & E & _)]]; [lia|lia|]. apply Nat.lt_le_incl, nth_error_Some. congruence.
Qed.
Theorem slice_refines s bs n m : Utf8 s bs ->
  match slice s n m with
  | Ret a => (n <= m)%nat /\ char_boundary bs n /\ char_boundary bs m /\ Utf8 a (skipn n (firstn m bs))
  | Panic => ~ ((n <= m)%nat /\ char_boundary bs n /\ char_boundary bs m)
  end.
Proof.
  intros H. unfold slice. destruct (Nat.leb_spec n m) as [L|L]; [|lia].
  pose proof (slice_from_refines s bs n H) as R1. destruct (slice_from s n) as [b|]; cbn [obind]; [|tauto].
  destruct R1 as [B1 U1]. pose proof (boundary_le _ _ _ H B1) as L1.
  assert (E : char_boundary (skipn n bs) (m - n) <-> char_boundary bs m).
  { rewrite <- (firstn_skipn n bs) at 2. set (x := firstn n bs). assert (Lx : length x = n) by (apply firstn_length_le; exact L1).
    unfold char_boundary. rewrite app_length, nth_error_app2, Lx by lia. split.
    - intros [B|[B|B]]; [|right; left; lia|right; right; exact B].
      destruct (skipn n bs) as [|h t] eqn:Es; [right; left; cbn [length]; lia|]. right. right. exists h. rewrite B. split; [reflexivity|].
      exact (utf8_head _ _ U1 h t eq_refl).
    - intros [B|[B|B]]; [left; lia|right; left; lia|right; right; exact B]. }
  pose proof (slice_to_refines b _ (m - n) U1) as R2. destruct (slice_to b (m - n)) as [a|].
  - destruct R2 as [B2 U2]. split; [exact L|]. split; [exact B1|]. split; [apply E; exact B2|].
    rewrite skipn_firstn_comm. exact U2.
  - rewrite E in R2. tauto.
Qed.

(** ** Searching *)

Theorem starts_with_refines p pb s bs : Utf8 p pb -> Utf8 s bs ->
  (starts_with p s = true <-> exists r, bs = pb ++ r).
Proof.
  intros Hp H. rewrite starts_with_iff. split.
  - intros (t & ->). destruct (utf8_split _ _ _ H) as (ab & bb & -> & Ha & _). exists bb. rewrite (utf8_bytes _ _ Hp _ Ha). reflexivity.
  - intros (r & E). destruct (utf8_prefix_inv _ _ H _ _ _ Hp E) as (t & -> & _). exists t. reflexivity.
Qed.

Theorem find_refines (p : str) pb (s : str) bs : Utf8 p pb -> Utf8 s bs ->
  match find p s with
  | Some n => bytes_found_at pb bs n
  | None => forall x y, bs <> x ++ pb ++ y
  end.
Proof.
  intros Hp. revert bs. induction s as [|c s IH]; intros bs H; cbn [find].
  - destruct (starts_with p []) eqn:E.
    + apply (starts_with_refines _ _ _ _ Hp H) in E as [r ->]. split; [|intros; lia]. exists [], r. auto.
    + intros x y ->. inversion H as [E1 E2|]. symmetry in E2. apply app_eq_nil in E2 as [-> E2]. apply app_eq_nil in E2 as [-> ->].
      assert (X : starts_with p [] = true) by (apply (starts_with_refines _ _ _ _ Hp H); exists []; reflexivity). congruence.
  - destruct (starts_with p (c :: s)) eqn:E.
    + apply (starts_with_refines _ _ _ _ Hp H) in E as [r ->]. split; [|intros; lia]. exists [], r. auto.
    + inversion H as [|c' cb s' bs' Hc H' E1 E2]; subst.
      assert (K : forall x y, cb ++ bs' = x ++ pb ++ y -> exists x', x = cb ++ x' /\ bs' = x' ++ pb ++ y).
      { intros x y Ex. assert (X : x <> []).
        { intros ->. assert (X : starts_with p (c :: s) = true) by (apply (starts_with_refines _ _ _ _ Hp H); exists y; exact Ex). congruence. }
        apply app_eq_app in Ex as (l & [[Ex Er]|[-> Er]]); [|exists l; auto].
        destruct l as [|h l]; [exists []; rewrite app_nil_r in *; subst; auto|]. exfalso.
        destruct pb as [|h' pb].
        - assert (X1 : starts_with p (c :: s) = true) by (apply (starts_with_refines _ _ _ _ Hp H); exists (cb ++ bs'); reflexivity). congruence.
        - cbn [app] in Er. injection Er as <- _. apply (utf8_head _ _ Hp h' pb eq_refl).
          destruct (char_shape _ _ Hc) as (h & t & -> & _ & Ht). destruct x as [|hx x]; [contradiction|]. injection Ex as <- ->.
          rewrite Forall_forall in Ht. apply Ht. apply in_app_iff. right. left. reflexivity. }
      specialize (IH _ H'). rewrite <- (char_len _ _ Hc). destruct (find p s) as [n|].
      * destruct IH as [(x & y & -> & <-) M]. split.
        -- exists (cb ++ x), y. rewrite app_length, <- app_assoc. auto.
        -- intros x' y' Ex. destruct (K _ _ Ex) as (x2 & -> & E2). rewrite app_length. specialize (M _ _ E2). lia.
      * intros x y Ex. destruct (K _ _ Ex) as (x2 & -> & E2). exact (IH _ _ E2).
Qed.

(** ** Tokens *)

Lemma cut_boundary a b bs : Utf8 (a ++ b) bs -> char_boundary bs (byte_len a).
Proof.
  intros H. destruct (utf8_split _ _ _ H) as (ab & bb & -> & Ha & Hb). rewrite (utf8_len_ok _ _ Ha).
  destruct bb as [|h t]; [right; left; rewrite app_length; cbn [length]; lia|]. right. right. exists h.
  rewrite nth_error_app2, Nat.sub_diag by apply le_n. split; [reflexivity|]. exact (utf8_head _ _ Hb h t eq_refl).
Qed.

Theorem token_bytes code bs ts t : Utf8 code bs -> tokenize code = LexOk ts -> In t ts ->
  exists ab rb bb raw b, bs = ab ++ rb ++ bb /\
    bytes (start_of t) = Z.of_nat (length ab) /\ bytes (end_of t) = Z.of_nat (length (ab ++ rb)) /\
    char_boundary bs (length ab) /\ char_boundary bs (length (ab ++ rb)) /\
    Utf8 raw rb /\ Utf8 b bb /\ OwnText (tok_type t) raw b.
Proof.
  intros H E Ht. destruct (token_offsets code ts t E Ht) as (a & raw & b & -> & _ & Ho & Hs & _ & He & _).
  pose proof (cut_boundary _ _ _ H) as B1. assert (B2 := H). rewrite app_assoc in B2. apply cut_boundary in B2.
  destruct (utf8_split _ _ _ H) as (ab & rest & -> & Ha & Hr). destruct (utf8_split _ _ _ Hr) as (rb & bb & -> & Hraw & Hb).
  assert (L1 : byte_len a = length ab) by exact (utf8_len_ok _ _ Ha).
  assert (L2 : byte_len (a ++ raw) = length (ab ++ rb)) by exact (utf8_len_ok _ _ (utf8_app _ _ _ _ Ha Hraw)).
  rewrite L1 in Hs. rewrite L2 in He.
  change (char_boundary (ab ++ rb ++ bb) (byte_len a)) in B1. rewrite L1 in B1.
  change (char_boundary (ab ++ rb ++ bb) (byte_len (a ++ raw))) in B2. rewrite L2 in B2.
  exists ab, rb, bb, raw, b. repeat (split; [assumption || reflexivity|]). exact Ho.
Qed.

Theorem error_bytes code bs r : Utf8 code bs -> tokenize code = LexErr (UnclosedMultilineComment r) ->
  exists ab cb s, bs = ab ++ cb /\ Utf8 (lit "OBTW" ++ s) cb /\
    bytes (r_start r) = Z.of_nat (length ab) /\ bytes (r_end r) = Z.of_nat (length bs) /\ char_boundary bs (length ab).
Proof.
  intros H E. destruct (unclosed_comment_range code r E) as (a & s & -> & _ & Hs & _ & He & _).
  assert (L : byte_len (a ++ lit "OBTW" ++ s) = length bs) by exact (utf8_len_ok _ _ H).
  rewrite L in He. pose proof (cut_boundary _ _ _ H) as B.
  destruct (utf8_split _ _ _ H) as (ab & cb & -> & Ha & Hc). rewrite (utf8_len_ok _ _ Ha) in Hs, B.
  exists ab, cb, s. auto.
Qed.
