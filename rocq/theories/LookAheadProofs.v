From Coq Require Import String Lia List.
From Verif Require Import Lexer LexBasics StrFacts LexProofs LexProps LexProps2.
From Verif Require Export LookAhead.
Local Open Scope nat_scope.

Lemma agree {A} n : forall r r' : list A, firstn n r = firstn n r' ->
  r = r' \/ exists x y y', length x = n /\ r = x ++ y /\ r' = x ++ y'.
Proof.
  induction n as [|n IH]; intros r r' H; [right; exists [], r, r'; auto|].
  destruct r as [|c r], r' as [|c' r']; cbn [firstn] in H; try discriminate H; [left; reflexivity|].
  injection H as -> H. destruct (IH _ _ H) as [->|(x & y & y' & Hl & -> & ->)]; [left; reflexivity|].
  right. exists (c' :: x), y, y'. cbn [length app]. auto.
Qed.

Lemma pre_local p (x y y' : str) : length p <= length x -> prefix_of p (x ++ y') -> prefix_of p (x ++ y).
Proof.
  intros Hl H. destruct (prefix_nested p x (x ++ y') H (ex_intro _ y' eq_refl) Hl) as [t ->].
  exists (t ++ y). rewrite <- app_assoc. reflexivity.
Qed.
Lemma starts_local P (x y y' : str) : 1 <= length x -> starts P (x ++ y') -> starts P (x ++ y).
Proof.
  destruct x as [|c x]; cbn [length]; [lia|]. intros _ (d & r & E & H). injection E as -> _. exists d, (x ++ y). auto.
Qed.
Lemma spelling_short k : length (spelling k) <= 11.
Proof. destruct k; vm_compute; lia. Qed.

Definition run_char (c : char) : Prop := digit c \/ c = dot.
Lemma run_char_b c : (N.leb 48 c && N.leb c 57) || N.eqb c 46 = true <-> run_char c.
Proof. unfold run_char, digit, dot. rewrite orb_true_iff, andb_true_iff, !N.leb_le, N.eqb_eq. reflexivity. Qed.
Lemma number_run_spec tl : Forall run_char tl -> forall (x y : str) r, x ++ y = tl ++ r -> number_run (x ++ y) < length x ->
  length tl < length x.
Proof.
  induction 1 as [|c tl Hc Ht IH]; intros x y r E Hl; cbn [length]; [lia|].
  destruct x as [|d x]; cbn [length] in *; [lia|]. injection E as -> E.
  cbn [app number_run] in Hl. rewrite (proj2 (run_char_b c) Hc) in Hl.
  specialize (IH x y r E). lia.
Qed.
Lemma number_tail raw rest n : NumberText raw rest n -> exists c tl, raw = c :: tl /\ Forall run_char tl.
Proof.
  assert (Hr : forall ds, Forall digit ds -> Forall run_char ds) by (intros ds; apply Forall_impl; unfold run_char; auto).
  assert (Hx : forall sg neg ds, SignText sg neg -> ds <> [] -> Forall run_char ds -> exists c tl, sg ++ ds = c :: tl /\ Forall run_char tl).
  { intros sg neg ds Hs Hn Hd. destruct Hs; cbn [app]; [|eauto|eauto].
    destruct ds as [|d ds]; [contradiction|]. inversion Hd; subst. eauto. }
  destruct 1 as [sg neg ds rest Hs Hn Hd _ _|sg neg ip fp rest Hs Hn Hi Hf _]; apply (Hx _ _ _ Hs).
  - exact Hn.
  - auto.
  - destruct ip; discriminate.
  - apply Forall_app. split; [auto|]. constructor; [right; reflexivity|auto].
Qed.

Lemma numeric_iff c : numeric_b c = true <-> numeric c.
Proof. unfold numeric_b, numeric, digit, dot. rewrite !orb_true_iff, andb_true_iff, !N.leb_le, !N.eqb_eq. tauto. Qed.
Lemma number_head c tl rest n : NumberText (c :: tl) rest n -> numeric c.
Proof.
  intros H. destruct (number_chars _ _ _ c H (or_introl eq_refl)) as [H1|[H1|[H1|H1]]]; unfold numeric; auto.
Qed.
Theorem TokText_lookahead raw rest rest' ty : TokText raw rest ty ->
  firstn (lookahead ty rest) rest = firstn (lookahead ty rest) rest' -> TokText raw rest' ty.
Proof.
  intros HT HA. destruct (agree _ _ _ HA) as [->|(x & y & y' & Hl & Er & ->)]; [exact HT|]. clear HA.
  destruct HT as [r1|r1|s r1 Hs Hr|s r1 Hf|r1|r1|r1|r1|r1
    |k r1 Hk Hmax|raw r1 n Hn|body after s c r1 Hb E Hlen Hc|s Ho|raw r1 Hn Hll Hr Hk
    |c r1 Hc Hnw Hll Hin Hz Hd Hn]; try solve [constructor]; cbn [lookahead] in Hl; try subst r1.
  - constructor; [exact Hs|]. destruct Hr as [Hr|Hr].
    + apply app_eq_nil in Hr as [-> _]. discriminate Hl.
    + right. apply (starts_local _ x y' y); [lia|exact Hr].
  - constructor. intros a b E.
    destruct (Nat.le_gt_cases (4 + length s) (length a)) as [|Hlt]; [assumption|exfalso].
    assert (Hp : prefix_of (a ++ lit "TLDR") (lit "OBTW" ++ s ++ lit "TLDR")).
    { eapply prefix_nested with (s := lit "OBTW" ++ s ++ lit "TLDR" ++ x ++ y').
      - exists b. rewrite <- app_assoc. exact E.
      - exists (x ++ y'). rewrite <- !app_assoc. reflexivity.
      - rewrite !app_length. change (length (lit "OBTW")) with 4%nat. lia. }
    destruct Hp as [t Ht]. specialize (Hf a (t ++ x ++ y)).
    assert (4 + length s <= length a)%nat; [|lia]. apply Hf.
    rewrite <- app_assoc in Ht. rewrite !app_assoc, <- (app_assoc (lit "OBTW")), Ht, <- !app_assoc. reflexivity.
  - constructor; [exact Hk|]. intros k' Hn' Hp. apply Hmax; [exact Hn'|].
    rewrite app_assoc in Hp |- *. refine (pre_local _ _ _ _ _ Hp). rewrite app_length.
    pose proof (spelling_short k'). lia.
  - constructor. eapply NumberText_extend; [exact Hn|]. intros P. apply starts_local. lia.
  - injection E as E.
    (* the closing quote is among the decided characters *)
    assert (Hq : exists w, body ++ [quote] ++ after = s ++ [c] ++ x ++ y /\ s ++ [c] ++ x = body ++ [quote] ++ w /\ w ++ y = after).
    { pose proof (byte_len_ge s) as Hge.
      assert (Hpre : prefix_of (body ++ [quote]) (s ++ [c] ++ x)).
      { apply (prefix_nested _ _ (body ++ [quote] ++ after)).
        - exists after. rewrite <- app_assoc. reflexivity.
        - exists y. cbn [app]. rewrite E, <- app_assoc. cbn [app]. reflexivity.
        - rewrite !app_length. cbn [length]. lia. }
      destruct Hpre as [w Hw]. exists w. rewrite <- app_assoc in Hw. split; [exact E|]. split; [exact Hw|].
      assert (E2 : (s ++ [c] ++ x) ++ y = (body ++ [quote] ++ w) ++ y) by (rewrite Hw; reflexivity).
      rewrite <- !app_assoc in E2. cbn [app] in E2. rewrite <- E in E2. apply app_inv_head in E2. injection E2 as E2. symmetry. exact E2. }
    destruct Hq as (w & _ & Hw & _). apply (tt_string body (w ++ y')); [exact Hb| |exact Hlen|exact Hc].
    f_equal. assert (E2 : (s ++ [c] ++ x) ++ y' = (body ++ [quote] ++ w) ++ y') by (rewrite Hw; reflexivity).
    rewrite <- !app_assoc in E2. symmetry. exact E2.
  - destruct x; [discriminate Hl|discriminate Er].
  - assert (Hne : 1 <= length raw) by (destruct raw; [contradiction|cbn [length]; lia]).
    constructor; [exact Hn|exact Hll| |].
    + intros H. apply Hr. revert H. apply starts_local. lia.
    + intros k H. apply (Hk k). rewrite app_assoc in H |- *. refine (pre_local _ _ _ _ _ H). rewrite app_length.
      pose proof (spelling_short k). lia.
  - constructor; [exact Hc|exact Hnw|exact Hll|exact Hin| | |].
    + intros H. apply Hz. change (c :: x ++ y) with ((c :: x) ++ y). refine (pre_local _ (c :: x) y y' _ H).
      change (length (lit "'Z")) with 2. cbn [length]. destruct (numeric_b c); lia.
    + intros H. apply Hd. change (c :: x ++ y) with ((c :: x) ++ y). refine (pre_local _ (c :: x) y y' _ H).
      assert (numeric_b c = true) as Hnu.
      { destruct H as [t Ht]. change (lit "...") with ([dot] ++ lit "..") in Ht. injection Ht as -> _. reflexivity. }
      rewrite Hnu in Hl. change (length (lit "...")) with 3. cbn [length]. lia.
    + intros raw' rest'' n E HN. destruct (number_tail _ _ _ HN) as (d & tl & -> & Ht). injection E as <- E.
      rewrite (proj2 (numeric_iff c) (number_head _ _ _ _ HN)) in Hl.
      (* the literal ends among the decided characters *)
      assert (Hlt : length tl < length x).
      { destruct (Nat.le_gt_cases (length x) (length tl)) as [Hle|Hlt']; [exfalso|exact Hlt'].
        destruct (prefix_nested x tl (x ++ y') (ex_intro _ y' eq_refl) (ex_intro _ rest'' E) Hle) as [u Hu].
        rewrite Hu in Ht. apply Forall_app in Ht as [Hx _].
        enough (length x < length x) by lia.
        apply (number_run_spec x Hx x y y eq_refl). lia. }
      destruct (prefix_nested tl x (x ++ y') (ex_intro _ rest'' E) (ex_intro _ y' eq_refl) ltac:(lia)) as [u Hu].
      apply (Hn (c :: tl) (u ++ y) n); [cbn [app]; rewrite Hu, <- app_assoc; reflexivity|].
      rewrite Hu, <- app_assoc in E. apply app_inv_head in E. subst rest''.
      eapply NumberText_extend; [exact HN|]. intros P. apply starts_local.
      rewrite Hu, app_length in Hlt. lia.
Qed.

(** ** Sources *)

Lemma LexesTo_lookahead ps : forall code rest, LexesTo code ps rest -> forall a b b', rest = a ++ b ->
  (forall ps1 raw ty ps2, ps = ps1 ++ Tok raw ty :: ps2 ->
     lookahead ty (text_of ps2 ++ a ++ b) <= length (text_of ps2 ++ a)) ->
  LexesTo (text_of ps ++ a ++ b') ps (a ++ b').
Proof.
  intros code rest H. induction H as [rest|c code ps rest Hc H IH|raw code ty ps rest Ht H IH]; intros a b b' Er Hm.
  - constructor.
  - change (text_of (Gap c :: ps)) with (c :: text_of ps). cbn [app]. constructor; [exact Hc|].
    apply (IH a b b' Er). intros ps1 raw ty ps2 ->. apply (Hm (Gap c :: ps1) raw ty ps2). reflexivity.
  - assert (text_of (Tok raw ty :: ps) = raw ++ text_of ps) as -> by reflexivity.
    rewrite <- app_assoc. constructor.
    + pose proof (LexesTo_text _ _ _ H) as Hcode. rewrite Er in Hcode. subst code.
      pose proof (Hm [] raw ty ps eq_refl) as Hl. apply (TokText_lookahead _ _ _ _ Ht).
      rewrite (app_assoc _ a b), (app_assoc _ a b') in *. rewrite !firstn_app.
      replace (lookahead ty ((text_of ps ++ a) ++ b) - length (text_of ps ++ a)) with 0 by lia.
      reflexivity.
    + apply (IH a b b' Er). intros ps1 raw1 ty1 ps2 ->. apply (Hm (Tok raw ty :: ps1) raw1 ty1 ps2). reflexivity.
Qed.

Lemma tokens_split ps : forall before ts0 ts1, tokens_after before ps = ts0 ++ ts1 -> ts0 <> [] ->
  exists ps0 ps1, ps = ps0 ++ ps1 /\ ts0 = tokens_after before ps0 /\ ts1 = tokens_after (before ++ ps0) ps1 /\
    exists qs raw ty, ps0 = qs ++ [Tok raw ty].
Proof.
  induction ps as [|[c|raw ty] ps IH]; intros before ts0 ts1 E Hn; cbn [tokens_after] in E.
  - symmetry in E. apply app_eq_nil in E as [E _]. contradiction.
  - destruct (IH _ _ _ E Hn) as (ps0 & ps1 & -> & E0 & E1 & qs & raw & ty & Eq).
    exists (Gap c :: ps0), ps1. rewrite <- app_assoc in E1. repeat split; [exact E0|exact E1|].
    exists (Gap c :: qs), raw, ty. rewrite Eq. reflexivity.
  - destruct ts0 as [|t ts0]; [contradiction|]. cbn [app] in E. injection E as Et E.
    destruct ts0 as [|t' ts0].
    + exists [Tok raw ty], ps. cbn [app tokens_after] in *. subst. repeat split. exists [], raw, ty. reflexivity.
    + destruct (IH _ _ _ E ltac:(discriminate)) as (ps0 & ps1 & -> & E0 & E1 & qs & raw' & ty' & Eq).
      exists (Tok raw ty :: ps0), ps1. rewrite <- app_assoc in E1. cbn [tokens_after]. rewrite <- Et, <- E0. repeat split; [exact E1|].
      exists (Tok raw ty :: qs), raw', ty'. rewrite Eq. reflexivity.
Qed.

Lemma chars_after ps : chars (pos_after ps) = Z.of_nat (length (text_of ps)).
Proof. reflexivity. Qed.
Lemma bytes_after ps : bytes (pos_after ps) = Z.of_nat (byte_len (text_of ps)).
Proof. reflexivity. Qed.

Theorem before_edit (a b b' : str) ts0 ts1 us : tokenize (a ++ b) = LexOk (ts0 ++ ts1) -> tokenize (a ++ b') = LexOk us ->
  Forall (decided (a ++ b) (length a)) ts0 -> exists us1, us = ts0 ++ us1.
Proof.
  intros E E' HF. apply tokenize_ok_iff in E as (ps & HL & Ets). apply tokenize_ok_iff in E' as (qs & HL' & ->).
  destruct ts0 as [|t0 ts0]; [eexists; reflexivity|].
  symmetry in Ets. destruct (tokens_split _ _ _ _ Ets ltac:(discriminate)) as (ps0 & ps1 & -> & E0 & _ & rs & raw & ty & Eq).
  destruct (LexesTo_split _ _ _ _ HL) as (mid & H0 & H1).
  pose proof (LexesTo_text _ _ _ H0) as Htx.
  (* the text of the tokens is a part of a *)
  assert (Hin : forall rs1 raw1 ty1 rs2, ps0 = rs1 ++ Tok raw1 ty1 :: rs2 ->
    length (text_of (rs1 ++ [Tok raw1 ty1])) + lookahead ty1 (text_of rs2 ++ mid) <= length a).
  { intros rs1 raw1 ty1 rs2 Ep. rewrite E0, Ep in HF. rewrite tokens_after_app in HF. cbn [tokens_after app] in HF.
    apply Forall_app in HF as [_ HF]. inversion HF as [|t ? Ht _]; subst t. unfold decided in Ht. cbn [tok_type] in Ht.
    unfold end_of in Ht. cbn [tok_range r_end] in Ht. rewrite chars_after, Nat2Z.id in Ht.
    replace (skipn _ (a ++ b)) with (text_of rs2 ++ mid) in Ht; [lia|].
    rewrite Htx, Ep. change (Tok raw1 ty1 :: rs2) with ([Tok raw1 ty1] ++ rs2). rewrite app_assoc, (text_of_app _ rs2), <- app_assoc.
    rewrite skipn_app, skipn_all, Nat.sub_diag. reflexivity. }
  assert (Hpre : prefix_of (text_of ps0) a).
  { apply (prefix_nested _ _ (a ++ b)); [exists mid; exact Htx|exists b; reflexivity|].
    rewrite Eq. specialize (Hin rs raw ty [] Eq). lia. }
  destruct Hpre as [a' Ha]. subst a. rewrite <- app_assoc in Htx. apply app_inv_head in Htx.
  assert (HL2 : LexesTo (text_of ps0 ++ a' ++ b') ps0 (a' ++ b')).
  { apply (LexesTo_lookahead ps0 _ _ H0 a' b b' (eq_sym Htx)). intros rs1 raw1 ty1 rs2 Ep. specialize (Hin _ _ _ _ Ep).
    rewrite Htx. rewrite Ep in Hin. change (Tok raw1 ty1 :: rs2) with ([Tok raw1 ty1] ++ rs2) in Hin.
    rewrite (app_assoc rs1), (text_of_app _ rs2), !app_length in Hin. rewrite app_length. lia. }
  rewrite <- app_assoc in HL'.
  destruct (LexesTo_extends _ _ _ HL2 _ _ HL' (or_introl eq_refl)) as (ps2 & -> & _).
  rewrite tokens_after_app, <- E0. eexists. reflexivity.
Qed.

Lemma cut_pieces ps : forall before (a b : str), wf_pieces ps -> text_of ps = a ++ b ->
  no_token_over (Z.of_nat (byte_len (text_of before ++ a))) (tokens_after before ps) ->
  exists ps1 ps2, ps = ps1 ++ ps2 /\ text_of ps1 = a.
Proof.
  induction ps as [|x ps IH]; intros before a b Hw Ht Hn.
  - exists [], []. symmetry in Ht. apply app_eq_nil in Ht as [-> _]. auto.
  - destruct a as [|c a]; [exists [], (x :: ps); auto|].
    inversion Hw as [|? ? Hx Hw']; subst. destruct x as [d|raw ty].
    + change (text_of (Gap d :: ps)) with (d :: text_of ps) in Ht. injection Ht as -> Ht.
      cbn [tokens_after] in Hn. destruct (IH (before ++ [Gap c]) a b Hw' Ht) as (ps1 & ps2 & -> & E).
      * rewrite text_of_app. change (text_of [Gap c]) with [c]. rewrite <- app_assoc. exact Hn.
      * exists (Gap c :: ps1), ps2. split; [reflexivity|]. rewrite <- E. reflexivity.
    + assert (text_of (Tok raw ty :: ps) = raw ++ text_of ps) as Etx by reflexivity. rewrite Etx in Ht.
      cbn [tokens_after] in Hn. inversion Hn as [|? ? H1 H2]; subst.
      assert (Hp : prefix_of raw (c :: a)).
      { unfold start_of, end_of in H1. cbn [tok_range r_start r_end] in H1. rewrite !bytes_after, text_of_app in H1.
        change (text_of [Tok raw ty]) with (raw ++ []) in H1. rewrite app_nil_r, !byte_len_app in H1.
        pose proof (byte_len_nonempty (c :: a) ltac:(discriminate)) as Hpos.
        destruct H1 as [H1|H1]; [|lia].
        destruct (Nat.le_gt_cases (length raw) (length (c :: a))) as [Hle|Hgt].
        - apply (prefix_nested _ _ ((c :: a) ++ b)); [exists (text_of ps); rewrite <- Ht; reflexivity|exists b; reflexivity|exact Hle].
        - exfalso. destruct (prefix_nested (c :: a) raw ((c :: a) ++ b)) as [u Hu];
            [exists b; reflexivity|exists (text_of ps); symmetry; exact Ht|lia|].
          rewrite Hu, byte_len_app in H1. assert (u <> []) as Hu0 by (intros ->; rewrite app_nil_r in Hu; subst raw; lia).
          pose proof (byte_len_nonempty u Hu0). lia. }
      destruct Hp as [a' Ha]. rewrite Ha, <- app_assoc in Ht. apply app_inv_head in Ht.
      destruct (IH (before ++ [Tok raw ty]) a' b Hw' Ht) as (ps1 & ps2 & -> & E).
      * rewrite text_of_app. change (text_of [Tok raw ty]) with (raw ++ []). rewrite app_nil_r, <- app_assoc, <- Ha. exact H2.
      * exists (Tok raw ty :: ps1), ps2. split; [reflexivity|]. rewrite Ha, <- E. reflexivity.
Qed.

Theorem after_edit (a b : str) ts : tokenize (a ++ b) = LexOk ts -> no_token_over (Z.of_nat (byte_len a)) ts ->
  exists ts0 vs, tokenize b = LexOk vs /\ ts = ts0 ++ map (shift_token (pos_at ts a)) vs /\
    Forall (fun t => bytes (end_of t) <= Z.of_nat (byte_len a))%Z ts0.
Proof.
  intros E Hn. apply tokenize_ok_iff in E as (ps & HL & ->).
  pose proof (LexesTo_text _ _ _ HL) as Ht. rewrite app_nil_r in Ht.
  pose proof (LexesTo_wf _ _ _ HL) as Hw.
  destruct (cut_pieces ps [] a b Hw (eq_sym Ht) Hn) as (ps1 & ps2 & -> & E1).
  destruct (LexesTo_split _ _ _ _ HL) as (mid & H1 & H2).
  pose proof (LexesTo_text _ _ _ H1) as Hm. rewrite E1 in Hm. apply app_inv_head in Hm. subst mid.
  exists (tokens_after [] ps1), (tokens_after [] ps2). split; [apply tokenize_ok_iff; eauto|].
  rewrite <- E1. rewrite <- (pos_after_at ps1 ps2 Hw). split.
  - rewrite tokens_after_app. f_equal. cbn [app].
    rewrite <- (tokens_after_shift ps1 ps2 []) by (apply Forall_app in Hw; apply Hw). rewrite app_nil_r. reflexivity.
  - apply Forall_forall. intros t Hi. destruct (token_inv _ _ _ Hi) as (qs & raw & rs & -> & _ & He).
    rewrite He, bytes_after. cbn [app]. change (Tok raw (tok_type t) :: rs) with ([Tok raw (tok_type t)] ++ rs).
    rewrite app_assoc, (text_of_app _ rs), byte_len_app. lia.
Qed.

Theorem ten_characters (a b b' : str) ts0 ts1 us :
  tokenize (a ++ b) = LexOk (ts0 ++ ts1) -> tokenize (a ++ b') = LexOk us -> ascii_str a ->
  Forall (fun t => chars (end_of t) + 10 <= Z.of_nat (length a) /\ forall c, tok_type t = TSymbol [c] -> ~ numeric c)%Z ts0 ->
  exists us1, us = ts0 ++ us1.
Proof.
  intros E E' Ha HF. apply (before_edit a b b' ts0 ts1 us E E').
  apply tokenize_ok_iff in E as (ps & HL & Ets).
  apply Forall_forall. intros t Hi. rewrite Forall_forall in HF. destruct (HF t Hi) as [Hl Hs]. clear HF.
  assert (Ht : In t (tokens_after [] ps)) by (rewrite <- Ets; apply in_or_app; left; exact Hi).
  destruct (token_facts _ _ _ _ HL Ht) as (ps1 & raw & ps2 & -> & _ & HT & _ & _ & _ & He).
  enough (lookahead (tok_type t) (skipn (Z.to_nat (chars (end_of t))) (a ++ b)) <= 10) as H by (unfold decided; lia).
  generalize (skipn (Z.to_nat (chars (end_of t))) (a ++ b)) as sk. intros sk.
  assert (Hraw : ascii_str raw).
  { pose proof (LexesTo_text _ _ _ HL) as Htx. rewrite app_nil_r in Htx.
    change (Tok raw (tok_type t) :: ps2) with ([Tok raw (tok_type t)] ++ ps2) in Htx.
    rewrite app_assoc, (text_of_app _ ps2) in Htx.
    rewrite He, chars_after in Hl.
    destruct (prefix_nested (text_of (ps1 ++ [Tok raw (tok_type t)])) a (a ++ b)) as [u Hu];
      [eexists; exact Htx|exists b; reflexivity|lia|].
    rewrite Hu in Ha. apply ascii_app in Ha as [Ha _]. rewrite text_of_app in Ha. apply ascii_app in Ha as [_ Ha].
    change (text_of [Tok raw (tok_type t)]) with (raw ++ []) in Ha. rewrite app_nil_r in Ha. exact Ha. }
  revert HT Hs. generalize (tok_type t) as ty. intros ty HT Hs.
  destruct HT as [r1|r1|s r1 Hs1 Hr|s r1 Hf|r1|r1|r1|r1|r1
    |k r1 Hk Hmax|raw r1 n Hn|body after s c r1 Hb E2 Hlen Hc|s Ho|raw r1 Hn Hll Hr Hk
    |c r1 Hc Hnw Hll Hin Hz Hd Hn]; cbn [lookahead]; try lia.
  - pose proof (spelling_nonempty k) as Hn. destruct (spelling k); [contradiction|]. cbn [length]. lia.
  - change (quote :: s ++ [c]) with ([quote] ++ s ++ [c]) in Hraw. apply ascii_app in Hraw as [_ Hraw]. apply ascii_app in Hraw as [Hraw _].
    rewrite (byte_len_ascii _ Hraw). lia.
  - change (quote :: s) with ([quote] ++ s) in Hraw. apply ascii_app in Hraw as [_ Hraw].
    rewrite (byte_len_ascii _ Hraw). lia.
  - destruct raw; [contradiction|]. cbn [length]. lia.
  - destruct (numeric_b c) eqn:En; [|lia]. exfalso. apply (Hs c eq_refl). apply numeric_iff. exact En.
Qed.

Lemma dec_zeros n : dec (repeat 48%N n) = 0%Z.
Proof. induction n as [|n IH]; [reflexivity|]. cbn [repeat dec]. rewrite IH. lia. Qed.
Theorem unbounded_digits n : exists a b b' t ts1 us,
  tokenize (a ++ b) = LexOk (t :: ts1) /\ tokenize (a ++ b') = LexOk us /\ ascii_str a /\
  (chars (end_of t) + Z.of_nat n = Z.of_nat (length a))%Z /\ tok_type t = TSymbol (lit "0") /\
  map tok_type us = [TValue (VNumber (Int 0))].
Proof.
  pose (a := repeat 48%N (S n) : str). assert (Hla : length a = S n) by apply repeat_length.
  assert (Hd : Forall digit a) by (apply Forall_forall; intros c Hc; apply repeat_spec in Hc; subst c; unfold digit; lia).
  destruct (integer_at_end_refused a Hd) as (ts & E & Et).
  destruct ts as [|t ts]; [discriminate Et|]. injection Et as Et _.
  assert (HL : LexesTo (a ++ [32%N]) [Tok a (TValue (VNumber (Int 0))); Gap 32%N] []).
  { constructor; [|constructor; [left; reflexivity|constructor]]. constructor.
    replace 0%Z with (signed false (dec a)) by (unfold a; rewrite dec_zeros; reflexivity).
    apply (number_int [] false a); [constructor|discriminate|exact Hd| |exists 32%N, []; unfold digit, dot; repeat split; lia].
    unfold a. rewrite dec_zeros. cbn. lia. }
  exists a, [], [32%N], t, ts. eexists. rewrite app_nil_r. split; [exact E|].
  split; [apply tokenize_ok_iff; eexists; split; [exact HL|reflexivity]|].
  split; [apply digits_ascii; exact Hd|]. split; [|split; [exact Et|reflexivity]].
  apply tokenize_ok_iff in E as (ps & HLp & Ets).
  assert (Hi : In t (tokens_after [] ps)) by (rewrite <- Ets; left; reflexivity).
  destruct ps as [|[c|raw ty] ps].
  - discriminate Ets.
  - pose proof (LexesTo_text _ _ _ HLp) as E1. pose proof (LexesTo_wf _ _ _ HLp) as Hw. inversion Hw as [|? ? Hc _].
    change (text_of (Gap c :: ps)) with (c :: text_of ps) in E1. unfold a in E1. cbn [repeat app] in E1. injection E1 as E1 _.
    exfalso. unfold ws in Hc. lia.
  - cbn [tokens_after] in Ets. injection Ets as Ets _. rewrite Ets. unfold end_of. cbn [tok_range r_end app].
    rewrite chars_after. inversion HLp as [| |raw' code ty' ps' rest HT H1 E1]; subst raw' ty' ps' rest.
    rewrite Ets in Et. cbn [tok_type] in Et. subst ty.
    assert (Hl : length raw = 1) by (inversion HT; reflexivity).
    change (text_of [Tok raw (TSymbol [48%N])]) with (raw ++ []). rewrite app_nil_r, Hl. pose proof (f_equal (@length char) E1) as El. rewrite Hla in El. transitivity (Z.of_nat (S n)); [lia|]. rewrite <- El. reflexivity.
Qed.

Lemma early_part {A} (P : A -> Prop) (l1 : list A) : forall l2 m1 m2, l1 ++ l2 = m1 ++ m2 -> Forall P l1 -> Forall (fun x => ~ P x) m2 ->
  exists k, m1 = l1 ++ k.
Proof.
  induction l1 as [|x l1 IH]; intros l2 m1 m2 E H1 H2; [exists m1; reflexivity|].
  inversion H1 as [|? ? Hx Hl]; subst. destruct m1 as [|y m1]; cbn [app] in E.
  - subst m2. inversion H2; contradiction.
  - injection E as -> E. destruct (IH _ _ _ E Hl H2) as [k ->]. exists k. reflexivity.
Qed.
Lemma shifted_late (b : str) vs p : tokenize b = LexOk vs ->
  Forall (fun t => ~ (chars (end_of t) <= chars p)%Z) (map (shift_token p) vs).
Proof.
  intros E. apply tokenize_ok_iff in E as (ps & HL & ->). apply Forall_map, Forall_forall. intros t Hi.
  destruct (token_facts _ _ _ _ HL Hi) as (ps1 & raw & ps2 & _ & _ & HT & _ & _ & _ & He).
  pose proof (TokText_nonempty _ _ _ HT) as Hn.
  unfold shift_token, shift_range, shift, end_of in *. cbn [tok_range r_end chars]. rewrite He, chars_after, text_of_app, app_length.
  change (text_of [Tok raw (tok_type t)]) with (raw ++ []). rewrite app_nil_r. destruct raw; [contradiction|]. cbn [length]. lia.
Qed.
Theorem edit_tokens (a m m' b : str) ts us t0 u0 :
  tokenize (a ++ m ++ b) = LexOk ts -> tokenize (a ++ m' ++ b) = LexOk us ->
  no_token_over (Z.of_nat (byte_len (a ++ m))) ts -> no_token_over (Z.of_nat (byte_len (a ++ m'))) us ->
  ts = t0 ++ u0 -> Forall (decided (a ++ m ++ b) (length a)) t0 ->
  exists t1 u1 vs, tokenize b = LexOk vs /\
    ts = t0 ++ t1 ++ map (shift_token (pos_at ts (a ++ m))) vs /\
    us = t0 ++ u1 ++ map (shift_token (pos_at us (a ++ m'))) vs.
Proof.
  intros Et Eu Ht Hu Ecut HF.
  destruct (before_edit a (m ++ b) (m' ++ b) t0 u0 us ltac:(rewrite <- Ecut; exact Et) Eu HF) as [u1 E1].
  rewrite app_assoc in Et, Eu.
  destruct (after_edit _ _ _ Et Ht) as (ta & vs & Ev & Ea & _).
  destruct (after_edit _ _ _ Eu Hu) as (ua & vs' & Ev' & Ea' & _).
  rewrite Ev in Ev'. injection Ev' as <-.
  assert (Hd : forall n, (length a <= n) -> Forall (fun t => (chars (end_of t) <= Z.of_nat n)%Z) t0).
  { intros n Hn. eapply Forall_impl; [|exact HF]. intros t Hdt. unfold decided in Hdt. cbv beta in Hdt. lia. }
  destruct (early_part _ t0 u0 ta _ ltac:(rewrite <- Ecut; exact Ea) (Hd (length (a ++ m)) ltac:(rewrite app_length; lia)) (shifted_late b vs (pos_at ts (a ++ m)) Ev)) as [t1 ->].
  destruct (early_part _ t0 u1 ua _ ltac:(rewrite <- E1; exact Ea') (Hd (length (a ++ m')) ltac:(rewrite app_length; lia)) (shifted_late b vs (pos_at us (a ++ m')) Ev)) as [u2 ->].
  exists t1, u2, vs. rewrite <- !app_assoc in Ea, Ea'. auto.
Qed.
