(** Proofs about sources that end inside a multi-line comment (C82). *)
From Coq Require Import String Lia Bool.
From Verif Require Import Str Lexer StrFacts LexBasics LexProofs LexProps LexProps2 LexPropSpec LookAheadProofs.
Local Open Scope string_scope.
Local Open Scope list_scope.
Local Open Scope N_scope.

Notation OB := (lit "OBTW").
Notation TL := (lit "TLDR").

Definition only_end (p : str) : Prop := forall a b, p = a ++ OB ++ b -> b = [].

Lemma spelling_only_end k : only_end (spelling k).
Proof.
  intros a b E. change OB with [79; 66; 84; 87] in E.
  destruct k;
    match type of E with ?l = _ => let v := eval vm_compute in l in change (v = a ++ [79; 66; 84; 87] ++ b) in E end;
    repeat (first [discriminate E | destruct a as [|? a]; cbn [app] in E;
      [first [discriminate E | injection E as <-; reflexivity | injection E as E; exact (eq_sym E)]
      |first [discriminate E | injection E as _ E]]]).
Qed.
Lemma free_only_end p : ~ In 79 p -> only_end p.
Proof. intros H a b ->. destruct H. apply in_app_iff. right. left. reflexivity. Qed.

Lemma mark_prefix p w t t' : only_end p -> prefix_of p (w ++ OB ++ t) -> prefix_of p (w ++ OB ++ t').
Proof.
  intros Hp [z E]. rewrite app_assoc in E. symmetry in E.
  apply app_eq_app in E as (l & [[-> ->]|[E ->]]).
  - rewrite <- app_assoc in Hp. assert (l = []) as -> by (exact (Hp w l eq_refl)). rewrite app_nil_r.
    exists t'. rewrite app_assoc. reflexivity.
  - exists (l ++ t'). rewrite app_assoc, E, <- app_assoc. reflexivity.
Qed.
Lemma mark_split p w t z : ~ In 79 p -> p ++ z = w ++ OB ++ t -> exists w', w = p ++ w' /\ z = w' ++ OB ++ t.
Proof.
  intros Hp E. apply app_eq_app in E as (l & [[-> E]|[-> E]]).
  - destruct l as [|c l]; [exists []; rewrite !app_nil_r; split; [reflexivity|exact (eq_sym E)]|]. cbn [app lit] in E.
    injection E as <- _. destruct Hp. apply in_app_iff. right. left. reflexivity.
  - exists l. auto.
Qed.
Lemma mark_starts (P : char -> Prop) w t t' : starts P (w ++ OB ++ t) -> starts P (w ++ OB ++ t').
Proof.
  intros (c & r & E & Hc). destruct w as [|d w]; cbn [app] in E.
  - injection E as <- _. exists 79, (lit "BTW" ++ t'). auto.
  - injection E as <- _. exists d, (w ++ OB ++ t'). auto.
Qed.
Lemma number_no_O raw rest n : NumberText raw rest n -> ~ In 79 raw.
Proof. intros H Hi. pose proof (number_chars _ _ _ _ H Hi) as Hx. unfold digit, dot in Hx. lia. Qed.
Lemma number_mark raw w t t' n : NumberText raw (w ++ OB ++ t) n -> NumberText raw (w ++ OB ++ t') n.
Proof.
  intro H. remember (w ++ OB ++ t) as r eqn:E.
  destruct H as [sg neg ds r Hs Hn Hd Hv Hr|sg neg ip fp r Hs Hn Hi Hf Hr]; subst r; constructor; auto;
    exact (mark_starts _ w t t' Hr).
Qed.

(** What follows an OBTW has no influence on the tokens before it, unless they
    hold strings with other than ASCII characters; and for these too, as long as
    text is only added. *)
Lemma TokText_mark raw w t t' ty : TokText raw (w ++ OB ++ t) ty -> ascii_str raw \/ (exists x, t' = t ++ x) ->
  TokText raw (w ++ OB ++ t') ty.
Proof.
  intros HT Ha. remember (w ++ OB ++ t) as r eqn:Er.
  destruct HT as [r1|r1|s r1 Hs Hr|s r1 Hf|r1|r1|r1|r1|r1
    |k r1 Hk Hmax|raw r1 n Hn|body after s c r1 Hb E Hlen Hc|s Ho|raw r1 Hn Hll Hr Hk
    |c r1 Hc Hnw Hll Hin Hz Hd Hn]; subst; try solve [constructor].
  - constructor; [exact Hs|]. right. destruct Hr as [Hr|Hr]; [destruct w; discriminate|]. exact (mark_starts _ w t t' Hr).
  - apply (TokText_lookahead _ (w ++ OB ++ t)); [constructor; exact Hf|reflexivity].
  - constructor; [exact Hk|]. intros k' Hn' Hp. apply Hmax; [exact Hn'|].
    rewrite app_assoc in Hp |- *. exact (mark_prefix _ _ t' t (spelling_only_end k') Hp).
  - constructor. exact (number_mark _ w t t' n Hn).
  - destruct Ha as [Ha|[x ->]].
    2:{ apply (tt_string body (after ++ x)); try assumption. change (quote :: s ++ c :: w ++ OB ++ t ++ x) with ((quote :: s) ++ c :: w ++ OB ++ t ++ x).
      replace ((quote :: s) ++ c :: w ++ OB ++ t ++ x) with ((quote :: s ++ c :: w ++ OB ++ t) ++ x)
        by (cbn [app]; rewrite <- !app_assoc; cbn [app]; rewrite <- !app_assoc; reflexivity).
      rewrite <- E. cbn [app]. rewrite <- app_assoc. reflexivity. }
    assert (Hstr : ascii_str s) by (apply ascii_cons in Ha as [_ Ha]; apply ascii_app in Ha; tauto).
    rewrite (byte_len_ascii _ Hstr) in Hlen. injection E as E.
    assert (body = s /\ c = quote) as (-> & ->).
    { revert Hlen E. clear. revert s. induction body as [|b body IH]; intros [|d s] Hl E; cbn [length app] in *; try discriminate Hl.
      - injection E as <- _. auto.
      - injection E as -> E. injection Hl as Hl. destruct (IH _ Hl E) as (-> & ->). auto. }
    apply (tt_string s (w ++ OB ++ t') s quote); [exact Hb|reflexivity|exact (byte_len_ascii _ Hstr)|exact Hc].
  - destruct w; discriminate.
  - constructor; [exact Hn|exact Hll| |].
    + intros H. apply Hr. exact (mark_starts _ w t' t H).
    + intros k Hp. apply (Hk k). rewrite app_assoc in Hp |- *. exact (mark_prefix _ _ t' t (spelling_only_end k) Hp).
  - constructor; [exact Hc|exact Hnw|exact Hll|exact Hin| | |].
    + intro Hp. apply Hz. apply (mark_prefix _ (c :: w) t' t); [|exact Hp]. apply free_only_end. vm_compute. lia.
    + intro Hp. apply Hd. apply (mark_prefix _ (c :: w) t' t); [|exact Hp]. apply free_only_end. vm_compute. lia.
    + intros raw' rest' n E HN.
      destruct (mark_split raw' (c :: w) t' rest' (number_no_O _ _ _ HN) (eq_sym E)) as (w' & E' & ->).
      apply (Hn raw' (w' ++ OB ++ t) n); [|exact (number_mark _ w' t' t n HN)].
      change (c :: w ++ OB ++ t) with ((c :: w) ++ OB ++ t). rewrite E', <- app_assoc. reflexivity.
Qed.

Lemma LexesTo_mark code ps r : LexesTo code ps r -> forall t t', r = OB ++ t ->
  ascii_str (text_of ps) \/ (exists x, t' = t ++ x) -> LexesTo (text_of ps ++ OB ++ t') ps (OB ++ t').
Proof.
  induction 1 as [rest|c code ps rest Hc H IH|raw code ty ps rest Ht H IH]; intros t t' -> Ha.
  - constructor.
  - change (text_of (Gap c :: ps)) with (c :: text_of ps) in *.
    assert (ascii_str (text_of ps) \/ (exists x, t' = t ++ x)) as Ha'.
    { destruct Ha as [Ha|Ha]; [apply ascii_cons in Ha; left; tauto|right; exact Ha]. }
    constructor; [exact Hc|]. exact (IH t t' eq_refl Ha').
  - change (text_of (Tok raw ty :: ps)) with (raw ++ text_of ps) in *.
    assert ((ascii_str raw \/ (exists x, t' = t ++ x)) /\ (ascii_str (text_of ps) \/ (exists x, t' = t ++ x))) as [Hr Ha'].
    { destruct Ha as [Ha|Ha]; [apply ascii_app in Ha as [? ?]|]; auto. }
    rewrite <- app_assoc. constructor; [|exact (IH t t' eq_refl Ha')].
    rewrite (LexesTo_text _ _ _ H) in Ht. exact (TokText_mark raw (text_of ps) t t' ty Ht Hr).
Qed.

(** ** Typing on *)

Theorem still_open code r x : tokenize code = LexErr (UnclosedMultilineComment r) ->
  exists a s, code = a ++ OB ++ s /\ chars (r_start r) = Z.of_nat (length a) /\
    (~ occurs_in TL (OB ++ s ++ x) ->
     exists r', tokenize (code ++ x) = LexErr (UnclosedMultilineComment r') /\ r_start r' = r_start r).
Proof.
  intros E. apply tokenize_err_iff in E as (ps & rem & HL & [[s ->] HU] & E). injection E as ->.
  pose proof (LexesTo_text _ _ _ HL) as ->. exists (text_of ps), s. split; [reflexivity|]. split; [reflexivity|].
  intro Hn.
  exists {| r_start := pos_after ps; r_end := position_add (pos_after ps) (OB ++ s ++ x) |}. split; [|reflexivity].
  apply tokenize_err_iff. exists ps, (OB ++ s ++ x). split; [|split; [|reflexivity]].
  - rewrite <- !app_assoc. exact (LexesTo_mark _ _ _ HL s (s ++ x) eq_refl (or_intror (ex_intro _ x eq_refl))).
  - split; [exists (s ++ x); reflexivity|exact Hn].
Qed.

Lemma first_close u rest : ~ occurs_in TL u -> forall a b, u ++ TL ++ rest = a ++ TL ++ b -> (length u <= length a)%nat.
Proof.
  intros H a b E. apply app_eq_app in E as (l & [[-> E]|[-> E]]).
  - destruct l as [|c1 [|c2 [|c3 [|c4 l]]]]; cbn [lit app] in E.
    + rewrite app_nil_r. apply le_n.
    + injection E as <- E _. discriminate E.
    + injection E as <- <- E _. discriminate E.
    + injection E as <- <- <- E. discriminate E.
    + injection E as <- <- <- <- _. destruct H. exists a, l. reflexivity.
  - rewrite app_length. lia.
Qed.

Theorem closing code r : tokenize code = LexErr (UnclosedMultilineComment r) ->
  exists a s ts t, code = a ++ OB ++ s /\ chars (r_start r) = Z.of_nat (length a) /\
    tokenize (code ++ TL) = LexOk (ts ++ [t]) /\ tok_type t = TCommentMultiLine s /\ start_of t = r_start r /\
    forall s', ~ occurs_in TL (OB ++ s') -> ascii_str a -> exists t', tokenize (a ++ OB ++ s' ++ TL) = LexOk (ts ++ [t']) /\ tok_type t' = TCommentMultiLine s'.
Proof.
  intros E. apply tokenize_err_iff in E as (ps & rem & HL & [[s ->] HU] & E). injection E as ->.
  pose proof (LexesTo_text _ _ _ HL) as ->.
  assert (K : forall s', ~ occurs_in TL (OB ++ s') -> (ascii_str (text_of ps) \/ exists x, s' ++ TL = s ++ x) ->
    tokenize (text_of ps ++ OB ++ s' ++ TL) = LexOk (tokens_after [] (ps ++ [Tok (OB ++ s' ++ TL) (TCommentMultiLine s')]))).
  { intros s' Hn Ha. apply tokenize_ok_iff. eexists. split; [|reflexivity].
    apply (LexesTo_app _ _ _ (LexesTo_mark _ _ _ HL s (s' ++ TL) eq_refl Ha)).
    rewrite <- (app_nil_r (OB ++ s' ++ TL)) at 1. apply (lexes_tok _ []); [|constructor]. apply tt_multi_comment.
    intros x y E. change (4 + length s')%nat with (length (OB ++ s')). rewrite app_nil_r in E.
    apply (first_close (OB ++ s') [] Hn x y). rewrite app_nil_r, <- app_assoc. exact E. }
  set (tk := fun s' => {| tok_type := TCommentMultiLine s';
    tok_range := {| r_start := pos_after ps; r_end := pos_after (ps ++ [Tok (OB ++ s' ++ TL) (TCommentMultiLine s')]) |} |}).
  assert (K2 : forall s', ~ occurs_in TL (OB ++ s') -> (ascii_str (text_of ps) \/ exists x, s' ++ TL = s ++ x) ->
    tokenize (text_of ps ++ OB ++ s' ++ TL) = LexOk (tokens_after [] ps ++ [tk s'])).
  { intros s' Hn Ha. rewrite (K s' Hn Ha), tokens_after_app. reflexivity. }
  exists (text_of ps), s, (tokens_after [] ps), (tk s). split; [reflexivity|]. split; [reflexivity|].
  split; [rewrite <- !app_assoc; exact (K2 s HU (or_intror (ex_intro _ TL eq_refl)))|]. split; [reflexivity|]. split; [reflexivity|].
  intros s' Hn Ha. exists (tk s'). split; [exact (K2 s' Hn (or_introl Ha))|reflexivity].
Qed.

(** ** Cutting off *)

Lemma lexes_further code ps mid ps' : LexesTo code ps mid -> LexesTo code ps' [] ->
  exists ps2, ps' = ps ++ ps2 /\ LexesTo mid ps2 [].
Proof.
  intros H H'. pose proof (tokenize_meets mid) as M.
  assert (X : exists ps2 rem, LexesTo mid ps2 rem /\ Stuck rem).
  { destruct (tokenize mid); cbn [lex_meets] in M.
    - destruct M as (ps2 & HL & _). exists ps2, []. split; [exact HL|left; reflexivity].
    - destruct M as (ps2 & rem & HL & HU & _). exists ps2, rem. split; [exact HL|right; left; exact HU].
    - destruct M as (ps2 & rem & HL & HP). exists ps2, rem. split; [exact HL|right; right; exact HP].
    - destruct M. }
  destruct X as (ps2 & rem & HL & HS).
  destruct (LexesTo_deterministic _ _ _ H' (or_introl eq_refl) _ _ (LexesTo_app _ _ _ H _ _ HL) HS) as [-> <-].
  exists ps2. auto.
Qed.

Lemma comment_first t ps : LexesTo (OB ++ t) ps [] -> exists s rest ps',
  t = s ++ TL ++ rest /\ ps = Tok (OB ++ s ++ TL) (TCommentMultiLine s) :: ps' /\ TokText (OB ++ s ++ TL) rest (TCommentMultiLine s).
Proof.
  intro H. inversion H as [|c code ps1 rest1 Hc H1|raw code ty ps1 rest1 HT H1 E]; subst.
  - unfold ws in Hc. lia.
  - remember code as r1 eqn:Er.
    destruct HT as [r1|r1|s r1 Hs Hr|s r1 Hf|r1|r1|r1|r1|r1
    |k r1 Hk Hmax|raw r1 n Hn|body after s c r1 Hb Ex Hlen Hc|s Ho|raw r1 Hn Hll Hr Hk
    |c r1 Hc Hnw Hll Hin Hz Hd Hn]; try discriminate E.
    + exists s, r1, ps1. split; [|split; [reflexivity|constructor; exact Hf]].
      rewrite <- !app_assoc in E. change (79 :: 66 :: 84 :: 87 :: t) with (OB ++ t) in E.
      apply app_inv_head in E. symmetry. exact E.
    + exfalso. assert (Hle := Hmax OBTW ltac:(discriminate)). rewrite E in Hle. specialize (Hle (ex_intro _ t eq_refl)).
      clear Hmax H H1. destruct k; vm_compute in Hle, E; try discriminate E; try lia; cbn in Hk; tauto.
    + destruct (LexProofs.number_head _ _ _ Hn) as (c & r & -> & Hc). injection E as -> _. unfold digit, dot in Hc. lia.
    + exfalso. apply (Hk OBTW). rewrite E. exists t. reflexivity.
    + injection E as -> _. destruct Hll. right. right. lia.
Qed.

Theorem cut_inside a b ts e : tokenize (a ++ b) = LexOk ts -> tokenize a = LexErr e ->
  exists t s, In t ts /\ tok_type t = TCommentMultiLine s /\
    (chars (start_of t) + 4 <= Z.of_nat (length a) < chars (end_of t))%Z.
Proof.
  intros E E1. apply tokenize_ok_iff in E as (ps' & HL' & ->). destruct e as [r].
  apply tokenize_err_iff in E1 as (ps & rem & HL & [[t0 ->] HU] & _).
    pose proof (LexesTo_text _ _ _ HL) as Et. subst a.
    rewrite <- !app_assoc in HL'.
    destruct (lexes_further _ _ _ _ (LexesTo_mark _ _ _ HL t0 (t0 ++ b) eq_refl (or_intror (ex_intro _ b eq_refl))) HL') as (ps2 & -> & HL2).
    destruct (comment_first _ _ HL2) as (s & rest & ps3 & Es & -> & _).
    rewrite tokens_after_app. cbn [tokens_after app].
    eexists _, s. split; [apply in_app_iff; right; left; reflexivity|]. split; [reflexivity|].
    unfold start_of, end_of. cbn [tok_range r_start r_end pos_after chars]. rewrite text_of_app, !app_length.
    change (text_of [Tok (OB ++ s ++ TL) (TCommentMultiLine s)]) with ((OB ++ s ++ TL) ++ []). rewrite app_nil_r, !app_length.
    change (length OB) with 4%nat. change (length TL) with 4%nat.
    assert (length t0 < length s + 4)%nat; [|lia].
    destruct (Nat.lt_ge_cases (length t0) (length s + 4)) as [L|L]; [exact L|]. exfalso. apply HU.
    rewrite app_assoc in Es. apply app_eq_app in Es as (l & [[-> Es]|[Es ->]]).
    + exists (OB ++ s), l. rewrite <- !app_assoc. reflexivity.
    + assert (l = []) as -> by (apply length_zero_iff_nil; apply (f_equal (@length _)) in Es; rewrite !app_length in Es; cbn in Es; lia).
      rewrite app_nil_r in Es. rewrite <- Es. exists (OB ++ s), []. rewrite app_nil_r, <- app_assoc. reflexivity.
Qed.

Theorem cutting a b ts : ascii_str (a ++ b) -> tokenize (a ++ b) = LexOk ts ->
  ((exists e, tokenize a = LexErr e) <->
   exists t s, In t ts /\ tok_type t = TCommentMultiLine s /\
     (chars (start_of t) + 4 <= Z.of_nat (length a) < chars (end_of t))%Z) /\
  ((exists ts', tokenize a = LexOk ts') <->
   forall t s, In t ts -> tok_type t = TCommentMultiLine s ->
     ~ (chars (start_of t) + 4 <= Z.of_nat (length a) < chars (end_of t))%Z).
Proof.
  intros Ha E.
  assert (X : (exists e, tokenize a = LexErr e) <->
   exists t s, In t ts /\ tok_type t = TCommentMultiLine s /\
     (chars (start_of t) + 4 <= Z.of_nat (length a) < chars (end_of t))%Z).
  { split; [intros [e E1]; exact (cut_inside _ _ _ _ E E1)|].
    apply tokenize_ok_iff in E as (ps' & HL' & ->). apply ascii_app in Ha as [Ha Hb].
    intros (t & s & Ht & Ty & H1 & H2).
    destruct (token_facts _ _ _ _ HL' Ht) as (ps1 & raw & ps2 & -> & L1 & HT & L2 & Hat & H3 & H4).
    rewrite Ty in HT. inversion HT as [| | |s' r1 Hf E1 E2 E3| | | | | | | | | | |]; subst.
    destruct Hat as (Ec & _). rewrite H3 in H1. rewrite H4 in H2. cbn [chars pos_after] in H1, H2.
    rewrite text_of_app, app_length in H2.
    change (text_of [Tok (OB ++ s ++ TL) (tok_type t)]) with ((OB ++ s ++ TL) ++ []) in H2.
    rewrite app_nil_r, !app_length in H2. change (length OB) with 4%nat in H2. change (length TL) with 4%nat in H2.
    set (w := text_of ps1) in *. set (rest := text_of ps2 ++ []) in *. clearbody rest.
    assert (exists s1, a = w ++ OB ++ s1) as (s1 & ->).
    { rewrite <- !app_assoc in Ec. rewrite (app_assoc w OB) in Ec.
      apply app_eq_app in Ec as (l & [[-> _]|[Ew _]]).
      - exists l. rewrite <- app_assoc. reflexivity.
      - assert (l = []) as ->.
        { apply length_zero_iff_nil. apply (f_equal (@length _)) in Ew. rewrite !app_length in Ew.
          change (length OB) with 4%nat in Ew. unfold str, char in *. lia. }
        exists []. rewrite !app_nil_r in *. symmetry. exact Ew. }
    apply ascii_app in Ha as [Ha _]. rewrite !app_length in H2. change (length OB) with 4%nat in H2.
    eexists. apply tokenize_err_iff. exists ps1, (OB ++ s1). split; [|split; [|reflexivity]].
    + rewrite <- !app_assoc in L1. exact (LexesTo_mark _ _ _ L1 (s ++ TL ++ rest) s1 eq_refl (or_introl Ha)).
    + split; [exists s1; reflexivity|]. intros (x & y & Exy).
      assert (E4 : OB ++ s ++ TL ++ rest = x ++ TL ++ y ++ b).
      { rewrite <- !app_assoc in Ec. apply app_inv_head in Ec. rewrite <- Ec, app_assoc, Exy, <- !app_assoc. reflexivity. }
      specialize (Hf _ _ E4). apply (f_equal (@length _)) in Exy. rewrite !app_length in Exy.
      change (length OB) with 4%nat in Exy. change (length TL) with 4%nat in Exy. unfold str, char in *. lia.

  }
  split; [exact X|]. apply ascii_app in Ha as [Ha _].
  pose proof (tokenize_ascii_no_panic a Ha) as Np. split.
  - intros [ts' E1] t s Hi Ht Hr. destruct (proj2 X) as [e E2]; [exists t, s; auto|]. congruence.
  - intros H. pose proof (tokenize_meets a) as M. destruct (tokenize a) as [ts'|e| |] eqn:E1.
    + exists ts'. reflexivity.
    + destruct (proj1 X (ex_intro _ e eq_refl)) as (t & s & Hi & Ht & Hr). destruct (H t s Hi Ht Hr).
    + destruct (Np eq_refl).
    + destruct M.
Qed.
