(** The sequences of tokens that sources have. *)
From Coq Require Import String Lia.
From Verif Require Import StrFacts LexBasics Lexer LexProofs LexProps LexProps2 LexProps3 LookAheadProofs Display DisplayProofs FloatRounding FloatImage.
From Verif Require Export ImageSpec.
Local Open Scope Z_scope.
Local Open Scope list_scope.

(** ** Lines of pieces *)

Fixpoint plines (l : Z) (ps : list piece) : list (token_type * Z) :=
  match ps with
  | [] => []
  | Gap c :: ps' => plines (if N.eqb c newline then l + 1 else l) ps'
  | Tok _ ty :: ps' => (ty, l) :: plines l ps'
  end.

Lemma plines_spec ps : forall before,
  map with_line (tokens_after before ps) = plines (line (pos_after before)) ps.
Proof.
  assert (L : forall before x, line (pos_after (before ++ [x])) = line (pos_after before) + (if is_break x then 1 else 0)).
  { intros before x. cbn [line pos_after]. rewrite filter_app, app_length. cbn [filter]. destruct (is_break x); cbn [length]; lia. }
  induction ps as [|[c|raw ty] ps IH]; intros before; cbn [tokens_after plines map]; [reflexivity| |].
  - rewrite IH, L. cbn [is_break]. destruct (N.eqb c newline); [reflexivity|]. rewrite Z.add_0_r. reflexivity.
  - rewrite IH, L. cbn [is_break]. rewrite Z.add_0_r. reflexivity.
Qed.

Lemma yields_weaken l l' xs : l' <= l -> Yields l xs -> Yields l' xs.
Proof. intros H Y. inversion Y; subst; econstructor; eauto; lia. Qed.

Lemma plines_ge ps : forall l x, In x (plines l ps) -> l <= snd x.
Proof.
  induction ps as [|[c|raw ty] ps IH]; intros l x H; cbn [plines] in H; [contradiction| |].
  - apply IH in H. destruct (N.eqb c newline); lia.
  - destruct H as [<-|H]; [cbn; lia|]. apply IH, H.
Qed.

(** ** Every source *)

Lemma digit_token raw rest ty c r : TokText raw rest ty -> raw = c :: r -> digit c ->
  ty = TSymbol [c] /\ r = [] \/ exists n, ty = TValue (VNumber n) /\ NumberText raw rest n.
Proof.
  intros HT E Hd. unfold digit in Hd.
  destruct HT as [r1|r1|s r1 Hs1 Hr|s r1 Hf|r1|r1|r1|r1|r1
    |k r1 Hk Hmax|raw r1 n Hn|body after s c0 r1 Hb E2 Hlen Hc|s Ho|raw r1 Hn Hll Hr Hk
    |c0 r1 Hc Hnw Hll Hin Hz Hdd Hn];
    try (injection E as <- _; lia).
  - exfalso. assert (Hsp : letter c \/ c = 32%N) by (apply (spelling_chars k); rewrite E; left; reflexivity).
    unfold letter in Hsp. lia.
  - right. eauto.
  - exfalso. injection E as E _. unfold quote in E. lia.
  - exfalso. injection E as E _. unfold quote in E. lia.
  - exfalso. subst raw. inversion Hll as [|? ? Hl _]; subst. unfold letter in Hl. lia.
  - left. injection E as <- <-. auto.
Qed.

Lemma digits_lexed ds ps l : Forall digit ds -> LexesTo ds ps [] -> plines l ps = map (fun c => (digit_symbol c, l)) ds.
Proof.
  intros Hd. revert ps. induction Hd as [|c ds Hc Hd IH]; intros ps HL.
  - inversion HL as [rest|c code ps' rest Hw HL'|raw code ty ps' rest HT HL' E]; subst; [reflexivity|].
    exfalso. apply app_eq_nil in E as [-> _]. apply TokText_nonempty in HT. contradiction.
  - inversion HL as [|c' code ps' rest Hw HL'|raw code ty ps' rest HT HL' E]; subst.
    + unfold ws, digit in *. lia.
    + destruct raw as [|x raw]; [apply TokText_nonempty in HT; contradiction|]. injection E as -> E.
      destruct (digit_token _ _ _ _ _ HT eq_refl Hc) as [[-> ->]|(n & -> & HN)].
      * cbn [app] in E. subst code. cbn [plines map app]. f_equal. apply IH. exact HL'.
      * exfalso. refine (digit_no_number c ds ltac:(constructor; assumption) (c :: raw) code n _ HN).
        cbn [app]. rewrite E. reflexivity.
Qed.

Lemma digit_dec c : {digit c} + {~ digit c}.
Proof. destruct (is_digit c) eqn:E; [left|right]; rewrite <- is_digit_iff; congruence. Qed.
Lemma span_digits (r : str) : exists ds r', r = ds ++ r' /\ Forall digit ds /\ ~ starts digit r'.
Proof.
  induction r as [|c r (ds & r' & -> & Hds & Hr)].
  - exists [], []. repeat split; auto. intros (x & y & E & _). discriminate E.
  - destruct (digit_dec c) as [Hc|Hc].
    + exists (c :: ds), r'. repeat split; auto.
    + exists [], (c :: ds ++ r'). repeat split; auto. intros (x & y & E & Hx). injection E as <- _. contradiction.
Qed.

(** A digit that is not part of a number. *)
Lemma digit_cases c rest : digit c ->
  (forall raw rest' n, c :: rest = raw ++ rest' -> ~ NumberText raw rest' n) ->
  rest = [] \/ (exists c' r, rest = c' :: r /\ digit c') \/ exists ds, rest = dot :: ds /\ Forall digit ds.
Proof.
  intros Hc Hn. destruct rest as [|c' r]; [auto|]. right.
  destruct (digit_dec c') as [Hd|Hd]; [left; eauto|]. right.
  destruct (N.eq_dec c' dot) as [->|Hdot].
  - exists r. split; [reflexivity|].
    destruct (span_digits r) as (ds & r' & -> & Hds & Hr). destruct r' as [|x r'].
    { rewrite app_nil_r. exact Hds. }
    exfalso. apply (Hn (c :: dot :: ds) (x :: r') (Float (f32_of_decimal false (dec ([c] ++ ds)) (length ds)))); [reflexivity|].
    apply (number_float [] false [c] ds); [constructor|discriminate|auto|exact Hds|].
    exists x, r'. split; [reflexivity|]. intros Hx. apply Hr. exists x, r'. auto.
  - exfalso. apply (Hn [c] (c' :: r) (Int (signed false (dec [c])))); [reflexivity|].
    apply (number_int [] false [c]); [constructor|discriminate|auto| |exists c', r; auto].
    cbn [dec signed length]. unfold digit in Hc. change (10 ^ Z.of_nat 0) with 1. lia.
Qed.

Lemma ascii_string body after s c rest : ascii_str (quote :: s ++ [c]) -> ascii_str rest -> quote :: body ++ quote :: after = quote :: s ++ c :: rest ->
  byte_len s = length body -> body = s.
Proof.
  intros Ha Hr E L. change (quote :: s ++ [c]) with ([quote] ++ s ++ [c]) in Ha.
  apply ascii_app in Ha as [_ Ha]. apply ascii_app in Ha as [Ha _].
  rewrite (byte_len_ascii _ Ha) in L. injection E as E.
  apply (f_equal (firstn (length body))) in E. rewrite firstn_app, Nat.sub_diag, firstn_all, firstn_O, app_nil_r in E.
  rewrite E, <- L, firstn_app, Nat.sub_diag, firstn_all, firstn_O, app_nil_r. reflexivity.
Qed.

Lemma source_yields n : forall ps code l, (length ps <= n)%nat -> LexesTo code ps [] -> ascii_str code -> Yields l (plines l ps).
Proof.
  induction n as [|n IH]; intros ps code l Hlen HL Ha.
  { destruct ps; [constructor|cbn in Hlen; lia]. }
  remember (@nil char) as fin eqn:Ef in HL.
  destruct HL as [rest|c code ps rest Hw HL|raw code ty ps rest HT HL]; [constructor| |]; subst rest; cbn [length] in Hlen; cbn [plines].
  - apply ascii_cons in Ha as [_ Ha]. destruct (N.eqb c newline).
    + apply (yields_weaken (l + 1)); [lia|]. apply (IH _ code); [lia|assumption|assumption].
    + apply (IH _ code); [lia|assumption|assumption].
  - apply ascii_app in Ha as [Hraw Ha].
    assert (Y : Yields l (plines l ps)) by (apply (IH _ code); [lia|assumption|assumption]).
    destruct HT as [r1|r1|s r1 Hs1 Hr|s r1 Hf|r1|r1|r1|r1|r1
      |k r1 Hk Hmax|raw r1 x Hn|body after s c r1 Hb E2 Hl2 Hc|s Ho|raw r1 Hn Hll Hr Hk
      |c r1 Hc Hnw Hll Hin Hz Hdd Hn];
      try (apply yields_token; [lia|exact I|exact Y]).
    + apply ascii_app in Hraw as [_ Hraw]. apply yields_token; [lia|split; assumption|].
      destruct Hr as [->|(c & r & -> & <-)].
      * inversion HL as [| |raw code ty ps' rest' HT HL' E]; subst; [constructor|].
        apply app_eq_nil in E as [-> _]. apply TokText_nonempty in HT. contradiction.
      * inversion HL as [|c code ps' rest' Hw HL'|raw code ty ps' rest' HT HL' E]; subst.
        -- cbn [plines]. change (N.eqb newline newline) with true. cbv iota. apply (IH _ r); [cbn [length] in Hlen; lia|assumption|].
           apply ascii_cons in Ha as [_ Ha]. exact Ha.
        -- exfalso. destruct raw as [|x raw]; [apply TokText_nonempty in HT; contradiction|]. 
           apply TokText_not_ws in HT. apply HT. rewrite E. exists newline, r. unfold ws, newline. auto.
    + apply ascii_app in Hraw as [_ Hraw]. apply ascii_app in Hraw as [Hraw _].
      apply yields_token; [lia| |exact Y]. split; [exact Hraw|]. intros a b E.
      specialize (Hf (lit "OBTW" ++ a) (b ++ r1)). rewrite (app_assoc s), E in Hf.
      specialize (Hf ltac:(rewrite <- !app_assoc; reflexivity)). apply (f_equal (@length char)) in E.
      rewrite !app_length in E, Hf. change (length (lit "OBTW")) with 4%nat in Hf. change (length (lit "TLDR")) with 4%nat in E.
      destruct b; [reflexivity|]. exfalso. cbn [length] in E. rewrite (app_length a), (app_length (lit "TLDR")) in E. change (length (lit "TLDR")) with 4%nat in E. cbn [length] in E. lia.
    + apply yields_token; [lia|exact Hk|exact Y].
    + apply yields_token; [lia| |exact Y]. destruct Hn as [sg neg ds rest' Hs Hne Hds Hr Hst|sg neg ip fp rest' Hs Hne Hi Hf Hst]; cbn [anywhere].
      * exact Hr.
      * apply float_ok, dec_nonneg, Forall_app. auto.
    + assert (body = s) by (eapply ascii_string; eassumption). subst body.
      apply yields_token; [lia| |exact Y]. split; [|exact Hb].
      change (quote :: s ++ [c]) with ([quote] ++ s ++ [c]) in Hraw.
      apply ascii_app in Hraw as [_ Hraw]. apply ascii_app in Hraw as [Hraw _]. exact Hraw.
    + change (quote :: s) with ([quote] ++ s) in Hraw. apply ascii_app in Hraw as [_ Hraw].
      inversion HL as [| |raw code ty ps' rest' HT HL' E]; subst; [constructor; [lia|exact Hraw|exact Ho]|].
      apply app_eq_nil in E as [-> _]. apply TokText_nonempty in HT. contradiction.
    + apply yields_token; [lia| |exact Y]. split; [exact Hn|]. split; [exact Hll|].
      intros k [t E]. apply (Hk k). exists (t ++ r1). rewrite E, <- app_assoc. reflexivity.
    + destruct (digit_dec c) as [Hd|Hd].
      2:{ apply yields_token; [lia| |exact Y]. exists c. auto 10. }
      destruct (digit_cases c r1 Hd Hn) as [->|[(c' & r & -> & Hd')|(ds & -> & Hds)]].
      * inversion HL as [| |raw code ty ps' rest' HT HL' E]; subst; [constructor; [lia|exact Hd]|].
        apply app_eq_nil in E as [-> _]. apply TokText_nonempty in HT. contradiction.
      * inversion HL as [|c0 code ps' rest' Hw HL'|raw code ty ps' rest' HT HL' E]; subst.
        { unfold ws, digit in *. lia. }
        destruct raw as [|x raw]; [apply TokText_nonempty in HT; contradiction|]. injection E as -> E.
        destruct (digit_token _ _ _ _ _ HT eq_refl Hd') as [[-> ->]|(v & -> & HN)].
        -- cbn [plines] in Y |- *. apply yields_more_digits; [lia|exact Hd|exact Hd'|exact Y].
        -- cbn [plines] in Y |- *. subst r. rename HT into HT'.
           remember (c' :: raw) as w eqn:Ew. destruct HN as [sg neg dsx rest0 Hs Hne Hds Hr Hst|sg neg ip fp rest0 Hs Hne Hi Hf Hst].
           ++ assert (Es : sg = [] /\ neg = false).
              { destruct Hs; [auto| |]; exfalso; injection Ew as <- _; unfold digit in Hd'; lia. }
              destruct Es as [-> ->]. cbn [app] in Ew. subst dsx. cbn [signed] in *.
              assert (0 <= dec (c' :: raw)) by (apply dec_nonneg; assumption).
              apply yields_overflow; [lia|exact Hd| |lia|].
              ** intros ->. apply (Hn (48%N :: c' :: raw) rest0 (Int (signed false (dec (48%N :: c' :: raw))))); [reflexivity|].
                 apply (number_int [] false); [constructor|discriminate|constructor; assumption| |exact Hst].
                 cbn [signed]. change (dec (48%N :: c' :: raw)) with (0 * 10 ^ Z.of_nat (length (c' :: raw)) + dec (c' :: raw)). lia.
              ** inversion Y; subst; assumption.
           ++ exfalso. assert (Es : sg = [] /\ neg = false).
              { destruct Hs; [auto| |]; exfalso; injection Ew as <- _; unfold digit in Hd'; lia. }
              destruct Es as [-> ->]. cbn [app] in Ew.
              eapply (Hn (c :: ip ++ dot :: fp) rest0); [|apply (number_float [] false (c :: ip) fp); [constructor|discriminate|constructor; assumption|exact Hf|exact Hst]].
              rewrite Ew. reflexivity.
      * inversion HL as [|c0 code ps' rest' Hw HL'|raw code ty ps' rest' HT HL' E]; subst.
        { unfold ws, dot in *. lia. }
        assert (Hx : raw = [dot] /\ ty = TSymbol [dot]).
        { destruct HT as [r2|r2|s r2 Hs1 Hr|s r2 Hf|r2|r2|r2|r2|r2
            |k r2 Hk Hmax|raw r2 x Hn2|body after s c2 r2 Hb E2 Hl2 Hc2|s Ho|raw r2 Hn2 Hl2 Hr Hk
            |c2 r2 Hc2 Hnw2 Hll2 Hin2 Hz2 Hdd2 Hn2]; try (discriminate E).
          - injection E as E. subst ds. inversion Hds as [|? ? Hx _]. unfold digit in Hx. lia.
          - exfalso. destruct (spelling k) as [|x w] eqn:Ek; [apply (spelling_nonempty k Ek)|]. injection E as -> _.
            assert (Hsp : letter dot \/ dot = 32%N) by (apply (spelling_chars k); rewrite Ek; left; reflexivity).
            unfold letter, dot in Hsp. lia.
          - exfalso. inversion Hn2 as [sg neg dsx rest0 Hs Hne Hdx Hr Hst|sg neg ip fp rest0 Hs Hne Hi Hf Hst]; subst.
            + destruct Hdx as [|x dsx Hx Hdx]; [contradiction|]. destruct Hs; cbn [app] in E; injection E as E _; unfold dot, digit in *; lia.
            + destruct Hs; cbn [app] in E; try (injection E as E _; unfold dot in E; lia).
              destruct Hi as [|x ip Hx Hi]; cbn [app] in E; [|injection E as E _; unfold dot, digit in *; lia].
              injection E as E. rewrite <- E in Hds. apply Forall_app in Hds as [_ Hds].
              destruct Hst as (x & r & -> & Hx). inversion Hds; contradiction.
          - exfalso. destruct raw as [|x w]; [contradiction|]. injection E as -> _. inversion Hl2 as [|? ? Hx _]. unfold letter, dot in Hx. lia.
          - injection E as -> _. auto. }
        destruct Hx as [-> ->]. injection E as ->. cbn [plines].
        rewrite (digits_lexed ds _ l Hds HL'). apply yields_last_decimal; [lia|exact Hd|exact Hds].
Qed.

(** ** A source for every sequence *)

Lemma digits_of v : 0 <= v -> exists ds, ds <> [] /\ Forall digit ds /\ dec ds = v.
Proof.
  intros Hv. pose proof (Z.log2_nonneg v).
  destruct (digits_spec (S (Z.to_nat (Z.log2 v))) v Hv) as (H1 & H2 & _ & H4); [right; lia|]. eauto.
Qed.
Lemma dec_app a b : dec (a ++ b) = dec a * 10 ^ Z.of_nat (length b) + dec b.
Proof.
  induction a as [|d a IH]; cbn [app dec]; [lia|]. rewrite IH, app_length, Nat2Z.inj_add, Z.pow_add_r by lia. lia.
Qed.
Lemma zeros k : Forall digit (repeat 48%N k).
Proof. apply Forall_forall. intros c Hc. apply repeat_spec in Hc. subst c. unfold digit. lia. Qed.
Lemma digits_padded v k : 0 <= v -> exists ds, (k < length ds)%nat /\ Forall digit ds /\ dec ds = v.
Proof.
  intros Hv. destruct (digits_of v Hv) as (ds & Hn & Hd & E). exists (repeat 48%N k ++ ds).
  split; [|split].
  - rewrite app_length, repeat_length. destruct ds; [contradiction|]. cbn [length]. lia.
  - apply Forall_app. split; [apply zeros|exact Hd].
  - rewrite dec_app, dec_zeros. lia.
Qed.
Lemma letters_ascii (s : str) : Forall letter s -> ascii_str s.
Proof.
  induction 1 as [|c s Hc _ IH]; [reflexivity|]. apply ascii_cons. split; [|exact IH].
  unfold is_ascii. apply N.ltb_lt. unfold letter in Hc. lia.
Qed.
Lemma spelling_ascii k : ascii_str (spelling k).
Proof. destruct k; vm_compute; reflexivity. Qed.

Lemma anywhere_written ty : anywhere ty -> exists raw, Writes ty raw /\ ascii_str raw.
Proof.
  destruct ty as [s|k|s|[[v|x]|s|[|]|]|s|s| | | | |]; cbn [anywhere]; intros H.
  - destruct H as (H1 & H2 & H3). exists s. split; [constructor; assumption|apply letters_ascii, H2].
  - exists (spelling k). split; [constructor; assumption|apply spelling_ascii].
  - destruct H as (c & -> & Hc & H). exists [c]. split; [constructor; tauto|].
    apply ascii_cons. split; [apply N.ltb_lt; exact Hc|reflexivity].
  - destruct (Z.ltb_spec v 0) as [Hv|Hv].
    + destruct (digits_of (- v)) as (ds & Hn & Hd & E); [lia|]. exists ([45%N] ++ ds).
      split; [|apply ascii_app; split; [reflexivity|apply digits_ascii, Hd]].
      replace v with (signed true (dec ds)) by (cbn [signed]; lia).
      constructor; [constructor|assumption|assumption|cbn [signed]; lia].
    + destruct (digits_of v Hv) as (ds & Hn & Hd & E). exists ([] ++ ds).
      split; [|apply digits_ascii, Hd].
      replace v with (signed false (dec ds)) by (cbn [signed]; lia).
      constructor; [constructor|assumption|assumption|cbn [signed]; lia].
  - destruct H as [Hv Hn]. destruct (every_f32_is_a_decimal x Hv Hn) as (neg & v & k & Hp & <-).
    destruct (digits_padded v k Hp) as (ds & Hl & Hd & E).
    assert (Es : ds = firstn (length ds - k) ds ++ skipn (length ds - k) ds) by (symmetry; apply firstn_skipn).
    set (ip := firstn (length ds - k) ds) in *. set (fp := skipn (length ds - k) ds) in *.
    assert (Hk : length fp = k) by (unfold fp; rewrite skipn_length; lia).
    rewrite Es in Hd. apply Forall_app in Hd as [Hi Hf].
    exists ((if neg then [45%N] else []) ++ ip ++ dot :: fp). split.
    + rewrite <- E, <- Hk, Es. constructor.
      * destruct neg; constructor.
      * rewrite <- Es. intros E0. rewrite E0 in Hl. cbn in Hl. lia.
      * exact Hi.
      * exact Hf.
    + apply ascii_app. split; [destruct neg; reflexivity|]. apply ascii_app. split; [apply digits_ascii, Hi|].
      apply ascii_cons. split; [reflexivity|apply digits_ascii, Hf].
  - destruct H as [Ha Hb]. exists (quote :: s ++ [quote]). split; [constructor; assumption|].
    apply ascii_cons. split; [reflexivity|]. apply ascii_app. split; [exact Ha|reflexivity].
  - exists (lit "WIN"). split; [constructor|reflexivity].
  - exists (lit "FAIL"). split; [constructor|reflexivity].
  - exists (lit "NOOB"). split; [constructor|reflexivity].
  - destruct H as [Ha Hb]. exists (lit "BTW" ++ s). split; [constructor; assumption|].
    apply ascii_app. split; [reflexivity|exact Ha].
  - destruct H as [Ha Hb]. exists (lit "OBTW" ++ s ++ lit "TLDR"). split; [constructor; assumption|].
    apply ascii_app. split; [reflexivity|]. apply ascii_app. split; [exact Ha|reflexivity].
  - exists (lit "'Z"). split; [constructor|reflexivity].
  - exists (lit "..."). split; [constructor|reflexivity].
  - exists (lit ","). split; [constructor|reflexivity].
  - exists (lit "!"). split; [constructor|reflexivity].
  - contradiction.
Qed.

Lemma newlines_lexed k : forall code ps, LexesTo code ps [] ->
  LexesTo (repeat newline k ++ code) (repeat (Gap newline) k ++ ps) [].
Proof.
  intros code ps H. induction k as [|k IH]; cbn [repeat app]; [exact H|]. constructor; [unfold ws, newline; auto|exact IH].
Qed.
Lemma newlines_lines k : forall l ps, plines l (repeat (Gap newline) k ++ ps) = plines (l + Z.of_nat k) ps.
Proof.
  induction k as [|k IH]; intros l ps; cbn [repeat app plines]; [f_equal; lia|].
  change (N.eqb newline newline) with true. cbv iota. rewrite IH. f_equal. lia.
Qed.
Lemma newlines_ascii k : ascii_str (repeat newline k).
Proof. induction k; [reflexivity|]. apply ascii_cons. split; [reflexivity|assumption]. Qed.

(** The text of the first token. *)
Lemma first_token_text code ps n ty xs : LexesTo code ps [] -> plines n ps = (ty, n) :: xs -> ascii_str code ->
  exists raw code' ps', TokText raw code' ty /\ LexesTo code' ps' [] /\ plines n ps' = xs /\ ascii_str (raw ++ code').
Proof.
  intros HL. remember (@nil char) as fin eqn:Ef in HL. induction HL as [rest|c code ps rest Hw HL IH|raw code ty' ps rest HT HL IH]; intros E Ha; subst rest; cbn [plines] in E.
  - discriminate E.
  - apply ascii_cons in Ha as [_ Ha]. destruct (N.eqb c newline) eqn:Ec.
    + exfalso. assert (Hin : In (ty, n) (plines (n + 1) ps)) by (rewrite E; left; reflexivity).
      apply plines_ge in Hin. cbn [snd] in Hin. lia.
    + apply IH; [reflexivity|exact E|exact Ha].
  - injection E as <- E. exists raw, code, ps. auto.
Qed.

(** A source on line [n] as a source from line [l]. *)
Lemma from_line l n xs : l <= n ->
  (exists code ps, LexesTo code ps [] /\ ascii_str code /\ plines n ps = xs) ->
  exists code ps, LexesTo code ps [] /\ ascii_str code /\ plines l ps = xs.
Proof.
  intros Hl (code & ps & HL & Ha & E).
  exists (repeat newline (Z.to_nat (n - l)) ++ code), (repeat (Gap newline) (Z.to_nat (n - l)) ++ ps).
  split; [apply newlines_lexed, HL|]. split; [apply ascii_app; split; [apply newlines_ascii|exact Ha]|].
  rewrite newlines_lines. replace (l + Z.of_nat (Z.to_nat (n - l))) with n by lia. exact E.
Qed.

Lemma digit_symbol_text c rest : digit c ->
  (forall (raw rest' : str) n, c :: rest = raw ++ rest' -> ~ NumberText raw rest' n) ->
  TokText [c] rest (digit_symbol c).
Proof.
  intros Hc H. unfold digit in Hc. constructor.
  - lia.
  - unfold ws; lia.
  - unfold letter; lia.
  - change (lit ",!" ++ [quote]) with [44; 33; 34]%N. cbn [In]. lia.
  - apply not_slot. lia.
  - apply not_dots. unfold dot. lia.
  - exact H.
Qed.

Lemma two_runs (a b x y : str) (c : char) : Forall digit a -> Forall digit b -> ~ digit c -> starts (fun c => ~ digit c) y ->
  a ++ c :: x = b ++ y -> a = b.
Proof.
  intros Ha. revert b. induction Ha as [|d a Hd Ha IH]; intros b Hb Hc Hy E.
  - destruct Hb as [|d b Hd Hb]; [reflexivity|]. injection E as -> _. contradiction.
  - destruct Hb as [|d' b Hd' Hb]; cbn [app] in E.
    + destruct Hy as (z & r & -> & Hz). injection E as <- _. contradiction.
    + injection E as -> E. f_equal. exact (IH _ Hb Hc Hy E).
Qed.

Lemma number_of_digit c rest raw rest' n : digit c -> c :: rest = raw ++ rest' -> NumberText raw rest' n ->
  (exists ds, raw = c :: ds /\ Forall digit ds /\ n = Int (dec (c :: ds)) /\ dec (c :: ds) < 2 ^ 31 /\ starts (fun c => ~ digit c /\ c <> dot) rest') \/
  (exists ip fp, raw = c :: ip ++ dot :: fp /\ Forall digit ip /\ Forall digit fp /\ starts (fun c => ~ digit c) rest').
Proof.
  intros Hc E HN. destruct HN as [sg neg ds rest' Hs Hne Hds Hr Hst|sg neg ip fp rest' Hs Hne Hi Hf Hst].
  - left. assert (Es : sg = [] /\ neg = false).
    { destruct Hs; [auto| |]; exfalso; cbn [app] in E; injection E as -> _; unfold digit in Hc; lia. }
    destruct Es as [-> ->]. destruct Hds as [|d ds Hd Hds]; [contradiction|]. cbn [app] in E. injection E as <- E.
    exists ds. cbn [signed] in *. split; [reflexivity|]. split; [exact Hds|]. split; [reflexivity|]. split; [lia|exact Hst].
  - right. assert (Es : sg = [] /\ neg = false).
    { destruct Hs; [auto| |]; exfalso; cbn [app] in E; injection E as -> _; unfold digit in Hc; lia. }
    destruct Es as [-> ->]. destruct Hi as [|d ip Hd Hi]; cbn [app] in E.
    + exfalso. injection E as -> _. unfold digit, dot in Hc. lia.
    + injection E as <- E. exists ip, fp. auto.
Qed.

Lemma yields_source l xs : Yields l xs -> exists code ps, LexesTo code ps [] /\ ascii_str code /\ plines l ps = xs.
Proof.
  induction 1 as [l|l n ty xs Hl Hty _ (code & ps & HL & Ha & E)|l n s Hl Ha Hq|l n d Hl Hd|l n d ds Hl Hd Hds
    |l n d v xs Hl Hd Hnz Hv _ (code & ps & HL & Ha & E)|l n d d' xs Hl Hd Hd' _ (code & ps & HL & Ha & E)].
  - exists [], []. split; [constructor|]. split; reflexivity.
  - apply (from_line l n); [exact Hl|]. destruct (anywhere_written ty Hty) as (raw & HW & Hr).
    pose (sep := match ty with TCommentSingleLine _ => newline | _ => 9%N end).
    assert (HT : TokText raw ([sep] ++ code) ty).
    { apply writes_tok; [exact HW|]. split; [discriminate|]. split.
      - constructor; [|constructor]. unfold sep, ws, newline. destruct ty; auto.
      - unfold sep. destruct ty; try exact I.
        + intros _. exists 9%N, []. split; [reflexivity|discriminate].
        + exists newline, []. auto. }
    exists (raw ++ sep :: code), (Tok raw ty :: Gap sep :: ps). split; [|split].
    + constructor; [exact HT|]. constructor; [|exact HL]. unfold sep, ws, newline. destruct ty; auto.
    + apply ascii_app. split; [exact Hr|]. apply ascii_cons. split; [unfold sep; destruct ty; reflexivity|exact Ha].
    + cbn [plines]. f_equal. rewrite <- E. unfold sep. destruct ty; reflexivity.
  - apply (from_line l n); [exact Hl|]. exists (quote :: s), [Tok (quote :: s) (TValue (VString s))].
    split; [|split; [apply ascii_cons; split; [reflexivity|exact Ha]|reflexivity]].
    rewrite <- (app_nil_r (quote :: s)) at 1. constructor; [constructor; exact Hq|constructor].
  - apply (from_line l n); [exact Hl|]. exists [d], [Tok [d] (digit_symbol d)].
    split; [apply (digits_symbols [d]); auto|]. split; [apply digits_ascii; auto|reflexivity].
  - apply (from_line l n); [exact Hl|].
    exists (d :: dot :: ds), (Tok [d] (digit_symbol d) :: Tok [dot] (TSymbol [dot]) :: map (fun c => Tok [c] (TSymbol [c])) ds).
    split; [|split].
    + apply (lexes_tok [d] (dot :: ds)); [|apply (lexes_tok [dot] ds); [|apply digits_symbols, Hds]].
      * apply digit_symbol_text; [exact Hd|]. intros raw rest x E HN.
        destruct (number_of_digit _ _ _ _ _ Hd E HN) as [(es & -> & He & _ & _ & Hst)|(ip & fp & -> & Hi & Hf & Hst)].
        -- cbn [app] in E. injection E as E. destruct He as [|z es Hz He]; cbn [app] in E.
           ++ subst rest. destruct Hst as (z & r & Ez & _ & Hz). injection Ez as <- _. contradiction.
           ++ injection E as <- _. unfold digit, dot in Hz. lia.
        -- cbn [app] in E. injection E as E. destruct Hi as [|z ip Hz Hi]; cbn [app] in E.
           ++ injection E as E. subst ds. apply Forall_app in Hds as [_ Hds]. destruct Hst as (z & r & -> & Hz). inversion Hds; contradiction.
           ++ injection E as <- _. unfold digit, dot in Hz. lia.
      * constructor; try (unfold ws, letter, dot; lia).
        -- cbn. unfold dot, quote. lia.
        -- apply not_slot. unfold dot. lia.
        -- intros [t Et]. injection Et as Et. subst ds. inversion Hds as [|? ? Hz _]. unfold digit in Hz. lia.
        -- intros raw rest x Ex Hn2. inversion Hn2 as [sg neg dsx rest0 Hs Hne Hdx Hr Hst|sg neg ip fp rest0 Hs Hne Hi Hf Hst]; subst.
           ++ destruct Hdx as [|z dsx Hz Hdx]; [contradiction|]. destruct Hs; cbn [app] in Ex; injection Ex as Ex _; unfold dot, digit in *; lia.
           ++ destruct Hs; cbn [app] in Ex; try (injection Ex as Ex _; unfold dot in Ex; lia).
              destruct Hi as [|z ip Hz Hi]; cbn [app] in Ex; [|injection Ex as Ex _; unfold dot, digit in *; lia].
              injection Ex as Ex. rewrite Ex in Hds. apply Forall_app in Hds as [_ Hds].
              destruct Hst as (z & r & -> & Hz). inversion Hds; contradiction.
    + apply ascii_cons. split; [apply N.ltb_lt; unfold digit in Hd; lia|]. apply ascii_cons. split; [reflexivity|apply digits_ascii, Hds].
    + cbn [plines]. f_equal. f_equal. clear. induction ds as [|c ds IH]; cbn [map plines]; [reflexivity|]. f_equal. exact IH.
  - apply (from_line l n); [exact Hl|]. destruct (digits_padded v 9) as (ds & Hlen & Hds & Ev); [lia|].
    exists (d :: ds ++ 9%N :: code), (Tok [d] (digit_symbol d) :: Tok ds (TValue (VNumber (Int v))) :: Gap 9%N :: ps).
    split; [|split].
    + apply (lexes_tok [d] (ds ++ 9%N :: code)); [|apply lexes_tok; [|constructor; [unfold ws; auto|exact HL]]].
      * apply digit_symbol_text; [exact Hd|]. intros raw rest x Ex HN.
        assert (H9 : ~ digit 9%N) by (unfold digit; lia).
        destruct (number_of_digit _ _ _ _ _ Hd Ex HN) as [(es & -> & He & _ & Hlt & Hst)|(ip & fp & -> & Hi & Hf & Hst)].
        -- cbn [app] in Ex. injection Ex as Ex.
           assert (Hst' : starts (fun c => ~ digit c) rest) by (destruct Hst as (z & r & -> & Hz & _); exists z, r; auto).
           apply (two_runs ds es _ _ _ Hds He H9 Hst') in Ex. subst es. cbn [dec] in Hlt. rewrite Ev in Hlt.
           assert (10 ^ 10 <= 10 ^ Z.of_nat (length ds)) by (apply Z.pow_le_mono_r; lia).
           assert (1 <= Z.of_N d - 48) by (unfold digit in Hd; lia). nia.
        -- cbn [app] in Ex. injection Ex as Ex. rewrite <- app_assoc in Ex. cbn [app] in Ex.
           assert (ip = ds).
           { symmetry. refine (two_runs ds ip _ _ _ Hds Hi H9 _ Ex). exists dot, (fp ++ rest). split; [reflexivity|unfold digit, dot; lia]. }
           subst ip. apply app_inv_head in Ex. discriminate Ex.
      * constructor. rewrite <- Ev. apply (number_int [] false ds); [constructor|intros ->; cbn in Hlen; lia|exact Hds|cbn [signed]; lia|].
        exists 9%N, code. unfold digit, dot. repeat split; lia.
    + apply ascii_cons. split; [apply N.ltb_lt; unfold digit in Hd; lia|]. apply ascii_app. split; [apply digits_ascii, Hds|].
      apply ascii_cons. split; [reflexivity|exact Ha].
    + cbn [plines]. change (N.eqb 9 newline) with false. cbv iota. rewrite E. reflexivity.
  - apply (from_line l n); [exact Hl|].
    destruct (first_token_text _ _ _ _ _ HL E Ha) as (raw & code' & ps' & HT & HL' & E' & Ha').
    assert (Hraw : raw = [d'] /\ forall (raw rest' : str) x, d' :: code' = raw ++ rest' -> ~ NumberText raw rest' x).
    { inversion HT; subst; auto. }
    destruct Hraw as [-> Hnn].
    exists (d :: d' :: code'), (Tok [d] (digit_symbol d) :: Tok [d'] (digit_symbol d') :: ps').
    split; [|split].
    + apply (lexes_tok [d] (d' :: code')); [|apply (lexes_tok [d'] code'); [exact HT|exact HL']].
      apply digit_symbol_text; [exact Hd|]. intros raw rest x Ex HN.
      destruct (number_of_digit _ _ _ _ _ Hd Ex HN) as [(es & -> & He & _ & Hlt & Hst)|(ip & fp & -> & Hi & Hf & Hst)].
      * cbn [app] in Ex. injection Ex as Ex. destruct He as [|z es Hz He]; cbn [app] in Ex.
        -- subst rest. destruct Hst as (z & r & Ez & Hz & _). injection Ez as <- _. contradiction.
        -- injection Ex as <- Ex. apply (Hnn (d' :: es) rest (Int (signed false (dec (d' :: es))))); [cbn [app]; rewrite Ex; reflexivity|].
           apply (number_int [] false (d' :: es)); [constructor|discriminate|auto| |exact Hst]. cbn [signed].
           assert (Hp : 0 <= dec (d' :: es)) by (apply dec_nonneg; auto).
           change (dec (d :: d' :: es)) with ((Z.of_N d - 48) * 10 ^ Z.of_nat (length (d' :: es)) + dec (d' :: es)) in Hlt.
           assert (0 <= 10 ^ Z.of_nat (length (d' :: es))) by (apply Z.pow_nonneg; lia).
           assert (0 <= Z.of_N d - 48) by (unfold digit in Hd; lia). nia.
      * cbn [app] in Ex. injection Ex as Ex. destruct Hi as [|z ip Hz Hi]; cbn [app] in Ex.
        -- injection Ex as -> _. unfold digit, dot in Hd'. lia.
        -- injection Ex as <- Ex. eapply (Hnn (d' :: ip ++ dot :: fp) rest); [cbn [app]; rewrite Ex; reflexivity|].
           apply (number_float [] false (d' :: ip) fp); [constructor|discriminate|auto|exact Hf|exact Hst].
    + apply ascii_cons. split; [apply N.ltb_lt; unfold digit in Hd; lia|exact Ha'].
    + cbn [plines]. rewrite E'. reflexivity.
Qed.

Theorem sequences xs :
  (exists code ts, ascii_str code /\ tokenize code = LexOk ts /\ map with_line ts = xs) <-> Yields 1 xs.
Proof.
  split.
  - intros (code & ts & Ha & E & <-). apply tokenize_ok_iff in E as (ps & HL & ->). rewrite plines_spec.
    apply (source_yields (length ps) ps code); [lia|exact HL|exact Ha].
  - intros Y. destruct (yields_source 1 xs Y) as (code & ps & HL & Ha & E).
    exists code, (tokens_after [] ps). split; [exact Ha|]. split; [apply tokenize_ok_iff; eauto|].
    rewrite plines_spec. exact E.
Qed.

(** ** Types and floats *)

Lemma yields_types l xs : Yields l xs -> forall ty n, In (ty, n) xs ->
  anywhere ty \/ (exists s, ty = TValue (VString s) /\ ascii_str s /\ quotes_escaped s) \/ exists d, ty = TSymbol [d] /\ digit d.
Proof.
  induction 1 as [l|l n ty xs Hl Hty _ IH|l n s Hl Ha Hq|l n d Hl Hd|l n d ds Hl Hd Hds
    |l n d v xs Hl Hd Hnz Hv _ IH|l n d d' xs Hl Hd Hd' _ IH]; intros ty' n' Hin.
  - contradiction.
  - destruct Hin as [E|Hin]; [injection E as <- _; auto|exact (IH _ _ Hin)].
  - destruct Hin as [E|[]]. injection E as <- _. right. left. eauto.
  - destruct Hin as [E|[]]. injection E as <- _. right. right. unfold digit_symbol. eauto.
  - destruct Hin as [E|[E|Hin]].
    + injection E as <- _. right. right. unfold digit_symbol. eauto.
    + injection E as <- _. left. exists dot. unfold ws, letter, digit, dot, quote. cbn. repeat split; lia.
    + apply in_map_iff in Hin as (c & E & Hc). injection E as <- _. right. right. exists c.
      split; [reflexivity|]. rewrite Forall_forall in Hds. auto.
  - destruct Hin as [E|[E|Hin]].
    + injection E as <- _. right. right. unfold digit_symbol. eauto.
    + injection E as <- _. left. cbn [anywhere]. lia.
    + exact (IH _ _ Hin).
  - destruct Hin as [E|Hin]; [injection E as <- _; right; right; unfold digit_symbol; eauto|exact (IH _ _ Hin)].
Qed.

Theorem types_that_occur ty :
  (exists code ts t, ascii_str code /\ tokenize code = LexOk ts /\ In t ts /\ tok_type t = ty) <->
  anywhere ty \/ (exists s, ty = TValue (VString s) /\ ascii_str s /\ quotes_escaped s) \/
  exists d, ty = TSymbol [d] /\ digit d.
Proof.
  split.
  - intros (code & ts & t & Ha & E & Hin & <-).
    assert (Y : Yields 1 (map with_line ts)) by (apply sequences; eauto).
    apply (yields_types _ _ Y _ (line (start_of t))). apply (in_map with_line _ _ Hin).
  - intros H. assert (Y : Yields 1 [(ty, 1)]).
    { destruct H as [H|[(s & -> & Ha & Hq)|(d & -> & Hd)]].
      - apply yields_token; [lia|exact H|constructor].
      - apply yields_open_string; [lia|exact Ha|exact Hq].
      - apply yields_last_digit; [lia|exact Hd]. }
    apply sequences in Y as (code & ts & Ha & E & El). destruct ts as [|t ts]; [discriminate El|].
    injection El as Et _ _. exists code, (t :: ts), t. split; [exact Ha|]. split; [exact E|]. split; [left; reflexivity|exact Et].
Qed.

Theorem any_order_refuted : ~ forall ty ty',
  (exists code ts t, ascii_str code /\ tokenize code = LexOk ts /\ In t ts /\ tok_type t = ty) ->
  (exists code ts t, ascii_str code /\ tokenize code = LexOk ts /\ In t ts /\ tok_type t = ty') ->
  exists code ts, ascii_str code /\ tokenize code = LexOk ts /\ map tok_type ts = [ty; ty'].
Proof.
  intros H. destruct (H (TSymbol [49%N]) TComma) as (code & ts & Ha & E & El).
  - apply types_that_occur. right. right. exists 49%N. split; [reflexivity|unfold digit; lia].
  - apply types_that_occur. left. exact I.
  - destruct ts as [|t [|u [|w ts]]]; try discriminate El. injection El as E1 E2.
    assert (Y : Yields 1 (map with_line [t; u])) by (apply sequences; eauto).
    unfold with_line in Y. cbn [map] in Y. rewrite E1, E2 in Y.
    inversion Y as [|? ? ? ? _ Hx| | | | |]; subst. destruct Hx as (c & Ec & _ & _ & _ & Hd & _). injection Ec as <-.
    apply Hd. unfold digit. lia.
Qed.

Theorem floats_that_occur x :
  (exists code ts t, tokenize code = LexOk ts /\ In t ts /\ tok_type t = TValue (VNumber (Float x))) <->
  valid_binary 24 128 x = true /\ x <> S754_nan.
Proof.
  split.
  - intros (code & ts & t & E & Hin & Ht).
    destruct (number_tokens _ _ _ _ E Hin Ht) as (a & raw & b & _ & HN).
    inversion HN as [|sg neg ip fp rest Hs Hne Hi Hf Hst]; subst. apply float_ok, dec_nonneg, Forall_app. auto.
  - intros H. destruct (proj2 (types_that_occur (TValue (VNumber (Float x)))) (or_introl H)) as (code & ts & t & _ & E & Hin & Ht).
    eauto 6.
Qed.
