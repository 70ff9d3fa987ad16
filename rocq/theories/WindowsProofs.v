(** Proofs about Windows line endings (C81). *)
From Coq Require Import String Lia Bool.
From Verif Require Import Str Lexer StrFacts LexBasics LexProofs LexProps LexProps2 LexPropSpec LookAheadProofs RenameProofs Lines ParserProps.
From Verif Require Export Windows.
Local Open Scope string_scope.
Local Open Scope list_scope.
Local Open Scope N_scope.

Definition calm (c : char) : Prop := c <> newline /\ c <> cr.

Lemma crlf_cons c s : c <> newline -> crlf (c :: s) = c :: crlf s.
Proof. intro H. cbn [crlf]. apply N.eqb_neq in H. rewrite H. reflexivity. Qed.
Lemma crlf_nl s : crlf (newline :: s) = cr :: newline :: crlf s.
Proof. reflexivity. Qed.
Lemma crlf_app a b : crlf (a ++ b) = crlf a ++ crlf b.
Proof. induction a as [|c a IH]; [reflexivity|]. cbn [app crlf]. rewrite IH. destruct (N.eqb c newline); reflexivity. Qed.
Lemma crlf_id s : ~ In newline s -> crlf s = s.
Proof.
  induction s as [|c s IH]; intro H; [reflexivity|]. cbn [In] in H.
  rewrite crlf_cons by (intros ->; tauto). rewrite IH by tauto. reflexivity.
Qed.
Lemma crlf_nil s : crlf s = [] -> s = [].
Proof. destruct s as [|c s]; [reflexivity|]. cbn [crlf]. destruct (N.eqb c newline); discriminate. Qed.
Lemma crlf_ascii s : ascii_str s -> ascii_str (crlf s).
Proof.
  induction s as [|c s IH]; [intros _; reflexivity|]. rewrite ascii_cons. intros [Hc Hs]. cbn [crlf].
  destruct (N.eqb_spec c newline) as [->|_]; rewrite !ascii_cons; auto.
Qed.

(** A place of the new text that is no line break is a place of the old one. *)
Lemma crlf_split x : forall a c b, calm c -> crlf x = a ++ c :: b ->
  exists a' b', x = a' ++ c :: b' /\ crlf a' = a /\ crlf b' = b.
Proof.
  induction x as [|d x IH]; intros a c b [Hn Hr] E; [destruct a; discriminate|].
  cbn [crlf] in E. destruct (N.eqb_spec d newline) as [->|Hd].
  - destruct a as [|a0 [|a1 a]]; cbn [app] in E; try (injection E; intros; subst; contradiction).
    injection E as <- <- E. destruct (IH a c b (conj Hn Hr) E) as (a' & b' & -> & <- & <-).
    exists (newline :: a'), b'. auto.
  - destruct a as [|a0 a]; cbn [app] in E.
    + injection E as -> <-. exists [], x. auto.
    + injection E as <- E. destruct (IH a c b (conj Hn Hr) E) as (a' & b' & -> & <- & <-).
      exists (d :: a'), b'. rewrite crlf_cons by exact Hd. auto.
Qed.
Lemma crlf_prefix p : forall x t, Forall calm p -> crlf x = p ++ t -> exists t', x = p ++ t' /\ crlf t' = t.
Proof.
  induction p as [|c p IH]; intros x t H E; [exists x; auto|]. inversion H as [|? ? Hc Hp]; subst.
  destruct (crlf_split x [] c (p ++ t) Hc E) as (a' & b' & -> & Ha & Hb). apply crlf_nil in Ha. subst a'.
  destruct (IH b' t Hp Hb) as (t' & -> & <-). exists t'. auto.
Qed.
Lemma prefix_back p x : Forall calm p -> prefix_of p (crlf x) -> prefix_of p x.
Proof. intros H [t E]. destruct (crlf_prefix p x t H E) as (t' & -> & _). exists t'. reflexivity. Qed.

Lemma calm_list p : forallb (fun c => negb (N.eqb c newline) && negb (N.eqb c cr)) p = true -> Forall calm p.
Proof.
  intro H. apply Forall_forall. intros c Hc. rewrite forallb_forall in H. apply H in Hc.
  apply andb_true_iff in Hc. rewrite !negb_true_iff, !N.eqb_neq in Hc. exact Hc.
Qed.
Lemma spelling_calm k : Forall calm (spelling k).
Proof. apply calm_list. destruct k; reflexivity. Qed.
Lemma calm_id p : Forall calm p -> crlf p = p.
Proof. intro H. apply crlf_id. intro Hi. rewrite Forall_forall in H. destruct (H _ Hi) as [N _]. apply N. reflexivity. Qed.
Lemma number_calm raw rest n : NumberText raw rest n -> Forall calm raw.
Proof.
  intro H. apply Forall_forall. intros c Hc. pose proof (number_chars _ _ _ _ H Hc) as Hx.
  unfold calm, newline, cr, digit, dot in *. lia.
Qed.
Lemma letters_calm raw : Forall letter raw -> Forall calm raw.
Proof. apply Forall_impl. unfold letter, calm, newline, cr. intros; lia. Qed.

Lemma starts_crlf (P : char -> Prop) s : (P newline -> P cr) -> starts P s -> starts P (crlf s).
Proof.
  intros H (c & r & -> & Hc). cbn [crlf]. destruct (N.eqb_spec c newline) as [->|_].
  - exists cr, (newline :: crlf r). auto.
  - exists c, (crlf r). auto.
Qed.
Lemma starts_back (P : char -> Prop) s : (P cr -> P newline) -> starts P (crlf s) -> starts P s.
Proof.
  intros H (c & r & E & Hc). destruct s as [|d s]; [discriminate|]. cbn [crlf] in E.
  destruct (N.eqb_spec d newline) as [->|_]; injection E as <- _.
  - exists newline, s. auto.
  - exists d, s. auto.
Qed.

Lemma number_win raw rest n : NumberText raw rest n -> NumberText raw (crlf rest) n.
Proof.
  intro H. destruct H as [sg neg ds rest Hs Hn Hd Hv Hr|sg neg ip fp rest Hs Hn Hi Hf Hr]; constructor; auto;
    apply starts_crlf; auto; unfold digit, dot, newline, cr; lia.
Qed.
Lemma number_back raw rest n : NumberText raw (crlf rest) n -> NumberText raw rest n.
Proof.
  intro H. remember (crlf rest) as r eqn:E.
  destruct H as [sg neg ds r Hs Hn Hd Hv Hr|sg neg ip fp r Hs Hn Hi Hf Hr]; subst r; constructor; auto;
    apply (fun P => starts_back P rest) in Hr; auto; unfold digit, dot, newline, cr; lia.
Qed.

Lemma escaped_win s : quotes_escaped s -> quotes_escaped (crlf s).
Proof.
  intros H a b E. destruct (crlf_split s a quote b) as (a' & b' & -> & <- & <-); [split; discriminate|exact E|].
  destruct (H a' b' eq_refl) as [a'' ->]. exists (crlf a''). rewrite crlf_app. reflexivity.
Qed.
Lemma body_win s : StringBody s -> StringBody (crlf s).
Proof.
  intros [He Hc]. split; [exact (escaped_win s He)|]. intros [a E]. apply Hc.
  destruct (crlf_split s a colon []) as (a' & b' & -> & _ & Hb); [split; discriminate|exact E|].
  apply crlf_nil in Hb. subst b'. exists a'. reflexivity.
Qed.

Lemma comment_end s rest :
  (forall a b, lit "OBTW" ++ s ++ lit "TLDR" ++ rest = a ++ lit "TLDR" ++ b -> (4 + length s <= length a)%nat) ->
  forall a b, lit "OBTW" ++ crlf s ++ lit "TLDR" ++ crlf rest = a ++ lit "TLDR" ++ b -> (4 + length (crlf s) <= length a)%nat.
Proof.
  intros H a b E.
  assert (E' : crlf (lit "OBTW" ++ s ++ lit "TLDR" ++ rest) = a ++ 84 :: lit "LDR" ++ b) by (rewrite !crlf_app; exact E).
  assert (HT : calm 84) by (split; discriminate).
  destruct (crlf_split _ a 84 (lit "LDR" ++ b) HT E') as (a' & b' & E1 & <- & Hb).
  assert (HL : Forall calm (lit "LDR")) by (apply calm_list; reflexivity).
  destruct (crlf_prefix (lit "LDR") b' b HL Hb) as (b'' & -> & _).
  pose proof (H a' b'' E1) as Hl.
  assert (P : exists a'', a' = (lit "OBTW" ++ s) ++ a'').
  { rewrite app_assoc in E1. clear E E' Hb H. revert a' Hl E1.
    change (4 + length s)%nat with (length (lit "OBTW" ++ s)).
    induction (lit "OBTW" ++ s) as [|x u IH]; intros a' Hl E1; [exists a'; reflexivity|].
    destruct a' as [|y a']; [cbn in Hl; lia|]. cbn [app] in E1. injection E1 as <- E1. cbn [length] in Hl.
    destruct (IH a' ltac:(lia) E1) as [a'' ->]. exists a''. reflexivity. }
  destruct P as [a'' ->]. rewrite !crlf_app, !app_length. cbn. lia.
Qed.

(** Tokens other than comments to the end of the line. *)
Lemma token_win raw rest ty : ascii_str (raw ++ rest) -> TokText raw rest ty ->
  (forall s, ty = TCommentSingleLine s -> rest = []) ->
  TokText (crlf raw) (crlf rest) (win_type ty) \/ (exists s, ty = TCommentSingleLine s).
Proof.
  intros Ha HT Hcom.
  destruct HT as [r1|r1|s r1 Hs Hr|s r1 Hf|r1|r1|r1|r1|r1
    |k r1 Hk Hmax|raw r1 n Hn|body after s c r1 Hb E Hlen Hc|s Ho|raw r1 Hn Hll Hr Hk
    |c r1 Hc Hnw Hll Hin Hz Hd Hn]; try (right; eexists; reflexivity); left;
    try match goal with |- TokText (crlf (lit ?x)) _ _ => change (crlf (lit x)) with (lit x); cbn [win_type]; constructor end.
  - rewrite !crlf_app. apply tt_multi_comment. exact (comment_end s r1 Hf).
  - rewrite (calm_id _ (spelling_calm k)). constructor; [exact Hk|]. intros k' Hk' Hp. apply Hmax; [exact Hk'|].
    apply prefix_back; [apply spelling_calm|]. rewrite crlf_app, (calm_id _ (spelling_calm k)). exact Hp.
  - rewrite (calm_id _ (number_calm _ _ _ Hn)). constructor. exact (number_win _ _ _ Hn).
  - assert (Hstr : ascii_str s).
    { cbn [app] in Ha. apply ascii_cons in Ha as [_ Ha]. rewrite <- app_assoc in Ha. apply ascii_app in Ha. tauto. }
    rewrite (byte_len_ascii _ Hstr) in Hlen. injection E as E.
    assert (body = s /\ after = r1 /\ c = quote) as (-> & -> & ->).
    { revert Hlen E. clear. revert s. induction body as [|b body IH]; intros [|d s] Hl E; cbn [length app] in *; try discriminate Hl.
      - injection E as <- <-. auto.
      - injection E as -> E. injection Hl as Hl. destruct (IH _ Hl E) as (-> & -> & ->). auto. }
    rewrite crlf_cons by discriminate. rewrite crlf_app.
    apply (tt_string (crlf s) (crlf r1)); [exact (body_win _ Hb)|reflexivity|exact (byte_len_ascii _ (crlf_ascii _ Hstr))|exact Hc].
  - rewrite crlf_cons by discriminate. cbn [crlf win_type]. constructor. exact (escaped_win _ Ho).
  - rewrite (calm_id _ (letters_calm _ Hll)). constructor; [exact Hn|exact Hll| |].
    + intro H. apply Hr. revert H. apply starts_back. unfold letter, cr. lia.
    + intros k Hp. apply (Hk k). apply prefix_back; [apply spelling_calm|].
      rewrite crlf_app, (calm_id _ (letters_calm _ Hll)). exact Hp.
  - assert (Hnl : c <> newline) by (intros ->; apply Hnw; right; right; reflexivity).
    assert (Ec : crlf (c :: r1) = c :: crlf r1) by (apply crlf_cons; exact Hnl).
    rewrite (crlf_cons c []) by exact Hnl. cbn [crlf win_type].
    constructor; [exact Hc|exact Hnw|exact Hll|exact Hin| | |].
    + rewrite <- Ec. intro Hp. apply Hz. revert Hp. apply prefix_back. apply calm_list. reflexivity.
    + rewrite <- Ec. intro Hp. apply Hd. revert Hp. apply prefix_back. apply calm_list. reflexivity.
    + rewrite <- Ec. intros raw' rest' n E HN.
      destruct (crlf_prefix raw' (c :: r1) rest' (number_calm _ _ _ HN) E) as (t' & E' & <-).
      exact (Hn _ _ _ E' (number_back _ _ _ HN)).
Qed.

Lemma cr_token rest : TokText [cr] rest (TSymbol [cr]).
Proof.
  constructor.
  - reflexivity.
  - unfold ws, cr. lia.
  - unfold letter, cr. lia.
  - cbn. unfold cr, quote. lia.
  - apply not_slot. discriminate.
  - apply not_dots. discriminate.
  - intros raw rest' n E HN. destruct (LexProofs.number_head _ _ _ HN) as (d & r & -> & Hd). injection E as <- _.
    unfold cr, digit, dot in Hd. lia.
Qed.

Lemma comment_token s rest : ~ In newline s -> (rest = [] \/ starts (eq newline) rest) ->
  TokText (lit "BTW" ++ s) rest (TCommentSingleLine s).
Proof. intros. constructor; assumption. Qed.

Lemma win_comment raw s ps : match ps with Gap _ :: _ => False | _ => True end ->
  win (Tok raw (TCommentSingleLine s) :: ps) = Tok (crlf raw) (TCommentSingleLine s) :: win ps.
Proof. destruct ps as [|[c|] ps]; intro H; [reflexivity|contradiction|reflexivity]. Qed.
Lemma win_other raw ty ps : (forall s, ty <> TCommentSingleLine s) ->
  win (Tok raw ty :: ps) = Tok (crlf raw) (win_type ty) :: win ps.
Proof. intro H. destruct ty; try reflexivity. destruct (H s eq_refl). Qed.

Theorem win_lexes n : forall code ps rest, (length ps <= n)%nat -> LexesTo code ps rest -> ascii_str code -> ~ starts (eq newline) rest ->
  LexesTo (crlf code) (win ps) (crlf rest).
Proof.
  induction n as [|n IH]; intros code ps rest Hl H Ha Hr.
  { destruct ps; [|cbn in Hl; lia]. inversion H; subst. constructor. }
  destruct H as [rest|c code ps rest Hc H|raw code ty ps rest Ht H]; [constructor| |]; cbn [length] in Hl.
  - apply ascii_cons in Ha as [_ Ha]. cbn [crlf win]. specialize (IH code ps rest ltac:(lia) H Ha Hr).
    destruct (N.eqb_spec c newline) as [->|Hn].
    + apply (lexes_tok [cr] (newline :: crlf code)); [apply cr_token|]. constructor; assumption.
    + constructor; assumption.
  - assert (Hcase : (exists s, ty = TCommentSingleLine s) \/ forall s, ty <> TCommentSingleLine s)
      by (destruct ty; try (right; discriminate); left; eexists; reflexivity).
    assert (Ha' : ascii_str code) by (apply ascii_app in Ha; tauto).
    destruct Hcase as [[s ->]|Hno].
    + inversion Ht as [| |s' r1 Hs Hx E1 E2 E3| | | | | | | | | | | |]; subst.
      destruct Hx as [->|(d & r & -> & <-)].
      * inversion H as [|? ? ? ? Hc|raw' code' ty' ps' rest' Ht' H' E]; subst.
        -- rewrite win_comment by exact I. rewrite !crlf_app, (crlf_id s Hs).
           change (crlf (lit "BTW")) with (lit "BTW").
           apply (lexes_tok (lit "BTW" ++ s) (crlf [])); [|constructor].
           apply comment_token; [exact Hs|left; reflexivity].
        -- destruct raw'; [destruct (TokText_nonempty _ _ _ Ht' eq_refl)|discriminate].
      * inversion H as [E1 E2|c code' ps' rest' Hc H' E|raw' code' ty' ps' rest' Ht' H' E]; subst.
        -- destruct Hr. exists newline, r. auto.
        -- cbn [win]. rewrite crlf_app, crlf_nl. rewrite crlf_app, (crlf_id s Hs).
           change (crlf (lit "BTW")) with (lit "BTW").
           replace ((lit "BTW" ++ s) ++ cr :: newline :: crlf r) with (((lit "BTW" ++ s) ++ [cr]) ++ newline :: crlf r)
             by (rewrite <- !app_assoc; reflexivity).
           apply (lexes_tok ((lit "BTW" ++ s) ++ [cr]) (newline :: crlf r)).
           ++ rewrite <- app_assoc. apply comment_token; [|right; exists newline, (crlf r); auto].
              intro Hi. apply in_app_iff in Hi as [Hi|[Hi|[]]]; [exact (Hs Hi)|discriminate].
           ++ constructor; [right; right; reflexivity|]. cbn [length] in Hl. apply IH; [lia|exact H'| |exact Hr].
              apply ascii_cons in Ha'. tauto.
        -- destruct (TokText_not_ws _ _ _ Ht'). rewrite E. exists newline, r. split; [reflexivity|right; right; reflexivity].
    + rewrite (win_other _ _ _ Hno), crlf_app. apply lexes_tok.
      * destruct (token_win raw code ty Ha Ht) as [HT|[s ->]]; [intros s ->; destruct (Hno s eq_refl)|exact HT|destruct (Hno s eq_refl)].
      * apply IH; [lia|exact H|exact Ha'|exact Hr].
Qed.

Theorem windows_tokens code ps : ascii_str code -> LexesTo code ps [] ->
  tokenize (crlf code) = LexOk (tokens_after [] (win ps)).
Proof.
  intros Ha H. apply tokenize_ok_iff. exists (win ps). split; [|reflexivity].
  apply (win_lexes (length ps) code ps [] (le_n _) H Ha). intros (c & r & E & _). discriminate.
Qed.

(** ** Which sources are accepted *)

Lemma unclosed_win rest : UnclosedComment rest -> UnclosedComment (crlf rest).
Proof.
  intros [[t ->] Hn]. split.
  - exists (crlf t). rewrite crlf_app. reflexivity.
  - intros (a & b & E). apply Hn.
    assert (HT : calm 84) by (split; discriminate).
    destruct (crlf_split _ a 84 (lit "LDR" ++ b) HT E) as (a' & b' & E1 & _ & Hb).
    assert (HL : Forall calm (lit "LDR")) by (apply calm_list; reflexivity).
    destruct (crlf_prefix (lit "LDR") b' b HL Hb) as (b'' & -> & _).
    exists a', b''. exact E1.
Qed.

Theorem windows_error code ps rest : ascii_str code -> LexesTo code ps rest -> UnclosedComment rest ->
  exists r, tokenize (crlf code) = LexErr (UnclosedMultilineComment r).
Proof.
  intros Ha H Hu. eexists. apply tokenize_err_iff. exists (win ps), (crlf rest). split; [|split; [exact (unclosed_win _ Hu)|reflexivity]].
  apply (win_lexes (length ps) code ps rest (le_n _) H Ha).
  destruct Hu as [[t ->] _]. intros (c & r & E & <-). discriminate.
Qed.

Theorem windows_accepted code : ascii_str code ->
  ((exists ts, tokenize (crlf code) = LexOk ts) <-> exists ts, tokenize code = LexOk ts).
Proof.
  intro Ha. split; intros [ts E].
  - destruct (tokenize code) as [ts'|e| |] eqn:E'; [exists ts'; reflexivity| | |].
    + apply tokenize_err_iff in E' as (ps & rem & HL & HU & _). destruct (windows_error _ _ _ Ha HL HU) as [r Er]. congruence.
    + destruct (tokenize_ascii_no_panic code Ha E').
    + destruct (tokenize_not_fuel code E').
  - apply tokenize_ok_iff in E as (ps & HL & _). eexists. exact (windows_tokens code ps Ha HL).
Qed.

(** ** Back again *)

Lemma strip_id s : ~ In cr s -> strip s = s.
Proof.
  induction s as [|c s IH]; intro H; [reflexivity|]. cbn [In] in H. cbn [strip filter].
  destruct (N.eqb_spec c cr) as [->|_]; [tauto|]. cbn [negb]. f_equal. apply IH. tauto.
Qed.
Lemma strip_crlf s : ~ In cr s -> strip (crlf s) = s.
Proof.
  induction s as [|c s IH]; intro H; [reflexivity|]. cbn [In] in H. assert (Hs : ~ In cr s) by tauto. specialize (IH Hs).
  cbn [crlf]. destruct (N.eqb_spec c newline) as [->|_].
  - change (strip (cr :: newline :: crlf s)) with (newline :: strip (crlf s)). now rewrite IH.
  - cbn [strip filter]. destruct (N.eqb_spec c cr) as [->|_]; [tauto|]. cbn [negb]. f_equal. exact IH.
Qed.
Lemma strip_snoc s : ~ In cr s -> strip (s ++ [cr]) = s.
Proof. intro H. unfold strip. rewrite filter_app. cbn. rewrite app_nil_r. exact (strip_id s H). Qed.

Definition tame (ty : token_type) : Prop :=
  match ty with
  | TValue (VString s) | TCommentSingleLine s | TCommentMultiLine s => ~ In cr s
  | TSymbol s => s <> [cr]
  | _ => True
  end.
Lemma tame_token raw rest ty : TokText raw rest ty -> ~ In cr raw -> tame ty.
Proof.
  intros HT H. destruct HT; try exact I; cbn [tame]; intro Hc; apply H.
  - apply in_app_iff. now right.
  - apply in_app_iff. right. apply in_app_iff. now left.
  - right. apply in_app_iff. now left.
  - now right.
  - injection Hc as ->. now left.
Qed.

Definition seen (t : token) : token_type * Z := (tok_type t, line (start_of t)).
Definition seen_again (t : token) : token_type * Z := (strip_type (tok_type t), line (start_of t)).

Definition at_tok (b : list piece) (raw : str) (ty : token_type) : token :=
  {| tok_type := ty; tok_range := {| r_start := pos_after b; r_end := pos_after (b ++ [Tok raw ty]) |} |}.
Lemma after_tok b raw ty ps : tokens_after b (Tok raw ty :: ps) = at_tok b raw ty :: tokens_after (b ++ [Tok raw ty]) ps.
Proof. reflexivity. Qed.
Lemma after_gap b c ps : tokens_after b (Gap c :: ps) = tokens_after (b ++ [Gap c]) ps.
Proof. reflexivity. Qed.

Definition kept (us : list token) : list (token_type * Z) := map seen_again (filter (fun t => negb (is_cr t)) us).
Lemma kept_cr t us : is_cr t = true -> kept (t :: us) = kept us.
Proof. intro H. unfold kept. cbn [filter]. rewrite H. reflexivity. Qed.
Lemma kept_other t us : is_cr t = false -> kept (t :: us) = seen_again t :: kept us.
Proof. intro H. unfold kept. cbn [filter]. rewrite H. reflexivity. Qed.

Definition breaks (b : list piece) : nat := length (filter is_break b).
Lemma breaks_snoc b x : breaks (b ++ [x]) = (breaks b + if is_break x then 1 else 0)%nat.
Proof. unfold breaks. rewrite filter_app, app_length. cbn. destruct (is_break x); reflexivity. Qed.
Lemma seen_tok b raw ty : seen (at_tok b raw ty) = (ty, 1 + Z.of_nat (breaks b))%Z.
Proof. reflexivity. Qed.
Lemma again_tok b raw ty : seen_again (at_tok b raw ty) = (strip_type ty, 1 + Z.of_nat (breaks b))%Z.
Proof. reflexivity. Qed.

Lemma tame_not_cr b raw ty : tame ty -> is_cr (at_tok b raw ty) = false.
Proof.
  unfold is_cr, at_tok. cbn [tok_type]. destruct ty as [| |s| | | | | | | |]; try reflexivity. cbn [tame].
  destruct s as [|c [|]]; try reflexivity. intro H. apply N.eqb_neq. intros ->. now apply H.
Qed.
Lemma win_tame ty : tame ty -> strip_type (win_type ty) = ty /\ tame (win_type ty) \/ strip_type (win_type ty) = ty.
Proof.
  destruct ty as [|k|s|[]|s|s| | | | |]; cbn [tame win_type strip_type]; intro H; right; try reflexivity;
    rewrite ?strip_crlf, ?strip_id by exact H; reflexivity.
Qed.
Lemma win_not_cr b raw ty : tame ty -> is_cr (at_tok b raw (win_type ty)) = false.
Proof.
  intro H. pose proof (tame_not_cr b raw ty H) as E. destruct ty as [|k|s|[]|s|s| | | | |]; try exact E; reflexivity.
Qed.
Lemma win_back ty : tame ty -> strip_type (win_type ty) = ty.
Proof. intro H. destruct (win_tame ty H) as [[E _]|E]; exact E. Qed.

Lemma win_kept n : forall ps, (length ps <= n)%nat -> forall b b', breaks b = breaks b' ->
  (forall raw ty, In (Tok raw ty) ps -> tame ty) ->
  kept (tokens_after b' (win ps)) = map seen (tokens_after b ps).
Proof.
  induction n as [|n IH]; intros ps Hl b b' Hb Ht; [destruct ps; [reflexivity|cbn in Hl; lia]|].
  destruct ps as [|[c|raw ty] ps]; [reflexivity| |]; cbn [length] in Hl.
  - assert (Ht' : forall raw ty, In (Tok raw ty) ps -> tame ty) by (intros; eapply Ht; right; eassumption).
    cbn [win]. rewrite (after_gap b). destruct (N.eqb_spec c newline) as [->|Hn].
    + rewrite after_tok, kept_cr by reflexivity. rewrite after_gap. apply IH; [lia| |exact Ht'].
      rewrite !breaks_snoc. cbn [is_break]. lia.
    + rewrite after_gap. apply IH; [lia| |exact Ht']. rewrite !breaks_snoc. lia.
  - assert (Hty : tame ty) by (apply (Ht raw); left; reflexivity).
    assert (Hmain : kept (tokens_after b' (Tok (crlf raw) (win_type ty) :: win ps)) = map seen (tokens_after b (Tok raw ty :: ps))).
    { rewrite !after_tok, kept_other by (apply win_not_cr; exact Hty). cbn [map]. rewrite seen_tok, again_tok, win_back, Hb by exact Hty.
      f_equal. apply IH; [lia| |intros; eapply Ht; right; eassumption]. rewrite !breaks_snoc. cbn [is_break]. lia. }
    destruct ty; try exact Hmain. destruct ps as [|[c|raw' ty'] ps]; try exact Hmain. clear Hmain.
    cbn [win]. rewrite !after_tok, kept_other by reflexivity. rewrite !after_gap. cbn [map].
    rewrite seen_tok, again_tok, Hb. cbn [strip_type tame] in *. rewrite (strip_snoc _ Hty). f_equal.
    cbn [length] in Hl. apply IH; [lia| |intros; eapply Ht; right; right; eassumption].
    rewrite !breaks_snoc. cbn [is_break]. lia.
Qed.

Lemma LexesTo_tame code ps rest : LexesTo code ps rest -> ~ In cr code -> forall raw ty, In (Tok raw ty) ps -> tame ty.
Proof.
  induction 1 as [rest|c code ps rest Hc H IH|raw code ty ps rest HT H IH]; intros Hn raw' ty' Hi; [destruct Hi| |].
  - destruct Hi as [Hi|Hi]; [discriminate|]. apply (IH ltac:(intro; apply Hn; now right) raw'). exact Hi.
  - destruct Hi as [Hi|Hi].
    + injection Hi as <- <-. apply (tame_token _ _ _ HT). intro; apply Hn; apply in_app_iff; now left.
    + apply (IH ltac:(intro; apply Hn; apply in_app_iff; now right) raw'). exact Hi.
Qed.

Theorem windows_back code ts us : ascii_str code -> ~ In cr code -> tokenize code = LexOk ts -> tokenize (crlf code) = LexOk us ->
  kept us = map seen ts.
Proof.
  intros Ha Hn E E'. apply tokenize_ok_iff in E as (ps & HL & ->).
  rewrite (windows_tokens code ps Ha HL) in E'. injection E' as <-.
  apply (win_kept (length ps)); [apply le_n|reflexivity|exact (LexesTo_tame _ _ _ HL Hn)].
Qed.

(** ** Where lines end *)

Lemma win_first n : forall ps, (length ps <= n)%nat -> forall b u us, tokens_after b (win ps) = u :: us ->
  line (start_of u) = (1 + Z.of_nat (breaks b))%Z.
Proof.
  induction n as [|n IH]; intros ps Hl b u us; [destruct ps; [discriminate|cbn in Hl; lia]|].
  destruct ps as [|[c|raw ty] ps]; [discriminate| |]; cbn [length] in Hl.
  - cbn [win]. destruct (N.eqb_spec c newline) as [->|Hn].
    + rewrite after_tok. intro E. injection E as <- _. reflexivity.
    + rewrite after_gap. intro E. apply IH in E; [|lia]. rewrite breaks_snoc in E. cbn [is_break] in E.
      apply N.eqb_neq in Hn. rewrite Hn, Nat.add_0_r in E. exact E.
  - destruct ty; try (cbn [win]; rewrite after_tok; intro E; injection E as <- _; reflexivity).
    destruct ps as [|[c|raw' ty'] ps]; cbn [win]; rewrite after_tok; intro E; injection E as <- _; reflexivity.
Qed.

Definition line_end (t : token) : Prop := is_cr t = true \/ exists s, tok_type t = TCommentSingleLine s.
Definition same_line (t u : token) : Prop := line (start_of t) = line (start_of u).

Lemma win_ends n : forall ps, (length ps <= n)%nat -> forall b a t u z, tokens_after b (win ps) = a ++ t :: u :: z ->
  same_line t u \/ line_end t.
Proof.
  induction n as [|n IH]; intros ps Hl b a t u z; [destruct ps; [destruct a; discriminate|cbn in Hl; lia]|].
  destruct ps as [|[c|raw ty] ps]; [destruct a; discriminate| |]; cbn [length] in Hl.
  - cbn [win]. destruct (N.eqb_spec c newline) as [->|Hn].
    + rewrite after_tok, after_gap. destruct a as [|a0 a]; cbn [app]; intro E; injection E as <- E.
      * right. left. reflexivity.
      * refine (IH ps _ _ a t u z E). lia.
    + rewrite after_gap. intro E. refine (IH ps _ _ a t u z E). lia.
  - assert (Hmain : forall raw' ty', tokens_after b (Tok raw' ty' :: win ps) = a ++ t :: u :: z -> same_line t u \/ line_end t).
    { intros raw' ty'. rewrite after_tok. destruct a as [|a0 a]; cbn [app]; intro E; injection E as <- E.
      - left. unfold same_line. rewrite (win_first n ps ltac:(lia) _ _ _ E), breaks_snoc. cbn [is_break]. rewrite Nat.add_0_r. reflexivity.
      - refine (IH ps _ _ a t u z E). lia. }
    destruct ty; try (cbn [win]; apply Hmain). destruct ps as [|[c|raw' ty'] ps]; try (cbn [win]; apply Hmain).
    clear Hmain. cbn [win]. rewrite after_tok, after_gap. destruct a as [|a0 a]; cbn [app]; intro E; injection E as <- E.
    + right. right. eexists. reflexivity.
    + cbn [length] in Hl. refine (IH ps _ _ a t u z E). lia.
Qed.

Theorem windows_ends code a t u z : ascii_str code -> tokenize (crlf code) = LexOk (a ++ t :: u :: z) ->
  same_line t u \/ line_end t.
Proof.
  intros Ha E. destruct (proj1 (windows_accepted code Ha) (ex_intro _ _ E)) as [ts E'].
  apply tokenize_ok_iff in E' as (ps & HL & _). rewrite (windows_tokens code ps Ha HL) in E. injection E as E.
  exact (win_ends (length ps) ps (le_n _) [] a t u z E).
Qed.

(** ** Lines are not continued *)

Definition one_line (l : list token) : Prop := exists k, Forall (fun t => tok_line t = k) l.

Lemma chunks_one_line ts : (forall a t u z, ts = a ++ t :: u :: z -> joined t u = true -> tok_line t = tok_line u) ->
  Forall one_line (chunks ts).
Proof.
  induction ts as [|t ts IH]; intro H; [constructor|]. cbn [chunks].
  assert (F : Forall one_line (chunks ts)) by (apply IH; intros a t' u z ->; apply (H (t :: a) t' u z eq_refl)).
  destruct (chunks ts) as [|[|u g] gs] eqn:E.
  - repeat constructor. exists (tok_line t). repeat constructor.
  - repeat constructor. exists (tok_line t). repeat constructor.
  - pose proof (ParserProps.chunks_concat ts) as C. rewrite E in C. cbn [concat app] in C.
    destruct (joined t u) eqn:J.
    + inversion F as [|? ? [k Hk] F']; subst. constructor; [|exact F']. exists k. constructor; [|exact Hk].
      inversion Hk as [|? ? Hu _]; subst. apply (H [] t u _ eq_refl J).
    + constructor; [|exact F]. exists (tok_line t). repeat constructor.
Qed.

Lemma one_line_filter p l : one_line l -> one_line (filter p l).
Proof. intros [k H]. exists k. rewrite Forall_forall in *. intros t Ht. apply filter_In in Ht as [Ht _]. auto. Qed.

Theorem windows_lines code us : ascii_str code -> tokenize (crlf code) = LexOk us -> Forall one_line (logical_lines us).
Proof.
  intros Ha E.
  assert (F : Forall one_line (chunks us)).
  { apply chunks_one_line. intros a t u z -> J. destruct (windows_ends code a t u z Ha E) as [S|[C|[s C]]]; [exact S| |];
      unfold joined in J; apply andb_true_iff in J as [_ J]; apply orb_true_iff in J as [J|J].
    - unfold is_cr in C. unfold is_ellipsis in J. destruct (tok_type t); discriminate.
    - apply Z.eqb_eq in J. exact J.
    - unfold is_ellipsis in J. rewrite C in J. discriminate.
    - apply Z.eqb_eq in J. exact J. }
  assert (G : Forall one_line (statements us)).
  { unfold statements. apply Forall_forall. intros l Hl. apply in_map_iff in Hl as (g & <- & Hg).
    apply filter_In in Hg as [Hg _]. rewrite Forall_forall in F. apply one_line_filter. exact (F g Hg). }
  unfold logical_lines. destruct us as [|t us]; [constructor|].
  destruct (is_comma t); [|exact G]. constructor; [exists 0%Z; constructor|exact G].
Qed.
