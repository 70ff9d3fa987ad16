(** Properties of the lexer, continued: what each kind of token is, printing,
    composition. *)
From Coq Require Import String Sorted ZifyBool ZifyNat ZifyN.
From Verif Require Import StrFacts Lexer LexSpec LexBasics LexProofs LexPropSpec LexProps.
Local Open Scope Z_scope.

(** The text and the continuation of every token. *)
Lemma token_tok_text code ts t : tokenize code = LexOk ts -> In t ts ->
  exists ps a raw b, LexesTo code ps (raw ++ b) /\ a = text_of ps /\
    token_at code t a raw b /\ TokText raw b (tok_type t).
Proof.
  intros E Ht. apply tokenize_ok_iff in E as (ps & HL & ->).
  destruct (token_facts _ _ _ _ HL Ht) as (ps1 & raw & ps2 & -> & H1 & HT & H2 & Hat & _).
  rewrite app_nil_r in *. exists ps1, (text_of ps1), raw, (text_of ps2). auto.
Qed.

(** A token text at a reached place becomes a token there. *)
Lemma tok_text_token code ts ps raw rest ty :
  tokenize code = LexOk ts -> LexesTo code ps (raw ++ rest) -> TokText raw rest ty ->
  exists t, In t ts /\ tok_type t = ty /\ token_at code t (text_of ps) raw rest.
Proof.
  intros E HL HT. apply tokenize_ok_iff in E as (ps' & HL' & ->).
  assert (HL1 : LexesTo code (ps ++ [Tok raw ty]) rest).
  { eapply LexesTo_app; [exact HL|]. constructor; [assumption|constructor]. }
  destruct (LexesTo_extends _ _ _ HL1 _ _ HL' (or_introl eq_refl)) as (ps2 & -> & H2).
  rewrite <- app_assoc. cbn [app]. eexists. split; [apply (token_of_piece [] ps raw ty ps2)|].
  split; [reflexivity|]. split; [apply (LexesTo_text _ _ _ HL)|].
  unfold start_of, end_of. cbn [tok_range r_start r_end app].
  rewrite !bytes_pos_after, text_of_snoc. auto.
Qed.

(** ** C12 *)

Theorem number_tokens code ts t n : tokenize code = LexOk ts -> In t ts ->
  tok_type t = TValue (VNumber n) ->
  exists a raw b, token_at code t a raw b /\ NumberText raw b n.
Proof.
  intros E Ht Hty. destruct (token_tok_text _ _ _ E Ht) as (ps & a & raw & b & _ & _ & Hat & HT).
  exists a, raw, b. split; [assumption|]. rewrite Hty in HT. inversion HT; subst; assumption.
Qed.

(** ** C13 *)

Theorem integer_recognised code ts ps sg neg ds rest :
  SignText sg neg -> ds <> [] -> Forall digit ds ->
  - 2 ^ 31 <= signed neg (dec ds) < 2 ^ 31 ->
  starts (fun c => ~ digit c /\ c <> dot) rest ->
  tokenize code = LexOk ts -> LexesTo code ps ((sg ++ ds) ++ rest) ->
  exists t, In t ts /\ tok_type t = TValue (VNumber (Int (signed neg (dec ds)))) /\
            token_at code t (text_of ps) (sg ++ ds) rest.
Proof.
  intros Hs Hne Hd Hr Hrest E HL. eapply tok_text_token; try eassumption.
  constructor. constructor; assumption.
Qed.

(** A number literal that ends the source is cut in symbols. *)
Lemma number_needs_rest raw n : ~ NumberText raw [] n.
Proof. intros H. inversion H as [? ? ? ? ? ? ? ? (c & r & Hx & _)|? ? ? ? ? ? ? ? ? (c & r & Hx & _)]; discriminate. Qed.

Lemma digit_no_number c s : Forall digit (c :: s) ->
  forall raw rest n, c :: s = raw ++ rest -> ~ NumberText raw rest n.
Proof.
  intros Hd raw rest n E Hn. rewrite E in Hd. apply Forall_app in Hd as [_ Hd].
  inversion Hn as [? ? ? ? ? ? ? ? (x & r & Hx & Hy & _)|? ? ? ? ? ? ? ? ? (x & r & Hx & Hy)]; subst;
    inversion Hd; contradiction.
Qed.

Lemma digits_symbols ds : Forall digit ds ->
  LexesTo ds (map (fun c => Tok [c] (TSymbol [c])) ds) [].
Proof.
  intros H. induction H as [|c ds Hc H IH]; [constructor|]. cbn [map].
  change (c :: ds) with ([c] ++ ds). constructor; [|assumption].
  unfold digit in Hc. constructor.
  - lia.
  - unfold ws; lia.
  - unfold letter; lia.
  - change (lit ",!" ++ [quote]) with [44; 33; 34]%N. cbn [In]. lia.
  - apply not_slot. lia.
  - apply not_dots. unfold dot. lia.
  - apply (digit_no_number c ds). constructor; assumption.
Qed.

Theorem integer_at_end_refused ds : Forall digit ds ->
  exists ts, tokenize ds = LexOk ts /\ map tok_type ts = map (fun c => TSymbol [c]) ds.
Proof.
  intros H. eexists. split; [apply tokenize_ok_iff; eexists; split; [apply digits_symbols, H|reflexivity]|].
  generalize (@nil piece) as before. clear H.
  induction ds as [|c ds IH]; intros before; cbn [map tokens_after]; [reflexivity|].
  cbn [tok_type]. f_equal. apply IH.
Qed.

(** ** C14 *)

Lemma no_longer_keyword k rest :
  ~ In k [A; OMG] -> k <> ANY_OF -> forall k', k' <> ANY_OF ->
  prefix_of (spelling k') (spelling k ++ rest) -> (length (spelling k') <= length (spelling k))%nat.
Proof.
  intros Hk Hn k' Hn' H.
  destruct (Nat.le_gt_cases (length (spelling k')) (length (spelling k))) as [|Hl]; [assumption|exfalso].
  assert (Hp : prefix_of (spelling k) (spelling k')).
  { eapply prefix_nested; [exists rest; reflexivity|exact H|lia]. }
  apply prefix_pairs in Hp as [->|Hin]; [lia|]. cbn [In] in *.
  destruct Hin as [E|[E|[E|[E|[E|[]]]]]]; injection E as <- <-; tauto.
Qed.

Theorem keyword_recognised code ts ps k rest :
  ~ In k [BTW; OBTW; WIN; FAIL; NOOB; ANY_OF] ->
  (k = A -> ~ prefix_of (lit "N") rest /\ ~ prefix_of (lit "LL OF") rest) ->
  (k = OMG -> ~ prefix_of (lit "WTF") rest) ->
  tokenize code = LexOk ts -> LexesTo code ps (spelling k ++ rest) ->
  exists t, In t ts /\ tok_type t = TKeyword k /\ token_at code t (text_of ps) (spelling k) rest.
Proof.
  intros Hk HA HO E HL. eapply tok_text_token; try eassumption. constructor; [assumption|].
  destruct (in_dec keyword_eq_dec k [A; OMG]) as [Hin|Hin].
  2:{ apply no_longer_keyword; [assumption|]. intros ->. apply Hk. cbn; tauto. }
  intros k' Hn' H.
  destruct (Nat.le_gt_cases (length (spelling k')) (length (spelling k))) as [|Hl]; [assumption|exfalso].
  assert (Hp : prefix_of (spelling k) (spelling k')).
  { eapply prefix_nested; [exists rest; reflexivity|exact H|lia]. }
  apply prefix_pairs in Hp as [->|Hin']; [lia|]. cbn [In] in *.
  destruct H as [t Ht].
  destruct Hin' as [E'|[E'|[E'|[E'|[E'|[]]]]]]; injection E' as <- <-; try congruence.
  - apply (HO eq_refl). exists t. injection Ht as Ht. exact Ht.
  - apply (proj1 (HA eq_refl)). exists t. injection Ht as Ht. exact Ht.
  - apply (proj2 (HA eq_refl)). exists t. injection Ht as Ht. exact Ht.
Qed.

Theorem keywords_never_produced code ts t k : tokenize code = LexOk ts -> In t ts ->
  In k [BTW; OBTW; WIN; FAIL; NOOB; ANY_OF] -> tok_type t <> TKeyword k.
Proof.
  intros E Ht Hk Hty. destruct (token_tok_text _ _ _ E Ht) as (ps & a & raw & b & _ & _ & Hat & HT).
  rewrite Hty in HT. inversion HT; subst. contradiction.
Qed.

(** ** C15 *)

Theorem identifier_tokens code ts t s : tokenize code = LexOk ts -> In t ts ->
  tok_type t = TIdentifier s ->
  exists a b, token_at code t a s b /\ s <> [] /\ Forall letter s /\ ~ starts letter b /\
    (forall k, ~ prefix_of (spelling k) (s ++ b)).
Proof.
  intros E Ht Hty. destruct (token_tok_text _ _ _ E Ht) as (ps & a & raw & b & _ & _ & Hat & HT).
  rewrite Hty in HT. inversion HT; subst. exists a, b. auto 10.
Qed.

Theorem identifier_recognised code ts ps s rest : s <> [] -> Forall letter s -> ~ starts letter rest ->
  (forall k, ~ prefix_of (spelling k) (s ++ rest)) ->
  tokenize code = LexOk ts -> LexesTo code ps (s ++ rest) ->
  exists t, In t ts /\ tok_type t = TIdentifier s /\ token_at code t (text_of ps) s rest.
Proof. intros H1 H2 H3 H4 E HL. eapply tok_text_token; try eassumption. constructor; assumption. Qed.

(** ** C16 *)

Theorem string_tokens_ascii code ts t s : ascii_str code -> tokenize code = LexOk ts -> In t ts ->
  tok_type t = TValue (VString s) ->
  exists a raw b, token_at code t a raw b /\
    ((raw = quote :: s ++ [quote] /\ StringBody s) \/
     (raw = quote :: s /\ b = [] /\ quotes_escaped s)).
Proof.
  intros Ha E Ht Hty. destruct (token_tok_text _ _ _ E Ht) as (ps & a & raw & b & _ & -> & Hat & HT).
  exists (text_of ps), raw, b. split; [assumption|]. rewrite Hty in HT.
  inversion HT as [| | | | | | | | | | |body after s' c rest Hb Heq Hl Hc|s' Ho| |]; subst.
  - left. destruct Hat as (Hcode & _ & _). subst code.
    apply ascii_app in Ha as [_ Ha]. apply ascii_app in Ha as [Ha1 _].
    apply ascii_cons in Ha1 as [_ Ha1]. apply ascii_app in Ha1 as [Ha1 Ha3].
    injection Heq as Heq.
    assert (Hlen : length s = length body) by (rewrite <- Hl; symmetry; apply byte_len_ascii, Ha1).
    symmetry in Heq. apply app_length_inv in Heq as [<- Heq]; [|assumption].
    injection Heq as -> _. auto.
  - right. auto.
Qed.

(** ** C17 *)

Theorem single_comment_tokens code ts t s : tokenize code = LexOk ts -> In t ts ->
  tok_type t = TCommentSingleLine s ->
  exists a b, token_at code t a (lit "BTW" ++ s) b /\ ~ In newline s /\
    (b = [] \/ starts (eq newline) b).
Proof.
  intros E Ht Hty. destruct (token_tok_text _ _ _ E Ht) as (ps & a & raw & b & _ & _ & Hat & HT).
  rewrite Hty in HT. inversion HT; subst. exists a, b. auto 10.
Qed.

Theorem multi_comment_tokens code ts t s : tokenize code = LexOk ts -> In t ts ->
  tok_type t = TCommentMultiLine s ->
  exists a b, token_at code t a (lit "OBTW" ++ s ++ lit "TLDR") b /\
    (forall x y, s ++ lit "TLDR" = x ++ lit "TLDR" ++ y -> x = s).
Proof.
  intros E Ht Hty. destruct (token_tok_text _ _ _ E Ht) as (ps & a & raw & b & _ & -> & Hat & HT).
  rewrite Hty in HT. inversion HT as [| | |s' rest Hf| | | | | | | | | | |]; subst.
  exists (text_of ps), b. split; [assumption|]. intros x y Hxy.
  assert (Hlen : (length s <= length x)%nat).
  { specialize (Hf (lit "OBTW" ++ x) (y ++ b)).
    assert (H : (4 + length s <= length (lit "OBTW" ++ x))%nat).
    { apply Hf. rewrite <- !app_assoc. f_equal. rewrite app_assoc, Hxy, <- !app_assoc. reflexivity. }
    rewrite app_length in H. cbn [lit length] in H. lia. }
  assert (length x = length s).
  { apply (f_equal (@length char)) in Hxy. rewrite !app_length in Hxy. lia. }
  apply app_length_inv in Hxy as [-> _]; auto.
Qed.

(** ** C18 *)

Theorem no_question_mark code ts t : tokenize code = LexOk ts -> In t ts ->
  tok_type t <> TQuestionMark.
Proof.
  intros E Ht Hty. destruct (token_tok_text _ _ _ E Ht) as (ps & a & raw & b & _ & _ & Hat & HT).
  rewrite Hty in HT. inversion HT.
Qed.

Lemma no_qmark_keyword k : ~ In 63%N (spelling k).
Proof. destruct k; cbn; intuition discriminate. Qed.

Lemma number_no_qmark raw rest n : NumberText raw rest n -> ~ In 63%N raw.
Proof.
  assert (Hd : forall ds, Forall digit ds -> ~ In 63%N ds).
  { intros ds H Hin. rewrite Forall_forall in H. apply H in Hin. unfold digit in Hin. lia. }
  assert (Hs : forall sg neg, SignText sg neg -> ~ In 63%N sg).
  { intros sg neg [] H; cbn in H; intuition discriminate. }
  intros [sg neg ds rest' H1 _ H2 _ _|sg neg ip fp rest' H1 _ H2 H3 _] Hin.
  - apply in_app_or in Hin as [Hin|Hin]; [eapply Hs|eapply Hd]; eassumption.
  - apply in_app_or in Hin as [Hin|Hin]; [eapply Hs; eassumption|].
    apply in_app_or in Hin as [Hin|[Hin|Hin]]; [exact (Hd _ H2 Hin)|discriminate|exact (Hd _ H3 Hin)].
Qed.

Theorem question_mark_is_symbol code ts a b : tokenize code = LexOk ts -> code = a ++ 63%N :: b ->
  exists t, In t ts /\ bytes (start_of t) <= Z.of_nat (byte_len a) < bytes (end_of t) /\
    (tok_type t = TSymbol (lit "?") \/
     (exists s, tok_type t = TValue (VString s)) \/
     (exists s, tok_type t = TCommentSingleLine s) \/
     (exists s, tok_type t = TCommentMultiLine s)).
Proof.
  intros E Hc. apply tokenize_ok_iff in E as (ps & HL & ->).
  pose proof (LexesTo_wf _ _ _ HL) as Hw. pose proof (LexesTo_text _ _ _ HL) as Htext.
  rewrite app_nil_r in Htext. rewrite Htext in Hc.
  destruct (char_covered _ _ _ _ Hw Hc) as [[Hws _]|(t & ps1 & raw & ps2 & u & v & Ht & -> & Hr & Ha & Hs & He)].
  - unfold ws in Hws. lia.
  - exists t. split; [assumption|]. split.
    { rewrite Hs, He, Ha, Hr, !byte_len_app. cbn [byte_len]. pose proof (utf8_len_pos 63%N). lia. }
    destruct (LexesTo_split _ _ _ _ HL) as (mid & H1 & H2).
    inversion H2 as [| |raw' code' ty' ps' rest' HT H3]; subst raw' ty' ps' rest' mid.
    assert (Hin : In 63%N raw) by (rewrite Hr; apply in_or_app; right; left; reflexivity).
    clear - HT Hin. inversion HT; subst; eauto;
      try (cbn in Hin; intuition discriminate); try (right; eauto; fail).
    + exfalso. eapply no_qmark_keyword; eassumption.
    + exfalso. eapply number_no_qmark; eassumption.
    + exfalso. match goal with H : Forall letter raw |- _ => rewrite Forall_forall in H; apply H in Hin end.
      unfold letter in Hin. lia.
    + left. destruct Hin as [->|[]]. reflexivity.
Qed.

(** ** C19 *)

Lemma spelling_chars k c : In c (spelling k) -> letter c \/ c = 32%N.
Proof.
  intros H. assert (Hf : forallb (fun c => is_ident_char c || N.eqb c 32)%bool (spelling k) = true)
    by (destruct k; vm_compute; reflexivity).
  rewrite forallb_forall in Hf. apply Hf in H. apply orb_true_iff in H as [H|H].
  - left. apply is_ident_char_iff, H.
  - right. apply N.eqb_eq, H.
Qed.

(** A keyword that is not within [raw] continues with the next character. *)
Lemma keyword_crosses k raw d r :
  prefix_of (spelling k) (raw ++ d :: r) ->
  prefix_of (spelling k) raw \/ exists t, spelling k = raw ++ d :: t.
Proof.
  intros H. destruct (Nat.le_gt_cases (length (spelling k)) (length raw)) as [Hl|Hl].
  - left. eapply prefix_nested; [exact H|exists (d :: r); reflexivity|assumption].
  - right. assert (Hp : prefix_of (raw ++ [d]) (spelling k)).
    { eapply prefix_nested; [exists r; rewrite <- app_assoc; reflexivity|exact H|].
      rewrite app_length; cbn [length]; lia. }
    destruct Hp as [t Ht]. exists t. rewrite Ht, <- app_assoc. reflexivity.
Qed.

Lemma ws_not_letter c : ws c -> ~ letter c.
Proof. unfold ws, letter; lia. Qed.

Lemma obtw_no_tldr s rest a b :
  (lit "OBTW" ++ s ++ lit "TLDR" ++ rest = a ++ lit "TLDR" ++ b) ->
  (length a < 4 + length s)%nat ->
  exists a' b', s ++ lit "TLDR" = a' ++ lit "TLDR" ++ b' /\ b' <> [].
Proof.
  intros E Hl. cbn [lit app] in E.
  destruct a as [|x0 a]; [cbn in E; discriminate|]. cbn [app] in E. injection E as <- E.
  destruct a as [|x1 a]; [cbn in E; discriminate|]. cbn [app] in E. injection E as <- E.
  destruct a as [|x2 a]; [cbn in E; discriminate|]. cbn [app] in E. injection E as <- E.
  destruct a as [|x3 a]; [cbn in E; discriminate|]. cbn [app] in E. injection E as <- E.
  cbn [length] in Hl. 
  assert (Hp : prefix_of (a ++ lit "TLDR") (s ++ lit "TLDR")).
  { eapply prefix_nested with (s := s ++ lit "TLDR" ++ rest).
    - exists b. cbn [lit]. rewrite <- app_assoc. exact E.
    - exists rest. rewrite <- app_assoc. reflexivity.
    - rewrite !app_length. lia. }
  destruct Hp as [b' Hb']. exists a, b'. rewrite <- app_assoc in Hb'. split; [exact Hb'|].
  intros ->. apply (f_equal (@length char)) in Hb'. rewrite !app_length in Hb'. cbn [length lit] in Hb'. lia.
Qed.

Lemma writes_tok ty raw sep more : Writes ty raw -> SepOk ty sep -> TokText raw (sep ++ more) ty.
Proof.
  intros HW (Hne & Hws & Hty). destruct Hws as [|d sep Hd Hws]; [contradiction|]. cbn [app].
  assert (Hdl : ~ letter d) by (apply ws_not_letter; assumption).
  destruct HW as [s Hs Hl Hk|k Hk|c Hc Hw Hl Hdig Hin|sg neg ds Hs Hn Hds Hr|sg neg ip fp Hs Hn Hi Hf
    |s Ha Hb| | | |s Hs|s Hs| | | |]; try (constructor; fail).
  - constructor; auto.
    + apply not_starts_cons, Hdl.
    + intros k H. apply keyword_crosses in H as [H|[t H]]; [exact (Hk k H)|].
      assert (Hsp : letter d \/ d = 32%N) by (apply (spelling_chars k); rewrite H; apply in_or_app; right; left; reflexivity).
      destruct Hsp as [?| ->]; [contradiction|].
      destruct Hty as (c & r & E & Hc); [exists k, t; exact H|]. injection E as <- _. congruence.
  - constructor; [assumption|]. intros k' Hn' H.
    destruct (Nat.le_gt_cases (length (spelling k')) (length (spelling k))) as [|Hl]; [assumption|exfalso].
    assert (Hp : prefix_of (spelling k) (spelling k')).
    { eapply prefix_nested; [exists (d :: sep ++ more); reflexivity|exact H|lia]. }
    apply keyword_crosses in H as [[t H]|[t H]].
    { rewrite H, app_length in Hl. lia. }
    apply prefix_pairs in Hp as [->|Hin]; [lia|]. cbn [In] in *. unfold ws in Hd.
    destruct Hin as [E|[E|[E|[E|[E|[]]]]]]; injection E as <- <-; try congruence;
      injection H as H; subst; unfold letter in Hdl; lia.
  - constructor; auto.
    + intros [t E]. injection E as -> E _. unfold ws in Hd. lia.
    + intros [t E]. injection E as -> E _. unfold ws in Hd. lia.
    + intros raw' rest' n E Hn. inversion Hn as [sg neg ds rest'' Hs Hne' Hds Hr Hst|sg neg ip fp rest'' Hs Hne' Hi Hf Hst]; subst.
      * destruct Hds as [|x ds Hx Hds]; [contradiction|].
        destruct Hs; cbn [app] in E; injection E; intros; subst; unfold digit, ws in *; lia.
      * destruct Hs; cbn [app] in E; destruct Hi as [|x ip Hx Hi]; cbn [app] in *.
        1: destruct Hf as [|x fp Hx Hf]; [contradiction|].
        all: injection E; intros; subst; unfold digit, ws, dot in *; lia.
  - constructor. constructor; auto. exists d, (sep ++ more). split; [reflexivity|].
    unfold ws in Hd. unfold digit, dot. lia.
  - constructor. constructor; auto. exists d, (sep ++ more). split; [reflexivity|].
    unfold ws in Hd. unfold digit. lia.
  - eapply (tt_string s (d :: sep ++ more)); auto.
    + apply byte_len_ascii, Ha.
    + reflexivity.
  - constructor; [assumption|]. right. destruct Hty as (c & r & E & Hc). injection E as <- _.
    exists d, (sep ++ more). auto.
  - constructor. intros a b E. destruct (Nat.le_gt_cases (4 + length s) (length a)) as [|Hlt]; [assumption|exfalso].
    destruct (obtw_no_tldr _ _ _ _ E Hlt) as (a' & b' & E' & Hb'). apply Hb', (Hs _ _ E').
Qed.

Definition printed_pieces (xs : list printed) : list piece :=
  concat (map (fun x : printed => let '(ty, raw, sep) := x in Tok raw ty :: map Gap sep) xs).

Lemma print_lexes xs : Forall printed_ok xs -> LexesTo (print xs) (printed_pieces xs) [].
Proof.
  intros H. induction H as [|[[ty raw] sep] xs [HW HS] H IH]; [constructor|].
  unfold print, printed_pieces. cbn [map concat]. fold (print xs) (printed_pieces xs).
  rewrite <- app_assoc. cbn [app]. constructor.
  - apply writes_tok; assumption.
  - apply LexesTo_gaps; [apply HS|assumption].
Qed.

Lemma tokens_after_types ps : forall before,
  map tok_type (tokens_after before ps) =
  concat (map (fun x => match x with Gap _ => [] | Tok _ ty => [ty] end) ps).
Proof.
  induction ps as [|[c|raw ty] ps IH]; intros before; cbn [tokens_after map concat app tok_type]; [reflexivity|apply IH|].
  f_equal. apply IH.
Qed.

Theorem print_tokenize gap xs : Forall ws gap -> Forall printed_ok xs ->
  exists ts, tokenize (gap ++ print xs) = LexOk ts /\ map tok_type ts = map (fun x => fst (fst x)) xs.
Proof.
  intros Hg H. eexists. split.
  - apply tokenize_ok_iff. exists (map Gap gap ++ printed_pieces xs). split; [|reflexivity].
    apply LexesTo_gaps; [assumption|]. apply print_lexes, H.
  - rewrite tokens_after_types, map_app, concat_app. clear.
    assert (Hgap : forall g, concat (map (fun x => match x with Gap _ => [] | Tok _ ty => [ty] end) (map Gap g)) = []).
    { induction g; [reflexivity|assumption]. }
    rewrite Hgap. cbn [app]. induction xs as [|[[ty raw] sep] xs IH]; [reflexivity|].
    unfold printed_pieces. cbn [map concat fst app]. fold (printed_pieces xs).
    rewrite map_app, concat_app, Hgap. cbn [app]. f_equal. exact IH.
Qed.

(** ** C20 *)

Lemma prefix_of_app_stop p x w more :
  ~ In w p -> prefix_of p (x ++ w :: more) -> prefix_of p x.
Proof.
  revert x. induction p as [|c p IH]; intros x Hin [t Ht]; [exists x; reflexivity|].
  destruct x as [|d x]; cbn [app] in Ht; injection Ht as -> Ht.
  - exfalso. apply Hin. left; reflexivity.
  - destruct (IH x) as [u ->]; [intros H; apply Hin; right; exact H|exists t; exact Ht|].
    exists u. reflexivity.
Qed.

Lemma prefix_of_stop p x w more :
  ~ In w p -> prefix_of p (x ++ w :: more) -> prefix_of p (x ++ [w]).
Proof.
  intros Hin H. apply prefix_of_app_stop in H as [u ->]; [|assumption].
  exists (u ++ [w]). rewrite <- app_assoc. reflexivity.
Qed.

Lemma starts_app P s t : starts P s -> starts P (s ++ t).
Proof. intros (c & r & -> & H). exists c, (r ++ t). auto. Qed.

Lemma starts_app_nonempty P s w t : starts P (s ++ w :: t) -> starts P (s ++ [w]).
Proof.
  intros (c & r & E & H). destruct s as [|d s]; cbn [app] in E; injection E as -> _.
  - exists c, []. auto.
  - exists c, (s ++ [w]). auto.
Qed.

Lemma number_chars raw rest n c : NumberText raw rest n -> In c raw ->
  c = 43%N \/ c = 45%N \/ digit c \/ c = dot.
Proof.
  assert (Hd : forall ds, Forall digit ds -> In c ds -> digit c).
  { intros ds H Hin. rewrite Forall_forall in H. auto. }
  assert (Hs : forall sg neg, SignText sg neg -> In c sg -> c = 43%N \/ c = 45%N).
  { intros sg neg [] H; cbn in H; intuition. }
  intros [sg neg ds rest' H1 _ H2 _ _|sg neg ip fp rest' H1 _ H2 H3 _] Hin.
  - apply in_app_or in Hin as [Hin|Hin]; [destruct (Hs _ _ H1 Hin); auto|eauto].
  - apply in_app_or in Hin as [Hin|Hin]; [destruct (Hs _ _ H1 Hin); auto|].
    apply in_app_or in Hin as [Hin|[Hin|Hin]]; eauto.
Qed.

Lemma NumberText_extend raw rest rest' n :
  NumberText raw rest n -> (forall P, starts P rest -> starts P rest') -> NumberText raw rest' n.
Proof. intros HN H; destruct HN; constructor; auto. Qed.

Lemma TokText_extend raw rest w ty more :
  w = 9%N \/ w = 10%N ->
  TokText raw (rest ++ [w]) ty -> TokText raw (rest ++ w :: more) ty.
Proof.
  intros Hw HT.
  assert (Hst : forall P, starts P (rest ++ [w]) -> starts P (rest ++ w :: more)).
  { intros P (c & r & E & HP). destruct rest as [|d rest]; cbn [app] in *; injection E as -> E.
    - exists c, more; auto.
    - exists c, (rest ++ w :: more); auto. }
  remember (rest ++ [w]) as r1 eqn:Er1.
  assert (Hne : r1 <> []) by (rewrite Er1; destruct rest; discriminate).
  destruct HT as [r1|r1|s r1 Hs Hr|s r1 Hf|r1|r1|r1|r1|r1
    |k r1 Hk Hmax|raw r1 n Hn|body after s c r1 Hb E Hl Hc|s Ho|raw r1 Hn Hl Hr Hk
    |c r1 Hc Hnw Hl Hin Hz Hd Hn]; try (constructor; fail).
  - constructor; [assumption|]. destruct Hr as [->|Hr]; [contradiction|right; auto].
  - constructor. intros a b E.
    destruct (Nat.le_gt_cases (4 + length s) (length a)) as [|Hlt]; [assumption|exfalso].
    assert (Hp : prefix_of (a ++ lit "TLDR") (lit "OBTW" ++ s ++ lit "TLDR")).
    { eapply prefix_nested with (s := lit "OBTW" ++ s ++ lit "TLDR" ++ rest ++ w :: more).
      - exists b. rewrite <- app_assoc. exact E.
      - exists (rest ++ w :: more). rewrite <- !app_assoc. reflexivity.
      - rewrite !app_length. change (length (lit "OBTW")) with 4%nat. lia. }
    destruct Hp as [t Ht]. specialize (Hf a (t ++ r1)).
    assert (4 + length s <= length a)%nat; [|lia]. apply Hf.
    rewrite <- app_assoc in Ht. rewrite !app_assoc, <- (app_assoc (lit "OBTW")), Ht, <- !app_assoc. reflexivity.
  - constructor; [assumption|]. intros k' Hn' [t Ht]. apply Hmax; [assumption|].
    subst r1. rewrite app_assoc in Ht |- *.
    apply (prefix_of_stop _ _ _ more).
    + intros Hin. apply spelling_chars in Hin. unfold letter in Hin. lia.
    + exists t. exact Ht.
  - constructor. eapply NumberText_extend; [eassumption|]. intros P HP. apply Hst. exact HP.
  - subst r1. apply (tt_string body (after ++ more)); auto.
    replace (quote :: body ++ quote :: after ++ more) with ((quote :: body ++ quote :: after) ++ more)
      by (cbn [app]; rewrite <- app_assoc; reflexivity).
    rewrite E. cbn [app]. rewrite <- !app_assoc. cbn [app]. rewrite <- app_assoc. reflexivity.
  - contradiction.
  - subst r1. constructor; auto.
    + intros H. apply Hr. eapply starts_app_nonempty; eassumption.
    + intros k [t Ht]. apply (Hk k). rewrite app_assoc in Ht |- *.
      apply (prefix_of_stop _ _ _ more).
      * intros Hin. apply spelling_chars in Hin. unfold letter in Hin. lia.
      * exists t. exact Ht.
  - subst r1. constructor; auto.
    + intros H. apply Hz. change (c :: rest ++ [w]) with ((c :: rest) ++ [w]).
      change (c :: rest ++ w :: more) with ((c :: rest) ++ w :: more) in H.
      apply prefix_of_stop in H; [exact H|]. cbn. lia.
    + intros H. apply Hd. change (c :: rest ++ [w]) with ((c :: rest) ++ [w]).
      change (c :: rest ++ w :: more) with ((c :: rest) ++ w :: more) in H.
      apply prefix_of_stop in H; [exact H|]. cbn. lia.
    + intros raw' rest' n E HN.
      change (c :: rest ++ w :: more) with ((c :: rest) ++ w :: more) in E.
      destruct (prefix_of_app_stop raw' (c :: rest) w more) as [u Hu].
      * intros Hin'. apply (number_chars _ _ _ _ HN) in Hin'. unfold digit, dot in Hin'. lia.
      * exists rest'. exact E.
      * apply (Hn raw' (u ++ [w]) n).
        -- change (c :: rest ++ [w]) with ((c :: rest) ++ [w]). rewrite Hu, <- app_assoc. reflexivity.
        -- eapply NumberText_extend; [exact HN|]. intros P HP.
           rewrite Hu, <- app_assoc in E. apply app_inv_head in E. rewrite <- E in HP.
           eapply starts_app_nonempty; exact HP.
Qed.

Lemma LexesTo_extend code ps (last_ps : str) (w : char) rest :
  w = 9%N \/ w = 10%N -> LexesTo code ps rest -> rest = last_ps ++ [w] ->
  forall more, LexesTo (text_of ps ++ last_ps ++ w :: more) ps (last_ps ++ w :: more).
Proof.
  intros Hw H. induction H as [rest|c code ps rest Hc H IH|raw code ty ps rest Ht H IH]; intros Er more.
  - constructor.
  - change (text_of (Gap c :: ps)) with (c :: text_of ps). cbn [app]. constructor; auto.
  - assert (text_of (Tok raw ty :: ps) = raw ++ text_of ps) as -> by reflexivity.
    rewrite <- app_assoc. constructor; [|auto].
    pose proof (LexesTo_text _ _ _ H) as Hcode. rewrite Er in Hcode. rewrite Hcode, app_assoc in Ht.
    rewrite app_assoc. apply TokText_extend; assumption.
Qed.

Lemma pos_after_shift ps1 : forall ps2, wf_pieces ps2 ->
  pos_after (ps1 ++ ps2) = shift (pos_after ps1) (pos_after ps2).
Proof.
  induction ps2 as [|x ps2 IH] using rev_ind; intros Hw.
  - rewrite app_nil_r. change (pos_after []) with position_start.
    destruct (pos_after ps1) as [l c b n]. unfold shift, position_start.
    cbn [line column bytes chars Z.eqb Pos.eqb]. f_equal; lia.
  - apply Forall_app in Hw as [Hw2 Hx]. inversion Hx as [|? ? Hx1 _]; subst. rewrite app_assoc.
    specialize (IH Hw2). destruct x as [c|raw ty].
    + rewrite !pos_after_gap by assumption. rewrite IH.
      pose proof (pos_after_bounds _ Hw2) as Hb. cbv zeta in Hb.
      pose proof (utf8_len_lt c (ws_ascii c Hx1)) as Hu.
      unfold ws_pos1, position_add, shift. cbn [byte_len length]. rewrite Hu.
      destruct (N.eqb c newline); cbn [line column bytes chars].
      * destruct (Z.eqb_spec (line (pos_after ps2) + 1) 1); f_equal; lia.
      * destruct (Z.eqb_spec (line (pos_after ps2)) 1); f_equal; lia.
    + rewrite !pos_after_tok, IH. unfold position_add, shift. cbn [line column bytes chars].
      destruct (Z.eqb_spec (line (pos_after ps2)) 1); f_equal; lia.
Qed.

Lemma tokens_after_shift base ps : forall before, wf_pieces (before ++ ps) ->
  tokens_after (base ++ before) ps = map (shift_token (pos_after base)) (tokens_after before ps).
Proof.
  induction ps as [|x ps IH]; intros before Hw; [reflexivity|].
  assert (Hw' : wf_pieces ((before ++ [x]) ++ ps)) by (rewrite <- app_assoc; exact Hw).
  pose proof (proj1 (Forall_app _ _ _) Hw) as [Hb _].
  pose proof (proj1 (Forall_app _ _ _) Hw') as [Hbx _].
  specialize (IH _ Hw'). rewrite app_assoc in IH.
  destruct x as [c|raw ty]; cbn [tokens_after map]; [exact IH|].
  rewrite IH. f_equal. unfold shift_token, shift_range. cbn [tok_type tok_range r_start r_end].
  rewrite <- !pos_after_shift by assumption. rewrite <- app_assoc. reflexivity.
Qed.

Lemma last_gap_split ps (code0 : str) (w : char) :
  wf_pieces ps -> text_of ps = code0 ++ [w] -> ws w ->
  Forall (fun t => bytes (end_of t) <= Z.of_nat (byte_len code0)) (tokens_after [] ps) ->
  exists ps0, ps = ps0 ++ [Gap w] /\ text_of ps0 = code0.
Proof.
  intros Hw Ht Hws HF.
  destruct (char_covered _ _ _ _ Hw Ht) as [[_ (ps1 & ps2 & -> & ->)]
    |(t & ps1 & raw & ps2 & u & v & Hin & -> & Hr & Ha & Hs & He)].
  - assert (ps2 = []) as ->.
    { rewrite text_of_app in Ht. apply app_inv_head in Ht.
      change (Gap w :: ps2) with ([Gap w] ++ ps2) in Ht. rewrite text_of_app in Ht.
      change (text_of [Gap w]) with [w] in Ht. cbn [app] in Ht. injection Ht as Ht.
      destruct ps2 as [|x ps2]; [reflexivity|exfalso].
      apply Forall_app in Hw as [_ Hw]. inversion Hw as [|? ? _ Hw2]; subst.
      inversion Hw2 as [|? ? Hx _]; subst.
      unfold text_of in Ht. cbn [map concat] in Ht. apply app_eq_nil in Ht as [Ht _].
      destruct x; [discriminate|]. cbn in Ht. contradiction. }
    exists ps1. auto.
  - exfalso. rewrite Forall_forall in HF. specialize (HF _ Hin). cbv beta in HF.
    rewrite He, Hr, Ha, !byte_len_app in HF. cbn [byte_len] in HF.
    pose proof (utf8_len_pos w). lia.
Qed.

Definition shift_result (base : position) (ts : list token) (r : lex_result) : lex_result :=
  match r with
  | LexOk us => LexOk (ts ++ map (shift_token base) us)
  | LexErr (UnclosedMultilineComment rg) => LexErr (UnclosedMultilineComment (shift_range base rg))
  | LexPanic => LexPanic
  | LexFuel => LexFuel
  end.

Theorem tokenize_compositional (code0 : str) (w : char) (more : str) ts :
  w = 9%N \/ w = 10%N ->
  tokenize (code0 ++ [w]) = LexOk ts ->
  Forall (fun t => bytes (end_of t) <= Z.of_nat (byte_len code0)) ts ->
  tokenize (code0 ++ w :: more) =
  shift_result (pos_at ts (code0 ++ [w])) ts (tokenize more).
Proof.
  intros Hw E HF. apply tokenize_ok_iff in E as (ps & HL & ->).
  pose proof (LexesTo_wf _ _ _ HL) as Hwf. pose proof (LexesTo_text _ _ _ HL) as Ht.
  rewrite app_nil_r in Ht. symmetry in Ht.
  assert (Hws : ws w) by (unfold ws; lia).
  destruct (last_gap_split _ _ _ Hwf Ht Hws HF) as (ps0 & -> & Ht0).
  destruct (LexesTo_split _ _ _ _ HL) as (mid & H0 & H1).
  inversion H1 as [|c code' ps' rest' Hc H2| ]; subst. inversion H2; subst.
  pose proof (LexesTo_extend _ _ [] w [w] Hw H0 eq_refl more) as H3. cbn [app] in H3.
  assert (H4 : LexesTo (text_of ps0 ++ w :: more) (ps0 ++ [Gap w]) more).
  { eapply LexesTo_app; [exact H3|]. constructor; [assumption|constructor]. }
  set (qs := ps0 ++ [Gap w]) in *.
  assert (Hbase : pos_at (tokens_after [] qs) (text_of ps0 ++ [w]) = pos_after qs).
  { rewrite (pos_after_at qs []) by (rewrite app_nil_r; exact Hwf). rewrite app_nil_r. f_equal.
    unfold qs. rewrite text_of_app. reflexivity. }
  rewrite Hbase.
  pose proof (tokenize_meets more) as HM.
  destruct (tokenize more) as [us|[rg]| |]; cbn [lex_meets shift_result] in *.
  - destruct HM as (ps2 & HL2 & ->). apply tokenize_ok_iff. exists (qs ++ ps2).
    split; [eapply LexesTo_app; eassumption|]. rewrite tokens_after_app. f_equal. cbn [app].
    rewrite <- (tokens_after_shift qs ps2 []) by (apply (LexesTo_wf _ _ _ HL2)).
    rewrite app_nil_r. reflexivity.
  - destruct HM as (ps2 & rem & HL2 & HU & ERG). apply tokenize_err_iff. exists (qs ++ ps2), rem.
    split; [eapply LexesTo_app; eassumption|]. split; [assumption|]. injection ERG as ->.
    f_equal. unfold shift_range. cbn [r_start r_end app].
    pose proof (LexesTo_wf _ _ _ HL2) as Hw2.
    rewrite pos_after_shift by assumption. f_equal.
    pose proof (pos_after_bounds _ Hw2) as Hb. cbv zeta in Hb.
    unfold shift, position_add. cbn [line column bytes chars].
    destruct (Z.eqb_spec (line (pos_after ps2)) 1); f_equal; lia.
  - destruct HM as (ps2 & rem & HL2 & HP). apply tokenize_panic_iff. exists (qs ++ ps2), rem.
    split; [eapply LexesTo_app; eassumption|assumption].
  - destruct HM.
Qed.

(** ** C47 *)

Theorem spelling_injective k k' : to_string_slice k = to_string_slice k' -> k = k'.
Proof.
  intros H.
  assert (Hf : forallb (fun a => forallb (fun b =>
            implb (starts_with (to_string_slice a) (to_string_slice b) &&
                   starts_with (to_string_slice b) (to_string_slice a))
                  (keyword_eqb a b)) all_symbols) all_symbols = true) by (vm_compute; reflexivity).
  rewrite forallb_forall in Hf. specialize (Hf k (all_symbols_complete k)).
  rewrite forallb_forall in Hf. specialize (Hf k' (all_symbols_complete k')).
  rewrite <- H in Hf. rewrite <- (app_nil_r (to_string_slice k)) in Hf at 2.
  rewrite starts_with_app in Hf.
  rewrite <- (app_nil_r (to_string_slice k)) in Hf at 2. rewrite starts_with_app in Hf.
  cbn in Hf. unfold keyword_eqb in Hf. destruct (keyword_eq_dec k k'); [assumption|discriminate].
Qed.

Theorem spelling_shape k :
  to_string_slice k = spelling k /\ to_string_slice k <> [] /\ ~ In 95%N (to_string_slice k) /\
  Forall (fun c => (65 <= c <= 90)%N \/ c = 32%N) (to_string_slice k).
Proof.
  split; [apply spelling_ok|]. rewrite spelling_ok. split; [apply spelling_nonempty|].
  assert (Hf : forallb (fun c => (N.leb 65 c && N.leb c 90) || N.eqb c 32)%bool (spelling k) = true)
    by (destruct k; vm_compute; reflexivity).
  rewrite forallb_forall in Hf. split.
  - intros Hin. apply Hf in Hin. discriminate.
  - apply Forall_forall. intros c Hc. apply Hf in Hc. lia.
Qed.
