From Coq Require Import String Lia List.
From Verif Require Import Lexer LexBasics StrFacts LexProofs LexProps LexProps2 LookAheadProofs.
From Verif Require Import Lines Parser ParseFuel Relabel RelabelProofs SourceSpec SourceProofs Api.
From Verif Require Export Rename.
Local Open Scope nat_scope.

Lemma small_iff c : small_b c = true <-> small c.
Proof. unfold small_b, small. rewrite orb_true_iff, andb_true_iff, N.eqb_eq, !N.leb_le. reflexivity. Qed.

(** A character before which no keyword and no number goes on. *)
Definition stop (c : char) : Prop := small c \/ c = quote.
Lemma stop_not_spelling k c : In c (spelling k) -> ~ stop c.
Proof.
  intros Hi [Hs|Hs].
  - unfold small in Hs. destruct k; vm_compute in Hi; repeat (destruct Hi as [<-|Hi]; [lia|]); exact Hi.
  - unfold quote in Hs. destruct k; vm_compute in Hi; repeat (destruct Hi as [<-|Hi]; [lia|]); exact Hi.
Qed.

(** Two texts that are the same up to a place where both go on with such a
    character. *)
Definition same_stop (c d : char) : Prop := (small c /\ small d) \/ (c = quote /\ d = quote).
Definition alike (r r' : str) : Prop :=
  r = r' \/ exists x c z d z', r = x ++ c :: z /\ r' = x ++ d :: z' /\ same_stop c d.
Lemma same_stop_sym c d : same_stop c d -> same_stop d c.
Proof. unfold same_stop. tauto. Qed.
Lemma same_stop_stop c d : same_stop c d -> stop c.
Proof. unfold same_stop, stop. tauto. Qed.
Lemma alike_app w r r' : alike r r' -> alike (w ++ r) (w ++ r').
Proof.
  intros [->|(x & c & z & d & z' & -> & -> & H)]; [left; reflexivity|].
  right. exists (w ++ x), c, z, d, z'. rewrite <- !app_assoc. auto.
Qed.
Lemma alike_sym r r' : alike r r' -> alike r' r.
Proof.
  intros [->|(x & c & z & d & z' & -> & -> & H)]; [left; reflexivity|].
  right. exists x, d, z', c, z. auto using same_stop_sym.
Qed.
(** A prefix without such characters is a prefix of both. *)
Lemma alike_prefix p t r r' : alike r r' -> (forall c, In c p -> ~ stop c) -> r = p ++ t ->
  exists t', r' = p ++ t' /\ alike t t'.
Proof.
  intros [->|(x & c & z & d & z' & -> & -> & H)] Hp E; [exists t; split; [exact E|left; reflexivity]|].
  assert (Hl : length p <= length x).
  { destruct (Nat.le_gt_cases (length p) (length x)) as [|Hg]; [assumption|exfalso].
    destruct (prefix_nested x p (x ++ c :: z)) as [u ->]; [eexists; reflexivity|exists t; exact E|lia|].
    rewrite <- app_assoc in E. apply app_inv_head in E. destruct u as [|e u]; [rewrite app_nil_r in Hg; lia|].
    injection E as <- _. apply (Hp c); [|exact (same_stop_stop _ _ H)]. apply in_or_app. right. left. reflexivity. }
  destruct (prefix_nested p x (x ++ c :: z)) as [u ->]; [exists t; exact E|eexists; reflexivity|exact Hl|].
  rewrite <- app_assoc in E. apply app_inv_head in E. subst t.
  exists (u ++ d :: z'). rewrite <- app_assoc. split; [reflexivity|]. right. exists u, c, z, d, z'. auto.
Qed.
Lemma alike_starts (P : char -> Prop) r r' : alike r r' -> (forall c d, same_stop c d -> P c -> P d) -> starts P r -> starts P r'.
Proof.
  intros [->|(x & c & z & d & z' & -> & -> & H)] HP Hs; [exact Hs|].
  destruct x as [|e x]; destruct Hs as (e' & w & E & He); injection E as <- _.
  - exists d, z'. split; [reflexivity|]. exact (HP _ _ H He).
  - eexists _, _. split; [reflexivity|exact He].
Qed.
Lemma alike_nil r' : alike [] r' -> r' = [].
Proof. intros [<-|(x & c & z & d & z' & E & _)]; [reflexivity|]. destruct x; discriminate E. Qed.

Lemma number_no_stop raw rest n c : NumberText raw rest n -> In c raw -> ~ stop c.
Proof.
  intros H Hi Hs. pose proof (number_chars _ _ _ _ H Hi) as Hc. unfold stop, small, quote, digit, dot in *. lia.
Qed.
Lemma alike_number raw rest rest' n : alike rest rest' -> NumberText raw rest n -> NumberText raw rest' n.
Proof.
  intros Ha H. destruct H as [sg neg ds rest Hs Hn Hd Hv Hr|sg neg ip fp rest Hs Hn Hi Hf Hr]; constructor; auto.
  - refine (alike_starts _ _ _ Ha _ Hr). unfold same_stop, small, quote, digit, dot. intros; lia.
  - refine (alike_starts _ _ _ Ha _ Hr). unfold same_stop, small, quote, digit, dot. intros; lia.
Qed.

(** The text of a token does not depend on what is after such a place. *)
Lemma TokText_alike raw rest rest' ty : TokText raw rest ty -> alike rest rest' ->
  (forall s, ty = TValue (VString s) -> ascii_str s) -> TokText raw rest' ty.
Proof.
  intros HT Ha Hstr. pose proof (alike_sym _ _ Ha) as Ha'.
  destruct HT as [r1|r1|s r1 Hs Hr|s r1 Hf|r1|r1|r1|r1|r1
    |k r1 Hk Hmax|raw r1 n Hn|body after s c r1 Hb E Hlen Hc|s Ho|raw r1 Hn Hll Hr Hk
    |c r1 Hc Hnw Hll Hin Hz Hd Hn]; try solve [constructor].
  - constructor; [exact Hs|]. destruct Hr as [->|Hr]; [left; exact (alike_nil _ Ha)|]. right.
    refine (alike_starts _ _ _ Ha _ Hr). unfold newline, same_stop, small, quote. intros; lia.
  - apply (TokText_lookahead _ r1); [constructor; exact Hf|reflexivity].
  - constructor; [exact Hk|]. intros k' Hn' [t Hp]. apply Hmax; [exact Hn'|].
    destruct (alike_prefix (spelling k') t _ _ (alike_app (spelling k) _ _ Ha') (stop_not_spelling k') Hp) as (t' & E & _).
    exists t'. exact E.
  - constructor. exact (alike_number _ _ _ _ Ha Hn).
  - specialize (Hstr s eq_refl). rewrite (byte_len_ascii _ Hstr) in Hlen. injection E as E.
    assert (body = s /\ after = r1 /\ c = quote) as (-> & -> & ->).
    { revert Hlen E. clear. revert s. induction body as [|b body IH]; intros [|d s] Hl E; cbn [length app] in *; try discriminate Hl.
      - injection E as <- <-. auto.
      - injection E as -> E. injection Hl as Hl. destruct (IH _ Hl E) as (-> & -> & ->). auto. }
    apply (tt_string s rest' s quote rest'); [exact Hb|reflexivity|exact (byte_len_ascii _ Hstr)|exact Hc].
  - rewrite (alike_nil _ Ha). constructor. exact Ho.
  - constructor; [exact Hn|exact Hll| |].
    + intros H. apply Hr. refine (alike_starts _ _ _ Ha' _ H). unfold same_stop, small, quote, letter. intros; lia.
    + intros k [t Hp]. apply (Hk k).
      destruct (alike_prefix (spelling k) t _ _ (alike_app raw _ _ Ha') (stop_not_spelling k) Hp) as (t' & E & _).
      exists t'. exact E.
  - pose proof (alike_app [c] _ _ Ha') as Hb. cbn [app] in Hb.
    constructor; [exact Hc|exact Hnw|exact Hll|exact Hin| | |].
    + intros [t Hp]. apply Hz. destruct (alike_prefix (lit "'Z") t _ _ Hb) as (t' & E & _); [|exact Hp|exists t'; exact E].
      intros d Hi. vm_compute in Hi. unfold stop, small, quote. lia.
    + intros [t Hp]. apply Hd. destruct (alike_prefix (lit "...") t _ _ Hb) as (t' & E & _); [|exact Hp|exists t'; exact E].
      intros d Hi. vm_compute in Hi. unfold stop, small, quote. lia.
    + intros raw' rest'' n E HN.
      destruct (alike_prefix raw' rest'' _ _ Hb (fun d Hi => number_no_stop _ _ _ d HN Hi) E) as (t' & E' & Ht).
      exact (Hn _ _ _ E' (alike_number _ _ _ _ Ht HN)).
Qed.

(** ** Sources *)
Section Rename.
Variables names strings : str -> str.
Notation ntext := (new_text names strings).
Notation ntype := (new_type names strings).
Hypothesis Hnames : forall s, small_word s -> small_word (names s).

Definition new_piece (x : piece) : piece :=
  match x with
  | Gap c => Gap c
  | Tok raw ty => match ntext ty with Some w => Tok w (ntype ty) | None => Tok raw ty end
  end.

Lemma text_cases ty : ntext ty = None /\ ntype ty = ty \/
  (exists c s, ty = TIdentifier (c :: s) /\ small c /\ ntext ty = Some (names (c :: s)) /\ ntype ty = TIdentifier (names (c :: s))) \/
  (exists s, ty = TValue (VString s) /\ ntext ty = Some (quote :: strings s ++ [quote]) /\ ntype ty = TValue (VString (strings s))).
Proof. clear Hnames.
  destruct ty as [[|c s]|k|s|[]|s|s| | | | |]; cbn; auto.
  - destruct (small_b c) eqn:E; [|auto]. right. left. exists c, s. rewrite <- small_iff. auto.
  - right. right. eexists. repeat split.
Qed.

Lemma new_texts ps : forall code, LexesTo code ps [] -> alike (text_of ps) (text_of (map new_piece ps)).
Proof.
  intros code H. remember [] as r eqn:Er. induction H as [rest|c code ps rest Hc H IH|raw code ty ps rest Ht H IH]; subst.
  - left. reflexivity.
  - exact (alike_app [c] _ _ (IH eq_refl)).
  - cbn [map new_piece]. destruct (text_cases ty) as [(E & _)|[(c & s & -> & Hc & E & _)|(s & -> & E & _)]]; rewrite E.
    + exact (alike_app raw _ _ (IH eq_refl)).
    + inversion Ht; subst.
      assert (Hw : small_word (c :: s)) by (split; [exists c, s; auto|assumption]).
      apply Hnames in Hw as [(d & z & En & Hd) _]. rewrite En. right.
      exists [], c, (s ++ text_of ps), d, (z ++ text_of (map new_piece ps)). split; [reflexivity|]. split; [reflexivity|]. left. auto.
    + right. assert (exists z, raw = quote :: z) as [z ->] by (inversion Ht; subst; eauto).
      exists [], quote, (z ++ text_of ps), quote, ((strings s ++ [quote]) ++ text_of (map new_piece ps)).
      split; [reflexivity|]. split; [reflexivity|]. right. auto.
Qed.

Definition strings_ok (s : str) : Prop := ascii_str s /\ StringBody (strings s) /\ ascii_str (strings s).
Definition piece_ok (x : piece) : Prop := forall raw s, x = Tok raw (TValue (VString s)) -> strings_ok s.

Lemma new_lexes ps code : LexesTo code ps [] -> Forall piece_ok ps ->
  LexesTo (text_of (map new_piece ps)) (map new_piece ps) [].
Proof.
  intros H. remember [] as r eqn:Er. induction H as [rest|c code ps rest Hc H IH|raw code ty ps rest Ht H IH]; subst; intros HF;
    [constructor|inversion_clear HF as [|? ? _ HF']|inversion_clear HF as [|? ? Hok HF']]; specialize (IH eq_refl).
  - change (text_of (map new_piece (Gap c :: ps))) with (c :: text_of (map new_piece ps)). constructor; auto.
  - pose proof (new_texts _ _ H) as Ha. pose proof (LexesTo_text _ _ _ H) as Htx. rewrite app_nil_r in Htx. subst code.
    assert (Hlex : forall raw' ty', TokText raw' (text_of (map new_piece ps)) ty' ->
      LexesTo (text_of (Tok raw' ty' :: map new_piece ps)) (Tok raw' ty' :: map new_piece ps) []).
    { intros raw' ty' HT. exact (lexes_tok _ _ _ _ _ HT (IH HF')). }
    cbn [map new_piece]. destruct (text_cases ty) as [(E & _)|[(c & s & -> & Hc & E & E')|(s & -> & E & E')]]; rewrite E; rewrite ?E'; apply Hlex.
    + apply (TokText_alike _ _ _ _ Ht Ha). intros s Es. apply (Hok raw s). rewrite Es. reflexivity.
    + inversion Ht as [| | | | | | | | | | | | |raw1 r1 Hn Hll Hr Hk|]; subst.
      assert (Hw : small_word (c :: s)) by (split; [exists c, s; auto|assumption]).
      apply Hnames in Hw as [(d & z & En & Hd) Hll']. rewrite En in Hll' |- *. constructor.
      * discriminate.
      * exact Hll'.
      * intros Hs. apply Hr. refine (alike_starts _ _ _ (alike_sym _ _ Ha) _ Hs). unfold same_stop, small, quote, letter. intros; lia.
      * intros k [t Ek]. pose proof (stop_not_spelling k) as Hst. pose proof (spelling_nonempty k) as Hne.
        destruct (spelling k) as [|e sp]; [contradiction|]. injection Ek as <- _. apply (Hst d); [left; reflexivity|left; exact Hd].
    + destruct (Hok raw s eq_refl) as (_ & Hb & Ha2).
      change (quote :: strings s ++ [quote]) with (quote :: strings s ++ [quote]).
      apply (tt_string (strings s) (text_of (map new_piece ps))); [exact Hb|reflexivity|apply byte_len_ascii; exact Ha2|unfold quote; lia].
Qed.

Lemma splice_pieces ps : forall before (w : str) o, o + length w = length (text_of before) ->
  splice names strings o (w ++ text_of ps) (tokens_after before ps) = w ++ text_of (map new_piece ps).
Proof. clear Hnames.
  induction ps as [|[c|raw ty] ps IH]; intros before w o Ho; cbn [tokens_after].
  - reflexivity.
  - change (text_of (Gap c :: ps)) with ([c] ++ text_of ps).
    change (text_of (map new_piece (Gap c :: ps))) with ([c] ++ text_of (map new_piece ps)).
    rewrite !app_assoc. apply IH. rewrite text_of_app, !app_length. cbn [text_of map piece_text concat app length]. lia.
  - cbn [splice map new_piece tok_type]. destruct (text_cases ty) as [(E & _)|Hc].
    + rewrite E. change (text_of (Tok raw ty :: ps)) with (raw ++ text_of ps).
      change (text_of (Tok raw ty :: map new_piece ps)) with (raw ++ text_of (map new_piece ps)).
      rewrite !app_assoc. apply IH. rewrite text_of_app, !app_length. change (text_of [Tok raw ty]) with (raw ++ []). rewrite app_nil_r. lia.
    + assert (exists v, ntext ty = Some v) as [v E] by (destruct Hc as [(? & ? & _ & _ & ? & _)|(? & _ & ? & _)]; eauto). rewrite E.
      change (text_of (Tok raw ty :: ps)) with (raw ++ text_of ps).
      change (text_of (Tok v (ntype ty) :: map new_piece ps)) with (v ++ text_of (map new_piece ps)).
      unfold start_of, end_of. cbn [tok_range r_start r_end]. rewrite !chars_after, !Nat2Z.id.
      rewrite !text_of_app. change (text_of [Tok raw ty]) with (raw ++ []). rewrite app_nil_r, app_length, <- Ho.
      replace (o + length w - o) with (length w) by lia. replace (o + length w + length raw - o) with (length (w ++ raw)) by (rewrite app_length; lia).
      rewrite firstn_app, firstn_all, Nat.sub_diag. cbn [firstn]. rewrite app_nil_r, (app_assoc w raw), skipn_app, skipn_all, Nat.sub_diag. cbn [app skipn].
      f_equal. f_equal. rewrite <- (app_nil_l (text_of ps)). rewrite (IH (before ++ [Tok raw ty]) []); [reflexivity|].
      rewrite text_of_app. change (text_of [Tok raw ty]) with (raw ++ []). rewrite app_nil_r, app_length. cbn [length]. lia.
Qed.

Lemma new_breaks ps : length (filter is_break (map new_piece ps)) = length (filter is_break ps).
Proof. clear Hnames.
  induction ps as [|[c|raw ty] ps IH]; [reflexivity| |]; cbn [map new_piece filter is_break].
  - destruct (N.eqb c newline); cbn [length]; rewrite IH; reflexivity.
  - destruct (ntext ty); exact IH.
Qed.
Lemma new_tokens ps : forall before,
  Forall2 (fun t u => tok_type u = ntype (tok_type t) /\ tok_line u = tok_line t)
    (tokens_after before ps) (tokens_after (map new_piece before) (map new_piece ps)).
Proof. clear Hnames.
  induction ps as [|[c|raw ty] ps IH]; intros before; [constructor| |]; cbn [map new_piece tokens_after].
  - specialize (IH (before ++ [Gap c])). rewrite map_app in IH. exact IH.
  - specialize (IH (before ++ [Tok raw ty])). rewrite map_app in IH. cbn [map new_piece] in IH.
    assert (L : line (pos_after (map new_piece before)) = line (pos_after before)) by (cbn [pos_after line]; rewrite new_breaks; reflexivity).
    destruct (text_cases ty) as [(E & E')|[(c & s & -> & Hc & E & E')|(s & -> & E & E')]]; rewrite E in IH |- *; cbn [tokens_after];
      (constructor; [|exact IH]); cbn [tok_type]; split; try reflexivity; try exact L.
    symmetry. exact E'.
Qed.
End Rename.

(** Lines depend on the lines of the tokens, commas and ellipses only. *)
Section Rel.
Variable Rel : token -> token -> Prop.
Hypothesis HR : forall t u, Rel t u -> is_comma u = is_comma t /\ is_ellipsis u = is_ellipsis t /\ tok_line u = tok_line t.
Lemma rel_joined t u t' u' : Rel t t' -> Rel u u' -> joined t' u' = joined t u.
Proof.
  intros H1 H2. destruct (HR _ _ H1) as (A1 & B1 & C1), (HR _ _ H2) as (A2 & B2 & C2). unfold joined. rewrite A1, A2, B1, C1, C2. reflexivity.
Qed.
Lemma rel_chunks ts us : Forall2 Rel ts us -> Forall2 (Forall2 Rel) (chunks ts) (chunks us).
Proof.
  induction 1 as [|t u ts us H _ IH]; [constructor|]. cbn [chunks].
  destruct IH as [|g g' gs gs' Hg Hgs]; [repeat constructor; exact H|].
  destruct Hg as [|v w g g' Hv Hg]; [repeat constructor; exact H|].
  rewrite (rel_joined _ _ _ _ H Hv). destruct (joined t v); repeat (constructor; auto).
Qed.
Lemma rel_filter f l l' : (forall t u, Rel t u -> f u = f t) -> Forall2 Rel l l' -> Forall2 Rel (filter f l) (filter f l').
Proof.
  intros Hf. induction 1 as [|t u l l' H _ IH]; [constructor|]. cbn [filter]. rewrite (Hf _ _ H).
  destruct (f t); [constructor; auto|exact IH].
Qed.
Lemma rel_statements ts us : Forall2 Rel ts us -> Forall2 (Forall2 Rel) (statements ts) (statements us).
Proof.
  intros H. apply rel_chunks in H. unfold statements. induction H as [|g g' gs gs' Hg _ IH]; [constructor|]. cbn [filter].
  assert (E : existsb is_comma g' = existsb is_comma g).
  { clear IH. induction Hg as [|t u g g' H _ IH]; [reflexivity|]. cbn [existsb]. destruct (HR _ _ H) as (-> & _). rewrite IH. reflexivity. }
  rewrite E. destruct (existsb is_comma g); cbn [negb map]; [exact IH|]. constructor; [|exact IH].
  apply rel_filter; [|exact Hg]. intros t u Ht. destruct (HR _ _ Ht) as (_ & -> & _). reflexivity.
Qed.
Lemma rel_lines ts us : Forall2 Rel ts us -> Forall2 (Forall2 Rel) (logical_lines ts) (logical_lines us).
Proof.
  intros H. pose proof (rel_statements _ _ H) as Hs. destruct H as [|t u ts us Ht H]; [constructor|].
  cbn [logical_lines]. destruct (HR _ _ Ht) as (-> & _). destruct (is_comma t); [constructor; [constructor|exact Hs]|exact Hs].
Qed.
End Rel.

Lemma Forall2_map_eq {A B C} (f : A -> C) (g : B -> C) R l l' : Forall2 R l l' -> (forall x y, R x y -> f x = g y) -> map f l = map g l'.
Proof. intros H Hf. induction H as [|x y l l' Hx _ IH]; [reflexivity|]. cbn [map]. rewrite (Hf _ _ Hx), IH. reflexivity. Qed.

Lemma new_kind names strings t : tok_kind (new_token names strings t) = tok_kind t.
Proof.
  unfold tok_kind, new_token. cbn [tok_type]. destruct (tok_type t) as [[|c s]|k|s|[]|s|s| | | | |]; try reflexivity.
  cbn [new_type]. destruct (small_b c); reflexivity.
Qed.
Lemma type_comma ty ty' names strings : ty' = new_type names strings ty ->
  forall t u, tok_type t = ty -> tok_type u = ty' -> is_comma u = is_comma t /\ is_ellipsis u = is_ellipsis t.
Proof.
  intros -> t u Et Eu. unfold is_comma, is_ellipsis. rewrite Et, Eu. destruct ty as [[|c s]|k|s|[]|s|s| | | | |]; try (split; reflexivity).
  cbn [new_type]. destruct (small_b c); split; reflexivity.
Qed.

Section Results.
Variables names strings : str -> str.
Variable code : str.
Variable ts : list token.
Hypothesis Hcode : tokenize code = LexOk ts.
Hypothesis Hnames : forall s, small_word s -> small_word (names s).
Hypothesis Hstrings : forall t s, In t ts -> tok_type t = TValue (VString s) ->
  ascii_str s /\ StringBody (strings s) /\ ascii_str (strings s).

Lemma new_source : exists us, tokenize (splice names strings 0 code ts) = LexOk us /\
  Forall2 (fun t u => tok_type u = new_type names strings (tok_type t) /\ tok_line u = tok_line t) ts us.
Proof.
  pose proof Hcode as E. apply tokenize_ok_iff in E as (ps & HL & Ets).
  exists (tokens_after [] (map (new_piece names strings) ps)). split.
  - pose proof (LexesTo_text _ _ _ HL) as Ht. rewrite app_nil_r in Ht. rewrite Ht, Ets.
    rewrite <- (app_nil_l (text_of ps)), (splice_pieces names strings ps [] [] 0 eq_refl). cbn [app].
    apply tokenize_ok_iff. eexists. split; [|reflexivity]. refine (new_lexes names strings Hnames ps code HL _).
    apply Forall_forall. intros x Hx raw s ->. apply in_split in Hx as (p1 & p2 & ->).
    rewrite Ets in Hstrings. rewrite tokens_after_app in Hstrings. cbn [tokens_after app] in Hstrings.
    eapply Hstrings; [apply in_or_app; right; left; reflexivity|reflexivity].
  - rewrite Ets. exact (new_tokens names strings ps []).
Qed.

Theorem new_types : exists us, tokenize (splice names strings 0 code ts) = LexOk us /\
  map tok_type us = map (fun t => new_type names strings (tok_type t)) ts /\ map tok_line us = map tok_line ts.
Proof.
  destruct new_source as (us & E & HF). exists us. split; [exact E|].
  split; symmetry; apply (Forall2_map_eq _ _ _ _ _ HF); intros t u [H1 H2]; symmetry; assumption.
Qed.
Theorem new_lines us : tokenize (splice names strings 0 code ts) = LexOk us ->
  map (map tok_type) (logical_lines us) = map (map tok_type) (map (map (new_token names strings)) (logical_lines ts)).
Proof.
  intros E. destruct new_source as (us' & E' & HF). rewrite E in E'. injection E' as <-.
  apply (rel_lines (fun t u => tok_type u = new_type names strings (tok_type t) /\ tok_line u = tok_line t)) in HF.
  - symmetry. rewrite map_map. apply (Forall2_map_eq _ _ _ _ _ HF). intros l l' Hl. rewrite map_map.
    apply (Forall2_map_eq _ _ _ _ _ Hl). intros t u [Ht _]. symmetry. exact Ht.
  - intros t u [Ht Hl]. destruct (type_comma _ _ _ _ Ht t u eq_refl eq_refl). auto.
Qed.

Theorem new_result : map_api erase (tokenize_and_parse (splice names strings 0 code ts)) =
  map_api erase (map_api (new_token names strings) (tokenize_and_parse code)).
Proof.
  destruct new_source as (us & E & _). pose proof (new_lines us E) as El.
  unfold tokenize_and_parse. rewrite E, Hcode, !parse_logical_lines.
  assert (Hp := same_types _ _ El). rewrite (parse_logical_map _ (new_kind names strings)) in Hp.
  destruct (parse_logical (logical_lines us)), (parse_logical (logical_lines ts)); cbn [map_result] in Hp; try discriminate Hp; try reflexivity.
  injection Hp as Hp. cbn [map_api]. rewrite Hp. reflexivity.
Qed.
End Results.

Theorem same_source names strings code ts : tokenize code = LexOk ts -> (forall s, small_word s -> names s = s) ->
  (forall t s, In t ts -> tok_type t <> TValue (VString s)) -> splice names strings 0 code ts = code.
Proof.
  intros E Hn Hs. apply tokenize_ok_iff in E as (ps & HL & ->).
  pose proof (LexesTo_text _ _ _ HL) as Ht. rewrite app_nil_r in Ht. rewrite Ht at 2.
  rewrite Ht, <- (app_nil_l (text_of ps)), (splice_pieces names strings ps [] [] 0 eq_refl). cbn [app]. clear Ht. revert Hs.
  remember [] as r eqn:Er in HL. generalize (@nil piece) as before.
  induction HL as [rest|c code ps rest Hc H IH|raw code ty ps rest Ht H IH]; intros before Hs; [reflexivity| |].
  - cbn [tokens_after] in Hs. exact (f_equal (cons c) (IH Er _ Hs)).
  - cbn [tokens_after] in Hs.
    assert (E : text_of (map (new_piece names strings) ps) = text_of ps) by (apply (IH Er (before ++ [Tok raw ty])); intros t s Hi; apply Hs; right; exact Hi).
    assert (new_piece names strings (Tok raw ty) = Tok raw ty) as En.
    { cbn [new_piece]. destruct (text_cases names strings ty) as [(F & _)|[(c & s & -> & Hc & F & F')|(s & -> & _)]].
      - rewrite F. reflexivity.
      - rewrite F, F'. inversion Ht; subst. rewrite Hn; [reflexivity|]. split; [exists c, s; auto|assumption].
      - exfalso. eapply Hs; [left; reflexivity|reflexivity]. }
    cbn [map]. rewrite En. exact (f_equal (app raw) E).
Qed.
