(** Proofs of the properties of the lexer, from the specification of
    [tokenize] proved in [LexProofs]. *)
From Coq Require Import String Sorted ZifyBool ZifyNat ZifyN.
From Verif Require Import StrFacts Lexer LexSpec LexBasics LexProofs LexPropSpec.
Local Open Scope Z_scope.

(** ** Decompositions *)

Lemma LexesTo_text code ps rest : LexesTo code ps rest -> code = text_of ps ++ rest.
Proof.
  intros H. induction H as [rest|c code ps rest Hc H IH|raw code ty ps rest Ht H IH]; [reflexivity| |].
  - rewrite IH. reflexivity.
  - rewrite IH. unfold text_of. cbn [map concat piece_text]. rewrite <- app_assoc. reflexivity.
Qed.

Lemma LexesTo_app code ps mid : LexesTo code ps mid ->
  forall ps' rest, LexesTo mid ps' rest -> LexesTo code (ps ++ ps') rest.
Proof.
  intros H. induction H; intros ps' rest' H'; cbn [app]; [assumption| |]; constructor; auto.
Qed.

Lemma LexesTo_split ps1 : forall code ps2 rest,
  LexesTo code (ps1 ++ ps2) rest -> exists mid, LexesTo code ps1 mid /\ LexesTo mid ps2 rest.
Proof.
  induction ps1 as [|x ps1 IH]; intros code ps2 rest H; cbn [app] in H.
  - exists code. split; [constructor|assumption].
  - inversion H as [|c code' ? ? Hc H1|raw code' ty ? ? Ht H1]; subst;
      destruct (IH _ _ _ H1) as (mid & Ha & Hb); exists mid; (split; [constructor|]; assumption).
Qed.

(** A run that stops extends every other run. *)
Lemma LexesTo_extends code ps1 mid : LexesTo code ps1 mid ->
  forall ps rest, LexesTo code ps rest -> Stuck rest -> 
  exists ps2, ps = ps1 ++ ps2 /\ LexesTo mid ps2 rest.
Proof.
  intros H. induction H as [mid|c code ps1 mid Hc H IH|raw code ty ps1 mid Ht H IH]; intros ps rest H' HS.
  - exists ps. auto.
  - inversion H' as [|c' code' ps' rest1 Hc' H1|raw' code' ty' ps' rest1 Ht' H1 Hr]; subst.
    + exfalso. apply (stuck_not_ws _ HS). exists c, code; auto.
    + destruct (IH _ _ H1 HS) as (ps2 & -> & H2). exists ps2; auto.
    + exfalso. apply (TokText_not_ws _ _ _ Ht'). rewrite Hr. exists c, code; auto.
  - inversion H' as [rest1 Hx|c' code' ps' rest1 Hc' H1 Hx|raw' code' ty' ps' rest1 Ht' H1 Hx]; subst.
    + exfalso. exact (stuck_not_token _ _ _ Ht HS).
    + exfalso. apply (TokText_not_ws _ _ _ Ht). rewrite <- Hx. exists c', code'; auto.
    + destruct (TokText_deterministic _ _ _ _ _ _ Ht' Ht Hx) as (-> & -> & ->).
      destruct (IH _ _ H1 HS) as (ps2 & -> & H2). exists ps2; auto.
Qed.

Lemma tokens_after_app ps1 : forall before ps2,
  tokens_after before (ps1 ++ ps2) = tokens_after before ps1 ++ tokens_after (before ++ ps1) ps2.
Proof.
  induction ps1 as [|[c|raw ty] ps1 IH]; intros before ps2; cbn [app tokens_after].
  - rewrite app_nil_r; reflexivity.
  - rewrite IH, <- app_assoc. reflexivity.
  - rewrite IH, <- app_assoc. reflexivity.
Qed.

(** Every token comes from a piece. *)
Lemma token_inv ps : forall before t, In t (tokens_after before ps) ->
  exists ps1 raw ps2, ps = ps1 ++ Tok raw (tok_type t) :: ps2 /\
    start_of t = pos_after (before ++ ps1) /\
    end_of t = pos_after (before ++ ps1 ++ [Tok raw (tok_type t)]).
Proof.
  induction ps as [|[c|raw ty] ps IH]; intros before t H; cbn [tokens_after] in H; [contradiction| |].
  - destruct (IH _ _ H) as (ps1 & raw & ps2 & -> & H1 & H2).
    exists (Gap c :: ps1), raw, ps2. rewrite <- !app_assoc in *. auto.
  - destruct H as [<-|H].
    + exists [], raw, ps. cbn [app tok_type]. rewrite app_nil_r. auto.
    + destruct (IH _ _ H) as (ps1 & raw' & ps2 & -> & H1 & H2).
      exists (Tok raw ty :: ps1), raw', ps2. rewrite <- !app_assoc in *. auto.
Qed.

Lemma token_of_piece before ps1 raw ty ps2 :
  In {| tok_type := ty;
        tok_range := {| r_start := pos_after (before ++ ps1);
                        r_end := pos_after (before ++ ps1 ++ [Tok raw ty]) |} |}
     (tokens_after before (ps1 ++ Tok raw ty :: ps2)).
Proof.
  rewrite tokens_after_app. cbn [tokens_after]. apply in_or_app. right. left.
  rewrite <- app_assoc. reflexivity.
Qed.

Lemma text_of_snoc ps raw ty : text_of (ps ++ [Tok raw ty]) = text_of ps ++ raw.
Proof. rewrite text_of_app. unfold text_of at 2. cbn. rewrite app_nil_r. reflexivity. Qed.

(** The token of a piece, and where it stands. *)
Lemma token_facts code ps rest t :
  LexesTo code ps rest -> In t (tokens_after [] ps) ->
  exists ps1 raw ps2, ps = ps1 ++ Tok raw (tok_type t) :: ps2 /\
    LexesTo code ps1 (raw ++ text_of ps2 ++ rest) /\
    TokText raw (text_of ps2 ++ rest) (tok_type t) /\
    LexesTo (text_of ps2 ++ rest) ps2 rest /\
    token_at code t (text_of ps1) raw (text_of ps2 ++ rest) /\
    start_of t = pos_after ps1 /\ end_of t = pos_after (ps1 ++ [Tok raw (tok_type t)]).
Proof.
  intros HL Ht. destruct (token_inv ps [] t Ht) as (ps1 & raw & ps2 & -> & Hs & He).
  exists ps1, raw, ps2. split; [reflexivity|].
  destruct (LexesTo_split _ _ _ _ HL) as (mid & H1 & H2).
  inversion H2 as [| |raw' code' ty' ps' rest' Ht' H3]; subst.
  pose proof (LexesTo_text _ _ _ H3) as ->.
  split; [assumption|]. split; [assumption|]. split; [assumption|].
  cbn [app] in Hs, He. split; [|auto].
  split; [apply (LexesTo_text _ _ _ H1)|]. rewrite Hs, He. cbn [bytes pos_after].
  split; [reflexivity|]. rewrite text_of_snoc. reflexivity.
Qed.

(** ** C01 *)

Theorem loop_progress code p :
  code <> [] ->
  match lex_step code p with
  | SSkip code' _ | SToken _ code' _ => (length code' < length code)%nat
  | SError _ | SPanic => True
  end.
Proof.
  intros Hne. destruct (step_exhaustive code) as [E|[Hw|[(raw & rest & ty & E & Ht)|[He|Hp]]]].
  - contradiction.
  - destruct (ws_split code) as (gs & r & E & Hg & Hr).
    assert (gs <> []) as Hn by (intros ->; apply Hr; cbn in E; rewrite <- E; exact Hw).
    rewrite E, step_ws by assumption. rewrite app_length. destruct gs; [contradiction|cbn; lia].
  - rewrite E, (step_token _ _ _ _ Ht). unfold stoken. rewrite app_length.
    pose proof (TokText_nonempty _ _ _ Ht). destruct raw; [contradiction|cbn; lia].
  - rewrite step_error by assumption. exact I.
  - rewrite step_panic by assumption. exact I.
Qed.

Theorem loop_fuel_irrelevant fuel : forall fuel' code p,
  (length code < fuel)%nat -> (length code < fuel')%nat ->
  tokenize_loop fuel code p = tokenize_loop fuel' code p /\ tokenize_loop fuel code p <> LexFuel.
Proof.
  induction fuel as [|fuel IH]; intros fuel' code p H H'; [lia|].
  destruct fuel' as [|fuel']; [lia|]. cbn [tokenize_loop].
  destruct code as [|c s] eqn:Ec; [split; [reflexivity|discriminate]|]. rewrite <- Ec in *.
  pose proof (loop_progress code p) as Hp. rewrite Ec in Hp at 1. specialize (Hp ltac:(discriminate)).
  destruct (lex_step code p) as [code' p'|t code' p'|e|].
  - apply IH; lia.
  - destruct (IH fuel' code' p') as [E Hf]; [lia|lia|]. rewrite E in *.
    split; [reflexivity|]. destruct (tokenize_loop fuel' code' p'); cbn; congruence.
  - split; [reflexivity|discriminate].
  - split; [reflexivity|discriminate].
Qed.

Theorem tokenize_terminates code fuel :
  (length code < fuel)%nat ->
  tokenize_loop fuel code position_start = tokenize code /\ tokenize code <> LexFuel.
Proof.
  intros H. unfold tokenize. destruct (loop_fuel_irrelevant (S (length code)) fuel code position_start) as [E Hf];
    [lia|assumption|]. auto.
Qed.

(** ** C02, C03 *)

Lemma ascii_string_panic_free body after :
  ascii_str body ->
  exists s c r, quote :: body ++ quote :: after = quote :: s ++ c :: r /\
    byte_len s = length body /\ (c < 128)%N.
Proof.
  intros H. exists body, quote, after. repeat split. apply byte_len_ascii, H.
Qed.

Theorem tokenize_ascii_no_panic code : ascii_str code -> tokenize code <> LexPanic.
Proof.
  intros Ha E. apply tokenize_panic_iff in E as (ps & rem & HL & HP).
  pose proof (LexesTo_text _ _ _ HL) as ->. apply ascii_app in Ha as [_ Ha].
  destruct HP as [(c & r & -> & Hc)|(body & after & -> & Hb & Hno)].
  - apply ascii_cons in Ha as [Ha _]. apply is_ascii_iff in Ha. lia.
  - apply Hno, ascii_string_panic_free.
    apply ascii_cons in Ha as [_ Ha]. apply ascii_app in Ha as [Ha _]. exact Ha.
Qed.

Lemma not_ascii_exists s : ~ ascii_str s -> exists c, In c s /\ (128 <= c)%N.
Proof.
  induction s as [|c s IH]; intros H; [exfalso; apply H; reflexivity|].
  destruct (N.lt_ge_cases c 128) as [Hc|Hc].
  - destruct IH as (d & Hd & Hl).
    + intros Hs. apply H, ascii_cons. split; [apply is_ascii_iff|]; assumption.
    + exists d. split; [right|]; assumption.
  - exists c. split; [left; reflexivity|assumption].
Qed.

Theorem tokenize_panic_site code : tokenize code = LexPanic ->
  exists ps rem, LexesTo code ps rem /\
    (starts (fun c => (128 <= c)%N) rem \/
     exists body after c, rem = quote :: body ++ quote :: after /\ StringBody body /\
       In c body /\ (128 <= c)%N).
Proof.
  intros E. apply tokenize_panic_iff in E as (ps & rem & HL & HP). exists ps, rem.
  split; [assumption|]. destruct HP as [H|(body & after & -> & Hb & Hno)]; [left; assumption|right].
  destruct (not_ascii_exists body) as (c & Hc & Hl).
  - intros Ha. apply Hno, ascii_string_panic_free, Ha.
  - exists body, after, c. auto.
Qed.

(** Non-ASCII characters inside comments are harmless. *)
Theorem nonascii_start_panics code ps c rest :
  LexesTo code ps (c :: rest) -> (128 <= c)%N -> tokenize code = LexPanic.
Proof.
  intros HL Hc. apply tokenize_panic_iff. exists ps, (c :: rest). split; [assumption|].
  left. exists c, rest. auto.
Qed.

(** ** C04 *)

Definition wf_pieces (ps : list piece) : Prop :=
  Forall (fun x => match x with Gap c => ws c | Tok raw _ => raw <> [] end) ps.

Lemma LexesTo_wf code ps rest : LexesTo code ps rest -> wf_pieces ps.
Proof.
  intros H. induction H; constructor; auto. eapply TokText_nonempty; eassumption.
Qed.

Lemma byte_len_nonempty s : s <> [] -> (0 < byte_len s)%nat.
Proof. intros H. pose proof (byte_len_ge s). destruct s; [contradiction|cbn [length] in *; lia]. Qed.

Lemma bytes_pos_after ps : bytes (pos_after ps) = Z.of_nat (byte_len (text_of ps)).
Proof. reflexivity. Qed.

Lemma byte_text_app a b :
  Z.of_nat (byte_len (text_of (a ++ b))) = Z.of_nat (byte_len (text_of a)) + Z.of_nat (byte_len (text_of b)).
Proof. rewrite text_of_app, byte_len_app. lia. Qed.

Lemma tokens_bounds before ps t : wf_pieces ps -> In t (tokens_after before ps) ->
  Z.of_nat (byte_len (text_of before)) <= bytes (start_of t) < bytes (end_of t) /\
  bytes (end_of t) <= Z.of_nat (byte_len (text_of (before ++ ps))).
Proof.
  intros Hw H. destruct (token_inv _ _ _ H) as (ps1 & raw & ps2 & -> & -> & ->).
  apply Forall_app in Hw as [_ Hw]. inversion Hw as [|? ? Hr _]; subst.
  pose proof (byte_len_nonempty _ Hr).
  rewrite !bytes_pos_after.
  change (Tok raw (tok_type t) :: ps2) with ([Tok raw (tok_type t)] ++ ps2).
  rewrite !byte_text_app.
  assert (text_of [Tok raw (tok_type t)] = raw) as -> by (unfold text_of; cbn; apply app_nil_r).
  lia.
Qed.

Lemma tokens_sorted ps : forall before, wf_pieces ps ->
  StronglySorted (fun t u => bytes (end_of t) <= bytes (start_of u)) (tokens_after before ps).
Proof.
  induction ps as [|[c|raw ty] ps IH]; intros before Hw; cbn [tokens_after]; [constructor| |];
    inversion Hw as [|? ? Hx Hps]; subst; [apply IH; assumption|].
  constructor; [apply IH; assumption|].
  apply Forall_forall. intros u Hu. apply tokens_bounds in Hu; [|assumption].
  unfold end_of at 1. cbn [tok_range r_end]. rewrite bytes_pos_after. lia.
Qed.

Lemma piece_at ps : forall a c b, text_of ps = a ++ c :: b ->
  exists ps1 x ps2 u v, ps = ps1 ++ x :: ps2 /\ piece_text x = u ++ c :: v /\
    a = text_of ps1 ++ u /\ b = v ++ text_of ps2.
Proof.
  induction ps as [|x ps IH]; intros a c b H.
  - destruct a; discriminate.
  - unfold text_of in H. cbn [map concat] in H. fold (text_of ps) in H.
    destruct (Nat.lt_ge_cases (length a) (length (piece_text x))) as [Hl|Hl].
    + exists [], x, ps.
      assert (exists v, piece_text x = a ++ c :: v) as [v Hv].
      { revert a H Hl. generalize (piece_text x) as t. induction t as [|d t IHt]; intros a H Hl; [cbn in Hl; lia|].
        destruct a as [|e a]; cbn [app] in H; injection H as -> H.
        - exists t; reflexivity.
        - destruct (IHt a H) as [v ->]; [cbn in Hl; lia|]. exists v; reflexivity. }
      exists a, v. rewrite Hv, <- app_assoc in H. apply app_inv_head in H.
      cbn [app] in H. injection H as H. repeat split; auto.
    + assert (exists a', a = piece_text x ++ a') as [a' ->].
      { revert a H Hl. generalize (piece_text x) as t. induction t as [|d t IHt]; intros a H Hl; [exists a; reflexivity|].
        destruct a as [|e a]; cbn in Hl; [lia|]. cbn [app] in H. injection H as -> H.
        destruct (IHt a H) as [v ->]; [lia|]. exists v; reflexivity. }
      rewrite <- app_assoc in H. apply app_inv_head in H.
      destruct (IH _ _ _ H) as (ps1 & y & ps2 & u & v & -> & Hy & -> & ->).
      exists (x :: ps1), y, ps2, u, v. repeat split; auto.
      unfold text_of. cbn [map concat]. rewrite <- app_assoc. reflexivity.
Qed.

(** Every character is whitespace between tokens or belongs to a token. *)
Lemma char_covered ps a c b : wf_pieces ps -> text_of ps = a ++ c :: b ->
  (ws c /\ exists ps1 ps2, ps = ps1 ++ Gap c :: ps2 /\ a = text_of ps1) \/
  exists t ps1 raw ps2 u v, In t (tokens_after [] ps) /\
    ps = ps1 ++ Tok raw (tok_type t) :: ps2 /\ raw = u ++ c :: v /\ a = text_of ps1 ++ u /\
    bytes (start_of t) = Z.of_nat (byte_len (text_of ps1)) /\
    bytes (end_of t) = Z.of_nat (byte_len (text_of ps1 ++ raw)).
Proof.
  intros Hw H. destruct (piece_at _ _ _ _ H) as (ps1 & x & ps2 & u & v & -> & Hx & -> & ->).
  apply Forall_app in Hw as [_ Hw]. inversion Hw as [|? ? Hp _]; subst.
  destruct x as [g|raw ty]; cbn [piece_text] in Hx.
  - left. destruct u as [|? u]; [|destruct u; discriminate].
    cbn [app] in Hx. injection Hx as -> <-. split; [assumption|]. exists ps1, ps2.
    rewrite app_nil_r. auto.
  - right. eexists. exists ps1, raw, ps2, u, v.
    split; [apply (token_of_piece [] ps1 raw ty ps2)|]. cbn [tok_type].
    repeat split; try assumption. unfold end_of. cbn [tok_range r_end app].
    rewrite bytes_pos_after, text_of_snoc. reflexivity.
Qed.

Theorem tokenize_lossless code ts : tokenize code = LexOk ts -> Lossless code ts.
Proof.
  intros E. apply tokenize_ok_iff in E as (ps & HL & ->).
  pose proof (LexesTo_wf _ _ _ HL) as Hw. pose proof (LexesTo_text _ _ _ HL) as Hc.
  rewrite app_nil_r in Hc. subst code. split; [|split].
  - apply Forall_forall. intros t Ht. apply tokens_bounds in Ht; [|assumption]. cbn [app] in Ht.
    change (byte_len (text_of [])) with O in Ht. lia.
  - apply tokens_sorted, Hw.
  - intros a c b H. destruct (char_covered _ _ _ _ Hw H) as [[Hws _]|(t & ps1 & raw & ps2 & u & v & Ht & _ & Hr & Ha & Hs & He)].
    + left; assumption.
    + right. exists t. split; [assumption|]. rewrite Hs, He, Ha, Hr.
      rewrite !byte_len_app. cbn [byte_len]. lia.
Qed.

(** ** C05 *)

Lemma TokText_own raw rest ty : TokText raw rest ty -> OwnText ty raw rest.
Proof.
  intros []; cbn [OwnText]; try reflexivity; try assumption; eauto.
Qed.

Theorem token_text code ts t : tokenize code = LexOk ts -> In t ts ->
  exists a raw b, token_at code t a raw b /\ OwnText (tok_type t) raw b /\
    (forall s, tok_type t = TValue (VString s) -> ascii_str code ->
               raw = quote :: s ++ [quote] \/ (raw = quote :: s /\ b = [])).
Proof.
  intros E Ht. apply tokenize_ok_iff in E as (ps & HL & ->).
  destruct (token_facts _ _ _ _ HL Ht) as (ps1 & raw & ps2 & -> & H1 & HT & H2 & Hat & _).
  rewrite app_nil_r in *. exists (text_of ps1), raw, (text_of ps2).
  split; [assumption|]. split; [apply TokText_own; assumption|].
  intros s Es Ha. pose proof (proj1 Hat) as Hcode.
  rewrite Es in HT. inversion HT as [| | | | | | | | | | |body after s' c rest Hb Heq Hl Hc| | |]; subst.
  - left. f_equal. f_equal. f_equal.
    assert (Hab : ascii_str (quote :: body ++ quote :: after)).
    { rewrite Heq. apply ascii_app in Ha as [_ Ha].
      apply ascii_app in Ha as [Ha1 Ha2]. apply ascii_cons in Ha1 as [Hq Ha1].
      apply ascii_app in Ha1 as [Ha1 Ha3]. apply ascii_cons in Ha3 as [Ha3 _].
      apply ascii_cons; split; [assumption|]. apply ascii_app; split; [assumption|].
      apply ascii_cons; split; assumption. }
    apply ascii_cons in Hab as [_ Hab]. apply ascii_app in Hab as [Hab _].
    injection Heq as Heq. apply app_byte_len_inv in Heq as [_ Heq].
    + injection Heq as <-. reflexivity.
    + rewrite Hl. apply byte_len_ascii, Hab.
  - right. auto.
Qed.

(** ** C06, C07, C08 *)

Lemma line_breaks_app ts s1 : forall o s2,
  line_breaks ts o (s1 ++ s2) =
  line_breaks ts o s1 ++ line_breaks ts (o + Z.of_nat (byte_len s1)) s2.
Proof.
  induction s1 as [|c s1 IH]; intros o s2; cbn [app line_breaks byte_len].
  - rewrite Z.add_0_r; reflexivity.
  - rewrite IH, <- app_assoc. do 2 f_equal. f_equal. lia.
Qed.

Lemma line_breaks_inside ts s : forall o,
  (forall o', o <= o' < o + Z.of_nat (byte_len s) -> outside ts o' = false) ->
  line_breaks ts o s = [].
Proof.
  induction s as [|c s IH]; intros o H; cbn [line_breaks]; [reflexivity|].
  cbn [byte_len] in H. pose proof (utf8_len_pos c).
  rewrite H by lia. rewrite andb_false_r. cbn [app]. apply IH. intros o' Ho. apply H. lia.
Qed.

Lemma outside_gap ps1 c ps2 : wf_pieces (ps1 ++ Gap c :: ps2) ->
  outside (tokens_after [] (ps1 ++ Gap c :: ps2)) (Z.of_nat (byte_len (text_of ps1))) = true.
Proof.
  intros Hw. unfold outside. apply forallb_forall. intros t Ht.
  apply Forall_app in Hw as [Hw1 Hw2]. inversion Hw2 as [|? ? Hc Hw3]; subst.
  rewrite tokens_after_app in Ht. cbn [tokens_after app] in Ht.
  apply in_app_or in Ht as [Ht|Ht]; apply tokens_bounds in Ht; try assumption.
  - cbn [app] in Ht. lia.
  - rewrite !byte_text_app in Ht. change (text_of [Gap c]) with [c] in Ht.
    cbn [byte_len] in Ht. pose proof (utf8_len_pos c). lia.
Qed.

Lemma outside_tok ps1 raw ty ps2 o :
  Z.of_nat (byte_len (text_of ps1)) <= o < Z.of_nat (byte_len (text_of ps1)) + Z.of_nat (byte_len raw) ->
  outside (tokens_after [] (ps1 ++ Tok raw ty :: ps2)) o = false.
Proof.
  intros Ho. destruct (outside _ o) eqn:E; [|reflexivity]. unfold outside in E.
  rewrite forallb_forall in E. specialize (E _ (token_of_piece [] ps1 raw ty ps2)).
  unfold start_of, end_of in E. cbn [tok_range r_start r_end app] in E.
  rewrite !bytes_pos_after, text_of_snoc, byte_len_app in E. lia.
Qed.

Lemma last_snoc {A} (l : list A) x d : last (l ++ [x]) d = x.
Proof. induction l as [|y l IH]; [reflexivity|]. cbn [app]. cbn [last]. destruct (l ++ [x]) eqn:E; [destruct l; discriminate|]. exact IH. Qed.

Lemma pos_at_tok ts before raw ty :
  line_breaks ts (Z.of_nat (byte_len (text_of before))) raw = [] ->
  pos_at ts (text_of (before ++ [Tok raw ty])) = position_add (pos_at ts (text_of before)) raw.
Proof.
  intros H. rewrite text_of_snoc. unfold pos_at, position_add, line_start. cbn [line column bytes chars].
  rewrite line_breaks_app, Z.add_0_l, H, app_nil_r, byte_len_app, app_length.
  f_equal; lia.
Qed.

Lemma pos_at_gap ts before c : ws c ->
  outside ts (Z.of_nat (byte_len (text_of before))) = true ->
  pos_at ts (text_of (before ++ [Gap c])) = ws_pos1 (pos_at ts (text_of before)) c.
Proof.
  intros Hc H. pose proof (utf8_len_lt c (ws_ascii c Hc)) as Hu.
  rewrite text_of_app. change (text_of [Gap c]) with [c].
  unfold pos_at, ws_pos1, position_add, line_start. cbn [line column bytes chars].
  rewrite line_breaks_app, Z.add_0_l. cbn [line_breaks]. rewrite H, andb_true_r, app_nil_r, byte_len_app, !app_length.
  cbn [byte_len length]. rewrite Hu.
  destruct (N.eqb c newline).
  - rewrite map_app. cbn [length map]. rewrite last_snoc. f_equal; lia.
  - rewrite app_nil_r. cbn [length]. f_equal; lia.
Qed.

Theorem pos_after_at ps1 : forall ps2, wf_pieces (ps1 ++ ps2) ->
  pos_after ps1 = pos_at (tokens_after [] (ps1 ++ ps2)) (text_of ps1).
Proof.
  induction ps1 as [|x ps1 IH] using rev_ind; intros ps2 Hw.
  - reflexivity.
  - rewrite <- app_assoc in *. cbn [app] in *. specialize (IH (x :: ps2) Hw).
    destruct x as [c|raw ty].
    + assert (Hc : ws c).
      { apply Forall_app in Hw as [_ Hw]. inversion Hw; assumption. }
      rewrite pos_after_gap by assumption.
      rewrite pos_at_gap, IH by (try apply outside_gap; assumption). reflexivity.
    + rewrite pos_after_tok, IH, <- (pos_at_tok _ _ _ ty); [reflexivity|].
      apply line_breaks_inside. intros o' Ho. apply outside_tok. exact Ho.
Qed.

Theorem token_positions code ts t a raw b :
  tokenize code = LexOk ts -> In t ts -> token_at code t a raw b ->
  start_of t = pos_at ts a /\ end_of t = pos_at ts (a ++ raw).
Proof.
  intros E Ht (Hcode & Hs & He). apply tokenize_ok_iff in E as (ps & HL & ->).
  pose proof (LexesTo_wf _ _ _ HL) as Hw.
  destruct (token_facts _ _ _ _ HL Ht) as (ps1 & raw' & ps2 & -> & H1 & HT & H2 & (Hcode' & Hs' & He') & P1 & P2).
  rewrite app_nil_r in *.
  assert (a = text_of ps1 /\ raw ++ b = raw' ++ text_of ps2) as [-> Hrb].
  { apply app_byte_len_inv; [congruence|]. lia. }
  assert (raw = raw' /\ b = text_of ps2) as [-> ->].
  { apply app_byte_len_inv; [assumption|]. rewrite !byte_len_app in *. lia. }
  rewrite P1, P2. split.
  - apply pos_after_at, Hw.
  - rewrite <- (text_of_snoc ps1 raw' (tok_type t)).
    change (Tok raw' (tok_type t) :: ps2) with ([Tok raw' (tok_type t)] ++ ps2) in *.
    rewrite app_assoc in *. apply pos_after_at, Hw.
Qed.

Lemma line_breaks_all ts s : forall o,
  (forall x y, s = x ++ newline :: y -> outside ts (o + Z.of_nat (byte_len x)) = true) ->
  length (line_breaks ts o s) = count_newlines s.
Proof.
  unfold count_newlines.
  induction s as [|c s IH]; intros o H; cbn [line_breaks count_occ]; [reflexivity|].
  rewrite app_length, IH.
  - destruct (N.eq_dec c newline) as [->|Hn].
    + specialize (H [] s eq_refl). cbn [byte_len] in H. rewrite Z.add_0_r in H. rewrite H. reflexivity.
    + apply N.eqb_neq in Hn as ->. reflexivity.
  - intros x y ->. specialize (H (c :: x) y eq_refl). cbn [byte_len] in H.
    rewrite <- H. f_equal. lia.
Qed.

Theorem token_line_no_newline_tokens code ts t a raw b :
  tokenize code = LexOk ts -> In t ts -> token_at code t a raw b ->
  (forall u x raw' y, In u ts -> token_at code u x raw' y ->
     bytes (start_of u) < bytes (start_of t) -> ~ In newline raw') ->
  line (start_of t) = 1 + Z.of_nat (count_newlines a).
Proof.
  intros E Ht Hat Hno. destruct (token_positions _ _ _ _ _ _ E Ht Hat) as [-> _].
  cbn [pos_at line]. rewrite line_breaks_all; [reflexivity|].
  intros x y ->. rewrite Z.add_0_l.
  apply tokenize_ok_iff in E as (ps & HL & ->).
  pose proof (LexesTo_wf _ _ _ HL) as Hw. pose proof (LexesTo_text _ _ _ HL) as Hc.
  rewrite app_nil_r in Hc. destruct Hat as (Hcode & Hs & He).
  assert (Htext : text_of ps = x ++ newline :: (y ++ raw ++ b)).
  { rewrite <- Hc, Hcode, <- app_assoc. reflexivity. }
  destruct (char_covered _ _ _ _ Hw Htext) as [[_ (ps1 & ps2 & -> & ->)]
    |(u & ps1 & raw' & ps2 & p & q & Hu & -> & Hr & Hx & Hus & Hue)].
  - apply outside_gap, Hw.
  - exfalso. refine (Hno u (text_of ps1) raw' (text_of ps2) Hu _ _ _).
    + split; [|split; assumption]. rewrite Hc, text_of_app. unfold text_of at 2. reflexivity.
    + rewrite Hus, Hs, Hx, !byte_len_app. cbn [byte_len]. pose proof (utf8_len_pos newline). lia.
    + rewrite Hr. apply in_or_app; right; left; reflexivity.
Qed.

(** ** C09 *)

Definition pos_lt (p q : position) : Prop :=
  line p < line q \/ (line p = line q /\ column p < column q).

Lemma pos_lt_trans p q r : pos_lt p q -> pos_lt q r -> pos_lt p r.
Proof. unfold pos_lt; lia. Qed.

Lemma pos_after_step before x :
  match x with Gap c => ws c | Tok raw _ => raw <> [] end ->
  pos_lt (pos_after before) (pos_after (before ++ [x])) /\
  bytes (pos_after before) < bytes (pos_after (before ++ [x])).
Proof.
  intros H. destruct x as [c|raw ty].
  - rewrite pos_after_gap by assumption. unfold ws_pos1, pos_lt, position_add.
    pose proof (utf8_len_lt c (ws_ascii c H)) as Hu.
    destruct (N.eqb c newline); cbn [line column bytes byte_len length]; try rewrite Hu; lia.
  - rewrite pos_after_tok. pose proof (byte_len_nonempty _ H).
    unfold pos_lt, position_add. cbn [line column bytes]. lia.
Qed.

Lemma pos_after_extend ps : forall before, wf_pieces ps -> ps <> [] ->
  pos_lt (pos_after before) (pos_after (before ++ ps)) /\
  bytes (pos_after before) < bytes (pos_after (before ++ ps)).
Proof.
  induction ps as [|x ps IH]; intros before Hw Hne; [contradiction|].
  inversion Hw as [|? ? Hx Hps]; subst. destruct (pos_after_step before x Hx) as [H1 H2].
  change (x :: ps) with ([x] ++ ps). rewrite app_assoc.
  destruct ps as [|y ps']; [rewrite app_nil_r; auto|].
  destruct (IH (before ++ [x]) Hps) as [H3 H4]; [discriminate|].
  split; [eapply pos_lt_trans; eassumption|lia].
Qed.

Lemma prefixes_comparable {A} (a : list A) : forall b c d, a ++ b = c ++ d ->
  (exists m, c = a ++ m) \/ (exists m, a = c ++ m).
Proof.
  induction a as [|x a IH]; intros b c d H; [left; exists c; reflexivity|].
  destruct c as [|y c]; [right; exists (x :: a); reflexivity|].
  cbn [app] in H. injection H as -> H. destruct (IH _ _ _ H) as [[m ->]|[m ->]]; [left|right]; exists m; reflexivity.
Qed.

Lemma pos_after_order ps1 r1 ps2 r2 : ps1 ++ r1 = ps2 ++ r2 -> wf_pieces (ps1 ++ r1) ->
  let p := pos_after ps1 in let q := pos_after ps2 in
  (p = q /\ bytes p = bytes q) \/ (pos_lt p q /\ bytes p < bytes q) \/ (pos_lt q p /\ bytes q < bytes p).
Proof.
  intros E Hw p q. unfold p, q.
  destruct (prefixes_comparable _ _ _ _ E) as [[m ->]|[m ->]].
  - rewrite E in Hw. rewrite <- app_assoc in Hw. apply Forall_app in Hw as [_ Hw]. apply Forall_app in Hw as [Hw _].
    destruct m as [|x m]; [rewrite app_nil_r; auto|]. right; left.
    apply pos_after_extend; [assumption|discriminate].
  - rewrite <- app_assoc in Hw. apply Forall_app in Hw as [_ Hw]. apply Forall_app in Hw as [Hw _].
    destruct m as [|x m]; [rewrite app_nil_r; auto|]. right; right.
    apply pos_after_extend; [assumption|discriminate].
Qed.

Lemma boundary_inv code ps rest p : LexesTo code ps rest -> boundary (tokens_after [] ps) p ->
  exists ps1 r, ps = ps1 ++ r /\ p = pos_after ps1.
Proof.
  intros HL (t & Ht & Hp).
  destruct (token_facts _ _ _ _ HL Ht) as (ps1 & raw & ps2 & -> & _ & _ & _ & _ & P1 & P2).
  destruct Hp as [->| ->].
  - exists ps1, (Tok raw (tok_type t) :: ps2). auto.
  - exists (ps1 ++ [Tok raw (tok_type t)]), ps2. rewrite <- app_assoc. auto.
Qed.

Theorem boundaries_ordered code ts p q :
  tokenize code = LexOk ts -> boundary ts p -> boundary ts q ->
  (position_eqb p q = true <-> bytes p = bytes q) /\
  (position_cmp p q = Lt <-> line p < line q \/ (line p = line q /\ column p < column q)).
Proof.
  intros E Hp Hq. apply tokenize_ok_iff in E as (ps & HL & ->).
  destruct (boundary_inv _ _ _ _ HL Hp) as (ps1 & r1 & E1 & ->).
  destruct (boundary_inv _ _ _ _ HL Hq) as (ps2 & r2 & E2 & ->).
  pose proof (LexesTo_wf _ _ _ HL) as Hw. rewrite E1 in Hw.
  pose proof (pos_after_order ps1 r1 ps2 r2 ltac:(congruence) Hw) as H. cbv zeta in H.
  revert H. generalize (pos_after ps1) (pos_after ps2). intros p' q' H.
  unfold position_eqb, position_cmp, pos_lt in *.
  split.
  - split; intros Hx.
    + apply andb_true_iff in Hx as [Hx Hy]. destruct H as [[? ?]|[[? ?]|[? ?]]]; [congruence| |]; lia.
    + destruct H as [[-> _]|[[? ?]|[? ?]]]; [|lia|lia]. rewrite !Z.eqb_refl. reflexivity.
  - rewrite Z.compare_lt_iff. destruct H as [[-> _]|[[? ?]|[? ?]]]; lia.
Qed.

(** ** C10 *)

Lemma LexesTo_nil_inv code ps rest : LexesTo code ps rest ->
  code = [] -> ps = [].
Proof.
  intros H. destruct H; [reflexivity|discriminate|]. intros E. apply app_eq_nil in E as [E _].
  exfalso. eapply TokText_nonempty; eassumption.
Qed.

Theorem loop_state_inv code code' p :
  LoopState code code' p -> exists ps, LexesTo code ps code' /\ p = pos_after ps.
Proof.
  intros H. induction H as [|code1 p1 code2 p2 H (ps & HL & ->) Hne Hs|code1 p1 t code2 p2 H (ps & HL & ->) Hne Hs].
  - exists []. split; [constructor|reflexivity].
  - destruct (step_exhaustive code1) as [E|[Hw|[(raw & rest & ty & E & Ht)|[He|Hp]]]].
    + contradiction.
    + destruct (ws_split code1) as (gs & r & E & Hg & Hr).
      assert (gs <> []) as Hn by (intros ->; apply Hr; cbn in E; rewrite <- E; exact Hw).
      rewrite E, step_ws in Hs by assumption. injection Hs as <- <-.
      exists (ps ++ map Gap gs). split.
      * rewrite E in HL. eapply LexesTo_app; [exact HL|]. rewrite <- (app_nil_r (map Gap gs)).
        apply LexesTo_gaps; [assumption|constructor].
      * symmetry. apply pos_after_gaps, Hg.
    + rewrite E, (step_token _ _ _ _ Ht) in Hs. discriminate.
    + rewrite step_error in Hs by assumption. discriminate.
    + rewrite step_panic in Hs by assumption. discriminate.
  - destruct (step_exhaustive code1) as [E|[Hw|[(raw & rest & ty & E & Ht)|[He|Hp]]]].
    + contradiction.
    + destruct (ws_split code1) as (gs & r & E & Hg & Hr).
      assert (gs <> []) as Hn by (intros ->; apply Hr; cbn in E; rewrite <- E; exact Hw).
      rewrite E, step_ws in Hs by assumption. discriminate.
    + rewrite E, (step_token _ _ _ _ Ht) in Hs. unfold stoken in Hs. injection Hs as <- <- <-.
      exists (ps ++ [Tok raw ty]). split.
      * rewrite E in HL. eapply LexesTo_app; [exact HL|]. constructor; [assumption|constructor].
      * symmetry. apply pos_after_tok.
    + rewrite step_error in Hs by assumption. discriminate.
    + rewrite step_panic in Hs by assumption. discriminate.
Qed.

Lemma filter_breaks_le ps : wf_pieces ps ->
  (length (filter is_break ps) <= byte_len (text_of ps))%nat.
Proof.
  intros H. induction H as [|x ps Hx H IH]; [cbn; lia|].
  cbn [filter]. change (x :: ps) with ([x] ++ ps). rewrite text_of_app, byte_len_app.
  destruct x as [c|raw ty]; cbn [is_break].
  - change (text_of [Gap c]) with [c]. cbn [byte_len]. pose proof (utf8_len_pos c).
    destruct (N.eqb c newline); cbn [length]; lia.
  - lia.
Qed.

Lemma since_break_suffix ps : exists a, ps = a ++ since_break ps.
Proof.
  induction ps as [|x ps [a IH]]; [exists []; reflexivity|]. cbn [since_break].
  destruct (existsb is_break ps).
  - exists (x :: a). cbn [app]. f_equal. exact IH.
  - destruct (is_break x); [exists [x]; reflexivity|exists []; reflexivity].
Qed.

Lemma pos_after_bounds ps : wf_pieces ps ->
  let n := Z.of_nat (byte_len (text_of ps)) in
  1 <= line (pos_after ps) <= 1 + n /\ 1 <= column (pos_after ps) <= 1 + n /\
  bytes (pos_after ps) = n /\ 0 <= chars (pos_after ps) <= n.
Proof.
  intros Hw n. pose proof (filter_breaks_le ps Hw) as H1.
  destruct (since_break_suffix ps) as [a Ha].
  assert (H2 : (byte_len (text_of (since_break ps)) <= byte_len (text_of ps))%nat).
  { rewrite Ha at 2. rewrite text_of_app, byte_len_app. lia. }
  pose proof (byte_len_ge (text_of ps)) as H3.
  unfold n, pos_after. cbn [line column bytes chars]. lia.
Qed.

Theorem loop_positions_i32 code code' p :
  Z.of_nat (byte_len code) < 2 ^ 31 - 1 -> LoopState code code' p ->
  i32_position p /\ i32_position (position_add p code').
Proof.
  intros Hlen H. apply loop_state_inv in H as (ps & HL & ->).
  pose proof (LexesTo_wf _ _ _ HL) as Hw. pose proof (LexesTo_text _ _ _ HL) as ->.
  pose proof (pos_after_bounds ps Hw) as Hb. cbv zeta in Hb.
  rewrite byte_len_app in Hlen. pose proof (byte_len_ge code') as Hg.
  unfold i32_position, i32, position_add. cbn [line column bytes chars].
  change (2 ^ 31) with 2147483648 in *. lia.
Qed.

Theorem token_positions_i32 code ts p :
  Z.of_nat (byte_len code) < 2 ^ 31 - 1 -> tokenize code = LexOk ts -> boundary ts p -> i32_position p.
Proof.
  intros Hlen E Hp. apply tokenize_ok_iff in E as (ps & HL & ->).
  destruct (boundary_inv _ _ _ _ HL Hp) as (ps1 & r1 & -> & ->).
  pose proof (LexesTo_wf _ _ _ HL) as Hw. pose proof (LexesTo_text _ _ _ HL) as ->.
  apply Forall_app in Hw as [Hw _].
  pose proof (pos_after_bounds ps1 Hw) as Hb. cbv zeta in Hb.
  rewrite app_nil_r, text_of_app, byte_len_app in Hlen.
  unfold i32_position, i32. change (2 ^ 31) with 2147483648 in *. lia.
Qed.

(** ** C11 *)

Theorem unclosed_comment_iff code r :
  tokenize code = LexErr (UnclosedMultilineComment r) <->
  exists ps rem, LexesTo code ps rem /\ UnclosedComment rem /\
    r = {| r_start := pos_after ps; r_end := position_add (pos_after ps) rem |}.
Proof.
  rewrite tokenize_err_iff. split; intros (ps & rem & HL & HU & E); exists ps, rem; repeat split;
    try apply HU; try assumption; congruence.
Qed.

Theorem unclosed_comment_range code r :
  tokenize code = LexErr (UnclosedMultilineComment r) ->
  exists a rem, code = a ++ lit "OBTW" ++ rem /\ ~ occurs_in (lit "TLDR") (lit "OBTW" ++ rem) /\
    bytes (r_start r) = Z.of_nat (byte_len a) /\ chars (r_start r) = Z.of_nat (length a) /\
    bytes (r_end r) = Z.of_nat (byte_len code) /\ chars (r_end r) = Z.of_nat (length code) /\
    line (r_end r) = line (r_start r).
Proof.
  intros E. apply unclosed_comment_iff in E as (ps & rem & HL & [[t ->] HU] & ->).
  pose proof (LexesTo_text _ _ _ HL) as ->. exists (text_of ps), t.
  repeat split; try assumption; cbn [r_start r_end bytes chars line position_add pos_after].
  - rewrite !byte_len_app. lia.
  - rewrite !app_length. lia.
Qed.
