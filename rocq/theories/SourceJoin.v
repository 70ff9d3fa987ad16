(** One source after another: proofs for C55. *)
From Coq Require Import Lia.
From Verif Require Import Lines LinesSim ParseFuel Grammar ExprGrammar LineGrammar Clean ProgGrammar ProgComplete Free ParserProps
  LexSpec LexProofs LexPropSpec LexProps LexProps2 Relabel RelabelProofs EqProps SourceLines Api.

(** ** Lines *)
Lemma stmts_prefix L ns : d_stmts L ns -> L <> [] -> forall ls,
  parse_logical (L ++ ls) = put ns (rest_result ls).
Proof.
  induction 1 as [|L n M ns Hn Hs IH]; intros HL ls; [contradiction|].
  destruct (d_stmt_first _ _ Hn) as (t & c & M' & -> & _).
  destruct (proj1 complete_mut _ _ Hn) as [F HF].
  rewrite <- app_assoc. cbn [app]. rewrite parse_logical_unfold.
  set (s := (c, M' ++ M ++ ls)).
  set (f := F + (sz s + 3)). rewrite <- (stmt_eq f t s) by (unfold f; lia). unfold s at 1.
  rewrite (HF f ltac:(unfold f; lia) t c M' (M ++ ls) eq_refl). cbn [fst snd too_many].
  destruct (d_stmts_first _ _ Hs) as [[-> ->]|[_ (t' & c' & M'' & -> & _)]]; [reflexivity|].
  cbn [app rest_result]. rewrite (IH ltac:(discriminate) ls : parse_logical ((t' :: c') :: M'' ++ ls) = _).
  rewrite put_put. reflexivity.
Qed.

Lemma d_stmt_last L n : d_stmt L n -> ~ swallows n -> exists M l, L = M ++ [l] /\ l <> [].
Proof.
  intros H Hs. destruct H as [l n Hl|t v Hk|t lb its it cs cond B ns imo el|t ts i us ps B ns e|t q B omgs M d e
    |t q B yes M mebbes K no e]; try (exfalso; apply Hs; exact I).
  - exists [], l. split; [reflexivity|]. destruct (d_line_first _ _ Hl) as (u & c & -> & _). discriminate.
  - exists ((t :: lb :: its ++ cs) :: B), [imo; el]. split; [reflexivity|discriminate].
  - exists ([t; q] :: B ++ M ++ K), [e]. split; [cbn; rewrite <- !app_assoc; reflexivity|discriminate].
Qed.
Lemma d_stmts_last L ns : d_stmts L ns -> forall ns0 n, ns = ns0 ++ [n] -> ~ swallows n ->
  exists M l, L = M ++ [l] /\ l <> [].
Proof.
  induction 1 as [|L n M ns Hn Hs IH]; intros ns0 m E Hm; [destruct ns0; discriminate|].
  destruct ns as [|n' ns].
  - inversion Hs; subst. rewrite app_nil_r. eapply d_stmt_last; [exact Hn|].
    destruct ns0 as [|x [|y ns0]]; try discriminate E. injection E as ->. exact Hm.
  - destruct ns0 as [|x ns0]; [discriminate E|]. injection E as -> E.
    destruct (IH ns0 m E Hm) as (M' & l & -> & Hl). exists (L ++ M'), l. split; [apply app_assoc|exact Hl].
Qed.

Lemma app_eq_cases {A} (a b c d : list A) : a ++ b = c ++ d ->
  (exists l, a = c ++ l /\ d = l ++ b) \/ (exists l, c = a ++ l /\ b = l ++ d).
Proof.
  revert c. induction a as [|x a IH]; intros c E; [right; exists c; auto|].
  destruct c as [|y c]; [left; exists (x :: a); auto|]. cbn [app] in E. injection E as -> E.
  destruct (IH _ E) as [(l & -> & ->)|(l & -> & ->)]; [left|right]; exists l; auto.
Qed.

(** Non-empty lines that parse without errors are a sequence of statements. *)
Lemma closed_lines ls ns : Forall (fun l => l <> []) ls -> parse_logical ls = ParseOk (ASTBlock ns) ->
  forallb node_clean ns = true -> (forall ns0 n, ns = ns0 ++ [n] -> ~ swallows n) -> d_stmts ls ns.
Proof.
  intros HF HP HC Hlast. destruct (program_sound _ _ HP HC) as (k & L & rest & E & Hd).
  inversion Hd as [? ? Hs Hne|L' ? Hs]; subst.
  - assert (exists ns0 n, ns = ns0 ++ [n]) as (ns0 & n & En).
    { destruct (exists_last Hne) as (a & b & ->). eauto. }
    destruct (d_stmts_last _ _ Hs _ _ En (Hlast _ _ En)) as (M & l & -> & Hl).
    apply app_eq_cases in E as [(l' & E1 & E2)|(l' & E1 & E2)].
    + destruct l' as [|x l']; [rewrite app_nil_r in E1; subst; exact Hs|].
      injection E2 as <- _. subst ls. exfalso. apply Forall_app in HF as [_ HF]. inversion HF; contradiction.
    + destruct l' as [|x l' _] using rev_ind; [rewrite app_nil_r in E1; subst; exact Hs|].
      rewrite app_assoc in E1. apply app_inj_tail in E1 as [_ <-]. exfalso. apply Hl.
      assert (HI : In l (repeat [] k)) by (rewrite E2; rewrite !in_app_iff; cbn; auto).
      apply repeat_spec in HI. exact HI.
  - destruct ls as [|l ls].
    + cbn [app] in E. destruct (d_stmts_first _ _ Hs) as [[-> ->]|[_ (t & c & M & -> & _)]]; [constructor|].
      exfalso. assert (HI : In (t :: c) (repeat [] k)) by (rewrite E; cbn; auto).
      apply repeat_spec in HI. discriminate HI.
    + injection E as -> _. inversion HF. contradiction.
Qed.

(** ** Tokens *)
Lemma chunks_app ts us :
  (forall ts0 t u us0, ts = ts0 ++ [t] -> us = u :: us0 -> joined t u = false) ->
  chunks (ts ++ us) = chunks ts ++ chunks us.
Proof.
  induction ts as [|t ts IH]; intros H; [reflexivity|].
  destruct ts as [|t' ts].
  - cbn [app]. destruct us as [|u us]; [reflexivity|].
    destruct (chunks_cons t u us) as (g & gs & E1 & _ & E2). rewrite E2, E1.
    rewrite (H [] t u us eq_refl eq_refl). reflexivity.
  - assert (IH' : chunks ((t' :: ts) ++ us) = chunks (t' :: ts) ++ chunks us).
    { apply IH. intros ts0 x u us0 E1 E2. apply (H (t :: ts0) x u us0); [cbn; congruence|exact E2]. }
    cbn [app] in IH' |- *.
    destruct (chunks_cons t t' (ts ++ us)) as (g & gs & E1 & _ & E2).
    destruct (chunks_cons t t' ts) as (g' & gs' & E1' & _ & E2').
    rewrite E2, E2'. rewrite E1, E1' in IH'. cbn [app] in IH'. injection IH' as -> ->.
    destruct (joined t t'); reflexivity.
Qed.
Lemma statements_app ts us :
  (forall ts0 t u us0, ts = ts0 ++ [t] -> us = u :: us0 -> joined t u = false) ->
  statements (ts ++ us) = statements ts ++ statements us.
Proof. intros H. unfold statements. rewrite chunks_app, filter_app, map_app by exact H. reflexivity. Qed.

Lemma shift_kind b t : tok_kind (shift_token b t) = tok_kind t.
Proof. reflexivity. Qed.
Lemma chunks_map f ts : (forall t u, joined (f t) (f u) = joined t u) -> chunks (map f ts) = map (map f) (chunks ts).
Proof.
  intros H. induction ts as [|t ts IH]; [reflexivity|]. cbn [map chunks]. rewrite IH.
  destruct (chunks ts) as [|[|u g] gs]; [reflexivity..|]. cbn [map]. rewrite H. destruct (joined t u); reflexivity.
Qed.
Lemma shift_joined b t u : joined (shift_token b t) (shift_token b u) = joined t u.
Proof.
  unfold joined. f_equal. f_equal. unfold tok_line, shift_token, shift_range, LexPropSpec.shift. cbn [tok_range r_start line].
  apply Bool.eq_iff_eq_true. rewrite !Z.eqb_eq. lia.
Qed.
Lemma statements_shift b ts : statements (map (shift_token b) ts) = map (map (shift_token b)) (statements ts).
Proof.
  unfold statements. rewrite chunks_map by apply shift_joined.
  rewrite (filter_map_gen (map (shift_token b)) _ (fun g => negb (existsb is_comma g))).
  - rewrite !map_map. apply map_ext. intros l. apply filter_map_gen. reflexivity.
  - intros l. f_equal. induction l as [|t l IH]; [reflexivity|]. cbn [map existsb]. rewrite IH. reflexivity.
Qed.
(** An empty first line does not matter. *)
Lemma empty_first_line ls : parse_logical ([] :: ls) = rest_result ls.
Proof. rewrite parse_logical_blk, blk_unfold. cbn [l_start fst]. rewrite root_continue. apply put_nil. Qed.
Lemma parse_statements ts : (forall ls, statements ts <> [] :: ls) -> parse ts = parse_logical (statements ts).
Proof.
  intros H. rewrite parse_logical_lines. unfold logical_lines. destruct ts as [|t ts]; [reflexivity|].
  destruct (is_comma t); [|reflexivity]. rewrite empty_first_line.
  destruct (statements (t :: ts)) as [|[|u l] ls]; [reflexivity| |reflexivity]. exfalso. apply (H ls eq_refl).
Qed.

(** ** Sources *)
Lemma tokens_lines ps : forall before t, In t (tokens_after before ps) ->
  (tok_line t <= line (pos_after (before ++ ps)))%Z.
Proof.
  assert (HM : forall a b, (line (pos_after a) <= line (pos_after (a ++ b)))%Z).
  { intros a b. unfold pos_after. cbn [line]. rewrite filter_app, app_length. lia. }
  induction ps as [|x ps IH]; intros before t H; [destruct H|].
  replace (before ++ x :: ps) with ((before ++ [x]) ++ ps) by (rewrite <- app_assoc; reflexivity).
  destruct x as [c|raw ty]; cbn [tokens_after] in H; [apply IH, H|].
  destruct H as [<-|H]; [|apply IH, H]. cbn [tok_line tok_range r_start]. unfold tok_line. cbn [tok_range r_start].
  rewrite <- app_assoc. apply HM.
Qed.

Lemma first_lines code us : tokenize code = LexOk us -> Forall (fun t => 1 <= tok_line t)%Z us.
Proof.
  intros E. apply tokenize_ok_iff in E as (ps & HL & ->). apply Forall_forall. intros t H.
  assert (HG : forall before, In t (tokens_after before ps) -> (1 <= tok_line t)%Z).
  { clear. induction ps as [|x ps IH]; intros before H; [destruct H|].
    destruct x as [c|raw ty]; cbn [tokens_after] in H; [apply (IH _ H)|].
    destruct H as [<-|H]; [|apply (IH _ H)]. unfold tok_line, pos_after. cbn [tok_range r_start line]. lia. }
  exact (HG [] H).
Qed.

Lemma prefix_lines (code0 : str) ts : tokenize (code0 ++ [newline]) = LexOk ts ->
  Forall (fun t => bytes (end_of t) <= Z.of_nat (byte_len code0))%Z ts ->
  Forall (fun t => tok_line t < line (pos_at ts (code0 ++ [newline])))%Z ts.
Proof.
  intros E HF. apply tokenize_ok_iff in E as (ps & HL & ->).
  pose proof (LexesTo_wf _ _ _ HL) as Hwf. pose proof (LexesTo_text _ _ _ HL) as Ht.
  rewrite app_nil_r in Ht. symmetry in Ht.
  assert (Hws : ws newline) by (unfold ws, newline; lia).
  destruct (last_gap_split _ _ _ Hwf Ht Hws HF) as (ps0 & -> & Ht0).
  rewrite <- Ht. pose proof (pos_after_at (ps0 ++ [Gap newline]) []) as HB. rewrite app_nil_r in HB.
  rewrite <- HB by exact Hwf.
  rewrite tokens_after_app. cbn [tokens_after]. rewrite app_nil_r. apply Forall_forall. intros t H.
  apply (tokens_lines ps0 [] t) in H. cbn [app] in H. unfold pos_after in *. cbn [line] in *.
  rewrite filter_app, app_length. cbn [filter is_break]. rewrite N.eqb_refl. cbn [length]. lia.
Qed.

Theorem sources_joined (code0 more : str) ts ns :
  tokenize (code0 ++ [newline]) = LexOk ts ->
  Forall (fun t => bytes (end_of t) <= Z.of_nat (byte_len code0))%Z ts ->
  (forall ts0 t, ts = ts0 ++ [t] -> is_ellipsis t = false) ->
  Forall (fun l => l <> []) (statements ts) ->
  tokenize_and_parse (code0 ++ [newline]) = ApiOk (ASTBlock ns) ->
  forallb node_clean ns = true ->
  (forall ns0 n, ns = ns0 ++ [n] -> ~ swallows n) ->
  (forall us ls, tokenize more = LexOk us -> statements us <> [] :: ls) ->
  tokenize_and_parse (code0 ++ newline :: more) =
  then_result ns (pos_at ts (code0 ++ [newline])) (tokenize_and_parse more).
Proof.
  intros E HF HE HL HP HC HS HM.
  pose proof (tokenize_compositional code0 newline more ts (or_intror eq_refl) E HF) as ET.
  pose proof (prefix_lines code0 ts E HF) as HPL.
  set (b := pos_at ts (code0 ++ [newline])) in *.
  unfold tokenize_and_parse in HP |- *. rewrite E in HP. rewrite ET.
  destruct (tokenize more) as [us|[rg]| |] eqn:EM; cbn [shift_result then_result]; try reflexivity.
  assert (HT : forall ls, statements ts <> [] :: ls) by (intros ls E0; rewrite E0 in HL; inversion HL; contradiction).
  assert (HU : forall ls, statements us <> [] :: ls) by (intros ls; apply HM; reflexivity).
  assert (HP' : parse_logical (statements ts) = ParseOk (ASTBlock ns)).
  { rewrite <- (parse_statements ts HT). destruct (parse ts) as [b0| |]; congruence. }
  pose proof (closed_lines _ _ HL HP' HC HS) as HD.
  assert (EL : statements (ts ++ map (shift_token b) us) = statements ts ++ map (map (shift_token b)) (statements us)).
  { rewrite <- statements_shift. apply statements_app.
    intros ts0 t u us0 E1 E2. destruct us as [|v us]; [discriminate|]. cbn [map] in E2. injection E2 as <- _.
    unfold joined. rewrite (HE _ _ E1).
    assert (Hlt : (tok_line t < line b)%Z).
    { rewrite Forall_forall in HPL. apply HPL. rewrite E1. apply in_or_app. right. left. reflexivity. }
    pose proof (first_lines _ _ EM) as HV. inversion HV as [|? ? HV1 _]; subst.
    assert (Hne : (tok_line t =? tok_line (shift_token b v))%Z = false).
    { apply Z.eqb_neq. unfold tok_line in *. unfold shift_token, shift_range, LexPropSpec.shift.
      cbn [tok_range r_start line]. lia. }
    rewrite Hne. cbn [orb]. apply Bool.andb_false_r. }
  assert (HR : parse_logical (statements ts ++ map (map (shift_token b)) (statements us)) =
               put ns (map_result (shift_token b) (parse_logical (statements us)))).
  { rewrite <- (parse_logical_map _ (shift_kind b)).
    destruct (statements ts) as [|l ls] eqn:EL'.
    - inversion HD; subst; [|destruct (d_stmt_first _ _ ltac:(eassumption)) as (? & ? & ? & -> & _); discriminate].
      cbn [app]. rewrite put_nil. reflexivity.
    - rewrite <- EL' in *. rewrite (stmts_prefix _ _ HD) by (rewrite EL'; discriminate). f_equal.
      destruct (statements us) as [|[|v l'] ls'] eqn:EU; [reflexivity| |reflexivity].
      exfalso. apply (HU ls' eq_refl). }
  rewrite (parse_statements us HU). rewrite (parse_statements (ts ++ map (shift_token b) us)), EL, HR.
  - destruct (parse_logical (statements us)) as [[ms]|c|]; reflexivity.
  - intros ls. rewrite EL. intros E0. destruct (statements ts) as [|l' ls'] eqn:ETS.
    + destruct (statements us) as [|[|v l'] ls'] eqn:EU; try discriminate E0. apply (HU ls' eq_refl).
    + injection E0 as -> _. apply (HT ls' eq_refl).
Qed.
