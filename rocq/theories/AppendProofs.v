(** Lemmas behind PropAppend.v. *)
From Coq Require Import Lia.
From Verif Require Import Lines LinesSim ParseFuel Free Grammar Failure Recovery RecoverySound RecoveryComplete RecoveryProps
  ParserProps Prefix AppendSpec Lexer Api LexSpec LexProofs LexPropSpec LexProps LexProps2 Relabel RelabelProofs EqProps SourceLines Clean SourceJoin LinesImage
  ProgGrammar ProgComplete.

Lemma stmt_iff t c ls o : stmt t (c, ls) = as_res o <-> r_stmt (t :: c) ls o.
Proof.
  split.
  - intros H. destruct (stmt_out t c ls) as (o' & E & Ho). rewrite E in H. apply as_res_inj in H. congruence.
  - intros H. apply (proj1 RecoveryComplete.complete_mut) in H. exact (H _ _ eq_refl).
Qed.

Lemma rest_cons t c ls : rest_result ((t :: c) :: ls) =
  match stmt t (c, ls) with
  | ROk n s => put (n :: too_many (fst s)) (rest_result (snd s))
  | RErr e s => put (NASTError e :: too_many (fst s)) (rest_result (snd s))
  | RPanic k => ParsePanic k
  | RFuel => ParseFuel
  end.
Proof. cbn [rest_result]. apply parse_logical_unfold. Qed.

(** What the lines [ls] decide; [l] is the line of the test. *)
Inductive fate (l : list token) (ls : list (list token)) : Prop :=
| fate_panic c : (forall m, rest_result (ls ++ m) = ParsePanic c) -> fate l ls
| fate_closed ns : (forall m, rest_result (ls ++ m) = put ns (rest_result m)) -> fate l ls
| fate_ended ns : (forall m, rest_result (ls ++ m) = ParseOk (ASTBlock ns)) -> fate l ls
| fate_open cs x : rest_result ls = ParseOk (ASTBlock (cs ++ [x])) ->
    (forall m, exists r, rest_result (ls ++ m) = put cs r) ->
    (forall y, ~ is_error y -> rest_result (ls ++ [l]) <> ParseOk (ASTBlock (cs ++ [x; y]))) -> fate l ls.

Lemma fate_after l ls ls' a : (forall m, rest_result (ls ++ m) = put a (rest_result (ls' ++ m))) -> fate l ls' -> fate l ls.
Proof.
  intros H [c Hc|ns Hn|ns Hn|cs x H1 H2 H3].
  - apply (fate_panic _ _ c). intros m. rewrite H, Hc. reflexivity.
  - apply (fate_closed _ _ (a ++ ns)). intros m. rewrite H, Hn, put_put. reflexivity.
  - apply (fate_ended _ _ (a ++ ns)). intros m. rewrite H, Hn. reflexivity.
  - apply (fate_open _ _ (a ++ cs) x).
    + specialize (H []). rewrite !app_nil_r in H. rewrite H, H1. cbn. rewrite app_assoc. reflexivity.
    + intros m. destruct (H2 m) as (r & Hr). exists r. rewrite H, Hr, put_put. reflexivity.
    + intros y Hy. rewrite H. intros E. apply (H3 y Hy).
      destruct (rest_result (ls' ++ [l])) as [[ms]| |]; try discriminate. cbn in E. injection E as E.
      rewrite <- app_assoc in E. apply app_inv_head in E. rewrite E. reflexivity.
Qed.

Lemma fate_total l ls : fate l ls.
Proof.
  remember (length ls) as n eqn:En. assert (Hn : length ls <= n) by lia. clear En. revert ls Hn.
  induction n as [|n IH]; intros ls Hn.
  { destruct ls; [|cbn in Hn; lia]. apply (fate_closed _ _ []). intros m. rewrite put_nil. reflexivity. }
  destruct ls as [|[|t c] ls].
  { apply (fate_closed _ _ []). intros m. rewrite put_nil. reflexivity. }
  { apply (fate_ended _ _ []). intros m. reflexivity. }
  cbn [length] in Hn.
  assert (HI : forall o, (forall m', r_stmt (t :: c) (ls ++ m') (Prefix.ext m' o)) -> fate l ((t :: c) :: ls)).
  { intros o HO. pose proof (proj1 shrinks_mut _ _ _ (HO [])) as HS. rewrite app_nil_r in HS.
    destruct o as [n0 [r ls']|e [r ls']|k]; cbn [Prefix.ext extp fst snd shrinks] in HO, HS.
    - apply (fate_after l _ ls' (n0 :: too_many r)); [|apply IH; cbn in HS; rewrite app_nil_r in HS; lia].
      intros m. cbn [app]. rewrite rest_cons. specialize (HO m). apply stmt_iff in HO. rewrite HO. reflexivity.
    - apply (fate_after l _ ls' (NASTError e :: too_many r)); [|apply IH; cbn in HS; rewrite app_nil_r in HS; lia].
      intros m. cbn [app]. rewrite rest_cons. specialize (HO m). apply stmt_iff in HO. rewrite HO. reflexivity.
    - apply (fate_panic _ _ k). intros m. cbn [app]. rewrite rest_cons. specialize (HO m). apply stmt_iff in HO. rewrite HO. reflexivity. }
  destruct (stmt_out t c (ls ++ [l])) as (o & Eo & Ho).
  destruct (proj1 local_mut _ _ _ Ho ls [l] eq_refl) as [(o' & _ & H')|HP]; [exact (HI o' H')|].
  destruct (stmt_out t c ls) as (o2 & Eo2 & Ho2).
  destruct (proj1 local_mut _ _ _ Ho2 ls [] (eq_sym (app_nil_r ls))) as [(o' & _ & H')|HP2]; [exact (HI o' H')|].
  assert (EX : exists x, rest_result ((t :: c) :: ls) = ParseOk (ASTBlock [x])).
  { rewrite rest_cons, Eo2. destruct o2 as [n0 p|e p|k]; cbn [passed as_res] in *.
    - destruct HP2 as [(_ & ->)|HP2]; [|cbn in HP2; lia]. exists n0. reflexivity.
    - destruct HP2 as [(_ & ->)|HP2]; [|cbn in HP2; lia]. exists (NASTError e). reflexivity.
    - destruct (HP2 eq_refl). }
  destruct EX as (x & EX). apply (fate_open _ _ [] x); [exact EX|intros m; eexists; symmetry; apply put_nil|].
  intros y Hy. cbn [app]. rewrite rest_cons, Eo.
  assert (HT : forall a r, put (a :: too_many r) (rest_result []) <> ParseOk (ASTBlock [x; y])).
  { intros a r E. cbn in E. destruct r as [|u r]; cbn in E; [discriminate|]. injection E as _ E. apply Hy. eexists. symmetry. exact E. }
  destruct o as [n0 [r ls']|e [r ls']|k]; cbn [passed as_res fst snd] in *; [| |discriminate].
  - destruct HP as [(E & _)|HP]; [discriminate|]. destruct ls'; [|cbn in HP; lia]. apply HT.
  - destruct HP as [(E & _)|HP]; [discriminate|]. destruct ls'; [|cbn in HP; lia]. apply HT.
Qed.

(** ** Programs *)
(** The result of lines followed by others. *)
Lemma logical_rest ls : ls <> [] -> exists ls', forall m, parse_logical (ls ++ m) = rest_result (ls' ++ m).
Proof.
  destruct ls as [|[|t c] ls]; [contradiction| |].
  - intros _. exists ls. intros m. cbn [app]. rewrite parse_logical_blk, blk_unfold. cbn [l_start fst]. rewrite root_continue. apply put_nil.
  - intros _. exists ((t :: c) :: ls). reflexivity.
Qed.
Lemma nonempty_rest m : (forall ls, m <> [] :: ls) -> rest_result m = parse_logical m.
Proof. destruct m as [|[|t c] m]; intros H; [reflexivity| |reflexivity]. destruct (H m eq_refl). Qed.

Lemma panic_lines ls c m : parse_logical ls = ParsePanic c -> parse_logical (ls ++ m) = ParsePanic c.
Proof.
  intros H. destruct ls as [|l0 ls0] eqn:E; [discriminate|]. rewrite <- E in *.
  destruct (logical_rest ls) as (ls' & HL); [rewrite E; discriminate|].
  pose proof (HL []) as H0. rewrite !app_nil_r, H in H0. rewrite HL.
  destruct (fate_total [] ls') as [d Hd|ns Hn|ns Hn|cs x H1 H2 H3].
  - specialize (Hd []) as Hd0. rewrite app_nil_r in Hd0. rewrite Hd. congruence.
  - specialize (Hn []). rewrite app_nil_r in Hn. rewrite Hn in H0. discriminate.
  - specialize (Hn []). rewrite app_nil_r in Hn. rewrite Hn in H0. discriminate.
  - rewrite H1 in H0. discriminate.
Qed.

Lemma fates_lines ls l ns : parse_logical ls = ParseOk (ASTBlock ns) ->
  (forall m, (forall m', m <> [] :: m') -> parse_logical (ls ++ m) = put ns (parse_logical m)) \/
  (forall m, parse_logical (ls ++ m) = ParseOk (ASTBlock ns)) \/
  exists cs x, ns = cs ++ [x] /\ (forall m, exists r, parse_logical (ls ++ m) = put cs r) /\
    (forall y, ~ is_error y -> parse_logical (ls ++ [l]) <> ParseOk (ASTBlock (ns ++ [y]))).
Proof.
  intros H. destruct ls as [|l0 ls0] eqn:E.
  { left. intros m _. cbv in H. injection H as <-. rewrite put_nil. reflexivity. }
  rewrite <- E in *. destruct (logical_rest ls) as (ls' & HL); [rewrite E; discriminate|].
  pose proof (HL []) as H0. rewrite !app_nil_r, H in H0.
  destruct (fate_total l ls') as [d Hd|ns' Hn|ns' Hn|cs x H1 H2 H3].
  - specialize (Hd []). rewrite app_nil_r in Hd. congruence.
  - left. pose proof (Hn []) as Hn0. rewrite app_nil_r, <- H0 in Hn0. cbn in Hn0. rewrite app_nil_r in Hn0. injection Hn0 as ->.
    intros m HS. rewrite HL, Hn. f_equal. apply nonempty_rest, HS.
  - right; left. pose proof (Hn []) as Hn0. rewrite app_nil_r, <- H0 in Hn0. injection Hn0 as ->.
    intros m. rewrite HL. apply Hn.
  - right; right. rewrite H1 in H0. injection H0 as ->. exists cs, x. split; [reflexivity|]. split.
    + intros m. rewrite HL. apply H2.
    + intros y Hy. rewrite HL, <- app_assoc. apply H3, Hy.
Qed.
Lemma test_lines ls l ns y : parse_logical ls = ParseOk (ASTBlock ns) ->
  parse_logical (ls ++ [l]) = ParseOk (ASTBlock (ns ++ [y])) -> ~ is_error y ->
  forall m, (forall m', m <> [] :: m') -> parse_logical (ls ++ m) = put ns (parse_logical m).
Proof.
  intros H Hp Hy. destruct (fates_lines ls l ns H) as [HC|[HE|(cs & x & _ & _ & HO)]]; [exact HC| |].
  - specialize (HE [l]). rewrite Hp in HE. injection HE as HE. apply (f_equal (@length _)) in HE.
    rewrite app_length in HE. cbn in HE. lia.
  - destruct (HO y Hy Hp).
Qed.

Lemma panics_persist ts1 ts2 ts c : parse ts1 = ParsePanic c -> followed_by ts1 ts2 ts -> parse ts = ParsePanic c.
Proof. rewrite !parse_logical_lines. intros H ->. apply panic_lines, H. Qed.
Lemma three_fates ts1 ns : parse ts1 = ParseOk (ASTBlock ns) -> closed_with ts1 ns \/ ended_with ts1 ns \/ open_with ts1 ns.
Proof.
  rewrite parse_logical_lines. intros H. destruct (fates_lines _ [] _ H) as [HC|[HE|(cs & x & -> & HO & _)]].
  - left. intros ts2 ts F HS. rewrite !parse_logical_lines, F. apply HC. intros m E. apply HS. exists m. exact E.
  - right; left. intros ts2 ts F. rewrite parse_logical_lines, F. apply HE.
  - right; right. exists cs, x. split; [reflexivity|]. intros ts2 ts F. rewrite parse_logical_lines, F. apply HO.
Qed.
Lemma test_line ts1 tl tp l ns y : parse ts1 = ParseOk (ASTBlock ns) -> logical_lines tl = [l] -> followed_by ts1 tl tp ->
  parse tp = ParseOk (ASTBlock (ns ++ [y])) -> ~ is_error y -> closed_with ts1 ns.
Proof.
  rewrite !parse_logical_lines. intros H El F Hp Hy ts2 ts F2 HS. rewrite F, El in Hp. rewrite !parse_logical_lines, F2.
  apply (test_lines _ l _ y H Hp Hy). intros m E. apply HS. exists m. exact E.
Qed.

(** ** Sources *)
Lemma lines_after ts us : ts <> [] -> (forall ts0 t u us0, ts = ts0 ++ [t] -> us = u :: us0 -> joined t u = false) ->
  logical_lines (ts ++ us) = logical_lines ts ++ statements us.
Proof.
  intros Hn Hj. destruct ts as [|t ts]; [contradiction|]. cbn [app logical_lines].
  change (t :: ts ++ us) with ((t :: ts) ++ us). rewrite (statements_app (t :: ts) us Hj). destruct (is_comma t); reflexivity.
Qed.
Lemma statements_fresh us : (forall ls, statements us <> [] :: ls) -> parse_logical (statements us) = parse us.
Proof. intros H. symmetry. apply parse_statements, H. Qed.

Lemma source_after (code0 more : str) ts us :
  tokenize (code0 ++ [newline]) = LexOk ts ->
  Forall (fun t => bytes (end_of t) <= Z.of_nat (byte_len code0))%Z ts ->
  (forall ts0 t, ts = ts0 ++ [t] -> is_ellipsis t = false) -> ts <> [] ->
  tokenize more = LexOk us ->
  let b := pos_at ts (code0 ++ [newline]) in
  tokenize (code0 ++ newline :: more) = LexOk (ts ++ map (shift_token b) us) /\
  logical_lines (ts ++ map (shift_token b) us) = logical_lines ts ++ map (map (shift_token b)) (statements us).
Proof.
  intros E HF HE Hn EM b. split.
  - rewrite (tokenize_compositional code0 newline more ts (or_intror eq_refl) E HF), EM. reflexivity.
  - rewrite <- statements_shift. apply lines_after; [exact Hn|].
    intros ts0 t u us0 E1 E2. destruct us as [|v us]; [discriminate|]. cbn [map] in E2. injection E2 as <- _.
    unfold joined. rewrite (HE _ _ E1). pose proof (prefix_lines code0 ts E HF) as HPL.
    assert (Hlt : (tok_line t < line b)%Z).
    { rewrite Forall_forall in HPL. apply HPL. rewrite E1. apply in_or_app. right. left. reflexivity. }
    pose proof (first_lines _ _ EM) as HV. inversion HV as [|? ? HV1 _]; subst.
    assert (Hne : (tok_line t =? tok_line (shift_token b v))%Z = false).
    { apply Z.eqb_neq. unfold tok_line in *. unfold shift_token, shift_range, LexPropSpec.shift.
      cbn [tok_range r_start line]. lia. }
    rewrite Hne. cbn [orb]. apply Bool.andb_false_r.
Qed.

Lemma gtfo_source : exists g, tokenize test_line_code = LexOk [g] /\ statements [g] = [[g]].
Proof. eexists. split; vm_compute; reflexivity. Qed.

Lemma test_source (code0 more : str) ts ns y :
  tokenize (code0 ++ [newline]) = LexOk ts ->
  Forall (fun t => bytes (end_of t) <= Z.of_nat (byte_len code0))%Z ts ->
  (forall ts0 t, ts = ts0 ++ [t] -> tok_type t <> TEllipsis) ->
  tokenize_and_parse (code0 ++ [newline]) = ApiOk (ASTBlock ns) ->
  tokenize_and_parse (code0 ++ newline :: test_line_code) = ApiOk (ASTBlock (ns ++ [y])) -> ~ is_error y ->
  (forall us ls, tokenize more = LexOk us -> statements us <> [] :: ls) ->
  tokenize_and_parse (code0 ++ newline :: more) =
  then_result ns (pos_at ts (code0 ++ [newline])) (tokenize_and_parse more).
Proof.
  intros E HF HE0 HP HG Hy HM.
  assert (HE : forall ts0 t, ts = ts0 ++ [t] -> is_ellipsis t = false).
  { intros ts0 t E1. specialize (HE0 _ _ E1). unfold is_ellipsis. destruct (tok_type t); try reflexivity. contradiction. }
  pose proof (tokenize_compositional code0 newline more ts (or_intror eq_refl) E HF) as ET.
  set (b := pos_at ts (code0 ++ [newline])) in *.
  unfold tokenize_and_parse in HP |- *. rewrite E in HP. rewrite ET.
  destruct (tokenize more) as [us|[rg]| |] eqn:EM; cbn [shift_result then_result]; try reflexivity.
  assert (HU : forall ls, statements us <> [] :: ls) by (intros ls; apply HM; reflexivity).
  assert (HP' : parse ts = ParseOk (ASTBlock ns)) by (destruct (parse ts) as [[b0]| |]; congruence).
  assert (HR : parse (ts ++ map (shift_token b) us) = put ns (map_result (shift_token b) (parse us))).
  { assert (Hts : ts = [] \/ ts <> []) by (destruct ts; [left; reflexivity|right; discriminate]).
    destruct Hts as [Ets|Hn].
    - rewrite Ets in HP' |- *. cbn [app]. change (parse []) with (ParseOk (ASTBlock [])) in HP'. injection HP' as <-. rewrite put_nil.
      assert (HU' : forall ls, statements (map (shift_token b) us) <> [] :: ls).
      { intros ls. rewrite statements_shift. destruct (statements us) as [|[|v l'] ls'] eqn:EU; try discriminate.
        destruct (HU ls' eq_refl). }
      rewrite <- !statements_fresh, statements_shift by assumption. apply parse_logical_map, shift_kind.
    - destruct gtfo_source as (g & Eg & EG1).
      destruct (source_after code0 more ts us E HF HE Hn EM) as (_ & EL).
      destruct (source_after code0 _ ts [g] E HF HE Hn Eg) as (EG & ELG). fold b in EL, EG, ELG.
      unfold tokenize_and_parse in HG. rewrite EG in HG.
      assert (HG' : parse (ts ++ map (shift_token b) [g]) = ParseOk (ASTBlock (ns ++ [y]))) by (revert HG; destruct (parse (ts ++ map (shift_token b) [g])) as [[b0]| |]; intros HG; congruence).
      rewrite parse_logical_lines in HP', HG' |- *. rewrite ELG in HG'. rewrite EL.
      rewrite EG1 in HG'. cbn [map] in HG'.
      rewrite (test_lines _ _ _ _ HP' HG' Hy).
      + rewrite (parse_logical_map _ (shift_kind b)), statements_fresh by exact HU. reflexivity.
      + intros m' Em. destruct (statements us) as [|[|v l'] ls'] eqn:EU; try discriminate. destruct (HU ls' eq_refl). }
  rewrite HR. destruct (parse us) as [[ms]|c|]; reflexivity.
Qed.

(** Panics of the parser. *)
Lemma panic_source (code0 more : str) ts us c :
  tokenize (code0 ++ [newline]) = LexOk ts ->
  Forall (fun t => bytes (end_of t) <= Z.of_nat (byte_len code0))%Z ts ->
  (forall ts0 t, ts = ts0 ++ [t] -> tok_type t <> TEllipsis) ->
  parse ts = ParsePanic c -> tokenize more = LexOk us ->
  tokenize_and_parse (code0 ++ newline :: more) = ApiPanic.
Proof.
  intros E HF HE0 HP EM.
  assert (HE : forall ts0 t, ts = ts0 ++ [t] -> is_ellipsis t = false).
  { intros ts0 t E1. specialize (HE0 _ _ E1). unfold is_ellipsis. destruct (tok_type t); try reflexivity. contradiction. }
  assert (Hn : ts <> []) by (intros ->; discriminate).
  destruct (source_after code0 more ts us E HF HE Hn EM) as (ET & EL).
  unfold tokenize_and_parse. rewrite ET. rewrite parse_logical_lines in HP |- *. rewrite EL, (panic_lines _ _ _ HP). reflexivity.
Qed.

(** *** Only the last node can change *)
Lemma last_lines ls m ns ns' : parse_logical ls = ParseOk (ASTBlock ns) -> parse_logical (ls ++ m) = ParseOk (ASTBlock ns') ->
  exists cs tl tl', ns = cs ++ tl /\ ns' = cs ++ tl' /\ length tl <= 1.
Proof.
  intros H H'. destruct ls as [|l0 ls0] eqn:E.
  { cbv in H. injection H as <-. exists [], [], ns'. auto. }
  rewrite <- E in *. destruct (logical_rest ls) as (ls' & HL); [rewrite E; discriminate|].
  pose proof (HL []) as H0. rewrite !app_nil_r, H in H0. rewrite HL in H'.
  destruct (fate_total [] ls') as [d Hd|ns0 Hn|ns0 Hn|cs x H1 H2 H3].
  - specialize (Hd []). rewrite app_nil_r in Hd. congruence.
  - pose proof (Hn []) as Hn0. rewrite app_nil_r, <- H0 in Hn0. cbn in Hn0. rewrite app_nil_r in Hn0. injection Hn0 as ->.
    rewrite Hn in H'. destruct (rest_result m) as [[ms]| |]; try discriminate. injection H' as <-.
    exists ns0, [], ms. rewrite app_nil_r. auto.
  - pose proof (Hn []) as Hn0. rewrite app_nil_r, <- H0 in Hn0. injection Hn0 as ->.
    rewrite Hn in H'. injection H' as <-. exists ns0, [], []. rewrite app_nil_r. auto.
  - rewrite H1 in H0. injection H0 as ->. destruct (H2 m) as (r & Hr). rewrite Hr in H'.
    destruct r as [[ms]| |]; try discriminate. injection H' as <-. exists cs, [x], ms. auto.
Qed.
Lemma last_node ts1 ts2 ts ns ns' : parse ts1 = ParseOk (ASTBlock ns) -> followed_by ts1 ts2 ts ->
  parse ts = ParseOk (ASTBlock ns') -> exists cs tl tl', ns = cs ++ tl /\ ns' = cs ++ tl' /\ length tl <= 1.
Proof. rewrite !parse_logical_lines. intros H ->. apply last_lines, H. Qed.

(** *** The test with GTFO is exact *)
Lemma gtfo_lines g : kw GTFO g -> logical_lines [g] = [[g]].
Proof.
  intros H. unfold kw in H. unfold logical_lines, statements. cbn [chunks filter existsb map].
  unfold is_comma, is_ellipsis. rewrite !H. cbn. rewrite H. reflexivity.
Qed.
Lemma gtfo_parse g : kw GTFO g -> parse [g] = ParseOk (ASTBlock [NGtfo (mkGtfo g)]).
Proof.
  intros H. rewrite parse_logical_lines, (gtfo_lines g H), parse_logical_unfold.
  assert (HS : stmt g ([], []) = as_res (Done (NGtfo (mkGtfo g)) ([], []))).
  { apply stmt_iff, r_reads. exists [g]. repeat split.
    - constructor. exact H.
    - intros (_ & t & c & E & _). discriminate. }
  rewrite HS. reflexivity.
Qed.
Lemma test_exact ts1 ns g tp : parse ts1 = ParseOk (ASTBlock ns) -> kw GTFO g -> followed_by ts1 [g] tp ->
  (closed_with ts1 ns <-> parse tp = ParseOk (ASTBlock (ns ++ [NGtfo (mkGtfo g)]))).
Proof.
  intros H Hg F. split.
  - intros HC. rewrite (HC _ _ F).
    + rewrite (gtfo_parse g Hg). reflexivity.
    + intros (ls & E). rewrite (gtfo_lines g Hg) in E. discriminate.
  - intros Hp. apply (test_line ts1 [g] tp [g] ns (NGtfo (mkGtfo g))); auto using gtfo_lines. intros (e & E). discriminate.
Qed.

(** *** Closed programs *)
Lemma closed_app ts1 ts2 ts ns1 ns2 : closed_with ts1 ns1 -> closed_with ts2 ns2 -> logical_lines ts2 <> [] -> ~ starts_empty ts2 ->
  followed_by ts1 ts2 ts -> closed_with ts (ns1 ++ ns2).
Proof.
  intros H1 H2 Hn Hs F ts3 ts4 F4 Hs3. unfold followed_by in *.
  assert (HI : exists ts23, logical_lines ts23 = logical_lines ts2 ++ logical_lines ts3).
  { apply lines_image, Forall_app. split; apply lines_image; eexists; reflexivity. }
  destruct HI as (ts23 & E23).
  rewrite (H1 ts23 ts4).
  - rewrite (H2 ts3 ts23 E23 Hs3). change nodes_before with put. apply put_put.
  - unfold followed_by. rewrite F4, F, E23, app_assoc. reflexivity.
  - intros (ls & E). rewrite E23 in E. apply Hs. destruct (logical_lines ts2) as [|l ls2] eqn:E2; [contradiction|].
    injection E as -> _. exists ls2. exact E2.
Qed.
(** Error-free programs whose last statement does not take the next line. *)
Lemma clean_closed ts ns : parse ts = ParseOk (ASTBlock ns) -> Forall (fun l => l <> []) (statements ts) ->
  forallb node_clean ns = true -> (forall ns0 n, ns = ns0 ++ [n] -> ~ swallows n) -> closed_with ts ns.
Proof.
  intros HP HL HC HS ts2 ts3 F Hs2.
  assert (HT : forall ls, statements ts <> [] :: ls) by (intros ls E0; rewrite E0 in HL; inversion HL; contradiction).
  pose proof HP as HP1. rewrite (parse_statements ts HT) in HP1. pose proof (closed_lines _ _ HL HP1 HC HS) as HD.
  rewrite parse_logical_lines in HP. rewrite !parse_logical_lines, F.
  assert (EL : parse_logical (logical_lines ts ++ logical_lines ts2) = parse_logical (statements ts ++ logical_lines ts2)).
  { unfold logical_lines at 1 2. destruct ts as [|t ts]; [reflexivity|]. destruct (is_comma t); [|reflexivity].
    cbn [app]. rewrite empty_first_line. apply nonempty_rest. intros ls E. destruct (statements (t :: ts)) as [|[|u l] ls'].
    - cbn [app] in E. apply Hs2. exists ls. exact E.
    - destruct (HT ls' eq_refl).
    - discriminate. }
  rewrite EL. destruct (statements ts) as [|l ls] eqn:E.
  - inversion HD; subst; [|destruct (d_stmt_first _ _ ltac:(eassumption)) as (? & ? & ? & -> & _); discriminate].
    cbn [app]. change nodes_before with put. rewrite put_nil. reflexivity.
  - rewrite (stmts_prefix _ _ HD) by discriminate. change nodes_before with put. f_equal. apply nonempty_rest.
    intros m E2. apply Hs2. exists m. exact E2.
Qed.
