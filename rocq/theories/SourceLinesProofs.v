(** The logical lines of the tokens of a source are the statements of its text. *)
From Verif Require Import StrFacts Lexer LexSpec LexBasics LexProofs LexProps Lines LinesSim ParseFuel Recovery RecoveryProps SourceLines.
Local Open Scope Z_scope.

Definition groups (b : bool) (ms : list mark) : list (list token) := filter nonempty (cut (continued b ms)).
Definition plain_chunks (ts : list token) : list (list token) :=
  filter (fun g => negb (existsb is_comma g)) (chunks ts).

Lemma cut_cons ms : exists l ls, cut ms = l :: ls.
Proof. destruct ms as [|[t|] ms]; cbn [cut]; eauto. destruct (is_comma t); eauto. destruct (cut ms); eauto. Qed.

Lemma groups_newline b ms : groups b (NewLine :: ms) = groups b ms.
Proof. unfold groups. cbn [continued]. destruct b; reflexivity. Qed.
Lemma groups_newlines b k ms : groups b (repeat NewLine k ++ ms) = groups b ms.
Proof. induction k; [reflexivity|]. cbn [repeat app]. rewrite groups_newline. assumption. Qed.
Lemma groups_word b b' t ms : groups b (Word t :: ms) = groups b' (Word t :: ms).
Proof. reflexivity. Qed.

Lemma next_word before ps :
  exists k, (marks before ps = repeat NewLine k /\ tokens_after before ps = []) \/
  exists u ms ts, marks before ps = repeat NewLine k ++ Word u :: ms /\ tokens_after before ps = u :: ts /\
    tok_line u = 1 + Z.of_nat (length (filter is_break before)) + Z.of_nat k.
Proof.
  revert before. induction ps as [|[c|raw ty] ps IH]; intros before.
  - exists 0%nat. left. split; reflexivity.
  - destruct (IH (before ++ [Gap c])) as (k & [[E1 E2]|(u & ms & ts & E1 & E2 & E3)]).
    + exists ((if N.eqb c newline then 1 else 0) + k)%nat. left. cbn [marks tokens_after]. rewrite E1, E2.
      destruct (N.eqb c newline); split; reflexivity.
    + exists ((if N.eqb c newline then 1 else 0) + k)%nat. right. exists u, ms, ts. cbn [marks tokens_after].
      rewrite E1, E2, E3, filter_app, app_length. cbn [filter is_break].
      destruct (N.eqb c newline); cbn [length repeat app Nat.add]; (split; [reflexivity|split; [reflexivity|lia]]).
  - exists 0%nat. right. do 3 eexists. cbn [marks tokens_after repeat app]. repeat split. cbn. lia.
Qed.

Lemma chunks_cons t u ts : exists g gs, chunks (t :: ts) = (t :: g) :: gs /\
  (chunks (u :: t :: ts) = if joined u t then (u :: t :: g) :: gs else [u] :: (t :: g) :: gs).
Proof.
  cbn [chunks]. destruct (chunks ts) as [|[|v g] gs]; [do 2 eexists; split; reflexivity..|].
  destruct (joined t v); do 2 eexists; split; reflexivity.
Qed.

Lemma plain_comma t ts : is_comma t = true -> plain_chunks (t :: ts) = plain_chunks ts.
Proof.
  intros H. unfold plain_chunks. destruct ts as [|u ts]; [cbn; rewrite H; reflexivity|].
  destruct (chunks_cons u t ts) as (g & gs & E1 & E2). rewrite E2.
  unfold joined. rewrite H. cbn [negb andb]. rewrite E1. cbn [filter existsb]. rewrite H. reflexivity.
Qed.
Lemma plain_one t : is_comma t = false -> plain_chunks [t] = [[t]].
Proof. intros H. unfold plain_chunks. cbn. rewrite H. reflexivity. Qed.
Lemma plain_join t u ts : joined t u = true ->
  exists g gs, plain_chunks (u :: ts) = (u :: g) :: gs /\ plain_chunks (t :: u :: ts) = (t :: u :: g) :: gs.
Proof.
  intros H. destruct (chunks_cons u t ts) as (g & gs & E1 & E2). unfold plain_chunks. rewrite E2, E1, H.
  assert (Hc : forall ws v g gs, chunks ws = (v :: g) :: gs -> is_comma v = false -> existsb is_comma g = false).
  { clear. induction ws as [|w ws IH]; intros v g gs E Hv; [discriminate|].
    destruct ws as [|x ws]; [cbn in E; injection E as <- <- <-; reflexivity|].
    destruct (chunks_cons x w ws) as (g' & gs' & E1 & E2). rewrite E2 in E.
    destruct (joined w x) eqn:J; injection E as <- <- <-; [|reflexivity].
    cbn [existsb]. unfold joined in J. apply andb_true_iff in J as [J _]. apply andb_true_iff in J as [_ J].
    apply negb_true_iff in J. rewrite J. exact (IH _ _ _ E1 J). }
  unfold joined in H. apply andb_true_iff in H as [H _]. apply andb_true_iff in H as [H1 H2].
  apply negb_true_iff in H1, H2. specialize (Hc _ _ _ _ E1 H2).
  cbn [filter existsb]. rewrite H1, H2, Hc. cbn. eauto.
Qed.
Lemma plain_split t u ts : is_comma t = false -> joined t u = false ->
  plain_chunks (t :: u :: ts) = [t] :: plain_chunks (u :: ts).
Proof.
  intros H J. destruct (chunks_cons u t ts) as (g & gs & E1 & E2). unfold plain_chunks. rewrite E2, E1, J.
  cbn [filter existsb]. rewrite H. reflexivity.
Qed.

Lemma groups_comma b t ms : is_comma t = true -> groups b (Word t :: ms) = groups false ms.
Proof.
  intros H. unfold groups. cbn [continued cut]. rewrite H. cbn [filter nonempty].
  assert (is_ellipsis t = false) as ->; [|reflexivity].
  unfold is_comma in H. unfold is_ellipsis. destruct (tok_type t); (reflexivity || discriminate).
Qed.
Lemma groups_end b t k : is_comma t = false -> groups b (Word t :: repeat NewLine k) = [[t]].
Proof.
  intros H. unfold groups. cbn [continued cut]. rewrite H.
  assert (G : forall b, exists j, continued b (repeat NewLine k) = repeat NewLine j /\ cut (repeat NewLine j) = repeat [] (S j)).
  { clear. intros b. assert (C : forall j, cut (repeat NewLine j) = repeat [] (S j)).
    { induction j; [reflexivity|]. cbn [repeat cut]. rewrite IHj. reflexivity. }
    induction k; [exists 0%nat; split; [reflexivity|apply C]|]. destruct IHk as (j & E & _). cbn [repeat continued].
    destruct b; [exists j|exists (S j)]; rewrite E; split; (reflexivity || exact (C _)). }
  destruct (G (is_ellipsis t)) as (j & -> & ->). cbn [repeat filter nonempty].
  f_equal. clear. induction j; [reflexivity|exact IHj].
Qed.
Lemma groups_join b t u ms : is_comma t = false -> is_comma u = false ->
  exists g gs, groups (is_ellipsis t) (Word u :: ms) = (u :: g) :: gs /\
               groups b (Word t :: Word u :: ms) = (t :: u :: g) :: gs.
Proof.
  intros H H'. unfold groups. cbn [continued cut]. rewrite H, H'.
  destruct (cut_cons (continued (is_ellipsis u) ms)) as (l & ls & ->). cbn. eauto.
Qed.
Lemma groups_join_ellipsis b t k u ms : is_ellipsis t = true -> is_comma u = false ->
  exists g gs, groups true (Word u :: ms) = (u :: g) :: gs /\
               groups b (Word t :: repeat NewLine k ++ Word u :: ms) = (t :: u :: g) :: gs.
Proof.
  intros H H'. assert (Hc : is_comma t = false).
  { unfold is_ellipsis in H. unfold is_comma. destruct (tok_type t); (reflexivity || discriminate). }
  destruct (groups_join b t u ms Hc H') as (g & gs & E1 & E2). rewrite H in E1. exists g, gs. split; [exact E1|].
  rewrite <- E2. unfold groups. cbn [continued]. rewrite H. f_equal. f_equal. f_equal. clear.
  induction k; [reflexivity|exact IHk].
Qed.
Lemma groups_split_newline b t k ms : is_comma t = false -> is_ellipsis t = false ->
  groups b (Word t :: repeat NewLine (S k) ++ ms) = [t] :: groups false ms.
Proof.
  intros H H'. unfold groups at 1. cbn [continued repeat app cut]. rewrite H, H'.
  cbn [cut filter nonempty]. f_equal. apply groups_newlines.
Qed.
Lemma groups_split_comma b t k u ms : is_comma t = false -> is_comma u = true ->
  groups b (Word t :: repeat NewLine k ++ Word u :: ms) = [t] :: groups false (Word u :: ms).
Proof.
  intros H H'. destruct (is_ellipsis t) eqn:El.
  - unfold groups. cbn [continued]. rewrite El.
    assert (E : continued true (repeat NewLine k ++ Word u :: ms) = continued true (Word u :: ms)) by (clear; induction k; [reflexivity|exact IHk]).
    rewrite E. cbn [continued cut]. rewrite H, H'. reflexivity.
  - destruct k; [|apply groups_split_newline; assumption].
    unfold groups. cbn [continued repeat app cut]. rewrite H, H'. reflexivity.
Qed.

Lemma plain_groups ps : forall before, plain_chunks (tokens_after before ps) = groups false (marks before ps).
Proof.
  induction ps as [|[c|raw ty] ps IH]; intros before; [reflexivity| |].
  - cbn [tokens_after marks]. rewrite IH. destruct (N.eqb c newline); [|reflexivity].
    cbn [app]. rewrite groups_newline. reflexivity.
  - cbn [tokens_after marks]. set (t := {| tok_type := ty; tok_range := _ |}).
    specialize (IH (before ++ [Tok raw ty])).
    assert (Lt : tok_line t = 1 + Z.of_nat (length (filter is_break before))) by reflexivity.
    destruct (is_comma t) eqn:C; [rewrite plain_comma, groups_comma by assumption; exact IH|].
    destruct (next_word (before ++ [Tok raw ty]) ps) as (k & [[E1 E2]|(u & ms & ts & E1 & E2 & E3)]); rewrite E1, E2 in *.
    + rewrite groups_end by assumption. apply plain_one, C.
    + rewrite filter_app, app_length in E3. cbn [filter is_break length] in E3. rewrite groups_newlines in IH.
      destruct (is_comma u) eqn:Cu.
      { rewrite plain_split, groups_split_comma, IH; auto. unfold joined. rewrite Cu. destruct (is_comma t); reflexivity. }
      destruct (is_ellipsis t) eqn:El.
      { destruct (groups_join_ellipsis false t k u ms El Cu) as (g & gs & G1 & ->).
        rewrite (groups_word _ false) in G1.
        destruct (plain_join t u ts) as (g' & gs' & P1 & ->); [unfold joined; rewrite C, Cu, El; reflexivity|].
        congruence. }
      destruct k as [|k].
      * cbn [repeat app]. destruct (groups_join false t u ms C Cu) as (g & gs & G1 & ->). rewrite (groups_word _ false) in G1.
        destruct (plain_join t u ts) as (g' & gs' & P1 & ->); [|congruence].
        unfold joined. rewrite C, Cu, El. cbn [negb andb orb]. apply Z.eqb_eq. lia.
      * rewrite groups_split_newline, plain_split, IH; auto. unfold joined. rewrite C, Cu, El. cbn [negb andb orb]. apply Z.eqb_neq. lia.
Qed.

Lemma statements_of_source ps : statements (tokens_after [] ps) = source_statements ps.
Proof. unfold statements, source_statements. f_equal. exact (plain_groups ps []). Qed.

Lemma first_comma ps : forall before,
  match tokens_after before ps with t :: _ => is_comma t = true | [] => False end <-> starts_with_comma ps.
Proof.
  induction ps as [|[c|raw ty] ps IH]; intros before; cbn [tokens_after].
  - split; [intros []|]. intros (ps1 & raw & ps2 & E & _). destruct ps1; discriminate.
  - rewrite IH. split; intros (ps1 & raw & ps2 & E & H).
    + subst. exists (Gap c :: ps1), raw, ps2. split; [reflexivity|]. intros r y [K|K]; [discriminate|exact (H _ _ K)].
    + destruct ps1 as [|x ps1]; [discriminate|]. injection E as <- ->. exists ps1, raw, ps2. split; [reflexivity|].
      intros r y K. apply (H r y). right. exact K.
  - unfold is_comma. cbn. split.
    + intros H. destruct ty; try discriminate. exists [], raw, ps. split; [reflexivity|]. intros r y [].
    + intros (ps1 & raw' & ps2 & E & H). destruct ps1 as [|x ps1]; [injection E as _ -> _; reflexivity|].
      injection E as <- _. exfalso. apply (H raw ty). left. reflexivity.
Qed.

Lemma logical_lines_of_source ps ls : source_lines ps ls <-> logical_lines (tokens_after [] ps) = ls.
Proof.
  pose proof (first_comma ps []) as F. pose proof (statements_of_source ps) as E.
  unfold source_lines, logical_lines. destruct (tokens_after [] ps) as [|t ts] eqn:T.
  - rewrite <- E. change (statements []) with (@nil (list token)).
    split; [intros [[H _]|[_ H]]; [tauto|congruence]|intros <-; right; split; [tauto|reflexivity]].
  - destruct (is_comma t); rewrite <- E.
    + split; [intros [[_ H]|[H _]]; [congruence|tauto]|intros <-; left; split; [tauto|reflexivity]].
    + split; [intros [[H _]|[_ H]]; [exfalso; apply F in H; discriminate|congruence]|].
      intros <-. right. split; [intros H; apply F in H; discriminate|reflexivity].
Qed.

Lemma source_result_iff code r : source_result code r <-> tokenize_and_parse code = r.
Proof.
  assert (Cm : forall r, source_result code r -> tokenize_and_parse code = r).
  { intros x H. unfold tokenize_and_parse. destruct H as [ps ls ns H1 H2 H3|ps ls c H1 H2 H3|ps rem H1 H2|ps rem H1 H2].
    - apply logical_lines_of_source in H2. subst ls. apply parse_nodes in H3.
      assert (T : tokenize code = LexOk (tokens_after [] ps)) by (apply tokenize_ok_iff; eauto).
      rewrite T, H3. reflexivity.
    - apply logical_lines_of_source in H2. subst ls. apply parse_panics_iff in H3.
      assert (T : tokenize code = LexOk (tokens_after [] ps)) by (apply tokenize_ok_iff; eauto).
      rewrite T, H3. reflexivity.
    - assert (T := proj2 (tokenize_err_iff code _) (ex_intro _ ps (ex_intro _ rem (conj H1 (conj H2 eq_refl))))).
      rewrite T. reflexivity.
    - assert (T := proj2 (tokenize_panic_iff code) (ex_intro _ ps (ex_intro _ rem (conj H1 H2)))).
      rewrite T. reflexivity. }
  split; [apply Cm|]. intros <-.
  assert (Ex : exists r, source_result code r); [|destruct Ex as [r' H]; rewrite (Cm _ H); exact H].
  pose proof (tokenize_terminates code (S (length code)) ltac:(lia)) as [_ Hf].
  destruct (tokenize code) as [ts|e| |] eqn:T.
  - apply tokenize_ok_iff in T as (ps & H1 & ->).
    destruct (parse (tokens_after [] ps)) as [[ns]|c|] eqn:P.
    + eexists. eapply source_ast; [exact H1|apply logical_lines_of_source; reflexivity|apply parse_nodes, P].
    + eexists. eapply source_parser_panic; [exact H1|apply logical_lines_of_source; reflexivity|apply parse_panics_iff, P].
    + exfalso. exact (parse_terminates _ P).
  - apply tokenize_err_iff in T as (ps & rem & H1 & H2 & _). eexists. eapply source_error; eassumption.
  - apply tokenize_panic_iff in T as (ps & rem & H1 & H2). eexists. eapply source_lexer_panic; eassumption.
  - congruence.
Qed.
