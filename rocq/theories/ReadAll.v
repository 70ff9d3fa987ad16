(** What is left when [parse] ends, and where it ends. *)
From Coq Require Import Lia.
From Verif Require Import Lines LinesSim ParseFuel IterFacts.

Definition non_empty (l : list token) : Prop := l <> [].

(** The parser keeps every invariant of the iterator. *)
Lemma statement_keeps (P : stmt_iter -> Prop)
  (Hn : forall it, P it -> P (snd (iter_next it))) (Hp : forall it, P it -> P (snd (iter_peek it)))
  (Hs : forall it, P it -> P (snd (iter_next_statement it))) f t it : P it ->
  match parse_statement iter_next iter_peek iter_next_statement f t it with
  | ROk _ it' | RErr _ it' => P it'
  | _ => True
  end.
Proof.
  intros H.
  pose proof (sim_statement iter_next iter_peek iter_next_statement iter_next iter_peek iter_next_statement
    (fun a b => a = b /\ P a)) as S.
  specialize (S ltac:(intros a b [-> Ha]; auto) ltac:(intros a b [-> Ha]; auto) ltac:(intros a b [-> Ha]; auto)).
  specialize (S f t it it (conj eq_refl H)). unfold res_rel in S.
  destruct (parse_statement _ _ _ f t it); tauto.
Qed.

(** The root block ends after a [next_statement] and a [peek] that finds nothing. *)
Lemma root_ends (P : stmt_iter -> Prop)
  (Hn : forall it, P it -> P (snd (iter_next it))) (Hp : forall it, P it -> P (snd (iter_peek it)))
  (Hs : forall it, P it -> P (snd (iter_next_statement it))) f g : forall it ns it', P it ->
  parse_block iter_next iter_peek iter_next_statement
    (parse_statement iter_next iter_peek iter_next_statement f) stop_root g it = ROk ns it' ->
  exists it2, P it2 /\ iter_peek (snd (iter_next_statement it2)) = (None, it').
Proof.
  induction g as [|g IH]; intros it ns it' HP H; [discriminate|]. cbn [parse_block] in H.
  unfold bind at 1, next in H. destruct (iter_next it) as [o it1] eqn:E1.
  assert (HP1 : P it1) by (specialize (Hn it HP); rewrite E1 in Hn; exact Hn).
  assert (HT : forall stmt it2, P it2 ->
    (errs <- end_of_statement iter_next_statement;; p <- peek iter_peek;;
     match p with
     | Some t => if stop_root t then ret (stmt ++ errs)
                 else rest <- parse_block iter_next iter_peek iter_next_statement
                               (parse_statement iter_next iter_peek iter_next_statement f) stop_root g;;
                      ret (stmt ++ errs ++ rest)
     | None => ret (stmt ++ errs)
     end)%parser it2 = ROk ns it' ->
    exists it2, P it2 /\ iter_peek (snd (iter_next_statement it2)) = (None, it')).
  { intros stmt it2 HP2 H2. unfold bind at 1, end_of_statement, next_statement_should_be_empty, next_statement in H2.
    unfold bind at 1 in H2. pose proof (Hs _ HP2) as HP3.
    destruct (iter_next_statement it2) as [l it3] eqn:E3. cbn [snd] in HP3.
    assert (H3 : exists errs, (p <- peek iter_peek;;
       match p with
       | Some t => if stop_root t then ret (stmt ++ errs)
                   else rest <- parse_block iter_next iter_peek iter_next_statement
                                 (parse_statement iter_next iter_peek iter_next_statement f) stop_root g;;
                        ret (stmt ++ errs ++ rest)
       | None => ret (stmt ++ errs)
       end)%parser it3 = ROk ns it') by (destruct l; eexists; exact H2).
    destruct H3 as [errs H3]. unfold bind at 1, peek in H3. pose proof (Hp _ HP3) as HP4.
    destruct (iter_peek it3) as [[t|] it4] eqn:E4; cbn [snd] in HP4.
    - change (stop_root t) with false in H3. cbv iota in H3. unfold bind in H3.
      destruct (parse_block _ _ _ _ _ g it4) as [ms it5| | |] eqn:E5; try discriminate.
      injection H3 as _ <-. exact (IH _ _ _ HP4 E5).
    - injection H3 as _ <-. exists it2. split; [exact HP2|]. rewrite E3. exact E4. }
  destruct o as [t|].
  - unfold bind at 1, bind at 1, catch in H.
    pose proof (statement_keeps P Hn Hp Hs f t it1 HP1) as HK.
    destruct (parse_statement _ _ _ f t it1) as [n it2|e it2|k|]; try discriminate;
      [exact (HT [n] it2 HK H)|exact (HT [NASTError e] it2 HK H)].
  - exact (HT [] it1 HP1 H).
Qed.

Lemma statements_nil ts : statements ts = [] -> skip_commas ts = [].
Proof.
  intros H. rewrite <- statements_skip in H. pose proof (skip_head ts) as Hh.
  destruct (skip_commas ts) as [|t us]; [reflexivity|exfalso].
  destruct (chunks_head t us) as (g & gs & E). pose proof (chunks_no_comma (t :: us)) as HN.
  unfold statements in H. rewrite E in H, HN. inversion HN as [|? ? [H1|(x & Hx & Hxc)] _]; subst.
  - cbn [filter] in H. rewrite H1 in H. discriminate.
  - injection Hx as -> ->. congruence.
Qed.

Definition lines_left (it : stmt_iter) : Prop := exists s, IterRel it s /\ Forall non_empty (snd s).

Lemma left_next it : lines_left it -> lines_left (snd (iter_next it)).
Proof.
  intros ([c ls] & HR & HF). eexists. split; [apply (R_next _ _ HR)|]. destruct c; exact HF.
Qed.
Lemma left_peek it : lines_left it -> lines_left (snd (iter_peek it)).
Proof.
  intros ([c ls] & HR & HF). eexists. split; [apply (R_peek _ _ HR)|]. destruct c; exact HF.
Qed.
Lemma left_statement it : lines_left it -> lines_left (snd (iter_next_statement it)).
Proof.
  intros ([c ls] & HR & HF). eexists. split; [apply (R_next_statement _ _ HR)|]. cbn [snd l_next_statement].
  cbn [snd] in HF. destruct HF; [constructor|assumption].
Qed.

Theorem reads_everything ts f b it :
  Forall non_empty (tl (logical_lines ts)) ->
  parse_block_root iter_next iter_peek iter_next_statement f (iter_new ts) = ROk b it ->
  tokens_iter it = [] /\ fst (iter_next it) = None.
Proof.
  intros HF H. unfold parse_block_root, block_of, bind in H.
  destruct (parse_block _ _ _ _ _ f (iter_new ts)) as [ns it'| | |] eqn:E; try discriminate.
  injection H as <- <-.
  apply (root_ends lines_left left_next left_peek left_statement) in E.
  2:{ exists (l_start (logical_lines ts)). split; [apply R_init|]. destruct (logical_lines ts); [constructor|exact HF]. }
  destruct E as (it2 & ([c ls] & HR & HL) & E).
  destruct (R_next_statement _ _ HR) as [_ HR']. destruct (R_peek _ _ HR') as [Ep _]. rewrite E in Ep.
  cbn [fst snd l_next_statement] in Ep, HL.
  assert (ls = []) as ->.
  { destruct ls as [|l ls]; [reflexivity|]. inversion HL as [|? ? Hl _]; subst. cbn in Ep.
    destruct l; [destruct (Hl eq_refl)|discriminate]. }
  assert (Hst : statements (tokens_iter (snd (iter_collect it2))) = []).
  { destruct it2 as [us cur pk]. unfold iter_collect, IterRel, view in *. cbn [peeked tokens_iter current_line] in *.
    destruct (collect_tokens us cur) as [[l r] k]. destruct pk as [[t|]|]; cbn in *.
    - symmetry. apply HR.
    - destruct HR as [HR H]. injection HR as _ HR. symmetry. exact HR.
    - injection HR as _ HR. symmetry. exact HR. }
  unfold iter_next_statement in E. destruct (iter_collect it2) as [l it3]. cbn [snd] in E, Hst.
  rewrite (statements_nil _ Hst) in E. unfold iter_peek, iter_next in E. cbn in E. injection E as <-. auto.
Qed.

Lemma chunks_non_empty ts : Forall (fun g => g <> []) (chunks ts).
Proof.
  induction ts as [|t ts IH]; [constructor|]. cbn [chunks].
  destruct (chunks ts) as [|[|u g] gs]; try (constructor; [discriminate|constructor]).
  inversion IH; subst. destruct (joined t u); constructor; try discriminate; auto.
Qed.
Lemma chunks_in ts g t : In g (chunks ts) -> In t g -> In t ts.
Proof.
  intros H1 H2. assert (H : In t (concat (chunks ts))) by (apply in_concat; eauto).
  enough (concat (chunks ts) = ts) as <- by exact H. clear.
  induction ts as [|t ts IH]; [reflexivity|]. cbn [chunks].
  destruct (chunks ts) as [|[|u g] gs] eqn:E.
  - cbn in *. subst. reflexivity.
  - pose proof (chunks_non_empty ts) as H. rewrite E in H. inversion H. congruence.
  - destruct (joined t u); cbn in *; congruence.
Qed.
Lemma no_ellipsis_lines ts : (forall t, In t ts -> is_ellipsis t = false) ->
  Forall non_empty (tl (logical_lines ts)).
Proof.
  intros H. assert (HS : Forall non_empty (statements ts)).
  { unfold statements. rewrite Forall_map. apply Forall_forall. intros g Hg. apply filter_In in Hg as [Hg _].
    pose proof (chunks_non_empty ts) as HC. rewrite Forall_forall in HC. specialize (HC g Hg).
    destruct g as [|t g]; [destruct (HC eq_refl)|]. cbn [filter].
    rewrite (H t) by (eapply chunks_in; [exact Hg|left; reflexivity]). discriminate. }
  unfold logical_lines. destruct ts as [|t ts]; [constructor|]. destruct (is_comma t); [exact HS|].
  destruct HS; [constructor|assumption].
Qed.
