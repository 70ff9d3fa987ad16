(** Error-free parses are exactly the derivations of the program grammar. *)
From Coq Require Import Lia.
From Verif Require Import Lines LinesSim Grammar Clean ExprGrammar LineGrammar ParseFuel.

(** ** Lines up to empty lines at the end of the program *)
Definition ext (X Y : list (list token)) : Prop := exists k, X ++ repeat [] k = Y.

Lemma ext_refl X : ext X X.
Proof. exists 0. apply app_nil_r. Qed.
Lemma ext_trans X A Y Z : ext X (A ++ Y) -> ext Y Z -> ext X (A ++ Z).
Proof.
  intros [k Hk] [j <-]. exists (k + j). rewrite repeat_app, !app_assoc, Hk. reflexivity.
Qed.
Lemma ext_cons a X Y : ext X Y -> ext (a :: X) (a :: Y).
Proof. intros [k <-]. exists k. reflexivity. Qed.
Lemma ext_start ls : ext ls (fst (l_start ls) :: snd (l_start ls)).
Proof. destruct ls as [|l ls]; [exists 1; reflexivity|apply ext_refl]. Qed.
Lemma ext_step X A a ls : ext X (A ++ a :: ls) ->
  ext X (A ++ [a] ++ fst (l_start ls) :: snd (l_start ls)).
Proof. intros H. eapply ext_trans; [exact H|]. apply ext_cons, ext_start. Qed.

(** ** Soundness *)
Definition ps_sound (ps : token -> lstate -> res lstate node) : Prop :=
  forall t c ls n s', ps t (c, ls) = ROk n s' -> node_clean n = true -> fst s' = [] ->
  exists L, ext ((t :: c) :: ls) (L ++ snd s') /\ d_stmt L n.

Definition ends_block (stop : token -> bool) (s : lstate) : Prop :=
  fst s = [] \/ exists u c, fst s = u :: c /\ stop u = true.

Lemma end_clean s es s' : end_of_statement l_next_statement s = ROk es s' ->
  forallb node_clean es = true -> es = [] /\ fst s = [] /\ s' = l_start (snd s).
Proof.
  destruct s as [c ls]. unfold end_of_statement.
  destruct (next_statement_should_be_empty l_next_statement (c, ls)) as [u s1|e s1| |] eqn:E; try discriminate.
  - intros H _. injection H as <- <-. apply empty_ok in E as [-> ->]. auto.
  - intros H Hc. injection H as <- <-. discriminate.
Qed.

Lemma block_sound_cons ps stop f : ps_sound ps -> forall t c ls ns s',
  parse_block l_next l_peek l_next_statement ps stop f (t :: c, ls) = ROk ns s' ->
  forallb node_clean ns = true ->
  exists L, ext ((t :: c) :: ls) (L ++ fst s' :: snd s') /\ d_stmts L ns /\ ns <> [] /\ ends_block stop s'.
Proof.
  intros Hps. induction f as [|f IH]; intros t c ls ns s' H Hc; [discriminate|].
  cbn [parse_block] in H. inv_next_c H. cbv beta iota in H. 
  apply bind_ok in H as (st & s0 & Hst & H). apply bind_ok in Hst as (a & sx & Hm0 & Hst).
  apply ret_ok in Hst as [<- ->]. unfold catch in Hm0. apply bind_ok in H as (a0 & [c1 ls1] & Hm & H).
  apply bind_ok in H as (op & s2 & Hm1 & H). apply peek_ok in Hm1 as [-> ->].
  assert (Hstep : forall es, a0 = es -> forallb node_clean (a :: es) = true ->
            exists L, ext ((t :: c) :: ls) (L ++ c1 :: ls1) /\ d_stmt L a /\ es = []).
  { intros es -> Hc'. cbn [forallb] in Hc'. apply andb_prop in Hc' as [Hc1 Hc2].
    apply end_clean in Hm as (-> & Hs0 & Hs1); [|assumption].
    destruct (ps t (c, ls)) as [n sn|e sn| |] eqn:Ep; try discriminate.
    2:{ injection Hm0 as <- <-. discriminate. }
    injection Hm0 as <- <-. destruct (Hps _ _ _ _ _ Ep Hc1 Hs0) as (L & HL & Hd).
    exists L. split; [|auto]. eapply ext_trans; [exact HL|].
    replace (c1 :: ls1) with (fst (c1, ls1) :: snd (c1, ls1)) by reflexivity. rewrite Hs1. apply ext_start. }
  destruct c1 as [|u c1]; cbn [hd_error] in H.
  - inv_ret H. destruct (Hstep _ eq_refl Hc) as (L & HL & Hd & ->). exists L. splits; [exact HL| |discriminate|].
    + rewrite <- (app_nil_r L). constructor; [assumption|constructor].
    + left; reflexivity.
  - destruct (stop u) eqn:Es.
    + inv_ret H. destruct (Hstep _ eq_refl Hc) as (L & HL & Hd & ->). exists L. splits; [exact HL| |discriminate|].
      * rewrite <- (app_nil_r L). constructor; [assumption|constructor].
      * right. exists u, c1. auto.
    + apply bind_ok in H as (a1 & s2 & Hm1 & H). inv_ret H. cbn [app] in Hc.
      assert (Hc1 : forallb node_clean (a :: a0) = true /\ forallb node_clean a1 = true).
      { cbn [forallb] in *. rewrite forallb_app in Hc. apply andb_prop in Hc as [-> Hc]. apply andb_prop in Hc as [-> ->]. auto. }
      destruct Hc1 as [Hc1 Hc2].
      destruct (Hstep _ eq_refl Hc1) as (L & HL & Hd & ->).
      destruct (IH _ _ _ _ _ Hm1 Hc2) as (M & HM & Hds & Hn & He). exists (L ++ M). splits.
      * rewrite <- app_assoc. eapply ext_trans; eassumption.
      * cbn [app]. constructor; assumption.
      * discriminate.
      * exact He.
Qed.

Definition pb_sound (pb : (token -> bool) -> lstate -> res lstate (list node)) : Prop :=
  forall stop s ns s', pb stop s = ROk ns s' -> forallb node_clean ns = true ->
  exists L, ext (fst s :: snd s) (L ++ fst s' :: snd s') /\ d_block L ns /\ ends_block stop s'.

Lemma block_sound ps f : ps_sound ps ->
  pb_sound (fun stop => parse_block l_next l_peek l_next_statement ps stop f).
Proof.
  intros Hps stop [c ls] ns s' H Hc. cbn [fst snd]. destruct c as [|t c].
  2:{ destruct (block_sound_cons _ _ _ Hps _ _ _ _ _ H Hc) as (L & HL & Hd & Hn & He).
      exists L. splits; [exact HL|constructor; assumption|exact He]. }
  destruct f as [|f]; [discriminate|]. cbn [parse_block] in H.
  inv_next_c H. cbv beta iota in H. 
  apply bind_ok in H as (st & s0 & Hst & H). apply ret_ok in Hst as [<- <-].
  apply bind_ok in H as (a & [c1 ls1] & Hm & H).
  apply bind_ok in H as (op & s2 & Hm1 & H). apply peek_ok in Hm1 as [-> ->].
  assert (Hstep : forallb node_clean a = true -> a = [] /\ (c1, ls1) = l_start ls).
  { intros Hc'. apply end_clean in Hm as (-> & _ & ->); [|assumption]. auto. }
  assert (Hext : (c1, ls1) = l_start ls -> ext ([] :: ls) ([[]] ++ c1 :: ls1)).
  { intros E. apply (ext_trans _ [[]] ls); [apply ext_refl|].
    replace (c1 :: ls1) with (fst (c1, ls1) :: snd (c1, ls1)) by reflexivity. rewrite E. apply ext_start. }
  destruct c1 as [|u c1]; cbn [hd_error] in H.
  - inv_ret H. destruct (Hstep Hc) as [-> E]. exists [[]]. splits; [exact (Hext E)| |left; reflexivity].
    apply d_block_empty_line. constructor.
  - destruct (stop u) eqn:Es.
    + inv_ret H. destruct (Hstep Hc) as [-> E]. exists [[]]. splits; [exact (Hext E)| |].
      * apply d_block_empty_line. constructor.
      * right. exists u, c1. auto.
    + apply bind_ok in H as (a1 & s2 & Hm0 & H). inv_ret H. cbn [app] in Hc. rewrite forallb_app in Hc. apply andb_prop in Hc as [Hc1 Hc2].
      destruct (Hstep Hc1) as [-> E]. destruct (block_sound_cons _ _ _ Hps _ _ _ _ _ Hm0 Hc2) as (M & HM & Hds & Hn & He).
      exists ([[]] ++ M). splits; [rewrite <- app_assoc; eapply ext_trans; [exact (Hext E)|exact HM]| |exact He].
      apply d_block_empty_line. assumption.
Qed.

Lemma block_of_sound pb stop s b s' : pb_sound pb -> block_of (pb stop) s = ROk b s' ->
  block_clean b = true ->
  exists L ns, b = ASTBlock ns /\ ext (fst s :: snd s) (L ++ fst s' :: snd s') /\ d_block L ns /\ ends_block stop s'.
Proof.
  intros Hpb H Hc. unfold block_of in H. inv_bind H. inv_ret H.
  destruct (Hpb _ _ _ _ Hm Hc) as (L & HL). exists L, a. split; [reflexivity|exact HL].
Qed.

Lemma hai_sound t c ls x s' : kw HAI t -> hai_parse l_next_statement t (c, ls) = ROk x s' -> fst s' = [] ->
  exists L, ext ((t :: c) :: ls) (L ++ snd s') /\ d_stmt L (NHai x).
Proof.
  intros Hk H Hs. unfold hai_parse in H. inv_bind H. inv_ret H.
  unfold next_statement, l_next_statement in Hm. cbn in Hm. injection Hm as <- <-.
  exists [t :: c; []]. split; [|constructor; assumption].
  pose proof (ext_start ls) as He. rewrite Hs in He. apply (ext_cons (t :: c)) in He. exact He.
Qed.

Lemma iteration_sound f c ls x s' : iteration_operation_parse l_next l_peek f (c, ls) = ROk x s' ->
  exists ts c', c = ts ++ c' /\ s' = (c', ls) /\ d_iteration ts x.
Proof.
  intros H. unfold iteration_operation_parse in H. inv_next_if H.
  - inv_next H; [|discriminate]. destruct (is_kw YR t0) eqn:Ey; [|discriminate]. apply is_kw_iff in Ey.
    inv_next H; [|discriminate]. inv_bind H. apply va_sound in Hm as (ts & c' & E & -> & Hv & _). inv_ret H.
    exists (t :: t0 :: ts), c'. splits; [rewrite E; reflexivity|].
    destruct (is_kw UPPIN t) eqn:Eu.
    + apply d_uppin; [apply is_kw_iff|..]; assumption.
    + apply d_nerfin; [apply is_kw_iff|..]; assumption.
  - inv_ret H. exists [], c. splits. constructor.
Qed.

Lemma conditional_sound f c ls x s' : conditional_parse l_next l_peek f (c, ls) = ROk x s' ->
  exists ts c', c = ts ++ c' /\ s' = (c', ls) /\ d_condition ts x.
Proof.
  intros H. unfold conditional_parse in H. inv_next_if H.
  - inv_next H; [|discriminate]. inv_bind H. apply expr_sound in Hm as (o & ts & c' & E & -> & He & _). inv_ret H.
    exists (t :: ts), c'. splits; [rewrite E; reflexivity|].
    destruct (is_kw TIL t) eqn:Eu.
    + eapply d_til; [apply is_kw_iff|]; eassumption.
    + eapply d_wile; [apply is_kw_iff|]; eassumption.
  - inv_ret H. exists [], c. splits. constructor.
Qed.

Lemma stop_loop_iff t : stop_loop t = true <-> kw IM_OUTTA_YR t.
Proof. apply is_kw_iff. Qed.

Lemma im_in_yr_sound pb f t c ls x s' : pb_sound pb -> kw IM_IN_YR t ->
  im_in_yr_parse l_next l_peek l_next_statement pb f t (c, ls) = ROk x s' ->
  im_in_yr_clean x = true -> fst s' = [] ->
  exists L, ext ((t :: c) :: ls) (L ++ snd s') /\ d_stmt L (NImInYr x).
Proof.
  intros Hpb Hk H Hc Hs. unfold im_in_yr_parse in H. inv_next H; [|discriminate].
  destruct (is_identifier t0) eqn:Ei; [|discriminate]. apply is_identifier_iff in Ei. inv_bind H.
  apply iteration_sound in Hm as (its & c1 & -> & -> & Hit). inv_bind H.
  apply conditional_sound in Hm as (cs & c2 & -> & -> & Hcs). inv_empty H. inv_bind H.
  destruct s as [c3 ls3]. inv_next H; [|discriminate]. inv_next H; [|discriminate].
  destruct (is_identifier t2) eqn:Ee; [|discriminate]. apply is_identifier_iff in Ee. inv_ret H.
  cbn in Hs. subst c0. cbn [im_in_yr_clean] in Hc.
  destruct (block_of_sound _ _ _ _ _ Hpb Hm Hc) as (L & ns & -> & HL & Hd & He).
  cbn [fst snd] in *. destruct He as [He|(u' & c' & E & Hu)]; [discriminate|]. injection E as <- <-.
  apply stop_loop_iff in Hu. rewrite app_nil_r in *.
  exists ((t :: t0 :: its ++ cs) :: L ++ [[t1; t2]]). split.
  2:{ constructor; assumption. }
  cbn [app snd]. apply ext_cons. rewrite <- app_assoc.
  eapply (ext_trans _ []); [apply ext_start|exact HL].
Qed.

Lemma params_sound f : forall c ls is s', how_iz_i_loop l_next l_peek f (c, ls) = ROk is s' ->
  exists us c', c = us ++ c' /\ s' = (c', ls) /\ d_params us is.
Proof.
  induction f as [|f IH]; intros c ls is s' H; [discriminate|]. cbn [how_iz_i_loop] in H. inv_next_if H.
  - apply is_kw_iff in Ht. inv_next H; [|discriminate]. inv_bind H.
    apply identifier_sound in Hm as (ts & c' & E & -> & Hi). inv_bind H. apply peek_ok in Hm as [-> ->].
    destruct c' as [|u c']; cbn [hd_error] in H.
    + inv_ret H. exists (t :: ts), []. rewrite E. splits. apply d_params_last; assumption.
    + destruct (is_kw AN u) eqn:Ea.
      * apply is_kw_iff in Ea. inv_next_c H. inv_bind H. apply IH in Hm as (us & c2 & -> & -> & Hp). inv_ret H.
        exists (t :: ts ++ u :: us), c2. splits; [rewrite E; cbn [app]; rewrite <- app_assoc; reflexivity|].
        apply d_params_cons; assumption.
      * inv_ret H. exists (t :: ts), (u :: c'). rewrite E. splits. apply d_params_last; assumption.
  - inv_ret H. exists [], c. splits. constructor.
Qed.

Lemma how_iz_i_sound pb f t c ls x s' : pb_sound pb -> kw HOW_IZ_I t ->
  how_iz_i_parse l_next l_peek l_next_statement pb f t (c, ls) = ROk x s' ->
  how_iz_i_clean x = true -> fst s' = [] ->
  exists L, ext ((t :: c) :: ls) (L ++ snd s') /\ d_stmt L (NHowIzI x).
Proof.
  intros Hpb Hk H Hc Hs. unfold how_iz_i_parse in H. inv_next H; [|discriminate]. inv_bind H.
  apply identifier_sound in Hm as (ts & c1 & E & -> & Hi). inv_bind H.
  apply params_sound in Hm as (us & c2 & -> & -> & Hp). inv_empty H. inv_bind H. destruct s as [c3 ls3].
  inv_next H; [|discriminate]. destruct (is_kw IF_U_SAY_SO t1) eqn:Ei; [|discriminate]. apply is_kw_iff in Ei.
  inv_empty H. inv_ret H. cbn [how_iz_i_clean] in Hc.
  destruct (block_of_sound _ _ _ _ _ Hpb Hm Hc) as (L & ns & -> & HL & Hd & _).
  cbn [fst snd] in HL. rewrite app_nil_r in E. rewrite E.
  exists ((t :: ts ++ us) :: L ++ [[t1]; []]). split.
  2:{ constructor; assumption. }
  cbn [app]. apply ext_cons. rewrite <- app_assoc.
  eapply (ext_trans _ L); [eapply (ext_trans _ []); [apply ext_start|exact HL]|].
  cbn [app]. apply ext_cons. rewrite <- Hs. apply ext_start.
Qed.

Lemma question_sound t c ls u s' : question_mark l_next t (c, ls) = ROk u s' ->
  exists q c', c = q :: c' /\ s' = (c', ls) /\ question_tok q.
Proof.
  intros H. unfold question_mark in H. inv_next H; [|discriminate].
  destruct (is_question_symbol t0) eqn:E; [|discriminate]. apply is_question_iff in E. inv_ret H. eauto.
Qed.
Lemma oic_sound t c ls u s' : oic l_next t (c, ls) = ROk u s' ->
  exists q c', c = q :: c' /\ s' = (c', ls) /\ kw OIC q.
Proof.
  intros H. unfold oic in H. inv_next H; [|discriminate].
  destruct (is_kw OIC t0) eqn:E; [|discriminate]. apply is_kw_iff in E. inv_ret H. eauto.
Qed.

Lemma omg_sound pb pe f : pb_sound pb -> sound_pe pe -> forall s omgs s',
  omg_loop l_next l_peek l_next_statement pb pe f s = ROk omgs s' -> forallb wtf_omg_clean omgs = true ->
  exists L, ext (fst s :: snd s) (L ++ fst s' :: snd s') /\ d_omgs L omgs.
Proof.
  intros Hpb Hpe. induction f as [|f IH]; intros [c ls] omgs s' H Hc; [discriminate|].
  cbn [omg_loop] in H. cbn [fst snd]. inv_next_if H.
  - apply is_kw_iff in Ht. inv_next H; [|discriminate]. inv_bind H.
    apply Hpe in Hm as (o & ts & c' & E & -> & He & _). inv_empty H. inv_bind H. inv_bind H. inv_ret H.
    cbn [forallb wtf_omg_clean] in Hc. apply andb_prop in Hc as [Hc1 Hc2].
    destruct (block_of_sound _ _ _ _ _ Hpb Hm Hc1) as (L & ns & -> & HL & Hd & _).
    destruct (IH _ _ _ Hm0 Hc2) as (M & HM & Hds). rewrite app_nil_r in E. rewrite E.
    exists ((t :: ts) :: L ++ M). split; [|econstructor; eassumption].
    cbn [app]. apply ext_cons. rewrite <- app_assoc.
    eapply (ext_trans _ L); [eapply (ext_trans _ []); [apply ext_start|exact HL]|exact HM].
  - inv_ret H. exists []. split; [apply ext_refl|constructor].
Qed.

Lemma mebbe_sound pb pe f : pb_sound pb -> sound_pe pe -> forall s ms s',
  mebbe_loop l_next l_peek l_next_statement pb pe f s = ROk ms s' -> forallb mebbe_clean ms = true ->
  exists L, ext (fst s :: snd s) (L ++ fst s' :: snd s') /\ d_mebbes L ms.
Proof.
  intros Hpb Hpe. induction f as [|f IH]; intros [c ls] omgs s' H Hc; [discriminate|].
  cbn [mebbe_loop] in H. cbn [fst snd]. inv_next_if H.
  - apply is_kw_iff in Ht. inv_next H; [|discriminate]. inv_bind H.
    apply Hpe in Hm as (o & ts & c' & E & -> & He & _). inv_empty H. inv_bind H. inv_bind H. inv_ret H.
    cbn [forallb mebbe_clean] in Hc. apply andb_prop in Hc as [Hc1 Hc2].
    destruct (block_of_sound _ _ _ _ _ Hpb Hm Hc1) as (L & ns & -> & HL & Hd & _).
    destruct (IH _ _ _ Hm0 Hc2) as (M & HM & Hds). rewrite app_nil_r in E. rewrite E.
    exists ((t :: ts) :: L ++ M). split; [|econstructor; eassumption].
    cbn [app]. apply ext_cons. rewrite <- app_assoc.
    eapply (ext_trans _ L); [eapply (ext_trans _ []); [apply ext_start|exact HL]|exact HM].
  - inv_ret H. exists []. split; [apply ext_refl|constructor].
Qed.

(** An optional line with one keyword and a block. *)
Lemma branch_sound {A} pb stop k (C : token -> block -> A) (cl : A -> bool)
      (D : list (list token) -> option A -> Prop) s x s' :
  pb_sound pb -> (forall t b, cl (C t b) = block_clean b) -> D [] None ->
  (forall t L ns, kw k t -> d_block L ns -> D ([t] :: L) (Some (C t (ASTBlock ns)))) ->
  bind (next_if l_next l_peek (is_kw k))
       (fun o => match o with
                 | Some t => bind (next_statement_should_be_empty l_next_statement)
                                  (fun _ => bind (block_of (pb stop)) (fun b => ret (Some (C t b))))
                 | None => ret None
                 end) s = ROk x s' ->
  match x with Some y => cl y | None => true end = true ->
  exists L, ext (fst s :: snd s) (L ++ fst s' :: snd s') /\ D L x.
Proof.
  intros Hpb Hcl Hnone Hsome H Hc. destruct s as [c ls]. cbn [fst snd]. inv_next_if H.
  - apply is_kw_iff in Ht. inv_empty H. inv_bind H. inv_ret H. rewrite Hcl in Hc.
    destruct (block_of_sound _ _ _ _ _ Hpb Hm Hc) as (L & ns & -> & HL & Hd & _).
    exists ([t] :: L). split; [|apply Hsome; assumption].
    cbn [app]. apply ext_cons. eapply (ext_trans _ []); [apply ext_start|exact HL].
  - inv_ret H. exists []. split; [apply ext_refl|assumption].
Qed.

Lemma bind_assoc_ok {S A B C} (m : S -> res S A) (g : A -> S -> res S B) (h : B -> S -> res S C) s r s' :
  bind m (fun a => bind (g a) h) s = ROk r s' -> exists b s1, bind m g s = ROk b s1 /\ h b s1 = ROk r s'.
Proof.
  unfold bind. destruct (m s) as [a s1| | |]; try discriminate.
  destruct (g a s1) as [b s2| | |]; try discriminate. eauto.
Qed.

Lemma wtf_sound pb f t c ls x s' : pb_sound pb -> kw WTF t ->
  wtf_parse l_next l_peek l_next_statement pb f t (c, ls) = ROk x s' ->
  wtf_clean x = true -> fst s' = [] ->
  exists L, ext ((t :: c) :: ls) (L ++ snd s') /\ d_stmt L (NWtf x).
Proof.
  intros Hpb Hk H Hc Hs. unfold wtf_parse in H. inv_bind H.
  apply question_sound in Hm as (q & c1 & -> & -> & Hq). inv_empty H. inv_bind H.
  apply bind_assoc_ok in H as (d & s2 & Hd & H). inv_bind H. destruct s2 as [c2 ls2].
  apply oic_sound in Hm0 as (e & c3 & -> & -> & He). inv_empty H. inv_ret H.
  cbn [wtf_clean] in Hc. apply andb_prop in Hc as [Hc1 Hc2].
  apply (omg_sound _ _ _ Hpb (expr_sound f)) in Hm as (L & HL & Ho); [|assumption].
  apply (branch_sound pb stop_switch OMGWTF WtfOmgWtf wtf_omg_wtf_clean d_default) in Hd as (M & HM & HD);
    [|assumption|reflexivity|constructor|intros; constructor; assumption|assumption].
  cbn [fst snd] in *.
  exists ([t; q] :: L ++ M ++ [[e]; []]). split; [|constructor; assumption].
  cbn [app]. apply ext_cons. rewrite <- !app_assoc.
  eapply (ext_trans _ L); [eapply (ext_trans _ []); [apply ext_start|exact HL]|].
  eapply (ext_trans _ M); [exact HM|]. cbn [app]. apply ext_cons. rewrite <- Hs. apply ext_start.
Qed.

Lemma o_rly_sound pb f t c ls x s' : pb_sound pb -> kw O_RLY t ->
  o_rly_parse l_next l_peek l_next_statement pb f t (c, ls) = ROk x s' ->
  o_rly_clean x = true -> fst s' = [] ->
  exists L, ext ((t :: c) :: ls) (L ++ snd s') /\ d_stmt L (NORly x).
Proof.
  intros Hpb Hk H Hc Hs. unfold o_rly_parse in H. inv_bind H.
  apply question_sound in Hm as (q & c1 & -> & -> & Hq). inv_empty H.
  apply bind_assoc_ok in H as (y & s1 & Hy & H). inv_bind H.
  apply bind_assoc_ok in H as (d & s2 & Hd & H). inv_bind H. destruct s2 as [c2 ls2].
  apply oic_sound in Hm0 as (e & c3 & -> & -> & He). inv_ret H.
  cbn [o_rly_clean] in Hc. apply andb_prop in Hc as [Hc Hc3]. apply andb_prop in Hc as [Hc1 Hc2].
  apply (branch_sound pb stop_if YA_RLY YaRly ya_rly_clean d_ya_rly) in Hy as (N & HN & HY);
    [|assumption|reflexivity|constructor|intros; constructor; assumption|assumption].
  apply (mebbe_sound _ _ _ Hpb (expr_sound f)) in Hm as (L & HL & Ho); [|assumption].
  apply (branch_sound pb stop_if NO_WAI NoWai no_wai_clean d_no_wai) in Hd as (M & HM & HD);
    [|assumption|reflexivity|constructor|intros; constructor; assumption|assumption].
  cbn [fst snd] in *. subst c3.
  exists ([t; q] :: N ++ L ++ M ++ [[e]]). split; [|constructor; assumption].
  cbn [app]. apply ext_cons. rewrite <- !app_assoc.
  eapply (ext_trans _ N); [eapply (ext_trans _ []); [apply ext_start|exact HN]|].
  eapply (ext_trans _ L); [exact HL|]. exact HM.
Qed.

Lemma statement_sound f : ps_sound (parse_statement l_next l_peek l_next_statement f).
Proof.
  induction f as [|f IH]; intros t c ls n s' H Hc Hs; [discriminate|].
  assert (Hdec : multi_line t \/ ~ multi_line t).
  { unfold multi_line, kw. destruct (tok_type t) as [|k| | | | | | | | |]; try (right; intuition discriminate).
    destruct k; try (right; intuition discriminate); tauto. }
  destruct Hdec as [Hm|Hm].
  2:{ destruct (single_sound _ _ _ _ _ _ Hm H) as [Hs1 Hd]. exists [t :: c]. split.
      - rewrite Hs1. apply ext_refl.
      - constructor. apply Hd. exact Hs. }
  assert (Hv : va_is_valid t = false).
  { destruct Hm as [Hk|[Hk|[Hk|[Hk|Hk]]]]; apply (not_valid_kw _ _ Hk); discriminate. }
  pose proof (block_sound _ f IH) as Hpb.
  cbn [parse_statement] in H. rewrite Hv in H.
  destruct Hm as [Hk|[Hk|[Hk|[Hk|Hk]]]]; pose proof Hk as Hk'; unfold kw in Hk'; rewrite Hk' in H;
    unfold as_node in H; inv_bind H; inv_ret H; cbn [node_clean] in Hc.
  - eapply hai_sound; eassumption.
  - eapply im_in_yr_sound; eassumption.
  - eapply how_iz_i_sound; eassumption.
  - eapply wtf_sound; eassumption.
  - eapply o_rly_sound; eassumption.
Qed.

Theorem program_sound ls ns : parse_logical ls = ParseOk (ASTBlock ns) ->
  forallb node_clean ns = true -> d_program ls ns.
Proof.
  unfold parse_logical, parse_lines, parse_block_root. intros H Hc.
  destruct (block_of _ _) as [b s'| | |] eqn:E; try discriminate. injection H as ->.
  unfold block_of in E. inv_bind E. apply ret_ok in E as [E <-]. injection E as ->.
  destruct (block_sound _ _ (statement_sound _) _ _ _ _ Hm Hc) as (L & HL & Hd & He).
  destruct He as [He|(u & c & _ & Hu)]; [|discriminate]. rewrite He in HL.
  destruct (ext_trans _ [] _ _ (ext_start ls) HL) as [k Hk].
  exists k, L, (snd s). auto.
Qed.
