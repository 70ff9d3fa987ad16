(** The result of the parser is a result of the specification [Recovery]. *)
From Coq Require Import Lia.
From Verif Require Import Lines Grammar ExprGrammar LineGrammar ProgGrammar ProgComplete Failure
  FailureSound Reads Recovery.

(** The result satisfies [P]. *)
Definition sp {A} (P : out A -> Prop) (r : res lstate A) : Prop :=
  match r with
  | ROk a s => P (Done a s)
  | RErr e s => P (Err e s)
  | RPanic c => P (Crash c)
  | RFuel => True
  end.

Lemma sp_bind {A B} (Q : out A -> Prop) (P : out B -> Prop) (m : lstate -> res lstate A)
      (k : A -> lstate -> res lstate B) s :
  sp Q (m s) -> (forall o o', Q o -> aborts o o' -> P o') ->
  (forall a s1, Q (Done a s1) -> sp P (k a s1)) -> sp P (bind m k s).
Proof.
  unfold bind. intros H Ha Hk. destruct (m s) as [a s1|e s1|c|]; cbn in *.
  - apply Hk. exact H.
  - exact (Ha _ _ H (aborts_err _ _)).
  - exact (Ha _ _ H (aborts_crash _)).
  - exact I.
Qed.
Lemma sp_line {A B} F (P : out B -> Prop) (m : lstate -> res lstate A) (k : A -> lstate -> res lstate B) s ls :
  fl F ls (m s) -> (forall x, F x -> P (failed x ls)) ->
  (forall a s1, m s = ROk a s1 -> sp P (k a s1)) -> sp P (bind m k s).
Proof.
  unfold bind. intros H Ha Hk. destruct (m s) as [a s1|e s1|c|]; cbn in *.
  - apply Hk. reflexivity.
  - destruct H as (c & -> & H). exact (Ha _ H).
  - exact (Ha _ H).
  - exact I.
Qed.
Lemma sp_of_fl {A} F (P : out A -> Prop) (r : res lstate A) ls :
  fl F ls r -> (forall x, F x -> P (failed x ls)) -> (forall a s, r = ROk a s -> P (Done a s)) -> sp P r.
Proof.
  intros H Ha Hk. destruct r as [a s1|e s1|c|]; cbn in *.
  - apply Hk. reflexivity.
  - destruct H as (c & -> & H). exact (Ha _ H).
  - exact (Ha _ H).
  - exact I.
Qed.
Lemma sp_weaken {A} (P Q : out A -> Prop) (r : res lstate A) : sp P r -> (forall o, P o -> Q o) -> sp Q r.
Proof. destruct r; cbn; auto. Qed.
Lemma sp_next {B} (P : out B -> Prop) (k : option token -> lstate -> res lstate B) c ls :
  (forall t c', c = t :: c' -> sp P (k (Some t) (c', ls))) ->
  (c = [] -> sp P (k None ([], ls))) -> sp P (bind (next l_next) k (c, ls)).
Proof. intros H1 H2. destruct c as [|t c]; [apply H2|apply H1]; reflexivity. Qed.
Lemma sp_next_if {B} (P : out B -> Prop) w (k : option token -> lstate -> res lstate B) c ls :
  (forall t c', c = t :: c' -> kw w t -> sp P (k (Some t) (c', ls))) ->
  (~ begins (kw w) c -> sp P (k None (c, ls))) ->
  sp P (bind (next_if l_next l_peek (is_kw w)) k (c, ls)).
Proof.
  intros H1 H2. destruct c as [|t c].
  - erewrite bind_eq by (apply next_if_no; discriminate). apply H2. intros (? & ? & ? & _). discriminate.
  - destruct (is_kw w t) eqn:E.
    + erewrite bind_eq by (apply next_if_yes; exact E). apply H1; [reflexivity|]. apply is_kw_iff. exact E.
    + apply is_kw_false in E. erewrite bind_eq by (apply next_if_not; exact E). apply H2.
      intros (? & ? & E' & H). injection E' as <- _. contradiction.
Qed.
Lemma sp_empty {B} (P : out B -> Prop) (k : unit -> lstate -> res lstate B) c ls :
  (forall x r, c = x :: r -> P (Err (TooManyTokens (x :: r)) (line_of ls))) ->
  (c = [] -> sp P (k tt (line_of ls))) ->
  sp P (bind (next_statement_should_be_empty l_next_statement) k (c, ls)).
Proof. intros H1 H2. destruct c as [|x r]; [apply H2; reflexivity|]. cbn. apply H1. reflexivity. Qed.

Lemma not_begins_slot c : ~ starts_with_slot c -> ~ begins slot_tok c.
Proof. intros H Hb. apply H. apply begins_slot. exact Hb. Qed.

(** ** Headers of loops *)
Lemma is_step_iff t : is_kw UPPIN t || is_kw NERFIN t = true <-> is_step t.
Proof. unfold is_step. rewrite Bool.orb_true_iff, !is_kw_iff. reflexivity. Qed.
Lemma is_until_iff t : is_kw TIL t || is_kw WILE t = true <-> is_until t.
Proof. unfold is_until. rewrite Bool.orb_true_iff, !is_kw_iff. reflexivity. Qed.
Lemma no_begins_of (p : token -> Prop) f c : (forall t, f t = true <-> p t) ->
  (forall t c', c = t :: c' -> f t = false) -> ~ begins p c.
Proof. intros Hf H. apply no_begins. intros t c' E Hp. apply Hf in Hp. rewrite (H _ _ E) in Hp. discriminate. Qed.

Lemma iteration_fl f c ls : fl (x_iteration c) ls (iteration_operation_parse l_next l_peek f (c, ls)).
Proof.
  unfold iteration_operation_parse. apply fl_next_if; [|intros; exact I].
  intros t c' -> Ht. pose proof (proj1 (is_step_iff t) Ht) as Hs. cbv zeta.
  replace (loop_operation_token (if is_kw UPPIN t then LUppin t else LNerfin t)) with t by (destruct (is_kw UPPIN t); reflexivity).
  apply fl_next; [intros u c2 ->|intros ->; apply fl_fail; constructor; exact Hs].
  destruct (is_kw YR u) eqn:Ey; [apply is_kw_iff in Ey|apply is_kw_false in Ey; apply fl_fail; constructor; assumption].
  apply fl_next; [intros w c3 ->|intros ->; apply fl_fail; constructor; assumption].
  apply fl_bind; [|intros; exact I]. eapply fl_weaken; [apply va_fl|]. intros x Hx. constructor; assumption.
Qed.
Lemma condition_fl f c ls : fl (x_condition c) ls (conditional_parse l_next l_peek f (c, ls)).
Proof.
  unfold conditional_parse. apply fl_next_if; [|intros; exact I].
  intros t c' -> Ht. apply is_until_iff in Ht.
  apply fl_next; [intros u c2 ->|intros ->; apply fl_fail; constructor; [exact Ht|constructor]].
  eapply expected_expr_fl; [|intros; exact I]. intros x Hx. constructor; eassumption.
Qed.

Lemma iteration_reads f c ls x s' : iteration_operation_parse l_next l_peek f (c, ls) = ROk x s' ->
  exists ts c', c = ts ++ c' /\ s' = (c', ls) /\ d_iteration ts x /\
    (ts = [] -> ~ begins is_step c') /\ ~ (ends_with_identifier ts /\ begins slot_tok c').
Proof.
  intros H. unfold iteration_operation_parse in H. inv_bind H.
  apply next_if_ok in Hm as [(t & c' & -> & Ht & -> & ->)|(-> & -> & Hn)].
  - inv_next H; [|discriminate]. destruct (is_kw YR t0) eqn:Ey; [|discriminate]. apply is_kw_iff in Ey.
    inv_next H; [|discriminate]. inv_bind H. apply va_sound in Hm as (ts & c' & E & -> & Hv & Hs). inv_ret H.
    exists (t :: t0 :: ts), c'. splits; [rewrite E; reflexivity|..].
    + destruct (is_kw UPPIN t) eqn:Eu.
      * apply d_uppin; [apply is_kw_iff|..]; assumption.
      * apply d_nerfin; [apply is_kw_iff|..]; assumption.
    + discriminate.
    + intros [_ Hb]. exact (not_begins_slot _ Hs Hb).
  - inv_ret H. exists [], c. splits; [constructor|intros _|].
    + exact (no_begins_of _ _ _ is_step_iff Hn).
    + intros [He _]. destruct (ends_nonnil _ He eq_refl).
Qed.
Lemma condition_reads f c ls x s' : conditional_parse l_next l_peek f (c, ls) = ROk x s' ->
  exists ts c', c = ts ++ c' /\ s' = (c', ls) /\ d_condition ts x /\
    (ts = [] -> ~ begins is_until c') /\ (open_condition x -> c' = []) /\
    ~ (ends_with_identifier ts /\ begins slot_tok c').
Proof.
  intros H. unfold conditional_parse in H. inv_bind H.
  apply next_if_ok in Hm as [(t & c' & -> & Ht & -> & ->)|(-> & -> & Hn)].
  - inv_next H; [|discriminate]. inv_bind H.
    apply expr_sound in Hm as (o & ts & c' & E & -> & He & Hf1 & Hf2). inv_ret H.
    pose proof (d_expr_open _ _ _ He) as Ho.
    exists (t :: ts), c'. splits; [rewrite E; reflexivity|..].
    + destruct (is_kw TIL t) eqn:Eu.
      * eapply d_til; [apply is_kw_iff|]; eassumption.
      * eapply d_wile; [apply is_kw_iff|]; eassumption.
    + discriminate.
    + intros Hop. apply Hf1. rewrite Ho. destruct (is_kw TIL t); exact Hop.
    + intros [H1 H2]. apply Hf2. split; [|apply begins_slot; exact H2].
      apply (ends_cons t); [eapply d_expr_nonnil; exact He|exact H1].
  - inv_ret H. exists [], c. splits; [constructor|intros _|intros []|].
    + exact (no_begins_of _ _ _ is_until_iff Hn).
    + intros [He _]. destruct (ends_nonnil _ He eq_refl).
Qed.

(** ** Headers of functions *)
Lemma params_fl f : forall c ls, fl (x_params c) ls (how_iz_i_loop l_next l_peek f (c, ls)).
Proof.
  induction f as [|f IH]; intros c ls; [exact I|]. cbn [how_iz_i_loop].
  apply fl_next_if; [|intros; exact I]. intros yr c' -> Hy. apply is_kw_iff in Hy.
  apply fl_next; [intros t c2 ->|intros ->; apply fl_fail; constructor; exact Hy].
  apply fl_bind.
  - eapply fl_weaken; [apply identifier_fl|]. intros x Hx. apply x_param_name; assumption.
  - intros i s1 Hi. apply identifier_sound in Hi as (ts & c3 & E & -> & Hi). rewrite E.
    destruct c3 as [|u c3].
    + erewrite bind_eq by apply peek_none. exact I.
    + erewrite bind_eq by apply peek_some. cbv beta iota. destruct (is_kw AN u) eqn:Ea; [|exact I].
      apply is_kw_iff in Ea. bnext. apply fl_bind; [|intros; exact I].
      eapply fl_weaken; [apply IH|]. intros x Hx. eapply x_param_later; eassumption.
Qed.

Lemma ends_an_cons t us : us <> [] -> ends_with_an (t :: us) <-> ends_with_an us.
Proof.
  intros Hn. split.
  - intros (ws & a & E & Ha). destruct ws as [|w ws]; [injection E as -> ->; destruct (Hn eq_refl)|].
    injection E as _ ->. exists ws, a. auto.
  - intros (ws & a & -> & Ha). exists (t :: ws), a. auto.
Qed.
Lemma ends_an_app ts us : us <> [] -> ends_with_an (ts ++ us) <-> ends_with_an us.
Proof.
  intros Hn. induction ts as [|t ts IH]; [reflexivity|]. cbn [app]. rewrite ends_an_cons, IH; [reflexivity|].
  destruct ts; [exact Hn|discriminate].
Qed.
Lemma ends_not_an ts : ends_with_identifier ts -> ~ ends_with_an ts.
Proof.
  intros (us & x & -> & Hx) (ws & a & E & Ha). apply app_inj_tail in E as [_ ->]. exact (kw_ident _ _ Ha Hx).
Qed.

Definition params_stop (us r : list token) : Prop :=
  (us = [] \/ ends_with_an us -> ~ begins (kw YR) r) /\ (us <> [] -> ~ ends_with_an us -> ~ begins (kw AN) r).

Lemma params_stop_one yr ts i r : d_identifier ts i -> ~ begins (kw AN) r -> params_stop (yr :: ts) r.
Proof.
  intros Hi Hr. split; [|intros; exact Hr]. intros [H|H]; [discriminate|exfalso].
  pose proof (d_identifier_ends _ _ Hi) as He. apply (proj1 (ends_an_cons yr ts (ends_nonnil _ He))) in H.
  exact (ends_not_an _ He H).
Qed.
Lemma params_stop_cons yr ts an us r : kw AN an -> params_stop (yr :: ts ++ an :: us) r <-> params_stop us r.
Proof.
  intros Ha. unfold params_stop.
  assert (E : ends_with_an (yr :: ts ++ an :: us) <-> us = [] \/ ends_with_an us).
  { rewrite ends_an_cons by (destruct ts; discriminate). rewrite ends_an_app by discriminate.
    destruct us as [|u us].
    - split; [auto|]. intros _. exists [], an. auto.
    - rewrite ends_an_cons by discriminate. split; [auto|]. intros [H|H]; [discriminate|exact H]. }
  rewrite E. split.
  - intros [H1 H2]. split; [intros H; apply H1; right; exact H|].
    intros Hu Hn. apply H2; [discriminate|]. intros [H|H]; contradiction.
  - intros [H1 H2]. split; [intros [H|H]; [discriminate|apply H1; exact H]|].
    intros _ Hn. apply H2; intros H; apply Hn; auto.
Qed.

Lemma params_reads f : forall c ls is s', how_iz_i_loop l_next l_peek f (c, ls) = ROk is s' ->
  exists us c', c = us ++ c' /\ s' = (c', ls) /\ d_params us is /\ params_stop us c'.
Proof.
  induction f as [|f IH]; intros c ls is s' H; [discriminate|]. cbn [how_iz_i_loop] in H. inv_bind H.
  apply next_if_ok in Hm as [(t & c' & -> & Ht & -> & ->)|(-> & -> & Hn)].
  - apply is_kw_iff in Ht. inv_next H; [|discriminate]. inv_bind H.
    apply identifier_sound in Hm as (ts & c1 & E & -> & Hi). inv_bind H. apply peek_ok in Hm as [-> ->].
    destruct c1 as [|u c1]; cbn [hd_error] in H.
    + inv_ret H. exists (t :: ts), []. rewrite E. splits; [apply d_params_last; assumption|].
      eapply params_stop_one; [exact Hi|]. intros (? & ? & ? & _). discriminate.
    + destruct (is_kw AN u) eqn:Ea.
      * apply is_kw_iff in Ea. inv_next_c H. inv_bind H. apply IH in Hm as (us & c2 & -> & -> & Hp & Hs). inv_ret H.
        exists (t :: ts ++ u :: us), c2. splits; [rewrite E; cbn [app]; rewrite <- app_assoc; reflexivity|..].
        -- apply d_params_cons; assumption.
        -- apply params_stop_cons; assumption.
      * inv_ret H. exists (t :: ts), (u :: c1). rewrite E. splits; [apply d_params_last; assumption|].
        eapply params_stop_one; [exact Hi|]. apply is_kw_false in Ea.
        intros (? & ? & E' & ?). injection E' as <- _. contradiction.
  - inv_ret H. exists [], c. splits; [constructor|]. split; [|intros H; destruct (H eq_refl)].
    intros _. apply no_begins_kw. exact Hn.
Qed.

Lemma question_fl t c ls : fl (x_question t c) ls (question_mark l_next t (c, ls)).
Proof.
  unfold question_mark. apply fl_next; [intros u c' ->|intros ->; apply fl_fail; constructor].
  destruct (is_question_symbol u) eqn:E; [exact I|]. apply fl_fail. constructor. intros H.
  apply is_question_iff in H. congruence.
Qed.
Lemma oic_sp t s : sp (closing t s) (oic l_next t s).
Proof.
  destruct s as [c ls]. unfold oic. apply sp_next; [intros u c' ->|intros ->; constructor].
  destruct (is_kw OIC u) eqn:E; [apply is_kw_iff in E|apply is_kw_false in E]; constructor; exact E.
Qed.

(** ** Blocks *)
Definition stop_of (k : kind) : token -> bool :=
  match k with
  | Root => stop_root
  | FunctionBody => stop_function
  | LoopBody => stop_loop
  | IfBody => stop_if
  | SwitchBody => stop_switch
  end.
Lemma stop_of_iff k t : stop_of k t = true <-> closes k t.
Proof.
  destruct k; cbn [stop_of closes].
  - split; [discriminate|intros []].
  - apply is_kw_iff.
  - apply is_kw_iff.
  - apply stop_if_iff.
  - apply stop_switch_iff.
Qed.
Lemma stop_of_false k t : stop_of k t = false <-> ~ closes k t.
Proof. rewrite <- stop_of_iff. destruct (stop_of k t); split; congruence. Qed.

Definition ps_sp (ps : token -> lstate -> res lstate node) : Prop :=
  forall t c ls, sp (r_stmt (t :: c) ls) (ps t (c, ls)).
Definition pb_sp (pb : (token -> bool) -> lstate -> res lstate (list node)) : Prop :=
  forall k s, sp (r_block k s) (pb (stop_of k) s).

Lemma block_sp ps : ps_sp ps -> forall f, pb_sp (fun stop => parse_block l_next l_peek l_next_statement ps stop f).
Proof.
  intros Hps f k. induction f as [|f IH]; intros [c ls]; [exact I|]. cbn [parse_block].
  assert (Hmore : forall (P : out (list node) -> Prop) ns r ls',
    (forall o, r_more k ls' o -> P (omap (app (ns ++ left_over r)) o)) ->
    sp P ((errs <- end_of_statement l_next_statement;; p <- peek l_peek;;
     match p with
     | Some t => if stop_of k t then ret (ns ++ errs)
                 else rest <- parse_block l_next l_peek l_next_statement ps (stop_of k) f;;
                      ret (ns ++ errs ++ rest)
     | None => ret (ns ++ errs)
     end)%parser (r, ls'))).
  { intros P ns r ls' HP.
    assert (E : end_of_statement l_next_statement (r, ls') = ROk (left_over r) (line_of ls')) by (destruct r; reflexivity).
    rewrite (bind_eq _ _ _ _ _ E). clear E.
    destruct ls' as [|[|t c'] ls']; cbn [line_of].
    - erewrite bind_eq by apply peek_none. cbn. specialize (HP _ (r_more_empty k [] eq_refl)). cbn in HP.
      rewrite app_nil_r in HP. exact HP.
    - erewrite bind_eq by apply peek_none. cbn. specialize (HP _ (r_more_empty k ([] :: ls') eq_refl)). cbn in HP.
      rewrite app_nil_r in HP. exact HP.
    - erewrite bind_eq by apply peek_some. cbv beta iota. destruct (stop_of k t) eqn:Es.
      + apply stop_of_iff in Es. specialize (HP _ (r_more_close k t c' ls' Es)). cbn in HP.
        rewrite app_nil_r in HP. exact HP.
      + apply stop_of_false in Es. eapply sp_bind; [apply IH|..].
        * intros o o' Ho Ha. specialize (HP _ (r_more_go k t c' ls' o Es Ho)). destruct Ha; exact HP.
        * intros ms s1 Ho. specialize (HP _ (r_more_go k t c' ls' _ Es Ho)). cbn in HP |- *.
          rewrite <- app_assoc in HP. exact HP. }
  apply sp_next; [intros t c' ->|intros ->].
  - specialize (Hps t c' ls). unfold bind at 1, bind at 1, catch.
    destruct (ps t (c', ls)) as [n [r ls']|e [r ls']|p|]; cbn [sp] in Hps.
    + apply (Hmore _ [n]). intros o Ho. eapply (r_block_done k); eassumption.
    + apply (Hmore _ [NASTError e]). intros o Ho. eapply (r_block_err k); eassumption.
    + cbn. constructor. exact Hps.
    + exact I.
  - unfold bind at 1, ret at 1. apply (Hmore _ []). intros o Ho.
    assert (E : omap (app ([] ++ left_over [])) o = o) by (destruct o; reflexivity).
    rewrite E. constructor. exact Ho.
Qed.

Lemma block_of_sp pb k s : pb_sp pb -> sp (fun o => exists o', r_block k s o' /\ o = omap ASTBlock o') (block_of (pb (stop_of k)) s).
Proof.
  intros H. unfold block_of. eapply sp_bind; [apply H|..].
  - intros o o' Ho Ha. exists o. split; [exact Ho|]. destruct Ha; reflexivity.
  - intros ns s1 Ho. exists (Done ns s1). auto.
Qed.

(** ** The sections of WTF? and O RLY? *)
Lemma branch_sp {A} pb k w (C : token -> block -> A) s : pb_sp pb ->
  sp (fun o => exists o', r_section w k s o' /\ o = omap (option_map (fun '(a, ns) => C a (ASTBlock ns))) o')
     (branch (pb (stop_of k)) w C s).
Proof.
  intros Hpb. destruct s as [c ls]. unfold branch. apply sp_next_if.
  - intros t c' -> Ht. apply sp_empty.
    + intros x r ->. eexists. split; [constructor; exact Ht|]. reflexivity.
    + intros ->. eapply sp_bind; [apply block_of_sp; exact Hpb|..].
      * intros o o' (o1 & Ho & ->) Ha. exists (omap (fun ns => Some (t, ns)) o1). split; [constructor; assumption|].
        destruct o1; inversion Ha; reflexivity.
      * intros b s1 (o1 & Ho & E). destruct o1 as [ns p| |]; try discriminate. injection E as -> ->.
        exists (omap (fun ns => Some (t, ns)) (Done ns p)). split; [constructor; assumption|reflexivity].
  - intros Hn. eexists. split; [constructor; exact Hn|]. reflexivity.
Qed.

Section Cases.
Context {A : Set} (w : keyword) (m : token -> ast_error) (k : kind) (C : token -> expr -> block -> A).
Variable pb : (token -> bool) -> lstate -> res lstate (list node).
Variable loop : nat -> lstate -> res lstate (list A).
Hypothesis Hpb : pb_sp pb.
Variable g : nat.
Hypothesis loop_O : forall s, loop 0 s = RFuel.
Hypothesis loop_S : forall f s, loop (S f) s =
  bind (next_if l_next l_peek (is_kw w)) (fun o => match o with
    | None => ret []
    | Some t => bind (next l_next) (fun o2 => match o2 with
       | None => fail (m t)
       | Some u =>
         bind (expr_parse l_next l_peek g u) (fun e =>
         bind (next_statement_should_be_empty l_next_statement) (fun _ =>
         bind (block_of (pb (stop_of k))) (fun b =>
         bind (loop f) (fun rest => ret (C t e b :: rest)))))
       end)
    end) s.

Lemma cases_sp f : forall s,
  sp (fun o => exists o', r_cases w m k s o' /\ o = omap (map (fun '(a, e, ns) => C a e (ASTBlock ns))) o') (loop f s).
Proof.
  induction f as [|f IH]; intros [c ls]; [rewrite loop_O; exact I|]. rewrite loop_S. apply sp_next_if.
  - intros t c' -> Ht. apply sp_next.
    + intros u c2 ->. eapply sp_line; [apply expr_fl|..].
      * intros x Hx. exists (failed x ls). split; [apply r_cases_expr; [exact Ht|constructor; exact Hx]|].
        destruct x; reflexivity.
      * intros e s1 He. apply expr_sound in He as (o & ts & r & E & -> & He & Hf). rewrite E.
        apply sp_empty.
        -- intros x r' ->. eexists. split; [eapply r_cases_junk; eassumption|]. reflexivity.
        -- intros ->. rewrite app_nil_r. eapply sp_bind; [apply block_of_sp; exact Hpb|..].
           ++ intros o1 o1' (o2 & Ho & ->) Ha.
              destruct o2 as [ns p|e' p|p]; inversion Ha; subst.
              ** exists (Err e' p). split; [|reflexivity]. eapply r_cases_block; try eassumption. constructor.
              ** exists (Crash p). split; [|reflexivity]. eapply r_cases_block; try eassumption. constructor.
           ++ intros b s1 (o2 & Ho & E2). destruct o2 as [ns p| |]; try discriminate. injection E2 as -> ->.
              eapply sp_bind; [apply IH|..].
              ** intros o1 o1' (o3 & Ho3 & ->) Ha. exists (omap (cons (t, e, ns)) o3).
                 split; [eapply r_cases_cons; eassumption|]. destruct o3; inversion Ha; reflexivity.
              ** intros l s1 (o3 & Ho3 & E3). destruct o3 as [l' p'| |]; try discriminate. injection E3 as -> ->.
                 exists (omap (cons (t, e, ns)) (Done l' p')). split; [eapply r_cases_cons; eassumption|]. reflexivity.
    + intros ->. exists (failed (FErr (m t) []) ls). split; [apply r_cases_expr; [exact Ht|constructor]|]. reflexivity.
  - intros Hn. eexists. split; [constructor; exact Hn|]. reflexivity.
Qed.
End Cases.

Lemma omg_sp pb g f s : pb_sp pb ->
  sp (fun o => exists o', r_cases OMG MissingToken SwitchBody s o' /\
        o = omap (map (fun '(a, e, ns) => WtfOmg a e (ASTBlock ns))) o')
     (omg_loop l_next l_peek l_next_statement pb (expr_parse l_next l_peek g) f s).
Proof. intros Hpb. eapply (cases_sp _ _ _ _ _ _ Hpb g); reflexivity. Qed.
Lemma mebbe_sp pb g f s : pb_sp pb ->
  sp (fun o => exists o', r_cases MEBBE (fun m => EORly (MissingMebbeExpression m)) IfBody s o' /\
        o = omap (map (fun '(a, e, ns) => Mebbe a e (ASTBlock ns))) o')
     (mebbe_loop l_next l_peek l_next_statement pb (expr_parse l_next l_peek g) f s).
Proof. intros Hpb. eapply (cases_sp _ _ _ _ _ _ Hpb g); reflexivity. Qed.

(** ** Where blocks end *)
Lemma block_ends_mut :
  (forall k s o, r_block k s o -> forall ns c ls, o = Done ns (c, ls) ->
     c = [] \/ exists t r, c = t :: r /\ closes k t) /\
  (forall k ls o, r_more k ls o -> forall ns c ls', o = Done ns (c, ls') ->
     c = [] \/ exists t r, c = t :: r /\ closes k t).
Proof.
  set (P := fun (k : kind) (s : place) (o : out (list node)) => forall ns c ls, o = Done ns (c, ls) ->
     c = [] \/ exists t r, c = t :: r /\ closes k t).
  set (Q := fun (k : kind) (l : list (list token)) (o : out (list node)) => forall ns c ls, o = Done ns (c, ls) ->
     c = [] \/ exists t r, c = t :: r /\ closes k t).
  pose proof (r_mut (fun _ _ _ => True) P Q (fun _ _ _ _ => True) (fun _ _ _ _ _ => True)) as H.
  enough (HH : (forall l ls o, r_stmt l ls o -> True) /\ (forall k s o, r_block k s o -> P k s o) /\
               (forall k l o, r_more k l o -> Q k l o) /\
               (forall w k s o, r_section w k s o -> True) /\ (forall w m k s o, r_cases w m k s o -> True))
    by (split; apply HH).
  apply H; clear H; try (intros; exact I); unfold P, Q.
  - intros k ls o _ IH ns c ls' E. eapply IH. exact E.
  - intros k t c ls n r ls' o _ _ _ IH ns c' l' E. destruct o as [ms p| |]; try discriminate.
    injection E as _ ->. eapply IH. reflexivity.
  - intros k t c ls n r ls' o _ _ _ IH ns c' l' E. destruct o as [ms p| |]; try discriminate.
    injection E as _ ->. eapply IH. reflexivity.
  - discriminate.
  - intros k ls E ns c ls' H. injection H as _ H. left. rewrite H in E. exact E.
  - intros k t c ls Hc ns c' ls' H. injection H as _ <- _. right. eauto.
  - intros k t c ls o _ _ IH. exact IH.
Qed.
Definition block_ends := proj1 block_ends_mut.

Lemma block_end_kw k s ns t r ls : r_block k s (Done ns (t :: r, ls)) -> closes k t.
Proof.
  intros H. destruct (block_ends _ _ _ H _ _ _ eq_refl) as [E|(u & r' & E & Hc)]; [discriminate|].
  injection E as -> _. exact Hc.
Qed.

Lemma block_no_error k s o : r_block k s o -> forall e p, o <> Err e p.
Proof.
  intros H.
  enough (HH : (forall l ls o, r_stmt l ls o -> True) /\
               (forall k s o, r_block k s o -> forall e p, o <> Err e p) /\
               (forall k l o, r_more k l o -> forall e p, o <> Err e p) /\
               (forall w k s o, r_section w k s o -> True) /\
               (forall w m k s o, r_cases w m k s o -> True)) by (exact (proj1 (proj2 HH) _ _ _ H)).
  clear. apply (r_mut (fun _ _ _ => True) (fun _ _ o => forall e p, o <> Err e p)
               (fun _ _ o => forall e p, o <> Err e p) (fun _ _ _ _ => True) (fun _ _ _ _ _ => True));
    try (intros; exact I); try (intros; discriminate); eauto.
  - intros k t c ls n r ls' o _ _ _ IH e p. destruct o; try discriminate. destruct (IH _ _ eq_refl).
  - intros k t c ls n r ls' o _ _ _ IH e p. destruct o; try discriminate. destruct (IH _ _ eq_refl).
Qed.

(** ** Statements over several lines *)
Lemma as_node_sp {A} (P : out node -> Prop) (g : A -> node) m s :
  sp (fun o => P (omap g o)) (m s) -> sp P (as_node g m s).
Proof. unfold as_node, bind. destruct (m s); cbn; auto. Qed.

Lemma im_in_yr_sp pb f t c ls : pb_sp pb -> kw IM_IN_YR t ->
  sp (fun o => r_stmt (t :: c) ls (omap NImInYr o)) (im_in_yr_parse l_next l_peek l_next_statement pb f t (c, ls)).
Proof.
  intros Hpb Hk. unfold im_in_yr_parse.
  assert (HX : forall x, x_loop t c x -> r_stmt (t :: c) ls (omap NImInYr (failed x ls))).
  { intros x Hx. replace (omap NImInYr (failed x ls)) with (failed (A := node) x ls) by (destruct x; reflexivity).
    apply r_loop_header; assumption. }
  apply sp_next; [intros label c' ->|intros ->; apply (HX (FErr _ _)); constructor].
  destruct (is_identifier label) eqn:Ei.
  2:{ apply (HX (FErr _ _)). constructor. intros H. apply is_identifier_iff in H. congruence. }
  apply is_identifier_iff in Ei.
  eapply sp_line; [apply iteration_fl|intros x Hx; apply HX; constructor; assumption|].
  intros it s1 Hit. apply iteration_reads in Hit as (its & c1 & -> & -> & Hit & Hi1 & Hi2).
  eapply sp_line; [apply condition_fl|intros x Hx; apply HX; econstructor; eassumption|].
  intros cond s1 Hcs. apply condition_reads in Hcs as (cs & r & -> & -> & Hcs & Hc1 & Hc2 & Hc3).
  assert (HH : loop_header (label :: its ++ cs ++ r) label it cond r).
  { exists its, cs. splits; try assumption. intros [H1 H2].
    destruct cs as [|x cs]; [rewrite app_nil_r in H1; apply Hi2; auto|].
    apply Hc3. split; [|exact H2]. apply (proj1 (ends_app its (x :: cs) ltac:(discriminate))). exact H1. }
  apply sp_empty; [intros x r' ->; eapply r_loop_junk; eassumption|intros ->].
  eapply sp_bind; [exact (block_of_sp pb LoopBody _ Hpb)|..].
  { intros o o' (o1 & Ho & ->) Ha. destruct o1 as [ns p|e p|p]; inversion Ha; subst; cbn [omap].
    - destruct (block_no_error _ _ _ Ho _ _ eq_refl).
    - eapply r_loop_crash; eassumption. }
  intros b s1 (o1 & Ho & E). destruct o1 as [ns p| |]; try discriminate. injection E as -> ->.
  destruct p as [c2 ls2]. apply sp_next; [intros imo c3 ->|intros ->; eapply r_loop_unclosed; eassumption].
  apply sp_next; [intros e c4 ->|intros ->; eapply r_loop_no_label; eassumption].
  destruct (is_identifier e) eqn:Ee.
  - apply is_identifier_iff in Ee. eapply r_loop; eassumption.
  - eapply r_loop_bad_label; try eassumption. intros H. apply is_identifier_iff in H. congruence.
Qed.

Lemma how_iz_i_sp pb f t c ls : pb_sp pb -> kw HOW_IZ_I t ->
  sp (fun o => r_stmt (t :: c) ls (omap NHowIzI o)) (how_iz_i_parse l_next l_peek l_next_statement pb f t (c, ls)).
Proof.
  intros Hpb Hk. unfold how_iz_i_parse.
  assert (HX : forall x, x_function t c x -> r_stmt (t :: c) ls (omap NHowIzI (failed x ls))).
  { intros x Hx. replace (omap NHowIzI (failed x ls)) with (failed (A := node) x ls) by (destruct x; reflexivity).
    apply r_function_header; assumption. }
  apply sp_next; [intros u c' ->|intros ->; apply (HX (FErr _ _)); constructor].
  eapply sp_line; [apply identifier_fl|intros x Hx; apply HX; constructor; assumption|].
  intros i s1 Hi. apply identifier_sound in Hi as (ts & c1 & E & -> & Hi). rewrite E in *.
  eapply sp_line; [apply params_fl|intros x Hx; apply HX; econstructor; eassumption|].
  intros is s1 Hp. apply params_reads in Hp as (us & r & -> & -> & Hp & Hs1 & Hs2).
  assert (HH : function_header (ts ++ us ++ r) i is r) by (exists ts, us; splits; assumption).
  apply sp_empty; [intros x r' ->; eapply r_function_junk; eassumption|intros ->].
  eapply sp_bind; [exact (block_of_sp pb FunctionBody _ Hpb)|..].
  { intros o o' (o1 & Ho & ->) Ha. destruct o1 as [ns p|e p|p]; inversion Ha; subst; cbn [omap].
    - destruct (block_no_error _ _ _ Ho _ _ eq_refl).
    - eapply r_function_crash; eassumption. }
  intros b s1 (o1 & Ho & E1). destruct o1 as [ns p| |]; try discriminate. injection E1 as -> ->.
  destruct p as [c2 ls2]. apply sp_next; [intros e c3 ->|intros ->; eapply r_function_unclosed; eassumption].
  pose proof (block_end_kw _ _ _ _ _ _ Ho) as He. cbn [closes] in He. rewrite (kw_eval _ _ He). cbv iota.
  apply sp_empty; [intros x r' ->; eapply r_function_end_junk; eassumption|intros ->].
  eapply r_function; eassumption.
Qed.

Lemma sp_assoc {A B C} (P : out C -> Prop) (m : lstate -> res lstate A) (g : A -> lstate -> res lstate B)
      (h : B -> lstate -> res lstate C) s :
  sp P (bind (bind m g) h s) -> sp P (bind m (fun a => bind (g a) h) s).
Proof. unfold bind. destruct (m s); cbn; auto. Qed.

Lemma aborts_omap {A A' B} (g : A -> A') (o : out A) (o' : out B) : aborts (omap g o) o' -> aborts o o'.
Proof. destruct o; cbn; intros H; inversion H; constructor. Qed.

Lemma aborts_map_node {A B} (g : B -> node) (o : out A) (o' : out B) : aborts o o' -> aborts o (omap g o').
Proof. intros H. destruct H; constructor. Qed.

Lemma wtf_sp pb f t c ls : pb_sp pb -> kw WTF t ->
  sp (fun o => r_stmt (t :: c) ls (omap NWtf o)) (wtf_parse l_next l_peek l_next_statement pb f t (c, ls)).
Proof.
  intros Hpb Hk. unfold wtf_parse.
  eapply sp_line; [apply question_fl|..].
  { intros x Hx. replace (omap NWtf (failed x ls)) with (failed (A := node) x ls) by (destruct x; reflexivity).
    apply r_wtf_question; assumption. }
  intros u0 s1 H. apply question_sound in H as (q & c1 & -> & -> & Hq).
  apply sp_empty; [intros x r ->; apply r_wtf_junk; assumption|intros ->].
  eapply sp_bind; [apply omg_sp; exact Hpb|..].
  { intros o o' (o1 & Ho & ->) Ha. apply aborts_omap in Ha.
    eapply r_wtf_cases; try eassumption. apply aborts_map_node. exact Ha. }
  intros omgs p (o1 & Ho & E). destruct o1 as [l p1| |]; try discriminate. injection E as -> ->.
  apply sp_assoc. eapply sp_bind; [exact (branch_sp pb SwitchBody OMGWTF WtfOmgWtf _ Hpb)|..].
  { intros o o' (o2 & Ho2 & ->) Ha. apply aborts_omap in Ha.
    eapply r_wtf_default; try eassumption. apply aborts_map_node. exact Ha. }
  intros d p2 (o2 & Ho2 & E). destruct o2 as [d' p3| |]; try discriminate. injection E as -> ->.
  eapply sp_bind; [apply oic_sp|..].
  { intros o o' Ho3 Ha. eapply r_wtf_closing; try eassumption. apply aborts_map_node. exact Ha. }
  intros [] [r ls'] Ho3.
  apply sp_empty; [intros x r' ->; eapply r_wtf_end_junk; eassumption|intros ->].
  eapply r_wtf; eassumption.
Qed.

Lemma o_rly_sp pb f t c ls : pb_sp pb -> kw O_RLY t ->
  sp (fun o => r_stmt (t :: c) ls (omap NORly o)) (o_rly_parse l_next l_peek l_next_statement pb f t (c, ls)).
Proof.
  intros Hpb Hk. unfold o_rly_parse.
  eapply sp_line; [apply question_fl|..].
  { intros x Hx. replace (omap NORly (failed x ls)) with (failed (A := node) x ls) by (destruct x; reflexivity).
    apply r_o_rly_question; assumption. }
  intros u0 s1 H. apply question_sound in H as (q & c1 & -> & -> & Hq).
  apply sp_empty; [intros x r ->; apply r_o_rly_junk; assumption|intros ->].
  apply sp_assoc. eapply sp_bind; [exact (branch_sp pb IfBody YA_RLY YaRly _ Hpb)|..].
  { intros o o' (o2 & Ho2 & ->) Ha. apply aborts_omap in Ha.
    eapply r_o_rly_yes; try eassumption. apply aborts_map_node. exact Ha. }
  intros y p2 (o2 & Hy & E). destruct o2 as [y' p3| |]; try discriminate. injection E as -> ->.
  eapply sp_bind; [apply mebbe_sp; exact Hpb|..].
  { intros o o' (o1 & Ho & ->) Ha. apply aborts_omap in Ha.
    eapply r_o_rly_mebbes; try eassumption. apply aborts_map_node. exact Ha. }
  intros ms p (o1 & Hms & E). destruct o1 as [l p1| |]; try discriminate. injection E as -> ->.
  apply sp_assoc. eapply sp_bind; [exact (branch_sp pb IfBody NO_WAI NoWai _ Hpb)|..].
  { intros o o' (o2 & Ho2 & ->) Ha. apply aborts_omap in Ha.
    eapply r_o_rly_no; try eassumption. apply aborts_map_node. exact Ha. }
  intros n p2 (o2 & Hno & E). destruct o2 as [n' p4| |]; try discriminate. injection E as -> ->.
  eapply sp_bind; [apply oic_sp|..].
  { intros o o' Ho3 Ha. eapply r_o_rly_closing; try eassumption. apply aborts_map_node. exact Ha. }
  intros [] p5 Ho3. eapply r_o_rly; eassumption.
Qed.

(** ** All statements *)
Lemma hai_sp t c ls : kw HAI t ->
  sp (fun o => r_stmt (t :: c) ls (omap NHai o)) (hai_parse l_next_statement t (c, ls)).
Proof. intros Hk. exact (r_hai t c ls Hk). Qed.

Lemma multi_line_dec t : multi_line t \/ ~ multi_line t.
Proof.
  unfold multi_line, kw. destruct (tok_type t) as [|k| | | | | | | | |]; try (right; intros H; decompose [or] H; discriminate).
  destruct k; try (right; intros H; decompose [or] H; discriminate); left; tauto.
Qed.

Theorem statement_sp f : ps_sp (parse_statement l_next l_peek l_next_statement f).
Proof.
  induction f as [|f IH]; intros t c ls; [exact I|].
  destruct (multi_line_dec t) as [Hm|Hm].
  - cbn [parse_statement]. pose proof (block_sp _ IH f) as Hpb.
    assert (Hv : va_is_valid t = false).
    { destruct Hm as [Hk|[Hk|[Hk|[Hk|Hk]]]]; apply (not_valid_kw _ _ Hk); discriminate. }
    rewrite Hv. destruct Hm as [Hk|[Hk|[Hk|[Hk|Hk]]]]; pose proof Hk as Hk'; unfold kw in Hk'; rewrite Hk';
      apply as_node_sp; first [apply hai_sp; exact Hk|apply im_in_yr_sp; assumption|apply how_iz_i_sp; assumption
                              |apply wtf_sp; assumption|apply o_rly_sp; assumption].
  - eapply sp_of_fl; [apply single_fl; exact Hm|..].
    + intros x Hx. apply r_fails. exact Hx.
    + intros n s H. destruct (single_reads _ _ _ _ _ _ Hm H) as (r & -> & Hr). constructor. exact Hr.
Qed.
