(** What the whole parser does with the tokens of the lines: it stores a
    subsequence of them, reports the unread ends of lines, and panics only in
    two situations. *)
From Coq Require Import Lia.
From Verif Require Import Lines LinesSim ParseFuel Grammar ExprGrammar LineGrammar NodeKind LineTrace.

Definition stream (s : lstate) : list token := fst s ++ concat (snd s).

(** [L]: all the lines. *)
Definition part_of (L : list (list token)) (c : list token) : Prop := exists p, In (p ++ c) L.
Definition ok_error (L : list (list token)) (e : ast_error) : Prop :=
  match e with TooManyTokens l => l <> [] /\ part_of L l | _ => True end.
Definition ok_panic (L : list (list token)) (c : panic_cause) : Prop :=
  match c with
  | PanicMaek t => kw MAEK t /\ In t (concat L)
  | PanicUnreachable v u =>
    exists ts rest, In (ts ++ u :: rest) L /\ d_va ts v /\ ~ kw R u /\ ~ kw HAS_A u
  end.

Section Trace.
  Variable L : list (list token).
  Notation parse_stmt f := (parse_statement l_next l_peek l_next_statement f).
  Notation parse_blk f g := (fun stop => parse_block l_next l_peek l_next_statement f stop g).

  Definition Inv (s : lstate) : Prop := (fst s = [] \/ part_of L (fst s)) /\ incl (snd s) L.
  Definition Start (s : lstate) : Prop := (fst s = [] \/ In (fst s) L) /\ incl (snd s) L.

  Lemma start_inv s : Start s -> Inv s.
  Proof. intros [[H|H] H']; split; auto. right. exists []. exact H. Qed.
  Lemma inv_in s t c : Inv s -> fst s = t :: c -> In t (concat L).
  Proof.
    intros [[H|[p H]] _] E; rewrite E in *; [discriminate|]. apply in_concat. exists (p ++ t :: c).
    split; [exact H|]. apply in_or_app. right. left. reflexivity.
  Qed.
  Lemma inv_incl s : Inv s -> incl (fst s) (concat L).
  Proof.
    intros [[H|[p H]] _]; [rewrite H; intros ? []|]. intros t Ht. apply in_concat. exists (p ++ fst s).
    split; [exact H|]. apply in_or_app. auto.
  Qed.
  Lemma inv_drop s s' used : Inv s -> fst s = used ++ fst s' -> snd s' = snd s -> Inv s'.
  Proof.
    intros [H H'] E E'. unfold Inv. rewrite E'. split; [|exact H']. rewrite E in H. destruct H as [H|[p H]].
    - left. apply app_eq_nil in H. tauto.
    - right. exists (p ++ used). rewrite <- app_assoc. exact H.
  Qed.
  Lemma start_l_start ls : incl ls L -> Start (l_start ls).
  Proof.
    intros H. destruct ls as [|l ls]; cbn; split; cbn; auto.
    - right. apply H. left. reflexivity.
    - intros x Hx. apply H. right. exact Hx.
  Qed.
  Lemma stream_start s : stream s = fst s ++ stream (l_start (snd s)).
  Proof. destruct s as [c [|l ls]]; reflexivity. Qed.

  Definition tr {A} (pre : list token) (m : lstate -> res lstate A) (tk : A -> list token) (Q : A -> Prop)
             (s : lstate) : Prop :=
    match m s with
    | ROk a s' => Inv s' /\ (exists used, stream s = used ++ stream s' /\ Subseq (tk a) (pre ++ used)) /\ Q a
    | RErr e s' => Inv s' /\ (exists used, stream s = used ++ stream s' /\ Subseq (error_tokens e) (pre ++ used)) /\
                   ok_error L e
    | RPanic c => ok_panic L c
    | RFuel => True
    end.

  Lemma tr_bind {A B} pre p (m : lstate -> res lstate A) tka (QA : A -> Prop) (k : A -> lstate -> res lstate B) tkb QB s :
    tr p m tka QA s -> (forall a s', Inv s' -> QA a -> tr (pre ++ tka a) (k a) tkb QB s') ->
    tr (pre ++ p) (bind m k) tkb QB s.
  Proof.
    intros Hm Hk. unfold tr, bind in *. destruct (m s) as [a s1|e s1|c|]; try exact Hm.
    - destruct Hm as (Hi & (u & E & Hs) & Hq). specialize (Hk a s1 Hi Hq).
      assert (HS : forall x u', Subseq x ((pre ++ tka a) ++ u') -> Subseq x ((pre ++ p) ++ u ++ u')).
      { intros x u' Hx. eapply subseq_trans; [exact Hx|].
        replace ((pre ++ p) ++ u ++ u') with ((pre ++ (p ++ u)) ++ u') by (rewrite <- !app_assoc; reflexivity).
        apply subseq_app; [apply subseq_app_same; exact Hs|apply subseq_refl]. }
      destruct (k a s1) as [b s2|e s2|c|]; [| |exact Hk|exact I].
      + destruct Hk as (Hi' & (u' & E' & Hs') & Hq'). splits; auto. exists (u ++ u').
        rewrite E, E', app_assoc. auto.
      + destruct Hk as (Hi' & (u' & E' & Hs') & Hq'). splits; auto. exists (u ++ u').
        rewrite E, E', app_assoc. auto.
    - destruct Hm as (Hi & (u & E & Hs) & Hq). splits; auto. exists u. split; [exact E|].
      rewrite <- app_assoc. apply subseq_skip_app. exact Hs.
  Qed.
  Lemma tr_bind0 {A B} pre (m : lstate -> res lstate A) tka (QA : A -> Prop) (k : A -> lstate -> res lstate B) tkb QB s :
    tr [] m tka QA s -> (forall a s', Inv s' -> QA a -> tr (pre ++ tka a) (k a) tkb QB s') ->
    tr pre (bind m k) tkb QB s.
  Proof. intros. rewrite <- (app_nil_r pre). apply tr_bind with (tka := tka) (QA := QA); assumption. Qed.

  Lemma lin_tr {A} pre (m : lstate -> res lstate A) tk (Q : A -> Prop) s :
    Inv s -> incl pre (concat L) -> lin pre m tk s -> (forall a, Q a) -> tr pre m tk Q s.
  Proof.
    intros Hi Hp H HQ. unfold lin, tr in *.
    assert (HE : forall s' used, fst s = used ++ fst s' -> snd s' = snd s -> stream s = used ++ stream s').
    { intros s' u E E'. unfold stream. rewrite E, E', app_assoc. reflexivity. }
    destruct (m s) as [a s'|e s'|c|].
    - destruct H as (u & E & E' & Hs). splits; auto; [eapply inv_drop; eassumption|].
      exists u. auto.
    - destruct H as (u & E & E' & Hs & Hn). splits; auto; [eapply inv_drop; eassumption| |].
      + exists u. auto.
      + destruct e; try exact I. destruct Hn.
    - destruct H as (t & -> & Ht & Hin). split; [exact Ht|]. apply in_app_or in Hin as [Hin|Hin]; [auto|].
      eapply inv_incl; eassumption.
    - exact I.
  Qed.
  Lemma tr_ret {A} pre (a : A) tk (Q : A -> Prop) s : Inv s -> Subseq (tk a) pre -> Q a -> tr pre (ret a) tk Q s.
  Proof. intros Hi H Hq. unfold tr, ret. splits; auto. exists []. rewrite app_nil_r. auto. Qed.
  Lemma tr_fail {A} pre e tk (Q : A -> Prop) s : Inv s -> Subseq (error_tokens e) pre -> not_too_many e ->
    tr pre (fail e) tk Q s.
  Proof.
    intros Hi H Hn. unfold tr, fail. splits; auto; [exists []; rewrite app_nil_r; auto|].
    destruct e; try exact I. destruct Hn.
  Qed.
  Lemma tr_step {A B} pre (m : lstate -> res lstate A) (k : A -> lstate -> res lstate B) tkb QB s a s' used :
    m s = ROk a s' -> stream s = used ++ stream s' ->
    tr (pre ++ used) (k a) tkb QB s' -> tr pre (bind m k) tkb QB s.
  Proof.
    intros E Es H. unfold tr, bind in *. rewrite E. destruct (k a s') as [b s2|e s2|c|]; try exact H.
    - destruct H as (Hi & (u' & E' & Hs') & Hq). splits; auto. exists (used ++ u'). rewrite Es, E', app_assoc.
      split; [reflexivity|]. rewrite app_assoc. exact Hs'.
    - destruct H as (Hi & (u' & E' & Hs') & Hq). splits; auto. exists (used ++ u'). rewrite Es, E', app_assoc.
      split; [reflexivity|]. rewrite app_assoc. exact Hs'.
  Qed.
  Lemma tr_next {B} pre (k : option token -> lstate -> res lstate B) tkb QB s : Inv s ->
    (forall t s', Inv s' -> In t (concat L) -> tr (pre ++ [t]) (k (Some t)) tkb QB s') ->
    (forall s', Inv s' -> tr pre (k None) tkb QB s') ->
    tr pre (bind (next l_next) k) tkb QB s.
  Proof.
    intros Hi H1 H2. destruct s as [[|t c] ls].
    - eapply (tr_step _ _ _ _ _ _ _ _ []); [reflexivity|reflexivity|]. rewrite app_nil_r. apply H2. exact Hi.
    - eapply (tr_step _ _ _ _ _ _ _ _ [t]); [reflexivity|reflexivity|].
      apply H1; [eapply (inv_drop _ _ [t] Hi); reflexivity|]. eapply (inv_in (t :: c, ls)); [exact Hi|reflexivity].
  Qed.
  Lemma tr_next_if {B} pre f (k : option token -> lstate -> res lstate B) tkb QB s : Inv s ->
    (forall t s', Inv s' -> In t (concat L) -> tr (pre ++ [t]) (k (Some t)) tkb QB s') ->
    (forall s', Inv s' -> tr pre (k None) tkb QB s') ->
    tr pre (bind (next_if l_next l_peek f) k) tkb QB s.
  Proof.
    intros Hi H1 H2. destruct s as [[|t c] ls]; [|destruct (f t) eqn:E].
    - eapply (tr_step _ _ _ _ _ _ _ _ []); [reflexivity|reflexivity|]. rewrite app_nil_r. apply H2. exact Hi.
    - eapply (tr_step _ _ _ _ _ _ _ _ [t]); [apply next_if_yes; exact E|reflexivity|].
      apply H1; [eapply (inv_drop _ _ [t] Hi); reflexivity|]. eapply (inv_in (t :: c, ls)); [exact Hi|reflexivity].
    - eapply (tr_step _ _ _ _ _ _ _ (t :: c, ls) []); [|reflexivity|].
      + apply next_if_no. intros u c' E'. injection E' as <- _. exact E.
      + rewrite app_nil_r. apply H2. exact Hi.
  Qed.

  (** The end of a line. *)
  Lemma tr_empty {B} pre (k : unit -> lstate -> res lstate B) tkb QB s : Inv s ->
    (forall s', Start s' -> tr pre (k tt) tkb QB s') ->
    tr pre (bind (next_statement_should_be_empty l_next_statement) k) tkb QB s.
  Proof.
    intros Hi H. pose proof (start_l_start (snd s) (proj2 Hi)) as HS. destruct s as [[|t c] ls].
    - eapply (tr_step _ _ _ _ _ _ _ _ []); [reflexivity| |].
      + apply stream_start.
      + rewrite app_nil_r. apply H. exact HS.
    - unfold tr, bind, next_statement_should_be_empty, next_statement, bind, l_next_statement, fail.
      cbn [fst snd]. splits; [apply start_inv; exact HS| |].
      + exists (t :: c). split; [apply stream_start|]. cbn [error_tokens]. apply subseq_skip_app, subseq_refl.
      + cbn. split; [discriminate|]. destruct Hi as [[Hi|Hi] _]; [discriminate Hi|exact Hi].
  Qed.

  (** ** Blocks *)
  Definition tk_nodes (ns : list node) : list token := flat_map node_tokens ns.
  Definition ok_one (n : node) : Prop :=
    match n with NASTError e => ok_error L e | _ => exists t c, In (t :: c) L /\ announced L t n end.
  Definition ok_nodes (ns : list node) : Prop := Forall ok_one (flat_map node_all ns).
  Definition ok_node (n : node) : Prop := Forall ok_one (node_all n).
  Definition ok_inner (n : node) : Prop := Forall ok_one (tl (node_all n)).
  Definition ok_block (b : block) : Prop := Forall ok_one (block_all b).

  (** A statement is parsed at the beginning of a line. *)
  Definition at_line (t : token) (s : lstate) : Prop := In (t :: fst s) L /\ incl (snd s) L.
  Definition ps_ok (ps : token -> lstate -> res lstate node) : Prop :=
    forall t s, at_line t s -> tr [t] (ps t) node_tokens ok_node s.
  Definition pb_ok (pb : (token -> bool) -> lstate -> res lstate (list node)) : Prop :=
    forall stop s, Start s -> tr [] (pb stop) tk_nodes ok_nodes s.

  Lemma at_line_inv t s : at_line t s -> Inv s.
  Proof. intros [H H']. split; [|exact H']. right. exists [t]. exact H. Qed.
  Lemma at_line_in t s : at_line t s -> In t (concat L).
  Proof. intros [H _]. apply in_concat. eexists. split; [exact H|left; reflexivity]. Qed.

  Lemma tr_catch t m s : tr [t] m node_tokens ok_node s -> tr [t] (catch m) node_tokens ok_node s.
  Proof.
    unfold tr, catch. destruct (m s) as [a s'|e s'|c|]; auto. intros (Hi & Hs & He).
    splits; auto. unfold ok_node. cbn. constructor; [exact He|constructor].
  Qed.
  Lemma tr_end {B} pre (k : list node -> lstate -> res lstate B) tkb QB s : Inv s ->
    (forall ns s', Start s' -> ok_nodes ns -> tr (pre ++ tk_nodes ns) (k ns) tkb QB s') ->
    tr pre (bind (end_of_statement l_next_statement) k) tkb QB s.
  Proof.
    intros Hi H. pose proof (start_l_start (snd s) (proj2 Hi)) as HS. destruct s as [[|t c] ls].
    - eapply (tr_step _ _ _ _ _ _ _ _ []); [reflexivity|apply stream_start|].
      apply H; [exact HS|constructor].
    - eapply (tr_step _ _ _ _ _ _ _ _ (t :: c)); [reflexivity|apply stream_start|].
      specialize (H [NASTError (TooManyTokens (t :: c))] _ HS). unfold tk_nodes in H. cbn in H.
      rewrite app_nil_r in H. apply H. unfold ok_nodes. cbn. constructor; [|constructor].
      split; [discriminate|]. destruct Hi as [[Hi|Hi] _]; [discriminate Hi|exact Hi].
  Qed.
  Lemma tk_nodes_app a b : tk_nodes (a ++ b) = tk_nodes a ++ tk_nodes b.
  Proof. apply flat_map_app. Qed.
  Lemma ok_nodes_app a b : ok_nodes a -> ok_nodes b -> ok_nodes (a ++ b).
  Proof. unfold ok_nodes. rewrite flat_map_app. intros. apply Forall_app. auto. Qed.

  Lemma block_ok ps g : ps_ok ps -> pb_ok (parse_blk ps g).
  Proof.
    intros Hps. induction g as [|g IH]; intros stop s Hs; [exact I|]. cbn [parse_block].
    assert (HT : forall p stmt s, Subseq (tk_nodes stmt) p -> ok_nodes stmt -> Inv s ->
      tr p
     (errs <- end_of_statement l_next_statement;; p <- peek l_peek;;
     match p with
     | Some t => if stop t then ret (stmt ++ errs)
                 else rest <- parse_block l_next l_peek l_next_statement ps stop g;;
                      ret (stmt ++ errs ++ rest)
     | None => ret (stmt ++ errs)
     end)%parser tk_nodes ok_nodes s).
    { intros p stmt s1 Hsub Hok Hi. apply tr_end; [exact Hi|]. intros errs s2 Hs2 Herrs.
      assert (HR : tr (p ++ tk_nodes errs) (ret (stmt ++ errs)) tk_nodes ok_nodes s2).
      { apply tr_ret; [apply start_inv; exact Hs2| |apply ok_nodes_app; assumption].
        rewrite tk_nodes_app. apply subseq_app; [exact Hsub|apply subseq_refl]. }
      eapply (tr_step _ _ _ _ _ _ (hd_error (fst s2)) s2 []).
      { destruct s2 as [[|t c] ls]; reflexivity. }
      { reflexivity. }
      rewrite app_nil_r. destruct s2 as [[|t c] ls]; cbn [fst hd_error]; [exact HR|].
      destruct (stop t); [exact HR|].
      eapply tr_bind0; [apply IH; exact Hs2|]. intros rest s3 Hi3 Hrest.
      apply tr_ret; [exact Hi3| |repeat apply ok_nodes_app; assumption].
      rewrite !tk_nodes_app, app_assoc. apply subseq_app; [|apply subseq_refl].
      apply subseq_app; [exact Hsub|apply subseq_refl]. }
    destruct s as [[|t c] ls].
    - eapply (tr_step _ _ _ _ _ _ _ _ []); [reflexivity|reflexivity|]. cbn [app].
      exact (HT [] [] _ (sub_nil _) (Forall_nil _) (start_inv _ Hs)).
    - eapply (tr_step _ _ _ _ _ _ _ (c, ls) [t]); [reflexivity|reflexivity|]. cbn [app].
      assert (Ha : at_line t (c, ls)).
      { destruct Hs as [[Hs|Hs] Hl]; [discriminate Hs|]. split; assumption. }
      pose proof (tr_catch _ _ _ (Hps t (c, ls) Ha)) as Hc.
      eapply (tr_bind [] [t] _ tk_nodes ok_nodes).
      + eapply (tr_bind [] [t]); [exact Hc|]. intros n s' Hi Hn. apply tr_ret; [exact Hi| |].
        * unfold tk_nodes. cbn. rewrite app_nil_r. apply subseq_refl.
        * unfold ok_nodes. cbn. rewrite app_nil_r. exact Hn.
      + intros stmt s' Hi Hn. apply HT; [apply subseq_refl|assumption|assumption].
  Qed.

  (** ** Block statements *)
  Ltac subs2 := cbn [im_in_yr_tokens how_iz_i_tokens wtf_tokens wtf_omg_tokens wtf_omg_wtf_tokens o_rly_tokens
     ya_rly_tokens no_wai_tokens mebbe_tokens block_tokens]; subs.
  Ltac tstep :=
    lazymatch goal with
    | |- tr _ (bind (next _) _) _ _ _ => apply tr_next; [assumption|intros|intros]
    | |- tr _ (bind (next_if _ _ _) _) _ _ _ => apply tr_next_if; [assumption|intros|intros]
    | |- tr _ (bind (next_statement_should_be_empty _) _) _ _ _ => apply tr_empty; [assumption|intros]
    | |- tr _ (fail _) _ _ _ => apply tr_fail; [assumption| |exact I]
    | |- tr _ (match ?o with _ => _ end) _ _ _ => destruct o eqn:?
    | |- tr _ (if ?o then _ else _) _ _ _ => destruct o eqn:?
    end.

  (** A call within the line, with and without its first token. *)
  Lemma tr_line {A B} pre t (m : lstate -> res lstate A) tka (k : A -> lstate -> res lstate B) tkb QB s :
    lin [t] m tka s -> Inv s -> In t (concat L) ->
    (forall a s', Inv s' -> tr (pre ++ tka a) (k a) tkb QB s') -> tr (pre ++ [t]) (bind m k) tkb QB s.
  Proof.
    intros Hm Hi Ht Hk. eapply tr_bind with (QA := fun _ => True); [|intros; apply Hk; assumption].
    apply lin_tr; auto. intros x [<-|[]]. exact Ht.
  Qed.
  Lemma tr_line0 {A B} pre (m : lstate -> res lstate A) tka (k : A -> lstate -> res lstate B) tkb QB s :
    lin [] m tka s -> Inv s ->
    (forall a s', Inv s' -> tr (pre ++ tka a) (k a) tkb QB s') -> tr pre (bind m k) tkb QB s.
  Proof.
    intros Hm Hi Hk. eapply tr_bind0 with (QA := fun _ => True); [|intros; apply Hk; assumption].
    apply lin_tr; auto. intros x [].
  Qed.
  (** A call that takes no token and stores none but [t] in errors. *)
  Lemma tr_check {B} pre t (m : lstate -> res lstate unit) (k : unit -> lstate -> res lstate B) tkb QB s :
    lin [t] m (fun _ => []) s -> Inv s -> In t (concat L) -> In t pre ->
    (forall s', Inv s' -> tr pre (k tt) tkb QB s') -> tr pre (bind m k) tkb QB s.
  Proof.
    intros Hm Hi Ht Hpre Hk. unfold lin in Hm. unfold tr, bind.
    destruct (m s) as [[] s1|e s1|c|].
    - destruct Hm as (u & E & E' & _). specialize (Hk s1 (inv_drop _ _ _ Hi E E')).
      assert (ES : stream s = u ++ stream s1) by (unfold stream; rewrite E, E', app_assoc; reflexivity).
      unfold tr in Hk. destruct (k tt s1) as [b s2|e s2|c|]; try exact Hk.
      all: destruct Hk as (Hi' & (u' & E2 & Hs') & Hq'); splits; auto; exists (u ++ u');
        (split; [rewrite ES, E2, app_assoc; reflexivity|]); eapply subseq_trans; [exact Hs'|];
        apply subseq_app_same, subseq_skip_app, subseq_refl.
    - destruct Hm as (u & E & E' & Hs & Hn). splits; [exact (inv_drop _ _ _ Hi E E')| |destruct e; try exact I; destruct Hn].
      exists u. split; [unfold stream; rewrite E, E', app_assoc; reflexivity|].
      eapply subseq_trans; [exact Hs|]. apply subseq_app; [apply subseq_in; exact Hpre|apply subseq_refl].
    - destruct Hm as (t' & -> & Hk' & Hin). split; [exact Hk'|]. apply in_app_or in Hin as [[<-|[]]|Hin]; [exact Ht|].
      eapply inv_incl; eassumption.
    - exact I.
  Qed.
  (** A block. *)
  Lemma tr_block {B} pre pb stop (k : block -> lstate -> res lstate B) tkb QB s : pb_ok pb -> Start s ->
    (forall b s', Inv s' -> ok_block b -> tr (pre ++ block_tokens b) (k b) tkb QB s') ->
    tr pre (bind (block_of (pb stop)) k) tkb QB s.
  Proof.
    intros Hpb Hs Hk. eapply tr_bind0 with (tka := block_tokens) (QA := ok_block); [|exact Hk].
    unfold block_of. eapply tr_bind0; [apply Hpb; exact Hs|]. intros l s' Hi Hl. cbn [app].
    apply tr_ret; [exact Hi|apply subseq_refl|exact Hl].
  Qed.
  Ltac blk Hpb := apply tr_block; [exact Hpb|assumption|].

  Section Statements.
    Variable pb : (token -> bool) -> lstate -> res lstate (list node).
    Hypothesis Hpb : pb_ok pb.

    Lemma tr_im_in_yr f t s : Inv s ->
      tr [t] (im_in_yr_parse l_next l_peek l_next_statement pb f t) im_in_yr_tokens (fun x => ok_inner (NImInYr x)) s.
    Proof.
      intros Hi. unfold im_in_yr_parse. repeat tstep; try one.
      eapply tr_line0; [apply lin_iteration|assumption|]. intros it s1 Hi1.
      eapply tr_line0; [apply lin_conditional|assumption|]. intros cond s2 Hi2.
      tstep. blk Hpb. intros b s3 Hi3 Hb.
      repeat tstep; try one. apply tr_ret; [assumption| |exact Hb]. subs2.
    Qed.
    Lemma tr_how_iz_i f t s : Inv s ->
      tr [t] (how_iz_i_parse l_next l_peek l_next_statement pb f t) how_iz_i_tokens (fun x => ok_inner (NHowIzI x)) s.
    Proof.
      intros Hi. unfold how_iz_i_parse. repeat tstep; try one.
      eapply tr_line; [apply lin_identifier|assumption|assumption|]. intros i s1 Hi1.
      eapply tr_line0; [apply lin_how_iz_i_loop|assumption|]. intros l s2 Hi2.
      tstep. blk Hpb. intros b s3 Hi3 Hb.
      repeat tstep; try one. apply tr_ret; [apply start_inv; assumption| |exact Hb]. subs2.
    Qed.
    Lemma tr_omg_loop f g : forall s, Inv s ->
      tr [] (omg_loop l_next l_peek l_next_statement pb (expr_parse l_next l_peek f) g) (flat_map wtf_omg_tokens)
        (fun l => Forall (fun x => match x with WtfOmg _ _ b => ok_block b end) l) s.
    Proof.
      induction g as [|g IH]; intros s Hi; [exact I|]. cbn [omg_loop]. repeat tstep; try one.
      - eapply tr_line; [apply lin_expr|assumption|assumption|]. intros e s1 Hi1.
        tstep. blk Hpb. intros b s3 Hi3 Hb. eapply tr_bind0; [apply IH; assumption|].
        intros l s4 Hi4 Hl. apply tr_ret; [assumption| |constructor; assumption]. cbn [flat_map]. subs2.
      - apply tr_ret; [assumption|subs|constructor].
    Qed.
    Lemma tr_mebbe_loop f g : forall s, Inv s ->
      tr [] (mebbe_loop l_next l_peek l_next_statement pb (expr_parse l_next l_peek f) g) (flat_map mebbe_tokens)
        (fun l => Forall (fun x => match x with Mebbe _ _ b => ok_block b end) l) s.
    Proof.
      induction g as [|g IH]; intros s Hi; [exact I|]. cbn [mebbe_loop]. repeat tstep; try one.
      - eapply tr_line; [apply lin_expr|assumption|assumption|]. intros e s1 Hi1.
        tstep. blk Hpb. intros b s3 Hi3 Hb. eapply tr_bind0; [apply IH; assumption|].
        intros l s4 Hi4 Hl. apply tr_ret; [assumption| |constructor; assumption]. cbn [flat_map]. subs2.
      - apply tr_ret; [assumption|subs|constructor].
    Qed.
    Lemma forall_flat {A} (f : A -> list node) (P : A -> Prop) l :
      (forall x, P x -> Forall ok_one (f x)) -> Forall P l -> Forall ok_one (flat_map f l).
    Proof. intros H HF. induction HF; cbn; [constructor|]. apply Forall_app. auto. Qed.

    Lemma tr_wtf f t s : Inv s -> In t (concat L) ->
      tr [t] (wtf_parse l_next l_peek l_next_statement pb f t) wtf_tokens (fun x => ok_inner (NWtf x)) s.
    Proof.
      intros Hi Ht. unfold wtf_parse.
      eapply tr_check; [apply lin_question|assumption|assumption|left; reflexivity|]. intros s1 Hi1.
      tstep. apply start_inv in H.
      eapply tr_bind0; [apply tr_omg_loop; assumption|]. intros omgs s2 Hi2 Homgs.
      assert (HF : forall p d s, In t p -> Inv s ->
         Subseq (wtf_tokens (Wtf t omgs d)) p ->
         match d with Some (WtfOmgWtf _ b) => ok_block b | None => True end ->
         tr p (oic l_next t;;; next_statement_should_be_empty l_next_statement;;; ret (Wtf t omgs d))%parser
            wtf_tokens (fun x => ok_inner (NWtf x)) s).
      { intros p d s3 Hp Hi3 Hs Hd. eapply tr_check; [apply lin_oic|assumption|assumption|assumption|]. intros s4 Hi4.
        tstep. apply tr_ret; [apply start_inv; assumption|assumption|].
        unfold ok_inner. cbn [node_all tl]. apply Forall_app. split.
        - eapply forall_flat; [|exact Homgs]. intros [] Hx. exact Hx.
        - destruct d as [[]|]; [exact Hd|constructor]. }
      tstep.
      - eapply (tr_bind _ [t0] _ (fun d => match d with Some d => wtf_omg_wtf_tokens d | None => [] end)
          (fun d => match d with Some (WtfOmgWtf _ b) => ok_block b | None => True end)).
        + tstep. blk Hpb. intros b s3 Hi3 Hb. apply tr_ret; [assumption|apply subseq_refl|exact Hb].
        + intros d s3 Hi3 Hd. apply HF; [|assumption| |assumption].
          * repeat rewrite in_app_iff. cbn. auto.
          * subs2.
      - eapply tr_bind0 with (tka := fun _ => []) (QA := fun d => d = None).
        + apply tr_ret; [assumption|constructor|reflexivity].
        + intros d s3 Hi3 ->. apply HF; [|assumption| |exact I].
          * repeat rewrite in_app_iff. cbn. auto.
          * subs2.
    Qed.

    Lemma tr_o_rly f t s : Inv s -> In t (concat L) ->
      tr [t] (o_rly_parse l_next l_peek l_next_statement pb f t) o_rly_tokens (fun x => ok_inner (NORly x)) s.
    Proof.
      intros Hi Ht. unfold o_rly_parse.
      eapply tr_check; [apply lin_question|assumption|assumption|left; reflexivity|]. intros s1 Hi1.
      tstep. apply start_inv in H.
      assert (H3 : forall yes mebbes p no s, In t p -> Inv s ->
         match yes with Some (YaRly _ b) => ok_block b | None => True end ->
         Forall (fun x => match x with Mebbe _ _ b => ok_block b end) mebbes ->
         match no with Some (NoWai _ b) => ok_block b | None => True end ->
         Subseq (o_rly_tokens (ORly t yes no mebbes)) p ->
         tr p (oic l_next t;;; ret (ORly t yes no mebbes))%parser
            o_rly_tokens (fun x => ok_inner (NORly x)) s).
      { intros yes mebbes p no s3 Hp Hi3 Hy Hm Hn Hs.
        eapply tr_check; [apply lin_oic|assumption|assumption|assumption|]. intros s4 Hi4.
        apply tr_ret; [assumption|assumption|].
        unfold ok_inner. cbn [node_all tl]. rewrite !Forall_app. splits.
        - destruct yes as [[]|]; [exact Hy|constructor].
        - eapply forall_flat; [|exact Hm]. intros [] Hx. exact Hx.
        - destruct no as [[]|]; [exact Hn|constructor]. }
      assert (H2 : forall yes p s, In t p -> Inv s ->
         match yes with Some (YaRly _ b) => ok_block b | None => True end ->
         Subseq (t :: match yes with Some y => ya_rly_tokens y | None => [] end) p ->
         tr p (mebbes <- mebbe_loop l_next l_peek l_next_statement pb (expr_parse l_next l_peek f) f;;
               o2 <- next_if l_next l_peek (is_kw NO_WAI);;
               if_false <- match o2 with
               | Some no_wai_token =>
                 next_statement_should_be_empty l_next_statement;;;
                 b <- block_of (pb stop_if);; ret (Some (NoWai no_wai_token b))
               | None => ret None
               end;;
               oic l_next t;;; ret (ORly t yes if_false mebbes))%parser
            o_rly_tokens (fun x => ok_inner (NORly x)) s).
      { intros yes p s3 Hp Hi3 Hy Hs.
        eapply tr_bind0; [apply tr_mebbe_loop; assumption|]. intros mebbes s4 Hi4 Hm.
        tstep.
        - eapply (tr_bind _ [t0] _ (fun d => match d with Some d => no_wai_tokens d | None => [] end)
            (fun d => match d with Some (NoWai _ b) => ok_block b | None => True end)).
          + tstep. blk Hpb. intros b s6 Hi6 Hb. apply tr_ret; [assumption|apply subseq_refl|exact Hb].
          + intros d s6 Hi6 Hd. apply H3; try assumption; [repeat rewrite in_app_iff; auto|].
            cbn [o_rly_tokens]. rewrite app_assoc, app_comm_cons. apply subseq_app; [|apply subseq_refl].
            rewrite app_comm_cons. apply subseq_app; [assumption|apply subseq_refl].
        - eapply tr_bind0 with (tka := fun _ => []) (QA := fun d => d = None).
          + apply tr_ret; [assumption|constructor|reflexivity].
          + intros d s6 Hi6 ->. apply H3; try assumption; [repeat rewrite in_app_iff; auto|exact I|].
            cbn [o_rly_tokens]. rewrite app_assoc, app_comm_cons. apply subseq_app; [|apply subseq_refl].
            rewrite app_comm_cons. apply subseq_app; [assumption|apply subseq_refl]. }
      tstep.
      - eapply (tr_bind _ [t0] _ (fun d => match d with Some d => ya_rly_tokens d | None => [] end)
          (fun d => match d with Some (YaRly _ b) => ok_block b | None => True end)).
        + tstep. blk Hpb. intros b s3 Hi3 Hb. apply tr_ret; [assumption|apply subseq_refl|exact Hb].
        + intros d s3 Hi3 Hd. apply H2; try assumption; [left; reflexivity|apply subseq_refl].
      - eapply tr_bind0 with (tka := fun _ => []) (QA := fun d => d = None).
        + apply tr_ret; [assumption|constructor|reflexivity].
        + intros d s3 Hi3 ->. apply H2; try assumption; [left; reflexivity|exact I|apply subseq_refl].
    Qed.
  End Statements.

  (** ** Statements *)
  Lemma tr_as_node {A} (g : A -> node) m tk Q t s :
    tr [t] m tk Q s -> (forall a, node_tokens (g a) = tk a) -> (forall a, Q a -> ok_inner (g a)) ->
    tr [t] (as_node g m) node_tokens ok_inner s.
  Proof.
    intros H Hg HQ. unfold as_node. eapply (tr_bind []); [exact H|]. intros a s' Hi Ha.
    apply tr_ret; [exact Hi|rewrite Hg; apply subseq_refl|auto].
  Qed.
  Lemma tr_line_node {A} (g : A -> node) m tk t s :
    at_line t s -> lin [t] m tk s -> (forall a, node_tokens (g a) = tk a) -> (forall a, tl (node_all (g a)) = []) ->
    tr [t] (as_node g m) node_tokens ok_inner s.
  Proof.
    intros Ha H Hg HQ. eapply tr_as_node with (Q := fun _ => True); [|exact Hg|].
    - apply lin_tr; [eapply at_line_inv; exact Ha| |exact H|auto].
      intros x [<-|[]]. eapply at_line_in. exact Ha.
    - intros a _. unfold ok_inner. rewrite HQ. constructor.
  Qed.

  Lemma tr_after {A} p q u (m : lstate -> res lstate A) tk (Q : A -> Prop) s s1 :
    tr p m tk Q s1 -> stream s = u ++ stream s1 -> Subseq p (q ++ u) ->
    match m s1 with
    | ROk a s' => Inv s' /\ (exists used, stream s = used ++ stream s' /\ Subseq (tk a) (q ++ used)) /\ Q a
    | RErr e s' => Inv s' /\ (exists used, stream s = used ++ stream s' /\ Subseq (error_tokens e) (q ++ used)) /\
                   ok_error L e
    | RPanic c => ok_panic L c
    | RFuel => True
    end.
  Proof.
    intros H ES Hp. unfold tr in H. destruct (m s1) as [a s2|e s2|k|]; try exact H.
    all: destruct H as (Hi & (u' & E & Hs) & Hq); splits; [exact Hi| |exact Hq]; exists (u ++ u');
      (split; [rewrite ES, E, app_assoc; reflexivity|]); eapply subseq_trans; [exact Hs|];
      rewrite app_assoc; apply subseq_app; [exact Hp|apply subseq_refl].
  Qed.
  Lemma tr_va_statement f t s : at_line t s ->
    tr [t] (va_statement l_next l_peek f t) node_tokens ok_inner s.
  Proof.
    intros Ha. pose proof (at_line_inv _ _ Ha) as Hi. pose proof (at_line_in _ _ Ha) as Hin.
    pose proof (lin_va f t s) as HL. unfold va_statement. unfold tr, bind, lin in *.
    destruct s as [c ls]. pose proof (va_sound f t c ls) as HV.
    destruct (va_parse l_next l_peek f t (c, ls)) as [v s1|e s1|k|].
    - destruct (HV v s1 eq_refl) as (ts & c1 & Ec & -> & Hd & Hns). destruct HL as (u & Eu & _ & Hs). cbn [fst] in Eu.
      assert (Hi1 : Inv (c1, ls)) by (eapply (inv_drop (c, ls)); [exact Hi|exact Eu|reflexivity]).
      assert (Hvi : incl (va_tokens v) (concat L)).
      { intros x Hx. apply (subseq_incl _ _ Hs) in Hx. apply in_app_or in Hx as [[<-|[]]|Hx]; [exact Hin|].
        apply (inv_incl _ Hi). cbn [fst]. rewrite Eu. apply in_or_app. auto. }
      set (rest := fun o : option token => match o with
         | None => ret (NExpression (Value (VariableAccess v)))
         | Some t => if is_kw R t then as_node NVariableAssignment (assignment_parse l_next l_peek f v)
                     else if is_kw HAS_A t then as_node NBukkitSetSlot (bukkit_set_slot_parse l_next l_peek f v)
                     else panic (PanicUnreachable v t) end).
      assert (HR : tr (va_tokens v) (rest (hd_error c1)) node_tokens ok_inner (c1, ls)).
      { destruct c1 as [|u1 c1]; cbn [hd_error rest].
        - apply tr_ret; [exact Hi1|apply subseq_refl|constructor].
        - destruct (is_kw R u1) eqn:E1; [|destruct (is_kw HAS_A u1) eqn:E2].
          + unfold as_node. rewrite <- (app_nil_l (va_tokens v)).
            eapply tr_bind with (QA := fun _ => True).
            * apply lin_tr; [exact Hi1|exact Hvi|apply lin_assignment|auto].
            * intros a s' Hi' _. apply tr_ret; [exact Hi'|apply subseq_refl|constructor].
          + unfold as_node. rewrite <- (app_nil_l (va_tokens v)).
            eapply tr_bind with (QA := fun _ => True).
            * apply lin_tr; [exact Hi1|exact Hvi|apply lin_set_slot|auto].
            * intros a s' Hi' _. apply tr_ret; [exact Hi'|apply subseq_refl|constructor].
          + unfold tr, panic. exists ts, c1. rewrite is_kw_false in E1, E2. splits; auto.
            destruct Ha as [Ha _]. cbn [fst] in Ha. rewrite Ec in Ha. exact Ha. }
      assert (Ep : peek l_peek (c1, ls) = ROk (hd_error c1) (c1, ls)) by (destruct c1; reflexivity).
      rewrite Ep.
      assert (ES : stream (c, ls) = u ++ stream (c1, ls)) by (unfold stream; cbn [fst snd]; rewrite Eu, app_assoc; reflexivity).
      exact (tr_after _ _ _ _ _ _ _ _ HR ES Hs).
    - destruct HL as (u & Eu & Es & Hs & Hn). splits; [eapply inv_drop; eassumption| |destruct e; try exact I; destruct Hn].
      exists u. split; [unfold stream; cbn [fst snd] in *; rewrite Eu, Es, app_assoc; reflexivity|exact Hs].
    - destruct HL as (t' & -> & Hk' & Hin'). split; [exact Hk'|]. apply in_app_or in Hin' as [[<-|[]]|Hin']; [exact Hin|].
      eapply inv_incl; eassumption.
    - exact I.
  Qed.

  Theorem statement_inner f : ps_ok (parse_stmt f) -> forall t s, at_line t s ->
    tr [t] (parse_stmt (S f) t) node_tokens ok_inner s.
  Proof.
    intros IH t s Ha. cbn [parse_statement].
    pose proof (at_line_inv _ _ Ha) as Hi. pose proof (at_line_in _ _ Ha) as Hin.
    destruct (va_is_valid t); [apply tr_va_statement; exact Ha|].
    pose proof (block_ok _ f IH) as HB.
    assert (HE : tr [t] (as_node NExpression (expr_parse l_next l_peek f t)) node_tokens ok_inner s).
    { eapply tr_line_node; [exact Ha|apply lin_expr|reflexivity|reflexivity]. }
    destruct (tok_type t) as [|k| | | | | | | | |]; try exact HE.
    destruct k; try exact HE.
    all: try (eapply tr_line_node; [exact Ha|
      first [apply lin_i_has_a|apply lin_visible|apply lin_gimmeh|apply lin_found_yr|apply lin_i_iz]
      |reflexivity|reflexivity]).
    all: try (apply tr_ret; [exact Hi|apply subseq_refl|constructor]).
    all: try (eapply tr_as_node; [
      first [apply tr_im_in_yr; assumption|apply tr_how_iz_i; assumption|apply tr_wtf; assumption|apply tr_o_rly; assumption]
      |reflexivity|intros a Hq; exact Hq]).
    (* HAI *)
    unfold as_node, hai_parse, next_statement, bind, tr, ret, l_next_statement.
    splits; [apply start_inv, start_l_start; apply Hi| |constructor].
    exists (fst s). split; [apply stream_start|]. apply subseq_refl.
  Qed.

  (** ** What the first token of a line announces *)
  Lemma next_hd c ls o s1 : next l_next (c, ls) = ROk o s1 -> o = hd_error c /\ s1 = (tl c, ls).
  Proof. destruct c; injection 1 as <- <-; auto. Qed.
  Lemma block_stops ps g stop : ps_ok ps -> forall s l s', Start s -> parse_blk ps g stop s = ROk l s' ->
    Start s' /\ forall t c, fst s' = t :: c -> stop t = true.
  Proof.
    intros Hps. induction g as [|g IH]; intros s l s' Hs E; [discriminate|]. cbn [parse_block] in E.
    assert (HT : forall stmt s1, Inv s1 ->
     (errs <- end_of_statement l_next_statement;; p <- peek l_peek;;
     match p with
     | Some t => if stop t then ret (stmt ++ errs)
                 else rest <- parse_block l_next l_peek l_next_statement ps stop g;;
                      ret (stmt ++ errs ++ rest)
     | None => ret (stmt ++ errs)
     end)%parser s1 = ROk l s' -> Start s' /\ forall t c, fst s' = t :: c -> stop t = true).
    { intros stmt s1 Hi H. apply bind_ok in H as (errs & s0 & Hm & H).
      assert (s0 = l_start (snd s1)) as -> by (destruct s1 as [[|t c] ls]; injection Hm as _ <-; reflexivity).
      pose proof (start_l_start (snd s1) (proj2 Hi)) as HS.
      destruct (l_start (snd s1)) as [c ls]. apply bind_ok in H as (p & s2 & Hp & H). apply peek_ok in Hp as [-> ->].
      destruct c as [|t c]; cbn [hd_error] in H; [|destruct (stop t) eqn:Et].
      - apply ret_ok in H as [_ <-]. split; [exact HS|discriminate].
      - apply ret_ok in H as [_ <-]. split; [exact HS|]. intros u d Eu. injection Eu as <- _. exact Et.
      - apply bind_ok in H as (rest & s3 & Hr & H). apply ret_ok in H as [_ <-]. eapply IH; [exact HS|exact Hr]. }
    destruct s as [[|t c] ls].
    - exact (HT [] _ (start_inv _ Hs) E).
    - apply bind_ok in E as (o & s1 & Hm & E). apply next_hd in Hm as [-> ->]. cbn [hd_error tl] in E.
      apply bind_ok in E as (st & s2 & Hm & E). apply bind_ok in Hm as (n & s3 & Hm0 & Hm).
      apply ret_ok in Hm as [<- <-].
      assert (Ha : at_line t (c, ls)).
      { destruct Hs as [[Hs|Hs] Hl]; [discriminate Hs|]. split; assumption. }
      pose proof (tr_catch _ _ _ (Hps t (c, ls) Ha)) as Hc. unfold tr in Hc. rewrite Hm0 in Hc.
      exact (HT [_] _ (proj1 Hc) E).
  Qed.

  Lemma loop_announced ps g f t s x s' : ps_ok ps -> at_line t s -> kw IM_IN_YR t ->
    im_in_yr_parse l_next l_peek l_next_statement (parse_blk ps g) f t s = ROk x s' ->
    announced L t (NImInYr x).
  Proof.
    intros Hps Ha Hk H. destruct s as [c ls]. unfold im_in_yr_parse in H.
    apply bind_ok in H as (o1 & s1 & Hm & H). apply next_hd in Hm as [-> ->].
    destruct c as [|label c]; cbn [hd_error tl] in H; [discriminate|].
    destruct (is_identifier label) eqn:El; [|discriminate]. apply is_identifier_iff in El.
    pose proof (at_line_inv _ _ Ha) as Hi.
    assert (Hi1 : Inv (c, ls)) by (eapply (inv_drop (label :: c, ls) (c, ls) [label]); [exact Hi|reflexivity|reflexivity]).
    apply bind_ok in H as (it & s2 & Hm & H). pose proof (lin_iteration f (c, ls)) as HL. unfold lin in HL. rewrite Hm in HL.
    destruct HL as (u1 & E1 & E1' & _). pose proof (inv_drop _ _ _ Hi1 E1 E1') as Hi2. clear Hm.
    apply bind_ok in H as (cond & s3 & Hm & H). pose proof (lin_conditional f s2) as HL. unfold lin in HL. rewrite Hm in HL.
    destruct HL as (u2 & E2 & E2' & _). pose proof (inv_drop _ _ _ Hi2 E2 E2') as Hi3. clear Hm.
    apply bind_ok in H as (u & s4 & Hm & H). destruct s3 as [c3 ls3]. apply empty_ok in Hm as [-> ->].
    pose proof (start_l_start ls3 (proj2 Hi3)) as HS.
    apply bind_ok in H as (b & s5 & Hm & H). unfold block_of in Hm. apply bind_ok in Hm as (ns & s6 & Hb & Hm).
    apply ret_ok in Hm as [<- <-].
    apply block_stops in Hb as [HS' Hstop]; [|exact Hps|exact HS].
    destruct s6 as [c6 ls6]. apply bind_ok in H as (o2 & s7 & Hm & H). apply next_hd in Hm as [-> ->].
    destruct c6 as [|o c6]; cbn [hd_error tl] in H; [discriminate|].
    specialize (Hstop o c6 eq_refl). apply is_kw_iff in Hstop.
    apply bind_ok in H as (o3 & s8 & Hm & H). apply next_hd in Hm as [-> ->].
    destruct c6 as [|el c6]; cbn [hd_error tl] in H; [discriminate|].
    destruct (is_identifier el) eqn:Ee; [|discriminate]. apply is_identifier_iff in Ee.
    apply ret_ok in H as [<- _]. cbn [announced]. splits; auto.
    - exists c. exact (proj1 Ha).
    - exists o, c6. split; [|exact Hstop]. destruct HS' as [[HS'|HS'] _]; [discriminate HS'|exact HS'].
  Qed.

  Lemma d_expr_starts o ts e : d_expr o ts e -> exists t us, ts = t :: us /\ starts_expression t.
  Proof. apply d_expr_first. Qed.

  Lemma statement_announced f t s n s' : ps_ok (parse_stmt f) -> at_line t s ->
    parse_stmt (S f) t s = ROk n s' -> announced L t n.
  Proof.
    intros Hps Ha H. cbn [parse_statement] in H. destruct (va_is_valid t) eqn:Ev.
    - destruct s as [c ls]. unfold va_statement in H. inv_bind H.
      apply va_sound in Hm as (ts & c1 & Ec & -> & Hd & Hns).
      pose proof (d_va_shape _ _ Hd) as Hsh. apply va_valid_iff in Ev.
      assert (Hh : hd_error (va_tokens a) = Some t).
      { destruct (d_va_first _ _ Hd) as (u & us & -> & _). rewrite <- Hsh. cbn in Ec. injection Ec as <- _. reflexivity. }
      inv_bind H. apply peek_ok in Hm as [-> ->]. destruct c1 as [|u c1]; cbn [hd_error] in H.
      + apply ret_ok in H as [<- _]. split; [|exact Hh].
        unfold starts_expression. tauto.
      + destruct (is_kw R u) eqn:E1; [|destruct (is_kw HAS_A u) eqn:E2; [|discriminate]].
        * unfold as_node in H. inv_bind H. apply ret_ok in H as [<- _]. unfold assignment_parse in Hm.
          inv_bind Hm. apply next_hd in Hm0 as [-> ->]. cbn [hd_error] in Hm. rewrite E1 in Hm.
          inv_bind Hm. destruct a1; [|discriminate]. inv_bind Hm. apply ret_ok in Hm as [<- _]. split; assumption.
        * unfold as_node in H. inv_bind H. apply ret_ok in H as [<- _]. unfold bukkit_set_slot_parse in Hm.
          inv_bind Hm. apply next_hd in Hm0 as [-> ->]. cbn [hd_error] in Hm. rewrite E2 in Hm.
          inv_bind Hm. destruct a1; [|discriminate]. inv_bind Hm. inv_bind Hm. destruct a2 as [t2|]; [|discriminate].
          destruct (is_kw ITZ t2); [|discriminate]. inv_bind Hm. destruct a2; [|discriminate]. inv_bind Hm.
          apply ret_ok in Hm as [<- _]. split; assumption.
    - assert (HE : forall n, as_node NExpression (expr_parse l_next l_peek f t) s = ROk n s' -> announced L t n).
      { clear H n. intros n H. unfold as_node in H. inv_bind H. apply ret_ok in H as [<- _]. destruct s as [c ls].
        apply expr_sound in Hm as (o & ts & c' & E & _ & Hd & _).
        destruct (d_expr_starts _ _ _ Hd) as (u & us & -> & Hst). cbn in E. injection E as <- _.
        split; [exact Hst|]. rewrite <- (d_expr_shape _ _ _ Hd). reflexivity. }
      destruct (tok_type t) as [|k| | | | | | | | |] eqn:Et; try exact (HE n H).
      destruct k; try exact (HE n H).
      all: try (apply ret_ok in H as [<- _]; split; [exact Et|reflexivity]).
      all: unfold as_node in H; inv_bind H; apply ret_ok in H as [<- _].
      all: try (eapply loop_announced; eassumption).
      all: unfold i_has_a_parse, visible_parse, gimmeh_parse, found_yr_parse, hai_parse, i_iz_parse, how_iz_i_parse,
             wtf_parse, o_rly_parse in Hm.
      all: repeat match type of Hm with
           | bind _ _ _ = _ => inv_bind Hm
           | ret _ _ = _ => apply ret_ok in Hm as [<- _]; split; [exact Et|reflexivity]
           | fail _ _ = _ => discriminate Hm
           | (match ?o with _ => _ end) _ = _ => destruct o
           end.
  Qed.
  Theorem statement_ok f : ps_ok (parse_stmt f).
  Proof.
    induction f as [|f IH]; intros t s Ha; [exact I|].
    pose proof (statement_inner f IH t s Ha) as H. pose proof (statement_announced f t s) as HA. unfold tr in *.
    destruct (parse_statement l_next l_peek l_next_statement (S f) t s) as [n s'|e s'|c|]; try exact H.
    destruct H as (Hi & Hs & Hin). splits; [exact Hi|exact Hs|].
    specialize (HA n s' IH Ha eq_refl). unfold ok_node. unfold ok_inner in Hin.
    destruct Ha as [Ha _].
    assert (HO : ok_one n) by (destruct n; first [exists t, (fst s); split; assumption|destruct HA]).
    destruct n; cbn [node_all tl] in *; constructor; assumption.
  Qed.
End Trace.

Theorem root_ok L f : match parse_lines f L with
  | ParseOk b => Subseq (block_tokens b) (concat L) /\ Forall (ok_one L) (block_all b)
  | ParsePanic c => ok_panic L c
  | ParseFuel => True
  end.
Proof.
  unfold parse_lines, parse_block_root.
  pose proof (block_ok L _ f (statement_ok L f) stop_root (l_start L)
    (start_l_start L L (fun x H => H))) as H.
  unfold block_of, bind, tr, result_of in *.
  destruct (parse_block _ _ _ _ _ f (l_start L)) as [ns s'|e s'|c|]; try exact H; try exact I.
  destruct H as (_ & (u & E & Hs) & Hok). split; [|exact Hok]. cbn [block_tokens].
  eapply subseq_trans; [exact Hs|]. cbn [app].
  replace (concat L) with (u ++ stream s') by (rewrite <- E; destruct L; reflexivity).
  apply subseq_skip_end.
Qed.
