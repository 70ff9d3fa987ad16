(** The expression parser accepts exactly the grammar of Grammar.v. *)
From Coq Require Import Lia.
From Verif Require Import Lines Grammar.

Ltac splits := repeat match goal with |- _ /\ _ => split end; try reflexivity.

(** ** Token tests *)
Lemma keyword_eqb_eq k k' : keyword_eqb k k' = true <-> k = k'.
Proof. unfold keyword_eqb. destruct (keyword_eq_dec k k'); split; congruence. Qed.
Lemma is_kw_iff k t : is_kw k t = true <-> kw k t.
Proof.
  unfold is_kw, kw. destruct (tok_type t); try (split; discriminate).
  rewrite keyword_eqb_eq. split; [intros ->; reflexivity|intros E; injection E; auto].
Qed.
Lemma is_kw_false k t : is_kw k t = false <-> ~ kw k t.
Proof. rewrite <- is_kw_iff. destruct (is_kw k t); split; congruence. Qed.
Lemma is_identifier_iff t : is_identifier t = true <-> ident_tok t.
Proof.
  unfold is_identifier, ident_tok. destruct (tok_type t); split; try discriminate; eauto;
    intros [? H]; discriminate.
Qed.
Lemma is_slot_iff t : is_slot_access t = true <-> slot_tok t.
Proof. unfold is_slot_access, slot_tok. destruct (tok_type t); split; congruence. Qed.
Lemma is_exclamation_iff t : is_exclamation t = true <-> exclamation_tok t.
Proof. unfold is_exclamation, exclamation_tok. destruct (tok_type t); split; congruence. Qed.
Lemma is_question_iff t : is_question_symbol t = true <-> question_tok t.
Proof.
  unfold is_question_symbol, question_tok. destruct (tok_type t); try (split; discriminate).
  destruct (list_eq_dec _ _ _) as [->|n]; split; try congruence.
Qed.
Lemma kw_fun k k' t : kw k t -> kw k' t -> k = k'.
Proof. unfold kw. congruence. Qed.
Lemma kw_ident k t : kw k t -> ident_tok t -> False.
Proof. unfold kw. intros H [s Hs]. congruence. Qed.
Lemma kw_slot k t : kw k t -> slot_tok t -> False.
Proof. unfold kw, slot_tok. congruence. Qed.
Lemma kw_value k t : kw k t -> value_tok t -> False.
Proof. unfold kw. intros H [s Hs]. congruence. Qed.
Lemma ident_slot t : ident_tok t -> slot_tok t -> False.
Proof. unfold slot_tok. intros [s Hs]. congruence. Qed.
Lemma value_slot t : value_tok t -> slot_tok t -> False.
Proof. unfold slot_tok. intros [s Hs]. congruence. Qed.
Lemma value_ident t : value_tok t -> ident_tok t -> False.
Proof. intros [s Hs] [s' Hs']. congruence. Qed.

(** ** Inversion of parser steps on lines *)
Lemma bind_ok {S A B} (m : S -> res S A) (k : A -> S -> res S B) s b s' :
  bind m k s = ROk b s' -> exists a s1, m s = ROk a s1 /\ k a s1 = ROk b s'.
Proof. unfold bind. destruct (m s) as [a s1| | |]; try discriminate. eauto. Qed.
Lemma ret_ok {S A} (a b : A) (s s' : S) : ret a s = ROk b s' -> a = b /\ s = s'.
Proof. unfold ret. intros H. injection H. auto. Qed.
Lemma next_ok c ls o s1 : next l_next (c, ls) = ROk o s1 ->
  (exists t c', o = Some t /\ c = t :: c' /\ s1 = (c', ls)) \/ (o = None /\ c = [] /\ s1 = ([], ls)).
Proof. unfold next. destruct c; cbn; intros H; injection H as <- <-; [right|left]; eauto. Qed.
Lemma peek_ok c ls o s1 : peek l_peek (c, ls) = ROk o s1 -> o = hd_error c /\ s1 = (c, ls).
Proof. unfold peek. destruct c; cbn; intros H; injection H as <- <-; eauto. Qed.
Lemma next_if_ok f c ls o s1 : next_if l_next l_peek f (c, ls) = ROk o s1 ->
  (exists t c', o = Some t /\ f t = true /\ c = t :: c' /\ s1 = (c', ls)) \/
  (o = None /\ s1 = (c, ls) /\ forall t c', c = t :: c' -> f t = false).
Proof.
  unfold next_if, bind, peek, next, ret. destruct c as [|t c]; cbn.
  - intros H; injection H as <- <-. right. repeat split. discriminate.
  - destruct (f t) eqn:E; cbn; intros H; injection H as <- <-; [left; eauto 6|right].
    repeat split. intros ? ? H; injection H as <- _. exact E.
Qed.
Lemma empty_ok c ls s1 u : next_statement_should_be_empty l_next_statement (c, ls) = ROk u s1 ->
  c = [] /\ s1 = l_start ls.
Proof.
  unfold next_statement_should_be_empty, bind, next_statement, ret, fail, l_next_statement; cbn.
  destruct c; [|discriminate]. intros H. injection H as <- <-. auto.
Qed.

Ltac inv_bind H :=
  let a := fresh "a" in let s := fresh "s" in let H1 := fresh "Hm" in
  apply bind_ok in H as (a & s & H1 & H).
Ltac inv_next H :=
  let a := fresh "o" in let s := fresh "s" in let H1 := fresh "Hm" in
  apply bind_ok in H as (a & s & H1 & H);
  let t := fresh "t" in let c := fresh "c" in
  apply next_ok in H1 as [(t & c & -> & -> & ->)|(-> & -> & ->)].
Ltac inv_next_if H :=
  let a := fresh "o" in let s := fresh "s" in let H1 := fresh "Hm" in
  apply bind_ok in H as (a & s & H1 & H);
  let t := fresh "t" in let c := fresh "c" in let E := fresh "Ht" in
  apply next_if_ok in H1 as [(t & c & -> & E & -> & ->)|(-> & -> & E)].
Ltac inv_ret H := apply ret_ok in H as [<- <-].
Ltac inv_empty H :=
  let a := fresh "u" in let s := fresh "s" in let H1 := fresh "Hm" in
  apply bind_ok in H as (a & s & H1 & H); apply empty_ok in H1 as [-> ->].

(** Forward evaluation. *)
Lemma bind_eq {S A B} (m : S -> res S A) (k : A -> S -> res S B) s a s1 :
  m s = ROk a s1 -> bind m k s = k a s1.
Proof. unfold bind. intros ->. reflexivity. Qed.
Lemma bind_to {S A B} (m : S -> res S A) (k : A -> S -> res S B) s a s1 r :
  m s = ROk a s1 -> k a s1 = r -> bind m k s = r.
Proof. unfold bind. intros -> H. exact H. Qed.
Lemma next_some t c ls : next l_next (t :: c, ls) = ROk (Some t) (c, ls).
Proof. reflexivity. Qed.
Lemma next_none ls : next l_next ([], ls) = ROk None ([], ls).
Proof. reflexivity. Qed.
Lemma next_if_yes f t c ls : f t = true -> next_if l_next l_peek f (t :: c, ls) = ROk (Some t) (c, ls).
Proof. intros H. unfold next_if, bind, peek; cbn. rewrite H. reflexivity. Qed.
Lemma next_if_no f c ls : (forall t c', c = t :: c' -> f t = false) ->
  next_if l_next l_peek f (c, ls) = ROk None (c, ls).
Proof.
  intros H. unfold next_if, bind, peek; destruct c as [|t c]; cbn; [reflexivity|].
  rewrite (H t c eq_refl). reflexivity.
Qed.
Lemma empty_yes ls : next_statement_should_be_empty l_next_statement ([], ls) = ROk tt (l_start ls).
Proof. reflexivity. Qed.
Lemma peek_some t c ls : peek l_peek (t :: c, ls) = ROk (Some t) (t :: c, ls).
Proof. reflexivity. Qed.
Lemma peek_none ls : peek l_peek ([], ls) = ROk None ([], ls).
Proof. reflexivity. Qed.

(** ** Soundness *)
Lemma identifier_sound t c ls i s' :
  identifier_parse l_next t (c, ls) = ROk i s' ->
  exists ts c', t :: c = ts ++ c' /\ s' = (c', ls) /\ d_identifier ts i.
Proof.
  unfold identifier_parse.
  destruct (tok_type t) as [n|k| | | | | | | | |] eqn:Et; try discriminate.
  - intros H. inv_ret H. exists [t], c. repeat split. constructor. eexists; eassumption.
  - destruct k; try discriminate. intros H. inv_next H; [|discriminate].
    destruct (tok_type t0) eqn:E0; try discriminate. inv_ret H.
    exists [t; t0], c0. repeat split. constructor; [assumption|]. eexists; eassumption.
Qed.

Lemma accesses_sound f : forall c ls sl s',
  accesses_loop l_next l_peek f (c, ls) = ROk sl s' ->
  exists ts c', c = ts ++ c' /\ s' = (c', ls) /\ d_slots ts sl /\ ~ starts_with_slot c'.
Proof.
  induction f as [|f IH]; intros c ls sl s' H; [discriminate|]. cbn [accesses_loop] in H.
  inv_next_if H.
  - inv_next H; [|discriminate]. inv_bind H. apply identifier_sound in Hm as (ts & c' & E & -> & Hi).
    inv_bind H. apply IH in Hm as (us & c'' & -> & -> & Hs & Hn). inv_ret H.
    exists (t :: ts ++ us), c''. split; [cbn; rewrite E, app_assoc; reflexivity|].
    split; [reflexivity|]. split; [|exact Hn]. constructor; [apply is_slot_iff; assumption|assumption..].
  - inv_ret H. exists [], c. repeat split; [constructor|].
    intros (y & us & -> & Hy). apply is_slot_iff in Hy. rewrite (Ht y us eq_refl) in Hy. discriminate.
Qed.

Lemma va_sound f t c ls v s' :
  va_parse l_next l_peek f t (c, ls) = ROk v s' ->
  exists ts c', t :: c = ts ++ c' /\ s' = (c', ls) /\ d_va ts v /\ ~ starts_with_slot c'.
Proof.
  unfold va_parse. intros H. inv_bind H. apply identifier_sound in Hm as (ts & c' & E & -> & Hi).
  inv_bind H. apply accesses_sound in Hm as (us & c'' & -> & -> & Hs & Hn). inv_ret H.
  exists (ts ++ us), c''. rewrite E, app_assoc. splits; [|exact Hn]. constructor; assumption.
Qed.

(** Shape of derived sequences. *)
Lemma d_identifier_shape ts i : d_identifier ts i -> ts = identifier_tokens i.
Proof. intros H; destruct H; reflexivity. Qed.
Lemma d_slots_shape ts sl : d_slots ts sl -> ts = flat_map slot_tokens sl.
Proof.
  induction 1 as [|a ts i us sl Ha Hi Hs ->]; [reflexivity|].
  cbn. rewrite (d_identifier_shape _ _ Hi). reflexivity.
Qed.
Lemma d_va_shape ts v : d_va ts v -> ts = va_tokens v.
Proof.
  intros H; destruct H as [ts i us sl Hi Hs]. unfold va_tokens; cbn.
  rewrite (d_identifier_shape _ _ Hi), (d_slots_shape _ _ Hs). reflexivity.
Qed.
Lemma d_opt_shape k ts o : d_opt k ts o -> ts = opt_token o.
Proof. intros H; destruct H; reflexivity. Qed.
Lemma d_binary_token k op t : binary_operator k op -> binary_opt_token (op t) = t.
Proof. intros H; destruct H; reflexivity. Qed.
Lemma d_nary_token k op t : nary_operator k op -> nary_opt_token (op t) = t.
Proof. intros H; destruct H; reflexivity. Qed.

Lemma d_expr_shape_mut :
  (forall o ts e, d_expr o ts e -> ts = expr_tokens e) /\
  (forall ts es, d_operands ts es -> ts = flat_map operand_tokens es).
Proof.
  apply d_expr_mut; intros; cbn [expr_tokens value_tokens]; try reflexivity.
  - apply d_va_shape; assumption.
  - erewrite d_binary_token by eassumption. erewrite <- d_opt_shape by eassumption. congruence.
  - cbn. congruence.
  - erewrite d_nary_token by eassumption. cbn [opt_token]. subst ts. reflexivity.
  - erewrite d_nary_token by eassumption. subst ts. rewrite app_nil_r. reflexivity.
  - erewrite d_nary_token by eassumption. subst ts us. rewrite flat_map_app. cbn.
    rewrite !app_nil_r. reflexivity.
  - subst. cbn [flat_map operand_tokens]. erewrite <- d_opt_shape by eassumption.
    rewrite <- app_assoc. reflexivity.
Qed.
Definition d_expr_shape := proj1 d_expr_shape_mut.
Definition d_operands_shape := proj2 d_expr_shape_mut.

(** First tokens. *)
Definition expr_start (t : token) : Prop :=
  value_tok t \/ ident_tok t \/ kw NOOB t \/ kw SRS t \/ kw NOT t \/
  (exists k op, kw k t /\ binary_operator k op) \/ (exists k op, kw k t /\ nary_operator k op).

Lemma d_identifier_first ts i : d_identifier ts i ->
  exists t us, ts = t :: us /\ (ident_tok t \/ kw SRS t).
Proof. intros H; destruct H; eauto. Qed.
Lemma d_va_first ts v : d_va ts v -> exists t us, ts = t :: us /\ (ident_tok t \/ kw SRS t).
Proof.
  intros H; destruct H as [ts i us sl Hi _].
  destruct (d_identifier_first _ _ Hi) as (t & us' & -> & Ht). exists t, (us' ++ us). auto.
Qed.
Lemma d_expr_first o ts e : d_expr o ts e -> exists t us, ts = t :: us /\ expr_start t.
Proof.
  intros H; destruct H; try (eexists _, _; split; [reflexivity|]; unfold expr_start; eauto 10; fail).
  apply d_va_first in H as (t & us & -> & Ht). exists t, us. unfold expr_start. intuition.
Qed.

Lemma expr_start_slot t : expr_start t -> ~ slot_tok t.
Proof.
  intros [H|[H|[H|[H|[H|[(k & op & H & _)|(k & op & H & _)]]]]]] Hs;
    eauto using value_slot, ident_slot, kw_slot.
Qed.
(** [k] is no keyword that starts an expression. *)
Definition no_expr_kw (k : keyword) : Prop := forall t, kw k t -> ~ expr_start t.
Lemma no_expr_kw_of k :
  match k with
  | NOOB | SRS | NOT | BOTH_OF | EITHER_OF | WON_OF | SUM_OF | DIFF_OF | PRODUKT_OF | QUOSHUNT_OF
  | MOD_OF | BIGGR_OF | SMALLR_OF | BOTH_SAEM | DIFFRINT | ALL_OF | ANY_OF | SMOOSH => False
  | _ => True
  end -> no_expr_kw k.
Proof.
  intros Hk t Ht [H|[H|[H|[H|[H|[(k' & op & H & Ho)|(k' & op & H & Ho)]]]]]];
    eauto using kw_value, kw_ident.
  - pose proof (kw_fun _ _ _ Ht H) as ->. exact Hk.
  - pose proof (kw_fun _ _ _ Ht H) as ->. exact Hk.
  - pose proof (kw_fun _ _ _ Ht H) as ->. exact Hk.
  - pose proof (kw_fun _ _ _ Ht H) as ->. destruct Ho; exact Hk.
  - pose proof (kw_fun _ _ _ Ht H) as ->. destruct Ho; exact Hk.
Qed.

(** Last tokens and [fits]. *)
Lemma ends_app us ts : ts <> [] -> ends_with_identifier (us ++ ts) <-> ends_with_identifier ts.
Proof.
  intros Hn. split.
  - intros (ws & x & E & Hx). destruct (exists_last Hn) as (ts' & y & ->).
    rewrite app_assoc in E. apply app_inj_tail in E as [_ ->]. exists ts', x. auto.
  - intros (ws & x & -> & Hx). exists (us ++ ws), x. rewrite app_assoc. auto.
Qed.
Lemma ends_cons t ts : ts <> [] -> ends_with_identifier (t :: ts) <-> ends_with_identifier ts.
Proof. apply (ends_app [t]). Qed.
Lemma fits_app o us ts c : ts <> [] -> fits o (us ++ ts) c <-> fits o ts c.
Proof. intros Hn. unfold fits. rewrite (ends_app us ts Hn). reflexivity. Qed.
Lemma fits_cons o t ts c : ts <> [] -> fits o (t :: ts) c <-> fits o ts c.
Proof. apply (fits_app o [t]). Qed.
Lemma fits_kw ts c : (forall t c', c = t :: c' -> ~ slot_tok t) -> fits false ts c.
Proof. intros H. split; [discriminate|]. intros [_ (y & us & -> & Hy)]. exact (H _ _ eq_refl Hy). Qed.
Lemma fits_nil o ts : fits o ts [].
Proof. split; [reflexivity|]. intros [_ (y & us & E & _)]. discriminate. Qed.
Lemma fits_not_ident ts x c : ~ ident_tok x -> fits false (ts ++ [x]) c.
Proof.
  intros H. split; [discriminate|]. intros [(us & y & E & Hy) _].
  apply app_inj_tail in E as [_ ->]. contradiction.
Qed.
Lemma d_expr_nonnil o ts e : d_expr o ts e -> ts <> [].
Proof. intros H. destruct (d_expr_first _ _ _ H) as (t & us & -> & _). discriminate. Qed.

Lemma ends_nonnil ts : ends_with_identifier ts -> ts <> [].
Proof. intros (us & x & -> & _). destruct us; discriminate. Qed.
Lemma d_identifier_ends ts i : d_identifier ts i -> ends_with_identifier ts.
Proof. intros H; destruct H as [x Hx|s x _ Hx]; [exists [], x|exists [s], x]; auto. Qed.
Lemma d_slots_ends us sl : d_slots us sl -> us = [] \/ ends_with_identifier us.
Proof.
  induction 1 as [|a ts i us sl Ha Hi Hs IH]; [auto|right].
  pose proof (d_identifier_ends _ _ Hi) as Hi'.
  destruct IH as [->|IH].
  - rewrite app_nil_r. apply ends_cons; [apply ends_nonnil|]; exact Hi'.
  - rewrite app_comm_cons. apply ends_app; [apply ends_nonnil|]; exact IH.
Qed.
Lemma d_va_ends ts v : d_va ts v -> ends_with_identifier ts.
Proof.
  intros H; destruct H as [ts i us sl Hi Hs].
  destruct (d_slots_ends _ _ Hs) as [->|IH].
  - rewrite app_nil_r. eapply d_identifier_ends; exact Hi.
  - apply ends_app; [apply ends_nonnil|]; exact IH.
Qed.

(** Binary and n-ary operators of the code. *)
Lemma opt_of_next_if k c ls o s1 : next_if l_next l_peek (is_kw k) (c, ls) = ROk o s1 ->
  exists ts c', c = ts ++ c' /\ s1 = (c', ls) /\ d_opt k ts o /\
                (o = None -> forall t c'', c' = t :: c'' -> ~ kw k t).
Proof.
  intros H. apply next_if_ok in H as [(t & c' & -> & E & -> & ->)|(-> & -> & E)].
  - exists [t], c'. repeat split; [constructor; apply is_kw_iff; assumption|discriminate].
  - exists [], c. repeat split; [constructor|]. intros _ t c'' ->. apply is_kw_false. apply (E t c'' eq_refl).
Qed.

(** A parse function for expressions is sound on states whose tokens ... *)
Definition sound_pe (pe : token -> lstate -> res lstate expr) : Prop :=
  forall t c ls e s', pe t (c, ls) = ROk e s' ->
  exists o ts c', t :: c = ts ++ c' /\ s' = (c', ls) /\ d_expr o ts e /\ fits o ts c'.

Lemma nary_loop_sound pe : sound_pe pe -> forall f c ls es s',
  nary_loop l_next l_peek pe f (c, ls) = ROk es s' ->
  exists c', s' = (c', ls) /\ (forall t c'', c' = t :: c'' -> kw MKAY t) /\
    ((exists ts, c = ts ++ c' /\ d_operands ts es) \/
     (exists ts us es1 e, c = ts ++ us /\ c' = [] /\ es = es1 ++ [Operand e None] /\
                          d_operands ts es1 /\ d_expr true us e)).
Proof.
  intros Hpe f. induction f as [|f IH]; intros c ls es s' H; [discriminate|].
  cbn [nary_loop] in H. inv_next_if H.
  - inv_bind H. apply Hpe in Hm as (o & ts & c' & E & -> & He & Hf).
    inv_bind H. apply opt_of_next_if in Hm as (ans & c1 & -> & -> & Ha & Hn).
    inv_bind H. apply IH in Hm as (c2 & -> & Hm & HL). inv_ret H.
    exists c2. split; [reflexivity|]. split; [exact Hm|].
    destruct o.
    + right. destruct Hf as [Hf _]. specialize (Hf eq_refl).
      apply app_eq_nil in Hf as [-> ->].
      inversion Ha; subst. destruct HL as [(us & E' & HL)|(us & ws & es1 & e & E' & -> & -> & HL & He')].
      * symmetry in E'. apply app_eq_nil in E' as [-> ->].
        inversion HL as [|? ? ? ? ? ? He1 ? ? E1 E2]; subst.
        -- exists [], ts, [], a. rewrite E, app_nil_r. repeat split; [constructor|assumption].
        -- destruct (d_expr_first _ _ _ He1) as (? & ? & -> & _). discriminate.
      * symmetry in E'. apply app_eq_nil in E' as [_ ->].
        destruct (d_expr_first _ _ _ He') as (? & ? & E0 & _). discriminate.
    + destruct HL as [(us & -> & HL)|(us & ws & es1 & e & -> & -> & -> & HL & He')].
      * left. exists (ts ++ ans ++ us). rewrite E, <- !app_assoc. split; [reflexivity|].
        constructor; assumption.
      * right. exists (ts ++ ans ++ us), ws, (Operand a a0 :: es1), e.
        rewrite E, <- !app_assoc. repeat split; [constructor; assumption|assumption].
  - inv_ret H. exists c. split; [reflexivity|]. split.
    + intros t c' E. apply is_kw_iff. specialize (Ht t c' E).
      destruct (is_kw MKAY t); [reflexivity|discriminate].
    + left. exists []. split; [reflexivity|constructor].
Qed.

Lemma expr_sound f : sound_pe (expr_parse l_next l_peek f).
Proof.
  induction f as [|f IH]; intros t c ls e s' H; [discriminate|]. cbn [expr_parse] in H.
  assert (Hbin : forall k op, binary_operator k op -> kw k t ->
    binary_parse l_next l_peek (expr_parse l_next l_peek f) (op t) (c, ls) = ROk e s' ->
    exists o ts c', t :: c = ts ++ c' /\ s' = (c', ls) /\ d_expr o ts e /\ fits o ts c').
  { clear H. intros k op Hop Hk H. unfold binary_parse in H. inv_next H; [|discriminate].
    inv_bind H. apply IH in Hm as (o & ts & c' & E & -> & Hl & Hf).
    inv_bind H. apply opt_of_next_if in Hm as (ans & c1 & -> & -> & Ha & Hn).
    inv_next H; [|discriminate]. inv_bind H.
    apply IH in Hm as (o' & us & c'' & E' & -> & Hr & Hf'). inv_ret H.
    destruct o.
    { destruct Hf as [Hf _]. specialize (Hf eq_refl). apply app_eq_nil in Hf as [_ E0]. discriminate. }
    exists o', (t :: ts ++ ans ++ us), c''. split.
    { cbn. rewrite E, E', <- !app_assoc. reflexivity. }
    split; [reflexivity|]. split; [econstructor; eassumption|].
    rewrite (app_assoc ts), app_comm_cons. apply fits_app; [eapply d_expr_nonnil; eassumption|assumption]. }
  assert (Hnary : forall k op, nary_operator k op -> kw k t ->
    nary_parse l_next l_peek (expr_parse l_next l_peek f) f (op t) (c, ls) = ROk e s' ->
    exists o ts c', t :: c = ts ++ c' /\ s' = (c', ls) /\ d_expr o ts e /\ fits o ts c').
  { clear H. intros k op Hop Hk H. unfold nary_parse in H. inv_bind H.
    apply (nary_loop_sound _ IH) in Hm as (c' & -> & Hmk & HL). inv_next H; inv_ret H.
    - destruct HL as [(ts & -> & HL)|(ts & us & es1 & x & -> & E0 & _)]; [|discriminate].
      specialize (Hmk _ _ eq_refl).
      exists false, (t :: ts ++ [t0]), c0. split; [cbn; rewrite <- app_assoc; reflexivity|].
      split; [reflexivity|]. split; [econstructor; eassumption|].
      rewrite app_comm_cons. apply fits_not_ident. intros Hi. exact (kw_ident _ _ Hmk Hi).
    - destruct HL as [(ts & -> & HL)|(ts & us & es1 & x & -> & _ & -> & HL & He)].
      + exists true, (t :: ts), []. rewrite !app_nil_r. splits; [|apply fits_nil].
        econstructor; eassumption.
      + exists true, (t :: ts ++ us), []. rewrite !app_nil_r. splits; [|apply fits_nil].
        econstructor; eassumption. }
  destruct (tok_type t) as [n|k|sy|v|cm|cm| | | | |] eqn:Et; try discriminate.
  - inv_bind H. apply va_sound in Hm as (ts & c' & E & -> & Hv & Hn). inv_ret H.
    exists false, ts, c'. repeat split; [assumption|constructor; assumption|discriminate|].
    intros [_ Hs]; contradiction.
  - destruct k; try discriminate;
      try (eapply Hbin; [constructor|exact Et|exact H]; fail);
      try (eapply Hnary; [constructor|exact Et|exact H]; fail).
    + inv_bind H. apply va_sound in Hm as (ts & c' & E & -> & Hv & Hn). inv_ret H.
      exists false, ts, c'. repeat split; [assumption|constructor; assumption|discriminate|].
      intros [_ Hs]; contradiction.
    + inv_ret H. exists false, [t], c. repeat split; [apply d_noob; exact Et|discriminate|].
      intros [(us & x & E & Hx) _]. destruct us as [|? [|? ?]]; try discriminate.
      injection E as <-. eapply kw_ident; [exact Et|exact Hx].
    + unfold unary_parse in H. inv_next H; [|discriminate]. inv_bind H.
      apply IH in Hm as (o & ts & c' & E & -> & Hl & Hf). inv_ret H.
      exists o, (t :: ts), c'. rewrite E. repeat split; [constructor; assumption| |].
      all: eapply (proj2 (fits_cons o t ts c' (d_expr_nonnil _ _ _ Hl))); assumption.
  - inv_ret H. exists false, [t], c. repeat split; [constructor; exists v; exact Et|discriminate|].
    intros [(us & x & E & Hx) _]. destruct us as [|? [|? ?]]; try discriminate.
    injection E as <-. eapply value_ident; [exists v; exact Et|exact Hx].
Qed.

(** ** Completeness *)
Lemma identifier_complete ts i : d_identifier ts i -> forall t us c ls, ts = t :: us ->
  identifier_parse l_next t (us ++ c, ls) = ROk i (c, ls).
Proof.
  intros H; destruct H as [x [n Hx]|s x Hs [n Hx]]; intros t us c ls E; injection E as <- <-;
    unfold identifier_parse.
  - rewrite Hx. reflexivity.
  - rewrite Hs. cbn [app]. erewrite bind_eq by apply next_some. cbn. rewrite Hx. reflexivity.
Qed.

Lemma accesses_complete us sl : d_slots us sl -> forall f c ls, length us < f ->
  ~ starts_with_slot c -> accesses_loop l_next l_peek f (us ++ c, ls) = ROk sl (c, ls).
Proof.
  induction 1 as [|a ts i us sl Ha Hi Hs IH]; intros [|f] c ls Hf Hc; try (cbn in Hf; lia);
    cbn [accesses_loop].
  - cbn [app]. eapply bind_to.
    + apply next_if_no. intros t c' ->. destruct (is_slot_access t) eqn:E; [|reflexivity].
    exfalso. apply Hc. exists t, c'. split; [reflexivity|]. apply is_slot_iff. exact E.
    + reflexivity.
  - cbn [app]. erewrite bind_eq by (apply next_if_yes; apply is_slot_iff; exact Ha). cbv beta iota.
    destruct (d_identifier_first _ _ Hi) as (t & us' & -> & _).
    cbn [app]. erewrite bind_eq by apply next_some. cbv beta iota.
    rewrite <- app_assoc. erewrite bind_eq by (eapply identifier_complete; [exact Hi|reflexivity]).
    eapply bind_to. apply IH; [|exact Hc].
    cbn in Hf. rewrite app_length in Hf. lia. reflexivity.
Qed.

Lemma va_complete ts v : d_va ts v -> forall t us f c ls, ts = t :: us -> length ts <= f ->
  ~ starts_with_slot c -> va_parse l_next l_peek f t (us ++ c, ls) = ROk v (c, ls).
Proof.
  intros H; destruct H as [ts i us sl Hi Hs]. intros t ws f c ls E Hf Hc. unfold va_parse.
  destruct (d_identifier_first _ _ Hi) as (x & ts' & -> & _). cbn in E. injection E as <- <-.
  rewrite <- app_assoc. erewrite bind_eq by (eapply identifier_complete; [exact Hi|reflexivity]).
  eapply bind_to. eapply accesses_complete; [eassumption| |exact Hc].
  cbn in Hf. rewrite app_length in Hf. lia. reflexivity.
Qed.

Lemma next_if_opt k ts o c ls : d_opt k ts o ->
  (o = None -> forall t c', c = t :: c' -> ~ kw k t) ->
  next_if l_next l_peek (is_kw k) (ts ++ c, ls) = ROk o (c, ls).
Proof.
  intros H Hn. destruct H as [|t Ht]; cbn [app].
  - apply next_if_no. intros t c' ->. apply is_kw_false. apply (Hn eq_refl t c' eq_refl).
  - apply next_if_yes. apply is_kw_iff. exact Ht.
Qed.

Lemma an_no_expr : no_expr_kw AN.
Proof. apply no_expr_kw_of. exact I. Qed.
Lemma mkay_no_expr : no_expr_kw MKAY.
Proof. apply no_expr_kw_of. exact I. Qed.

Lemma d_operands_first ts es : d_operands ts es ->
  ts = [] \/ exists t us, ts = t :: us /\ expr_start t.
Proof.
  intros H; destruct H as [|ts e ans an us es He]; [auto|right].
  destruct (d_expr_first _ _ _ He) as (t & ts' & -> & Ht).
  exists t, (ts' ++ ans ++ us). auto.
Qed.

Lemma binary_parse_at f t k op : binary_operator k op -> kw k t ->
  expr_parse l_next l_peek (S f) t = binary_parse l_next l_peek (expr_parse l_next l_peek f) (op t).
Proof. intros H Hk. unfold kw in Hk. cbn [expr_parse]. rewrite Hk. destruct H; reflexivity. Qed.
Lemma nary_parse_at f t k op : nary_operator k op -> kw k t ->
  expr_parse l_next l_peek (S f) t = nary_parse l_next l_peek (expr_parse l_next l_peek f) f (op t).
Proof. intros H Hk. unfold kw in Hk. cbn [expr_parse]. rewrite Hk. destruct H; reflexivity. Qed.

Lemma operand_follow ts ans an us es c :
  (ts = [] \/ exists t us, ts = t :: us /\ expr_start t) -> d_opt AN ans an ->
  (forall t c', c = t :: c' -> kw MKAY t \/ expr_start t) ->
  ts = us ++ es ->
  forall t c', ans ++ ts ++ c = t :: c' -> ~ slot_tok t.
Proof.
  intros Hts Ha Hc _ t c' E. destruct Ha as [|a Ha]; cbn [app] in E.
  - destruct Hts as [->|(x & xs & -> & Hx)]; cbn [app] in E.
    + destruct (Hc _ _ E) as [H|H]; [intros Hs; exact (kw_slot _ _ H Hs)|apply expr_start_slot; exact H].
    + injection E as <- _. apply expr_start_slot. exact Hx.
  - injection E as <- _. intros Hs. exact (kw_slot _ _ Ha Hs).
Qed.

Lemma d_operands_length ts es : d_operands ts es -> length es <= length ts.
Proof.
  induction 1 as [|ts e ans an us es He Ha Hes IH]; [auto|].
  destruct (d_expr_first _ _ _ He) as (? & ? & -> & _). cbn [app length]. rewrite !app_length. lia.
Qed.

Lemma expr_complete_mut :
  (forall o ts e, d_expr o ts e -> forall t us f c ls, ts = t :: us -> length ts < f -> fits o ts c ->
     expr_parse l_next l_peek f t (us ++ c, ls) = ROk e (c, ls)) /\
  (forall ts es, d_operands ts es -> forall f g c ls,
     length ts < f -> length ts < g ->
     (forall t c', c = t :: c' -> kw MKAY t \/ expr_start t) ->
     forall es' c2, nary_loop l_next l_peek (expr_parse l_next l_peek g) (f - length es) (c, ls) = ROk es' (c2, ls) ->
     nary_loop l_next l_peek (expr_parse l_next l_peek g) f (ts ++ c, ls) = ROk (es ++ es') (c2, ls)).
Proof.
  apply d_expr_mut.
  - intros t [v Hv] t' us f c ls E Hf _. injection E as <- <-. destruct f; [cbn in Hf; lia|].
    cbn [expr_parse]. rewrite Hv. reflexivity.
  - intros t Hv t' us f c ls E Hf _. injection E as <- <-. destruct f; [cbn in Hf; lia|].
    unfold kw in Hv. cbn [expr_parse]. rewrite Hv. reflexivity.
  - intros ts v Hv t us f c ls E Hf Hc. destruct f; [lia|]. cbn [expr_parse].
    assert (Hva : va_parse l_next l_peek f t (us ++ c, ls) = ROk v (c, ls)).
    { eapply va_complete; [exact Hv|exact E|lia|]. intros Hs. destruct Hc as [_ Hc]. apply Hc.
      split; [|exact Hs]. eapply d_va_ends; exact Hv. }
    destruct (d_va_first _ _ Hv) as (x & xs & E' & Hx). rewrite E in E'. injection E' as <- <-.
    destruct Hx as [[n Hx]|Hx]; [rewrite Hx|unfold kw in Hx; rewrite Hx];
      erewrite bind_eq by exact Hva; reflexivity.
  - intros k op t o ls l ans an rs r Hop Hk Hl IHl Ha Hr IHr t' us f c lns E Hf Hc.
    injection E as <- <-. destruct f as [|f]; [lia|]. rewrite (binary_parse_at f t k op Hop Hk).
    unfold binary_parse. destruct (d_expr_first _ _ _ Hl) as (x & xs & Ex & Hx).
    destruct (d_expr_first _ _ _ Hr) as (y & ys & Ey & Hy).
    cbn [length] in Hf. rewrite !app_length in Hf.
    rewrite Ex. cbn [app]. erewrite bind_eq by apply next_some. cbv beta iota.
    rewrite <- !app_assoc. erewrite bind_eq.
    2:{ eapply IHl; [exact Ex|lia|]. apply fits_kw. intros z zs Ez.
        destruct Ha as [|a Ha]; cbn [app] in Ez.
        - rewrite Ey in Ez. injection Ez as <- _. apply expr_start_slot. exact Hy.
        - injection Ez as <- _. intros Hs. exact (kw_slot _ _ Ha Hs). }
    cbv beta iota. erewrite bind_eq.
    2:{ apply next_if_opt; [exact Ha|]. intros _ z zs Ez Hz. rewrite Ey in Ez. injection Ez as <- _.
        exact (an_no_expr _ Hz Hy). }
    cbv beta iota. rewrite Ey. cbn [app]. erewrite bind_eq by apply next_some. cbv beta iota.
    eapply bind_to. eapply IHr; [exact Ey|lia|].
    rewrite (app_assoc ls), app_comm_cons in Hc. exact (proj1 (fits_app _ _ _ _ (d_expr_nonnil _ _ _ Hr)) Hc). reflexivity.
  - intros t o ts e Hk He IH t' us f c ls E Hf Hc. injection E as <- <-.
    destruct f as [|f]; [lia|]. unfold kw in Hk. cbn [expr_parse]. rewrite Hk. unfold unary_parse.
    destruct (d_expr_first _ _ _ He) as (x & xs & Ex & Hx). rewrite Ex. cbn [app].
    erewrite bind_eq by apply next_some. cbv beta iota.
    eapply bind_to. eapply IH; [exact Ex|cbn in Hf; lia|].
    exact (proj1 (fits_cons _ _ _ _ (d_expr_nonnil _ _ _ He)) Hc). reflexivity.
  - intros k op t ts es m Hop Hk Hes IH Hm t' us f c ls E Hf Hc. injection E as <- <-.
    destruct f as [|f]; [lia|]. rewrite (nary_parse_at f t k op Hop Hk). unfold nary_parse.
    cbn [length] in Hf. rewrite app_length in Hf. cbn [length] in Hf.
    rewrite <- app_assoc. cbn [app]. erewrite bind_eq.
    2:{ apply IH with (es' := []) (c2 := m :: c); [lia..| |].
        - intros x xs Ex. injection Ex as <- _. left. exact Hm.
        - pose proof (d_operands_length _ _ Hes) as Hle.
          destruct (f - length es) as [|g] eqn:Eg; [lia|]. cbn [nary_loop].
          eapply bind_to. apply next_if_no. intros x xs Ex. injection Ex as <- _.
          apply is_kw_iff in Hm. rewrite Hm. reflexivity. reflexivity. }
    rewrite app_nil_r. cbv beta iota. erewrite bind_eq by apply next_some. reflexivity.
  - intros k op t ts es Hop Hk Hes IH t' us f c ls E Hf Hc. injection E as <- <-.
    destruct f as [|f]; [lia|]. rewrite (nary_parse_at f t k op Hop Hk). unfold nary_parse.
    cbn [length] in Hf. destruct Hc as [Hc _]. rewrite (Hc eq_refl). erewrite bind_eq.
    2:{ apply IH with (es' := []) (c2 := []); [lia..|discriminate|].
        pose proof (d_operands_length _ _ Hes) as Hle.
        destruct (f - length es) as [|g] eqn:Eg; [lia|]. cbn [nary_loop].
        eapply bind_to. apply next_if_no. discriminate. reflexivity. }
    rewrite app_nil_r. cbv beta iota. erewrite bind_eq by apply next_none. reflexivity.
  - intros k op t ts es us e Hop Hk Hes IH He IHe t' us' f c ls E Hf Hc. injection E as <- <-.
    destruct f as [|f]; [lia|]. rewrite (nary_parse_at f t k op Hop Hk). unfold nary_parse.
    cbn [length] in Hf. rewrite app_length in Hf. destruct Hc as [Hc _]. rewrite (Hc eq_refl).
    rewrite <- app_assoc. destruct (d_expr_first _ _ _ He) as (x & xs & Ex & Hx).
    assert (Hus : 0 < length us) by (rewrite Ex; cbn; lia).
    erewrite bind_eq.
    2:{ apply IH with (es' := [Operand e None]) (c2 := []); [lia..| |].
        - intros y ys Ey. rewrite Ex in Ey. injection Ey as <- _. right. exact Hx.
        - pose proof (d_operands_length _ _ Hes) as Hle.
          destruct (f - length es) as [|[|g]] eqn:Eg; [lia..|]. cbn [nary_loop].
          rewrite Ex. cbn [app]. erewrite bind_eq.
          2:{ apply next_if_yes. destruct (is_kw MKAY x) eqn:Em; [|reflexivity].
              apply is_kw_iff in Em. exfalso. exact (mkay_no_expr _ Em Hx). }
          cbv beta iota. erewrite bind_eq by (eapply IHe; [exact Ex|lia|apply fits_nil]).
          cbv beta iota. erewrite bind_eq by (apply next_if_no; discriminate). cbv beta iota.
          erewrite bind_eq.
          2:{ erewrite bind_eq by (apply next_if_no; discriminate). reflexivity. }
          reflexivity. }
    cbv beta iota. erewrite bind_eq by apply next_none. reflexivity.
  - intros f g c ls Hf Hg Hc es' c2 H. cbn [length app] in *. rewrite Nat.sub_0_r in H. exact H.
  - intros ts e ans an us es He IHe Ha Hes IH f g c ls Hf Hg Hc es' c2 H.
    rewrite !app_length in Hf, Hg.
    destruct (d_expr_first _ _ _ He) as (x & xs & Ex & Hx).
    destruct f as [|f]; [lia|]. cbn [nary_loop]. rewrite <- !app_assoc. rewrite Ex at 1. cbn [app].
    assert (0 < length ts) by (rewrite Ex; cbn; lia).
    erewrite bind_eq.
    2:{ apply next_if_yes. destruct (is_kw MKAY x) eqn:Em; [|reflexivity].
        apply is_kw_iff in Em. exfalso. exact (mkay_no_expr _ Em Hx). }
    cbv beta iota. erewrite bind_eq.
    2:{ eapply IHe; [exact Ex|lia|]. apply fits_kw.
        eapply operand_follow; [eapply d_operands_first; exact Hes|exact Ha|exact Hc|].
        symmetry; apply app_nil_r. }
    cbv beta iota. erewrite bind_eq.
    2:{ apply next_if_opt; [exact Ha|]. intros _ y ys Ey Hy.
        destruct (d_operands_first _ _ Hes) as [->|(z & zs & -> & Hz)]; cbn [app] in Ey.
        - destruct (Hc _ _ Ey) as [H'|H']; [pose proof (kw_fun _ _ _ Hy H'); discriminate|exact (an_no_expr _ Hy H')].
        - injection Ey as <- _. exact (an_no_expr _ Hy Hz). }
    cbv beta iota. erewrite bind_eq.
    2:{ apply IH with (es' := es') (c2 := c2); [lia..|exact Hc|]. cbn [length] in H.
        replace (f - length es) with (S f - S (length es)) by lia. exact H. }
    reflexivity.
Qed.
Definition expr_complete := proj1 expr_complete_mut.
