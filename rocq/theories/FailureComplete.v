(** Every failure of the specification is the failure of the parser. *)
From Coq Require Import Lia.
From Verif Require Import Lines Grammar ExprGrammar LineGrammar Failure FailureSound.

(** The parser's result for a failure. *)
Definition fres {A} (f : failure) (ls : list (list token)) : res lstate A :=
  match f with FErr e r => RErr e (r, ls) | FPanic c => RPanic c end.

Lemma bind_fres {A B} (m : lstate -> res lstate A) (k : A -> lstate -> res lstate B) s f ls :
  m s = fres f ls -> bind m k s = fres f ls.
Proof. unfold bind. intros ->. destruct f; reflexivity. Qed.

(** ** Identifiers and accesses *)
Lemma x_identifier_nonnil l f : x_identifier l f -> exists t c, l = t :: c.
Proof. intros H. destruct H; eauto. Qed.

Lemma identifier_x l f : x_identifier l f -> forall t c ls, l = t :: c ->
  identifier_parse l_next t (c, ls) = fres f ls.
Proof.
  intros H. destruct H as [t r Ht|s Hs|s t r Hs Ht]; intros u c ls E; injection E as <- <-; unfold identifier_parse.
  - unfold id_start, ident_tok, kw in Ht.
    destruct (tok_type t) as [nm|k| | | | | | | | |] eqn:Et; try reflexivity; [destruct Ht; eauto|].
    destruct k; try reflexivity. destruct Ht. auto.
  - rewrite Hs. bnone. reflexivity.
  - rewrite Hs. bnext. destruct (tok_type t) as [nm| | | | | | | | | |] eqn:Et; try reflexivity. destruct Ht. exists nm. exact Et.
Qed.

Lemma accesses_x us sl : d_slots us sl -> forall f a l x ls, length us + 1 < f -> slot_tok a ->
  (l = [] /\ x = FErr (MissingToken a) [] \/ x_identifier l x) ->
  accesses_loop l_next l_peek f (us ++ a :: l, ls) = fres x ls.
Proof.
  induction 1 as [|b ts i us sl Hb Hi Hs IH]; intros [|f] a l x ls Hf Ha Hx; try lia; cbn [accesses_loop app].
  - erewrite bind_eq by (apply next_if_yes, is_slot_iff; assumption). cbv beta iota.
    destruct Hx as [[-> ->]|Hx]; [bnone; reflexivity|].
    destruct (x_identifier_nonnil _ _ Hx) as (t & c & ->). bnext.
    apply bind_fres. eapply identifier_x; [exact Hx|reflexivity].
  - erewrite bind_eq by (apply next_if_yes, is_slot_iff; assumption). cbv beta iota.
    destruct (d_identifier_first _ _ Hi) as (t & c & -> & _). cbn [app]. bnext.
    rewrite <- app_assoc. erewrite bind_eq by (eapply identifier_complete; [exact Hi|reflexivity]). cbv beta iota.
    apply bind_fres. apply IH; [|assumption..]. cbn [length app] in Hf. rewrite app_length in Hf. lia.
Qed.

Lemma x_va_nonnil l f : x_va l f -> exists t c, l = t :: c.
Proof.
  intros H. destruct H as [l f H|ts v a H Ha|ts v a l f H Ha Hx].
  - eapply x_identifier_nonnil; exact H.
  - destruct (d_va_first _ _ H) as (t & c & -> & _). cbn [app]. eauto.
  - destruct (d_va_first _ _ H) as (t & c & -> & _). cbn [app]. eauto.
Qed.

Lemma va_x l x : x_va l x -> forall t c f ls, l = t :: c -> length l <= f ->
  va_parse l_next l_peek f t (c, ls) = fres x ls.
Proof.
  intros H t c f ls E Hf. unfold va_parse.
  assert (Hva : forall ts v a us, d_va ts v -> slot_tok a -> ts ++ a :: us = t :: c ->
    (us = [] /\ x = FErr (MissingToken a) [] \/ x_identifier us x) -> length (ts ++ a :: us) <= f ->
    va_parse l_next l_peek f t (c, ls) = fres x ls).
  { intros ts v a us Hv Ha E' Hx Hl. destruct Hv as [ts i ws sl Hi Hs].
    destruct (d_identifier_first _ _ Hi) as (z & zs & -> & _). injection E' as <- <-. unfold va_parse.
    rewrite <- app_assoc. erewrite bind_eq by (eapply identifier_complete; [exact Hi|reflexivity]). cbv beta iota.
    apply bind_fres. eapply accesses_x; [exact Hs| |exact Ha|exact Hx].
    rewrite !app_length in Hl. cbn [length] in Hl. lia. }
  destruct H as [l x H|ts v a H Ha|ts v a l x H Ha Hx].
  - apply bind_fres. eapply identifier_x; eassumption.
  - eapply Hva; eauto.
  - eapply Hva; eauto.
Qed.

(** ** Expressions *)
Lemma x_expr_nonnil_mut :
  (forall l f, x_expr l f -> exists t c, l = t :: c) /\
  (forall l f, x_operands l f -> exists t c, l = t :: c).
Proof.
  apply x_expr_mut; intros; eauto.
  - eapply x_va_nonnil; eassumption.
  - destruct (d_expr_first _ _ _ d) as (t0 & c & -> & _). cbn [app]. eauto.
Qed.
Definition x_expr_nonnil := proj1 x_expr_nonnil_mut.
Definition x_operands_nonnil := proj2 x_expr_nonnil_mut.

Lemma not_starts t f c ls : ~ starts_expr t -> ~ kw MAEK t ->
  expr_parse l_next l_peek (S f) t (c, ls) = RErr (UnexpectedToken t) (c, ls).
Proof.
  intros H1 H2. assert (H3 : ~ expr_start t) by (rewrite expr_start_starts; exact H1). clear H1.
  cbn [expr_parse]. unfold expr_start, value_tok, ident_tok in H3.
  destruct (tok_type t) as [nm|k|sy|v|cm|cm| | | | |] eqn:Et; try reflexivity;
    [destruct H3; eauto| |destruct H3; eauto].
  destruct k; try reflexivity; try (destruct (H2 Et));
    destruct H3; (do 5 right; left; eexists _, _; split; [exact Et|constructor])
                 || (do 6 right; eexists _, _; split; [exact Et|constructor]) || (unfold kw; tauto).
Qed.

Lemma va_at t f : id_start t ->
  expr_parse l_next l_peek (S f) t = bind (va_parse l_next l_peek f t) (fun v => ret (Value (VariableAccess v))).
Proof. intros [[s H]|H]; cbn [expr_parse]; rewrite H; reflexivity. Qed.

Lemma opt_not_slot k ans an : d_opt k ans an -> ~ starts_with_slot ans.
Proof.
  intros H. destruct H as [|t Ht]; [apply nil_no_slot|apply cons_no_slot]. intros Hs. exact (kw_slot _ _ Ht Hs).
Qed.

Lemma then_an_next ts ans an l ls : then_an ts ans an l ->
  next_if l_next l_peek (is_kw AN) (ans ++ l, ls) = ROk an (l, ls).
Proof.
  intros (Ha & _ & Hn). apply next_if_opt; [exact Ha|]. intros -> t c' -> Ht. inversion Ha; subst.
  apply Hn; [reflexivity|]. exists t, c'. auto.
Qed.

Lemma expr_x_mut :
  (forall l x, x_expr l x -> forall t c f ls, l = t :: c -> length l < f ->
     expr_parse l_next l_peek f t (c, ls) = fres x ls) /\
  (forall l x, x_operands l x -> forall f g ls, length l < f -> length l < g ->
     nary_loop l_next l_peek (expr_parse l_next l_peek g) f (l, ls) = fres x ls).
Proof.
  apply x_expr_mut.
  - intros t r Hs Hm u c f ls E Hf. injection E as <- <-. destruct f as [|f]; [cbn in Hf; lia|].
    apply not_starts; assumption.
  - intros t r Hm u c f ls E Hf. injection E as <- <-. destruct f as [|f]; [cbn in Hf; lia|].
    cbn [expr_parse]. rewrite Hm. reflexivity.
  - intros l x (y & r & -> & Hy) Hx t c f ls E Hf. injection E as <- <-. destruct f as [|f]; [cbn in Hf; lia|].
    rewrite (va_at _ _ Hy). apply bind_fres.
    eapply va_x; [exact Hx|reflexivity|cbn [length] in *; lia].
  - intros t (k & op & Hop & Hk) u c f ls E Hf. injection E as <- <-. destruct f as [|f]; [cbn in Hf; lia|].
    rewrite (binary_parse_at _ _ _ _ Hop Hk). unfold binary_parse. bnone. rewrite (d_binary_token _ _ t Hop). reflexivity.
  - intros t l x (k & op & Hop & Hk) Hx IH u c f ls E Hf. injection E as <- <-. destruct f as [|f]; [cbn in Hf; lia|].
    rewrite (binary_parse_at _ _ _ _ Hop Hk). unfold binary_parse.
    destruct (x_expr_nonnil _ _ Hx) as (y & ys & ->). bnext. apply bind_fres. apply IH; [reflexivity|cbn [length] in *; lia].
  - intros t o ts e ans an (k & op & Hop & Hk) He Ha Ho u c f ls E Hf. injection E as <- <-. destruct f as [|f]; [cbn in Hf; lia|].
    rewrite (binary_parse_at _ _ _ _ Hop Hk). unfold binary_parse. cbn [length] in Hf. rewrite app_length in Hf.
    destruct (d_expr_first _ _ _ He) as (y & ys & Ey & _). subst ts. cbn [app]. bnext.
    erewrite bind_eq.
    2:{ eapply expr_complete; [exact He|reflexivity|lia|]. split; [exact Ho|].
        intros [_ H]. exact (opt_not_slot _ _ _ Ha H). }
    cbv beta iota. erewrite bind_eq.
    2:{ rewrite <- (app_nil_r ans). apply next_if_opt; [exact Ha|]. intros _ z c' E. discriminate. }
    cbv beta iota. bnone. rewrite (d_binary_token _ _ t Hop). reflexivity.
  - intros t ts e ans an l x (k & op & Hop & Hk) He Ha Hx IH u c f ls E Hf. injection E as <- <-. destruct f as [|f]; [cbn in Hf; lia|].
    rewrite (binary_parse_at _ _ _ _ Hop Hk). unfold binary_parse. cbn [length] in Hf. rewrite !app_length in Hf.
    destruct (d_expr_first _ _ _ He) as (y & ys & Ey & _). subst ts. cbn [app]. bnext.
    erewrite bind_eq by (eapply expr_complete; [exact He|reflexivity|lia|apply Ha]). cbv beta iota.
    erewrite bind_eq by (eapply then_an_next; exact Ha). cbv beta iota.
    destruct (x_expr_nonnil _ _ Hx) as (z & zs & ->). bnext. apply bind_fres. apply IH; [reflexivity|cbn [length] in *; lia].
  - intros t Ht u c f ls E Hf. injection E as <- <-. destruct f as [|f]; [cbn in Hf; lia|].
    cbn [expr_parse]. rewrite Ht. unfold unary_parse. bnone. reflexivity.
  - intros t l x Ht Hx IH u c f ls E Hf. injection E as <- <-. destruct f as [|f]; [cbn in Hf; lia|].
    cbn [expr_parse]. rewrite Ht. unfold unary_parse.
    destruct (x_expr_nonnil _ _ Hx) as (y & ys & ->). bnext. apply bind_fres. apply IH; [reflexivity|cbn [length] in *; lia].
  - intros t l x (k & op & Hop & Hk) Hx IH u c f ls E Hf. injection E as <- <-. destruct f as [|f]; [cbn in Hf; lia|].
    rewrite (nary_parse_at _ _ _ _ Hop Hk). unfold nary_parse. apply bind_fres. apply IH; cbn [length] in *; lia.
  - intros l x Hm Hx IH f g ls Hf Hg. destruct f as [|f]; [lia|]. cbn [nary_loop].
    destruct (x_expr_nonnil _ _ Hx) as (y & ys & ->).
    assert (Ey : is_kw MKAY y = false) by (apply is_kw_false; intros Hy; apply Hm; exists y, ys; auto).
    erewrite bind_eq by (apply next_if_yes; rewrite Ey; reflexivity). cbv beta iota.
    apply bind_fres. apply IH; [reflexivity|exact Hg].
  - intros ts e ans an l x He Ha Hx IH f g ls Hf Hg. destruct f as [|f]; [lia|]. cbn [nary_loop].
    rewrite !app_length in Hf, Hg. destruct (d_expr_first _ _ _ He) as (y & ys & Ey & Hy). subst ts.
    assert (Em : is_kw MKAY y = false) by (apply is_kw_false; intros Hk; exact (mkay_no_expr _ Hk Hy)).
    cbn [app]. erewrite bind_eq by (apply next_if_yes; rewrite Em; reflexivity). cbv beta iota.
    erewrite bind_eq by (eapply expr_complete; [exact He|reflexivity|lia|apply Ha]). cbv beta iota.
    erewrite bind_eq by (eapply then_an_next; exact Ha). cbv beta iota.
    apply bind_fres. apply IH; cbn [length] in *; lia.
Qed.
Definition expr_x := proj1 expr_x_mut.

(** ** The pieces of statements *)
Lemma expected_x {B} er l x : x_expected er l x -> forall f ls (k : expr -> lstate -> res lstate B), length l < f ->
  bind (next l_next) (fun o => match o with
    | Some t => bind (expr_parse l_next l_peek f t) k
    | None => fail er
    end) (l, ls) = fres x ls.
Proof.
  intros H f ls k Hf. destruct H as [|l x Hx]; [bnone; reflexivity|].
  destruct (x_expr_nonnil _ _ Hx) as (t & c & ->). bnext. apply bind_fres. eapply expr_x; [exact Hx|reflexivity|exact Hf].
Qed.

Lemma exprs_x l x : x_exprs l x -> forall f g ls, length l < f -> length l < g ->
  visible_loop l_next l_peek (expr_parse l_next l_peek g) f (l, ls) = fres x ls.
Proof.
  induction 1 as [l x Hb Hx|ts e l x He Hfit Hx IH]; intros [|f] g ls Hf Hg; try lia; cbn [visible_loop].
  - destruct (x_expr_nonnil _ _ Hx) as (y & ys & ->).
    assert (Ey : is_exclamation y = false).
    { destruct (is_exclamation y) eqn:E; [|reflexivity]. destruct Hb. exists y, ys. split; [reflexivity|].
      apply is_exclamation_iff. exact E. }
    erewrite bind_eq by (apply next_if_yes; rewrite Ey; reflexivity). cbv beta iota.
    apply bind_fres. eapply expr_x; [exact Hx|reflexivity|exact Hg].
  - rewrite app_length in Hf, Hg. destruct (d_expr_first _ _ _ He) as (y & ys & Ey & Hy). subst ts. cbn [app].
    erewrite bind_eq by (apply next_if_yes; rewrite (expr_start_exclamation _ Hy); reflexivity). cbv beta iota.
    erewrite bind_eq by (eapply expr_complete; [exact He|reflexivity|lia|exact Hfit]). cbv beta iota.
    apply bind_fres. apply IH; cbn [length] in *; lia.
Qed.

Lemma no_yr l ls pe f : ~ begins (kw YR) l -> 0 < f -> i_iz_loop l_next l_peek pe f (l, ls) = ROk [] (l, ls).
Proof.
  intros H Hf. destruct f as [|f]; [lia|]. cbn [i_iz_loop].
  assert (Hn : next_if l_next l_peek (is_kw YR) (l, ls) = ROk None (l, ls)).
  { apply next_if_no. intros t c' ->. apply is_kw_false. intros Ht. apply H. exists t, c'. auto. }
  erewrite bind_eq by exact Hn. reflexivity.
Qed.

Lemma args_x t l x : x_args t l x -> forall f g ls, length l < f -> length l < g -> forall (k : list expr -> i_iz),
  bind (i_iz_loop l_next l_peek (expr_parse l_next l_peek g) f) (fun es =>
    bind (next l_next) (fun o2 => match o2 with
      | None => fail (EIIz (MissingMkay t))
      | Some t2 => if is_kw MKAY t2 then ret (k es) else fail (EIIz (MissingMkay t2))
      end)) (l, ls) = fres x ls.
Proof.
  assert (Hno : forall l x es ls (k : list expr -> i_iz), x_no_mkay t l x ->
    bind (next l_next) (fun o2 => match o2 with
      | None => fail (EIIz (MissingMkay t))
      | Some t2 => if is_kw MKAY t2 then ret (k es) else fail (EIIz (MissingMkay t2))
      end) (l, ls) = fres x ls).
  { intros l0 x0 es ls k H. destruct H as [|u r Hu]; [bnone; reflexivity|]. bnext.
    apply is_kw_false in Hu. rewrite Hu. reflexivity. }
  induction 1 as [l x Hb Hm|yr l x Hyr Hx|yr o ts e l x Hyr He Hfit Hb Hm|yr ts e an l x Hyr He Han Hx IH];
    intros f g ls Hf Hg k.
  - erewrite bind_eq by (apply no_yr; [exact Hb|lia]). apply Hno. exact Hm.
  - destruct f as [|f]; [lia|]. apply bind_fres. cbn [i_iz_loop].
    erewrite bind_eq by (apply next_if_yes, is_kw_iff; assumption). cbv beta iota.
    destruct Hx as [|l x Hx]; [bnone; reflexivity|].
    destruct (x_expr_nonnil _ _ Hx) as (y & ys & ->). bnext. apply bind_fres.
    eapply expr_x; [exact Hx|reflexivity|cbn [length] in *; lia].
  - destruct f as [|f]; [lia|]. cbn [length] in Hf, Hg. rewrite app_length in Hf, Hg.
    erewrite bind_eq.
    2:{ cbn [i_iz_loop]. erewrite bind_eq by (apply next_if_yes, is_kw_iff; assumption). cbv beta iota.
        destruct (d_expr_first _ _ _ He) as (y & ys & Ey & Hy). subst ts. cbn [app]. bnext.
        erewrite bind_eq by (eapply expr_complete; [exact He|reflexivity|lia|exact Hfit]). cbv beta iota.
        assert (Hn : next_if l_next l_peek (is_kw AN) (l, ls) = ROk None (l, ls)).
        { apply next_if_no. intros z c' ->. apply is_kw_false. intros Hz. apply Hb. exists z, c'. auto. }
        erewrite bind_eq by exact Hn. reflexivity. }
    apply Hno. exact Hm.
  - destruct f as [|f]; [lia|]. cbn [length] in Hf, Hg. rewrite app_length in Hf, Hg. cbn [length] in Hf, Hg.
    rewrite <- (IH f g ls ltac:(lia) ltac:(lia) (fun es => k (e :: es))).
    assert (Hstep : i_iz_loop l_next l_peek (expr_parse l_next l_peek g) (S f) (yr :: ts ++ an :: l, ls) =
      bind (i_iz_loop l_next l_peek (expr_parse l_next l_peek g) f) (fun es => ret (e :: es)) (l, ls)).
    { cbn [i_iz_loop]. erewrite bind_eq by (apply next_if_yes, is_kw_iff; assumption). cbv beta iota.
      destruct (d_expr_first _ _ _ He) as (y & ys & Ey & Hy). subst ts. cbn [app]. bnext.
      erewrite bind_eq.
      2:{ eapply expr_complete; [exact He|reflexivity|lia|]. apply fits_kw. intros z c' E. injection E as <- _.
          intros Hs. exact (kw_slot _ _ Han Hs). }
      cbv beta iota. erewrite bind_eq by (apply next_if_yes, is_kw_iff; assumption). reflexivity. }
    unfold bind at 1. rewrite Hstep. unfold bind at 1 3.
    destruct (i_iz_loop l_next l_peek (expr_parse l_next l_peek g) f (l, ls)); reflexivity.
Qed.

(** ** Statements *)
Lemma fails_nonnil l x : fails_stmt l x -> exists t c, l = t :: c.
Proof.
  intros H. destruct H; eauto; try (destruct (d_va_first _ _ H) as (t & c & -> & _); cbn [app]; eauto; fail).
  - eapply x_va_nonnil; eassumption.
  - eapply x_expr_nonnil; eassumption.
Qed.

Lemma va_front ts v u l f t c ls : d_va ts v -> ~ slot_tok u -> ts ++ u :: l = t :: c -> length ts <= f ->
  va_parse l_next l_peek f t (c, ls) = ROk v (u :: l, ls) /\ va_is_valid t = true.
Proof.
  intros Hv Hu E Hf. destruct (d_va_first _ _ Hv) as (y & ys & -> & Hy). injection E as <- <-. split.
  - eapply va_complete; [exact Hv|reflexivity|exact Hf|]. apply cons_no_slot. exact Hu.
  - apply va_valid_iff. exact Hy.
Qed.

Lemma single_x l x : fails_stmt l x -> forall t c f ls, l = t :: c -> length l + 1 < f ->
  parse_statement l_next l_peek l_next_statement f t (c, ls) = fres x ls.
Proof.
  intros H t c f ls E Hf. destruct f as [|f]; [lia|]. cbn [parse_statement].
  destruct H as [w Hk|w u r Hk Hu|w l x Hk (u & r & -> & Hu) Hx|w ts i l x Hk Hi Hx
                |w l x Hk Hx|w Hk|w l x Hk Hx|w l x Hk Hx|w Hk|w l x Hk Hx|w ts v l x Hk Hv Hn Hx
                |l x (u & r & -> & Hu) Hx|ts v u r Hv Hn Hr Hh|ts v u l x Hv Hu Hx|ts v u l x Hv Hu Hx|l x Hb Hl Hx].
  - injection E as <- <-. rewrite (not_valid_kw _ _ Hk) by discriminate. unfold kw in Hk. rewrite Hk.
    unfold as_node. apply bind_fres. unfold i_has_a_parse. bnone. reflexivity.
  - injection E as <- <-. rewrite (not_valid_kw _ _ Hk) by discriminate. unfold kw in Hk. rewrite Hk.
    unfold as_node. apply bind_fres. unfold i_has_a_parse. bnext.
    destruct (va_is_valid u) eqn:Ev; [apply va_valid_iff in Ev; contradiction|]. reflexivity.
  - injection E as <- <-. rewrite (not_valid_kw _ _ Hk) by discriminate. unfold kw in Hk. rewrite Hk.
    unfold as_node. apply bind_fres. unfold i_has_a_parse. bnext. rewrite (proj2 (va_valid_iff u) Hu).
    apply bind_fres. eapply identifier_x; [exact Hx|reflexivity].
  - injection E as <- <-. rewrite (not_valid_kw _ _ Hk) by discriminate. unfold kw in Hk. rewrite Hk.
    unfold as_node. apply bind_fres. unfold i_has_a_parse. cbn [length] in Hf. rewrite app_length in Hf.
    destruct (d_identifier_first _ _ Hi) as (z & zs & E & _). subst ts. cbn [app]. bnext.
    rewrite (d_identifier_valid _ _ _ Hi).
    erewrite bind_eq by (eapply identifier_complete; [exact Hi|reflexivity]). cbv beta iota.
    destruct Hx as [y r Hy|y l x Hy Hb Hx].
    + bnext. apply is_kw_false in Hy. rewrite Hy. reflexivity.
    + bnext. rewrite (kw_eval _ _ Hy). destruct Hx as [|l x Hx]; [bnone; reflexivity|].
      destruct (x_expr_nonnil _ _ Hx) as (q & qs & ->). bnext.
      destruct (ast_type_try_from q) as [ty|] eqn:Eq.
      { destruct Hb. exists q, qs. split; [reflexivity|]. exists ty. apply type_sound. exact Eq. }
      apply bind_fres. eapply expr_x; [exact Hx|reflexivity|cbn [length] in *; lia].
  - injection E as <- <-. rewrite (not_valid_kw _ _ Hk) by discriminate. unfold kw in Hk. rewrite Hk.
    unfold as_node. apply bind_fres. unfold visible_parse. apply bind_fres.
    apply exprs_x; [exact Hx|cbn [length] in Hf; lia..].
  - injection E as <- <-. rewrite (not_valid_kw _ _ Hk) by discriminate. unfold kw in Hk. rewrite Hk.
    unfold as_node. apply bind_fres. unfold gimmeh_parse. bnone. reflexivity.
  - injection E as <- <-. rewrite (not_valid_kw _ _ Hk) by discriminate. unfold kw in Hk. rewrite Hk.
    unfold as_node. apply bind_fres. unfold gimmeh_parse.
    destruct (x_va_nonnil _ _ Hx) as (y & ys & ->). bnext. apply bind_fres.
    eapply va_x; [exact Hx|reflexivity|cbn [length] in *; lia].
  - injection E as <- <-. rewrite (not_valid_kw _ _ Hk) by discriminate. unfold kw in Hk. rewrite Hk.
    unfold as_node. apply bind_fres. unfold found_yr_parse. apply (expected_x _ _ _ Hx). cbn [length] in *; lia.
  - injection E as <- <-. rewrite (not_valid_kw _ _ Hk) by discriminate. unfold kw in Hk. rewrite Hk.
    unfold as_node. apply bind_fres. unfold i_iz_parse. bnone. reflexivity.
  - injection E as <- <-. rewrite (not_valid_kw _ _ Hk) by discriminate. unfold kw in Hk. rewrite Hk.
    unfold as_node. apply bind_fres. unfold i_iz_parse.
    destruct (x_va_nonnil _ _ Hx) as (y & ys & ->). bnext. apply bind_fres.
    eapply va_x; [exact Hx|reflexivity|cbn [length] in *; lia].
  - injection E as <- <-. rewrite (not_valid_kw _ _ Hk) by discriminate. unfold kw in Hk. rewrite Hk.
    unfold as_node. apply bind_fres. unfold i_iz_parse. cbn [length] in Hf. rewrite app_length in Hf.
    destruct (d_va_first _ _ Hv) as (y & ys & E & _). subst ts. cbn [app]. bnext.
    erewrite bind_eq by (eapply va_complete; [exact Hv|reflexivity|lia|exact Hn]). cbv beta iota.
    apply (args_x _ _ _ Hx f f ls ltac:(lia) ltac:(lia) (fun es => mkIIz w v es)).
  - injection E as <- <-. rewrite (proj2 (va_valid_iff u) Hu). unfold va_statement. apply bind_fres.
    eapply va_x; [exact Hx|reflexivity|cbn [length] in *; lia].
  - rewrite app_length in Hf. destruct (va_front _ _ _ _ f _ _ ls Hv Hn E ltac:(lia)) as [E1 E2]. rewrite E2.
    unfold va_statement. erewrite bind_eq by exact E1. cbv beta iota. erewrite bind_eq by apply peek_some.
    cbv beta iota. apply is_kw_false in Hr. apply is_kw_false in Hh. rewrite ?Hr, ?Hh. reflexivity.
  - rewrite app_length in Hf. cbn [length] in Hf.
    assert (Hn : ~ slot_tok u) by (intros Hs; exact (kw_slot _ _ Hu Hs)).
    destruct (va_front _ _ _ _ f _ _ ls Hv Hn E ltac:(lia)) as [E1 E2]. rewrite E2.
    unfold va_statement. erewrite bind_eq by exact E1. cbv beta iota. erewrite bind_eq by apply peek_some.
    cbv beta iota. rewrite (kw_eval _ _ Hu). unfold as_node. apply bind_fres. unfold assignment_parse. bnext.
    rewrite (kw_eval _ _ Hu). apply (expected_x _ _ _ Hx). lia.
  - rewrite app_length in Hf. cbn [length] in Hf.
    assert (Hn : ~ slot_tok u) by (intros Hs; exact (kw_slot _ _ Hu Hs)).
    destruct (va_front _ _ _ _ f _ _ ls Hv Hn E ltac:(lia)) as [E1 E2]. rewrite E2.
    unfold va_statement. erewrite bind_eq by exact E1. cbv beta iota. erewrite bind_eq by apply peek_some.
    cbv beta iota.
    assert (Er : is_kw R u = false)
      by (apply is_kw_false; intros Hk; pose proof (kw_fun _ _ _ Hk Hu); discriminate).
    rewrite Er, (kw_eval _ _ Hu). unfold as_node. apply bind_fres. unfold bukkit_set_slot_parse. bnext.
    rewrite (kw_eval _ _ Hu).
    destruct Hx as [|l x Hx|us i Hi|us i y r Hi Hy|us i y l x Hi Hy Hx].
    + bnone. reflexivity.
    + destruct (x_identifier_nonnil _ _ Hx) as (y & ys & ->). bnext. apply bind_fres.
      eapply identifier_x; [exact Hx|reflexivity].
    + destruct (d_identifier_first _ _ Hi) as (z & zs & -> & _). bnext.
      erewrite bind_eq by (rewrite <- (app_nil_r zs); eapply identifier_complete; [exact Hi|reflexivity]). cbv beta iota.
      bnone. reflexivity.
    + destruct (d_identifier_first _ _ Hi) as (z & zs & -> & _). cbn [app]. bnext.
      erewrite bind_eq by (eapply identifier_complete; [exact Hi|reflexivity]). cbv beta iota.
      bnext. apply is_kw_false in Hy. rewrite Hy. reflexivity.
    + rewrite app_length in Hf. cbn [length] in Hf. destruct (d_identifier_first _ _ Hi) as (z & zs & -> & _). cbn [app]. bnext.
      erewrite bind_eq by (eapply identifier_complete; [exact Hi|reflexivity]). cbv beta iota.
      bnext. rewrite (kw_eval _ _ Hy). destruct Hx as [|l x Hx]; [bnone; reflexivity|].
      destruct (x_expr_nonnil _ _ Hx) as (q & qs & ->). bnext. apply bind_fres.
      eapply expr_x; [exact Hx|reflexivity|cbn [length] in *; lia].
  - subst l. assert (Hl' : ~ line_start t) by (intros H; apply Hl; exists t, c; auto).
    assert (Hb' : ~ block_start t) by (intros H; apply Hb; exists t, c; auto).
    assert (Ev : va_is_valid t = false).
    { destruct (va_is_valid t) eqn:Ev; [|reflexivity]. apply va_valid_iff in Ev. destruct Hl'. left. exact Ev. }
    rewrite Ev.
    assert (Ha : as_node NExpression (expr_parse l_next l_peek f t) (c, ls) = fres x ls).
    { unfold as_node. apply bind_fres. eapply expr_x; [exact Hx|reflexivity|lia]. }
    destruct (tok_type t) as [nm|k|sy|v|cm|cm| | | | |] eqn:Et; auto.
    destruct k; auto; exfalso; unfold line_start, block_start, kw in *; tauto.
Qed.
