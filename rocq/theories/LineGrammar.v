(** Single-line statements are parsed exactly on the lines of their grammar. *)
From Coq Require Import Lia.
From Verif Require Import Lines Grammar ExprGrammar.

Lemma bind_ret {S A B} (m : S -> res S A) (g : A -> B) s a s1 :
  m s = ROk a s1 -> bind m (fun a => ret (g a)) s = ROk (g a) s1.
Proof. unfold bind. intros ->. reflexivity. Qed.

Ltac inv_next_c H :=
  let a := fresh "o" in let s := fresh "s" in let H1 := fresh "Hm" in
  apply bind_ok in H as (a & s & H1 & H); cbn in H1; injection H1 as <- <-.

Ltac bret :=
  match goal with |- bind ?m (fun a => ret (@?g a)) ?s = _ => eapply (bind_ret m g s) end.

(** First tokens of statements that use more than their line. *)
Definition multi_line (t : token) : Prop :=
  kw HAI t \/ kw IM_IN_YR t \/ kw HOW_IZ_I t \/ kw WTF t \/ kw O_RLY t.

(** ** Soundness *)
Lemma type_sound t ty : ast_type_try_from t = Some ty -> d_type t ty.
Proof.
  unfold ast_type_try_from. destruct (tok_type t) as [|k| | | | | | | | |] eqn:E; try discriminate.
  destruct k; try discriminate; intros H; injection H as <-; constructor; exact E.
Qed.
Lemma type_complete t ty : d_type t ty -> ast_type_try_from t = Some ty.
Proof. intros H; destruct H as [t H|t H|t H|t H|t H|t H]; unfold kw in H; unfold ast_type_try_from; rewrite H; reflexivity. Qed.

Lemma i_has_a_sound f t c ls x s' : kw I_HAS_A t ->
  i_has_a_parse l_next l_peek f t (c, ls) = ROk x s' ->
  snd s' = ls /\ (fst s' = [] -> d_line (t :: c) (NIHasA x)).
Proof.
  intros Ht H. unfold i_has_a_parse in H. inv_next H; [|discriminate].
  destruct (va_is_valid t0); [|discriminate]. inv_bind H.
  apply identifier_sound in Hm as (ts & c' & E & -> & Hi). rewrite E. inv_next H.
  2:{ inv_ret H. split; [reflexivity|]. intros _. apply d_i_has_a; [assumption..|constructor]. }
  destruct (is_kw ITZ t1) eqn:Ek; [|discriminate]. apply is_kw_iff in Ek. inv_next H; [|discriminate].
  destruct (ast_type_try_from t2) eqn:Et.
  - inv_ret H. split; [reflexivity|]. cbn [fst]. intros ->. apply d_i_has_a; [assumption..|].
    constructor; [assumption|]. apply type_sound. assumption.
  - inv_bind H. apply expr_sound in Hm as (o & us & c'' & E' & -> & He & Hf). inv_ret H.
    split; [reflexivity|]. cbn [fst]. intros ->. rewrite E', app_nil_r. rewrite app_nil_r in E'.
    apply d_i_has_a; [assumption..|]. econstructor; [assumption|eassumption|].
    intros t3 E3 Hk. rewrite E3 in E'. injection E' as -> _.
    rewrite (type_complete _ _ (d_noob_type _ Hk)) in Et. discriminate.
Qed.

Lemma d_exprs_empty o es : d_exprs o [] es -> es = [].
Proof.
  remember [] as ts eqn:E. intros H; destruct H as [|o ts e He|o ts e us es He Hes Hn]; [reflexivity|..].
  - subst. destruct (d_expr_nonnil _ _ _ He eq_refl).
  - apply app_eq_nil in E as [-> ->]. destruct (d_expr_nonnil _ _ _ He eq_refl).
Qed.

Lemma visible_loop_sound pe : sound_pe pe -> forall f c ls es s',
  visible_loop l_next l_peek pe f (c, ls) = ROk es s' ->
  exists c' o ts, s' = (c', ls) /\ c = ts ++ c' /\ (forall t c'', c' = t :: c'' -> exclamation_tok t) /\
                  d_exprs o ts es /\ (o = true -> c' = []).
Proof.
  intros Hpe f. induction f as [|f IH]; intros c ls es s' H; [discriminate|].
  cbn [visible_loop] in H. inv_next_if H.
  - inv_bind H. apply Hpe in Hm as (o & ts & c' & E & -> & He & Hf). inv_bind H.
    apply IH in Hm as (c2 & o2 & us & -> & -> & Hx & Hes & Ho). inv_ret H.
    destruct a0 as [|e es].
    + assert (us = []) as ->.
      { inversion Hes; [reflexivity|..]. }
      exists c2, o, ts. cbn [app] in *. splits; [assumption..| |].
      * constructor; assumption.
      * apply Hf.
    + exists c2, o2, (ts ++ us). rewrite E, app_assoc. splits; [assumption| |assumption].
      destruct o.
      { destruct Hf as [Hf _]. apply app_eq_nil in Hf as [-> _]; [|reflexivity].
        apply d_exprs_empty in Hes. discriminate. }
      apply d_exprs_cons; [assumption..|discriminate].
  - inv_ret H. exists c, false, []. splits; [|constructor|discriminate].
    intros t c'' ->. specialize (Ht _ _ eq_refl). apply is_exclamation_iff.
    destruct (is_exclamation t); [reflexivity|discriminate].
Qed.

Lemma visible_sound f t c ls x s' : kw VISIBLE t ->
  visible_parse l_next l_peek f t (c, ls) = ROk x s' ->
  snd s' = ls /\ (fst s' = [] -> d_line (t :: c) (NVisible x)).
Proof.
  intros Ht H. unfold visible_parse in H. inv_bind H.
  apply (visible_loop_sound _ (expr_sound f)) in Hm as (c' & o & ts & -> & -> & Hx & Hes & Ho).
  inv_next_if H.
  - inv_ret H. split; [reflexivity|]. cbn [fst]. intros ->. apply d_visible_bang; [assumption| |].
    + destruct o; [|assumption]. discriminate (Ho eq_refl).
    + apply (Hx _ _ eq_refl).
  - inv_ret H. split; [reflexivity|]. cbn [fst]. intros ->. rewrite app_nil_r.
    econstructor; eassumption.
Qed.

Lemma gimmeh_sound f t c ls x s' : kw GIMMEH t ->
  gimmeh_parse l_next l_peek f t (c, ls) = ROk x s' ->
  snd s' = ls /\ (fst s' = [] -> d_line (t :: c) (NGimmeh x)).
Proof.
  intros Ht H. unfold gimmeh_parse in H. inv_next H; [|discriminate]. inv_bind H.
  apply va_sound in Hm as (ts & c' & E & -> & Hv & _). inv_ret H. split; [reflexivity|].
  cbn [fst]. intros ->. rewrite app_nil_r in E. rewrite E. constructor; assumption.
Qed.

Lemma found_yr_sound f t c ls x s' : kw FOUND_YR t ->
  found_yr_parse l_next l_peek f t (c, ls) = ROk x s' ->
  snd s' = ls /\ (fst s' = [] -> d_line (t :: c) (NFoundYr x)).
Proof.
  intros Ht H. unfold found_yr_parse in H. inv_next H; [|discriminate]. inv_bind H.
  apply expr_sound in Hm as (o & ts & c' & E & -> & He & _). inv_ret H. split; [reflexivity|].
  cbn [fst]. intros ->. rewrite app_nil_r in E. rewrite E. econstructor; eassumption.
Qed.

Lemma i_iz_loop_sound pe : sound_pe pe -> forall f c ls es s',
  i_iz_loop l_next l_peek pe f (c, ls) = ROk es s' ->
  exists c', s' = (c', ls) /\ (c' <> [] -> exists us, c = us ++ c' /\ d_args us es).
Proof.
  intros Hpe f. induction f as [|f IH]; intros c ls es s' H; [discriminate|].
  cbn [i_iz_loop] in H. inv_next_if H.
  - apply is_kw_iff in Ht. inv_next H; [|discriminate]. inv_bind H.
    apply Hpe in Hm as (o & ts & c' & E & -> & He & Hf). inv_next_if H.
    + apply is_kw_iff in Ht0. destruct o; [destruct Hf as [Hf _]; discriminate (Hf eq_refl)|].
      inv_bind H. apply IH in Hm as (c2 & -> & HL). inv_ret H. exists c2. split; [reflexivity|].
      intros Hc. destruct (HL Hc) as (us & -> & Ha). exists (t :: ts ++ t1 :: us). split.
      * rewrite E. cbn [app]. rewrite <- app_assoc. reflexivity.
      * apply d_args_cons; assumption.
    + inv_ret H. exists c'. split; [reflexivity|]. intros Hc. exists (t :: ts).
      rewrite E. split; [reflexivity|]. destruct o; [destruct Hf as [Hf _]; destruct (Hc (Hf eq_refl))|].
      apply d_args_last; assumption.
  - inv_ret H. exists c. split; [reflexivity|]. intros _. exists []. split; [reflexivity|constructor].
Qed.

Lemma i_iz_sound f t c ls x s' : kw I_IZ t ->
  i_iz_parse l_next l_peek f t (c, ls) = ROk x s' ->
  snd s' = ls /\ (fst s' = [] -> d_line (t :: c) (NIIz x)).
Proof.
  intros Ht H. unfold i_iz_parse in H. inv_next H; [|discriminate]. inv_bind H.
  apply va_sound in Hm as (ts & c' & E & -> & Hv & _). inv_bind H.
  apply (i_iz_loop_sound _ (expr_sound f)) in Hm as (c2 & -> & HL). inv_next H; [|discriminate].
  destruct (is_kw MKAY t1) eqn:Ek; [|discriminate]. apply is_kw_iff in Ek. inv_ret H.
  split; [reflexivity|]. cbn [fst]. intros ->. destruct (HL ltac:(discriminate)) as (us & -> & Ha).
  rewrite E. constructor; assumption.
Qed.

Lemma va_statement_sound f t c ls n s' :
  va_statement l_next l_peek f t (c, ls) = ROk n s' ->
  snd s' = ls /\ (fst s' = [] -> d_line (t :: c) n).
Proof.
  intros H. unfold va_statement in H. inv_bind H.
  apply va_sound in Hm as (ts & c' & E & -> & Hv & _). inv_bind H. apply peek_ok in Hm as [-> ->].
  destruct c' as [|u c']; cbn [hd_error] in H.
  - inv_ret H. split; [reflexivity|]. intros _. rewrite app_nil_r in E. rewrite E.
    econstructor. constructor. assumption.
  - destruct (is_kw R u) eqn:Er.
    + unfold as_node, assignment_parse in H. inv_bind H. inv_ret H. inv_next_c Hm.
      rewrite Er in Hm. inv_next Hm; [|discriminate]. inv_bind Hm.
      apply expr_sound in Hm0 as (o & us & c'' & E' & -> & He & _). inv_ret Hm.
      split; [reflexivity|]. cbn [fst]. intros ->. rewrite app_nil_r in E'. rewrite E, E'.
      econstructor; [assumption|apply is_kw_iff; assumption|eassumption].
    + destruct (is_kw HAS_A u) eqn:Eh; [|discriminate].
      unfold as_node, bukkit_set_slot_parse in H. inv_bind H. inv_ret H. inv_next_c Hm.
      rewrite Eh in Hm. inv_next Hm; [|discriminate]. inv_bind Hm.
      apply identifier_sound in Hm0 as (us & c'' & E' & -> & Hi). inv_next Hm; [|discriminate].
      destruct (is_kw ITZ t1) eqn:Ei; [|discriminate]. inv_next Hm; [|discriminate]. inv_bind Hm.
      apply expr_sound in Hm0 as (o & ws & c3 & E3 & -> & He & _). inv_ret Hm.
      split; [reflexivity|]. cbn [fst]. intros ->. rewrite app_nil_r in E3. rewrite E, E', E3.
      econstructor; try eassumption; apply is_kw_iff; assumption.
Qed.

Lemma single_sound f t c ls n s' : ~ multi_line t ->
  parse_statement l_next l_peek l_next_statement f t (c, ls) = ROk n s' ->
  snd s' = ls /\ (fst s' = [] -> d_line (t :: c) n).
Proof.
  intros Hm H. destruct f as [|f]; [discriminate|]. cbn [parse_statement] in H.
  destruct (va_is_valid t); [eapply va_statement_sound; exact H|].
  assert (Hexpr : as_node NExpression (expr_parse l_next l_peek f t) (c, ls) = ROk n s' ->
                  snd s' = ls /\ (fst s' = [] -> d_line (t :: c) n)).
  { clear H. intros H. unfold as_node in H. inv_bind H. inv_ret H.
    apply expr_sound in Hm0 as (o & ts & c' & E & -> & He & _). split; [reflexivity|].
    cbn [fst]. intros ->. rewrite app_nil_r in E. rewrite E. econstructor; eassumption. }
  destruct (tok_type t) as [nm|k|sy|v|cm|cm| | | | |] eqn:Et; auto.
  destruct k; auto; try (destruct Hm; unfold multi_line, kw; tauto).
  - inv_ret H. split; [reflexivity|]. cbn [fst]. intros ->. constructor. exact Et.
  - unfold as_node in H. inv_bind H. inv_ret H. eapply i_has_a_sound; [exact Et|eassumption].
  - unfold as_node in H. inv_bind H. inv_ret H. eapply visible_sound; [exact Et|eassumption].
  - unfold as_node in H. inv_bind H. inv_ret H. eapply gimmeh_sound; [exact Et|eassumption].
  - inv_ret H. split; [reflexivity|]. cbn [fst]. intros ->. constructor. exact Et.
  - unfold as_node in H. inv_bind H. inv_ret H. eapply found_yr_sound; [exact Et|eassumption].
  - unfold as_node in H. inv_bind H. inv_ret H. eapply i_iz_sound; [exact Et|eassumption].
Qed.

(** ** Completeness *)
Ltac bnext := erewrite bind_eq by apply next_some; cbv beta iota.
Ltac bnone := erewrite bind_eq by apply next_none; cbv beta iota.

Lemma kw_eval k t : kw k t -> is_kw k t = true.
Proof. apply is_kw_iff. Qed.

Lemma d_identifier_valid t us i : d_identifier (t :: us) i -> va_is_valid t = true.
Proof.
  intros H. destruct (d_identifier_first _ _ H) as (x & xs & E & Hx). injection E as <- _.
  unfold va_is_valid. destruct Hx as [Hx|Hx]; [apply is_identifier_iff in Hx|apply is_kw_iff in Hx];
    rewrite Hx; auto using Bool.orb_true_r.
Qed.

Lemma nil_no_slot : ~ starts_with_slot [].
Proof. intros (y & us & E & _). discriminate. Qed.
Lemma cons_no_slot t c : ~ slot_tok t -> ~ starts_with_slot (t :: c).
Proof. intros H (y & us & E & Hy). injection E as <- _. contradiction. Qed.

Lemma expr_start_type t : expr_start t -> ~ kw NOOB t -> ast_type_try_from t = None.
Proof.
  intros Ht Hn. destruct (ast_type_try_from t) as [ty|] eqn:E; [|reflexivity]. exfalso.
  apply type_sound in E. destruct E as [t H|t H|t H|t H|t H|t H]; try contradiction;
    (eapply no_expr_kw_of; [|exact H|exact Ht]; exact I).
Qed.

Lemma i_has_a_complete t ts i us init f ls : d_identifier ts i -> d_initial us init ->
  length ts + length us < f ->
  i_has_a_parse l_next l_peek f t (ts ++ us, ls) = ROk (mkIHasA t i init) ([], ls).
Proof.
  intros Hi Hin Hf. unfold i_has_a_parse.
  destruct (d_identifier_first _ _ Hi) as (x & xs & E & _). subst ts. cbn [app]. bnext.
  rewrite (d_identifier_valid _ _ _ Hi).
  erewrite bind_eq by (eapply identifier_complete; [exact Hi|reflexivity]). cbv beta iota.
  destruct Hin as [|itz y ty Hk Hty|itz o ts e Hk He Hn].
  - bnone. reflexivity.
  - bnext. rewrite (kw_eval _ _ Hk). bnext. rewrite (type_complete _ _ Hty). reflexivity.
  - bnext. rewrite (kw_eval _ _ Hk). destruct (d_expr_first _ _ _ He) as (y & ys & E & Hy). subst ts.
    bnext. rewrite (expr_start_type y Hy).
    + bret. rewrite <- (app_nil_r ys).
      eapply expr_complete; [exact He|reflexivity| |apply fits_nil]. cbn in Hf |- *. lia.
    + intros Hny. assert (E : ys = []); [|subst; exact (Hn y eq_refl Hny)].
      inversion He as [| |? ? Hv|? ? ? ? ? ? ? ? ? ? Ho Hk'|? ? ? ? Hk'|? ? ? ? ? ? Ho Hk'|? ? ? ? ? Ho Hk'|? ? ? ? ? ? ? Ho Hk'];
        subst; try reflexivity.
      * destruct (d_va_first _ _ Hv) as (z & zs & E & Hz). injection E as <- _.
        destruct Hz as [Hz|Hz]; [destruct (kw_ident _ _ Hny Hz)|pose proof (kw_fun _ _ _ Hny Hz); discriminate].
      * pose proof (kw_fun _ _ _ Hny Hk') as <-. inversion Ho.
      * pose proof (kw_fun _ _ _ Hny Hk'). discriminate.
      * pose proof (kw_fun _ _ _ Hny Hk') as <-. inversion Ho.
      * pose proof (kw_fun _ _ _ Hny Hk') as <-. inversion Ho.
      * pose proof (kw_fun _ _ _ Hny Hk') as <-. inversion Ho.
Qed.

Lemma exclamation_slot t : exclamation_tok t -> ~ slot_tok t.
Proof. unfold exclamation_tok, slot_tok. congruence. Qed.
Lemma expr_start_exclamation t : expr_start t -> is_exclamation t = false.
Proof.
  intros H. destruct (is_exclamation t) eqn:E; [|reflexivity]. apply is_exclamation_iff in E.
  unfold exclamation_tok in E. exfalso.
  destruct H as [[? H]|[[? H]|[H|[H|[H|[(? & ? & H & _)|(? & ? & H & _)]]]]]]; unfold kw in *; congruence.
Qed.

Lemma d_exprs_first o ts es : d_exprs o ts es -> es <> [] -> exists t us, ts = t :: us /\ expr_start t.
Proof.
  intros H Hn; destruct H as [|o ts e He|o ts e us es He Hes Hne]; [contradiction|..];
    destruct (d_expr_first _ _ _ He) as (t & ws & -> & Ht); [eauto|]. exists t, (ws ++ us). auto.
Qed.

Lemma visible_loop_complete o ts es : d_exprs o ts es -> forall f g c ls,
  length ts < f -> length ts < g -> (o = true -> c = []) ->
  (forall t c', c = t :: c' -> exclamation_tok t) ->
  visible_loop l_next l_peek (expr_parse l_next l_peek g) f (ts ++ c, ls) = ROk es (c, ls).
Proof.
  assert (Hstop : forall f g c ls, 0 < f -> (forall t c', c = t :: c' -> exclamation_tok t) ->
     visible_loop l_next l_peek (expr_parse l_next l_peek g) f (c, ls) = ROk [] (c, ls)).
  { intros [|f] g c ls Hf Hx; [lia|]. cbn [visible_loop].
    eapply bind_to. apply next_if_no. intros t c' E.
    specialize (Hx _ _ E). apply is_exclamation_iff in Hx. rewrite Hx. reflexivity. reflexivity. }
  induction 1 as [|o ts e He|o ts e us es He Hes IH Hn]; intros f g c ls Hf Hg Ho Hx.
  - apply Hstop; [cbn in Hf; lia|assumption].
  - destruct f as [|f]; [lia|]. destruct (d_expr_first _ _ _ He) as (y & ys & -> & Hy).
    cbn [visible_loop app]. erewrite bind_eq
      by (apply next_if_yes; rewrite (expr_start_exclamation _ Hy); reflexivity). cbv beta iota.
    erewrite bind_eq.
    2:{ eapply expr_complete; [exact He|reflexivity|assumption|]. split; [exact Ho|].
        intros [_ (z & zs & -> & Hz)]. exact (exclamation_slot _ (Hx _ _ eq_refl) Hz). }
    cbv beta iota. erewrite bind_eq by (apply Hstop; [cbn in Hf; lia|assumption]). reflexivity.
  - destruct f as [|f]; [lia|]. destruct (d_expr_first _ _ _ He) as (y & ys & Ey & Hy).
    destruct (d_exprs_first _ _ _ Hes Hn) as (z & zs & Ez & Hz).
    rewrite app_length in Hf, Hg. rewrite <- app_assoc. rewrite Ey at 1.
    assert (0 < length ts) by (rewrite Ey; cbn; lia).
    cbn [visible_loop app]. erewrite bind_eq
      by (apply next_if_yes; rewrite (expr_start_exclamation _ Hy); reflexivity). cbv beta iota.
    erewrite bind_eq.
    2:{ eapply expr_complete; [exact He|exact Ey|lia|]. apply fits_kw. rewrite Ez. cbn [app].
        intros w ws E. injection E as <- _. apply expr_start_slot. assumption. }
    cbv beta iota. erewrite bind_eq by (apply IH; [lia..|assumption|assumption]). reflexivity.
Qed.

Lemma visible_complete t o ts es bang f ls : d_exprs o ts es -> length ts < f ->
  (bang = [] \/ exists x, bang = [x] /\ exclamation_tok x /\ o = false) ->
  visible_parse l_next l_peek f t (ts ++ bang, ls) =
  ROk (mkVisible t es (hd_error bang)) ([], ls).
Proof.
  intros Hes Hf Hb. unfold visible_parse. erewrite bind_eq.
  2:{ eapply visible_loop_complete; [exact Hes|lia|lia|..].
      - intros ->. destruct Hb as [->|(x & _ & _ & E)]; [reflexivity|discriminate].
      - intros y c' ->. destruct Hb as [E|(x & E & Hx & _)]; [discriminate|]. injection E as -> _. assumption. }
  cbv beta iota. destruct Hb as [->|(x & -> & Hx & _)].
  - erewrite bind_eq by (apply next_if_no; discriminate). reflexivity.
  - erewrite bind_eq by (apply next_if_yes, is_exclamation_iff; assumption). reflexivity.
Qed.

Lemma d_args_first us es : d_args us es -> us = [] \/ exists yr ws, us = yr :: ws /\ kw YR yr.
Proof. intros H; destruct H; eauto. Qed.

Lemma i_iz_loop_complete us es : d_args us es -> forall f g m c ls,
  length us < f -> length us < g -> kw MKAY m ->
  i_iz_loop l_next l_peek (expr_parse l_next l_peek g) f (us ++ m :: c, ls) = ROk es (m :: c, ls).
Proof.
  induction 1 as [|yr ts e Hyr He|yr ts e an us es Hyr He Han Ha IH]; intros [|f] g m c ls Hf Hg Hm;
    try (cbn in Hf; lia); cbn [i_iz_loop app].
  - eapply bind_to. apply next_if_no. intros t c' E. injection E as <- _.
    apply is_kw_false. intros Hk. pose proof (kw_fun _ _ _ Hk Hm). discriminate. reflexivity.
  - erewrite bind_eq by (apply next_if_yes, is_kw_iff; assumption). cbv beta iota.
    destruct (d_expr_first _ _ _ He) as (y & ys & -> & Hy). cbn [app]. bnext.
    erewrite bind_eq.
    2:{ eapply expr_complete; [exact He|reflexivity|cbn in Hg |- *; lia|].
        apply fits_kw. intros t c' E. injection E as <- _. intros Hs. exact (kw_slot _ _ Hm Hs). }
    cbv beta iota. eapply bind_to. apply next_if_no. intros t c' E. injection E as <- _.
    apply is_kw_false. intros Hk. pose proof (kw_fun _ _ _ Hk Hm). discriminate. reflexivity.
  - erewrite bind_eq by (apply next_if_yes, is_kw_iff; assumption). cbv beta iota.
    destruct (d_expr_first _ _ _ He) as (y & ys & -> & Hy). cbn [app]. bnext.
    rewrite <- app_assoc. cbn [app].
    cbn [length app] in Hf, Hg. rewrite app_length in Hf, Hg. cbn [length] in Hf, Hg.
    erewrite bind_eq.
    2:{ eapply expr_complete; [exact He|reflexivity|cbn [length]; lia|].
        apply fits_kw. intros t c' E. injection E as <- _. intros Hs. exact (kw_slot _ _ Han Hs). }
    cbv beta iota. erewrite bind_eq by (apply next_if_yes, is_kw_iff; assumption). cbv beta iota.
    erewrite bind_eq by (apply IH; [lia..|assumption]). reflexivity.
Qed.

Lemma i_iz_complete t ts v us es m f ls : d_va ts v -> d_args us es -> kw MKAY m ->
  length ts + length us < f ->
  i_iz_parse l_next l_peek f t (ts ++ us ++ [m], ls) = ROk (mkIIz t v es) ([], ls).
Proof.
  intros Hv Ha Hm Hf. unfold i_iz_parse.
  destruct (d_va_first _ _ Hv) as (x & xs & E & _). subst ts. cbn [app]. bnext.
  erewrite bind_eq.
  2:{ eapply va_complete; [exact Hv|reflexivity|lia|].
      destruct (d_args_first _ _ Ha) as [->|(yr & ws & -> & Hyr)]; apply cons_no_slot; intros Hs; eapply kw_slot; eassumption. }
  cbv beta iota. erewrite bind_eq by (eapply i_iz_loop_complete; [eassumption|lia..|assumption]).
  cbv beta iota. bnext. rewrite (kw_eval _ _ Hm). reflexivity.
Qed.

Lemma expr_complete_end o ts e t us f ls : d_expr o ts e -> ts = t :: us -> length ts < f ->
  expr_parse l_next l_peek f t (us, ls) = ROk e ([], ls).
Proof.
  intros He E Hf. rewrite <- (app_nil_r us). eapply expr_complete; [exact He|exact E|exact Hf|apply fits_nil].
Qed.

Lemma expr_start_single t : expr_start t -> ~ multi_line t.
Proof.
  intros H [Hk|[Hk|[Hk|[Hk|Hk]]]]; (eapply no_expr_kw_of; [|exact Hk|exact H]; exact I).
Qed.

Lemma va_valid_iff t : va_is_valid t = true <-> ident_tok t \/ kw SRS t.
Proof.
  unfold va_is_valid. rewrite Bool.orb_true_iff, is_identifier_iff, is_kw_iff. reflexivity.
Qed.

Lemma d_line_first l n : d_line l n ->
  exists t us, l = t :: us /\
    (expr_start t \/ kw I_HAS_A t \/ kw VISIBLE t \/ kw GIMMEH t \/ kw FOUND_YR t \/ kw KTHXBYE t \/
     kw GTFO t \/ kw I_IZ t).
Proof.
  intros H; destruct H; try (eexists _, _; split; [reflexivity|]; tauto).
  - destruct (d_va_first _ _ H) as (x & xs & -> & Hx). eexists _, _. split; [reflexivity|].
    left. unfold expr_start. tauto.
  - destruct (d_va_first _ _ H) as (x & xs & -> & Hx). eexists _, _. split; [reflexivity|].
    left. unfold expr_start. tauto.
  - destruct (d_expr_first _ _ _ H) as (x & xs & -> & Hx). eauto 10.
Qed.

Ltac kw_type H := unfold kw in H; unfold va_is_valid, is_identifier, is_kw; rewrite ?H; cbn [orb].

Lemma not_valid_kw k t : kw k t -> k <> SRS -> va_is_valid t = false.
Proof.
  intros Hk Hn. destruct (va_is_valid t) eqn:E; [|reflexivity]. apply va_valid_iff in E as [E|E].
  - destruct (kw_ident _ _ Hk E).
  - pose proof (kw_fun _ _ _ Hk E). contradiction.
Qed.

Lemma d_expr_valid o t c e : d_expr o (t :: c) e -> ident_tok t \/ kw SRS t ->
  exists v, e = Value (VariableAccess v) /\ d_va (t :: c) v.
Proof.
  assert (Hkw : forall k x, kw k x -> k <> SRS -> ident_tok x \/ kw SRS x -> False).
  { intros k x Hk Hn [H|H]; [exact (kw_ident _ _ Hk H)|exact (Hn (kw_fun _ _ _ Hk H))]. }
  remember (t :: c) as l eqn:E. intros H Ht.
  destruct H as [x Hx|x Hx|ts v Hv|k op x o ls l ans an rs r Ho Hk|x o ts e Hk|k op x ts es m Ho Hk
                |k op x ts es Ho Hk|k op x ts es us e Ho Hk];
    try (injection E as -> _); try (exfalso; eapply Hkw; [eassumption| |exact Ht]; destruct Ho; discriminate).
  - exfalso. destruct Ht as [Ht|Ht]; [exact (value_ident _ Hx Ht)|exact (kw_value _ _ Ht Hx)].
  - exfalso. eapply Hkw; [exact Hx|discriminate|exact Ht].
  - subst. eauto.
  - exfalso. eapply Hkw; [exact Hk|discriminate|exact Ht].
  - exfalso. eapply Hkw; [exact Hk| |exact Ht]. destruct Ho; discriminate.
Qed.

Lemma single_complete l n : d_line l n -> forall t c f ls, l = t :: c -> length l + 1 < f ->
  parse_statement l_next l_peek l_next_statement f t (c, ls) = ROk n ([], ls).
Proof.
  intros H t c f ls E Hf. destruct f as [|f]; [lia|]. cbn [parse_statement].
  destruct H as [x ts i us init Hk Hi Hin|x o ts es Hk Hes|x ts es b Hk Hes Hb|x ts v Hk Hv|x o ts e Hk He
                |x Hk|x Hk|x ts v us es m Hk Hv Ha Hm|ts v r o us e Hv Hr He|ts v h us i itz o ws e Hv Hh Hi Hz He
                |o ts e He].
  - injection E as <- <-. rewrite (not_valid_kw _ _ Hk) by discriminate. unfold kw in Hk. rewrite Hk.
    unfold as_node. bret.
    apply i_has_a_complete; [assumption..|]. cbn [length] in Hf. rewrite app_length in Hf. lia.
  - injection E as <- <-. rewrite (not_valid_kw _ _ Hk) by discriminate. unfold kw in Hk. rewrite Hk.
    unfold as_node. bret. rewrite <- (app_nil_r ts).
    eapply (visible_complete _ _ _ _ []); [eassumption| |auto]. cbn [length] in Hf. lia.
  - injection E as <- <-. rewrite (not_valid_kw _ _ Hk) by discriminate. unfold kw in Hk. rewrite Hk.
    unfold as_node. bret.
    eapply (visible_complete _ _ _ _ [b]); [eassumption| |eauto]. cbn [length] in Hf. rewrite app_length in Hf. lia.
  - injection E as <- <-. rewrite (not_valid_kw _ _ Hk) by discriminate. unfold kw in Hk. rewrite Hk.
    unfold as_node. bret. unfold gimmeh_parse.
    destruct (d_va_first _ _ Hv) as (y & ys & E & _). subst ts. bnext.
    bret. rewrite <- (app_nil_r ys).
    eapply va_complete; [exact Hv|reflexivity|cbn [length] in *; lia|apply nil_no_slot].
  - injection E as <- <-. rewrite (not_valid_kw _ _ Hk) by discriminate. unfold kw in Hk. rewrite Hk.
    unfold as_node. bret. unfold found_yr_parse.
    destruct (d_expr_first _ _ _ He) as (y & ys & E & _). subst ts. bnext.
    bret.
    eapply expr_complete_end; [exact He|reflexivity|cbn [length] in *; lia].
  - injection E as <- <-. rewrite (not_valid_kw _ _ Hk) by discriminate. unfold kw in Hk. rewrite Hk. reflexivity.
  - injection E as <- <-. rewrite (not_valid_kw _ _ Hk) by discriminate. unfold kw in Hk. rewrite Hk. reflexivity.
  - injection E as <- <-. rewrite (not_valid_kw _ _ Hk) by discriminate. unfold kw in Hk. rewrite Hk.
    unfold as_node. bret.
    apply i_iz_complete; [assumption..|]. cbn [length] in Hf. rewrite !app_length in Hf. lia.
  - destruct (d_va_first _ _ Hv) as (y & ys & E' & Hy). subst ts. injection E as <- <-.
    rewrite (proj2 (va_valid_iff y) Hy). unfold va_statement. erewrite bind_eq.
    2:{ eapply va_complete; [exact Hv|reflexivity|rewrite app_length in Hf; lia|].
        apply cons_no_slot. intros Hs; eapply kw_slot; eassumption. }
    cbv beta iota. erewrite bind_eq by apply peek_some. cbv beta iota. rewrite (kw_eval _ _ Hr).
    unfold as_node. bret. unfold assignment_parse. bnext. rewrite (kw_eval _ _ Hr).
    destruct (d_expr_first _ _ _ He) as (z & zs & E & _). subst us. bnext.
    bret.
    eapply expr_complete_end; [exact He|reflexivity|rewrite app_length in Hf; cbn [length] in *; lia].
  - destruct (d_va_first _ _ Hv) as (y & ys & E' & Hy). subst ts. injection E as <- <-.
    rewrite (proj2 (va_valid_iff y) Hy). unfold va_statement. erewrite bind_eq.
    2:{ eapply va_complete; [exact Hv|reflexivity|rewrite app_length in Hf; lia|].
        apply cons_no_slot. intros Hs; exact (kw_slot _ _ Hh Hs). }
    cbv beta iota. erewrite bind_eq by apply peek_some. cbv beta iota.
    assert (Er : is_kw R h = false)
      by (apply is_kw_false; intros Hk; pose proof (kw_fun _ _ _ Hk Hh); discriminate).
    rewrite Er, (kw_eval _ _ Hh).
    unfold as_node. bret. unfold bukkit_set_slot_parse. bnext. rewrite (kw_eval _ _ Hh).
    destruct (d_identifier_first _ _ Hi) as (z & zs & E & _). subst us. cbn [app]. bnext.
    erewrite bind_eq by (eapply identifier_complete; [exact Hi|reflexivity]). cbv beta iota. bnext.
    rewrite (kw_eval _ _ Hz). destruct (d_expr_first _ _ _ He) as (w & ws' & E & _). subst ws. bnext.
    bret.
    eapply expr_complete_end; [exact He|reflexivity|].
    rewrite app_length in Hf; cbn [length] in *. rewrite app_length in Hf; cbn [length] in *. lia.
  - pose proof (expr_complete_end _ _ _ _ _ f ls He E ltac:(lia)) as Hp.
    destruct (d_expr_first _ _ _ He) as (y & ys & E' & Hy). rewrite E in E'. injection E' as <- <-.
    destruct (va_is_valid t) eqn:Ev.
    + assert (Hva : exists v, e = Value (VariableAccess v) /\ d_va ts v).
      { apply va_valid_iff in Ev. subst ts. eapply d_expr_valid; eassumption. }
      destruct Hva as (v & -> & Hv). unfold va_statement. rewrite <- (app_nil_r c). erewrite bind_eq.
      2:{ eapply va_complete; [exact Hv|exact E|lia|apply nil_no_slot]. }
      reflexivity.
    + assert (Hn : as_node NExpression (expr_parse l_next l_peek f t) (c, ls) = ROk (NExpression e) ([], ls))
        by (unfold as_node; erewrite bind_eq by exact Hp; reflexivity).
      destruct (tok_type t) as [nm|k|sy|v|cm|cm| | | | |] eqn:Et; auto.
      destruct k; auto; exfalso; (eapply no_expr_kw_of; [|exact Et|exact Hy]; exact I).
Qed.
