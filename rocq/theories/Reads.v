(** The statement the parser reads from the front of a line, and the tokens it
    leaves, are those of the specification. *)
From Coq Require Import Lia.
From Verif Require Import Lines Grammar ExprGrammar LineGrammar Failure.

Lemma d_expr_open o ts e : d_expr o ts e -> o = open_expr e.
Proof. induction 1; cbn; congruence. Qed.
Lemma begins_slot c : begins slot_tok c <-> starts_with_slot c.
Proof. reflexivity. Qed.

Lemma reads_fits l n r ts us o e : l = ts ++ r -> d_line ts n ->
  d_expr o us e -> fits o us r -> (greedy n -> open_expr e = true) ->
  (exists ws, ts = ws ++ us) -> reads l n r.
Proof.
  intros -> Hl He [Ho Hs] Hg (ws & ->). exists (ws ++ us). splits; [exact Hl| |].
  - intros H. apply Ho. rewrite (d_expr_open _ _ _ He). exact (Hg H).
  - intros [H1 H2]. apply Hs. split; [|exact H2]. apply (proj1 (ends_app ws us (d_expr_nonnil _ _ _ He))). exact H1.
Qed.
Lemma reads_all l n : d_line l n -> reads l n [].
Proof.
  intros H. exists l. rewrite app_nil_r. splits; [exact H|]. intros [_ (t & r & E & _)]. discriminate.
Qed.
Lemma reads_no_ident l n r us x : l = (us ++ [x]) ++ r -> d_line (us ++ [x]) n -> ~ greedy n ->
  ~ ident_tok x -> reads l n r.
Proof.
  intros -> Hl Hg Hx. exists (us ++ [x]). splits; [exact Hl|contradiction|].
  intros [(ws & y & E & Hy) _]. apply app_inj_tail in E as [_ ->]. contradiction.
Qed.

(** ** Soundness *)
Lemma type_not_ident t ty : d_type t ty -> ~ ident_tok t.
Proof. intros H Hi. destruct H; eapply kw_ident; eassumption. Qed.

Lemma i_has_a_reads f t c ls x s' : kw I_HAS_A t ->
  i_has_a_parse l_next l_peek f t (c, ls) = ROk x s' ->
  exists r, s' = (r, ls) /\ reads (t :: c) (NIHasA x) r.
Proof.
  intros Ht H. unfold i_has_a_parse in H. inv_next H; [|discriminate].
  destruct (va_is_valid t0); [|discriminate]. inv_bind H.
  apply identifier_sound in Hm as (ts & c' & E & -> & Hi). rewrite E. inv_next H.
  2:{ inv_ret H. exists []. split; [reflexivity|]. apply reads_all. apply d_i_has_a; [assumption..|constructor]. }
  destruct (is_kw ITZ t1) eqn:Ek; [|discriminate]. apply is_kw_iff in Ek. inv_next H; [|discriminate].
  destruct (ast_type_try_from t2) eqn:Et.
  - inv_ret H. eexists. split; [reflexivity|]. apply type_sound in Et.
    apply (reads_no_ident _ _ _ (t :: ts ++ [t1]) t2).
    + cbn [app]. rewrite <- !app_assoc. reflexivity.
    + cbn [app]. rewrite <- !app_assoc. apply d_i_has_a; [assumption..|]. constructor; assumption.
    + intros [].
    + eapply type_not_ident; exact Et.
  - inv_bind H. apply expr_sound in Hm as (o & us & c'' & E' & -> & He & Hf). inv_ret H.
    exists c''. split; [reflexivity|].
    apply (reads_fits _ _ _ (t :: ts ++ t1 :: us) us o a0); [| |assumption..| |].
    + rewrite E'. cbn [app]. rewrite <- app_assoc. reflexivity.
    + apply d_i_has_a; [assumption..|]. econstructor; [assumption|eassumption|].
      intros t3 E3 Hk. rewrite E3 in E'. injection E' as -> _.
      rewrite (type_complete _ _ (d_noob_type _ Hk)) in Et. discriminate.
    + cbn. auto.
    + exists (t :: ts ++ [t1]). cbn [app]. rewrite <- app_assoc. reflexivity.
Qed.

Lemma visible_reads f t c ls x s' : kw VISIBLE t ->
  visible_parse l_next l_peek f t (c, ls) = ROk x s' ->
  exists r, s' = (r, ls) /\ reads (t :: c) (NVisible x) r.
Proof.
  intros Ht H. unfold visible_parse in H. inv_bind H.
  apply (visible_loop_sound _ (expr_sound f)) in Hm as (c' & o & ts & -> & -> & Hx & Hes & Ho).
  inv_next_if H.
  - inv_ret H. eexists. split; [reflexivity|]. apply is_exclamation_iff in Ht0.
    apply (reads_no_ident _ _ _ (t :: ts) t0).
    + cbn [app]. rewrite <- app_assoc. reflexivity.
    + cbn [app]. apply d_visible_bang; [assumption| |exact Ht0].
      destruct o; [|assumption]. discriminate (Ho eq_refl).
    + cbn. discriminate.
    + intros [s Hs]. unfold exclamation_tok in Ht0. congruence.
  - inv_ret H. assert (c' = []) as ->.
    { destruct c' as [|y c']; [reflexivity|]. specialize (Hx _ _ eq_refl). apply is_exclamation_iff in Hx.
      rewrite (Ht0 _ _ eq_refl) in Hx. discriminate. }
    exists []. split; [reflexivity|]. rewrite app_nil_r. apply reads_all. econstructor; eassumption.
Qed.

Lemma gimmeh_reads f t c ls x s' : kw GIMMEH t ->
  gimmeh_parse l_next l_peek f t (c, ls) = ROk x s' ->
  exists r, s' = (r, ls) /\ reads (t :: c) (NGimmeh x) r.
Proof.
  intros Ht H. unfold gimmeh_parse in H. inv_next H; [|discriminate]. inv_bind H.
  apply va_sound in Hm as (ts & c' & E & -> & Hv & Hn). inv_ret H. exists c'. split; [reflexivity|].
  exists (t :: ts). rewrite E. splits; [constructor; assumption|intros []|]. intros [_ H]. exact (Hn H).
Qed.

Lemma found_yr_reads f t c ls x s' : kw FOUND_YR t ->
  found_yr_parse l_next l_peek f t (c, ls) = ROk x s' ->
  exists r, s' = (r, ls) /\ reads (t :: c) (NFoundYr x) r.
Proof.
  intros Ht H. unfold found_yr_parse in H. inv_next H; [|discriminate]. inv_bind H.
  apply expr_sound in Hm as (o & ts & c' & E & -> & He & Hf). inv_ret H. exists c'. split; [reflexivity|].
  rewrite E. eapply (reads_fits _ _ _ (t :: ts) ts); [reflexivity| |eassumption|eassumption|auto|].
  - econstructor; eassumption.
  - exists [t]. reflexivity.
Qed.

Lemma i_iz_reads f t c ls x s' : kw I_IZ t ->
  i_iz_parse l_next l_peek f t (c, ls) = ROk x s' ->
  exists r, s' = (r, ls) /\ reads (t :: c) (NIIz x) r.
Proof.
  intros Ht H. unfold i_iz_parse in H. inv_next H; [|discriminate]. inv_bind H.
  apply va_sound in Hm as (ts & c' & E & -> & Hv & _). inv_bind H.
  apply (i_iz_loop_sound _ (expr_sound f)) in Hm as (c2 & -> & HL). inv_next H; [|discriminate].
  destruct (is_kw MKAY t1) eqn:Ek; [|discriminate]. apply is_kw_iff in Ek. inv_ret H.
  eexists. split; [reflexivity|]. destruct (HL ltac:(discriminate)) as (us & -> & Ha).
  apply (reads_no_ident _ _ _ (t :: ts ++ us) t1).
  - rewrite E. cbn [app]. rewrite <- !app_assoc. reflexivity.
  - cbn [app]. rewrite <- app_assoc. constructor; assumption.
  - intros [].
  - intros Hi. eapply kw_ident; eassumption.
Qed.

Lemma va_statement_reads f t c ls n s' :
  va_statement l_next l_peek f t (c, ls) = ROk n s' ->
  exists r, s' = (r, ls) /\ reads (t :: c) n r.
Proof.
  intros H. unfold va_statement in H. inv_bind H.
  apply va_sound in Hm as (ts & c' & E & -> & Hv & _). inv_bind H. apply peek_ok in Hm as [-> ->].
  destruct c' as [|u c']; cbn [hd_error] in H.
  - inv_ret H. exists []. split; [reflexivity|]. apply reads_all. rewrite app_nil_r in E. rewrite E.
    econstructor. constructor. assumption.
  - destruct (is_kw R u) eqn:Er.
    + unfold as_node, assignment_parse in H. inv_bind H. inv_ret H. inv_next_c Hm.
      rewrite Er in Hm. inv_next Hm; [|discriminate]. inv_bind Hm.
      apply expr_sound in Hm0 as (o & us & c'' & E' & -> & He & Hf). inv_ret Hm.
      exists c''. split; [reflexivity|]. rewrite E, E'.
      eapply (reads_fits _ _ _ (ts ++ u :: us) us); [|..|eassumption|eassumption|auto|].
      * rewrite <- app_assoc. reflexivity.
      * econstructor; [assumption|apply is_kw_iff; assumption|eassumption].
      * exists (ts ++ [u]). rewrite <- app_assoc. reflexivity.
    + destruct (is_kw HAS_A u) eqn:Eh; [|discriminate].
      unfold as_node, bukkit_set_slot_parse in H. inv_bind H. inv_ret H. inv_next_c Hm.
      rewrite Eh in Hm. inv_next Hm; [|discriminate]. inv_bind Hm.
      apply identifier_sound in Hm0 as (us & c'' & E' & -> & Hi). inv_next Hm; [|discriminate].
      destruct (is_kw ITZ t1) eqn:Ei; [|discriminate]. inv_next Hm; [|discriminate]. inv_bind Hm.
      apply expr_sound in Hm0 as (o & ws & c3 & E3 & -> & He & Hf). inv_ret Hm.
      exists c3. split; [reflexivity|]. rewrite E, E', E3.
      eapply (reads_fits _ _ _ (ts ++ u :: us ++ t1 :: ws) ws); [|..|eassumption|eassumption|auto|].
      * rewrite <- !app_assoc. cbn [app]. rewrite <- app_assoc. reflexivity.
      * econstructor; try eassumption; apply is_kw_iff; assumption.
      * exists (ts ++ u :: us ++ [t1]). rewrite <- !app_assoc. cbn [app]. rewrite <- app_assoc. reflexivity.
Qed.

Lemma single_reads f t c ls n s' : ~ multi_line t ->
  parse_statement l_next l_peek l_next_statement f t (c, ls) = ROk n s' ->
  exists r, s' = (r, ls) /\ reads (t :: c) n r.
Proof.
  intros Hm H. destruct f as [|f]; [discriminate|]. cbn [parse_statement] in H.
  destruct (va_is_valid t) eqn:Ev; [eapply va_statement_reads; exact H|].
  assert (Hexpr : as_node NExpression (expr_parse l_next l_peek f t) (c, ls) = ROk n s' ->
                  exists r, s' = (r, ls) /\ reads (t :: c) n r).
  { clear H. intros H. unfold as_node in H. inv_bind H. inv_ret H.
    apply expr_sound in Hm0 as (o & ts & c' & E & -> & He & Hf). exists c'. split; [reflexivity|]. rewrite E.
    eapply (reads_fits _ _ _ ts ts); [reflexivity| |eassumption|eassumption| |exists []; reflexivity].
    - econstructor; eassumption.
    - destruct a as [| | |[v|]]; auto. intros _. exfalso.
      destruct (d_expr_first _ _ _ He) as (y & ys & -> & Hy). injection E as <- _.
      inversion He as [| |? ? Hv| | | | |]; subst.
      destruct (d_va_first _ _ Hv) as (z & zs & Ez & Hz). injection Ez as <- _.
      apply va_valid_iff in Hz. congruence. }
  assert (Hone : forall n0, d_line [t] n0 -> ~ greedy n0 -> ~ ident_tok t -> reads (t :: c) n0 c).
  { intros n0 Hl Hg Hi. apply (reads_no_ident _ _ _ [] t); auto. }
  destruct (tok_type t) as [nm|k|sy|v|cm|cm| | | | |] eqn:Et; auto.
  destruct k; auto; try (destruct Hm; unfold multi_line, kw; tauto).
  - inv_ret H. exists c. split; [reflexivity|]. apply Hone; [constructor; exact Et|intros []|].
    intros [s Hs]. congruence.
  - unfold as_node in H. inv_bind H. inv_ret H. eapply i_has_a_reads; [exact Et|eassumption].
  - unfold as_node in H. inv_bind H. inv_ret H. eapply visible_reads; [exact Et|eassumption].
  - unfold as_node in H. inv_bind H. inv_ret H. eapply gimmeh_reads; [exact Et|eassumption].
  - inv_ret H. exists c. split; [reflexivity|]. apply Hone; [constructor; exact Et|intros []|].
    intros [s Hs]. congruence.
  - unfold as_node in H. inv_bind H. inv_ret H. eapply found_yr_reads; [exact Et|eassumption].
  - unfold as_node in H. inv_bind H. inv_ret H. eapply i_iz_reads; [exact Et|eassumption].
Qed.

(** ** Completeness *)
Lemma fits_of_reads ts n r ws o us e : (greedy n -> r = []) -> ~ (ends_with_identifier ts /\ begins slot_tok r) ->
  ts = ws ++ us -> d_expr o us e -> (open_expr e = true -> greedy n) -> fits o us r.
Proof.
  intros Hg Hs -> He Ho. split.
  - intros ->. apply Hg, Ho. symmetry. exact (d_expr_open _ _ _ He).
  - intros [H1 H2]. apply Hs. split; [|exact H2]. apply (proj2 (ends_app ws us (d_expr_nonnil _ _ _ He))). exact H1.
Qed.

Lemma noob_alone o x xs e : d_expr o (x :: xs) e -> kw NOOB x -> xs = [].
Proof.
  intros He Hny.
  inversion He as [| |? ? Hv|? ? ? ? ? ? ? ? ? ? Ho Hk'|? ? ? ? Hk'|? ? ? ? ? ? Ho Hk'|? ? ? ? ? Ho Hk'|? ? ? ? ? ? ? Ho Hk'];
    subst; try reflexivity; exfalso.
  - destruct (d_va_first _ _ Hv) as (z & zs & E & Hz). injection E as <- _.
    destruct Hz as [Hz|Hz]; [exact (kw_ident _ _ Hny Hz)|pose proof (kw_fun _ _ _ Hny Hz); discriminate].
  - pose proof (kw_fun _ _ _ Hny Hk') as <-. inversion Ho.
  - pose proof (kw_fun _ _ _ Hny Hk'). discriminate.
  - pose proof (kw_fun _ _ _ Hny Hk') as <-. inversion Ho.
  - pose proof (kw_fun _ _ _ Hny Hk') as <-. inversion Ho.
  - pose proof (kw_fun _ _ _ Hny Hk') as <-. inversion Ho.
Qed.

Lemma single_reads_complete l n r : reads l n r -> forall t c f ls, l = t :: c -> length l + 1 < f ->
  parse_statement l_next l_peek l_next_statement f t (c, ls) = ROk n (r, ls).
Proof.
  intros (ls0 & -> & H & Hg & Hs) t c f ls E Hf.
  assert (Hend : r = [] -> parse_statement l_next l_peek l_next_statement f t (c, ls) = ROk n (r, ls)).
  { intros ->. rewrite app_nil_r in E, Hf. eapply single_complete; eassumption. }
  destruct f as [|f]; [lia|].
  assert (Hf' : length ls0 < f) by (rewrite app_length in Hf; lia).
  destruct H as [x ts i us init Hk Hi Hin|x o ts es Hk Hes|x ts es b Hk Hes Hb|x ts v Hk Hv|x o ts e Hk He
                |x Hk|x Hk|x ts v us es m Hk Hv Ha Hm|ts v y o us e Hv Hr He|ts v h us i itz o ws e Hv Hh Hi Hz He
                |o ts e He].
  - destruct Hin as [|itz y ty Hz Hty|itz o us e Hz He Hn]; [apply Hend, Hg; exact I|..];
      cbn [parse_statement]; injection E as <- <-;
      rewrite (not_valid_kw _ _ Hk) by discriminate; unfold kw in Hk; rewrite Hk;
      unfold as_node; bret; unfold i_has_a_parse; rewrite <- app_assoc;
      destruct (d_identifier_first _ _ Hi) as (z & zs & E & _); subst ts; cbn [app]; bnext;
      rewrite (d_identifier_valid _ _ _ Hi);
      (erewrite bind_eq by (eapply identifier_complete; [exact Hi|reflexivity])); cbv beta iota; bnext;
      rewrite (kw_eval _ _ Hz).
    + bnext. rewrite (type_complete _ _ Hty). reflexivity.
    + destruct (d_expr_first _ _ _ He) as (y & ys & E & Hy). subst us. cbn [app]. bnext.
      rewrite (expr_start_type y Hy).
      * bret. eapply expr_complete; [exact He|reflexivity| |].
        -- cbn [length app] in Hf'. rewrite app_length in Hf'. cbn [length] in *. lia.
        -- eapply (fits_of_reads _ _ _ (x :: (z :: zs) ++ [itz])); [exact Hg|exact Hs| |exact He|auto].
           cbn [app]. rewrite <- app_assoc. reflexivity.
      * intros Hny. pose proof (noob_alone _ _ _ _ He Hny) as ->. exact (Hn y eq_refl Hny).
  - apply Hend, Hg. reflexivity.
  - cbn [parse_statement]. injection E as <- <-. rewrite (not_valid_kw _ _ Hk) by discriminate. unfold kw in Hk. rewrite Hk.
    unfold as_node. bret. unfold visible_parse. rewrite <- app_assoc. cbn [app].
    cbn [length] in Hf'. rewrite app_length in Hf'. erewrite bind_eq.
    2:{ eapply visible_loop_complete; [exact Hes|lia|lia|discriminate|].
        intros y c' Ey. injection Ey as <- _. exact Hb. }
    cbv beta iota. erewrite bind_eq by (apply next_if_yes, is_exclamation_iff; assumption). reflexivity.
  - cbn [parse_statement]. injection E as <- <-. rewrite (not_valid_kw _ _ Hk) by discriminate. unfold kw in Hk. rewrite Hk.
    unfold as_node. bret. unfold gimmeh_parse.
    destruct (d_va_first _ _ Hv) as (y & ys & E & _). subst ts. cbn [app]. bnext.
    bret. eapply va_complete; [exact Hv|reflexivity|cbn [length] in *; lia|].
    intros H. apply Hs. split; [|exact H]. apply (proj2 (ends_app [x] (y :: ys) ltac:(discriminate))).
    eapply d_va_ends; exact Hv.
  - cbn [parse_statement]. injection E as <- <-. rewrite (not_valid_kw _ _ Hk) by discriminate. unfold kw in Hk. rewrite Hk.
    unfold as_node. bret. unfold found_yr_parse.
    destruct (d_expr_first _ _ _ He) as (y & ys & E & _). subst ts. cbn [app]. bnext.
    bret. eapply expr_complete; [exact He|reflexivity|cbn [length] in *; lia|].
    eapply (fits_of_reads _ _ _ [x]); [exact Hg|exact Hs|reflexivity|exact He|auto].
  - cbn [parse_statement]. injection E as <- <-. rewrite (not_valid_kw _ _ Hk) by discriminate. unfold kw in Hk. rewrite Hk. reflexivity.
  - cbn [parse_statement]. injection E as <- <-. rewrite (not_valid_kw _ _ Hk) by discriminate. unfold kw in Hk. rewrite Hk. reflexivity.
  - cbn [parse_statement]. injection E as <- <-. rewrite (not_valid_kw _ _ Hk) by discriminate. unfold kw in Hk. rewrite Hk.
    unfold as_node. bret. unfold i_iz_parse. rewrite <- !app_assoc.
    cbn [length] in Hf'. rewrite !app_length in Hf'.
    destruct (d_va_first _ _ Hv) as (y & ys & E & _). subst ts. cbn [app]. bnext.
    erewrite bind_eq.
    2:{ eapply va_complete; [exact Hv|reflexivity|lia|].
        destruct (d_args_first _ _ Ha) as [->|(yr & ws & -> & Hyr)]; apply cons_no_slot; intros Hx; eapply kw_slot; eassumption. }
    cbv beta iota. erewrite bind_eq by (eapply i_iz_loop_complete; [eassumption|lia..|assumption]).
    cbv beta iota. bnext. rewrite (kw_eval _ _ Hm). reflexivity.
  - cbn [parse_statement]. rewrite app_length in Hf'. cbn [length] in Hf'.
    rewrite <- app_assoc in E. cbn [app] in E.
    destruct (d_va_first _ _ Hv) as (w & ys & E' & Hy). subst ts. injection E as <- <-.
    rewrite (proj2 (va_valid_iff w) Hy). unfold va_statement. erewrite bind_eq.
    2:{ eapply va_complete; [exact Hv|reflexivity|lia|].
        apply cons_no_slot. intros Hx; eapply kw_slot; eassumption. }
    cbv beta iota. erewrite bind_eq by apply peek_some. cbv beta iota. rewrite (kw_eval _ _ Hr).
    unfold as_node. bret. unfold assignment_parse. bnext. rewrite (kw_eval _ _ Hr).
    destruct (d_expr_first _ _ _ He) as (z & zs & E & _). subst us. cbn [app]. bnext.
    bret. eapply expr_complete; [exact He|reflexivity|cbn [length] in *; lia|].
    eapply (fits_of_reads _ _ _ ((w :: ys) ++ [y])); [exact Hg|exact Hs|rewrite <- app_assoc; reflexivity|exact He|auto].
  - cbn [parse_statement]. rewrite app_length in Hf'. cbn [length] in Hf'. rewrite app_length in Hf'. cbn [length] in Hf'.
    rewrite <- app_assoc in E. cbn [app] in E. rewrite <- app_assoc in E. cbn [app] in E.
    destruct (d_va_first _ _ Hv) as (w & ys & E' & Hy). subst ts. injection E as <- <-.
    rewrite (proj2 (va_valid_iff w) Hy). unfold va_statement. erewrite bind_eq.
    2:{ eapply va_complete; [exact Hv|reflexivity|lia|].
        apply cons_no_slot. intros Hx; exact (kw_slot _ _ Hh Hx). }
    cbv beta iota. erewrite bind_eq by apply peek_some. cbv beta iota.
    assert (Er : is_kw R h = false)
      by (apply is_kw_false; intros Hk; pose proof (kw_fun _ _ _ Hk Hh); discriminate).
    rewrite Er, (kw_eval _ _ Hh).
    unfold as_node. bret. unfold bukkit_set_slot_parse. bnext. rewrite (kw_eval _ _ Hh).
    destruct (d_identifier_first _ _ Hi) as (z & zs & E & _). subst us. cbn [app]. bnext.
    erewrite bind_eq by (eapply identifier_complete; [exact Hi|reflexivity]). cbv beta iota. bnext.
    rewrite (kw_eval _ _ Hz). destruct (d_expr_first _ _ _ He) as (u & ws' & E & _). subst ws. cbn [app]. bnext.
    bret. eapply expr_complete; [exact He|reflexivity|cbn [length] in *; lia|].
    eapply (fits_of_reads _ _ _ ((w :: ys) ++ h :: (z :: zs) ++ [itz])); [exact Hg|exact Hs| |exact He|auto].
    rewrite <- !app_assoc. cbn [app]. rewrite <- app_assoc. reflexivity.
  - destruct (d_expr_first _ _ _ He) as (y & ys & -> & Hy). injection E as <- <-.
    destruct (va_is_valid y) eqn:Ev.
    { apply va_valid_iff in Ev. destruct (d_expr_valid _ _ _ _ He Ev) as (v & -> & _). apply Hend, Hg. exact I. }
    assert (Hp : expr_parse l_next l_peek f y (ys ++ r, ls) = ROk e (r, ls)).
    { eapply expr_complete; [exact He|reflexivity|exact Hf'|].
      eapply (fits_of_reads _ _ _ []); [exact Hg|exact Hs|reflexivity|exact He|].
      intros Ho. cbn. destruct e as [| | |[v|]]; try exact I; try exact Ho. }
    cbn [parse_statement]. rewrite Ev.
    assert (Ha : as_node NExpression (expr_parse l_next l_peek f y) (ys ++ r, ls) = ROk (NExpression e) (r, ls)).
    { unfold as_node. bret. exact Hp. }
    destruct (tok_type y) as [nm|k|sy|v|cm|cm| | | | |] eqn:Et; auto.
    destruct k; auto; exfalso; (eapply no_expr_kw_of; [|exact Et|exact Hy]; exact I).
Qed.
