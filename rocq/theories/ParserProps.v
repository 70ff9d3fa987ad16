(** Lemmas behind the parser's theorems of PropParser.v. *)
From Coq Require Import Lia.
From Verif Require Import Lines LinesSim ParseFuel Grammar ExprGrammar LineGrammar Clean ProgGrammar
  ProgComplete IterFacts TokIter TokIterFacts Free LineLocal.

(** ** C21 *)
(** The [n]-th statement [next_statement] returns. *)
Fixpoint skip_statements (n : nat) (it : stmt_iter) : stmt_iter :=
  match n with
  | O => it
  | S n' => skip_statements n' (snd (iter_next_statement it))
  end.

Lemma skip_view n : forall it s, IterRel it s ->
  fst (iter_next_statement (skip_statements n it)) = nth n (fst s :: snd s) [].
Proof.
  induction n as [|n IH]; intros it s H; cbn [skip_statements].
  - apply (R_next_statement _ _ H).
  - destruct (R_next_statement _ _ H) as [_ H']. rewrite (IH _ _ H'). destruct s as [c ls]. cbn.
    destruct ls as [|l ls]; cbn; [destruct n as [|[|n]]; reflexivity|reflexivity].
Qed.

Lemma nth_statement ts n :
  fst (iter_next_statement (skip_statements n (iter_new ts))) = nth n (logical_lines ts) [].
Proof.
  rewrite (skip_view n _ _ (R_init ts)). destruct (logical_lines ts) as [|l ls]; cbn; [|reflexivity].
  destruct n as [|[|n]]; reflexivity.
Qed.

Lemma chunks_concat ts : concat (chunks ts) = ts.
Proof.
  induction ts as [|t ts IH]; [reflexivity|]. cbn [chunks].
  destruct (chunks ts) as [|[|u g] gs] eqn:E.
  - cbn in *. subst. reflexivity.
  - destruct ts as [|u ts]; [discriminate|]. destruct (chunks_head u ts) as (? & ? & ?). congruence.
  - destruct (joined t u); cbn in *; congruence.
Qed.

Lemma same_lines ts ts' : logical_lines ts = logical_lines ts' -> parse ts = parse ts'.
Proof. intros H. rewrite !parse_logical_lines, H. reflexivity. Qed.

(** ** C23 *)
Lemma parse_any_fuel ts f : length ts + 3 < f ->
  result_of (parse_block_root iter_next iter_peek iter_next_statement f (iter_new ts)) = parse ts.
Proof.
  intros Hf. rewrite parse_logical_lines. unfold parse_logical.
  pose proof (lsum_lines ts). rewrite <- (proj1 (parse_lines_fuel f (logical_lines ts) ltac:(lia))).
  unfold parse_lines.
  pose proof (sim_root _ _ _ _ _ _ IterRel R_next R_peek R_next_statement f _ _ (R_init ts)) as HR.
  destruct (parse_block_root iter_next _ _ _ _), (parse_block_root l_next _ _ _ _);
    cbn [res_rel result_of] in *; try contradiction; try reflexivity; [destruct HR as [-> _]|subst]; reflexivity.
Qed.

(** ** C26 *)
Lemma iter_expr_tokens f t it e it' : reachable it ->
  expr_parse iter_next iter_peek f t it = ROk e it' ->
  exists used, t :: rest_of_line it = used ++ rest_of_line it' /\ used = expr_tokens e /\
    forall n, exists F, forall g, F <= g ->
      calls (expr_next g) n (expression_iter e) = Some (map (nth_error used) (seq 0 n)).
Proof.
  intros Hr H. destruct (iter_expr_sound _ _ _ _ _ Hr H) as (_ & o & ts & E & He & _).
  pose proof (d_expr_shape _ _ _ He). subst ts. exists (expr_tokens e). splits; auto.
  intros n. apply expr_calls.
Qed.

(** ** C31 *)
Lemma expr_unique o o' ts e e' : d_expr o ts e -> d_expr o' ts e' -> e = e'.
Proof.
  intros H H'. refine (proj1 (proj2 (expr_unambiguous _ _ _ _ _ _ [] [] H H' _ _ eq_refl))); apply fits_nil.
Qed.
Lemma expr_prefix o o' ts c e e' :
  d_expr o ts e -> d_expr o' (ts ++ c) e' -> fits o ts c -> c = [].
Proof.
  intros H H' Hf.
  destruct (expr_unambiguous _ _ _ _ _ _ c [] H H' Hf (fits_nil _ _) (eq_sym (app_nil_r _))) as (_ & _ & E).
  exact E.
Qed.
Lemma program_unique ls ns ns' : d_program ls ns -> d_program ls ns' -> ns = ns'.
Proof. intros H H'. apply program_complete in H. apply program_complete in H'. congruence. Qed.
Lemma line_unique l n n' : d_line l n -> d_line l n' -> n = n'.
Proof.
  intros H H'. destruct (d_line_first _ _ H) as (t & c & -> & _).
  pose proof (single_complete _ _ H t c (length (t :: c) + 2) [] eq_refl ltac:(lia)) as P.
  pose proof (single_complete _ _ H' t c (length (t :: c) + 2) [] eq_refl ltac:(lia)) as P'.
  congruence.
Qed.

(** ** C32 *)
Definition is_error (n : node) : Prop := exists e, n = NASTError e.


(** The rest of a program after a statement that ends before [ls]. *)
Definition rest_result (ls : list (list token)) : parse_result :=
  match ls with
  | [] | [] :: _ => ParseOk (ASTBlock [])
  | _ => parse_logical ls
  end.
Definition put (ns : list node) (r : parse_result) : parse_result :=
  match r with
  | ParseOk (ASTBlock ms) => ParseOk (ASTBlock (ns ++ ms))
  | r => r
  end.

Lemma root_continue ns s :
  block_result (continue stop_root ns s) = put (ns ++ too_many (fst s)) (rest_result (snd s)).
Proof.
  destruct s as [c ls]. unfold continue. cbn [fst snd]. destruct ls as [|[|t l] ls]; cbn [l_start fst rest_result put].
  - rewrite app_nil_r. reflexivity.
  - rewrite app_nil_r. reflexivity.
  - change (stop_root t) with false. cbv iota. rewrite parse_logical_blk. cbn [l_start].
    destruct (blk stop_root (t :: l, ls)) as [ms s'|e s'|k|]; cbn; reflexivity.
Qed.

Theorem parse_logical_unfold t c ls : parse_logical ((t :: c) :: ls) =
  match stmt t (c, ls) with
  | ROk n s => put (n :: too_many (fst s)) (rest_result (snd s))
  | RErr e s => put (NASTError e :: too_many (fst s)) (rest_result (snd s))
  | RPanic k => ParsePanic k
  | RFuel => ParseFuel
  end.
Proof.
  rewrite parse_logical_blk, blk_unfold. cbn [l_start fst snd].
  destruct (stmt t (c, ls)) as [n s|e s|k|]; try reflexivity; apply root_continue.
Qed.

Lemma put_nil r : put [] r = r.
Proof. destruct r as [[ns]| |]; reflexivity. Qed.
Lemma put_put a b r : put a (put b r) = put (a ++ b) r.
Proof. destruct r as [[ns]| |]; cbn; rewrite ?app_assoc; reflexivity. Qed.

(** A line of a single-line statement is independent of the lines after it. *)
Theorem single_line_unfold t c ls : ~ multi_line t ->
  parse_logical ((t :: c) :: ls) =
  match parse_logical [t :: c] with
  | ParseOk (ASTBlock ns) => put ns (rest_result ls)
  | r => r
  end.
Proof.
  intros Hm. rewrite !parse_logical_unfold.
  set (f := sz (c, ls) + 3).
  rewrite <- (stmt_eq f t (c, ls)), <- (stmt_eq f t (c, [])) by (unfold f, sz, lsum; cbn; lia).
  pose proof (single_local ls [] t f c Hm) as H. unfold res_rel in H.
  destruct (PS f t (c, ls)) as [n s|e s|k|], (PS f t (c, [])) as [n' s'|e' s'|k'|]; try contradiction; try reflexivity.
  - destruct H as (-> & H1 & H2 & H3). rewrite H1, H2, H3. cbn [rest_result put]. rewrite app_nil_r. reflexivity.
  - destruct H as (-> & H1 & H2 & H3). rewrite H1, H2, H3. cbn [rest_result put]. rewrite app_nil_r. reflexivity.
  - congruence.
Qed.

Lemma line_iff t c n : ~ multi_line t ->
  (parse_logical [t :: c] = ParseOk (ASTBlock [n]) /\ ~ is_error n) <-> d_line (t :: c) n.
Proof.
  intros Hm. rewrite parse_logical_unfold. split.
  - intros [H He]. unfold stmt in H.
    destruct (PS (sz (c, []) + 3) t (c, [])) as [n0 s0|e0 s0|c0|] eqn:E; try discriminate.
    + apply single_sound in E as [E1 E2]; [|assumption]. destruct s0 as [c1 ls1]. cbn in E1, E2, H. subst ls1.
      destruct c1 as [|x c1]; cbn in H; injection H; intros; subst; [auto|discriminate].
    + exfalso. apply He. destruct (rest_result (snd s0)) as [[ms]| |]; try discriminate.
      cbn in H. injection H as <- _. exists e0. reflexivity.
  - intros H. unfold stmt. rewrite (single_complete _ _ H t c _ [] eq_refl).
    + split; [reflexivity|]. intros (e & ->). inversion H.
    + unfold sz, lsum. cbn. lia.
Qed.

(** ** C40 *)
Fixpoint join_results (rs : list parse_result) : parse_result :=
  match rs with
  | [] => ParseOk (ASTBlock [])
  | ParseOk (ASTBlock ns) :: rs' => put ns (join_results rs')
  | r :: _ => r
  end.
Definition single_line (l : list token) : Prop := exists t c, l = t :: c /\ ~ multi_line t.

Lemma lines_joined ls : Forall single_line ls ->
  parse_logical ls = join_results (map (fun l => parse_logical [l]) ls).
Proof.
  induction 1 as [|l ls (t & c & -> & Hm) Hs IH]; [reflexivity|].
  rewrite single_line_unfold by assumption. cbn [map join_results].
  destruct (parse_logical [t :: c]) as [[ns]| |]; try reflexivity. rewrite <- IH.
  destruct Hs as [|l ls (t' & c' & -> & Hm') Hs]; reflexivity.
Qed.
Lemma vectors_joined ts tss : Forall single_line (logical_lines ts) ->
  Forall2 (fun l us => logical_lines us = [l]) (logical_lines ts) tss ->
  parse ts = join_results (map parse tss).
Proof.
  intros Hs H. rewrite parse_logical_lines, lines_joined by assumption. f_equal.
  induction H as [|l us ls tss Hl H IH]; [reflexivity|]. cbn [map]. rewrite parse_logical_lines, Hl.
  inversion Hs; subst. rewrite IH by assumption. reflexivity.
Qed.

(** ** C35 *)
Lemma hai_swallows h v l ls : kw HAI h -> l <> [] ->
  parse_logical ((h :: v) :: l :: ls) =
  put [NHai (mkHai h v); NASTError (TooManyTokens l)] (rest_result ls).
Proof.
  intros Hk Hl. rewrite parse_logical_unfold. rewrite (stmt_unfold (sz (v, l :: ls) + 2)) by lia.
  rewrite (not_valid_kw _ _ Hk) by discriminate. pose proof Hk as Hk'. unfold kw in Hk'. rewrite Hk'. cbn.
  destruct l; [contradiction|]. reflexivity.
Qed.

(** ** C36, C37: the line after the definition is taken as the end of its last line *)
Lemma blk_complete L ns stop l ls : d_block L ns -> is_stop stop -> ends_block stop (l, ls) ->
  blk stop (l_start (L ++ l :: ls)) = ROk ns (l, ls).
Proof.
  intros H Hst He. destruct (proj1 (proj2 complete_mut) _ _ H) as [F HF].
  set (f := F + sz (l_start (L ++ l :: ls)) + 3). rewrite <- (blk_eq f f) by lia.
  apply HF; [lia..|assumption|assumption].
Qed.

Lemma function_swallows t ts i us ps L ns e l ls :
  kw HOW_IZ_I t -> d_identifier ts i -> d_params us ps -> d_block L ns -> kw IF_U_SAY_SO e ->
  parse_logical ((t :: ts ++ us) :: L ++ [e] :: l :: ls) =
  put (NHowIzI (HowIzI t i ps (ASTBlock ns)) :: too_many l) (rest_result ls).
Proof.
  intros Hk Hi Hp Hb He. rewrite parse_logical_unfold.
  set (f := sz (ts ++ us, L ++ [e] :: l :: ls) + 2). rewrite (stmt_unfold f) by lia.
  rewrite (not_valid_kw _ _ Hk) by discriminate. pose proof Hk as Hk'. unfold kw in Hk'. rewrite Hk'.
  assert (E : as_node NHowIzI (how_iz_i_parse l_next l_peek l_next_statement blk f t)
                (ts ++ us, L ++ [e] :: l :: ls) = ROk (NHowIzI (HowIzI t i ps (ASTBlock ns))) (l, ls)).
  { assert (Hf : length us < f) by (unfold f, sz; cbn [fst]; rewrite app_length; lia). clearbody f.
    unfold as_node. bret. unfold how_iz_i_parse.
    destruct (d_identifier_first _ _ Hi) as (x & xs & E & _). subst ts. cbn [app]. bnext.
    erewrite bind_eq by (eapply identifier_complete; [exact Hi|reflexivity]). cbv beta.
    erewrite bind_eq by (apply params_complete; [exact Hp|lia]). cbv beta. rewrite empty_step.
    erewrite bind_eq.
    2:{ apply block_of_step. apply blk_complete; [exact Hb|exact stop_function_closer|].
        apply starts_ends. exists e, []. split; [reflexivity|]. apply is_kw_iff. exact He. }
    cbv beta. bnext. rewrite (kw_eval _ _ He). rewrite empty_step. reflexivity. }
  rewrite E. reflexivity.
Qed.

Lemma wtf_swallows t q L omgs D d e l ls :
  kw WTF t -> question_tok q -> d_omgs L omgs -> d_default D d -> kw OIC e ->
  parse_logical ([t; q] :: L ++ D ++ [e] :: l :: ls) =
  put (NWtf (Wtf t omgs d) :: too_many l) (rest_result ls).
Proof.
  intros Hk Hq Ho Hd He. rewrite parse_logical_unfold.
  destruct (proj1 (proj2 (proj2 (proj2 complete_mut))) _ _ Ho) as [F1 IH1].
  destruct (proj1 (proj2 (proj2 (proj2 (proj2 complete_mut)))) _ _ Hd) as [F2 IH2].
  assert (E : stmt t ([q], L ++ D ++ [e] :: l :: ls) = ROk (NWtf (Wtf t omgs d)) (l, ls)).
  { set (f := sz ([q], L ++ D ++ [e] :: l :: ls) + 3 + F1 + F2).
    rewrite <- (stmt_eq (S f)) by lia. assert (Hf1 : F1 <= f) by lia. assert (Hf2 : F2 <= f) by lia. clearbody f.
    apply PS_at; [unfold multi_line; tauto|]. cbv zeta. pose proof Hk as Hk'. unfold kw in Hk'. rewrite Hk'.
    unfold as_node. bret. unfold wtf_parse.
    erewrite bind_eq by (apply question_step; exact Hq). cbv beta. rewrite empty_step.
    destruct (d_default_start _ _ [e] (l :: ls) Hd) as (l1 & ls1 & E1 & Hl1).
    assert (Hs1 : starts (fun u => kw OMGWTF u \/ kw OIC u) l1).
    { destruct Hl1 as [(_ & -> & _)|Hs]; [exists e, []; auto|]. eapply starts_impl; [|exact Hs]. auto. }
    rewrite E1. erewrite bind_eq by (apply IH1; [lia..|exact Hs1]). cbv beta.
    assert (Hb : branch (PB f stop_switch f) OMGWTF WtfOmgWtf (l1, ls1) = ROk d ([e], l :: ls)).
    { change (l1, ls1) with (l_start (l1 :: ls1)). rewrite <- E1. apply IH2; [lia|]. exists e, []. auto. }
    match goal with |- bind ?m (fun o => bind (@?g o) ?h) ?s = _ => erewrite (bind_assoc_eq m g h s) by exact Hb end.
    erewrite bind_eq by (apply oic_step; exact He). cbv beta. rewrite empty_step. reflexivity. }
  rewrite E. reflexivity.
Qed.

(** ** C38 *)
Lemma closer_stmt t s : closer t -> stmt t s = RErr (UnexpectedToken t) s.
Proof.
  intros H. rewrite (stmt_unfold (S (sz s + 1))) by lia.
  assert (Hv : va_is_valid t = false).
  { unfold closer in H. repeat match type of H with _ \/ _ => destruct H as [H|H] end;
      apply (not_valid_kw _ _ H); discriminate. }
  rewrite Hv. unfold closer, kw in H.
  repeat match type of H with _ \/ _ => destruct H as [H|H] end;
    rewrite H; unfold as_node, bind; cbn [expr_parse]; rewrite H; reflexivity.
Qed.

(** A block that starts at its closing line starts with an error. *)
Lemma blk_at_closer stop t c ls ns s' : closer t -> blk stop (t :: c, ls) = ROk ns s' ->
  exists ms, ns = NASTError (UnexpectedToken t) :: ms.
Proof.
  intros Hc H. rewrite blk_unfold in H. cbn [fst snd] in H. rewrite closer_stmt in H by assumption.
  unfold continue in H. destruct (fst (l_start (snd (c, ls)))) as [|u us].
  - injection H as <- _. eexists. reflexivity.
  - destruct (stop u); [injection H as <- _; eexists; reflexivity|].
    destruct (blk stop (l_start (snd (c, ls)))) as [ms s2| | |]; try discriminate.
    injection H as <- _. eexists. reflexivity.
Qed.
(** A block is empty only if it starts at an empty line. *)
Lemma blk_not_empty stop s s' : blk stop s = ROk [] s' -> fst s = [].
Proof.
  intros H. rewrite blk_unfold in H. destruct s as [[|t c] ls]; [reflexivity|]. cbn [fst snd] in H. exfalso.
  destruct (stmt t (c, ls)) as [n s2|e s2|k|]; try discriminate;
    unfold continue in H; destruct (fst (l_start (snd s2))) as [|u us]; try discriminate;
    destruct (stop u); try discriminate; destruct (blk stop (l_start (snd s2))) as [ms s3| | |]; discriminate.
Qed.

Lemma put_ok ns r b : put ns r = ParseOk b -> exists ms, b = ASTBlock (ns ++ ms).
Proof. destruct r as [[ms]| |]; try discriminate. intros H. injection H as <-. eauto. Qed.

Lemma empty_loop_body t label its it cs cond imo c ls b :
  kw IM_IN_YR t -> ident_tok label -> d_iteration its it -> d_condition cs cond -> kw IM_OUTTA_YR imo ->
  parse_logical ((t :: label :: its ++ cs) :: (imo :: c) :: ls) = ParseOk b ->
  exists n ns, b = ASTBlock (n :: ns) /\
    (is_error n \/ exists ms el,
       n = NImInYr (ImInYr t label it cond (ASTBlock (NASTError (UnexpectedToken imo) :: ms)) el)).
Proof.
  intros Hk Hlb Hit Hcs Himo. rewrite parse_logical_unfold.
  set (f := sz (label :: its ++ cs, (imo :: c) :: ls) + 2).
  assert (E : stmt t (label :: its ++ cs, (imo :: c) :: ls) =
    as_node NImInYr (code_block <- block_of (blk stop_loop) ;;
      o2 <- next l_next ;;
      match o2 with
      | None => fail (EImInYr (MissingImOuttaYr t))
      | Some im_outta_yr =>
        o3 <- next l_next ;;
        match o3 with
        | None => fail (EImInYr (MissingEndLabel im_outta_yr))
        | Some end_label =>
          if is_identifier end_label then ret (ImInYr t label it cond code_block end_label)
          else fail (EImInYr (InvalidEndLabel end_label))
        end
      end)%parser (imo :: c, ls)).
  { rewrite (stmt_unfold f) by lia.
    rewrite (not_valid_kw _ _ Hk) by discriminate. pose proof Hk as Hk'. unfold kw in Hk'. rewrite Hk'.
    assert (Hf : length its + length cs < f) by (unfold f, sz; cbn [fst length]; rewrite app_length; lia).
    clearbody f. unfold as_node, bind at 1. unfold im_in_yr_parse. bnext.
    rewrite (proj2 (is_identifier_iff label) Hlb).
    erewrite bind_eq by (apply iteration_complete; [exact Hit|lia|eapply d_condition_first; exact Hcs]).
    cbv beta. erewrite bind_eq by (apply conditional_complete; [exact Hcs|lia]). cbv beta.
    rewrite empty_step. reflexivity. }
  rewrite E. clear E f. intros H.
  assert (HR : forall e s, put (NASTError e :: too_many (fst s)) (rest_result (snd s)) = ParseOk b ->
    exists n ns, b = ASTBlock (n :: ns) /\
    (is_error n \/ exists ms el,
       n = NImInYr (ImInYr t label it cond (ASTBlock (NASTError (UnexpectedToken imo) :: ms)) el))).
  { intros e s H'. apply put_ok in H' as [ms ->]. eexists _, _. split; [reflexivity|]. left. exists e. reflexivity. }
  unfold as_node, block_of, bind at 1, bind at 1, bind at 1 in H.
  destruct (blk stop_loop (imo :: c, ls)) as [ns s|e s|k|] eqn:Eb; try discriminate.
  2:{ exact (HR _ _ H). }
  apply blk_at_closer in Eb as [ms ->]; [|unfold closer; tauto].
  unfold ret at 1 in H. unfold bind at 1, next at 1 in H. destruct (l_next s) as [[x|] s1]; [|exact (HR _ _ H)].
  unfold bind at 1, next at 1 in H. destruct (l_next s1) as [[y|] s2]; [|exact (HR _ _ H)].
  destruct (is_identifier y); [|exact (HR _ _ H)].
  unfold ret in H. apply put_ok in H as [ms' ->]. eexists _, _. split; [reflexivity|]. right. eauto.
Qed.

Lemma empty_function_body t ts i us ps e c ls b :
  kw HOW_IZ_I t -> d_identifier ts i -> d_params us ps -> kw IF_U_SAY_SO e ->
  parse_logical ((t :: ts ++ us) :: (e :: c) :: ls) = ParseOk b ->
  exists n ns, b = ASTBlock (n :: ns) /\
    (is_error n \/ exists ms,
       n = NHowIzI (HowIzI t i ps (ASTBlock (NASTError (UnexpectedToken e) :: ms)))).
Proof.
  intros Hk Hi Hp He. rewrite parse_logical_unfold.
  set (f := sz (ts ++ us, (e :: c) :: ls) + 2).
  assert (E : stmt t (ts ++ us, (e :: c) :: ls) =
    as_node NHowIzI (body <- block_of (blk stop_function) ;;
      o2 <- next l_next ;;
      match o2 with
      | None => fail (MissingBlockClosingToken t)
      | Some t2 =>
        if is_kw IF_U_SAY_SO t2 then
          next_statement_should_be_empty l_next_statement ;;; ret (HowIzI t i ps body)
        else fail (UnexpectedToken t2)
      end)%parser (e :: c, ls)).
  { rewrite (stmt_unfold f) by lia.
    rewrite (not_valid_kw _ _ Hk) by discriminate. pose proof Hk as Hk'. unfold kw in Hk'. rewrite Hk'.
    assert (Hf : length us < f) by (unfold f, sz; cbn [fst length]; rewrite app_length; lia).
    clearbody f. unfold as_node, bind at 1. unfold how_iz_i_parse.
    destruct (d_identifier_first _ _ Hi) as (x & xs & E & _). subst ts. cbn [app]. bnext.
    erewrite bind_eq by (eapply identifier_complete; [exact Hi|reflexivity]). cbv beta.
    erewrite bind_eq by (apply params_complete; [exact Hp|lia]). cbv beta. rewrite empty_step. reflexivity. }
  rewrite E. clear E f. intros H.
  assert (HR : forall e' s, put (NASTError e' :: too_many (fst s)) (rest_result (snd s)) = ParseOk b ->
    exists n ns, b = ASTBlock (n :: ns) /\
    (is_error n \/ exists ms,
       n = NHowIzI (HowIzI t i ps (ASTBlock (NASTError (UnexpectedToken e) :: ms))))).
  { intros e' s H'. apply put_ok in H' as [ms ->]. eexists _, _. split; [reflexivity|]. left. exists e'. reflexivity. }
  unfold as_node, block_of, bind at 1, bind at 1, bind at 1 in H.
  destruct (blk stop_function (e :: c, ls)) as [ns s|e' s|k|] eqn:Eb; try discriminate.
  2:{ exact (HR _ _ H). }
  apply blk_at_closer in Eb as [ms ->]; [|unfold closer; tauto].
  unfold ret at 1 in H. unfold bind at 1, next at 1 in H. destruct (l_next s) as [[x|] s1]; [|exact (HR _ _ H)].
  destruct (is_kw IF_U_SAY_SO x); [|exact (HR _ _ H)].
  unfold bind at 1 in H.
  destruct (next_statement_should_be_empty l_next_statement s1) as [[] s2|e2 s2|k|] eqn:En; try discriminate.
  2:{ exact (HR _ _ H). }
  unfold ret in H. apply put_ok in H as [ms' ->]. eexists _, _. split; [reflexivity|]. right. eauto.
Qed.

(** ** C39 *)
Definition comment_tok (t : token) : Prop :=
  (exists s, tok_type t = TCommentSingleLine s) \/ (exists s, tok_type t = TCommentMultiLine s).
Definition no_comment (l : list token) : Prop := forall t, In t l -> ~ comment_tok t.

Lemma no_comment_app a b : no_comment (a ++ b) <-> no_comment a /\ no_comment b.
Proof.
  unfold no_comment. split; [intros H; split; intros t Ht; apply H; apply in_or_app; auto|].
  intros [H1 H2] t Ht. apply in_app_or in Ht as [Ht|Ht]; auto.
Qed.
Lemma no_comment_cons a b : no_comment (a :: b) <-> ~ comment_tok a /\ no_comment b.
Proof.
  change (a :: b) with ([a] ++ b). rewrite no_comment_app. unfold no_comment at 1. cbn.
  split; intros [H1 H2]; split; auto. intros t [<-|[]]. exact H1.
Qed.
Lemma no_comment_nil : no_comment [].
Proof. intros t []. Qed.
Lemma kw_comment k t : kw k t -> ~ comment_tok t.
Proof. unfold kw, comment_tok. intros H [[s E]|[s E]]; congruence. Qed.
Lemma ident_comment t : ident_tok t -> ~ comment_tok t.
Proof. intros [s H] [[s' E]|[s' E]]; congruence. Qed.
Lemma value_comment t : value_tok t -> ~ comment_tok t.
Proof. intros [s H] [[s' E]|[s' E]]; congruence. Qed.
Lemma slot_comment t : slot_tok t -> ~ comment_tok t.
Proof. unfold slot_tok. intros H [[s' E]|[s' E]]; congruence. Qed.
Lemma question_comment t : question_tok t -> ~ comment_tok t.
Proof. unfold question_tok. intros H [[s' E]|[s' E]]; congruence. Qed.
Lemma exclamation_comment t : exclamation_tok t -> ~ comment_tok t.
Proof. unfold exclamation_tok. intros H [[s' E]|[s' E]]; congruence. Qed.
#[local] Hint Resolve no_comment_nil kw_comment ident_comment value_comment slot_comment question_comment
  exclamation_comment : nc.
Ltac nc := repeat first [rewrite no_comment_app|rewrite no_comment_cons]; repeat split; eauto with nc.

Lemma nc_opt k ts o : d_opt k ts o -> no_comment ts.
Proof. intros H; destruct H; nc. Qed.
Lemma nc_identifier ts i : d_identifier ts i -> no_comment ts.
Proof. intros H; destruct H; nc. Qed.
#[local] Hint Resolve nc_opt nc_identifier : nc.
Lemma nc_slots ts i : d_slots ts i -> no_comment ts.
Proof. induction 1; nc. Qed.
#[local] Hint Resolve nc_slots : nc.
Lemma nc_va ts i : d_va ts i -> no_comment ts.
Proof. intros H; destruct H; nc. Qed.
#[local] Hint Resolve nc_va : nc.
Lemma nc_expr_mut : (forall o ts e, d_expr o ts e -> no_comment ts) /\ (forall ts es, d_operands ts es -> no_comment ts).
Proof. apply d_expr_mut; intros; nc. Qed.
Lemma nc_expr o ts e : d_expr o ts e -> no_comment ts.
Proof. apply nc_expr_mut. Qed.
Lemma nc_type t ty : d_type t ty -> ~ comment_tok t.
Proof. intros H; destruct H; eauto with nc. Qed.
#[local] Hint Resolve nc_expr nc_type : nc.
Lemma nc_initial ts i : d_initial ts i -> no_comment ts.
Proof. intros H; destruct H; nc. Qed.
Lemma nc_exprs o ts es : d_exprs o ts es -> no_comment ts.
Proof. induction 1; nc. Qed.
Lemma nc_args ts es : d_args ts es -> no_comment ts.
Proof. induction 1; nc. Qed.
Lemma nc_params ts es : d_params ts es -> no_comment ts.
Proof. induction 1; nc. Qed.
#[local] Hint Resolve nc_initial nc_exprs nc_args nc_params : nc.
Lemma nc_line l n : d_line l n -> no_comment l.
Proof. intros H; destruct H; nc. Qed.
Lemma nc_iteration ts i : d_iteration ts i -> no_comment ts.
Proof. intros H; destruct H; nc. Qed.
Lemma nc_condition ts i : d_condition ts i -> no_comment ts.
Proof. intros H; destruct H; nc. Qed.
#[local] Hint Resolve nc_line nc_iteration nc_condition : nc.

(** Comments only in HAI lines. *)
Definition comment_free (l : list token) : Prop := no_comment l \/ exists h v, l = h :: v /\ kw HAI h.
Lemma cf_nc l : no_comment l -> comment_free l.
Proof. left. assumption. Qed.
Lemma cf_app a b : Forall comment_free (a ++ b) <-> Forall comment_free a /\ Forall comment_free b.
Proof. apply Forall_app. Qed.
Lemma cf_cons a b : Forall comment_free (a :: b) <-> comment_free a /\ Forall comment_free b.
Proof. split; [intros H; inversion H; auto|intros [H1 H2]; constructor; auto]. Qed.
#[local] Hint Resolve cf_nc Forall_nil : nc.
Ltac cf := repeat first [rewrite cf_app|rewrite cf_cons]; repeat split; eauto with nc; apply cf_nc; nc.

Lemma cf_mut :
  (forall L n, d_stmt L n -> Forall comment_free L) /\ (forall L ns, d_block L ns -> Forall comment_free L) /\
  (forall L ns, d_stmts L ns -> Forall comment_free L) /\ (forall L os, d_omgs L os -> Forall comment_free L) /\
  (forall L d, d_default L d -> Forall comment_free L) /\ (forall L d, d_ya_rly L d -> Forall comment_free L) /\
  (forall L ms, d_mebbes L ms -> Forall comment_free L) /\ (forall L d, d_no_wai L d -> Forall comment_free L).
Proof.
  apply d_stmt_mut; intros; try (cf; fail).
  rewrite !cf_cons. repeat split; eauto with nc. right. eauto.
Qed.

Lemma clean_no_comments ls ns : parse_logical ls = ParseOk (ASTBlock ns) -> forallb node_clean ns = true ->
  exists k consumed rest, ls ++ repeat [] k = consumed ++ [] :: rest /\ Forall comment_free consumed.
Proof.
  intros H Hc. destruct (proj1 (program_iff ls ns) (conj H Hc)) as (k & bl & rest & E & Hb).
  exists k, bl, rest. split; [exact E|]. exact (proj1 (proj2 cf_mut) _ _ Hb).
Qed.
Lemma comment_spoils ls ns l k : parse_logical ls = ParseOk (ASTBlock ns) ->
  (forall l, In l ls -> l <> []) -> In l ls -> In k l -> comment_tok k ->
  (forall h v, l = h :: v -> ~ kw HAI h) -> forallb node_clean ns = false.
Proof.
  intros H Hne Hl Hk Hc Hh. destruct (forallb node_clean ns) eqn:Ec; [exfalso|reflexivity].
  destruct (clean_no_comments _ _ H Ec) as (n & consumed & rest & E & HF).
  assert (Hin : In l consumed).
  { assert (E' : exists m, consumed = ls ++ m).
    { clear -E Hne. revert consumed E. induction ls as [|x ls IH]; intros consumed E; [exists consumed; reflexivity|].
      destruct consumed as [|y consumed]; cbn [app] in E.
      - injection E as E _. destruct (Hne x (or_introl eq_refl) E).
      - injection E as <- E. destruct (IH (fun l H => Hne l (or_intror H)) _ E) as [m ->]. exists m. reflexivity. }
    destruct E' as [m ->]. apply in_or_app. auto. }
  rewrite Forall_forall in HF. destruct (HF _ Hin) as [Hn|(h & v & -> & Hh')]; [exact (Hn _ Hk Hc)|].
  exact (Hh _ _ eq_refl Hh').
Qed.
