(** Every derivation of the program grammar is found by the parser. *)
From Coq Require Import Lia.
From Verif Require Import Lines LinesSim Grammar Clean ExprGrammar LineGrammar ParseFuel ProgGrammar.

Definition closer (t : token) : Prop :=
  kw IF_U_SAY_SO t \/ kw IM_OUTTA_YR t \/ kw MEBBE t \/ kw NO_WAI t \/ kw YA_RLY t \/ kw OIC t \/
  kw OMG t \/ kw OMGWTF t.
Definition is_stop (stop : token -> bool) : Prop := forall t, stop t = true -> closer t.

Lemma stop_root_closer : is_stop stop_root.
Proof. intros t H. discriminate. Qed.
Lemma stop_function_closer : is_stop stop_function.
Proof. intros t H. apply is_kw_iff in H. unfold closer. tauto. Qed.
Lemma stop_loop_closer : is_stop stop_loop.
Proof. intros t H. apply is_kw_iff in H. unfold closer. tauto. Qed.
Lemma stop_if_iff t : stop_if t = true <-> kw MEBBE t \/ kw NO_WAI t \/ kw YA_RLY t \/ kw OIC t.
Proof. unfold stop_if. rewrite !Bool.orb_true_iff, !is_kw_iff. tauto. Qed.
Lemma stop_switch_iff t : stop_switch t = true <-> kw OMG t \/ kw OMGWTF t \/ kw OIC t.
Proof. unfold stop_switch. rewrite !Bool.orb_true_iff, !is_kw_iff. tauto. Qed.
Lemma stop_if_closer : is_stop stop_if.
Proof. intros t H. apply stop_if_iff in H. unfold closer. tauto. Qed.
Lemma stop_switch_closer : is_stop stop_switch.
Proof. intros t H. apply stop_switch_iff in H. unfold closer. tauto. Qed.

Lemma kw_closer k t : kw k t ->
  match k with IF_U_SAY_SO | IM_OUTTA_YR | MEBBE | NO_WAI | YA_RLY | OIC | OMG | OMGWTF => False | _ => True end ->
  ~ closer t.
Proof.
  intros Hk Hn H. unfold closer in H.
  repeat match type of H with _ \/ _ => destruct H as [H|H] end;
    pose proof (kw_fun _ _ _ Hk H) as ->; exact Hn.
Qed.
Lemma expr_start_closer t : expr_start t -> ~ closer t.
Proof.
  intros H Hc. unfold closer in Hc.
  repeat match type of Hc with _ \/ _ => destruct Hc as [Hc|Hc] end;
    (eapply no_expr_kw_of; [|exact Hc|exact H]; exact I).
Qed.

Lemma d_line_not_closer l n : d_line l n -> exists t c, l = t :: c /\ ~ closer t.
Proof.
  intros H. destruct (d_line_first _ _ H) as (t & c & -> & Ht). exists t, c. split; [reflexivity|].
  destruct Ht as [Ht|Ht]; [apply expr_start_closer; exact Ht|].
  repeat match type of Ht with _ \/ _ => destruct Ht as [Ht|Ht] end;
    apply (kw_closer _ _ Ht); exact I.
Qed.

Lemma d_stmt_first L n : d_stmt L n -> exists t c M, L = (t :: c) :: M /\ ~ closer t.
Proof.
  intros H. destruct H as [l n Hl|t v Hk|t lb its it cs cond ls ns imo el Hk|t ts i us ps ls ns e Hk
                          |t q ls omgs ms d e Hk|t q ls y ms mb ks no e Hk].
  - destruct (d_line_not_closer _ _ Hl) as (t & c & -> & Ht). eauto.
  - eexists _, _, _. split; [reflexivity|]. apply (kw_closer _ _ Hk I).
  - eexists _, _, _. split; [reflexivity|]. apply (kw_closer _ _ Hk I).
  - eexists _, _, _. split; [reflexivity|]. apply (kw_closer _ _ Hk I).
  - eexists _, _, _. split; [reflexivity|]. apply (kw_closer _ _ Hk I).
  - eexists _, _, _. split; [reflexivity|]. apply (kw_closer _ _ Hk I).
Qed.

Lemma d_stmts_first L ns : d_stmts L ns ->
  (L = [] /\ ns = []) \/ (ns <> [] /\ exists t c M, L = (t :: c) :: M /\ ~ closer t).
Proof.
  intros H; destruct H as [|L n M ns Hn Hs]; [auto|right]. split; [discriminate|].
  destruct (d_stmt_first _ _ Hn) as (t & c & M' & -> & Ht). exists t, c, (M' ++ M). auto.
Qed.

Notation PS f := (parse_statement l_next l_peek l_next_statement f).
Notation PB f stop g := (parse_block l_next l_peek l_next_statement (PS f) stop g).

(** An optional line with one keyword, then a block. *)
Definition branch {A} (pb : lstate -> res lstate (list node)) (k : keyword) (C : token -> block -> A)
  : lstate -> res lstate (option A) :=
  bind (next_if l_next l_peek (is_kw k))
       (fun o => match o with
                 | Some t => bind (next_statement_should_be_empty l_next_statement)
                                  (fun _ => bind (block_of pb) (fun b => ret (Some (C t b))))
                 | None => ret None
                 end).

Definition starts (P : token -> Prop) (l : list token) : Prop := exists u c, l = u :: c /\ P u.

Definition Pstmt (L : list (list token)) (n : node) : Prop :=
  exists F, forall f, F <= f -> forall t c M ls, L = (t :: c) :: M ->
    PS f t (c, M ++ ls) = ROk n ([], ls).
Definition Pblock (L : list (list token)) (ns : list node) : Prop :=
  exists F, forall f g, F <= f -> F <= g -> forall stop l ls, is_stop stop -> ends_block stop (l, ls) ->
    PB f stop g (l_start (L ++ l :: ls)) = ROk ns (l, ls).
Definition Pstmts (L : list (list token)) (ns : list node) : Prop :=
  ns <> [] -> Pblock L ns.
Definition Pomgs (L : list (list token)) (omgs : list wtf_omg) : Prop :=
  exists F, forall f g, F <= f -> F <= g -> forall l ls, starts (fun u => kw OMGWTF u \/ kw OIC u) l ->
    omg_loop l_next l_peek l_next_statement (fun stop => PB f stop f) (expr_parse l_next l_peek f) g
             (l_start (L ++ l :: ls)) = ROk omgs (l, ls).
Definition Pdefault (L : list (list token)) (d : option wtf_omg_wtf) : Prop :=
  exists F, forall f, F <= f -> forall l ls, starts (kw OIC) l ->
    branch (PB f stop_switch f) OMGWTF WtfOmgWtf (l_start (L ++ l :: ls)) = ROk d (l, ls).
Definition Pya_rly (L : list (list token)) (d : option ya_rly) : Prop :=
  exists F, forall f, F <= f -> forall l ls, starts (fun u => kw MEBBE u \/ kw NO_WAI u \/ kw OIC u) l ->
    branch (PB f stop_if f) YA_RLY YaRly (l_start (L ++ l :: ls)) = ROk d (l, ls).
Definition Pmebbes (L : list (list token)) (ms : list mebbe) : Prop :=
  exists F, forall f g, F <= f -> F <= g -> forall l ls, starts (fun u => kw NO_WAI u \/ kw OIC u) l ->
    mebbe_loop l_next l_peek l_next_statement (fun stop => PB f stop f) (expr_parse l_next l_peek f) g
             (l_start (L ++ l :: ls)) = ROk ms (l, ls).
Definition Pno_wai (L : list (list token)) (d : option no_wai) : Prop :=
  exists F, forall f, F <= f -> forall l ls, starts (kw OIC) l ->
    branch (PB f stop_if f) NO_WAI NoWai (l_start (L ++ l :: ls)) = ROk d (l, ls).

(** ** Steps *)
Lemma bind_assoc_eq {S A B C} (m : S -> res S A) (g : A -> S -> res S B) (h : B -> S -> res S C) s b s1 :
  bind m g s = ROk b s1 -> bind m (fun a => bind (g a) h) s = h b s1.
Proof.
  unfold bind. destruct (m s) as [a s2| | |]; try discriminate.
  destruct (g a s2) as [b' s3| | |]; try discriminate. intros H. injection H as -> ->. reflexivity.
Qed.

Lemma empty_step {B} (k : unit -> lstate -> res lstate B) ls :
  bind (next_statement_should_be_empty l_next_statement) k ([], ls) = k tt (l_start ls).
Proof. reflexivity. Qed.

Lemma block_of_step (pb : lstate -> res lstate (list node)) s ns s1 : pb s = ROk ns s1 -> block_of pb s = ROk (ASTBlock ns) s1.
Proof. intros H. unfold block_of, bind. rewrite H. reflexivity. Qed.

Lemma next_if_not k t c ls : ~ kw k t -> next_if l_next l_peek (is_kw k) (t :: c, ls) = ROk None (t :: c, ls).
Proof. intros H. apply next_if_no. intros u c' E. injection E as <- _. apply is_kw_false. exact H. Qed.

Lemma kw_not k k' t : kw k t -> k <> k' -> ~ kw k' t.
Proof. intros H Hn H'. exact (Hn (kw_fun _ _ _ H H')). Qed.

Lemma catch_ok {S} (m : S -> res S node) s n s1 : m s = ROk n s1 -> catch m s = ROk n s1.
Proof. intros H. unfold catch. rewrite H. reflexivity. Qed.

Lemma end_step ls : end_of_statement l_next_statement ([], ls) = ROk [] (l_start ls).
Proof. reflexivity. Qed.

(** After a statement, the block goes on. *)
Lemma block_cont ps stop g ns0 L ns l ls :
  d_stmts L ns -> is_stop stop -> ends_block stop (l, ls) ->
  (ns <> [] -> parse_block l_next l_peek l_next_statement ps stop g (l_start (L ++ l :: ls)) = ROk ns (l, ls)) ->
  bind (end_of_statement l_next_statement)
       (fun errs => bind (peek l_peek)
          (fun p => match p with
                    | Some t => if stop t then ret (ns0 ++ errs)
                                else bind (parse_block l_next l_peek l_next_statement ps stop g)
                                          (fun rest => ret (ns0 ++ errs ++ rest))
                    | None => ret (ns0 ++ errs)
                    end)) ([], L ++ l :: ls) = ROk (ns0 ++ ns) (l, ls).
Proof.
  intros Hd Hst He IH. erewrite bind_eq by apply end_step. cbv beta.
  destruct (d_stmts_first _ _ Hd) as [[-> ->]|(Hn & t & c & M & -> & Ht)]; cbn [app l_start].
  - destruct He as [He|(u & c & He & Hu)]; cbn [fst] in He; subst l.
    + erewrite bind_eq by apply peek_none. reflexivity.
    + erewrite bind_eq by apply peek_some. cbv beta iota. rewrite Hu. reflexivity.
  - erewrite bind_eq by apply peek_some. cbv beta iota.
    destruct (stop t) eqn:Es; [destruct (Ht (Hst _ Es))|].
    cbn [app l_start] in IH. erewrite bind_eq by (apply IH; exact Hn). reflexivity.
Qed.

Lemma iteration_complete ts it f c ls : d_iteration ts it -> length ts < f ->
  (forall t c', c = t :: c' -> kw TIL t \/ kw WILE t) ->
  iteration_operation_parse l_next l_peek f (ts ++ c, ls) = ROk it (c, ls).
Proof.
  assert (Hc : (forall t c', c = t :: c' -> kw TIL t \/ kw WILE t) -> ~ starts_with_slot c).
  { intros Hc (y & us & -> & Hy). destruct (Hc _ _ eq_refl) as [H|H]; exact (kw_slot _ _ H Hy). }
  intros H Hf Ht. specialize (Hc Ht). unfold iteration_operation_parse.
  destruct H as [|t yr ts v Hk Hyr Hv|t yr ts v Hk Hyr Hv]; cbn [app].
  - eapply bind_to.
    + apply next_if_no. intros t c' E.
      apply Bool.orb_false_iff. rewrite !is_kw_false.
      destruct (Ht _ _ E) as [H|H]; split; apply (kw_not _ _ _ H); discriminate.
    + reflexivity.
  - erewrite bind_eq by (apply next_if_yes; rewrite (kw_eval _ _ Hk); reflexivity). cbv beta iota.
    rewrite (kw_eval _ _ Hk). bnext. rewrite (kw_eval _ _ Hyr).
    destruct (d_va_first _ _ Hv) as (x & xs & -> & _). cbn [app]. bnext.
    erewrite bind_eq by (eapply va_complete; [exact Hv|reflexivity|cbn [length] in *; lia|exact Hc]). reflexivity.
  - erewrite bind_eq by (apply next_if_yes; rewrite (kw_eval _ _ Hk); apply Bool.orb_true_r). cbv beta iota.
    rewrite (proj2 (is_kw_false UPPIN t)) by (apply (kw_not _ _ _ Hk); discriminate).
    bnext. rewrite (kw_eval _ _ Hyr).
    destruct (d_va_first _ _ Hv) as (x & xs & -> & _). cbn [app]. bnext.
    erewrite bind_eq by (eapply va_complete; [exact Hv|reflexivity|cbn [length] in *; lia|exact Hc]). reflexivity.
Qed.

Lemma d_condition_first cs cond : d_condition cs cond -> forall t c, cs = t :: c -> kw TIL t \/ kw WILE t.
Proof. intros H; destruct H; intros t' c E; [discriminate|..]; injection E as <- _; auto. Qed.

Lemma conditional_complete cs cond f ls : d_condition cs cond -> length cs < f ->
  conditional_parse l_next l_peek f (cs, ls) = ROk cond ([], ls).
Proof.
  intros H Hf. unfold conditional_parse. destruct H as [|t o ts e Hk He|t o ts e Hk He].
  - reflexivity.
  - erewrite bind_eq by (apply next_if_yes; rewrite (kw_eval _ _ Hk); reflexivity). cbv beta iota.
    destruct (d_expr_first _ _ _ He) as (x & xs & E & _). subst ts. bnext.
    erewrite bind_eq by (eapply expr_complete_end; [exact He|reflexivity|cbn [length] in *; lia]).
    rewrite (kw_eval _ _ Hk). reflexivity.
  - erewrite bind_eq by (apply next_if_yes; rewrite (kw_eval _ _ Hk); apply Bool.orb_true_r). cbv beta iota.
    destruct (d_expr_first _ _ _ He) as (x & xs & E & _). subst ts. bnext.
    erewrite bind_eq by (eapply expr_complete_end; [exact He|reflexivity|cbn [length] in *; lia]).
    rewrite (proj2 (is_kw_false TIL t)) by (apply (kw_not _ _ _ Hk); discriminate). reflexivity.
Qed.

Lemma d_params_first us is : d_params us is -> us = [] \/ exists yr ws, us = yr :: ws /\ kw YR yr.
Proof. intros H; destruct H; eauto. Qed.

Lemma params_complete us is : d_params us is -> forall f ls, length us < f ->
  how_iz_i_loop l_next l_peek f (us, ls) = ROk is ([], ls).
Proof.
  induction 1 as [|yr ts i Hyr Hi|yr ts i an us is Hyr Hi Han Hp IH]; intros [|f] ls Hf; try (cbn in Hf; lia);
    cbn [how_iz_i_loop].
  - reflexivity.
  - erewrite bind_eq by (apply next_if_yes, is_kw_iff; assumption). cbv beta iota.
    destruct (d_identifier_first _ _ Hi) as (x & xs & -> & _). bnext.
    rewrite <- (app_nil_r xs).
    erewrite bind_eq by (eapply identifier_complete; [exact Hi|reflexivity]). reflexivity.
  - erewrite bind_eq by (apply next_if_yes, is_kw_iff; assumption). cbv beta iota.
    cbn [length] in Hf. rewrite app_length in Hf. cbn [length] in Hf.
    destruct (d_identifier_first _ _ Hi) as (x & xs & -> & _). cbn [app]. bnext.
    erewrite bind_eq by (eapply identifier_complete; [exact Hi|reflexivity]). cbv beta iota.
    erewrite bind_eq by apply peek_some. cbv beta iota. rewrite (kw_eval _ _ Han). bnext.
    erewrite bind_eq by (apply IH; lia). reflexivity.
Qed.

Lemma oic_step t e c ls : kw OIC e -> oic l_next t (e :: c, ls) = ROk tt (c, ls).
Proof. intros H. unfold oic. bnext. rewrite (kw_eval _ _ H). reflexivity. Qed.
Lemma question_step t q c ls : question_tok q -> question_mark l_next t (q :: c, ls) = ROk tt (c, ls).
Proof. intros H. unfold question_mark. bnext. rewrite (proj2 (is_question_iff q) H). reflexivity. Qed.

Lemma branch_none {A} pb k (C : token -> block -> A) l ls : starts (fun u => ~ kw k u) l ->
  branch pb k C (l, ls) = ROk None (l, ls).
Proof.
  intros (u & c & -> & Hu). unfold branch. erewrite bind_eq by (apply next_if_not; exact Hu). reflexivity.
Qed.
Lemma branch_some {A} pb k (C : token -> block -> A) t L ns l ls :
  kw k t -> pb (l_start (L ++ l :: ls)) = ROk ns (l, ls) ->
  branch pb k C ([t], L ++ l :: ls) = ROk (Some (C t (ASTBlock ns))) (l, ls).
Proof.
  intros Hk H. unfold branch. erewrite bind_eq by (apply next_if_yes, is_kw_iff; exact Hk). cbv beta iota.
  rewrite empty_step. erewrite bind_eq by (apply block_of_step; exact H). reflexivity.
Qed.
Lemma starts_impl (P Q : token -> Prop) l : (forall u, P u -> Q u) -> starts P l -> starts Q l.
Proof. intros H (u & c & -> & Hu). exists u, c. auto. Qed.
Lemma starts_ends stop l ls : starts (fun u => stop u = true) l -> ends_block stop (l, ls).
Proof. intros (u & c & -> & Hu). right. exists u, c. auto. Qed.

(** First lines of the parts of WTF? and O RLY?. *)
Lemma d_omgs_start L omgs l ls : d_omgs L omgs -> exists l' ls', L ++ l :: ls = l' :: ls' /\
  ((L = [] /\ l' = l /\ ls' = ls) \/ starts (kw OMG) l').
Proof.
  intros H; destruct H as [|t o ts e B ns M omgs Hk].
  - exists l, ls. auto.
  - eexists _, _. split; [reflexivity|]. right. exists t, ts. auto.
Qed.
Lemma d_default_start L d l ls : d_default L d -> exists l' ls', L ++ l :: ls = l' :: ls' /\
  ((L = [] /\ l' = l /\ ls' = ls) \/ starts (kw OMGWTF) l').
Proof.
  intros H; destruct H as [|t B ns Hk].
  - exists l, ls. auto.
  - eexists _, _. split; [reflexivity|]. right. exists t, []. auto.
Qed.
Lemma d_mebbes_start L ms l ls : d_mebbes L ms -> exists l' ls', L ++ l :: ls = l' :: ls' /\
  ((L = [] /\ l' = l /\ ls' = ls) \/ starts (kw MEBBE) l').
Proof.
  intros H; destruct H as [|t o ts e B ns M omgs Hk].
  - exists l, ls. auto.
  - eexists _, _. split; [reflexivity|]. right. exists t, ts. auto.
Qed.
Lemma d_no_wai_start L d l ls : d_no_wai L d -> exists l' ls', L ++ l :: ls = l' :: ls' /\
  ((L = [] /\ l' = l /\ ls' = ls) \/ starts (kw NO_WAI) l').
Proof.
  intros H; destruct H as [|t B ns Hk].
  - exists l, ls. auto.
  - eexists _, _. split; [reflexivity|]. right. exists t, []. auto.
Qed.

Lemma PS_at f t c ls n : multi_line t ->
  (let pb stop := PB f stop f in
   match tok_type t with
   | TKeyword HAI => as_node NHai (hai_parse l_next_statement t)
   | TKeyword IM_IN_YR => as_node NImInYr (im_in_yr_parse l_next l_peek l_next_statement pb f t)
   | TKeyword HOW_IZ_I => as_node NHowIzI (how_iz_i_parse l_next l_peek l_next_statement pb f t)
   | TKeyword WTF => as_node NWtf (wtf_parse l_next l_peek l_next_statement pb f t)
   | _ => as_node NORly (o_rly_parse l_next l_peek l_next_statement pb f t)
   end) (c, ls) = n -> PS (S f) t (c, ls) = n.
Proof.
  intros Hm <-. cbn [parse_statement].
  assert (Hv : va_is_valid t = false).
  { destruct Hm as [Hk|[Hk|[Hk|[Hk|Hk]]]]; apply (not_valid_kw _ _ Hk); discriminate. }
  rewrite Hv. destruct Hm as [Hk|[Hk|[Hk|[Hk|Hk]]]]; unfold kw in Hk; rewrite Hk; reflexivity.
Qed.

Ltac fuel_S f := destruct f as [|f]; [exfalso; lia|].

Lemma complete_mut :
  (forall L n, d_stmt L n -> Pstmt L n) /\ (forall L ns, d_block L ns -> Pblock L ns) /\
  (forall L ns, d_stmts L ns -> Pstmts L ns) /\ (forall L os, d_omgs L os -> Pomgs L os) /\
  (forall L d, d_default L d -> Pdefault L d) /\ (forall L d, d_ya_rly L d -> Pya_rly L d) /\
  (forall L ms, d_mebbes L ms -> Pmebbes L ms) /\ (forall L d, d_no_wai L d -> Pno_wai L d).
Proof.
  apply d_stmt_mut.
  - (* single line *)
    intros l n Hl. exists (length l + 2). intros f Hf t c M ls E. injection E as -> <-.
    apply (single_complete _ _ Hl t c f ls eq_refl). lia.
  - (* HAI *)
    intros t v Hk. exists 1. intros f Hf t' c M ls E. injection E as <- <- <-. fuel_S f.
    apply PS_at; [left; exact Hk|]. cbv zeta. unfold kw in Hk. rewrite Hk. reflexivity.
  - (* IM IN YR *)
    intros t lb its it cs cond B ns imo el Hk Hlb Hit Hcs Hb [F IH] Himo Hel.
    exists (S F + length its + length cs + 2). intros f Hf t' c M ls E. injection E as <- <- <-. fuel_S f.
    apply PS_at; [unfold multi_line; tauto|]. cbv zeta. pose proof Hk as Hk'. unfold kw in Hk'. rewrite Hk'.
    unfold as_node. bret. unfold im_in_yr_parse. bnext. rewrite (proj2 (is_identifier_iff lb) Hlb).
    erewrite bind_eq by (apply iteration_complete; [exact Hit|lia|eapply d_condition_first; exact Hcs]).
    cbv beta. erewrite bind_eq by (apply conditional_complete; [exact Hcs|lia]). cbv beta.
    rewrite empty_step. rewrite <- app_assoc. cbn [app].
    erewrite bind_eq.
    2:{ apply block_of_step. apply IH; [lia..|exact stop_loop_closer|].
        apply starts_ends. exists imo, [el]. split; [reflexivity|]. apply stop_loop_iff. exact Himo. }
    cbv beta. bnext. bnext. rewrite (proj2 (is_identifier_iff el) Hel). reflexivity.
  - (* HOW IZ I *)
    intros t ts i us ps B ns e Hk Hi Hp Hb [F IH] He.
    exists (S F + length us + 2). intros f Hf t' c M ls E. injection E as <- <- <-. fuel_S f.
    apply PS_at; [unfold multi_line; tauto|]. cbv zeta. pose proof Hk as Hk'. unfold kw in Hk'. rewrite Hk'.
    unfold as_node. bret. unfold how_iz_i_parse.
    destruct (d_identifier_first _ _ Hi) as (x & xs & E & _). subst ts. cbn [app]. bnext.
    erewrite bind_eq by (eapply identifier_complete; [exact Hi|reflexivity]). cbv beta.
    erewrite bind_eq by (apply params_complete; [exact Hp|lia]). cbv beta.
    rewrite empty_step. rewrite <- app_assoc. cbn [app].
    erewrite bind_eq.
    2:{ apply block_of_step. apply IH; [lia..|exact stop_function_closer|].
        apply starts_ends. exists e, []. split; [reflexivity|]. apply is_kw_iff. exact He. }
    cbv beta. bnext. rewrite (kw_eval _ _ He). rewrite empty_step. reflexivity.
  - (* WTF *)
    intros t q L omgs D d e Hk Hq Ho [F1 IH1] Hd [F2 IH2] He.
    exists (S (F1 + F2)). intros f Hf t' c M ls E. injection E as <- <- <-. fuel_S f.
    apply PS_at; [unfold multi_line; tauto|]. cbv zeta. pose proof Hk as Hk'. unfold kw in Hk'. rewrite Hk'.
    unfold as_node. bret. unfold wtf_parse.
    erewrite bind_eq by (apply question_step; exact Hq). cbv beta. rewrite empty_step.
    rewrite <- !app_assoc. cbn [app].
    destruct (d_default_start _ _ [e] ([] :: ls) Hd) as (l1 & ls1 & E1 & Hl1).
    assert (Hs1 : starts (fun u => kw OMGWTF u \/ kw OIC u) l1).
    { destruct Hl1 as [(_ & -> & _)|Hs]; [exists e, []; auto|]. eapply starts_impl; [|exact Hs]. auto. }
    rewrite E1. erewrite bind_eq by (apply IH1; [lia..|exact Hs1]). cbv beta.
    assert (Hb : branch (PB f stop_switch f) OMGWTF WtfOmgWtf (l1, ls1) = ROk d ([e], [] :: ls)).
    { change (l1, ls1) with (l_start (l1 :: ls1)). rewrite <- E1. apply IH2; [lia|]. exists e, []. auto. }
    match goal with |- bind ?m (fun o => bind (@?g o) ?h) ?s = _ => erewrite (bind_assoc_eq m g h s) by exact Hb end.
    erewrite bind_eq by (apply oic_step; exact He). cbv beta. rewrite empty_step. reflexivity.
  - (* O RLY *)
    intros t q Y y MB mb NW no e Hk Hq Hy [F1 IH1] Hm [F2 IH2] Hn [F3 IH3] He.
    exists (S (F1 + F2 + F3)). intros f Hf t' c M ls E. injection E as <- <- <-. fuel_S f.
    apply PS_at; [unfold multi_line; tauto|]. cbv zeta. pose proof Hk as Hk'. unfold kw in Hk'. rewrite Hk'.
    unfold as_node. bret. unfold o_rly_parse.
    erewrite bind_eq by (apply question_step; exact Hq). cbv beta. rewrite empty_step.
    rewrite <- !app_assoc. cbn [app].
    destruct (d_no_wai_start _ _ [e] ls Hn) as (l1 & ls1 & E1 & Hl1).
    assert (Hs1 : starts (fun u => kw NO_WAI u \/ kw OIC u) l1).
    { destruct Hl1 as [(_ & -> & _)|Hs]; [exists e, []; auto|]. eapply starts_impl; [|exact Hs]. auto. }
    destruct (d_mebbes_start _ _ l1 ls1 Hm) as (l2 & ls2 & E2 & Hl2).
    assert (Hs2 : starts (fun u => kw MEBBE u \/ kw NO_WAI u \/ kw OIC u) l2).
    { destruct Hl2 as [(_ & -> & _)|Hs]; [|eapply starts_impl; [|exact Hs]; auto].
      eapply starts_impl; [|exact Hs1]. auto. }
    rewrite E1, E2.
    assert (Hb1 : branch (PB f stop_if f) YA_RLY YaRly (l_start (Y ++ l2 :: ls2)) = ROk y (l2, ls2))
      by (apply IH1; [lia|exact Hs2]).
    match goal with |- bind ?m (fun o => bind (@?g o) ?h) ?s = _ => erewrite (bind_assoc_eq m g h s) by exact Hb1 end.
    change (l2, ls2) with (l_start (l2 :: ls2)). rewrite <- E2.
    erewrite bind_eq by (apply IH2; [lia..|exact Hs1]). cbv beta.
    assert (Hb : branch (PB f stop_if f) NO_WAI NoWai (l1, ls1) = ROk no ([e], ls)).
    { change (l1, ls1) with (l_start (l1 :: ls1)). rewrite <- E1. apply IH3; [lia|]. exists e, []. auto. }
    match goal with |- bind ?m (fun o => bind (@?g o) ?h) ?s = _ => erewrite (bind_assoc_eq m g h s) by exact Hb end.
    erewrite bind_eq by (apply oic_step; exact He). reflexivity.
  - (* block *)
    intros L ns Hd IH Hn. exact (IH Hn).
  - intros L ns Hd IH.
    assert (HF : exists F, forall f g, F <= f -> F <= g -> forall stop l ls, is_stop stop -> ends_block stop (l, ls) ->
       ns <> [] -> PB f stop g (l_start (L ++ l :: ls)) = ROk ns (l, ls)).
    { destruct ns as [|n ns]; [exists 0; intros; contradiction|].
      destruct (IH ltac:(discriminate)) as [F HF]. exists F. intros. apply HF; assumption. }
    destruct HF as [F HF]. exists (S F). intros f g Hf Hg stop l ls Hst He. fuel_S g.
    cbn [app l_start parse_block]. bnone. erewrite bind_eq by reflexivity. cbv beta.
    apply (block_cont _ _ _ [] L ns l ls Hd Hst He). apply HF; [lia..|assumption|assumption].
  - intros Hn. contradiction.
  - intros L n M ns Hn [F1 IH1] Hs IH _.
    assert (HF : exists F, forall f g, F <= f -> F <= g -> forall stop l ls, is_stop stop -> ends_block stop (l, ls) ->
       ns <> [] -> PB f stop g (l_start (M ++ l :: ls)) = ROk ns (l, ls)).
    { destruct ns as [|n' ns]; [exists 0; intros; contradiction|].
      destruct (IH ltac:(discriminate)) as [F HF]. exists F. intros. apply HF; assumption. }
    destruct HF as [F HF]. exists (S (F1 + F)). intros f g Hf Hg stop l ls Hst He. fuel_S g.
    destruct (d_stmt_first _ _ Hn) as (t & c & M' & -> & Ht).
    cbn [app l_start parse_block]. bnext.
    erewrite bind_eq.
    2:{ bret. apply catch_ok. rewrite <- app_assoc. apply IH1; [lia|reflexivity]. }
    cbv beta. apply (block_cont _ _ _ [n] M ns l ls Hs Hst He). apply HF; [lia..|assumption|assumption].
  - (* OMG *)
    exists 1. intros f g Hf Hg l ls Hl. fuel_S g. cbn [app l_start omg_loop]. destruct Hl as (u & c & -> & Hu).
    eapply bind_to.
    + apply next_if_not. destruct Hu as [Hu|Hu]; apply (kw_not _ _ _ Hu); discriminate.
    + reflexivity.
  - intros t o ts e B ns M omgs Hk He Hb [F1 IH1] Ho [F2 IH2].
    exists (S (F1 + F2 + length ts)). intros f g Hf Hg l ls Hl. fuel_S g. cbn [app l_start omg_loop].
    erewrite bind_eq by (apply next_if_yes, is_kw_iff; exact Hk). cbv beta iota.
    destruct (d_expr_first _ _ _ He) as (x & xs & E & _). subst ts. bnext.
    erewrite bind_eq by (eapply expr_complete_end; [exact He|reflexivity|lia]). cbv beta. rewrite empty_step.
    rewrite <- app_assoc. destruct (d_omgs_start _ _ l ls Ho) as (l1 & ls1 & E1 & Hl1). rewrite E1.
    erewrite bind_eq.
    2:{ apply block_of_step. apply IH1; [lia..|exact stop_switch_closer|]. apply starts_ends.
        destruct Hl1 as [(_ & -> & _)|Hs]; [eapply starts_impl; [|exact Hl]|eapply starts_impl; [|exact Hs]];
          intros u Hu; cbv beta in Hu; apply stop_switch_iff; tauto. }
    cbv beta. change (l1, ls1) with (l_start (l1 :: ls1)). rewrite <- E1.
    erewrite bind_eq by (apply IH2; [lia..|exact Hl]). reflexivity.
  - (* OMGWTF *)
    exists 0. intros f _ l ls Hl. apply branch_none. eapply starts_impl; [|exact Hl].
    intros u Hu. apply (kw_not _ _ _ Hu). discriminate.
  - intros t B ns Hk Hb [F IH]. exists F. intros f Hf l ls Hl. cbn [app l_start].
    apply branch_some; [exact Hk|]. apply IH; [lia..|exact stop_switch_closer|]. apply starts_ends.
    eapply starts_impl; [|exact Hl]. intros u Hu. cbv beta in Hu. apply stop_switch_iff. tauto.
  - (* YA RLY *)
    exists 0. intros f _ l ls Hl. apply branch_none. eapply starts_impl; [|exact Hl].
    intros u [Hu|[Hu|Hu]]; apply (kw_not _ _ _ Hu); discriminate.
  - intros t B ns Hk Hb [F IH]. exists F. intros f Hf l ls Hl. cbn [app l_start].
    apply branch_some; [exact Hk|]. apply IH; [lia..|exact stop_if_closer|]. apply starts_ends.
    eapply starts_impl; [|exact Hl]. intros u Hu. cbv beta in Hu. apply stop_if_iff. tauto.
  - (* MEBBE *)
    exists 1. intros f g Hf Hg l ls Hl. fuel_S g. cbn [app l_start mebbe_loop]. destruct Hl as (u & c & -> & Hu).
    eapply bind_to.
    + apply next_if_not. destruct Hu as [Hu|Hu]; apply (kw_not _ _ _ Hu); discriminate.
    + reflexivity.
  - intros t o ts e B ns M omgs Hk He Hb [F1 IH1] Ho [F2 IH2].
    exists (S (F1 + F2 + length ts)). intros f g Hf Hg l ls Hl. fuel_S g. cbn [app l_start mebbe_loop].
    erewrite bind_eq by (apply next_if_yes, is_kw_iff; exact Hk). cbv beta iota.
    destruct (d_expr_first _ _ _ He) as (x & xs & E & _). subst ts. bnext.
    erewrite bind_eq by (eapply expr_complete_end; [exact He|reflexivity|lia]). cbv beta. rewrite empty_step.
    rewrite <- app_assoc. destruct (d_mebbes_start _ _ l ls Ho) as (l1 & ls1 & E1 & Hl1). rewrite E1.
    erewrite bind_eq.
    2:{ apply block_of_step. apply IH1; [lia..|exact stop_if_closer|]. apply starts_ends.
        destruct Hl1 as [(_ & -> & _)|Hs]; [eapply starts_impl; [|exact Hl]|eapply starts_impl; [|exact Hs]];
          intros u Hu; cbv beta in Hu; apply stop_if_iff; tauto. }
    cbv beta. change (l1, ls1) with (l_start (l1 :: ls1)). rewrite <- E1.
    erewrite bind_eq by (apply IH2; [lia..|exact Hl]). reflexivity.
  - (* NO WAI *)
    exists 0. intros f _ l ls Hl. apply branch_none. eapply starts_impl; [|exact Hl].
    intros u Hu. apply (kw_not _ _ _ Hu). discriminate.
  - intros t B ns Hk Hb [F IH]. exists F. intros f Hf l ls Hl. cbn [app l_start].
    apply branch_some; [exact Hk|]. apply IH; [lia..|exact stop_if_closer|]. apply starts_ends.
    eapply starts_impl; [|exact Hl]. intros u Hu. cbv beta in Hu. apply stop_if_iff. tauto.
Qed.

(** ** Empty lines at the end of the program change nothing *)
Definition pad (s1 s2 : lstate) : Prop := fst s1 = fst s2 /\ exists k, snd s1 = snd s2 ++ repeat [] k.

Lemma pad_next s1 s2 : pad s1 s2 -> fst (l_next s1) = fst (l_next s2) /\ pad (snd (l_next s1)) (snd (l_next s2)).
Proof.
  destruct s1 as [c1 l1], s2 as [c2 l2]. intros [E [k Hk]]. cbn in E, Hk. subst. destruct c2; cbn; split; try reflexivity;
    split; cbn; eauto.
Qed.
Lemma pad_peek s1 s2 : pad s1 s2 -> fst (l_peek s1) = fst (l_peek s2) /\ pad (snd (l_peek s1)) (snd (l_peek s2)).
Proof.
  destruct s1 as [c1 l1], s2 as [c2 l2]. intros [E [k Hk]]. cbn in E, Hk. subst. destruct c2; cbn; split; try reflexivity;
    split; cbn; eauto.
Qed.
Lemma pad_start ls k : pad (l_start (ls ++ repeat [] k)) (l_start ls).
Proof.
  destruct ls as [|l ls]; cbn [app l_start].
  - destruct k; cbn; split; cbn; [reflexivity|exists 0; reflexivity|reflexivity|exists k; reflexivity].
  - split; [reflexivity|]. exists k. reflexivity.
Qed.
Lemma pad_statement s1 s2 : pad s1 s2 ->
  fst (l_next_statement s1) = fst (l_next_statement s2) /\ pad (snd (l_next_statement s1)) (snd (l_next_statement s2)).
Proof.
  destruct s1 as [c1 l1], s2 as [c2 l2]. intros [E [k Hk]]. cbn in E, Hk. subst. cbn.
  split; [reflexivity|]. apply pad_start.
Qed.

Lemma lsum_pad ls k : lsum (ls ++ repeat [] k) = lsum ls.
Proof.
  unfold lsum. rewrite concat_app, app_length.
  assert (H : concat (repeat (@nil token) k) = []) by (induction k; cbn; auto). rewrite H. cbn. lia.
Qed.

Lemma parse_logical_pad ls k : parse_logical (ls ++ repeat [] k) = parse_logical ls.
Proof.
  unfold parse_logical. rewrite lsum_pad. unfold parse_lines.
  pose proof (sim_root _ _ _ _ _ _ pad pad_next pad_peek pad_statement (lsum ls + 4) _ _ (pad_start ls k)) as H.
  unfold res_rel in H.
  destruct (parse_block_root _ _ _ _ (l_start (ls ++ _))), (parse_block_root _ _ _ _ (l_start ls));
    try contradiction; cbn; try reflexivity.
  - destruct H as [-> _]. reflexivity.
  - congruence.
Qed.

Theorem program_complete ls ns : d_program ls ns -> parse_logical ls = ParseOk (ASTBlock ns).
Proof.
  intros (k & L & rest & E & Hd). rewrite <- (parse_logical_pad ls k). rewrite E.
  destruct (proj1 (proj2 complete_mut) _ _ Hd) as [F HF].
  set (ls' := L ++ [] :: rest). unfold parse_logical.
  rewrite <- (proj1 (parse_lines_fuel (F + lsum ls' + 4) ls' ltac:(lia))).
  unfold parse_lines, parse_block_root. erewrite block_of_step; [reflexivity|].
  apply HF; [lia..|exact stop_root_closer|]. left. reflexivity.
Qed.

Lemma clean_mut :
  (forall L n, d_stmt L n -> node_clean n = true) /\ (forall L ns, d_block L ns -> forallb node_clean ns = true) /\
  (forall L ns, d_stmts L ns -> forallb node_clean ns = true) /\
  (forall L os, d_omgs L os -> forallb wtf_omg_clean os = true) /\
  (forall L d, d_default L d -> match d with Some x => wtf_omg_wtf_clean x | None => true end = true) /\
  (forall L d, d_ya_rly L d -> match d with Some x => ya_rly_clean x | None => true end = true) /\
  (forall L ms, d_mebbes L ms -> forallb mebbe_clean ms = true) /\
  (forall L d, d_no_wai L d -> match d with Some x => no_wai_clean x | None => true end = true).
Proof.
  apply d_stmt_mut; intros; cbn [node_clean forallb im_in_yr_clean block_clean how_iz_i_clean wtf_clean
     wtf_omg_clean wtf_omg_wtf_clean o_rly_clean ya_rly_clean mebbe_clean no_wai_clean];
    rewrite ?andb_true_iff; auto.
  match goal with H : d_line _ _ |- _ => destruct H; reflexivity end.
Qed.

Theorem program_clean ls ns : d_program ls ns -> forallb node_clean ns = true.
Proof. intros (k & L & rest & _ & Hd). exact (proj1 (proj2 clean_mut) _ _ Hd). Qed.

Theorem program_iff ls ns :
  (parse_logical ls = ParseOk (ASTBlock ns) /\ forallb node_clean ns = true) <-> d_program ls ns.
Proof.
  split.
  - intros [H1 H2]. apply program_sound; assumption.
  - intros H. split; [apply program_complete|eapply program_clean]; exact H.
Qed.
