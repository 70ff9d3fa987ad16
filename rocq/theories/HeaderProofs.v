(** Proofs for C93: the errors of the headers of loops and functions. *)
From Verif Require Reads LineGrammar ParserProps.
From Coq Require Import Lia List Bool.
From Verif Require Import Lines FirstError ExprGrammar CheckerProofs ReaderProofs AutomatonProofs FailureComplete ParseFuel Recovery RecoveryProps.
From Verif Require Export EarliestProofs.
From Verif Require Import Failure.
Import ListNotations.
Local Open Scope list_scope.

(** ** Failing headers *)
Lemma stop_params l f : x_params l f -> forall p q, q = RNamed AsFunction \/ q = RParams -> stops p q l f.
Proof.
  induction 1 as [yr Y|yr l f Y X|yr ts i an l f Y D A X IH]; intros p q Q.
  - eapply (stops_end p q [yr] (RName AsParam) _ yr); [reflexivity|apply in_or_app; right; left; reflexivity|apply reads_one, rs_param; assumption|auto].
  - eapply stops_cons; [apply rs_param; eassumption|]. eapply stop_identifier; [exact X|apply names_name|left; reflexivity].
  - eapply stops_cons; [apply rs_param; eassumption|]. eapply stops_app; [eapply read_identifier; [apply names_name|exact D]|].
    eapply stops_cons; [apply rs_param_an, A|]. apply IH. right. reflexivity.
Qed.
Lemma stop_function t c f : kw HOW_IZ_I t -> x_function t c f -> stops [] (RStart (Fresh [])) (t :: c) f.
Proof.
  intros T H. eapply stops_cons; [eapply rs_function; [apply in_fresh|exact T]|]. destruct H as [|l f X|ts i l f D X].
  - eapply (stops_end _ _ [] _ _ t); [reflexivity|left; reflexivity|constructor|auto].
  - eapply stop_identifier; [exact X|apply names_name|left; reflexivity].
  - eapply stops_app; [eapply read_identifier; [apply names_name|exact D]|]. apply stop_params; [exact X|left; reflexivity].
Qed.
Lemma read_iteration its it : d_iteration its it -> (its = [] /\ reads_to RLoop its RLoop) \/ (ends_with_identifier its /\ reads_to RLoop its (RNamed AsCounter)).
Proof.
  intros [|t yr ts v T Y D|t yr ts v T Y D]; [left; split; [reflexivity|constructor]|right..];
    (assert (R : reads_to RLoop (t :: yr :: ts) (RNamed AsCounter));
     [econstructor; [apply rs_uppin; auto|]; econstructor; [apply rs_counter, Y|]; eapply read_va; [apply names_name|exact I|exact D]
     |split; [eapply reads_named; [discriminate|exact R]|exact R]]).
Qed.
Lemma stop_iteration l f : x_iteration l f -> forall p, stops p RLoop l f.
Proof.
  intros [t T|t u r T Y|t yr T Y|t yr l' f' T Y X] p.
  - eapply (stops_end p _ [t] RCounter _ t); [reflexivity|apply in_or_app; right; left; reflexivity|apply reads_one, rs_uppin, T|auto].
  - eapply stops_cons; [apply rs_uppin, T|]. apply stops_here; [reflexivity|]. apply no_rstep. intros q' S. inversion S; subst; try contradiction;
      repeat match goal with H : expects _ _ _ |- _ => inversion H; clear H; subst | H : done _ _ _ |- _ => inversion H; clear H; subst | H : _ \/ _ |- _ => destruct H end; discriminate.
  - eapply (stops_end p _ [t; yr] (RName AsCounter) _ t); [reflexivity|apply in_or_app; right; left; reflexivity| |auto].
    econstructor; [apply rs_uppin, T|]. apply reads_one, rs_counter, Y.
  - eapply stops_cons; [apply rs_uppin, T|]. eapply stops_cons; [apply rs_counter, Y|]. eapply stop_va; [exact X|apply names_name|exact I|left; reflexivity].
Qed.
Lemma stop_loop t c f : kw IM_IN_YR t -> x_loop t c f -> stops [] (RStart (Fresh [])) (t :: c) f.
Proof.
  intros T H. eapply stops_cons; [eapply rs_loop; [apply in_fresh|exact T]|]. destruct H as [|u r N|u l f U X|u its it l f U D X].
  - eapply (stops_end _ _ [] _ _ t); [reflexivity|left; reflexivity|constructor|auto].
  - apply stops_here; [reflexivity|]. cbn [reader_f]. destruct (tok_type u) eqn:E; try reflexivity. destruct N. exists s. exact E.
  - eapply stops_cons; [apply rs_label, U|]. apply stop_iteration, X.
  - eapply stops_cons; [apply rs_label, U|].
    assert (R : exists q, (q = RLoop \/ q = RNamed AsCounter) /\ reads_to RLoop its q) by (destruct (read_iteration _ _ D) as [(_ & R)|(_ & R)]; eauto).
    destruct R as (q & Q & R). eapply stops_app; [exact R|]. destruct X as [w l f W X]. eapply stops_cons; [apply rs_until; eassumption|].
    eapply stop_expected; [exact X|reflexivity|]. rewrite !in_app_iff. right. left. reflexivity.
Qed.

(** ** Headers with too many tokens *)
Lemma junk_condition w o ts e its it x r : is_until w -> d_expr o ts e -> d_iteration its it -> o <> true ->
  ~ (ends_with_identifier (its ++ w :: ts) /\ begins slot_tok (x :: r)) ->
  exists q, reads_to RLoop (its ++ w :: ts) q /\ reader_f q x = None.
Proof.
  intros W D DI O N. destruct o; [now destruct O|].
  assert (R : exists q, (q = RLoop \/ q = RNamed AsCounter) /\ reads_to RLoop its q) by (destruct (read_iteration _ _ DI) as [(_ & R)|(_ & R)]; eauto).
  destruct R as (q & Q & R). destruct (read_closed _ _ _ _ _ D (expects_now [] AtEnd)) as (q' & D' & R').
  exists q'. split; [eapply reads_app; [exact R|]; econstructor; [apply rs_until; eassumption|exact R']|].
  eapply (slot_blocked _ ts q' (x :: r) false [] AtEnd (expr_nonempty _ _ _ D) R' D'); [|reflexivity|discriminate].
  split; [discriminate|]. intros (E & S). apply N. split; [|exact S]. destruct E as (us & y & -> & Y). exists (its ++ w :: us), y. rewrite <- app_assoc. auto.
Qed.
Lemma junk_loop t c label it cond x r : kw IM_IN_YR t -> loop_header c label it cond (x :: r) ->
  exists l1 q, t :: c = l1 ++ x :: r /\ reads_to (RStart (Fresh [])) l1 q /\ reader_f q x = None.
Proof.
  intros T (its & cs & -> & L & DI & DC & N1 & N2 & N3 & N4).
  exists (t :: label :: its ++ cs).
  assert (G : exists q, reads_to RLoop (its ++ cs) q /\ reader_f q x = None).
  { destruct DC as [|w o ts e W D|w o ts e W D].
    - rewrite !app_nil_r in *. assert (N : ~ is_until x) by (intros U; apply (N2 eq_refl); exists x, r; auto).
      destruct (read_iteration _ _ DI) as [(-> & R)|(E & R)]; eexists; (split; [exact R|]).
      + assert (N' : ~ is_step x) by (intros U; apply (N1 eq_refl); exists x, r; auto). cbn [reader_f]. unfold is_until, is_step, kw in N, N'.
        destruct (tok_type x); try reflexivity. match goal with k : keyword |- _ => destruct k end; try reflexivity; exfalso; (apply N; auto; fail) || (apply N'; auto; fail).
      + assert (N' : ~ slot_tok x) by (intros U; apply N4; split; [exact E|exists x, r; auto]). cbn [reader_f named_f]. unfold is_until, kw in N. unfold slot_tok in N'.
        destruct (tok_type x); try reflexivity; [|destruct N'; reflexivity]. match goal with k : keyword |- _ => destruct k end; try reflexivity; exfalso; apply N; auto.
    - destruct (junk_condition w o ts e its it x r (or_introl W) D DI) as (q & R & N); [intros ->; apply Reads.d_expr_open in D; symmetry in D; discriminate (N3 D)|exact N4|]. exists q. auto.
    - destruct (junk_condition w o ts e its it x r (or_intror W) D DI) as (q & R & N); [intros ->; apply Reads.d_expr_open in D; symmetry in D; discriminate (N3 D)|exact N4|]. exists q. auto. }
  destruct G as (q & R & N). exists q. cbn [app]. rewrite <- app_assoc. repeat split; [|exact N].
  econstructor; [eapply rs_loop; [apply in_fresh|exact T]|]. econstructor; [apply rs_label, L|exact R].
Qed.
Lemma junk_params us ps : d_params us ps -> forall q x, q = RNamed AsFunction \/ q = RParams ->
  (us = [] \/ ends_with_an us -> ~ kw YR x) -> (us <> [] -> ~ ends_with_an us -> ~ kw AN x) ->
  exists q', reads_to q us q' /\ reader_f q' x = None.
Proof.
  induction 1 as [|yr ts i Y D|yr ts i an us is Y D A P IH]; intros q x Q N1 N2.
  - exists q. split; [constructor|]. assert (N := N1 (or_introl eq_refl)). unfold kw in N.
    destruct Q as [-> | ->]; cbn [reader_f named_f]; destruct (tok_type x); try reflexivity; match goal with k : keyword |- _ => destruct k end; try reflexivity; now destruct N.
  - exists (RNamed AsParam). split; [econstructor; [apply rs_param; eassumption|]; eapply read_identifier; [apply names_name|exact D]|].
    assert (N : ~ kw AN x).
    { apply N2; [discriminate|]. intros (ws & a & E & K). destruct D as [u U|s u S U].
      - destruct ws as [|? [|? [|? ?]]]; try discriminate E; injection E; intros; subst; destruct U as (? & U); unfold kw in K; congruence.
      - destruct ws as [|? [|? [|? [|? ?]]]]; try discriminate E; injection E; intros; subst; destruct U as (? & U); unfold kw in K; congruence. }
    unfold kw in N. cbn [reader_f named_f]; destruct (tok_type x); try reflexivity; match goal with k : keyword |- _ => destruct k end; try reflexivity; now destruct N.
  - destruct (IH RParams x (or_intror eq_refl)) as (q' & R & N).
    + intros H. apply N1. right. destruct H as [-> | (ws & a & -> & K)]; [exists (yr :: ts), an; auto|]. exists (yr :: ts ++ an :: ws), a. split; [|exact K].
      cbn [app]. rewrite <- app_assoc. reflexivity.
    + intros H1 H2. apply N2; [discriminate|]. intros (ws & a & E & K). apply H2. destruct (exists_last H1) as (us' & b & ->).
      exists us', b. split; [reflexivity|]. assert (E' : (yr :: ts ++ an :: us') ++ [b] = ws ++ [a]) by (cbn [app]; rewrite <- app_assoc; exact E).
      apply app_inj_tail in E' as (_ & ->). exact K.
    + exists q'. split; [|exact N]. econstructor; [apply rs_param; eassumption|]. eapply reads_app; [eapply read_identifier; [apply names_name|exact D]|].
      econstructor; [apply rs_param_an, A|exact R].
Qed.
Lemma junk_function t c i ps x r : kw HOW_IZ_I t -> function_header c i ps (x :: r) ->
  exists l1 q, t :: c = l1 ++ x :: r /\ reads_to (RStart (Fresh [])) l1 q /\ reader_f q x = None.
Proof.
  intros T (ts & us & -> & D & P & N1 & N2). destruct (junk_params us ps P (RNamed AsFunction) x (or_introl eq_refl)) as (q & R & N).
  - intros H K. apply (N1 H). exists x, r. auto.
  - intros H H' K. apply (N2 H H'). exists x, r. auto.
  - exists (t :: ts ++ us), q. cbn [app]. rewrite <- app_assoc. repeat split; [|exact N].
    econstructor; [eapply rs_function; [apply in_fresh|exact T]|]. eapply reads_app; [eapply read_identifier; [apply names_name|exact D]|exact R].
Qed.

(** ** Where the error of a header is *)
Lemma header_iff l : begins_header l <-> exists q, reads_to (RStart (Fresh [])) l q.
Proof. apply begun_line_iff. Qed.
Lemma header_wrong l1 t q : reads_to (RStart (Fresh [])) l1 q -> reader_f q t = None -> begins_header l1 /\ ~ begins_header (l1 ++ [t]).
Proof.
  intros R N. split; [apply header_iff; eauto|]. intros H. apply header_iff in H as (q2 & R2).
  apply reads_split in R2 as (q3 & R3 & R4). rewrite (reads_fun _ _ _ _ R3 R) in R4. inversion R4 as [|? ? q4 ? ? S _]; subst. apply reader_iff in S. congruence.
Qed.
Lemma stops_located l e r : (forall s', ~ step (Fresh []) l s') -> stops [] (RStart (Fresh [])) l (FErr e r) -> located_header l e.
Proof.
  intros W [(l1 & t & q & -> & E & R & N)|(-> & t & q & E & I & R & N)].
  - destruct (header_wrong _ _ _ R N) as (A & B). eapply lh_token; [reflexivity|exact A|exact B|left; exact E].
  - eapply lh_end; [apply header_iff; eauto|exact W|exact E|exact I].
Qed.
Lemma header_stmt t c ls o : header_start t -> (forall s', ~ step (Fresh []) (t :: c) s') -> r_stmt (t :: c) ls o ->
  (exists e p, o = Err e p /\ located_header (t :: c) e) \/ exists p, o = Crash p.
Proof.
  intros T W H.
  assert (WL : forall label it cond, kw IM_IN_YR t -> ~ loop_header c label it cond []).
  { intros label it cond K (its & cs & -> & L & DI & DC & _). rewrite app_nil_r in W. eapply W. eapply step_loop; [apply in_fresh|eassumption..]. }
  assert (WF : forall i ps, kw HOW_IZ_I t -> ~ function_header c i ps []).
  { intros i ps K (ts & us & -> & D & P & _). rewrite app_nil_r in W. eapply W. eapply step_function; [apply in_fresh|eassumption..]. }
  inversion H; subst; try (exfalso; eapply WL; eassumption); try (exfalso; eapply WF; eassumption);
    try (exfalso; destruct T as [T|T]; unfold kw in *; congruence).
  - exfalso. match goal with R : reads _ _ _ |- _ => destruct R as (us & E & D & _) end. destruct (LineGrammar.d_line_first _ _ D) as (u & vs & -> & U). injection E as <- _.
    assert (NE : ~ ExprGrammar.expr_start t).
    { unfold ExprGrammar.expr_start, value_tok, ident_tok, kw. intros [(v & X)|[(v & X)|[X|[X|[X|[(k & op & X & O)|(k & op & X & O)]]]]]]; destruct T as [T|T]; unfold kw in T; rewrite T in X; try discriminate X;
        injection X as <-; inversion O. }
    destruct T as [T|T]; unfold kw in *; intuition congruence.
  - match goal with F : fails_stmt _ _ |- _ => apply (stop_stmt _ _ []) in F; [|discriminate] end. destruct f as [e r|p]; cbn [failed]; [left|eauto].
    eexists _, _. split; [reflexivity|]. eapply stops_located; eassumption.
  - match goal with X : x_loop _ _ _ |- _ => apply stop_loop in X; [|assumption] end. destruct f as [e r|p]; cbn [failed]; [left|eauto].
    eexists _, _. split; [reflexivity|]. eapply stops_located; eassumption.
  - left. eexists _, _. split; [reflexivity|]. match goal with X : loop_header _ _ _ _ _ |- _ => apply (junk_loop t) in X as (l1 & q & E & R & N); [|assumption] end.
    destruct (header_wrong _ _ _ R N) as (A & B). eapply lh_token; [exact E|exact A|exact B|right; reflexivity].
  - match goal with X : x_function _ _ _ |- _ => apply stop_function in X; [|assumption] end. destruct f as [e r|p]; cbn [failed]; [left|eauto].
    eexists _, _. split; [reflexivity|]. eapply stops_located; eassumption.
  - left. eexists _, _. split; [reflexivity|]. match goal with X : function_header _ _ _ _ |- _ => apply (junk_function t) in X as (l1 & q & E & R & N); [|assumption] end.
    destruct (header_wrong _ _ _ R N) as (A & B). eapply lh_token; [exact E|exact A|exact B|right; reflexivity].
Qed.
Lemma header_first l ls ns : begins header_start l -> (forall s', ~ step (Fresh []) l s') -> parse_logical (l :: ls) = ParseOk (ASTBlock ns) ->
  exists e ns', ns = NASTError e :: ns' /\ located_header l e.
Proof.
  intros (t & c & -> & T) W H. apply logical_nodes in H as (p & H). change (line_of ((t :: c) :: ls)) with (t :: c, ls) in H.
  inversion H as [|? ? ? ? n r ls' o S M E1 E2|? ? ? ? e r ls' o S M E1 E2|]; subst.
  - destruct (header_stmt _ _ _ _ T W S) as [(e & q & E & _)|(q & E)]; discriminate E.
  - destruct (header_stmt _ _ _ _ T W S) as [(e' & q & E & L)|(q & E)]; [|discriminate E]. injection E as <- <-.
    match goal with X : omap _ ?o = _ |- _ => destruct o as [ms q'| |]; cbn [omap] in X; try discriminate X; injection X as <- <- end. eexists _, _. split; [reflexivity|exact L].
Qed.
Lemma rest_parse ls l ls' : Forall plain_line ls -> begins header_start l -> ParserProps.rest_result (ls ++ l :: ls') = parse_logical (ls ++ l :: ls').
Proof.
  intros P (t & c & -> & _). destruct P as [|[|u v] ls (P & _) _]; [reflexivity|now destruct P|reflexivity].
Qed.
Theorem located_headers ts ls1 l ls ns : logical_lines ts = ls1 ++ l :: ls -> Forall plain_line ls1 -> begins header_start l ->
  (forall s', ~ step (Fresh []) l s') -> parse ts = ParseOk (ASTBlock ns) ->
  exists nss e ns', ns = concat nss ++ NASTError e :: ns' /\ Forall2 located ls1 nss /\ located_header l e.
Proof.
  intros E P B W. rewrite parse_logical_lines, E. clear E ts. revert ns. induction P as [|k ks (K1 & K2) P IH]; intros ns H.
  - destruct (header_first _ _ _ B W H) as (e & ns' & -> & L). exists [], e, ns'. auto.
  - destruct k as [|t c]; [now destruct K1|]. destruct (line_out t c (ks ++ l :: ls)) as (x & X & Y); [intros Z; apply K2; exists t, c; auto|].
    cbn [app] in H. rewrite (Y _ eq_refl), (rest_parse _ _ _ P B) in H. destruct x as [ms|p]; [|discriminate H].
    destruct (parse_logical (ks ++ l :: ls)) as [[ns2]| |]; cbn [ParserProps.put] in H; try discriminate H. injection H as <-.
    destruct (IH _ eq_refl) as (nss & e & ns' & -> & F & L). exists (ms :: nss), e, ns'. cbn [concat]. rewrite <- app_assoc. repeat split; auto.
    constructor; [apply located_line; assumption|exact F].
Qed.
