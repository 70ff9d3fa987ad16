(** Proofs for C89. *)
From Coq Require Import String Lia.
From Verif Require Import Parser Lexer Api Lines ParseFuel LexSpec LexProofs LexPropSpec LexProps LexProps2 Relabel RelabelProofs AppendProofs SourceSpec SourceProofs ExprGrammar Grammar Clean LineGrammar ProgGrammar ProgComplete Failure LineEffect LineEffectProofs.
From Verif Require Export Checker.
Local Open Scope list_scope.

Lemma steps_app s ls s' ms s'' : steps s ls s' -> steps s' ms s'' -> steps s (ls ++ ms) s''.
Proof. induction 1 as [|s l s1 ls s2 H _ IH]; intros K; [exact K|]. cbn [app]. econstructor; [exact H|apply IH, K]. Qed.
Lemma steps_one s l s' : step s l s' -> steps s [l] s'.
Proof. intros H. econstructor; [exact H|constructor]. Qed.
Lemma steps_split ls : forall s ms s'', steps s (ls ++ ms) s'' -> exists s', steps s ls s' /\ steps s' ms s''.
Proof.
  induction ls as [|l ls IH]; intros s ms s'' H; [exists s; split; [constructor|exact H]|].
  cbn [app] in H. inversion H as [|? ? s1 ? ? H1 H2]; subst. destruct (IH _ _ _ H2) as (s' & K1 & K2).
  exists s'. split; [econstructor; eassumption|exact K2].
Qed.
Lemma steps_ended ls : steps Ended ls Ended.
Proof. induction ls; econstructor; [constructor|assumption]. Qed.

(** ** Derivations are accepted *)
Definition stmt_ok (L : list (list token)) : Prop := forall s open, in_block s open -> steps s L (Begun open).
Definition stmts_ok (L : list (list token)) (ns : list node) : Prop :=
  forall s open, in_block s open -> ns <> [] \/ s = Begun open -> steps s L (Begun open).
Definition cases_ok (L : list (list token)) : Prop :=
  forall s open, before_case s open -> exists s', before_case s' open /\ steps s L s'.
Definition branches_ok (L : list (list token)) : Prop :=
  forall s open, before_mebbe s open -> exists s', before_mebbe s' open /\ steps s L s'.

Lemma derived_ok :
  (forall L n, d_stmt L n -> stmt_ok L) /\
  (forall L ns, d_block L ns -> forall open, steps (Fresh open) L (Begun open)) /\
  (forall L ns, d_stmts L ns -> stmts_ok L ns) /\
  (forall L x, d_omgs L x -> cases_ok L) /\
  (forall L x, d_default L x -> forall s open, before_case s open ->
     exists s', (before_case s' open \/ s' = Begun (FDefault :: open)) /\ steps s L s') /\
  (forall L x, d_ya_rly L x -> forall open, exists s', before_mebbe s' open /\ steps (IfHead open) L s') /\
  (forall L x, d_mebbes L x -> branches_ok L) /\
  (forall L x, d_no_wai L x -> forall s open, before_mebbe s open ->
     exists s', (before_mebbe s' open \/ s' = Begun (FElse :: open)) /\ steps s L s').
Proof.
  apply d_stmt_mut.
  - intros l n H s open Hs. apply steps_one. econstructor; eassumption.
  - intros t v H s open Hs. econstructor; [eapply step_hai; eassumption|]. apply steps_one. constructor.
  - intros t lb its it cs cond ls ns imo el H1 H2 H3 H4 _ IH H5 H6 s open Hs.
    econstructor; [eapply step_loop; eassumption|]. eapply steps_app; [apply IH|]. apply steps_one. constructor; assumption.
  - intros t ts i us ps ls ns e H1 H2 H3 _ IH H4 s open Hs.
    econstructor; [eapply step_function; eassumption|]. eapply steps_app; [apply IH|].
    econstructor; [apply step_function_end; assumption|]. apply steps_one. constructor.
  - intros t q ls omgs ms d e H1 H2 _ IH1 _ IH2 H3 s open Hs.
    econstructor; [eapply step_wtf; eassumption|]. destruct (IH1 _ _ (before_first_case open)) as (s1 & B1 & R1).
    destruct (IH2 _ _ B1) as (s2 & B2 & R2). eapply steps_app; [exact R1|]. eapply steps_app; [exact R2|].
    econstructor; [apply step_switch_end; [exact B2|assumption]|]. apply steps_one. constructor.
  - intros t q ls y ms mb ks no e H1 H2 _ IH1 _ IH2 _ IH3 H3 s open Hs.
    econstructor; [eapply step_o_rly; eassumption|]. destruct (IH1 open) as (s1 & B1 & R1).
    destruct (IH2 _ _ B1) as (s2 & B2 & R2). destruct (IH3 _ _ B2) as (s3 & B3 & R3).
    eapply steps_app; [exact R1|]. eapply steps_app; [exact R2|]. eapply steps_app; [exact R3|].
    apply steps_one. apply step_if_end; assumption.
  - intros ls ns _ IH Hn open. apply IH; [constructor|left; exact Hn].
  - intros ls ns _ IH open. econstructor; [constructor|]. apply IH; [constructor|right; reflexivity].
  - intros s open _ [H| ->]; [contradiction|constructor].
  - intros ls n ms ns _ IH1 _ IH2 s open Hs _. eapply steps_app; [apply IH1, Hs|]. apply IH2; [constructor|right; reflexivity].
  - intros s open Hs. exists s. split; [exact Hs|constructor].
  - intros t o ts e ls ns ms omgs H1 H2 _ IH1 _ IH2 s open Hs. destruct (IH2 _ _ (before_next_case open)) as (s' & B & R).
    exists s'. split; [exact B|]. econstructor; [eapply step_omg; eassumption|]. eapply steps_app; [apply IH1|exact R].
  - intros s open Hs. exists s. split; [left; exact Hs|constructor].
  - intros t ls ns H _ IH s open Hs. eexists. split; [right; reflexivity|]. econstructor; [eapply step_omgwtf; eassumption|apply IH].
  - intros open. exists (IfHead open). split; constructor.
  - intros t ls ns H _ IH open. eexists. split; [apply before_next_branch|]. econstructor; [apply step_ya_rly, H|apply IH].
  - intros s open Hs. exists s. split; [exact Hs|constructor].
  - intros t o ts e ls ns ms omgs H1 H2 _ IH1 _ IH2 s open Hs. destruct (IH2 _ _ (before_next_branch open)) as (s' & B & R).
    exists s'. split; [exact B|]. econstructor; [eapply step_mebbe; eassumption|]. eapply steps_app; [apply IH1|exact R].
  - intros s open Hs. exists s. split; [left; exact Hs|constructor].
  - intros t ls ns H _ IH s open Hs. eexists. split; [right; reflexivity|]. econstructor; [eapply step_no_wai; eassumption|apply IH].
Qed.

(** ** What is accepted is derived *)
(** What comes after the statements of the innermost block. *)
Fixpoint after (open : list frame) (X : list (list token)) : Prop :=
  let go_on open' X := exists L ns Y, X = L ++ Y /\ d_stmts L ns /\ after open' Y in
  match open with
  | [] => exists Y, X = [] :: Y
  | FLoop :: open' => exists t lb Y, X = [t; lb] :: Y /\ kw IM_OUTTA_YR t /\ ident_tok lb /\ go_on open' Y
  | FFunction :: open' => exists t Y, X = [t] :: [] :: Y /\ kw IF_U_SAY_SO t /\ go_on open' Y
  | FSwitch :: open' => exists M x D y t Y, X = M ++ D ++ [t] :: [] :: Y /\ d_omgs M x /\ d_default D y /\ kw OIC t /\ go_on open' Y
  | FDefault :: open' => exists t Y, X = [t] :: [] :: Y /\ kw OIC t /\ go_on open' Y
  | FIf :: open' => exists M x D y t Y, X = M ++ D ++ [t] :: Y /\ d_mebbes M x /\ d_no_wai D y /\ kw OIC t /\ go_on open' Y
  | FElse :: open' => exists t Y, X = [t] :: Y /\ kw OIC t /\ go_on open' Y
  end.
Definition go_on (open : list frame) (X : list (list token)) : Prop := exists L ns Y, X = L ++ Y /\ d_stmts L ns /\ after open Y.
Definition good (s : state) (X : list (list token)) : Prop :=
  match s with
  | Fresh open => exists L ns Y, X = L ++ Y /\ d_block L ns /\ after open Y
  | Begun open => go_on open X
  | NeedEmpty open => exists Y, X = [] :: Y /\ go_on open Y
  | SwitchHead open => after (FSwitch :: open) X
  | IfHead open => exists L x Y, X = L ++ Y /\ d_ya_rly L x /\ after (FIf :: open) Y
  | Ended => True
  end.
Lemma go_on_after open X : after open X -> go_on open X.
Proof. intros H. exists [], [], X. split; [reflexivity|]. split; [constructor|exact H]. Qed.
Lemma go_on_stmt open L n X : d_stmt L n -> go_on open X -> go_on open (L ++ X).
Proof.
  intros H (M & ns & Y & -> & HD & HA). exists (L ++ M), (n :: ns), Y. split; [apply app_assoc|]. split; [constructor; assumption|exact HA].
Qed.
Lemma good_stmt s open L n X : in_block s open -> d_stmt L n -> go_on open X -> good s (L ++ X).
Proof.
  intros Hs H K. destruct Hs as [open|open]; [|exact (go_on_stmt _ _ _ _ H K)].
  destruct K as (M & ns & Y & -> & HD & HA). exists (L ++ M), (n :: ns), Y. split; [apply app_assoc|]. split; [|exact HA].
  apply d_block_stmts; [constructor; assumption|discriminate].
Qed.
Lemma good_case s open X : before_case s open -> after (FSwitch :: open) X -> good s X.
Proof. intros [o|o] H; [exact H|apply go_on_after, H]. Qed.
Lemma good_branch s open X : before_mebbe s open -> after (FIf :: open) X -> good s X.
Proof.
  intros [o|o] H; [|apply go_on_after, H]. exists [], None, X. split; [reflexivity|]. split; [constructor|exact H].
Qed.
Lemma good_step s l s' X : step s l s' -> good s' X -> good s (l :: X).
Proof.
  intros H. destruct H as [s open l n Hs Hl|s open t v Hs Hk|s open t lb its it cs cond Hs H1 H2 H3 H4|s open t ts i us ps Hs H1 H2 H3
    |s open t q Hs H1 H2|s open t q Hs H1 H2|open|open| |l|open t lb H1 H2|open t H1|s open t o ts e Hs H1 H2|s open t Hs H1|s open t Hs H1
    |open t H1|s open t o ts e Hs H1 H2|s open t Hs H1|s open t Hs H1]; intros G; cbn [good] in G.
  - exact (good_stmt s open [l] n X Hs (d_single l n Hl) G).
  - destruct G as (Y & -> & G). exact (good_stmt s open [t :: v; []] _ Y Hs (d_hai t v Hk) G).
  - destruct G as (L & ns & Y & -> & HD & t' & lb' & Z & -> & K1 & K2 & K3).
    pose proof (good_stmt s open _ _ Z Hs (d_loop t lb its it cs cond L ns t' lb' H1 H2 H3 H4 HD K1 K2) K3) as R.
    cbn [app] in R. rewrite <- app_assoc in R. exact R.
  - destruct G as (L & ns & Y & -> & HD & t' & Z & -> & K1 & K3).
    pose proof (good_stmt s open _ _ Z Hs (d_function t ts i us ps L ns t' H1 H2 H3 HD K1) K3) as R.
    cbn [app] in R. rewrite <- app_assoc in R. exact R.
  - destruct G as (M & x & D & y & t' & Z & -> & K1 & K2 & K3 & K4).
    pose proof (good_stmt s open _ _ Z Hs (d_wtf t q M x D y t' H1 H2 K1 K2 K3) K4) as R.
    cbn [app] in R. rewrite <- !app_assoc in R. exact R.
  - destruct G as (N & z & W & -> & K0 & M & x & D & y & t' & Z & -> & K1 & K2 & K3 & K4).
    pose proof (good_stmt s open _ _ Z Hs (d_o_rly t q N z M x D y t' H1 H2 K0 K1 K2 K3) K4) as R.
    cbn [app] in R. rewrite <- !app_assoc in R. exact R.
  - destruct G as (L & ns & Y & -> & HD & HA). exists ([] :: L), ns, Y. split; [reflexivity|]. split; [apply d_block_empty_line, HD|exact HA].
  - exists X. auto.
  - apply go_on_after. exists X. reflexivity.
  - exact I.
  - apply go_on_after. exists t, lb, X. auto.
  - destruct G as (Y & -> & G). apply go_on_after. exists t, Y. auto.
  - destruct G as (L & ns & Y & -> & HD & M & x & D & y & t' & Z & -> & K1 & K2 & K3 & K4). apply (good_case s open); [exact Hs|].
    exists ((t :: ts) :: L ++ M), (WtfOmg t e (ASTBlock ns) :: x), D, y, t', Z. split; [cbn [app]; rewrite <- app_assoc; reflexivity|].
    split; [econstructor; eassumption|]. auto.
  - destruct G as (L & ns & Y & -> & HD & t' & Z & -> & K1 & K2). apply (good_case s open); [exact Hs|].
    exists [], [], ([t] :: L), (Some (WtfOmgWtf t (ASTBlock ns))), t', Z. split; [reflexivity|].
    split; [constructor|]. split; [constructor; assumption|]. auto.
  - destruct G as (Y & -> & G). destruct Hs as [Hs| ->].
    + apply (good_case s open); [exact Hs|]. exists [], [], [], None, t, Y. split; [reflexivity|]. split; [constructor|]. split; [constructor|]. auto.
    + apply go_on_after. exists t, Y. auto.
  - destruct G as (L & ns & Y & -> & HD & HA). exists ([t] :: L), (Some (YaRly t (ASTBlock ns))), Y. split; [reflexivity|].
    split; [constructor; assumption|exact HA].
  - destruct G as (L & ns & Y & -> & HD & M & x & D & y & t' & Z & -> & K1 & K2 & K3 & K4). apply (good_branch s open); [exact Hs|].
    exists ((t :: ts) :: L ++ M), (Mebbe t e (ASTBlock ns) :: x), D, y, t', Z. split; [cbn [app]; rewrite <- app_assoc; reflexivity|].
    split; [econstructor; eassumption|]. auto.
  - destruct G as (L & ns & Y & -> & HD & t' & Z & -> & K1 & K2). apply (good_branch s open); [exact Hs|].
    exists [], [], ([t] :: L), (Some (NoWai t (ASTBlock ns))), t', Z. split; [reflexivity|].
    split; [constructor|]. split; [constructor; assumption|]. auto.
  - destruct Hs as [Hs| ->].
    + apply (good_branch s open); [exact Hs|]. exists [], [], [], None, t, X. split; [reflexivity|]. split; [constructor|]. split; [constructor|]. auto.
    + apply go_on_after. exists t, X. auto.
Qed.
Lemma steps_good s X : steps s X Ended -> good s X.
Proof.
  intros H. remember Ended as s' eqn:E. induction H as [|s l s1 ls s2 H _ IH]; [subst; exact I|].
  eapply good_step; [exact H|apply IH, E].
Qed.

(** ** Programs *)
Lemma empties_complete k : forall s, steps s (repeat [] k) Ended -> complete s.
Proof.
  assert (N : forall (t : token) l, ~ (t :: l = [])) by discriminate.
  assert (D : forall n, ~ d_line [] n) by (intros n H; destruct (d_line_first _ _ H) as (t & us & E & _); discriminate E).
  induction k as [|k IH]; intros s H; cbn [repeat] in H.
  - inversion H; subst. exact I.
  - inversion H as [|? ? s1 ? ? H1 H2]; subst. specialize (IH _ H2).
    inversion H1; subst; try (exfalso; eapply D; eassumption); try exact I; cbn [complete] in IH |- *; destruct open; try exact I; contradiction.
Qed.
Lemma complete_empties s : complete s -> steps s (repeat [] 2) Ended \/ steps s (repeat [] 1) Ended \/ s = Ended.
Proof.
  destruct s as [[|f o]|[|f o]|[|f o]|o|o|]; cbn [complete]; try contradiction; intros _; [left|right; left|left|right; right; reflexivity];
    cbn [repeat]; repeat (econstructor; [constructor|]); constructor.
Qed.
Theorem checks_iff ls : (exists ns, d_program ls ns) <-> exists s, steps (Fresh []) ls s /\ complete s.
Proof.
  split.
  - intros (ns & k & L & rest & E & HD). pose proof (proj1 (proj2 derived_ok) L ns HD []) as R.
    assert (S : steps (Fresh []) (ls ++ repeat [] k) Ended).
    { rewrite E. eapply steps_app; [exact R|]. econstructor; [constructor|apply steps_ended]. }
    apply steps_split in S as (s & S1 & S2). exists s. split; [exact S1|exact (empties_complete _ _ S2)].
  - intros (s & S & C). assert (K : exists k, steps s (repeat [] k) Ended).
    { destruct (complete_empties s C) as [H|[H| ->]]; [eauto..|]. exists 0. constructor. }
    destruct K as (k & K). pose proof (steps_good _ _ (steps_app _ _ _ _ _ S K)) as (L & ns & Y & E & HD & (rest & ->)).
    exists ns, k, L, rest. auto.
Qed.

(** ** Closing *)
Lemma close_blocks_ok open : steps (Begun open) (close_blocks open) (Begun []).
Proof.
  assert (K : forall k, kw k (word k)) by reflexivity.
  assert (I0 : ident_tok some_label) by (eexists; reflexivity).
  induction open as [|[] open IH]; cbn [close_blocks]; [constructor|..].
  - econstructor; [apply step_loop_end; auto|exact IH].
  - econstructor; [apply step_function_end; auto|]. econstructor; [constructor|exact IH].
  - econstructor; [apply step_switch_end; [left; constructor|auto]|]. econstructor; [constructor|exact IH].
  - econstructor; [apply step_switch_end; [right; reflexivity|auto]|]. econstructor; [constructor|exact IH].
  - econstructor; [apply step_if_end; [left; constructor|auto]|exact IH].
  - econstructor; [apply step_if_end; [right; reflexivity|auto]|exact IH].
Qed.
Lemma closing_ok s : exists s', steps s (closing s) s' /\ complete s'.
Proof.
  assert (K : forall k, kw k (word k)) by reflexivity.
  destruct s as [[|f o]|o|o|o|o|]; cbn [closing].
  - exists (Fresh []). split; constructor.
  - exists (Begun []). split; [|exact I]. econstructor; [constructor|apply close_blocks_ok].
  - exists (Begun []). split; [apply close_blocks_ok|exact I].
  - exists (Begun []). split; [|exact I]. econstructor; [constructor|apply close_blocks_ok].
  - exists (Begun []). split; [|exact I]. econstructor; [apply step_switch_end; [left; constructor|auto]|]. econstructor; [constructor|apply close_blocks_ok].
  - exists (Begun []). split; [|exact I]. econstructor; [apply step_if_end; [left; constructor|auto]|apply close_blocks_ok].
  - exists Ended. split; constructor.
Qed.
Theorem beginning_iff ls : (exists s, steps (Fresh []) ls s) <-> exists ms ns, d_program (ls ++ ms) ns.
Proof.
  split.
  - intros (s & S). destruct (closing_ok s) as (s' & S' & C). exists (closing s). apply checks_iff. exists s'.
    split; [eapply steps_app; eassumption|exact C].
  - intros (ms & ns & H). destruct (proj1 (checks_iff (ls ++ ms)) (ex_intro _ ns H)) as (s & S & _).
    apply steps_split in S as (s' & S & _). eauto.
Qed.

(** ** One way only *)
Definition reserved (k : keyword) : bool :=
  match k with
  | HAI | IM_IN_YR | HOW_IZ_I | WTF | O_RLY | IM_OUTTA_YR | IF_U_SAY_SO | OMG | OMGWTF | OIC | YA_RLY | MEBBE | NO_WAI => true
  | _ => false
  end.
Lemma line_reserved k t c n : d_line (t :: c) n -> kw k t -> reserved k = true -> False.
Proof.
  intros H K R. pose proof (d_line_plain _ _ H) as (_ & P1 & _). destruct (d_line_not_closer _ _ H) as (t' & c' & E & P2). injection E as <- <-.
  unfold closer in P2. destruct k; try discriminate R; try (apply P2; tauto);
    apply P1; exists t, c; (split; [reflexivity|]); unfold block_start; tauto.
Qed.
Lemma line_empty n : d_line [] n -> False.
Proof. intros H. destruct (d_line_first _ _ H) as (t & us & E & _); discriminate E. Qed.

Ltac one_way :=
  try reflexivity; try discriminate;
  try (exfalso; match goal with
       | H : d_line [] _ |- _ => exact (line_empty _ H)
       | H : d_line (?t :: _) _, K : kw _ ?t |- _ => exact (line_reserved _ _ _ _ H K eq_refl)
       | H : kw _ ?t, K : kw _ ?t |- _ => pose proof (kw_fun _ _ _ H K) as X; discriminate X
       end).
Theorem step_fun s l s1 s2 : step s l s1 -> step s l s2 -> s1 = s2.
Proof.
  intros H K. destruct H; inversion K; subst; one_way;
    repeat match goal with
    | H : _ \/ _ |- _ => destruct H
    | H : in_block _ _ |- _ => inversion H; clear H; subst
    | H : before_case _ _ |- _ => inversion H; clear H; subst
    | H : before_mebbe _ _ |- _ => inversion H; clear H; subst
    end; one_way; try congruence.
Qed.
Theorem steps_fun ls : forall s s1 s2, steps s ls s1 -> steps s ls s2 -> s1 = s2.
Proof.
  induction ls as [|l ls IH]; intros s s1 s2 H K; inversion H; inversion K; subst; [reflexivity|].
  match goal with A : step s l ?x, B : step s l ?y |- _ => pose proof (step_fun _ _ _ _ A B); subst end. eapply IH; eassumption.
Qed.

(** ** Token vectors and sources *)
Theorem checked_tokens ts : (exists ns, parse ts = ParseOk (ASTBlock ns) /\ forallb node_clean ns = true) <->
  exists s, steps (Fresh []) (logical_lines ts) s /\ complete s.
Proof.
  rewrite <- checks_iff, parse_logical_lines. split; intros (ns & H); exists ns; apply program_iff, H.
Qed.

Theorem bad_line ls1 l s : steps (Fresh []) ls1 s -> (forall s', ~ step s l s') ->
  forall ts ls2, logical_lines ts = ls1 ++ l :: ls2 -> ~ exists ns, parse ts = ParseOk (ASTBlock ns) /\ forallb node_clean ns = true.
Proof.
  intros S N ts ls2 E H. apply checked_tokens in H as (s' & S' & _). rewrite E in S'. apply steps_split in S' as (s1 & S1 & S2).
  rewrite (steps_fun _ _ _ _ S1 S) in S2. inversion S2; subst. eapply N; eassumption.
Qed.

Definition text0 (t : token) : str := match tok_type t with TKeyword k => spelling k | TIdentifier i => i | _ => [] end.
Lemma closing_writable s : Forall (Forall (writable text0)) (closing s).
Proof.
  assert (K : forall k, ~ In k [BTW; OBTW; WIN; FAIL; NOOB; ANY_OF] -> writable text0 (word k)).
  { intros k H. split; [apply (writes_keyword k H)|]. repeat split; discriminate. }
  assert (X : writable text0 some_label).
  { split; [|repeat split; discriminate]. apply writes_identifier; [discriminate|repeat constructor; vm_compute; intuition congruence|].
    intros k (r & E). destruct k; discriminate E. }
  assert (C : forall open, Forall (Forall (writable text0)) (close_blocks open)).
  { induction open as [|[] open IH]; cbn [close_blocks];
      repeat first [exact IH|exact X|apply K; cbn; intuition congruence|constructor]. }
  destruct s as [[|f o]|o|o|o|o|]; cbn [closing];
    repeat first [apply C|apply K; cbn; intuition congruence|constructor].
Qed.
Lemma closing_lexes s : exists us, tokenize (closing_text s) = LexOk us /\ map (map tok_type) (statements us) = map (map tok_type) (closing s).
Proof.
  pose proof (closing_writable s) as W. pose proof (printed_program_lines text0 _ W) as P.
  assert (OK : Forall printed_ok (flat_map (print_line text0) (closing s))).
  { clear P. induction W as [|l ls H1 H IH]; [constructor|]. cbn [flat_map]. apply Forall_app. split; [apply print_line_ok, H1|exact IH]. }
  pose proof (agree_printed (flat_map (print_line text0) (closing s)) []) as A.
  exists (tokens_after [] (printed_pieces (flat_map (print_line text0) (closing s)))). split.
  - apply tokenize_ok_iff. eexists. split; [|reflexivity]. apply print_lexes, OK.
  - rewrite <- P, <- (agree_lines _ _ A). f_equal. unfold logical_lines. destruct (tokens_after _ _) as [|t ts] eqn:E; [reflexivity|].
    destruct (is_comma t) eqn:Ec; [exfalso|reflexivity]. destruct (flat_map (print_line text0) (closing s)) as [|x xs] eqn:Ex; [exact A|].
    cbn [agree] in A. destruct A as (A & _). destruct W as [|l ls H1 H]; [discriminate Ex|]. cbn [flat_map] in Ex.
    destruct (print_line_head text0 l (proj1 (Forall_forall _ _) H1)) as (y & ys & Ey & Hy). rewrite Ey in Ex. injection Ex as -> _.
    unfold is_comma in Ec. rewrite A in Ec. unfold comma_type in Hy. destruct (printed_type x); discriminate.
Qed.

Lemma whole_after s ts more us : whole_lines s ts -> ts <> [] -> tokenize more = LexOk us ->
  exists b, tokenize (s ++ more) = LexOk (ts ++ map (shift_token b) us) /\
    logical_lines (ts ++ map (shift_token b) us) = logical_lines ts ++ map (map (shift_token b)) (statements us).
Proof.
  intros [(_ & ->)|(s0 & -> & E & HF & HE)] Hn EM; [contradiction|]. eexists. rewrite <- app_assoc. cbn [app]. apply source_after; eassumption.
Qed.
Lemma whole_tokens s ts : whole_lines s ts -> tokenize s = LexOk ts.
Proof. intros [(-> & ->)|(s0 & _ & E & _)]; [reflexivity|exact E]. Qed.

Theorem closing_works s ts st : whole_lines s ts -> steps (Fresh []) (logical_lines ts) st ->
  exists ns, tokenize_and_parse (s ++ closing_text st) = ApiOk (ASTBlock ns) /\ forallb node_clean ns = true.
Proof.
  intros W S. destruct (closing_ok st) as (st' & S' & C).
  destruct (proj2 (checks_iff _) (ex_intro _ st' (conj (steps_app _ _ _ _ _ S S') C))) as (ns & D). apply program_iff in D as (DP & DC).
  destruct ts as [|t ts].
  - cbn [logical_lines] in S. inversion S; subst. change (closing_text (Fresh [])) with (@nil char). rewrite app_nil_r.
    exists []. split; [|reflexivity]. unfold tokenize_and_parse. rewrite (whole_tokens _ _ W). reflexivity.
  - destruct (closing_lexes st) as (us & EU & TU).
    destruct (whole_after s (t :: ts) _ us W ltac:(discriminate) EU) as (b & ET & EL).
    assert (Q : map_result erase (parse_logical (logical_lines ((t :: ts) ++ map (shift_token b) us))) =
                map_result erase (parse_logical (logical_lines (t :: ts) ++ closing st))).
    { apply same_types. rewrite EL, !map_app. f_equal. rewrite <- TU, map_map. apply map_ext. intros l. rewrite map_map. reflexivity. }
    rewrite DP in Q. unfold tokenize_and_parse. rewrite ET, parse_logical_lines.
    destruct (parse_logical (logical_lines ((t :: ts) ++ map (shift_token b) us))) as [[ns']| |]; try discriminate Q.
    exists ns'. split; [reflexivity|]. assert (E : map (map_node erase) ns' = map (map_node erase) ns) by (injection Q as Q; exact Q).
    rewrite <- (clean_map_all erase), E, clean_map_all. exact DC.
Qed.
Theorem sources_iff s ts : whole_lines s ts ->
  (exists st, steps (Fresh []) (logical_lines ts) st) <->
  exists more ns, tokenize_and_parse (s ++ more) = ApiOk (ASTBlock ns) /\ forallb node_clean ns = true.
Proof.
  intros W. split.
  - intros (st & S). exists (closing_text st). apply (closing_works s ts st W S).
  - intros (more & ns & HP & HC). destruct ts as [|t ts]; [eexists; constructor|].
    unfold tokenize_and_parse in HP. assert (EM : exists us, tokenize more = LexOk us).
    { destruct W as [(_ & X)|(s0 & -> & E & HF & _)]; [discriminate X|]. rewrite <- app_assoc in HP. cbn [app] in HP.
      rewrite (tokenize_compositional s0 newline more _ (or_intror eq_refl) E HF) in HP.
      destruct (tokenize more) as [us|[]| |]; cbn [shift_result] in HP; try discriminate HP. eauto. }
    destruct EM as (us & EM). destruct (whole_after s (t :: ts) _ us W ltac:(discriminate) EM) as (b & ET & EL).
    rewrite ET in HP. destruct (parse ((t :: ts) ++ map (shift_token b) us)) as [b0| |] eqn:EP; try discriminate HP. injection HP as ->.
    destruct (proj1 (checked_tokens _) (ex_intro _ ns (conj EP HC))) as (st & S & _). rewrite EL in S.
    apply steps_split in S as (st' & S & _). eauto.
Qed.
