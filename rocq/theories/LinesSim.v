(** The statement iterator runs through the logical lines, and the parser
    cannot tell it from the machine over lines. *)
From Coq Require Import ZifyBool.
From Verif Require Import Lines.
Local Open Scope Z_scope.

(** ** Cutting in statements *)

Lemma chunks_head u ts : exists g' gs, chunks (u :: ts) = (u :: g') :: gs.
Proof. cbn [chunks]. destruct (chunks ts) as [|[|v g] gs]; [eauto..|]. destruct (joined u v); eauto. Qed.

Lemma chunks_cons t u ts : exists g gs, chunks (u :: ts) = g :: gs /\ (exists g', g = u :: g') /\
  chunks (t :: u :: ts) = if joined t u then (t :: g) :: gs else [t] :: g :: gs.
Proof.
  destruct (chunks_head u ts) as (g' & gs & E). exists (u :: g'), gs. split; [assumption|]. split; [eauto|].
  change (chunks (t :: u :: ts)) with
    (match chunks (u :: ts) with
     | (u :: g) :: gs => if joined t u then (t :: u :: g) :: gs else [t] :: (u :: g) :: gs | _ => [[t]] end).
  rewrite E. reflexivity.
Qed.

Lemma statements_comma t ts : is_comma t = true -> statements (t :: ts) = statements ts.
Proof.
  intros Hc. unfold statements. destruct ts as [|u ts].
  - cbn [chunks filter existsb]. rewrite Hc. reflexivity.
  - destruct (chunks_cons t u ts) as (g & gs & E & _ & ->). rewrite E.
    unfold joined. rewrite Hc. cbn [negb andb filter existsb orb]. rewrite Hc. reflexivity.
Qed.

Lemma statements_skip ts : statements (skip_commas ts) = statements ts.
Proof.
  induction ts as [|t ts IH]; [reflexivity|]. cbn [skip_commas]. destruct (is_comma t) eqn:Hc; [|reflexivity].
  rewrite IH. symmetry. apply statements_comma. assumption.
Qed.

Lemma skip_head ts : match skip_commas ts with t :: _ => is_comma t = false | [] => True end.
Proof. induction ts as [|t ts IH]; cbn; [exact I|]. destruct (is_comma t) eqn:E; auto. Qed.

(** The remaining tokens of the current statement and the statements after it. *)
Definition view (ts : list token) (cur : Z) : lstate :=
  let '(l, r, _) := collect_tokens ts cur in (l, statements r).

Definition push (t : token) (s : list token * list (list token)) : list (list token) :=
  (t :: fst s) :: snd s.

Lemma comma_not_ellipsis t : is_ellipsis t = true -> is_comma t = false.
Proof. unfold is_ellipsis, is_comma. destruct (tok_type t); congruence. Qed.

Lemma chunks_no_comma ts : Forall (fun g => existsb is_comma g = false \/ exists t, g = [t] /\ is_comma t = true) (chunks ts).
Proof.
  induction ts as [|t ts IH]; [constructor|].
  destruct ts as [|u ts].
  - constructor; [|constructor]. cbn. destruct (is_comma t) eqn:E; [right; eauto|left; reflexivity].
  - destruct (chunks_cons t u ts) as (g & gs & E & (g' & Hg) & ->). rewrite E in IH.
    inversion IH as [|? ? H1 H2]; subst. destruct (joined t u) eqn:J.
    + constructor; [|assumption]. left. unfold joined in J.
      apply andb_prop in J as [J _]. apply andb_prop in J as [J1 J2].
      destruct H1 as [H1|(x & Hx & Hxc)].
      * cbn [existsb] in *. rewrite H1. destruct (is_comma t); [discriminate J1|reflexivity].
      * injection Hx as -> ->. rewrite Hxc in J2. discriminate J2.
    + constructor; [|constructor; assumption]. cbn. destruct (is_comma t) eqn:Ec; [right; eauto|left; reflexivity].
Qed.

(** A statement starts at every token that is not a comma. *)
Lemma view_start ts : match ts with t :: _ => is_comma t = false | [] => True end ->
  forall cur, view ts (line_of_next ts cur) = l_start (statements ts).
Proof.
  induction ts as [|t ts IH]; intros Hc cur; [reflexivity|].
  cbn [line_of_next]. unfold view. cbn [collect_tokens]. rewrite Hc.
  assert (Heq : (start_line (tok_range t) =? start_line (tok_range t)) = true) by lia. rewrite Heq.
  rewrite andb_true_r.
  assert (Hrec : forall c, (is_ellipsis t = true -> c = line_of_next ts (tok_line t)) ->
                 (is_ellipsis t = false -> c = tok_line t) ->
     l_start (statements (t :: ts)) =
     (let '(l, r, _) := collect_tokens ts c in ((if is_ellipsis t then l else t :: l), statements r))).
  { intros c Hc1 Hc2. destruct ts as [|u ts].
    - unfold statements. cbn. rewrite Hc. cbn. destruct (is_ellipsis t); reflexivity.
    - destruct (chunks_cons t u ts) as (g & gs & E & (g' & Hg) & E').
      pose proof (chunks_no_comma (u :: ts)) as HN. rewrite E in HN. inversion HN as [|? ? H1 H2]; subst.
      destruct (is_comma u) eqn:Hcu.
      + assert (J : joined t u = false) by (unfold joined; rewrite Hc, Hcu; reflexivity).
        rewrite J in E'. cbn [collect_tokens]. rewrite Hcu. cbv iota.
        unfold statements. rewrite E', E. cbn [filter existsb]. rewrite Hc. cbn [orb negb map filter l_start].
        destruct (is_ellipsis t); reflexivity.
      + assert (HI : view (u :: ts) (tok_line u) = l_start (statements (u :: ts)))
          by exact (IH eq_refl 0).
        destruct (is_ellipsis t) eqn:Het.
        * rewrite Hc1 by reflexivity. cbn [line_of_next]. change (start_line (tok_range u)) with (tok_line u).
          assert (J : joined t u = true) by (unfold joined; rewrite Hc, Hcu, Het; reflexivity).
          rewrite J in E'. unfold view in HI. destruct (collect_tokens (u :: ts) (tok_line u)) as [[l r] c'].
          rewrite HI. unfold statements. rewrite E', E.
          destruct H1 as [H1|(x & Hx & Hxc)].
          2:{ injection Hx as -> ->. congruence. }
          cbn [filter]. change (existsb is_comma (t :: u :: g')) with (is_comma t || existsb is_comma (u :: g'))%bool.
          rewrite Hc, H1. cbn [orb negb map l_start]. f_equal. cbn [filter]. rewrite Het. reflexivity.
        * rewrite Hc2 by reflexivity.
          destruct H1 as [H1|(x & Hx & Hxc)].
          2:{ injection Hx as -> ->. congruence. }
          destruct (tok_line t =? tok_line u) eqn:Hl.
          -- assert (J : joined t u = true) by (unfold joined; rewrite Hc, Hcu, Hl, orb_true_r; reflexivity).
             rewrite J in E'. apply Z.eqb_eq in Hl. rewrite Hl.
             unfold view in HI. destruct (collect_tokens (u :: ts) (tok_line u)) as [[l r] c'].
             unfold statements in *. rewrite E', E in *.
             cbn [filter] in *. change (existsb is_comma (t :: u :: g')) with (is_comma t || existsb is_comma (u :: g'))%bool.
             rewrite H1 in *. rewrite Hc. cbn [orb negb map l_start] in *. injection HI as -> HI.
             rewrite HI. f_equal. cbn [filter]. rewrite Het. reflexivity.
          -- assert (J : joined t u = false) by (unfold joined; rewrite Het, Hl; apply andb_false_r).
             rewrite J in E'. cbn [collect_tokens]. rewrite Hcu.
             change (start_line (tok_range u)) with (tok_line u).
             assert (Hl' : (tok_line u =? tok_line t) = false) by lia. rewrite Hl', andb_false_r.
             unfold statements. rewrite E', E. cbn [filter]. cbn [existsb]. rewrite Hc.
             change (is_comma u || existsb is_comma g')%bool with (existsb is_comma (u :: g')). rewrite H1.
             cbn [orb negb map l_start]. cbn [filter]. rewrite Het. reflexivity. }
  destruct (is_ellipsis t) eqn:Het.
  - rewrite (Hrec _ (fun _ => eq_refl) ltac:(discriminate)).
    change (start_line (tok_range t)) with (tok_line t).
    destruct (collect_tokens ts _) as [[l r] c]. reflexivity.
  - rewrite (Hrec _ ltac:(discriminate) (fun _ => eq_refl)).
    change (start_line (tok_range t)) with (tok_line t).
    destruct (collect_tokens ts _) as [[l r] c]. reflexivity.
Qed.

(** ** The iterator and the machine over lines *)

Definition IterRel (it : stmt_iter) (s : lstate) : Prop :=
  match peeked it with
  | None => s = view (tokens_iter it) (current_line it)
  | Some None =>
    s = ([], statements (tokens_iter it)) /\
    collect_tokens (tokens_iter it) (current_line it) = ([], tokens_iter it, current_line it)
  | Some (Some t) =>
    fst s = t :: fst (view (tokens_iter it) (current_line it)) /\
    snd s = snd (view (tokens_iter it) (current_line it))
  end.

Lemma advance_view ts : forall cur o ts' cur', advance ts cur = (o, ts', cur') ->
  match o with
  | Some t => fst (view ts cur) = t :: fst (view ts' cur') /\ snd (view ts cur) = snd (view ts' cur')
  | None => view ts cur = ([], statements ts') /\ collect_tokens ts' cur' = ([], ts', cur')
  end.
Proof.
  induction ts as [|t ts IH]; intros cur o ts' cur' E; cbn [advance] in E.
  - injection E as <- <- <-. auto.
  - destruct (is_comma t) eqn:Hc.
    + injection E as <- <- <-. unfold view. cbn [collect_tokens]. rewrite Hc. auto.
    + destruct (is_ellipsis t && (start_line (tok_range t) =? cur))%bool eqn:He.
      * assert (Hv : view (t :: ts) cur = view ts (line_of_next ts cur)).
        { unfold view. cbn [collect_tokens]. rewrite Hc, He. reflexivity. }
        rewrite Hv. apply IH. assumption.
      * destruct (start_line (tok_range t) =? cur) eqn:Hl.
        -- injection E as <- <- <-. unfold view. cbn [collect_tokens]. rewrite Hc, Hl, He.
           destruct (collect_tokens ts cur) as [[l r] c]. auto.
        -- injection E as <- <- <-. unfold view. cbn [collect_tokens]. rewrite Hc, Hl, He. auto.
Qed.

Lemma R_init ts : IterRel (iter_new ts) (l_start (logical_lines ts)).
Proof.
  unfold IterRel, iter_new. cbn [peeked tokens_iter current_line].
  destruct ts as [|t ts]; [reflexivity|].
  unfold logical_lines. destruct (is_comma t) eqn:Hc.
  - unfold view. cbn [collect_tokens]. rewrite Hc. reflexivity.
  - symmetry. apply (view_start (t :: ts) Hc 0).
Qed.

Lemma lstate_eq (s s' : lstate) : fst s = fst s' -> snd s = snd s' -> s = s'.
Proof. destruct s, s'. cbn. congruence. Qed.

Lemma R_next it s : IterRel it s ->
  fst (iter_next it) = fst (l_next s) /\ IterRel (snd (iter_next it)) (snd (l_next s)).
Proof.
  destruct it as [ts cur pk]. unfold IterRel, iter_next. cbn [peeked tokens_iter current_line].
  destruct pk as [[t|]|].
  - intros [H1 H2]. destruct s as [c ls]. cbn [fst snd] in *. subst c ls. cbn [l_next fst snd].
    split; [reflexivity|]. cbn [peeked tokens_iter current_line]. destruct (view ts cur). reflexivity.
  - intros [-> H]. cbn. split; [reflexivity|]. unfold view. rewrite H. reflexivity.
  - intros ->. destruct (advance ts cur) as [[o ts'] cur'] eqn:E.
    apply advance_view in E. cbn [fst snd peeked tokens_iter current_line]. destruct o as [t|].
    + destruct E as [H1 H2]. destruct (view ts cur) as [c ls]. cbn [fst snd] in *. subst.
      cbn [l_next fst snd]. split; [reflexivity|]. destruct (view ts' cur'); reflexivity.
    + destruct E as [H1 H2]. rewrite H1. cbn. split; [reflexivity|]. unfold view. rewrite H2. reflexivity.
Qed.

Lemma R_peek it s : IterRel it s ->
  fst (iter_peek it) = fst (l_peek s) /\ IterRel (snd (iter_peek it)) (snd (l_peek s)).
Proof.
  destruct it as [ts cur pk]. unfold iter_peek. destruct pk as [o|].
  - intros HR. cbn [peeked fst snd]. pose proof HR as HR'. unfold IterRel in HR. cbn [peeked tokens_iter current_line] in HR.
    destruct o as [t|]; destruct HR as [H1 H2]; destruct s as [c ls]; cbn [fst snd] in *.
    + subst c. cbn [l_peek fst snd]. auto.
    + injection H1 as -> ->. cbn [l_peek fst snd]. auto.
  - intros HR. cbn [peeked].
    unfold IterRel in HR. cbn [peeked tokens_iter current_line] in HR. subst s.
    unfold iter_next. cbn [peeked tokens_iter current_line].
    destruct (advance ts cur) as [[o ts'] cur'] eqn:E. apply advance_view in E.
    unfold IterRel. cbn [peeked tokens_iter current_line fst snd]. destruct o as [t|]; destruct E as [H1 H2].
    + destruct (view ts cur) as [c ls]. cbn [fst snd] in *. subst. cbn. auto.
    + rewrite H1. cbn. auto.
Qed.

Lemma R_next_statement it s : IterRel it s ->
  fst (iter_next_statement it) = fst (l_next_statement s) /\
  IterRel (snd (iter_next_statement it)) (snd (l_next_statement s)).
Proof.
  intros HR.
  assert (H : fst (iter_collect it) = fst s /\ snd s = statements (tokens_iter (snd (iter_collect it)))).
  { destruct it as [ts cur pk]. unfold iter_collect, IterRel, view in *. cbn [peeked tokens_iter current_line] in *.
    destruct (collect_tokens ts cur) as [[l r] c]. destruct pk as [[t|]|].
    - destruct HR as [H1 H2]. cbn in *. auto.
    - destruct HR as [-> H]. cbn in *. auto.
    - subst s. cbn. auto. }
  unfold iter_next_statement, l_next_statement. destruct (iter_collect it) as [l it1].
  cbn [fst snd] in *. destruct H as [-> ->]. split; [reflexivity|].
  unfold IterRel. cbn [peeked tokens_iter current_line].
  rewrite <- (statements_skip (tokens_iter it1)). symmetry.
  apply view_start. apply skip_head.
Qed.

(** ** The parser cannot tell the two machines apart *)

Section Simulation.

Context {S1 S2 : Type}.
Variable next1 : S1 -> option token * S1.
Variable peek1 : S1 -> option token * S1.
Variable next_statement1 : S1 -> list token * S1.
Variable next2 : S2 -> option token * S2.
Variable peek2 : S2 -> option token * S2.
Variable next_statement2 : S2 -> list token * S2.
Variable Rel : S1 -> S2 -> Prop.
Hypothesis Hnext : forall s1 s2, Rel s1 s2 ->
  fst (next1 s1) = fst (next2 s2) /\ Rel (snd (next1 s1)) (snd (next2 s2)).
Hypothesis Hpeek : forall s1 s2, Rel s1 s2 ->
  fst (peek1 s1) = fst (peek2 s2) /\ Rel (snd (peek1 s1)) (snd (peek2 s2)).
Hypothesis Hstatement : forall s1 s2, Rel s1 s2 ->
  fst (next_statement1 s1) = fst (next_statement2 s2) /\
  Rel (snd (next_statement1 s1)) (snd (next_statement2 s2)).

Definition res_rel {A} (r1 : res S1 A) (r2 : res S2 A) : Prop :=
  match r1, r2 with
  | ROk a s1, ROk b s2 => a = b /\ Rel s1 s2
  | RErr a s1, RErr b s2 => a = b /\ Rel s1 s2
  | RPanic a, RPanic b => a = b
  | RFuel, RFuel => True
  | _, _ => False
  end.
Definition sim {A} (m1 : S1 -> res S1 A) (m2 : S2 -> res S2 A) : Prop :=
  forall s1 s2, Rel s1 s2 -> res_rel (m1 s1) (m2 s2).

Lemma sim_bind {A B} m1 m2 (k1 : A -> S1 -> res S1 B) k2 :
  sim m1 m2 -> (forall a, sim (k1 a) (k2 a)) -> sim (bind m1 k1) (bind m2 k2).
Proof.
  intros Hm Hk s1 s2 Hs. unfold bind. specialize (Hm s1 s2 Hs).
  destruct (m1 s1), (m2 s2); cbn [res_rel] in *; try contradiction; auto.
  destruct Hm as [<- Hs']. apply Hk. assumption.
Qed.
Lemma sim_ret {A} (a : A) : sim (ret a) (ret a).
Proof. intros s1 s2 Hs. cbn. auto. Qed.
Lemma sim_fail {A} e : sim (@fail S1 A e) (@fail S2 A e).
Proof. intros s1 s2 Hs. cbn. auto. Qed.
Lemma sim_panic {A} c : sim (@panic S1 A c) (@panic S2 A c).
Proof. intros s1 s2 Hs. cbn. auto. Qed.
Lemma sim_fuel {A} : sim (@out_of_fuel S1 A) (@out_of_fuel S2 A).
Proof. intros s1 s2 Hs. exact I. Qed.
Lemma sim_next : sim (next next1) (next next2).
Proof.
  intros s1 s2 Hs. unfold next. destruct (Hnext _ _ Hs) as [H1 H2].
  destruct (next1 s1), (next2 s2). cbn in *. auto.
Qed.
Lemma sim_peek : sim (peek peek1) (peek peek2).
Proof.
  intros s1 s2 Hs. unfold peek. destruct (Hpeek _ _ Hs) as [H1 H2].
  destruct (peek1 s1), (peek2 s2). cbn in *. auto.
Qed.
Lemma sim_next_statement : sim (next_statement next_statement1) (next_statement next_statement2).
Proof.
  intros s1 s2 Hs. unfold next_statement. destruct (Hstatement _ _ Hs) as [H1 H2].
  destruct (next_statement1 s1), (next_statement2 s2). cbn in *. auto.
Qed.

Create HintDb sim.
Hint Resolve sim_ret sim_fail sim_panic sim_fuel sim_next sim_peek sim_next_statement : sim.

Ltac simstep :=
  match goal with
  | |- sim (bind _ _) (bind _ _) => apply sim_bind; [|intros ?]
  | |- sim (match ?x with _ => _ end) _ => destruct x
  | _ => auto with sim; fail
  end.
Ltac simt := repeat simstep.

Lemma sim_next_if f : sim (next_if next1 peek1 f) (next_if next2 peek2 f).
Proof. unfold next_if. simt. Qed.
Hint Resolve sim_next_if : sim.
Lemma sim_should_be_empty :
  sim (next_statement_should_be_empty next_statement1) (next_statement_should_be_empty next_statement2).
Proof. unfold next_statement_should_be_empty. simt. Qed.
Hint Resolve sim_should_be_empty : sim.
Lemma sim_identifier t : sim (identifier_parse next1 t) (identifier_parse next2 t).
Proof. unfold identifier_parse. destruct (tok_type t) as [|k| | | | | | | | |]; try destruct k; simt. Qed.
Hint Resolve sim_identifier : sim.
Lemma sim_accesses f : sim (accesses_loop next1 peek1 f) (accesses_loop next2 peek2 f).
Proof. induction f as [|f IH]; cbn [accesses_loop]; simt. Qed.
Hint Resolve sim_accesses : sim.
Lemma sim_va f t : sim (va_parse next1 peek1 f t) (va_parse next2 peek2 f t).
Proof. unfold va_parse. simt. Qed.
Hint Resolve sim_va : sim.

Section Exprs.
Variables (pe1 : token -> S1 -> res S1 expr) (pe2 : token -> S2 -> res S2 expr).
Hypothesis Hpe : forall t, sim (pe1 t) (pe2 t).
Hint Resolve Hpe : sim.
Lemma sim_binary op : sim (binary_parse next1 peek1 pe1 op) (binary_parse next2 peek2 pe2 op).
Proof. unfold binary_parse. simt. Qed.
Lemma sim_unary op : sim (unary_parse next1 pe1 op) (unary_parse next2 pe2 op).
Proof. unfold unary_parse. simt. Qed.
Lemma sim_nary_loop f : sim (nary_loop next1 peek1 pe1 f) (nary_loop next2 peek2 pe2 f).
Proof. induction f as [|f IH]; cbn [nary_loop]; simt. Qed.
Hint Resolve sim_nary_loop : sim.
Lemma sim_nary f op : sim (nary_parse next1 peek1 pe1 f op) (nary_parse next2 peek2 pe2 f op).
Proof. unfold nary_parse. simt. Qed.
Lemma sim_visible_loop f : sim (visible_loop next1 peek1 pe1 f) (visible_loop next2 peek2 pe2 f).
Proof. induction f as [|f IH]; cbn [visible_loop]; simt. Qed.
Lemma sim_i_iz_loop f : sim (i_iz_loop next1 peek1 pe1 f) (i_iz_loop next2 peek2 pe2 f).
Proof. induction f as [|f IH]; cbn [i_iz_loop]; simt. Qed.
End Exprs.
Hint Resolve sim_binary sim_unary sim_nary sim_visible_loop sim_i_iz_loop : sim.

Lemma sim_expr f : forall t, sim (expr_parse next1 peek1 f t) (expr_parse next2 peek2 f t).
Proof.
  induction f as [|f IH]; intro t; cbn [expr_parse]; simt.
Qed.
Hint Resolve sim_expr : sim.

Lemma sim_assignment f v : sim (assignment_parse next1 peek1 f v) (assignment_parse next2 peek2 f v).
Proof. unfold assignment_parse. simt. Qed.
Lemma sim_set_slot f v : sim (bukkit_set_slot_parse next1 peek1 f v) (bukkit_set_slot_parse next2 peek2 f v).
Proof. unfold bukkit_set_slot_parse. simt. Qed.
Lemma sim_i_has_a f t : sim (i_has_a_parse next1 peek1 f t) (i_has_a_parse next2 peek2 f t).
Proof. unfold i_has_a_parse. simt. Qed.
Lemma sim_visible f t : sim (visible_parse next1 peek1 f t) (visible_parse next2 peek2 f t).
Proof. unfold visible_parse. simt. Qed.
Lemma sim_gimmeh f t : sim (gimmeh_parse next1 peek1 f t) (gimmeh_parse next2 peek2 f t).
Proof. unfold gimmeh_parse. simt. Qed.
Lemma sim_found_yr f t : sim (found_yr_parse next1 peek1 f t) (found_yr_parse next2 peek2 f t).
Proof. unfold found_yr_parse. simt. Qed.
Lemma sim_hai t : sim (hai_parse next_statement1 t) (hai_parse next_statement2 t).
Proof. unfold hai_parse. simt. Qed.
Lemma sim_i_iz f t : sim (i_iz_parse next1 peek1 f t) (i_iz_parse next2 peek2 f t).
Proof. unfold i_iz_parse. simt. Qed.
Hint Resolve sim_assignment sim_set_slot sim_i_has_a sim_visible sim_gimmeh sim_found_yr sim_hai sim_i_iz : sim.

Lemma sim_catch m1 m2 : sim m1 m2 -> sim (catch m1) (catch m2).
Proof.
  intros H s1 s2 Hs. unfold catch. specialize (H _ _ Hs).
  destruct (m1 s1), (m2 s2); cbn [res_rel] in *; try contradiction; auto.
  destruct H as [-> H]. auto.
Qed.
Hint Resolve sim_catch : sim.
Lemma sim_end_of_statement : sim (end_of_statement next_statement1) (end_of_statement next_statement2).
Proof.
  intros s1 s2 Hs. unfold end_of_statement. pose proof (sim_should_be_empty _ _ Hs) as H.
  destruct (next_statement_should_be_empty next_statement1 s1), (next_statement_should_be_empty next_statement2 s2);
    cbn [res_rel] in *; try contradiction; auto; destruct H as [-> H]; auto.
Qed.
Hint Resolve sim_end_of_statement : sim.

Lemma sim_block ps1 ps2 stop f : (forall t, sim (ps1 t) (ps2 t)) ->
  sim (parse_block next1 peek1 next_statement1 ps1 stop f) (parse_block next2 peek2 next_statement2 ps2 stop f).
Proof. intros Hps. induction f as [|f IH]; cbn [parse_block]; simt. Qed.

Section Blocks.
Variables (pb1 : (token -> bool) -> S1 -> res S1 (list node)) (pb2 : (token -> bool) -> S2 -> res S2 (list node)).
Hypothesis Hpb : forall stop, sim (pb1 stop) (pb2 stop).
Hint Resolve Hpb : sim.
Lemma sim_block_of stop : sim (block_of (pb1 stop)) (block_of (pb2 stop)).
Proof. unfold block_of. simt. Qed.
Hint Resolve sim_block_of : sim.
Lemma sim_iteration f : sim (iteration_operation_parse next1 peek1 f) (iteration_operation_parse next2 peek2 f).
Proof. unfold iteration_operation_parse. simt. Qed.
Lemma sim_conditional f : sim (conditional_parse next1 peek1 f) (conditional_parse next2 peek2 f).
Proof. unfold conditional_parse. simt. Qed.
Hint Resolve sim_iteration sim_conditional : sim.
Lemma sim_im_in_yr f t : sim (im_in_yr_parse next1 peek1 next_statement1 pb1 f t) (im_in_yr_parse next2 peek2 next_statement2 pb2 f t).
Proof. unfold im_in_yr_parse. simt. Qed.
Lemma sim_how_iz_i_loop f : sim (how_iz_i_loop next1 peek1 f) (how_iz_i_loop next2 peek2 f).
Proof. induction f as [|f IH]; cbn [how_iz_i_loop]; simt. Qed.
Hint Resolve sim_how_iz_i_loop : sim.
Lemma sim_how_iz_i f t : sim (how_iz_i_parse next1 peek1 next_statement1 pb1 f t) (how_iz_i_parse next2 peek2 next_statement2 pb2 f t).
Proof. unfold how_iz_i_parse. simt. Qed.
Lemma sim_question t : sim (question_mark next1 t) (question_mark next2 t).
Proof. unfold question_mark. simt. Qed.
Lemma sim_oic t : sim (oic next1 t) (oic next2 t).
Proof. unfold oic. simt. Qed.
Hint Resolve sim_question sim_oic : sim.
Lemma sim_omg_loop pe1 pe2 f : (forall t, sim (pe1 t) (pe2 t)) ->
  sim (omg_loop next1 peek1 next_statement1 pb1 pe1 f) (omg_loop next2 peek2 next_statement2 pb2 pe2 f).
Proof. intros Hpe. induction f as [|f IH]; cbn [omg_loop]; simt. Qed.
Lemma sim_mebbe_loop pe1 pe2 f : (forall t, sim (pe1 t) (pe2 t)) ->
  sim (mebbe_loop next1 peek1 next_statement1 pb1 pe1 f) (mebbe_loop next2 peek2 next_statement2 pb2 pe2 f).
Proof. intros Hpe. induction f as [|f IH]; cbn [mebbe_loop]; simt. Qed.
Hint Resolve sim_omg_loop sim_mebbe_loop : sim.
Lemma sim_wtf f t : sim (wtf_parse next1 peek1 next_statement1 pb1 f t) (wtf_parse next2 peek2 next_statement2 pb2 f t).
Proof. unfold wtf_parse. simt. Qed.
Lemma sim_o_rly f t : sim (o_rly_parse next1 peek1 next_statement1 pb1 f t) (o_rly_parse next2 peek2 next_statement2 pb2 f t).
Proof. unfold o_rly_parse. simt. Qed.
End Blocks.
Hint Resolve sim_block sim_block_of sim_im_in_yr sim_how_iz_i sim_wtf sim_o_rly : sim.

Lemma sim_as_node {A} (g : A -> node) m1 m2 : sim m1 m2 -> sim (as_node g m1) (as_node g m2).
Proof. intros H. unfold as_node. simt. Qed.
Hint Resolve sim_as_node : sim.
Lemma sim_va_statement f t : sim (va_statement next1 peek1 f t) (va_statement next2 peek2 f t).
Proof. unfold va_statement. simt. Qed.
Hint Resolve sim_va_statement : sim.
Lemma sim_statement f : forall t,
  sim (parse_statement next1 peek1 next_statement1 f t) (parse_statement next2 peek2 next_statement2 f t).
Proof.
  induction f as [|f IH]; intro t; cbn [parse_statement]; [auto with sim|].
  destruct (va_is_valid t); [auto with sim|].
  destruct (tok_type t) as [|k| | | | | | | | |]; try destruct k; auto 10 with sim.
Qed.
Lemma sim_root f :
  sim (parse_block_root next1 peek1 next_statement1 f) (parse_block_root next2 peek2 next_statement2 f).
Proof. unfold parse_block_root, block_of. pose proof (sim_statement f). simt. Qed.

End Simulation.

Theorem parse_is_parse_lines ts :
  parse ts = parse_lines (parse_fuel (length ts)) (logical_lines ts).
Proof.
  unfold parse, parse_lines.
  pose proof (sim_root _ _ _ _ _ _ IterRel R_next R_peek R_next_statement (parse_fuel (length ts)) _ _ (R_init ts)) as H.
  destruct (parse_block_root iter_next _ _ _ _), (parse_block_root l_next _ _ _ _);
    cbn [res_rel result_of] in *; try contradiction; try reflexivity; [destruct H as [-> _]|subst]; reflexivity.
Qed.
