(** The first [7 n + 3] iterator calls decide what the parser does with [n] tokens,
    also if it panics.  The lemmas are those of CostProofs.v for two runs: one
    with the limit and one without. *)
From Coq Require Import Lia.
From Verif Require Import Lines LinesSim ParseFuel CostLimit CostProofs.

Section Limit.
Variable limit : nat.
Variables any_next any_peek : option token.
Variable any_stat : list token.
Definition x_next : cstate -> option token * cstate := limited limit any_next n_next.
Definition x_peek : cstate -> option token * cstate := limited limit any_peek n_peek.
Definition x_stat : cstate -> list token * cstate := limited limit any_stat n_stat.

(** Both runs have the same result and pay for it, if [p] is within the limit. *)
Definition both {A} (p : nat) (r' r : res cstate A) : Prop := p <= limit -> r' = r /\ pays p r.

Lemma both_le {A} p p' (r' r : res cstate A) : both p r' r -> p <= p' -> both p' r' r.
Proof. intros H Hp Hl. destruct (H ltac:(lia)) as [E P]. split; [exact E|]. eapply pays_le; eassumption. Qed.
Lemma both_bind {A B} p q (m' m : cstate -> res cstate A) (k' k : A -> cstate -> res cstate B) s :
  both q (m' s) (m s) -> q <= p -> (forall a s', pot s' <= q -> both p (k' a s') (k a s')) -> both p (bind m' k' s) (bind m k s).
Proof.
  intros Hm Hq Hk Hl. unfold bind. destruct (Hm ltac:(lia)) as [-> P]. destruct (m s) as [a s'|e s'|c|]; cbn [pays] in *; auto.
  - apply Hk; assumption.
  - split; [reflexivity|lia].
Qed.
Lemma both_ret {A} p (a : A) s : pot s <= p -> both p (ret a s) (ret a s).
Proof. intros H _. split; [reflexivity|exact H]. Qed.
Lemma both_fail {A} p e s : pot s <= p -> both (A := A) p (fail e s) (fail e s).
Proof. intros H _. split; [reflexivity|exact H]. Qed.
Lemma both_panic {A} p c s : both (A := A) p (panic c s) (panic c s).
Proof. intros _. split; [reflexivity|exact I]. Qed.
Lemma both_fuel {A} p s : both (A := A) p (out_of_fuel s) (out_of_fuel s).
Proof. intros _. split; [reflexivity|exact I]. Qed.

Lemma limited_eq {A} any (op : cstate -> A * cstate) s : fst s < limit -> limited limit any op s = op s.
Proof. intros H. unfold limited. apply Nat.ltb_lt in H. rewrite H. reflexivity. Qed.

Lemma both_next_full {A} p (k' k : option token -> cstate -> res cstate A) s : pot s <= p ->
  (forall t s', pot s' + 6 = pot s -> fst (snd s) <> [] -> both p (k' (Some t) s') (k (Some t) s')) ->
  (fst (snd s) = [] -> pot s + 1 <= p /\ forall s', pot s' = pot s + 1 -> both p (k' None s') (k None s')) ->
  both p (bind (next x_next) k' s) (bind (next n_next) k s).
Proof.
  intros Hp H1 H2 Hl. unfold bind, next, x_next. destruct s as [n [[|t c] ls]].
  - destruct (H2 eq_refl) as [H3 H4]. rewrite limited_eq by (unfold pot in *; cbn [fst snd] in *; lia). cbn. apply H4; [|exact Hl].
    unfold pot, sz; cbn; lia.
  - rewrite limited_eq by (unfold pot, sz in *; cbn [fst snd length] in *; lia). cbn. apply H1; [|discriminate|exact Hl].
    unfold pot, sz; cbn; lia.
Qed.
Lemma both_next {A} p (k' k : option token -> cstate -> res cstate A) s : pot s + 1 <= p ->
  (forall t s', pot s' + 6 = pot s -> both p (k' (Some t) s') (k (Some t) s')) ->
  (forall s', pot s' = pot s + 1 -> both p (k' None s') (k None s')) -> both p (bind (next x_next) k' s) (bind (next n_next) k s).
Proof. intros Hp H1 H2. apply both_next_full; [lia|auto|auto]. Qed.
Lemma both_peek_some {A} p (k' k : option token -> cstate -> res cstate A) s : pot s + 1 <= p ->
  (forall t s', pot s' = pot s + 1 -> fst (snd s') <> [] -> both p (k' (Some t) s') (k (Some t) s')) ->
  (forall s', pot s' = pot s + 1 -> both p (k' None s') (k None s')) -> both p (bind (peek x_peek) k' s) (bind (peek n_peek) k s).
Proof.
  intros Hp H1 H2 Hl. unfold bind, peek, x_peek. rewrite limited_eq by (unfold pot in *; lia).
  destruct s as [n [[|t c] ls]]; cbn; [apply H2|apply H1]; try discriminate; try exact Hl; unfold pot, sz; cbn; lia.
Qed.
Lemma both_peek {A} p (k' k : option token -> cstate -> res cstate A) s : pot s + 1 <= p ->
  (forall o s', pot s' = pot s + 1 -> both p (k' o s') (k o s')) -> both p (bind (peek x_peek) k' s) (bind (peek n_peek) k s).
Proof. intros Hp H. apply both_peek_some; auto. Qed.
Lemma both_next_if {A} p f (k' k : option token -> cstate -> res cstate A) s : pot s + 1 <= p ->
  (forall t s', pot s' + 5 = pot s -> both p (k' (Some t) s') (k (Some t) s')) ->
  (forall s', pot s' = pot s + 1 -> both p (k' None s') (k None s')) ->
  both p (bind (next_if x_next x_peek f) k' s) (bind (next_if n_next n_peek f) k s).
Proof.
  intros Hp H1 H2 Hl. unfold next_if, bind, peek, next, ret, x_peek, x_next. rewrite limited_eq by (unfold pot in *; lia).
  destruct s as [n [[|t c] ls]]; cbn [n_peek counted l_peek fst snd]; [apply H2; [unfold pot, sz; cbn; lia|exact Hl]|].
  destruct (f t); [|apply H2; [unfold pot, sz; cbn; lia|exact Hl]].
  rewrite limited_eq by (unfold pot, sz in *; cbn [fst snd length] in *; lia).
  cbn. apply H1; [|exact Hl]. unfold pot, sz; cbn; lia.
Qed.
Lemma both_statement s : both (pot s + 1) (next_statement x_stat s) (next_statement n_stat s).
Proof.
  intros Hl. unfold next_statement at 1, x_stat. rewrite limited_eq by (unfold pot in *; lia).
  split; [reflexivity|apply pays_statement].
Qed.
Lemma both_empty s : both (pot s + 1) (next_statement_should_be_empty x_stat s) (next_statement_should_be_empty n_stat s).
Proof.
  unfold next_statement_should_be_empty. eapply both_bind; [apply both_statement|lia|].
  intros [|t l] s' H; [apply both_ret|apply both_fail]; lia.
Qed.
Lemma both_end s : both (pot s + 1) (end_of_statement x_stat s) (end_of_statement n_stat s).
Proof.
  intros Hl. unfold end_of_statement at 1. destruct (both_empty s Hl) as [E _]. rewrite E. split; [reflexivity|apply pays_end].
Qed.

Create HintDb both.
#[local] Hint Extern 1 (_ <= _) => lia : both.
Ltac pstep :=
  match goal with
  | |- both _ _ (bind (next _) _ _) => apply both_next; [lia|intros ? ? ?|intros ? ?]
  | |- both _ _ (bind (peek _) _ _) => apply both_peek; [lia|intros ? ? ?]
  | |- both _ _ (bind (next_if _ _ _) _ _) => apply both_next_if; [lia|intros ? ? ?|intros ? ?]
  | |- both _ _ (bind _ _ _) => eapply both_bind; [solve [eauto with both]|lia|intros ? ? ?]
  | |- both _ _ (ret _ _) => apply both_ret; lia
  | |- both _ _ (fail _ _) => apply both_fail; lia
  | |- both _ _ (panic _ _) => apply both_panic
  | |- both _ _ (out_of_fuel _) => apply both_fuel
  | |- both _ _ ((match ?x with _ => _ end) _) => destruct x
  | |- both _ _ (match ?x with _ => _ end) => destruct x
  | |- both _ _ _ => solve [eapply both_le; [solve [eauto with both]|lia]]
  end.
Ltac payt := repeat pstep.
#[local] Hint Resolve both_empty both_statement both_end : both.

Lemma both_identifier t s : both (pot s + 1) (identifier_parse x_next t s) (identifier_parse n_next t s).
Proof. unfold identifier_parse. destruct (tok_type t) as [|k| | | | | | | | |]; try destruct k; payt. Qed.
#[local] Hint Resolve both_identifier : both.
Lemma both_accesses f : forall s, both (pot s + 1) (accesses_loop x_next x_peek f s) (accesses_loop n_next n_peek f s).
Proof. induction f as [|f IH]; intros s; cbn [accesses_loop]; payt. Qed.
#[local] Hint Resolve both_accesses : both.
Lemma both_va f t s : both (pot s + 2) (va_parse x_next x_peek f t s) (va_parse n_next n_peek f t s).
Proof. unfold va_parse. payt. Qed.
#[local] Hint Resolve both_va : both.

Section Exprs.
Variables pe' pe : token -> cstate -> res cstate expr.
Hypothesis Hpe : forall t s, both (pot s + 2) (pe' t s) (pe t s).
Hint Resolve Hpe : both.
Lemma both_binary op s : both (pot s + 2) (binary_parse x_next x_peek pe' op s) (binary_parse n_next n_peek pe op s).
Proof. unfold binary_parse. payt. Qed.
Lemma both_unary op s : both (pot s + 2) (unary_parse x_next pe' op s) (unary_parse n_next pe op s).
Proof. unfold unary_parse. payt. Qed.
Lemma both_nary_loop f : forall s, both (pot s + 1) (nary_loop x_next x_peek pe' f s) (nary_loop n_next n_peek pe f s).
Proof. induction f as [|f IH]; intros s; cbn [nary_loop]; payt. Qed.
Hint Resolve both_nary_loop : both.
Lemma both_nary f op s : both (pot s + 2) (nary_parse x_next x_peek pe' f op s) (nary_parse n_next n_peek pe f op s).
Proof. unfold nary_parse. payt. Qed.
Lemma both_visible_loop f : forall s, both (pot s + 1) (visible_loop x_next x_peek pe' f s) (visible_loop n_next n_peek pe f s).
Proof. induction f as [|f IH]; intros s; cbn [visible_loop]; payt. Qed.
Lemma both_i_iz_loop f : forall s, both (pot s + 1) (i_iz_loop x_next x_peek pe' f s) (i_iz_loop n_next n_peek pe f s).
Proof. induction f as [|f IH]; intros s; cbn [i_iz_loop]; payt. Qed.
End Exprs.

Lemma both_expr f : forall t s, both (pot s + 2) (expr_parse x_next x_peek f t s) (expr_parse n_next n_peek f t s).
Proof.
  induction f as [|f IH]; intros t s; cbn [expr_parse]; [apply both_fuel|].
  pose proof (both_binary _ _ IH). pose proof (both_unary _ _ IH). pose proof (both_nary _ _ IH).
  destruct (tok_type t) as [|k| | | | | | | | |]; try destruct k; auto; payt.
Qed.
#[local] Hint Resolve both_expr : both.
Lemma both_assignment f v s : both (pot s + 1) (assignment_parse x_next x_peek f v s) (assignment_parse n_next n_peek f v s).
Proof. unfold assignment_parse. payt. Qed.
Lemma both_set_slot f v s : both (pot s + 1) (bukkit_set_slot_parse x_next x_peek f v s) (bukkit_set_slot_parse n_next n_peek f v s).
Proof. unfold bukkit_set_slot_parse. payt. Qed.
Lemma both_i_has_a f t s : both (pot s + 4) (i_has_a_parse x_next x_peek f t s) (i_has_a_parse n_next n_peek f t s).
Proof. unfold i_has_a_parse. payt. Qed.
Lemma both_visible f t s : both (pot s + 4) (visible_parse x_next x_peek f t s) (visible_parse n_next n_peek f t s).
Proof. unfold visible_parse. pose proof (both_visible_loop _ _ (both_expr f) f). payt. Qed.
Lemma both_gimmeh f t s : both (pot s + 4) (gimmeh_parse x_next x_peek f t s) (gimmeh_parse n_next n_peek f t s).
Proof. unfold gimmeh_parse. payt. Qed.
Lemma both_found_yr f t s : both (pot s + 4) (found_yr_parse x_next x_peek f t s) (found_yr_parse n_next n_peek f t s).
Proof. unfold found_yr_parse. payt. Qed.
Lemma both_hai t s : both (pot s + 4) (hai_parse x_stat t s) (hai_parse n_stat t s).
Proof. unfold hai_parse. payt. Qed.
Lemma both_i_iz f t s : both (pot s + 4) (i_iz_parse x_next x_peek f t s) (i_iz_parse n_next n_peek f t s).
Proof. unfold i_iz_parse. pose proof (both_i_iz_loop _ _ (both_expr f) f). payt. Qed.
#[local] Hint Resolve both_assignment both_set_slot : both.

Lemma both_catch p m' m s : both p (m' s) (m s) -> both p (catch m' s) (catch m s).
Proof. intros H Hl. destruct (H Hl) as [E P]. unfold catch. rewrite E. split; [reflexivity|]. destruct (m s); exact P. Qed.

(** An empty line at the start costs 3 calls; every other statement pays for
    itself. *)
Lemma both_block ps' ps stop : (forall t s, both (pot s + 4) (ps' t s) (ps t s)) -> forall f s,
  both (pot s + match fst (snd s) with [] => 3 | _ => 0 end) (parse_block x_next x_peek x_stat ps' stop f s) (parse_block n_next n_peek n_stat ps stop f s).
Proof.
  intros Hps. induction f as [|f IH]; intros s; cbn [parse_block]; [apply both_fuel|].
  assert (Hrest : forall p s' (l : list node), pot s' + 2 <= p ->
    both p (bind (end_of_statement x_stat)
      (fun errs => bind (peek x_peek) (fun o => match o with
        | Some t => if stop t then ret (l ++ errs)
                    else bind (parse_block x_next x_peek x_stat ps' stop f) (fun rest => ret (l ++ errs ++ rest))
        | None => ret (l ++ errs) end)) s') (bind (end_of_statement n_stat)
      (fun errs => bind (peek n_peek) (fun o => match o with
        | Some t => if stop t then ret (l ++ errs)
                    else bind (parse_block n_next n_peek n_stat ps stop f) (fun rest => ret (l ++ errs ++ rest))
        | None => ret (l ++ errs) end)) s')).
  { intros p s' l Hp. eapply both_bind; [apply both_end|lia|]. intros errs s1 H1.
    apply both_peek_some; [lia|intros t s2 H2 Hne|intros s2 H2; apply both_ret; lia].
    destruct (stop t); [apply both_ret; lia|].
    eapply both_bind with (q := pot s2); [|lia|intros; apply both_ret; lia].
    specialize (IH s2). destruct (fst (snd s2)); [contradiction|]. rewrite Nat.add_0_r in IH. exact IH. }
  apply both_next_full; [lia| |].
  - intros t s1 H1 Hne. destruct (fst (snd s)) as [|? ?] eqn:Ef; [contradiction|]. rewrite Nat.add_0_r.
    eapply both_bind with (q := pot s - 2); [|lia|].
    + eapply both_bind with (q := pot s - 2); [|lia|intros; apply both_ret; assumption].
      apply both_catch. eapply both_le; [apply Hps|lia].
    + intros ns s' H. apply Hrest. lia.
  - intros He. rewrite He. split; [lia|]. intros s1 H1. eapply both_bind with (q := pot s + 1); [apply both_ret; lia|lia|].
    intros l s' H. apply Hrest. lia.
Qed.

Section Blocks.
Variables pb' pb : (token -> bool) -> cstate -> res cstate (list node).
Hypothesis Hpb : forall stop s, both (pot s + 3) (pb' stop s) (pb stop s).
Lemma both_block_of stop s : both (pot s + 3) (block_of (pb' stop) s) (block_of (pb stop) s).
Proof. unfold block_of. pose proof Hpb. payt. Qed.
Hint Resolve both_block_of : both.
Lemma both_iteration f s : both (pot s + 1) (iteration_operation_parse x_next x_peek f s) (iteration_operation_parse n_next n_peek f s).
Proof. unfold iteration_operation_parse. payt. Qed.
Lemma both_conditional f s : both (pot s + 1) (conditional_parse x_next x_peek f s) (conditional_parse n_next n_peek f s).
Proof. unfold conditional_parse. payt. Qed.
Hint Resolve both_iteration both_conditional : both.
Lemma both_im_in_yr f t s : both (pot s + 4) (im_in_yr_parse x_next x_peek x_stat pb' f t s) (im_in_yr_parse n_next n_peek n_stat pb f t s).
Proof. unfold im_in_yr_parse. payt. Qed.
Lemma both_how_iz_i_loop f : forall s, both (pot s + 1) (how_iz_i_loop x_next x_peek f s) (how_iz_i_loop n_next n_peek f s).
Proof. induction f as [|f IH]; intros s; cbn [how_iz_i_loop]; payt. Qed.
Hint Resolve both_how_iz_i_loop : both.
Lemma both_how_iz_i f t s : both (pot s + 4) (how_iz_i_parse x_next x_peek x_stat pb' f t s) (how_iz_i_parse n_next n_peek n_stat pb f t s).
Proof. unfold how_iz_i_parse. payt. Qed.
Lemma both_omg_loop pe' pe f : (forall t s, both (pot s + 2) (pe' t s) (pe t s)) ->
  forall s, both (pot s + 1) (omg_loop x_next x_peek x_stat pb' pe' f s) (omg_loop n_next n_peek n_stat pb pe f s).
Proof. intros Hpe. induction f as [|f IH]; intros s; cbn [omg_loop]; payt. Qed.
Lemma both_mebbe_loop pe' pe f : (forall t s, both (pot s + 2) (pe' t s) (pe t s)) ->
  forall s, both (pot s + 1) (mebbe_loop x_next x_peek x_stat pb' pe' f s) (mebbe_loop n_next n_peek n_stat pb pe f s).
Proof. intros Hpe. induction f as [|f IH]; intros s; cbn [mebbe_loop]; payt. Qed.
Lemma both_question {A} p t (k' k : unit -> cstate -> res cstate A) s :
  (forall s', pot s' + 6 = pot s -> both p (k' tt s') (k tt s')) -> pot s + 1 <= p ->
  both p (bind (question_mark x_next t) k' s) (bind (question_mark n_next t) k s).
Proof.
  intros H1 H2. unfold question_mark.
  assert (HG : both p (bind (next x_next) (fun o => match o with
    | Some u => if is_question_symbol u then k' tt else fail (EORly (MissingQuestionMark t))
    | None => fail (EORly (MissingQuestionMark t)) end) s) (bind (next n_next) (fun o => match o with
    | Some u => if is_question_symbol u then k tt else fail (EORly (MissingQuestionMark t))
    | None => fail (EORly (MissingQuestionMark t)) end) s)).
  { apply both_next; [lia|intros|intros; apply both_fail; lia].
    destruct (is_question_symbol _); [apply H1; assumption|apply both_fail; lia]. }
  revert HG. unfold bind. destruct (next x_next s) as [[v|] s2|e2 s2|c2|], (next n_next s) as [[u|] s1|e s1|c|]; auto;
    repeat match goal with |- context [is_question_symbol ?w] => destruct (is_question_symbol w) end; auto.
Qed.
Lemma both_oic {A} p t (k' k : unit -> cstate -> res cstate A) s :
  (forall s', pot s' + 6 = pot s -> both p (k' tt s') (k tt s')) -> pot s + 1 <= p ->
  both p (bind (oic x_next t) k' s) (bind (oic n_next t) k s).
Proof.
  intros H1 H2. unfold oic.
  assert (HG : both p (bind (next x_next) (fun o => match o with
    | None => fail (MissingBlockClosingToken t)
    | Some u => if is_kw OIC u then k' tt else fail (UnexpectedToken u) end) s) (bind (next n_next) (fun o => match o with
    | None => fail (MissingBlockClosingToken t)
    | Some u => if is_kw OIC u then k tt else fail (UnexpectedToken u) end) s)).
  { apply both_next; [lia|intros|intros; apply both_fail; lia].
    destruct (is_kw OIC _); [apply H1; assumption|apply both_fail; lia]. }
  revert HG. unfold bind. destruct (next x_next s) as [[v|] s2|e2 s2|c2|], (next n_next s) as [[u|] s1|e s1|c|]; auto;
    repeat match goal with |- context [is_kw OIC ?w] => destruct (is_kw OIC w) end; auto.
Qed.
(** An optional section. *)
Lemma both_section {A B} p stop (C : token -> block -> A) is (k' k : option A -> cstate -> res cstate B) s :
  (forall o s', pot s' <= pot s + 1 -> both p (k' o s') (k o s')) -> pot s + 1 <= p ->
  both p (bind (next_if x_next x_peek is) (fun o => bind (match o with
     | Some t => bind (next_statement_should_be_empty x_stat)
                   (fun _ => bind (block_of (pb' stop)) (fun b => ret (Some (C t b))))
     | None => ret None
     end) k') s) (bind (next_if n_next n_peek is) (fun o => bind (match o with
     | Some t => bind (next_statement_should_be_empty n_stat)
                   (fun _ => bind (block_of (pb stop)) (fun b => ret (Some (C t b))))
     | None => ret None
     end) k) s).
Proof.
  intros Hk Hp. pstep.
  - eapply both_bind with (q := pot s); [payt|lia|]. intros o s1 H1. apply Hk. lia.
  - eapply both_bind with (q := pot s'); [apply both_ret; lia|lia|]. intros o s1 H1. apply Hk. lia.
Qed.
Lemma both_wtf f t s : both (pot s + 4) (wtf_parse x_next x_peek x_stat pb' f t s) (wtf_parse n_next n_peek n_stat pb f t s).
Proof.
  unfold wtf_parse. pose proof (both_omg_loop _ _ f (both_expr f)).
  apply both_question; [intros s1 H1|lia]. pstep. pstep.
  apply both_section; [intros|lia]. apply both_oic; [intros|lia]. payt.
Qed.
Lemma both_o_rly f t s : both (pot s + 4) (o_rly_parse x_next x_peek x_stat pb' f t s) (o_rly_parse n_next n_peek n_stat pb f t s).
Proof.
  unfold o_rly_parse. pose proof (both_mebbe_loop _ _ f (both_expr f)).
  apply both_question; [intros s1 H1|lia]. pstep.
  apply both_section; [intros|lia]. pstep. apply both_section; [intros|lia].
  apply both_oic; [intros|lia]. payt.
Qed.
End Blocks.

Lemma both_as_node {A} p (g : A -> node) m' m s : both p (m' s) (m s) -> both p (as_node g m' s) (as_node g m s).
Proof. intros H Hl. destruct (H Hl) as [E P]. unfold as_node, bind. rewrite E. split; [reflexivity|]. destruct (m s); exact P. Qed.
Lemma both_va_statement f t s : both (pot s + 4) (va_statement x_next x_peek f t s) (va_statement n_next n_peek f t s).
Proof.
  unfold va_statement. payt; apply both_as_node; payt.
Qed.
Lemma both_parse_statement f : forall t s, both (pot s + 4) (parse_statement x_next x_peek x_stat f t s) (parse_statement n_next n_peek n_stat f t s).
Proof.
  induction f as [|f IH]; intros t s; cbn [parse_statement]; [apply both_fuel|].
  assert (Hpb : forall stop s, both (pot s + 3) (parse_block x_next x_peek x_stat (parse_statement x_next x_peek x_stat f) stop f s) (parse_block n_next n_peek n_stat (parse_statement n_next n_peek n_stat f) stop f s)).
  { intros stop s'. eapply both_le; [apply both_block, IH|]. destruct (fst (snd s')); lia. }
  destruct (va_is_valid t); [apply both_va_statement|].
  destruct (tok_type t) as [|k| | | | | | | | |]; try destruct k; try (apply both_ret; lia); apply both_as_node;
    first [apply both_i_has_a|apply both_visible|apply both_gimmeh|apply both_found_yr|apply both_hai|apply both_i_iz
      |apply both_im_in_yr, Hpb|apply both_how_iz_i, Hpb|apply both_wtf, Hpb|apply both_o_rly, Hpb
      |eapply both_le; [apply both_expr|lia]].
Qed.
Lemma both_root f s : both (pot s + 3) (parse_block_root x_next x_peek x_stat f s) (parse_block_root n_next n_peek n_stat f s).
Proof.
  unfold parse_block_root, block_of. eapply both_bind; [apply both_block, both_parse_statement|destruct (fst (snd s)); lia|].
  intros. apply both_ret. destruct (fst (snd s)); lia.
Qed.

End Limit.

(** ** The iterator *)
Lemma limited_rel {A} limit (any : A) (op : nat * stmt_iter -> A * (nat * stmt_iter)) (op' : cstate -> A * cstate) :
  (forall a b, CRel a b -> fst (op a) = fst (op' b) /\ CRel (snd (op a)) (snd (op' b))) ->
  forall a b, CRel a b -> fst (limited limit any op a) = fst (limited limit any op' b) /\
    CRel (snd (limited limit any op a)) (snd (limited limit any op' b)).
Proof.
  intros H a b R. unfold limited. destruct R as [R1 R2]. rewrite R1. destruct (fst b <? limit); [apply H; split; assumption|].
  split; [reflexivity|]. split; assumption.
Qed.
Theorem limited_result limit o o' l ts : 7 * length ts + 3 <= limit -> limited_parse limit o o' l ts = parse ts.
Proof.
  intros HL. rewrite <- counted_result. unfold limited_parse, counted_parse.
  pose proof (sim_root _ _ _ _ _ _ CRel C_next C_peek C_stat (parse_fuel (length ts)) (0, iter_new ts)
    (0, l_start (logical_lines ts)) (conj eq_refl (R_init ts))) as H.
  pose proof (sim_root _ _ _ _ _ _ CRel (limited_rel limit o _ _ C_next) (limited_rel limit o' _ _ C_peek)
    (limited_rel limit l _ _ C_stat) (parse_fuel (length ts)) (0, iter_new ts)
    (0, l_start (logical_lines ts)) (conj eq_refl (R_init ts))) as H'.
  destruct (both_root limit o o' l (parse_fuel (length ts)) (0, l_start (logical_lines ts))) as [E _].
  { unfold pot. cbn [fst snd]. pose proof (lsum_lines ts). assert (HS : sz (l_start (logical_lines ts)) = lsum (logical_lines ts)).
    { destruct (logical_lines ts); unfold sz, lsum; cbn; rewrite ?app_length; reflexivity. }
    rewrite HS. lia. }
  unfold x_next, x_peek, x_stat in E. rewrite E in H'.
  destruct (parse_block_root n_next n_peek n_stat _ _), (parse_block_root c_next _ _ _ _), (parse_block_root (limited _ _ c_next) _ _ _ _);
    cbn [res_rel result_of] in *; try contradiction; try reflexivity; try congruence.
  destruct H as [-> _], H' as [-> _]. reflexivity.
Qed.
