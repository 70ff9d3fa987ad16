(** The parser makes a linear number of iterator calls (C56). *)
From Coq Require Import Lia.
From Verif Require Import Lines LinesSim ParseFuel Cost Lexer LexSpec LexProofs LexProps LexProps2.

Definition cstate : Type := (nat * lstate)%type.
Definition n_next : cstate -> option token * cstate := counted (fun _ => 1) l_next.
Definition n_peek : cstate -> option token * cstate := counted (fun _ => 1) l_peek.
Definition n_stat : cstate -> list token * cstate := counted (fun l => 1 + length l) l_next_statement.

(** Every token left is worth 7 calls; [m] pays for its calls with the tokens
    it takes and [c] more. *)
Definition pot (s : cstate) : nat := fst s + 7 * sz (snd s).
Definition pays {A} (p : nat) (r : res cstate A) : Prop :=
  match r with
  | ROk _ s | RErr _ s => pot s <= p
  | RPanic _ | RFuel => True
  end.

Lemma pays_le {A} p p' (r : res cstate A) : pays p r -> p <= p' -> pays p' r.
Proof. destruct r; cbn; lia || auto. Qed.
Lemma pays_bind {A B} p q (m : cstate -> res cstate A) (k : A -> cstate -> res cstate B) s :
  pays q (m s) -> q <= p -> (forall a s', pot s' <= q -> pays p (k a s')) -> pays p (bind m k s).
Proof. intros Hm Hq Hk. unfold bind. destruct (m s); cbn [pays] in *; auto; lia. Qed.
Lemma pays_ret {A} p (a : A) s : pot s <= p -> pays p (ret a s).
Proof. auto. Qed.
Lemma pays_fail {A} p e s : pot s <= p -> pays (A := A) p (fail e s).
Proof. auto. Qed.
Lemma pays_panic {A} p c s : pays (A := A) p (panic c s).
Proof. exact I. Qed.
Lemma pays_fuel {A} p s : pays (A := A) p (out_of_fuel s).
Proof. exact I. Qed.

Lemma pays_next {A} p (k : option token -> cstate -> res cstate A) s :
  (forall t s', pot s' + 6 = pot s -> pays p (k (Some t) s')) ->
  (forall s', pot s' = pot s + 1 -> pays p (k None s')) -> pays p (bind (next n_next) k s).
Proof.
  intros H1 H2. destruct s as [n [[|t c] ls]]; cbn; [apply H2|apply H1]; unfold pot, sz; cbn; lia.
Qed.
Lemma pays_peek {A} p (k : option token -> cstate -> res cstate A) s :
  (forall o s', pot s' = pot s + 1 -> pays p (k o s')) -> pays p (bind (peek n_peek) k s).
Proof. intros H. destruct s as [n [[|t c] ls]]; cbn; apply H; unfold pot, sz; cbn; lia. Qed.
Lemma pays_peek_some {A} p (k : option token -> cstate -> res cstate A) s :
  (forall t s', pot s' = pot s + 1 -> fst (snd s') <> [] -> pays p (k (Some t) s')) ->
  (forall s', pot s' = pot s + 1 -> pays p (k None s')) -> pays p (bind (peek n_peek) k s).
Proof.
  intros H1 H2. destruct s as [n [[|t c] ls]]; cbn; [apply H2|apply H1]; try discriminate; unfold pot, sz; cbn; lia.
Qed.
Lemma pays_next_full {A} p (k : option token -> cstate -> res cstate A) s :
  (forall t s', pot s' + 6 = pot s -> fst (snd s) <> [] -> pays p (k (Some t) s')) ->
  (forall s', pot s' = pot s + 1 -> fst (snd s) = [] -> pays p (k None s')) -> pays p (bind (next n_next) k s).
Proof.
  intros H1 H2. destruct s as [n [[|t c] ls]]; cbn; [apply H2|apply H1]; try discriminate; try reflexivity;
    unfold pot, sz; cbn; lia.
Qed.
Lemma pays_next_if {A} p f (k : option token -> cstate -> res cstate A) s :
  (forall t s', pot s' + 5 = pot s -> pays p (k (Some t) s')) ->
  (forall s', pot s' = pot s + 1 -> pays p (k None s')) -> pays p (bind (next_if n_next n_peek f) k s).
Proof.
  intros H1 H2. unfold next_if, bind, peek, next, ret.
  destruct s as [n [[|t c] ls]]; cbn [n_peek counted l_peek fst snd]; [apply H2; unfold pot, sz; cbn; lia|].
  destruct (f t); [|apply H2; unfold pot, sz; cbn; lia]. cbn. apply H1. unfold pot, sz; cbn; lia.
Qed.
Lemma pays_statement s : pays (pot s + 1) (next_statement n_stat s).
Proof.
  unfold next_statement, n_stat, counted, l_next_statement. destruct s as [n [c ls]]. cbn [fst snd pays].
  pose proof (sz_statement c ls). unfold pot. cbn [fst snd]. lia.
Qed.
Lemma pays_empty s : pays (pot s + 1) (next_statement_should_be_empty n_stat s).
Proof.
  unfold next_statement_should_be_empty. eapply pays_bind; [apply pays_statement|lia|].
  intros [|t l] s' H; [apply pays_ret|apply pays_fail]; lia.
Qed.
Lemma pays_end s : pays (pot s + 1) (end_of_statement n_stat s).
Proof.
  unfold end_of_statement. pose proof (pays_empty s).
  destruct (next_statement_should_be_empty n_stat s); auto.
Qed.

Create HintDb pays.
#[local] Hint Extern 1 (_ <= _) => lia : pays.
Ltac pstep :=
  match goal with
  | |- pays _ (bind (next _) _ _) => apply pays_next; [intros ? ? ?|intros ? ?]
  | |- pays _ (bind (peek _) _ _) => apply pays_peek; intros ? ? ?
  | |- pays _ (bind (next_if _ _ _) _ _) => apply pays_next_if; [intros ? ? ?|intros ? ?]
  | |- pays _ (bind _ _ _) => eapply pays_bind; [solve [eauto with pays]|lia|intros ? ? ?]
  | |- pays _ (ret _ _) => apply pays_ret; lia
  | |- pays _ (fail _ _) => apply pays_fail; lia
  | |- pays _ (panic _ _) => apply pays_panic
  | |- pays _ (out_of_fuel _) => apply pays_fuel
  | |- pays _ ((match ?x with _ => _ end) _) => destruct x
  | |- pays _ (match ?x with _ => _ end) => destruct x
  | |- pays _ _ => solve [eapply pays_le; [solve [eauto with pays]|lia]]
  end.
Ltac payt := repeat pstep.
#[local] Hint Resolve pays_empty pays_statement pays_end : pays.

Lemma pays_identifier t s : pays (pot s + 1) (identifier_parse n_next t s).
Proof. unfold identifier_parse. destruct (tok_type t) as [|k| | | | | | | | |]; try destruct k; payt. Qed.
#[local] Hint Resolve pays_identifier : pays.
Lemma pays_accesses f : forall s, pays (pot s + 1) (accesses_loop n_next n_peek f s).
Proof. induction f as [|f IH]; intros s; cbn [accesses_loop]; payt. Qed.
#[local] Hint Resolve pays_accesses : pays.
Lemma pays_va f t s : pays (pot s + 2) (va_parse n_next n_peek f t s).
Proof. unfold va_parse. payt. Qed.
#[local] Hint Resolve pays_va : pays.

Section Exprs.
Variable pe : token -> cstate -> res cstate expr.
Hypothesis Hpe : forall t s, pays (pot s + 2) (pe t s).
Hint Resolve Hpe : pays.
Lemma pays_binary op s : pays (pot s + 2) (binary_parse n_next n_peek pe op s).
Proof. unfold binary_parse. payt. Qed.
Lemma pays_unary op s : pays (pot s + 2) (unary_parse n_next pe op s).
Proof. unfold unary_parse. payt. Qed.
Lemma pays_nary_loop f : forall s, pays (pot s + 1) (nary_loop n_next n_peek pe f s).
Proof. induction f as [|f IH]; intros s; cbn [nary_loop]; payt. Qed.
Hint Resolve pays_nary_loop : pays.
Lemma pays_nary f op s : pays (pot s + 2) (nary_parse n_next n_peek pe f op s).
Proof. unfold nary_parse. payt. Qed.
Lemma pays_visible_loop f : forall s, pays (pot s + 1) (visible_loop n_next n_peek pe f s).
Proof. induction f as [|f IH]; intros s; cbn [visible_loop]; payt. Qed.
Lemma pays_i_iz_loop f : forall s, pays (pot s + 1) (i_iz_loop n_next n_peek pe f s).
Proof. induction f as [|f IH]; intros s; cbn [i_iz_loop]; payt. Qed.
End Exprs.

Lemma pays_expr f : forall t s, pays (pot s + 2) (expr_parse n_next n_peek f t s).
Proof.
  induction f as [|f IH]; intros t s; cbn [expr_parse]; [exact I|].
  pose proof (pays_binary _ IH). pose proof (pays_unary _ IH). pose proof (pays_nary _ IH).
  destruct (tok_type t) as [|k| | | | | | | | |]; try destruct k; auto; payt.
Qed.
#[local] Hint Resolve pays_expr : pays.
Lemma pays_assignment f v s : pays (pot s + 1) (assignment_parse n_next n_peek f v s).
Proof. unfold assignment_parse. payt. Qed.
Lemma pays_set_slot f v s : pays (pot s + 1) (bukkit_set_slot_parse n_next n_peek f v s).
Proof. unfold bukkit_set_slot_parse. payt. Qed.
Lemma pays_i_has_a f t s : pays (pot s + 4) (i_has_a_parse n_next n_peek f t s).
Proof. unfold i_has_a_parse. payt. Qed.
Lemma pays_visible f t s : pays (pot s + 4) (visible_parse n_next n_peek f t s).
Proof. unfold visible_parse. pose proof (pays_visible_loop _ (pays_expr f) f). payt. Qed.
Lemma pays_gimmeh f t s : pays (pot s + 4) (gimmeh_parse n_next n_peek f t s).
Proof. unfold gimmeh_parse. payt. Qed.
Lemma pays_found_yr f t s : pays (pot s + 4) (found_yr_parse n_next n_peek f t s).
Proof. unfold found_yr_parse. payt. Qed.
Lemma pays_hai t s : pays (pot s + 4) (hai_parse n_stat t s).
Proof. unfold hai_parse. payt. Qed.
Lemma pays_i_iz f t s : pays (pot s + 4) (i_iz_parse n_next n_peek f t s).
Proof. unfold i_iz_parse. pose proof (pays_i_iz_loop _ (pays_expr f) f). payt. Qed.
#[local] Hint Resolve pays_assignment pays_set_slot : pays.

Lemma pays_catch p m s : pays p (m s) -> pays p (catch m s).
Proof. unfold catch. destruct (m s); auto. Qed.

(** An empty line at the start costs 3 calls; every other statement pays for
    itself. *)
Lemma pays_block ps stop : (forall t s, pays (pot s + 4) (ps t s)) -> forall f s,
  pays (pot s + match fst (snd s) with [] => 3 | _ => 0 end) (parse_block n_next n_peek n_stat ps stop f s).
Proof.
  intros Hps. induction f as [|f IH]; intros s; cbn [parse_block]; [exact I|].
  assert (Hrest : forall p s' (l : list node), pot s' + 2 <= p ->
    pays p (bind (end_of_statement n_stat)
      (fun errs => bind (peek n_peek) (fun o => match o with
        | Some t => if stop t then ret (l ++ errs)
                    else bind (parse_block n_next n_peek n_stat ps stop f) (fun rest => ret (l ++ errs ++ rest))
        | None => ret (l ++ errs) end)) s')).
  { intros p s' l Hp. eapply pays_bind; [apply pays_end|lia|]. intros errs s1 H1.
    apply pays_peek_some; [intros t s2 H2 Hne|intros s2 H2; apply pays_ret; lia].
    destruct (stop t); [apply pays_ret; lia|].
    eapply pays_bind with (q := pot s2); [|lia|intros; apply pays_ret; lia].
    specialize (IH s2). destruct (fst (snd s2)); [contradiction|]. rewrite Nat.add_0_r in IH. exact IH. }
  apply pays_next_full.
  - intros t s1 H1 Hne. destruct (fst (snd s)) as [|? ?] eqn:Ef; [contradiction|]. rewrite Nat.add_0_r.
    eapply pays_bind with (q := pot s - 2); [|lia|].
    + eapply pays_bind with (q := pot s - 2); [|lia|intros; apply pays_ret; assumption].
      apply pays_catch. eapply pays_le; [apply Hps|lia].
    + intros ns s' H. apply Hrest. lia.
  - intros s1 H1 He. rewrite He. eapply pays_bind with (q := pot s + 1); [apply pays_ret; lia|lia|].
    intros l s' H. apply Hrest. lia.
Qed.

Section Blocks.
Variable pb : (token -> bool) -> cstate -> res cstate (list node).
Hypothesis Hpb : forall stop s, pays (pot s + 3) (pb stop s).
Lemma pays_block_of stop s : pays (pot s + 3) (block_of (pb stop) s).
Proof. unfold block_of. pose proof Hpb. payt. Qed.
Hint Resolve pays_block_of : pays.
Lemma pays_iteration f s : pays (pot s + 1) (iteration_operation_parse n_next n_peek f s).
Proof. unfold iteration_operation_parse. payt. Qed.
Lemma pays_conditional f s : pays (pot s + 1) (conditional_parse n_next n_peek f s).
Proof. unfold conditional_parse. payt. Qed.
Hint Resolve pays_iteration pays_conditional : pays.
Lemma pays_im_in_yr f t s : pays (pot s + 4) (im_in_yr_parse n_next n_peek n_stat pb f t s).
Proof. unfold im_in_yr_parse. payt. Qed.
Lemma pays_how_iz_i_loop f : forall s, pays (pot s + 1) (how_iz_i_loop n_next n_peek f s).
Proof. induction f as [|f IH]; intros s; cbn [how_iz_i_loop]; payt. Qed.
Hint Resolve pays_how_iz_i_loop : pays.
Lemma pays_how_iz_i f t s : pays (pot s + 4) (how_iz_i_parse n_next n_peek n_stat pb f t s).
Proof. unfold how_iz_i_parse. payt. Qed.
Lemma pays_omg_loop pe f : (forall t s, pays (pot s + 2) (pe t s)) ->
  forall s, pays (pot s + 1) (omg_loop n_next n_peek n_stat pb pe f s).
Proof. intros Hpe. induction f as [|f IH]; intros s; cbn [omg_loop]; payt. Qed.
Lemma pays_mebbe_loop pe f : (forall t s, pays (pot s + 2) (pe t s)) ->
  forall s, pays (pot s + 1) (mebbe_loop n_next n_peek n_stat pb pe f s).
Proof. intros Hpe. induction f as [|f IH]; intros s; cbn [mebbe_loop]; payt. Qed.
Lemma pays_question {A} p t (k : unit -> cstate -> res cstate A) s :
  (forall s', pot s' + 6 = pot s -> pays p (k tt s')) -> pot s + 1 <= p ->
  pays p (bind (question_mark n_next t) k s).
Proof.
  intros H1 H2. unfold question_mark.
  assert (HG : pays p (bind (next n_next) (fun o => match o with
    | Some u => if is_question_symbol u then k tt else fail (EORly (MissingQuestionMark t))
    | None => fail (EORly (MissingQuestionMark t)) end) s)).
  { apply pays_next; intros; [|apply pays_fail; lia].
    destruct (is_question_symbol _); [apply H1; assumption|apply pays_fail; lia]. }
  revert HG. unfold bind. destruct (next n_next s) as [[u|] s1|e s1|c|]; auto.
  destruct (is_question_symbol u); auto.
Qed.
Lemma pays_oic {A} p t (k : unit -> cstate -> res cstate A) s :
  (forall s', pot s' + 6 = pot s -> pays p (k tt s')) -> pot s + 1 <= p ->
  pays p (bind (oic n_next t) k s).
Proof.
  intros H1 H2. unfold oic.
  assert (HG : pays p (bind (next n_next) (fun o => match o with
    | None => fail (MissingBlockClosingToken t)
    | Some u => if is_kw OIC u then k tt else fail (UnexpectedToken u) end) s)).
  { apply pays_next; intros; [|apply pays_fail; lia].
    destruct (is_kw OIC _); [apply H1; assumption|apply pays_fail; lia]. }
  revert HG. unfold bind. destruct (next n_next s) as [[u|] s1|e s1|c|]; auto.
  destruct (is_kw OIC u); auto.
Qed.
(** An optional section. *)
Lemma pays_section {A B} p stop (C : token -> block -> A) is (k : option A -> cstate -> res cstate B) s :
  (forall o s', pot s' <= pot s + 1 -> pays p (k o s')) -> pot s + 1 <= p ->
  pays p (bind (next_if n_next n_peek is) (fun o => bind (match o with
     | Some t => bind (next_statement_should_be_empty n_stat)
                   (fun _ => bind (block_of (pb stop)) (fun b => ret (Some (C t b))))
     | None => ret None
     end) k) s).
Proof.
  intros Hk Hp. pstep.
  - eapply pays_bind with (q := pot s); [payt|lia|]. intros o s1 H1. apply Hk. lia.
  - eapply pays_bind with (q := pot s'); [apply pays_ret; lia|lia|]. intros o s1 H1. apply Hk. lia.
Qed.
Lemma pays_wtf f t s : pays (pot s + 4) (wtf_parse n_next n_peek n_stat pb f t s).
Proof.
  unfold wtf_parse. pose proof (pays_omg_loop _ f (pays_expr f)).
  apply pays_question; [intros s1 H1|lia]. pstep. pstep.
  apply pays_section; [intros|lia]. apply pays_oic; [intros|lia]. payt.
Qed.
Lemma pays_o_rly f t s : pays (pot s + 4) (o_rly_parse n_next n_peek n_stat pb f t s).
Proof.
  unfold o_rly_parse. pose proof (pays_mebbe_loop _ f (pays_expr f)).
  apply pays_question; [intros s1 H1|lia]. pstep.
  apply pays_section; [intros|lia]. pstep. apply pays_section; [intros|lia].
  apply pays_oic; [intros|lia]. payt.
Qed.
End Blocks.

Lemma pays_as_node {A} p (g : A -> node) m s : pays p (m s) -> pays p (as_node g m s).
Proof. intros H. unfold as_node, bind. destruct (m s); auto. Qed.
Lemma pays_va_statement f t s : pays (pot s + 4) (va_statement n_next n_peek f t s).
Proof.
  unfold va_statement. payt; apply pays_as_node; payt.
Qed.
Lemma pays_parse_statement f : forall t s, pays (pot s + 4) (parse_statement n_next n_peek n_stat f t s).
Proof.
  induction f as [|f IH]; intros t s; cbn [parse_statement]; [exact I|].
  assert (Hpb : forall stop s, pays (pot s + 3)
    (parse_block n_next n_peek n_stat (parse_statement n_next n_peek n_stat f) stop f s)).
  { intros stop s'. eapply pays_le; [apply pays_block, IH|]. destruct (fst (snd s')); lia. }
  destruct (va_is_valid t); [apply pays_va_statement|].
  destruct (tok_type t) as [|k| | | | | | | | |]; try destruct k; try (apply pays_ret; lia); apply pays_as_node;
    first [apply pays_i_has_a|apply pays_visible|apply pays_gimmeh|apply pays_found_yr|apply pays_hai|apply pays_i_iz
      |apply pays_im_in_yr, Hpb|apply pays_how_iz_i, Hpb|apply pays_wtf, Hpb|apply pays_o_rly, Hpb
      |eapply pays_le; [apply pays_expr|lia]].
Qed.
Lemma pays_root f s : pays (pot s + 3) (parse_block_root n_next n_peek n_stat f s).
Proof.
  unfold parse_block_root, block_of. eapply pays_bind; [apply pays_block, pays_parse_statement|destruct (fst (snd s)); lia|].
  intros. apply pays_ret. destruct (fst (snd s)); lia.
Qed.

(** ** The iterator *)
Definition CRel (a : nat * stmt_iter) (b : cstate) : Prop := fst a = fst b /\ IterRel (snd a) (snd b).

Lemma C_next a b : CRel a b -> fst (c_next a) = fst (n_next b) /\ CRel (snd (c_next a)) (snd (n_next b)).
Proof.
  intros [H1 H2]. destruct (R_next _ _ H2) as [E HR]. unfold c_next, n_next, counted, CRel.
  destruct (iter_next (snd a)), (l_next (snd b)); cbn [fst snd] in *. rewrite H1. auto.
Qed.
Lemma C_peek a b : CRel a b -> fst (c_peek a) = fst (n_peek b) /\ CRel (snd (c_peek a)) (snd (n_peek b)).
Proof.
  intros [H1 H2]. destruct (R_peek _ _ H2) as [E HR]. unfold c_peek, n_peek, counted, CRel.
  destruct (iter_peek (snd a)), (l_peek (snd b)); cbn [fst snd] in *. rewrite H1. auto.
Qed.
Lemma C_stat a b : CRel a b ->
  fst (c_next_statement a) = fst (n_stat b) /\ CRel (snd (c_next_statement a)) (snd (n_stat b)).
Proof.
  intros [H1 H2]. destruct (R_next_statement _ _ H2) as [E HR]. unfold c_next_statement, n_stat, counted, CRel.
  destruct (iter_next_statement (snd a)), (l_next_statement (snd b)); cbn [fst snd] in *. rewrite H1, E. auto.
Qed.

(** Counting does not change the result. *)
Lemma counted_result ts : result_of (counted_parse ts) = parse ts.
Proof.
  assert (HC : forall A (cost : A -> nat) (op : stmt_iter -> A * stmt_iter) (a : nat * stmt_iter) it, snd a = it ->
    fst (counted cost op a) = fst (op it) /\ snd (snd (counted cost op a)) = snd (op it)).
  { intros A cost op a it <-. unfold counted. destruct (op (snd a)). auto. }
  pose proof (sim_root c_next c_peek c_next_statement iter_next iter_peek iter_next_statement
    (fun a it => snd a = it) (HC _ _ _) (HC _ _ _) (HC _ _ _) (parse_fuel (length ts)) (0, iter_new ts) _ eq_refl) as H.
  unfold parse, counted_parse. cbn [snd] in H.
  destruct (parse_block_root c_next _ _ _ _), (parse_block_root iter_next _ _ _ _);
    cbn [res_rel result_of] in *; try contradiction; try reflexivity; [destruct H as [-> _]|subst]; reflexivity.
Qed.

Theorem parse_cost ts b k it : counted_parse ts = ROk b (k, it) -> k <= 7 * length ts + 3.
Proof.
  intros E. unfold counted_parse in E.
  pose proof (sim_root _ _ _ _ _ _ CRel C_next C_peek C_stat (parse_fuel (length ts)) (0, iter_new ts)
    (0, l_start (logical_lines ts)) (conj eq_refl (R_init ts))) as H. rewrite E in H.
  pose proof (pays_root (parse_fuel (length ts)) (0, l_start (logical_lines ts))) as HP.
  destruct (parse_block_root n_next n_peek n_stat _ _) as [b' [k' s']| | |]; cbn [res_rel pays] in *; try contradiction.
  destruct H as [_ [Hk _]]. cbn [fst] in Hk. subst k'. unfold pot in HP. cbn [fst snd] in HP.
  pose proof (lsum_lines ts). assert (HS : sz (l_start (logical_lines ts)) = lsum (logical_lines ts)).
  { destruct (logical_lines ts); unfold sz, lsum; cbn; rewrite ?app_length; reflexivity. }
  rewrite HS in HP. lia.
Qed.

(** Every token has at least one character. *)
Lemma tokens_le_chars code ts : tokenize code = LexOk ts -> length ts <= length code.
Proof.
  intros E. apply tokenize_ok_iff in E as (ps & HL & ->).
  pose proof (LexesTo_wf _ _ _ HL) as Hwf. rewrite (LexesTo_text _ _ _ HL), app_nil_r. clear HL.
  generalize (@nil piece) as before. induction Hwf as [|x ps Hx Hwf IH]; intros before; [cbn; lia|].
  unfold text_of. cbn [map concat]. rewrite app_length. fold (text_of ps).
  destruct x as [c|raw ty]; cbn [tokens_after length].
  - specialize (IH (before ++ [Gap c])). lia.
  - specialize (IH (before ++ [Tok raw ty])). cbn in Hx |- *. destruct raw; [contradiction|]. cbn. lia.
Qed.
