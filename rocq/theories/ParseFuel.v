(** The parser terminates: fuel that exceeds the number of tokens is never
    exhausted and does not influence the result. *)
From Coq Require Import Lia.
From Verif Require Import Lines LinesSim.

Definition lsum (ls : list (list token)) : nat := length (concat ls).
Definition sz (s : lstate) : nat := length (fst s) + lsum (snd s).

(** [r] is a result other than fuel exhaustion, with at most [n] tokens left. *)
Definition fin {A} (n : nat) (r : res lstate A) : Prop :=
  match r with
  | ROk _ s | RErr _ s => sz s <= n
  | RPanic _ => True
  | RFuel => False
  end.

Lemma fin_le {A} n n' (r : res lstate A) : fin n r -> n <= n' -> fin n' r.
Proof. destruct r; cbn; lia || auto. Qed.

Lemma fin_bind {A B} n n' (m : lstate -> res lstate A) (k : A -> lstate -> res lstate B) s :
  fin n' (m s) -> n' <= n -> (forall a s', sz s' <= n' -> fin n (k a s')) -> fin n (bind m k s).
Proof.
  intros Hm Hn Hk. unfold bind. destruct (m s) as [a s'|e s'|c|]; cbn [fin] in *; auto. lia.
Qed.

Lemma fin_ret {A} n (a : A) s : sz s <= n -> fin n (ret a s).
Proof. auto. Qed.
Lemma fin_fail {A} n e s : sz s <= n -> fin (A := A) n (fail e s).
Proof. auto. Qed.
Lemma fin_panic {A} n c s : fin (A := A) n (panic c s).
Proof. exact I. Qed.

(** [next] and [peek] at the head of a computation. *)
Lemma fin_next {A} n (k : option token -> lstate -> res lstate A) s :
  (forall t c ls, s = (t :: c, ls) -> sz (c, ls) < sz s -> fin n (k (Some t) (c, ls))) ->
  (fst s = [] -> fin n (k None s)) -> fin n (bind (next l_next) k s).
Proof.
  intros H1 H2. destruct s as [[|t c] ls]; cbn; [apply H2; reflexivity|].
  apply (H1 t c ls eq_refl). unfold sz. cbn. lia.
Qed.
Lemma fin_peek {A} n (k : option token -> lstate -> res lstate A) s :
  (forall t, hd_error (fst s) = Some t -> fin n (k (Some t) s)) ->
  (fst s = [] -> fin n (k None s)) -> fin n (bind (peek l_peek) k s).
Proof. intros H1 H2. destruct s as [[|t c] ls]; cbn; [apply H2|apply (H1 t)]; reflexivity. Qed.
Lemma fin_next_if {A} n f (k : option token -> lstate -> res lstate A) s :
  (forall t c ls, s = (t :: c, ls) -> sz (c, ls) < sz s -> fin n (k (Some t) (c, ls))) ->
  fin n (k None s) -> fin n (bind (next_if l_next l_peek f) k s).
Proof.
  intros H1 H2. unfold next_if, bind, peek, next, ret.
  destruct s as [[|t c] ls]; cbn [l_peek]; [assumption|].
  destruct (f t); [|assumption]. cbn. apply (H1 t c ls eq_refl). unfold sz. cbn. lia.
Qed.
Lemma sz_statement c ls : sz (l_start ls) + length c = sz (c, ls).
Proof. destruct ls as [|l ls]; unfold sz, lsum; cbn; rewrite ?app_length; lia. Qed.
Lemma fin_empty s : fin (sz s) (next_statement_should_be_empty l_next_statement s).
Proof.
  unfold next_statement_should_be_empty, bind, next_statement, ret, fail, l_next_statement.
  destruct s as [c ls]. pose proof (sz_statement c ls). cbn [fst snd]. destruct c; cbn [fin]; lia.
Qed.
Lemma fin_statement s : fin (sz s) (next_statement l_next_statement s).
Proof.
  unfold next_statement, l_next_statement. destruct s as [c ls]. pose proof (sz_statement c ls). cbn [fin fst snd]. lia.
Qed.
Lemma fin_end s : fin (sz s) (end_of_statement l_next_statement s).
Proof.
  unfold end_of_statement. pose proof (fin_empty s).
  destruct (next_statement_should_be_empty l_next_statement s); auto.
Qed.

Create HintDb fin.
#[local] Hint Extern 1 (_ < _) => lia : fin.
#[local] Hint Extern 1 (_ <= _) => lia : fin.
Ltac fin_side := try lia.
Ltac finstep :=
  match goal with
  | |- fin _ (bind (next _) _ _) =>
      apply fin_next; [let H := fresh "Hs" in let H' := fresh "Hlt" in intros ? ? ? H H'|intros ?]
  | |- fin _ (bind (peek _) _ _) => apply fin_peek; [intros ? ?|intros ?]
  | |- fin _ (bind (next_if _ _ _) _ _) =>
      apply fin_next_if; [let H := fresh "Hs" in let H' := fresh "Hlt" in intros ? ? ? H H'|]
  | |- fin _ (bind _ _ ?s) =>
      apply fin_bind with (n' := sz s); [|lia|let H := fresh "Hle" in intros ? ? H]
  | |- fin _ (ret _ _) => apply fin_ret; lia
  | |- fin _ (fail _ _) => apply fin_fail; lia
  | |- fin _ (panic _ _) => apply fin_panic
  | |- fin _ ((match ?x with _ => _ end) _) => destruct x
  | |- fin _ (match ?x with _ => _ end) => destruct x
  | |- fin _ _ => solve [eapply fin_le; [solve [eauto with fin]|lia]]
  end.
Ltac fint := repeat finstep.
#[local] Hint Resolve fin_empty fin_statement fin_end : fin.

Lemma fin_identifier t s : fin (sz s) (identifier_parse l_next t s).
Proof. unfold identifier_parse. destruct (tok_type t) as [|k| | | | | | | | |]; try destruct k; fint. Qed.
#[local] Hint Resolve fin_identifier : fin.

Lemma fin_accesses f : forall s, sz s < f -> fin (sz s) (accesses_loop l_next l_peek f s).
Proof. induction f as [|f IH]; intros s H; [lia|]. cbn [accesses_loop]. fint. Qed.
#[local] Hint Resolve fin_accesses : fin.
Lemma fin_va f t s : sz s < f -> fin (sz s) (va_parse l_next l_peek f t s).
Proof. intros H. unfold va_parse. fint. Qed.
#[local] Hint Resolve fin_va : fin.

Section Exprs.
Variable pe : token -> lstate -> res lstate expr.
Variable n : nat.
Hypothesis Hpe : forall t s, sz s < n -> fin (sz s) (pe t s).
Hint Resolve Hpe : fin.
Lemma fin_binary op s : sz s <= n -> fin (sz s) (binary_parse l_next l_peek pe op s).
Proof. intros H. unfold binary_parse. fint. Qed.
Lemma fin_unary op s : sz s <= n -> fin (sz s) (unary_parse l_next pe op s).
Proof. intros H. unfold unary_parse. fint. Qed.
Lemma fin_nary_loop f : forall s, sz s <= n -> sz s < f -> fin (sz s) (nary_loop l_next l_peek pe f s).
Proof. induction f as [|f IH]; intros s H1 H2; [lia|]. cbn [nary_loop]. fint. Qed.
Hint Resolve fin_nary_loop : fin.
Lemma fin_nary f op s : sz s <= n -> sz s < f -> fin (sz s) (nary_parse l_next l_peek pe f op s).
Proof. intros H1 H2. unfold nary_parse. fint. Qed.
Lemma fin_visible_loop f : forall s, sz s <= n -> sz s < f -> fin (sz s) (visible_loop l_next l_peek pe f s).
Proof. induction f as [|f IH]; intros s H1 H2; [lia|]. cbn [visible_loop]. fint. Qed.
Lemma fin_i_iz_loop f : forall s, sz s <= n -> sz s < f -> fin (sz s) (i_iz_loop l_next l_peek pe f s).
Proof. induction f as [|f IH]; intros s H1 H2; [lia|]. cbn [i_iz_loop]. fint. Qed.
End Exprs.

Lemma fin_expr f : forall t s, sz s + 1 < f -> fin (sz s) (expr_parse l_next l_peek f t s).
Proof.
  induction f as [|f IH]; intros t s H; [lia|]. cbn [expr_parse].
  assert (IH' : forall t s, sz s < f - 1 -> fin (sz s) (expr_parse l_next l_peek f t s)) by (intros; apply IH; lia).
  assert (Hb : forall op, fin (sz s) (binary_parse l_next l_peek (expr_parse l_next l_peek f) op s))
    by (intros op; apply fin_binary with (n := f - 1); auto; lia).
  assert (Hn : forall op, fin (sz s) (nary_parse l_next l_peek (expr_parse l_next l_peek f) f op s))
    by (intros op; apply fin_nary with (n := f - 1); auto; lia).
  assert (Hu : forall op, fin (sz s) (unary_parse l_next (expr_parse l_next l_peek f) op s))
    by (intros op; apply fin_unary with (n := f - 1); auto; lia).
  destruct (tok_type t) as [|k| | | | | | | | |]; try destruct k; auto; fint.
Qed.
#[local] Hint Resolve fin_expr : fin.

Lemma fin_assignment f v s : sz s + 1 < f -> fin (sz s) (assignment_parse l_next l_peek f v s).
Proof. intros H. unfold assignment_parse. fint. Qed.
Lemma fin_set_slot f v s : sz s + 1 < f -> fin (sz s) (bukkit_set_slot_parse l_next l_peek f v s).
Proof. intros H. unfold bukkit_set_slot_parse. fint. Qed.
Lemma fin_i_has_a f t s : sz s + 1 < f -> fin (sz s) (i_has_a_parse l_next l_peek f t s).
Proof. intros H. unfold i_has_a_parse. fint. Qed.
Lemma fin_visible f t s : sz s + 1 < f -> fin (sz s) (visible_parse l_next l_peek f t s).
Proof.
  intros H. unfold visible_parse.
  assert (HV : fin (sz s) (visible_loop l_next l_peek (expr_parse l_next l_peek f) f s)).
  { apply fin_visible_loop with (n := f - 1); [|lia..]. intros; apply fin_expr; lia. }
  fint.
Qed.
Lemma fin_gimmeh f t s : sz s + 1 < f -> fin (sz s) (gimmeh_parse l_next l_peek f t s).
Proof. intros H. unfold gimmeh_parse. fint. Qed.
Lemma fin_found_yr f t s : sz s + 1 < f -> fin (sz s) (found_yr_parse l_next l_peek f t s).
Proof. intros H. unfold found_yr_parse. fint. Qed.
Lemma fin_hai t s : fin (sz s) (hai_parse l_next_statement t s).
Proof. unfold hai_parse. fint. Qed.
Lemma fin_i_iz f t s : sz s + 1 < f -> fin (sz s) (i_iz_parse l_next l_peek f t s).
Proof.
  intros H. unfold i_iz_parse.
  assert (HV : forall s', sz s' <= sz s -> fin (sz s') (i_iz_loop l_next l_peek (expr_parse l_next l_peek f) f s')).
  { intros s' Hs'. apply fin_i_iz_loop with (n := f - 1); [|lia..]. intros; apply fin_expr; lia. }
  fint.
Qed.
#[local] Hint Resolve fin_assignment fin_set_slot fin_i_has_a fin_visible fin_gimmeh fin_found_yr fin_hai fin_i_iz : fin.

Lemma fin_catch n m s : fin n (m s) -> fin n (catch m s).
Proof. unfold catch. destruct (m s); auto. Qed.

Lemma fin_block ps stop n : (forall t s, sz s < n -> fin (sz s) (ps t s)) ->
  forall f s, sz s <= n -> sz s + (if fst s then 1 else 0) < f ->
  fin (sz s) (parse_block l_next l_peek l_next_statement ps stop f s).
Proof.
  intros Hps. induction f as [|f IH]; intros s H1 H2; [lia|]. cbn [parse_block].
  assert (Hrest : forall n' s' l, sz s' <= n' -> n' <= sz s -> sz s' < f ->
    fin n' (bind (end_of_statement l_next_statement)
      (fun errs => bind (peek l_peek) (fun p => match p with
        | Some t => if stop t then ret (l ++ errs)
                    else bind (parse_block l_next l_peek l_next_statement ps stop f)
                           (fun rest => ret (l ++ errs ++ rest))
        | None => ret (l ++ errs) end)) s')).
  { intros n' s' l Hs' Hn' Hf.
    eapply fin_le with (n := sz s'); [|lia]. finstep; [apply fin_end|]. finstep; [|fint].
    destruct (stop t); [fint|]. finstep.
    - destruct s'0 as [c ls]. destruct c; [discriminate|]. apply IH; [lia|]. cbn [fst]. lia.
    - apply fin_ret. lia. }
  apply fin_next.
  - intros t c ls Hs Hlt.
    apply fin_bind with (n' := sz s - 1); [|lia|].
    + apply fin_bind with (n' := sz s - 1); [|lia|].
      * apply fin_catch. eapply fin_le; [apply Hps; lia|lia].
      * intros. apply fin_ret. lia.
    + intros l s' Hs'. apply Hrest; lia.
  - intros Hnil. apply fin_bind with (n' := sz s); [apply fin_ret; lia|lia|].
    intros l s' Hs'. apply Hrest; try lia.
    rewrite Hnil in H2. lia.
Qed.

Section Blocks.
Variable pb : (token -> bool) -> lstate -> res lstate (list node).
Variable n : nat.
Hypothesis Hpb : forall stop s, sz s <= n -> fin (sz s) (pb stop s).
Lemma fin_block_of stop s : sz s <= n -> fin (sz s) (block_of (pb stop) s).
Proof. intros H. unfold block_of. pose proof Hpb. fint. Qed.
Hint Resolve fin_block_of : fin.
Lemma fin_iteration f s : sz s < f -> fin (sz s) (iteration_operation_parse l_next l_peek f s).
Proof. intros H. unfold iteration_operation_parse. fint. Qed.
Lemma fin_conditional f s : sz s + 1 < f -> fin (sz s) (conditional_parse l_next l_peek f s).
Proof. intros H. unfold conditional_parse. fint. Qed.
Hint Resolve fin_iteration fin_conditional : fin.
Lemma fin_im_in_yr f t s : sz s <= n -> sz s + 1 < f ->
  fin (sz s) (im_in_yr_parse l_next l_peek l_next_statement pb f t s).
Proof. intros H1 H2. unfold im_in_yr_parse. fint. Qed.
Lemma fin_how_iz_i_loop f : forall s, sz s < f -> fin (sz s) (how_iz_i_loop l_next l_peek f s).
Proof. induction f as [|f IH]; intros s H; [lia|]. cbn [how_iz_i_loop]. fint. Qed.
Hint Resolve fin_how_iz_i_loop : fin.
Lemma fin_how_iz_i f t s : sz s <= n -> sz s < f ->
  fin (sz s) (how_iz_i_parse l_next l_peek l_next_statement pb f t s).
Proof. intros H1 H2. unfold how_iz_i_parse. fint. Qed.
Lemma fin_question t s : fin (sz s) (question_mark l_next t s).
Proof. unfold question_mark. fint. Qed.
Lemma fin_oic t s : fin (sz s) (oic l_next t s).
Proof. unfold oic. fint. Qed.
Hint Resolve fin_question fin_oic : fin.
Variable pe : token -> lstate -> res lstate expr.
Hypothesis Hpe : forall t s, sz s <= n -> fin (sz s) (pe t s).
Hint Resolve Hpe : fin.
Lemma fin_omg_loop f : forall s, sz s <= n -> sz s < f ->
  fin (sz s) (omg_loop l_next l_peek l_next_statement pb pe f s).
Proof. induction f as [|f IH]; intros s H1 H2; [lia|]. cbn [omg_loop]. fint. Qed.
Lemma fin_mebbe_loop f : forall s, sz s <= n -> sz s < f ->
  fin (sz s) (mebbe_loop l_next l_peek l_next_statement pb pe f s).
Proof. induction f as [|f IH]; intros s H1 H2; [lia|]. cbn [mebbe_loop]. fint. Qed.
End Blocks.

Lemma fin_wtf pb f t s :
  (forall stop s, sz s + 1 < f -> fin (sz s) (pb stop s)) -> sz s + 1 < f ->
  fin (sz s) (wtf_parse l_next l_peek l_next_statement pb f t s).
Proof.
  intros Hpb H. unfold wtf_parse.
  assert (HO : forall s', sz s' <= sz s -> fin (sz s')
    (omg_loop l_next l_peek l_next_statement pb (expr_parse l_next l_peek f) f s')).
  { intros s' Hs'. apply fin_omg_loop with (n := sz s); try lia; intros; [apply Hpb|apply fin_expr]; lia. }
  assert (HB : forall stop s', sz s' <= sz s -> fin (sz s') (block_of (pb stop) s')).
  { intros stop s' Hs'. apply fin_block_of with (n := sz s); [|lia]. intros; apply Hpb; lia. }
  pose proof fin_question. pose proof fin_oic. fint.
Qed.
Lemma fin_o_rly pb f t s :
  (forall stop s, sz s + 1 < f -> fin (sz s) (pb stop s)) -> sz s + 1 < f ->
  fin (sz s) (o_rly_parse l_next l_peek l_next_statement pb f t s).
Proof.
  intros Hpb H. unfold o_rly_parse.
  assert (HO : forall s', sz s' <= sz s -> fin (sz s')
    (mebbe_loop l_next l_peek l_next_statement pb (expr_parse l_next l_peek f) f s')).
  { intros s' Hs'. apply fin_mebbe_loop with (n := sz s); try lia; intros; [apply Hpb|apply fin_expr]; lia. }
  assert (HB : forall stop s', sz s' <= sz s -> fin (sz s') (block_of (pb stop) s')).
  { intros stop s' Hs'. apply fin_block_of with (n := sz s); [|lia]. intros; apply Hpb; lia. }
  pose proof fin_question. pose proof fin_oic. fint.
Qed.

Lemma fin_as_node {A} (g : A -> node) m s : fin (sz s) (m s) -> fin (sz s) (as_node g m s).
Proof. intros H. unfold as_node. fint. Qed.
Lemma fin_va_statement f t s : sz s + 1 < f -> fin (sz s) (va_statement l_next l_peek f t s).
Proof.
  intros H. unfold va_statement. finstep; [fint|]. apply fin_peek; [|intros ?; fint].
  intros u Hu. destruct (is_kw R u); [|destruct (is_kw HAS_A u); [|apply fin_panic]].
  - eapply fin_le; [apply fin_as_node; apply fin_assignment; lia|lia].
  - eapply fin_le; [apply fin_as_node; apply fin_set_slot; lia|lia].
Qed.

Lemma fin_parse_statement f : forall t s, sz s + 2 < f ->
  fin (sz s) (parse_statement l_next l_peek l_next_statement f t s).
Proof.
  induction f as [|f IH]; intros t s H; [lia|]. cbn [parse_statement].
  assert (Hpb : forall stop s, sz s + 1 < f ->
    fin (sz s) (parse_block l_next l_peek l_next_statement (parse_statement l_next l_peek l_next_statement f) stop f s)).
  { intros stop s' Hs'. apply fin_block with (n := f - 2); try lia.
    - intros t' s'' Hs''. apply IH. lia.
    - destruct (fst s'); lia. }
  destruct (va_is_valid t); [apply fin_va_statement; lia|].
  destruct (tok_type t) as [|k| | | | | | | | |]; try destruct k;
    try (apply fin_as_node; first [apply fin_expr; lia|apply fin_i_has_a; lia|apply fin_visible; lia
      |apply fin_gimmeh; lia|apply fin_found_yr; lia|apply fin_hai|apply fin_i_iz; lia]);
    try (apply fin_ret; lia); apply fin_as_node.
  all: first [apply fin_wtf; [assumption|lia]|apply fin_o_rly; [assumption|lia]
    |apply fin_im_in_yr with (n := f - 2); [intros; apply Hpb; lia|lia..]
    |apply fin_how_iz_i with (n := f - 2); [intros; apply Hpb; lia|lia..]].
Qed.

Lemma fin_root f s : sz s + 3 < f -> fin (sz s) (parse_block_root l_next l_peek l_next_statement f s).
Proof.
  intros H. unfold parse_block_root, block_of. finstep; [|fint].
  apply fin_block with (n := f - 3); try lia.
  - intros. apply fin_parse_statement. lia.
  - destruct (fst s); lia.
Qed.

(** ** More fuel, same result *)

Definition le_fuel {S A} (m1 m2 : S -> res S A) : Prop := forall s, m1 s = RFuel \/ m1 s = m2 s.

Section Mono.
Context {S : Type}.
Variable nx pk : S -> option token * S.
Variable ns : S -> list token * S.

Lemma le_refl {A} (m : S -> res S A) : le_fuel m m.
Proof. intros s. auto. Qed.
Lemma le_bind {A B} (m1 m2 : S -> res S A) (k1 k2 : A -> S -> res S B) :
  le_fuel m1 m2 -> (forall a, le_fuel (k1 a) (k2 a)) -> le_fuel (bind m1 k1) (bind m2 k2).
Proof.
  intros Hm Hk s. unfold bind. destruct (Hm s) as [->| ->]; [auto|].
  destruct (m2 s); auto. apply Hk.
Qed.
Lemma le_out {A} (m : S -> res S A) : le_fuel out_of_fuel m.
Proof. intros s. left. reflexivity. Qed.

Create HintDb mono.
Hint Resolve le_refl le_out : mono.
Ltac mstep :=
  match goal with
  | |- le_fuel (bind _ _) (bind _ _) => apply le_bind; [|intros ?]
  | |- le_fuel (match ?x with _ => _ end) _ => destruct x
  | _ => solve [auto with mono]
  end.
Ltac mt := repeat mstep.
Ltac fuels f f' H IH := induction f as [|f IH]; intros [|f'] H; try (exfalso; lia); try apply le_out.

Lemma le_accesses f : forall f', f <= f' -> le_fuel (accesses_loop nx pk f) (accesses_loop nx pk f').
Proof. fuels f f' H IH. cbn [accesses_loop]. assert (f <= f') by lia. mt. Qed.
Hint Resolve le_accesses : mono.
Lemma le_va f f' t : f <= f' -> le_fuel (va_parse nx pk f t) (va_parse nx pk f' t).
Proof. intros H. unfold va_parse. mt. Qed.
Hint Resolve le_va : mono.

Section Exprs.
Variables pe pe' : token -> S -> res S expr.
Hypothesis Hpe : forall t, le_fuel (pe t) (pe' t).
Hint Resolve Hpe : mono.
Lemma le_binary op : le_fuel (binary_parse nx pk pe op) (binary_parse nx pk pe' op).
Proof. unfold binary_parse. mt. Qed.
Lemma le_unary op : le_fuel (unary_parse nx pe op) (unary_parse nx pe' op).
Proof. unfold unary_parse. mt. Qed.
Lemma le_nary_loop f : forall f', f <= f' -> le_fuel (nary_loop nx pk pe f) (nary_loop nx pk pe' f').
Proof. fuels f f' H IH. cbn [nary_loop]. assert (f <= f') by lia. mt. Qed.
Hint Resolve le_nary_loop : mono.
Lemma le_nary f f' op : f <= f' -> le_fuel (nary_parse nx pk pe f op) (nary_parse nx pk pe' f' op).
Proof. intros H. unfold nary_parse. mt. Qed.
Lemma le_visible_loop f : forall f', f <= f' -> le_fuel (visible_loop nx pk pe f) (visible_loop nx pk pe' f').
Proof. fuels f f' H IH. cbn [visible_loop]. assert (f <= f') by lia. mt. Qed.
Lemma le_i_iz_loop f : forall f', f <= f' -> le_fuel (i_iz_loop nx pk pe f) (i_iz_loop nx pk pe' f').
Proof. fuels f f' H IH. cbn [i_iz_loop]. assert (f <= f') by lia. mt. Qed.
End Exprs.
Hint Resolve le_binary le_unary le_nary le_visible_loop le_i_iz_loop : mono.

Lemma le_expr f : forall f' t, f <= f' -> le_fuel (expr_parse nx pk f t) (expr_parse nx pk f' t).
Proof.
  induction f as [|f IH]; intros [|f'] t H; try (exfalso; lia); try apply le_out.
  cbn [expr_parse]. assert (f <= f') by lia. 
  destruct (tok_type t) as [|k| | | | | | | | |]; try destruct k; mt.
Qed.
Hint Resolve le_expr : mono.

Lemma le_assignment f f' v : f <= f' -> le_fuel (assignment_parse nx pk f v) (assignment_parse nx pk f' v).
Proof. intros H. unfold assignment_parse. mt. Qed.
Lemma le_set_slot f f' v : f <= f' -> le_fuel (bukkit_set_slot_parse nx pk f v) (bukkit_set_slot_parse nx pk f' v).
Proof. intros H. unfold bukkit_set_slot_parse. mt. Qed.
Lemma le_i_has_a f f' t : f <= f' -> le_fuel (i_has_a_parse nx pk f t) (i_has_a_parse nx pk f' t).
Proof. intros H. unfold i_has_a_parse. mt. Qed.
Lemma le_visible f f' t : f <= f' -> le_fuel (visible_parse nx pk f t) (visible_parse nx pk f' t).
Proof. intros H. unfold visible_parse. mt. Qed.
Lemma le_gimmeh f f' t : f <= f' -> le_fuel (gimmeh_parse nx pk f t) (gimmeh_parse nx pk f' t).
Proof. intros H. unfold gimmeh_parse. mt. Qed.
Lemma le_found_yr f f' t : f <= f' -> le_fuel (found_yr_parse nx pk f t) (found_yr_parse nx pk f' t).
Proof. intros H. unfold found_yr_parse. mt. Qed.
Lemma le_i_iz f f' t : f <= f' -> le_fuel (i_iz_parse nx pk f t) (i_iz_parse nx pk f' t).
Proof. intros H. unfold i_iz_parse. mt. Qed.
Hint Resolve le_assignment le_set_slot le_i_has_a le_visible le_gimmeh le_found_yr le_i_iz : mono.

Lemma le_catch (m m' : S -> res S node) : le_fuel m m' -> le_fuel (catch m) (catch m').
Proof. intros H s. unfold catch. destruct (H s) as [->| ->]; auto. Qed.
Hint Resolve le_catch : mono.
Lemma le_block ps ps' stop f : (forall t, le_fuel (ps t) (ps' t)) -> forall f', f <= f' ->
  le_fuel (parse_block nx pk ns ps stop f) (parse_block nx pk ns ps' stop f').
Proof. intros Hps. fuels f f' H IH. cbn [parse_block]. assert (f <= f') by lia. mt. Qed.

Section Blocks.
Variables pb pb' : (token -> bool) -> S -> res S (list node).
Hypothesis Hpb : forall stop, le_fuel (pb stop) (pb' stop).
Hint Resolve Hpb : mono.
Lemma le_block_of stop : le_fuel (block_of (pb stop)) (block_of (pb' stop)).
Proof. unfold block_of. mt. Qed.
Hint Resolve le_block_of : mono.
Lemma le_iteration f f' : f <= f' -> le_fuel (iteration_operation_parse nx pk f) (iteration_operation_parse nx pk f').
Proof. intros H. unfold iteration_operation_parse. mt. Qed.
Lemma le_conditional f f' : f <= f' -> le_fuel (conditional_parse nx pk f) (conditional_parse nx pk f').
Proof. intros H. unfold conditional_parse. mt. Qed.
Hint Resolve le_iteration le_conditional : mono.
Lemma le_im_in_yr f f' t : f <= f' -> le_fuel (im_in_yr_parse nx pk ns pb f t) (im_in_yr_parse nx pk ns pb' f' t).
Proof. intros H. unfold im_in_yr_parse. mt. Qed.
Lemma le_how_iz_i_loop f : forall f', f <= f' -> le_fuel (how_iz_i_loop nx pk f) (how_iz_i_loop nx pk f').
Proof. fuels f f' H IH. cbn [how_iz_i_loop]. assert (f <= f') by lia. mt. Qed.
Hint Resolve le_how_iz_i_loop : mono.
Lemma le_how_iz_i f f' t : f <= f' -> le_fuel (how_iz_i_parse nx pk ns pb f t) (how_iz_i_parse nx pk ns pb' f' t).
Proof. intros H. unfold how_iz_i_parse. mt. Qed.
Lemma le_omg_loop pe pe' f : (forall t, le_fuel (pe t) (pe' t)) -> forall f', f <= f' ->
  le_fuel (omg_loop nx pk ns pb pe f) (omg_loop nx pk ns pb' pe' f').
Proof. intros Hpe. fuels f f' H IH. cbn [omg_loop]. assert (f <= f') by lia. mt. Qed.
Lemma le_mebbe_loop pe pe' f : (forall t, le_fuel (pe t) (pe' t)) -> forall f', f <= f' ->
  le_fuel (mebbe_loop nx pk ns pb pe f) (mebbe_loop nx pk ns pb' pe' f').
Proof. intros Hpe. fuels f f' H IH. cbn [mebbe_loop]. assert (f <= f') by lia. mt. Qed.
Hint Resolve le_omg_loop le_mebbe_loop : mono.
Lemma le_wtf f f' t : f <= f' -> le_fuel (wtf_parse nx pk ns pb f t) (wtf_parse nx pk ns pb' f' t).
Proof. intros H. unfold wtf_parse. mt. Qed.
Lemma le_o_rly f f' t : f <= f' -> le_fuel (o_rly_parse nx pk ns pb f t) (o_rly_parse nx pk ns pb' f' t).
Proof. intros H. unfold o_rly_parse. mt. Qed.
End Blocks.
Hint Resolve le_block le_im_in_yr le_how_iz_i le_wtf le_o_rly : mono.

Lemma le_as_node {A} (g : A -> node) (m m' : S -> res S A) : le_fuel m m' -> le_fuel (as_node g m) (as_node g m').
Proof. intros H. unfold as_node. mt. Qed.
Hint Resolve le_as_node : mono.
Lemma le_va_statement f f' t : f <= f' -> le_fuel (va_statement nx pk f t) (va_statement nx pk f' t).
Proof. intros H. unfold va_statement. mt. Qed.
Hint Resolve le_va_statement : mono.
Lemma le_statement f : forall f' t, f <= f' ->
  le_fuel (parse_statement nx pk ns f t) (parse_statement nx pk ns f' t).
Proof.
  induction f as [|f IH]; intros [|f'] t H; try (exfalso; lia); try apply le_out.
  cbn [parse_statement]. assert (f <= f') by lia.
  destruct (va_is_valid t); [mt|].
  destruct (tok_type t) as [|k| | | | | | | | |]; try destruct k; auto 10 with mono.
Qed.
Lemma le_root f f' : f <= f' -> le_fuel (parse_block_root nx pk ns f) (parse_block_root nx pk ns f').
Proof. intros H. unfold parse_block_root, block_of. pose proof (fun t => le_statement f f' t H). mt. Qed.
End Mono.

Lemma fuel_irrelevant {S A} (m m' : S -> res S A) s : le_fuel m m' -> m s <> RFuel -> m' s = m s.
Proof. intros H H'. destruct (H s) as [E|E]; congruence. Qed.

Lemma fin_not_fuel {A} n (r : res lstate A) : fin n r -> r <> RFuel.
Proof. intros H ->. exact H. Qed.

(** ** The tokens of the logical lines are tokens of the vector *)

Lemma lsum_filter_concat p (gs : list (list token)) : lsum (filter p gs) <= lsum gs.
Proof.
  unfold lsum. induction gs as [|g gs IH]; cbn [filter concat]; [lia|].
  destruct (p g); cbn [concat]; rewrite ?app_length; lia.
Qed.
Lemma lsum_map_filter p (gs : list (list token)) : lsum (map (filter p) gs) <= lsum gs.
Proof.
  unfold lsum. induction gs as [|g gs IH]; cbn [map concat]; [lia|]. rewrite !app_length.
  assert (length (filter p g) <= length g).
  { clear. induction g as [|t g IH]; cbn [filter length]; [lia|]. destruct (p t); cbn [length]; lia. }
  lia.
Qed.
Lemma chunks_concat ts : concat (chunks ts) = ts.
Proof.
  induction ts as [|t ts IH]; [reflexivity|]. destruct ts as [|u ts]; [reflexivity|].
  destruct (chunks_cons t u ts) as (g & gs & E & _ & ->). rewrite E in IH.
  destruct (joined t u); cbn [concat app] in *; f_equal; assumption.
Qed.
Lemma lsum_lines ts : lsum (logical_lines ts) <= length ts.
Proof.
  assert (H : lsum (statements ts) <= length ts).
  { unfold statements. etransitivity; [apply lsum_map_filter|]. etransitivity; [apply lsum_filter_concat|].
    unfold lsum. rewrite chunks_concat. lia. }
  destruct ts as [|t ts]; [cbn; lia|]. unfold logical_lines. destruct (is_comma t); exact H.
Qed.
Lemma sz_start ls : sz (l_start ls) = lsum ls.
Proof. pose proof (sz_statement [] ls). cbn [length] in H. unfold sz at 2 in H. cbn [fst snd length] in H. lia. Qed.

(** ** A block is never an [Err] *)

Definition no_err {S A} (r : res S A) : Prop := match r with RErr _ _ => False | _ => True end.
Lemma no_err_bind {S A B} (m : S -> res S A) (k : A -> S -> res S B) s :
  no_err (m s) -> (forall a s', no_err (k a s')) -> no_err (bind m k s).
Proof. intros Hm Hk. unfold bind. destruct (m s); cbn in *; auto. Qed.
Lemma no_err_catch {S} (m : S -> res S node) s : no_err (catch m s).
Proof. unfold catch. destruct (m s); exact I. Qed.
Lemma no_err_end {S} (ns : S -> list token * S) s : no_err (end_of_statement ns s).
Proof. unfold end_of_statement. destruct (next_statement_should_be_empty ns s); exact I. Qed.
Lemma no_err_next {S} (nx : S -> option token * S) s : no_err (next nx s).
Proof. unfold next. destruct (nx s). exact I. Qed.
Lemma no_err_peek {S} (nx : S -> option token * S) s : no_err (peek nx s).
Proof. unfold peek. destruct (nx s). exact I. Qed.

Lemma block_no_err {S} (nx pk : S -> option token * S) ns ps stop f :
  forall s, no_err (parse_block nx pk ns ps stop f s).
Proof.
  induction f as [|f IH]; intros s; [exact I|]. cbn [parse_block].
  apply no_err_bind; [apply no_err_next|]. intros o s1.
  apply no_err_bind.
  - destruct o; [|exact I]. apply no_err_bind; [apply no_err_catch|]. intros; exact I.
  - intros l s2. apply no_err_bind; [apply no_err_end|]. intros l2 s3.
    apply no_err_bind; [apply no_err_peek|]. intros [t|] s4; [|exact I].
    destruct (stop t); [exact I|]. apply no_err_bind; [apply IH|]. intros; exact I.
Qed.
Lemma root_no_err {S} (nx pk : S -> option token * S) ns f s : no_err (parse_block_root nx pk ns f s).
Proof. unfold parse_block_root, block_of. apply no_err_bind; [apply block_no_err|]. intros; exact I. Qed.

Theorem parse_lines_fuel f ls : lsum ls + 3 < f ->
  parse_lines f ls = parse_lines (lsum ls + 4) ls /\ parse_lines f ls <> ParseFuel.
Proof.
  intros H. unfold parse_lines.
  assert (H0 : fin (sz (l_start ls)) (parse_block_root l_next l_peek l_next_statement (lsum ls + 4) (l_start ls))).
  { apply fin_root. rewrite sz_start. lia. }
  assert (E : parse_block_root l_next l_peek l_next_statement f (l_start ls) =
              parse_block_root l_next l_peek l_next_statement (lsum ls + 4) (l_start ls)).
  { apply fuel_irrelevant; [|eapply fin_not_fuel; eassumption]. apply le_root. lia. }
  rewrite E. split; [reflexivity|].
  pose proof (root_no_err l_next l_peek l_next_statement (lsum ls + 4) (l_start ls)) as HE.
  destruct (parse_block_root _ _ _ _ _) as [b s|e s|c|]; cbn [result_of fin] in *; discriminate || contradiction.
Qed.

Definition parse_logical (ls : list (list token)) : parse_result := parse_lines (lsum ls + 4) ls.

Theorem parse_logical_lines ts : parse ts = parse_logical (logical_lines ts).
Proof.
  rewrite parse_is_parse_lines. apply parse_lines_fuel. unfold parse_fuel. pose proof (lsum_lines ts). lia.
Qed.

Theorem parse_terminates ts : parse ts <> ParseFuel.
Proof.
  rewrite parse_logical_lines. unfold parse_logical. apply parse_lines_fuel. lia.
Qed.
