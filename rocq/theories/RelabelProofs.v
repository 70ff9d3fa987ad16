(** The parser commutes with every relabelling of the tokens that keeps their
    kinds. *)
From Verif Require Import Lines LinesSim ParseFuel.
From Verif Require Export Relabel.

Section Hom.
Variable f : token -> token.
Hypothesis Hf : forall t, tok_kind (f t) = tok_kind t.
Ltac kinds t :=
  let HK := fresh "HK" in
  pose proof (Hf t) as HK; unfold tok_kind in HK;
  destruct (tok_type t) as [|?k|[|?c [|]]| | | | | | | |], (tok_type (f t)) as [|?k|[|?c [|]]| | | | | | | |];
  cbn [kind_of] in HK;
  repeat match type of HK with context [N.eqb ?a ?b] => destruct (N.eqb_spec a b) end;
  try discriminate HK;
  [> (try (injection HK as ->); subst) ..].

Definition map_state (s : lstate) : lstate := (map f (fst s), map (map f) (snd s)).
Definition map_res {A B} (g : A -> B) (r : res lstate A) : res lstate B :=
  match r with
  | ROk a s => ROk (g a) (map_state s)
  | RErr e s => RErr (map_error f e) (map_state s)
  | RPanic c => RPanic (map_cause f c)
  | RFuel => RFuel
  end.
(** [m'] does on the relabelled state what [m] does. *)
Definition hom {A B} (g : A -> B) (m : lstate -> res lstate A) (m' : lstate -> res lstate B) : Prop :=
  forall s, m' (map_state s) = map_res g (m s).

Lemma hom_bind {A A' B B'} (g : A -> A') (h : B -> B') m m' k k' :
  hom g m m' -> (forall a, hom h (k a) (k' (g a))) -> hom h (bind m k) (bind m' k').
Proof.
  intros Hm Hk s. unfold bind. rewrite Hm. destruct (m s); cbn [map_res]; auto. apply Hk.
Qed.
Lemma hom_ret {A B} (g : A -> B) a b : b = g a -> hom g (ret a) (ret b).
Proof. intros -> s. reflexivity. Qed.
Lemma hom_fail {A B} (g : A -> B) e e' : e' = map_error f e -> hom g (fail e) (fail e').
Proof. intros -> s. reflexivity. Qed.
Lemma hom_panic {A B} (g : A -> B) c c' : c' = map_cause f c -> hom g (panic c) (panic c').
Proof. intros -> s. reflexivity. Qed.
Lemma hom_fuel {A B} (g : A -> B) : hom g out_of_fuel out_of_fuel.
Proof. intros s. reflexivity. Qed.
Lemma hom_next : hom (option_map f) (next l_next) (next l_next).
Proof. intros [[|t c] ls]; reflexivity. Qed.
Lemma hom_peek : hom (option_map f) (peek l_peek) (peek l_peek).
Proof. intros [[|t c] ls]; reflexivity. Qed.
Lemma hom_next_statement : hom (map f) (next_statement l_next_statement) (next_statement l_next_statement).
Proof. intros [c [|l ls]]; reflexivity. Qed.

Lemma is_kw_f k t : is_kw k (f t) = is_kw k t.
Proof. unfold is_kw. kinds t; try reflexivity. Qed.
Lemma is_identifier_f t : is_identifier (f t) = is_identifier t.
Proof. unfold is_identifier. kinds t; try reflexivity. Qed.
Lemma is_slot_f t : is_slot_access (f t) = is_slot_access t.
Proof. unfold is_slot_access. kinds t; try reflexivity. Qed.
Lemma is_exclamation_f t : is_exclamation (f t) = is_exclamation t.
Proof. unfold is_exclamation. kinds t; try reflexivity. Qed.
Lemma is_question_f t : is_question_symbol (f t) = is_question_symbol t.
Proof.
  unfold is_question_symbol. kinds t; try reflexivity;
    repeat match goal with |- context [list_eq_dec ?d ?x ?y] => destruct (list_eq_dec d x y) as [?E|?E] end;
    try reflexivity; try discriminate; try (injection E; intros; contradiction); try (injection E0; intros; contradiction).
Qed.
Lemma va_is_valid_f t : va_is_valid (f t) = va_is_valid t.
Proof. unfold va_is_valid. rewrite is_kw_f, is_identifier_f. reflexivity. Qed.
Lemma try_from_f t : ast_type_try_from (f t) = option_map (map_type f) (ast_type_try_from t).
Proof. unfold ast_type_try_from. kinds t; try reflexivity. destruct k; reflexivity. Qed.
Lemma binary_token_f o : binary_opt_token (map_binary f o) = f (binary_opt_token o).
Proof. destruct o; reflexivity. Qed.
Lemma unary_token_f o : unary_opt_token (map_unary f o) = f (unary_opt_token o).
Proof. destruct o; reflexivity. Qed.
Lemma last_token_f v : va_last_token (map_va f v) = f (va_last_token v).
Proof.
  unfold va_last_token. destruct v as [i sl]. cbn [map_va va_accesses va_identifier].
  rewrite <- map_rev. destruct (rev sl); reflexivity.
Qed.
Lemma operation_token_f o : loop_operation_token (map_operation f o) = f (loop_operation_token o).
Proof. destruct o; reflexivity. Qed.

Create HintDb hom.
Hint Resolve hom_fuel hom_next hom_peek hom_next_statement : hom.

Ltac rw := rewrite ?is_kw_f, ?is_identifier_f, ?is_slot_f, ?is_exclamation_f, ?is_question_f, ?va_is_valid_f,
  ?try_from_f, ?binary_token_f, ?unary_token_f, ?last_token_f, ?operation_token_f.
Ltac homstep :=
  cbn [option_map map]; rw;
  match goal with
  | |- hom _ (bind _ _) (bind _ _) => eapply hom_bind; [solve [eauto 2 with hom]|intros ?]
  | |- hom _ (ret _) (ret _) => apply hom_ret; reflexivity
  | |- hom _ (fail _) (fail _) => apply hom_fail; cbn [map_error]; rw; reflexivity
  | |- hom _ (panic _) (panic _) => apply hom_panic; reflexivity
  | |- hom _ (match tok_type _ with _ => _ end) _ => fail 1
  | |- hom _ (match ?x with _ => _ end) _ => destruct x
  | _ => solve [auto with hom]
  end.
Ltac homt := repeat homstep.

Lemma hom_next_if p : (forall t, p (f t) = p t) ->
  hom (option_map f) (next_if l_next l_peek p) (next_if l_next l_peek p).
Proof.
  intros Hp. unfold next_if. eapply hom_bind; [apply hom_peek|]. intros [t|]; cbn [option_map]; [|homt].
  rewrite Hp. destruct (p t); homt.
Qed.
Lemma hom_next_if_kw k : hom (option_map f) (next_if l_next l_peek (is_kw k)) (next_if l_next l_peek (is_kw k)).
Proof. apply hom_next_if, is_kw_f. Qed.
Lemma hom_next_if_slot : hom (option_map f) (next_if l_next l_peek is_slot_access) (next_if l_next l_peek is_slot_access).
Proof. apply hom_next_if, is_slot_f. Qed.
Lemma hom_next_if_bang : hom (option_map f) (next_if l_next l_peek is_exclamation) (next_if l_next l_peek is_exclamation).
Proof. apply hom_next_if, is_exclamation_f. Qed.
Lemma hom_next_if_not_kw k : hom (option_map f) (next_if l_next l_peek (fun t => negb (is_kw k t)))
  (next_if l_next l_peek (fun t => negb (is_kw k t))).
Proof. apply hom_next_if. intros t. rewrite is_kw_f. reflexivity. Qed.
Lemma hom_next_if_no_bang : hom (option_map f) (next_if l_next l_peek (fun t => negb (is_exclamation t)))
  (next_if l_next l_peek (fun t => negb (is_exclamation t))).
Proof. apply hom_next_if. intros t. rewrite is_exclamation_f. reflexivity. Qed.
Lemma hom_next_if_kws k k' : hom (option_map f) (next_if l_next l_peek (fun t => is_kw k t || is_kw k' t)%bool)
  (next_if l_next l_peek (fun t => is_kw k t || is_kw k' t)%bool).
Proof. apply hom_next_if. intros t. rewrite !is_kw_f. reflexivity. Qed.
Hint Resolve hom_next_if_kw hom_next_if_slot hom_next_if_bang hom_next_if_not_kw hom_next_if_no_bang hom_next_if_kws : hom.

Lemma hom_should_be_empty : hom (fun u => u) (next_statement_should_be_empty l_next_statement)
  (next_statement_should_be_empty l_next_statement).
Proof. unfold next_statement_should_be_empty. homt. Qed.
Hint Resolve hom_should_be_empty : hom.
Lemma hom_identifier t : hom (map_identifier f) (identifier_parse l_next t) (identifier_parse l_next (f t)).
Proof.
  unfold identifier_parse. kinds t; try destruct k; homt; cbn [option_map]; kinds t0; homt.
Qed.
Hint Resolve hom_identifier : hom.
Lemma hom_accesses n : hom (map (map_slot f)) (accesses_loop l_next l_peek n) (accesses_loop l_next l_peek n).
Proof. induction n as [|n IH]; cbn [accesses_loop]; homt. Qed.
Hint Resolve hom_accesses : hom.
Lemma hom_va n t : hom (map_va f) (va_parse l_next l_peek n t) (va_parse l_next l_peek n (f t)).
Proof. unfold va_parse. homt. Qed.
Hint Resolve hom_va : hom.

Section Exprs.
Variable pe : token -> lstate -> res lstate expr.
Hypothesis Hpe : forall t, hom (map_expr f) (pe t) (pe (f t)).
Hint Resolve Hpe : hom.
Lemma hom_binary op : hom (map_expr f) (binary_parse l_next l_peek pe op) (binary_parse l_next l_peek pe (map_binary f op)).
Proof. unfold binary_parse. homt. Qed.
Lemma hom_unary op : hom (map_expr f) (unary_parse l_next pe op) (unary_parse l_next pe (map_unary f op)).
Proof. unfold unary_parse. homt. Qed.
Lemma hom_nary_loop n : hom (map (map_operand f)) (nary_loop l_next l_peek pe n) (nary_loop l_next l_peek pe n).
Proof. induction n as [|n IH]; cbn [nary_loop]; homt. Qed.
Hint Resolve hom_nary_loop : hom.
Lemma hom_nary n op : hom (map_expr f) (nary_parse l_next l_peek pe n op) (nary_parse l_next l_peek pe n (map_nary f op)).
Proof. unfold nary_parse. homt. Qed.
Lemma hom_visible_loop n : hom (map (map_expr f)) (visible_loop l_next l_peek pe n) (visible_loop l_next l_peek pe n).
Proof. induction n as [|n IH]; cbn [visible_loop]; homt. Qed.
Lemma hom_i_iz_loop n : hom (map (map_expr f)) (i_iz_loop l_next l_peek pe n) (i_iz_loop l_next l_peek pe n).
Proof. induction n as [|n IH]; cbn [i_iz_loop]; homt. Qed.
End Exprs.
Hint Resolve hom_binary hom_unary hom_nary hom_visible_loop hom_i_iz_loop : hom.

Lemma hom_expr n : forall t, hom (map_expr f) (expr_parse l_next l_peek n t) (expr_parse l_next l_peek n (f t)).
Proof.
  induction n as [|n IH]; intro t; cbn [expr_parse]; [homt|]. cbv zeta. rw.
  kinds t; try (homt; fail).
  destruct k; try (homt; fail).
  all: try (match goal with |- hom _ (binary_parse _ _ _ ?o) (binary_parse _ _ _ ?o') =>
         change o' with (map_binary f o); apply hom_binary, IH end).
  all: try (match goal with |- hom _ (nary_parse _ _ _ _ ?o) (nary_parse _ _ _ _ ?o') =>
         change o' with (map_nary f o); apply hom_nary, IH end).
  match goal with |- hom _ (unary_parse _ _ ?o) (unary_parse _ _ ?o') =>
         change o' with (map_unary f o); apply hom_unary, IH end.
Qed.
Hint Resolve hom_expr : hom.

Lemma hom_assignment n v : hom (map_assignment f) (assignment_parse l_next l_peek n v) (assignment_parse l_next l_peek n (map_va f v)).
Proof. unfold assignment_parse. homt. Qed.
Lemma hom_set_slot n v : hom (map_set_slot f) (bukkit_set_slot_parse l_next l_peek n v)
  (bukkit_set_slot_parse l_next l_peek n (map_va f v)).
Proof. unfold bukkit_set_slot_parse. homt. Qed.
Lemma hom_i_has_a n t : hom (map_i_has_a f) (i_has_a_parse l_next l_peek n t) (i_has_a_parse l_next l_peek n (f t)).
Proof. unfold i_has_a_parse. homt. Qed.
Lemma hom_visible n t : hom (map_visible f) (visible_parse l_next l_peek n t) (visible_parse l_next l_peek n (f t)).
Proof. unfold visible_parse. homt. Qed.
Lemma hom_gimmeh n t : hom (map_gimmeh f) (gimmeh_parse l_next l_peek n t) (gimmeh_parse l_next l_peek n (f t)).
Proof. unfold gimmeh_parse. homt. Qed.
Lemma hom_found_yr n t : hom (map_found_yr f) (found_yr_parse l_next l_peek n t) (found_yr_parse l_next l_peek n (f t)).
Proof. unfold found_yr_parse. homt. Qed.
Lemma hom_hai t : hom (map_hai f) (hai_parse l_next_statement t) (hai_parse l_next_statement (f t)).
Proof. unfold hai_parse. homt. Qed.
Lemma hom_i_iz n t : hom (map_i_iz f) (i_iz_parse l_next l_peek n t) (i_iz_parse l_next l_peek n (f t)).
Proof. unfold i_iz_parse. homt. Qed.
Hint Resolve hom_assignment hom_set_slot hom_i_has_a hom_visible hom_gimmeh hom_found_yr hom_hai hom_i_iz : hom.

Lemma hom_catch m m' : hom (map_node f) m m' -> hom (map_node f) (catch m) (catch m').
Proof. intros H s. unfold catch. rewrite H. destruct (m s); reflexivity. Qed.
Hint Resolve hom_catch : hom.
Lemma hom_end_of_statement : hom (map (map_node f)) (end_of_statement l_next_statement) (end_of_statement l_next_statement).
Proof.
  intros s. unfold end_of_statement. rewrite hom_should_be_empty.
  destruct (next_statement_should_be_empty l_next_statement s); reflexivity.
Qed.
Hint Resolve hom_end_of_statement : hom.

Lemma hom_block ps stop n : (forall t, hom (map_node f) (ps t) (ps (f t))) -> (forall t, stop (f t) = stop t) ->
  hom (map (map_node f)) (parse_block l_next l_peek l_next_statement ps stop n)
                         (parse_block l_next l_peek l_next_statement ps stop n).
Proof.
  intros Hps Hstop. induction n as [|n IH]; cbn [parse_block]; [homt|].
  eapply hom_bind; [apply hom_next|]. intros o.
  apply hom_bind with (g := map (map_node f)).
  { destruct o as [t|]; cbn [option_map]; [|homt]. eapply hom_bind; [apply hom_catch, Hps|]. intros. homt. }
  intros l. eapply hom_bind; [apply hom_end_of_statement|]. intros errs.
  eapply hom_bind; [apply hom_peek|]. intros [t|]; cbn [option_map].
  - rewrite Hstop. destruct (stop t).
    + apply hom_ret. rewrite map_app. reflexivity.
    + eapply hom_bind; [exact IH|]. intros rest. apply hom_ret. rewrite !map_app. reflexivity.
  - apply hom_ret. rewrite map_app. reflexivity.
Qed.

Section Blocks.
Variable pb : (token -> bool) -> lstate -> res lstate (list node).
Hypothesis Hpb : forall stop, (forall t, stop (f t) = stop t) -> hom (map (map_node f)) (pb stop) (pb stop).
Lemma hom_block_of stop : (forall t, stop (f t) = stop t) -> hom (map_block f) (block_of (pb stop)) (block_of (pb stop)).
Proof. intros H. unfold block_of. eapply hom_bind; [apply Hpb, H|]. intros. homt. Qed.
Lemma hom_loop_block : hom (map_block f) (block_of (pb stop_loop)) (block_of (pb stop_loop)).
Proof. apply hom_block_of. intros t. unfold stop_loop. rw. reflexivity. Qed.
Lemma hom_function_block : hom (map_block f) (block_of (pb stop_function)) (block_of (pb stop_function)).
Proof. apply hom_block_of. intros t. unfold stop_function. rw. reflexivity. Qed.
Lemma hom_if_block : hom (map_block f) (block_of (pb stop_if)) (block_of (pb stop_if)).
Proof. apply hom_block_of. intros t. unfold stop_if. rw. reflexivity. Qed.
Lemma hom_switch_block : hom (map_block f) (block_of (pb stop_switch)) (block_of (pb stop_switch)).
Proof. apply hom_block_of. intros t. unfold stop_switch. rw. reflexivity. Qed.
Hint Resolve hom_loop_block hom_function_block hom_if_block hom_switch_block : hom.
Lemma hom_iteration n : hom (option_map (map_iteration f)) (iteration_operation_parse l_next l_peek n) (iteration_operation_parse l_next l_peek n).
Proof.
  unfold iteration_operation_parse. eapply hom_bind; [auto with hom|]. intros [t|]; cbn [option_map]; [|homt].
  cbv zeta. rw. assert (E : (if is_kw UPPIN t then LUppin (f t) else LNerfin (f t)) =
    map_operation f (if is_kw UPPIN t then LUppin t else LNerfin t)) by (destruct (is_kw UPPIN t); reflexivity).
  rewrite E. generalize (if is_kw UPPIN t then LUppin t else LNerfin t). intros o. homt.
Qed.
Lemma hom_conditional n : hom (option_map (map_condition f)) (conditional_parse l_next l_peek n) (conditional_parse l_next l_peek n).
Proof.
  unfold conditional_parse. homt. apply hom_ret. destruct (is_kw TIL t); reflexivity.
Qed.
Hint Resolve hom_iteration hom_conditional : hom.
Lemma hom_im_in_yr n t : hom (map_im_in_yr f) (im_in_yr_parse l_next l_peek l_next_statement pb n t)
  (im_in_yr_parse l_next l_peek l_next_statement pb n (f t)).
Proof. unfold im_in_yr_parse. homt. Qed.
Lemma hom_how_iz_i_loop n : hom (map (map_identifier f)) (how_iz_i_loop l_next l_peek n) (how_iz_i_loop l_next l_peek n).
Proof. induction n as [|n IH]; cbn [how_iz_i_loop]; homt. Qed.
Hint Resolve hom_how_iz_i_loop : hom.
Lemma hom_how_iz_i n t : hom (map_how_iz_i f) (how_iz_i_parse l_next l_peek l_next_statement pb n t)
  (how_iz_i_parse l_next l_peek l_next_statement pb n (f t)).
Proof. unfold how_iz_i_parse. homt. Qed.
Lemma hom_question t : hom (fun u => u) (question_mark l_next t) (question_mark l_next (f t)).
Proof. unfold question_mark. homt. Qed.
Lemma hom_oic t : hom (fun u => u) (oic l_next t) (oic l_next (f t)).
Proof. unfold oic. homt. Qed.
Hint Resolve hom_question hom_oic : hom.
Lemma hom_omg_loop pe n : (forall t, hom (map_expr f) (pe t) (pe (f t))) ->
  hom (map (map_omg f)) (omg_loop l_next l_peek l_next_statement pb pe n) (omg_loop l_next l_peek l_next_statement pb pe n).
Proof. intros Hpe. induction n as [|n IH]; cbn [omg_loop]; homt. Qed.
Lemma hom_mebbe_loop pe n : (forall t, hom (map_expr f) (pe t) (pe (f t))) ->
  hom (map (map_mebbe f)) (mebbe_loop l_next l_peek l_next_statement pb pe n) (mebbe_loop l_next l_peek l_next_statement pb pe n).
Proof. intros Hpe. induction n as [|n IH]; cbn [mebbe_loop]; homt. Qed.
Hint Resolve hom_omg_loop hom_mebbe_loop : hom.
Lemma hom_wtf n t : hom (map_wtf f) (wtf_parse l_next l_peek l_next_statement pb n t)
  (wtf_parse l_next l_peek l_next_statement pb n (f t)).
Proof.
  unfold wtf_parse. homt.
  eapply hom_bind with (g := option_map (map_omg_wtf f)); [homt|]. intros d. homt.
Qed.
Lemma hom_o_rly n t : hom (map_o_rly f) (o_rly_parse l_next l_peek l_next_statement pb n t)
  (o_rly_parse l_next l_peek l_next_statement pb n (f t)).
Proof.
  unfold o_rly_parse. homt.
  eapply hom_bind with (g := option_map (map_ya_rly f)); [homt|]. intros d. homt.
  eapply hom_bind with (g := option_map (map_no_wai f)); [homt|]. intros d'. homt.
Qed.
End Blocks.
Hint Resolve hom_im_in_yr hom_how_iz_i hom_wtf hom_o_rly : hom.

Lemma hom_as_node {A} (h : A -> A) (g : A -> node) m m' : hom h m m' -> (forall a, g (h a) = map_node f (g a)) ->
  hom (map_node f) (as_node g m) (as_node g m').
Proof. intros H Hg. unfold as_node. eapply hom_bind; [exact H|]. intros a. apply hom_ret, Hg. Qed.
Lemma hom_va_statement n t : hom (map_node f) (va_statement l_next l_peek n t) (va_statement l_next l_peek n (f t)).
Proof.
  unfold va_statement. homt.
  - eapply hom_as_node; [apply hom_assignment|reflexivity].
  - eapply hom_as_node; [apply hom_set_slot|reflexivity].
Qed.
Lemma hom_statement n : forall t, hom (map_node f) (parse_statement l_next l_peek l_next_statement n t)
  (parse_statement l_next l_peek l_next_statement n (f t)).
Proof.
  induction n as [|n IH]; intro t; cbn [parse_statement]; [homt|]. cbv zeta. rw.
  destruct (va_is_valid t); [apply hom_va_statement|].
  assert (Hpb : forall stop, (forall t, stop (f t) = stop t) -> hom (map (map_node f))
    (parse_block l_next l_peek l_next_statement (parse_statement l_next l_peek l_next_statement n) stop n)
    (parse_block l_next l_peek l_next_statement (parse_statement l_next l_peek l_next_statement n) stop n)).
  { intros stop Hs. apply hom_block; assumption. }
  kinds t; try destruct k;
    first [homt; fail | eapply hom_as_node; [solve [auto with hom]|reflexivity]].
Qed.
Lemma hom_root n : hom (map_block f) (parse_block_root l_next l_peek l_next_statement n)
  (parse_block_root l_next l_peek l_next_statement n).
Proof.
  unfold parse_block_root, block_of. eapply hom_bind; [|intros; homt].
  apply hom_block; [apply hom_statement|reflexivity].
Qed.

Lemma map_start ls : l_start (map (map f) ls) = map_state (l_start ls).
Proof. destruct ls; reflexivity. Qed.

Theorem parse_lines_map n ls : parse_lines n (map (map f) ls) = map_result f (parse_lines n ls).
Proof.
  unfold parse_lines. rewrite map_start, hom_root.
  destruct (parse_block_root l_next l_peek l_next_statement n (l_start ls)); reflexivity.
Qed.
Lemma lsum_map ls : lsum (map (map f) ls) = lsum ls.
Proof. unfold lsum. rewrite <- concat_map, map_length. reflexivity. Qed.
Theorem parse_logical_map ls : parse_logical (map (map f) ls) = map_result f (parse_logical ls).
Proof. unfold parse_logical. rewrite lsum_map. apply parse_lines_map. Qed.
End Hom.
