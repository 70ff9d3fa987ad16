(** A relabelling that is injective on a set of tokens is injective on the AST
    values over these tokens. *)
From Verif Require Import Eq EqSpec EqFacts.

Section Inj.
Variable f : token -> token.
Variable S : token -> Prop.
Hypothesis Hf : forall t u, S t -> S u -> f t = f u -> t = u.

Definition over (ts : list token) : Prop := Forall S ts.
Lemma over_app a b : over (a ++ b) <-> over a /\ over b.
Proof. apply Forall_app. Qed.
Lemma over_cons t b : over (t :: b) <-> S t /\ over b.
Proof. apply Forall_cons_iff. Qed.

Definition inj {A} (cn : A -> A) (tk : A -> list token) (a : A) : Prop :=
  forall b, over (tk a) -> over (tk b) -> cn a = cn b -> a = b.

Lemma inj_list {A} cn tk (l : list A) : Forall (inj cn tk) l -> inj (map cn) (flat_map tk) l.
Proof.
  induction 1 as [|x l Hx _ IH]; intros [|y m] Ha Hb E; try discriminate; [reflexivity|].
  cbn [flat_map] in Ha, Hb. apply over_app in Ha as [? ?], Hb as [? ?]. injection E as E1 E2.
  f_equal; auto.
Qed.
Lemma inj_list' {A} cn tk (l : list A) : (forall a, inj cn tk a) -> inj (map cn) (flat_map tk) l.
Proof. intros H. apply inj_list, Forall_forall. auto. Qed.
Lemma inj_option {A} cn tk (o : option A) : (forall a, o = Some a -> inj cn tk a) ->
  inj (option_map cn) (opt_tokens tk) o.
Proof.
  intros H [y|]; destruct o as [x|]; cbn; intros Ha Hb E; try discriminate; [|reflexivity].
  injection E as E. f_equal. apply (H x eq_refl); assumption.
Qed.
Lemma inj_opt o o' : over (opt_token o) -> over (opt_token o') -> option_map f o = option_map f o' -> o = o'.
Proof.
  destruct o, o'; cbn; intros Ha Hb E; try discriminate; [|reflexivity].
  injection E as E. f_equal. inversion Ha; inversion Hb; auto.
Qed.
Lemma inj_tokens l : inj (map f) (fun l => l) l.
Proof.
  induction l as [|x l IH]; intros [|y m] Ha Hb E; try discriminate; [reflexivity|].
  apply over_cons in Ha as [? ?], Hb as [? ?]. injection E as E1 E2. f_equal; auto.
Qed.

Ltac dec := repeat match goal with
  | H : over (_ ++ _) |- _ => apply over_app in H as [? ?]
  | H : over (_ :: _) |- _ => apply over_cons in H as [? ?]
  end.

Lemma inj_identifier i : inj (map_identifier f) identifier_tokens i.
Proof.
  destruct i as [n s]; intros [n' s']. unfold identifier_tokens, map_identifier. cbn [id_name id_srs].
  change (match s with Some s => [s] | None => [] end) with (opt_token s).
  change (match s' with Some s => [s] | None => [] end) with (opt_token s').
  intros Ha Hb E. dec. injection E as E1 E2. f_equal; [auto|apply inj_opt; auto].
Qed.
Lemma inj_slot i : inj (map_slot f) slot_tokens i.
Proof.
  destruct i as [n s]; intros [n' s']. unfold slot_tokens, map_slot. cbn [slot_access_token slot_identifier].
  intros Ha Hb E. dec. injection E as E1 E2 E3. f_equal; [auto|]. apply inj_identifier; auto.
  unfold map_identifier. congruence.
Qed.
Lemma inj_va i : inj (map_va f) va_tokens i.
Proof.
  destruct i as [n s]; intros [n' s']. unfold va_tokens, map_va. cbn [va_identifier va_accesses].
  intros Ha Hb E. dec. injection E as E1 E2 E3. f_equal.
  - apply inj_identifier; auto. unfold map_identifier. congruence.
  - apply (inj_list' _ slot_tokens s inj_slot); auto.
Qed.
Lemma inj_value i : inj (map_value f) value_tokens i.
Proof.
  destruct i as [v|t]; intros [v'|t']; cbn [map_value value_tokens]; intros Ha Hb E; try discriminate E.
  - f_equal. apply inj_va; auto. congruence.
  - dec. f_equal. apply Hf; auto. congruence.
Qed.
Lemma inj_binary o o' : S (binary_opt_token o) -> S (binary_opt_token o') -> map_binary f o = map_binary f o' -> o = o'.
Proof.
  destruct o, o'; cbn [binary_opt_token map_binary]; intros Ha Hb E; try discriminate E;
    (f_equal; apply Hf; [assumption|assumption|congruence]).
Qed.
Lemma inj_unary o o' : S (unary_opt_token o) -> S (unary_opt_token o') -> map_unary f o = map_unary f o' -> o = o'.
Proof.
  destruct o, o'; cbn [unary_opt_token map_unary]; intros Ha Hb E; try discriminate E;
    (f_equal; apply Hf; [assumption|assumption|congruence]).
Qed.
Lemma inj_nary o o' : S (nary_opt_token o) -> S (nary_opt_token o') -> map_nary f o = map_nary f o' -> o = o'.
Proof.
  destruct o, o'; cbn [nary_opt_token map_nary]; intros Ha Hb E; try discriminate E;
    (f_equal; apply Hf; [assumption|assumption|congruence]).
Qed.
Lemma inj_expr e : inj (map_expr f) expr_tokens e.
Proof.
  induction e as [l o r an IHl IHr|o x IH|o es mkay IH|v] using expr_ind';
    intros [l' o' r' an'|o' x'|o' es' mkay'|v']; rewrite ?map_nary_eq, ?map_binary_eq;
    cbn [expr_tokens]; intros Ha Hb E; try discriminate E; dec.
  - injection E as E1 E2 E3 E4. f_equal; [apply IHl|apply inj_binary|apply IHr|apply inj_opt]; auto.
  - cbn [map_expr] in E. injection E as E1 E2. f_equal; [apply inj_unary|apply IH]; auto.
  - injection E as E1 E2 E3. f_equal; [apply inj_nary; auto| |apply inj_opt; auto].
    change (fun x => match x with Operand e an => expr_tokens e ++ opt_token an end) with operand_tokens in *.
    apply (inj_list (map_operand f) operand_tokens es); auto.
    revert IH. apply Forall_impl. intros [x a] Hx [x' a']. cbn in Hx. rewrite !map_operand_eq.
    cbn [operand_tokens]. intros Ha' Hb' E. dec. injection E as E4 E5. f_equal; [apply Hx|apply inj_opt]; auto.
  - f_equal. apply inj_value; auto. cbn [map_expr] in E. congruence.
Qed.
Lemma inj_type a a' : S (ast_type_token a) -> S (ast_type_token a') -> map_type f a = map_type f a' -> a = a'.
Proof.
  destruct a, a'; cbn [ast_type_token map_type]; intros Ha Hb E; try discriminate E;
    (f_equal; apply Hf; [assumption|assumption|congruence]).
Qed.
Lemma inj_error e : inj (map_error f) error_tokens e.
Proof.
  intros e'. destruct e as [t|ts|[]|[]|[]|t|[]|t|[]|[]|[]], e' as [t'|ts'|[]|[]|[]|t'|[]|t'|[]|[]|[]];
    cbn [map_error error_tokens]; intros Ha Hb E; try discriminate E;
    try (dec; injection E as E; apply Hf in E; [subst; reflexivity|assumption|assumption]).
  injection E as E. f_equal. apply inj_tokens; auto.
Qed.
Lemma inj_initial i : inj (map_initial f) (fun i => initial_tokens (Some i)) i.
Proof.
  destruct i as [e|t]; intros [e'|t']; cbn [map_initial initial_tokens]; intros Ha Hb E; try discriminate E; injection E as E; f_equal.
  - apply inj_expr; auto.
  - dec. apply inj_type; auto.
Qed.
Lemma initial_opt v : initial_tokens v = opt_tokens (fun i => initial_tokens (Some i)) v.
Proof. destruct v as [[]|]; reflexivity. Qed.
Lemma iteration_opt v : iteration_tokens v = opt_tokens (fun i => iteration_tokens (Some i)) v.
Proof. destruct v as [[]|]; reflexivity. Qed.
Lemma condition_opt v : condition_tokens v = opt_tokens (fun i => condition_tokens (Some i)) v.
Proof. destruct v as [[]|]; reflexivity. Qed.

Lemma inj_i_has_a x : inj (map_i_has_a f) i_has_a_tokens x.
Proof.
  destruct x as [t i v]; intros [t' i' v']. unfold i_has_a_tokens, map_i_has_a.
  cbn [ihasa_token ihasa_identifier ihasa_initial_value]. rewrite !initial_opt. intros Ha Hb E. dec.
  injection E as E1 E2 E3 E4. f_equal; [auto|apply inj_identifier; auto; unfold map_identifier; congruence|].
  apply (inj_option _ _ v (fun a _ => inj_initial a)); auto.
Qed.
Lemma inj_hai x : inj (map_hai f) hai_tokens x.
Proof.
  destruct x as [t v]; intros [t' v']. unfold hai_tokens, map_hai. cbn [hai_token hai_version].
  intros Ha Hb E. dec. injection E as E1 E2. f_equal; [auto|apply inj_tokens; auto].
Qed.
Lemma inj_gimmeh x : inj (map_gimmeh f) gimmeh_tokens x.
Proof.
  destruct x as [t v]; intros [t' v']. unfold gimmeh_tokens, map_gimmeh. cbn [gimmeh_token gimmeh_variable_access].
  intros Ha Hb E. dec. inversion E. f_equal; [auto|apply inj_va; auto]. unfold map_va, map_identifier. congruence.
Qed.
Lemma inj_found_yr x : inj (map_found_yr f) found_yr_tokens x.
Proof.
  destruct x as [t v]; intros [t' v']. unfold found_yr_tokens, map_found_yr. cbn [found_yr_token found_yr_expression].
  intros Ha Hb E. dec. injection E as E1 E2. f_equal; [auto|apply inj_expr; auto].
Qed.
Lemma inj_assignment x : inj (map_assignment f) assignment_tokens x.
Proof.
  destruct x as [v e t]; intros [v' e' t']. unfold assignment_tokens, map_assignment.
  cbn [asg_variable_access asg_expression asg_r_token].
  generalize (inj_va v v'), (inj_expr e e'). intros Hv He Ha Hb E. dec.
  generalize dependent (map_va f v). generalize (map_va f v'). intros w w' Hv E. injection E as E1 E2 E3. f_equal; auto.
Qed.
Lemma inj_set_slot x : inj (map_set_slot f) set_slot_tokens x.
Proof.
  destruct x as [v i e]; intros [v' i' e']. unfold set_slot_tokens, map_set_slot. cbn [bss_bukkit bss_slot_name bss_value].
  generalize (inj_va v v'), (inj_identifier i i'), (inj_expr e e'). intros Hv Hi He Ha Hb E. dec.
  generalize dependent (map_va f v). generalize (map_va f v'). intros w w' Hv E.
  generalize dependent (map_identifier f i). generalize (map_identifier f i'). intros j j' Hi E.
  injection E as E1 E2 E3. f_equal; auto.
Qed.
Lemma inj_visible x : inj (map_visible f) visible_tokens x.
Proof.
  destruct x as [t es o]; intros [t' es' o']. unfold visible_tokens, map_visible.
  cbn [visible_token visible_expressions visible_exclamation_mark]. intros Ha Hb E. dec. injection E as E1 E2 E3.
  f_equal; [auto| |apply inj_opt; auto]. apply (inj_list' _ expr_tokens es inj_expr); auto.
Qed.
Lemma inj_i_iz x : inj (map_i_iz f) i_iz_tokens x.
Proof.
  destruct x as [t v es]; intros [t' v' es']. unfold i_iz_tokens, map_i_iz. cbn [iiz_token iiz_name iiz_arguments].
  generalize (inj_va v v'). intros Hv Ha Hb E. dec.
  generalize dependent (map_va f v). generalize (map_va f v'). intros w w' Hv E. injection E as E1 E2 E3.
  f_equal; auto. apply (inj_list' _ expr_tokens es inj_expr); auto.
Qed.
Lemma inj_iteration x : inj (map_iteration f) (fun x => iteration_tokens (Some x)) x.
Proof.
  destruct x as [o v]; intros [o' v']. unfold map_iteration, iteration_tokens. cbn [li_operation li_operand].
  generalize (inj_va v v'). intros Hv Ha Hb E. dec.
  generalize dependent (map_va f v). generalize (map_va f v'). intros w w' Hv E. injection E as E1 E2. f_equal; [|auto].
  destruct o, o'; cbn [map_operation loop_operation_token] in *; try discriminate E1; injection E1 as E1; f_equal; auto.
Qed.
Lemma inj_condition x : inj (map_condition f) (fun x => condition_tokens (Some x)) x.
Proof.
  destruct x as [e|e]; intros [e'|e']; cbn [map_condition condition_tokens]; intros Ha Hb E; try discriminate E;
    injection E as E; f_equal; apply inj_expr; auto.
Qed.

Lemma inj_block_of b : all_nodes (inj (map_node f) node_tokens) b -> inj (map_block f) block_tokens b.
Proof.
  destruct b as [ns]. intros H [ns']. rewrite !map_block_eq. cbn [block_tokens]. intros Ha Hb E. injection E as E.
  f_equal. apply (inj_list (map_node f) node_tokens ns); auto.
Qed.
Lemma inj_node n : inj (map_node f) node_tokens n.
Proof.
  induction n as [t l it c b e Hb|t omgs d Ho Hd|t yes no mebbes Hy Hn Hm|t i params b Hb|n Hn] using node_ind';
    intros n'.
  - destruct n' as [ | |[t' l' it' c' b' e']| | | | | | | | | | | | | ]; rewrite ?map_loop_eq; intros Ha Hb' E; try discriminate E.
    cbn [node_tokens im_in_yr_tokens] in *. rewrite iteration_opt, condition_opt in Ha, Hb'. dec. injection E as E1 E2 E3 E4 E5 E6.
    do 2 f_equal; auto.
    + apply (inj_option _ _ it (fun a _ => inj_iteration a)); auto.
    + apply (inj_option _ _ c (fun a _ => inj_condition a)); auto.
    + apply (inj_block_of b Hb); auto.
  - destruct n' as [ | | | | | | |[t' omgs' d']| | | | | | | | ]; rewrite ?map_wtf_eq; intros Ha Hb' E; try discriminate E.
    cbn [node_tokens wtf_tokens] in *. dec. injection E as E1 E2 E3. do 2 f_equal; auto.
    + apply (inj_list (map_omg f) wtf_omg_tokens omgs); auto. revert Ho. apply Forall_impl.
      intros [u e b] Hb [u' e' b']. rewrite !map_omg_eq. cbn [wtf_omg_tokens]. intros ? ? E. dec. injection E as F1 F2 F3.
      f_equal; auto; [apply inj_expr; auto|apply (inj_block_of b Hb); auto].
    + apply (inj_option (map_omg_wtf f) wtf_omg_wtf_tokens d); auto.
      intros [u b] -> [u' b']. rewrite !map_omg_wtf_eq. cbn [wtf_omg_wtf_tokens]. intros ? ? E. dec. injection E as F1 F2.
      f_equal; auto. apply (inj_block_of b Hd); auto.
  - destruct n' as [ | | | | | | | |[t' yes' no' mebbes']| | | | | | | ]; rewrite ?map_o_rly_eq; intros Ha Hb' E; try discriminate E.
    cbn [node_tokens o_rly_tokens] in *. dec. injection E as E1 E2 E3 E4. do 2 f_equal; auto.
    + apply (inj_option (map_ya_rly f) ya_rly_tokens yes); auto.
      intros [u b] -> [u' b']. rewrite !map_ya_rly_eq. cbn [ya_rly_tokens]. intros ? ? E. dec. injection E as F1 F2.
      f_equal; auto. apply (inj_block_of b Hy); auto.
    + apply (inj_option (map_no_wai f) no_wai_tokens no); auto.
      intros [u b] -> [u' b']. rewrite !map_no_wai_eq. cbn [no_wai_tokens]. intros ? ? E. dec. injection E as F1 F2.
      f_equal; auto. apply (inj_block_of b Hn); auto.
    + apply (inj_list (map_mebbe f) mebbe_tokens mebbes); auto. revert Hm. apply Forall_impl.
      intros [u e b] Hb [u' e' b']. rewrite !map_mebbe_eq. cbn [mebbe_tokens]. intros ? ? E. dec. injection E as F1 F2 F3.
      f_equal; auto; [apply inj_expr; auto|apply (inj_block_of b Hb); auto].
  - destruct n' as [ | | | | | | | | | |[t' i' params' b']| | | | | ]; rewrite ?map_fun_eq; intros Ha Hb' E; try discriminate E.
    cbn [node_tokens how_iz_i_tokens] in *. dec.
    generalize (inj_identifier i i'). intros Hi.
    generalize dependent (map_identifier f i). generalize (map_identifier f i'). intros j j' E Hi. injection E as E1 E2 E3 E4.
    do 2 f_equal; auto; [apply (inj_list' _ identifier_tokens params inj_identifier); auto|apply (inj_block_of b Hb); auto].
  - destruct n; try (destruct Hn; fail); destruct n'; intros Ha Hb E; try discriminate E;
      cbn [node_tokens] in Ha, Hb; f_equal.
    + apply inj_i_has_a; auto. cbn [map_node] in E. congruence.
    + apply inj_hai; auto. cbn [map_node] in E. congruence.
    + apply inj_set_slot; auto. cbn [map_node] in E. congruence.
    + apply inj_assignment; auto. cbn [map_node] in E. congruence.
    + apply inj_visible; auto. cbn [map_node] in E. congruence.
    + apply inj_found_yr; auto. cbn [map_node] in E. congruence.
    + apply inj_i_iz; auto. cbn [map_node] in E. congruence.
    + destruct x, x0. cbn in *. dec. injection E as E. f_equal. auto.
    + apply inj_gimmeh; auto. cbn [map_node] in E. congruence.
    + apply inj_expr; auto. cbn [map_node] in E. congruence.
    + apply inj_error; auto. cbn [map_node] in E. congruence.
    + destruct x, x0. cbn in *. dec. injection E as E. f_equal. auto.
Qed.
Theorem inj_block b : inj (map_block f) block_tokens b.
Proof. apply inj_block_of. unfold all_nodes. apply Forall_forall. intros n _. apply inj_node. Qed.
End Inj.
