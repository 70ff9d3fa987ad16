(** The tokens of a relabelled AST are the relabelled tokens. *)
From Verif Require Import EqSpec EqFacts.

Section Nat.
Variable f : token -> token.
Definition nat_ {A} (cn : A -> A) (tk : A -> list token) (a : A) : Prop := tk (cn a) = map f (tk a).

Lemma nat_list {A} (cn : A -> A) tk l : Forall (nat_ cn tk) l -> nat_ (map cn) (flat_map tk) l.
Proof.
  unfold nat_. induction 1 as [|x l Hx _ IH]; cbn [map flat_map]; [reflexivity|]. rewrite map_app, Hx, IH. reflexivity.
Qed.
Lemma nat_list' {A} (cn : A -> A) tk l : (forall a, nat_ cn tk a) -> nat_ (map cn) (flat_map tk) l.
Proof. intros H. apply nat_list, Forall_forall. auto. Qed.
Lemma nat_opt o : opt_token (option_map f o) = map f (opt_token o).
Proof. destruct o; reflexivity. Qed.
Lemma nat_identifier i : nat_ (map_identifier f) identifier_tokens i.
Proof. destruct i as [n [s|]]; reflexivity. Qed.
Lemma nat_slot i : nat_ (map_slot f) slot_tokens i.
Proof. destruct i as [t [n [s|]]]; reflexivity. Qed.
Lemma nat_va v : nat_ (map_va f) va_tokens v.
Proof.
  destruct v as [i sl]. unfold nat_, va_tokens, map_va. cbn [va_identifier va_accesses].
  rewrite map_app, nat_identifier, (nat_list' _ _ sl nat_slot). reflexivity.
Qed.
Lemma nat_value v : nat_ (map_value f) value_tokens v.
Proof. destruct v as [v|t]; [apply nat_va|reflexivity]. Qed.
Lemma nat_expr e : nat_ (map_expr f) expr_tokens e.
Proof.
  unfold nat_. induction e as [l o r an IHl IHr|o x IH|o es mkay IH|v] using expr_ind'.
  - rewrite map_binary_eq. cbn [expr_tokens map]. rewrite !map_app, IHl, IHr, nat_opt. f_equal. destruct o; reflexivity.
  - cbn [expr_tokens map map_expr]. rewrite IH. f_equal. destruct o; reflexivity.
  - rewrite map_nary_eq. cbn [expr_tokens map].
    change (fun x => match x with Operand e an => expr_tokens e ++ opt_token an end) with operand_tokens.
    rewrite !map_app, nat_opt. f_equal; [destruct o; reflexivity|]. f_equal. apply nat_list.
    revert IH. apply Forall_impl. intros [x a] Hx. unfold nat_. rewrite map_operand_eq. cbn [operand_tokens].
    cbn [operand_expr] in Hx. rewrite map_app, Hx, nat_opt. reflexivity.
  - apply nat_value.
Qed.
Lemma nat_error e : nat_ (map_error f) error_tokens e.
Proof. destruct e as [t|ts|[]|[]|[]|t|[]|t|[]|[]|[]]; reflexivity. Qed.
Lemma nat_initial v : initial_tokens (option_map (map_initial f) v) = map f (initial_tokens v).
Proof. destruct v as [[e|t]|]; [apply nat_expr| |reflexivity]. destruct t; reflexivity. Qed.
Lemma nat_iteration v : iteration_tokens (option_map (map_iteration f) v) = map f (iteration_tokens v).
Proof.
  destruct v as [[o v]|]; [|reflexivity]. unfold iteration_tokens. cbn [option_map map_iteration li_operation li_operand map].
  rewrite nat_va. f_equal. destruct o; reflexivity.
Qed.
Lemma nat_condition v : condition_tokens (option_map (map_condition f) v) = map f (condition_tokens v).
Proof. destruct v as [[e|e]|]; [apply nat_expr|apply nat_expr|reflexivity]. Qed.

Lemma nat_block_of b : all_nodes (nat_ (map_node f) node_tokens) b -> nat_ (map_block f) block_tokens b.
Proof. destruct b as [ns]. intros H. unfold nat_. rewrite map_block_eq. apply nat_list, H. Qed.
Lemma nat_node n : nat_ (map_node f) node_tokens n.
Proof.
  induction n as [t l it c b e Hb|t omgs d Ho Hd|t yes no mebbes Hy Hn Hm|t i params b Hb|n Hn] using node_ind'; unfold nat_.
  - rewrite map_loop_eq. cbn [node_tokens im_in_yr_tokens map].
    rewrite !map_app, nat_iteration, nat_condition, (nat_block_of b Hb). reflexivity.
  - rewrite map_wtf_eq. cbn [node_tokens wtf_tokens map]. rewrite map_app. f_equal. f_equal.
    + apply nat_list. revert Ho. apply Forall_impl. intros [u e b] Hb. unfold nat_. rewrite map_omg_eq.
      cbn [wtf_omg_tokens map]. rewrite map_app, nat_expr, (nat_block_of b Hb). reflexivity.
    + destruct d as [[u b]|]; [|reflexivity]. cbn [option_map]. rewrite map_omg_wtf_eq. cbn [wtf_omg_wtf_tokens map].
      rewrite (nat_block_of b Hd). reflexivity.
  - rewrite map_o_rly_eq. cbn [node_tokens o_rly_tokens map]. rewrite !map_app. f_equal. f_equal; [|f_equal].
    + destruct yes as [[u b]|]; [|reflexivity]. cbn [option_map]. rewrite map_ya_rly_eq. cbn [ya_rly_tokens map].
      rewrite (nat_block_of b Hy). reflexivity.
    + apply nat_list. revert Hm. apply Forall_impl. intros [u e b] Hb. unfold nat_. rewrite map_mebbe_eq.
      cbn [mebbe_tokens map]. rewrite map_app, nat_expr, (nat_block_of b Hb). reflexivity.
    + destruct no as [[u b]|]; [|reflexivity]. cbn [option_map]. rewrite map_no_wai_eq. cbn [no_wai_tokens map].
      rewrite (nat_block_of b Hn). reflexivity.
  - rewrite map_fun_eq. cbn [node_tokens how_iz_i_tokens map].
    rewrite !map_app, nat_identifier, (nat_list' _ _ params nat_identifier), (nat_block_of b Hb). reflexivity.
  - destruct n; try (destruct Hn; fail); cbn [map_node node_tokens].
    + destruct x as [t i v]. unfold map_i_has_a, i_has_a_tokens. cbn [ihasa_token ihasa_identifier ihasa_initial_value map].
      rewrite map_app, nat_identifier, nat_initial. reflexivity.
    + reflexivity.
    + destruct x as [v i e]. unfold map_set_slot, set_slot_tokens. cbn [bss_bukkit bss_slot_name bss_value].
      rewrite !map_app, nat_va, nat_identifier, nat_expr. reflexivity.
    + destruct x as [v e t]. unfold map_assignment, assignment_tokens. cbn [asg_variable_access asg_expression asg_r_token].
      rewrite map_app, nat_va, nat_expr. reflexivity.
    + destruct x as [t es o]. unfold map_visible, visible_tokens.
      cbn [visible_token visible_expressions visible_exclamation_mark map].
      rewrite map_app, nat_opt, (nat_list' _ _ es nat_expr). reflexivity.
    + unfold map_found_yr, found_yr_tokens. cbn [found_yr_token found_yr_expression map]. rewrite nat_expr. reflexivity.
    + unfold map_i_iz, i_iz_tokens. cbn [iiz_token iiz_name iiz_arguments map].
      rewrite map_app, nat_va, (nat_list' _ _ (iiz_arguments x) nat_expr). reflexivity.
    + reflexivity.
    + unfold map_gimmeh, gimmeh_tokens. cbn [gimmeh_token gimmeh_variable_access map]. rewrite nat_va. reflexivity.
    + apply nat_expr.
    + apply nat_error.
    + reflexivity.
Qed.
Theorem block_tokens_map b : block_tokens (map_block f b) = map f (block_tokens b).
Proof. apply nat_block_of. unfold all_nodes. apply Forall_forall. intros n _. apply nat_node. Qed.
End Nat.
