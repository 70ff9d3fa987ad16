(** The texts written by [Debug] and [==], and the line feeds in the texts. *)
From Coq Require Import String.
From Verif Require Import Eq EqSpec EqFacts EqInj EqProps RelabelTokens LexSpec DisplayProofs AstTokens.
From Verif Require Export DebugAst.
Local Open Scope list_scope.

(** ** Relabelling twice *)
Section Comp.
  Variables f g : token -> token.
  Notation h := (fun t => g (f t)).
  Definition comp {A} (m : (token -> token) -> A -> A) (a : A) : Prop := m g (m f a) = m h a.
  Lemma comp_list {A} (m : (token -> token) -> A -> A) l : Forall (comp m) l -> map (m g) (map (m f) l) = map (m h) l.
  Proof. induction 1 as [|x l Hx _ IH]; cbn [map]; [reflexivity|]. rewrite Hx, IH. reflexivity. Qed.
  Lemma comp_list' {A} (m : (token -> token) -> A -> A) l : (forall a, comp m a) -> map (m g) (map (m f) l) = map (m h) l.
  Proof. intros H. apply comp_list, Forall_forall. auto. Qed.
  Lemma comp_option {A} (m : (token -> token) -> A -> A) o : (forall a, o = Some a -> comp m a) ->
    option_map (m g) (option_map (m f) o) = option_map (m h) o.
  Proof. intros H. destruct o as [a|]; [|reflexivity]. cbn. rewrite (H a eq_refl). reflexivity. Qed.
  Lemma comp_opt o : option_map g (option_map f o) = option_map h o.
  Proof. destruct o; reflexivity. Qed.
  Lemma comp_toks l : map g (map f l) = map h l.
  Proof. apply map_map. Qed.

  Lemma comp_id i : comp map_identifier i.
  Proof. destruct i as [n s]. unfold comp, map_identifier. cbn [id_name id_srs]. rewrite comp_opt. reflexivity. Qed.
  Lemma comp_slot i : comp map_slot i.
  Proof. destruct i as [n s]. unfold comp, map_slot. cbn [slot_access_token slot_identifier]. rewrite (comp_id s). reflexivity. Qed.
  Lemma comp_va v : comp map_va v.
  Proof.
    destruct v as [i s]. unfold comp, map_va. cbn [va_identifier va_accesses].
    rewrite (comp_id i), (comp_list' map_slot s comp_slot). reflexivity.
  Qed.
  Lemma comp_value v : comp map_value v.
  Proof. destruct v as [v|t]; [|reflexivity]. unfold comp. cbn [map_value]. rewrite (comp_va v). reflexivity. Qed.
  Lemma comp_binary o : map_binary g (map_binary f o) = map_binary h o.
  Proof. destruct o; reflexivity. Qed.
  Lemma comp_unary o : map_unary g (map_unary f o) = map_unary h o.
  Proof. destruct o; reflexivity. Qed.
  Lemma comp_nary o : map_nary g (map_nary f o) = map_nary h o.
  Proof. destruct o; reflexivity. Qed.
  Lemma comp_expr e : comp map_expr e.
  Proof.
    unfold comp. induction e as [l o r an IHl IHr|o x IH|o es m IH|v] using expr_ind'.
    - rewrite !map_binary_eq, IHl, IHr, comp_opt, comp_binary. reflexivity.
    - cbn [map_expr]. rewrite IH, comp_unary. reflexivity.
    - rewrite !map_nary_eq, comp_opt, comp_nary. f_equal. apply (comp_list map_operand). revert IH. apply Forall_impl.
      intros [e an] H. unfold comp. rewrite !map_operand_eq, comp_opt. cbn [operand_expr] in H. rewrite H. reflexivity.
    - cbn [map_expr]. rewrite (comp_value v). reflexivity.
  Qed.
  Lemma comp_type o : comp map_type o.
  Proof. destruct o; reflexivity. Qed.
  Lemma comp_error e : comp map_error e.
  Proof.
    destruct e as [t|ts|[]|[]|[]|t|[]|t|[]|[]|[]]; try reflexivity. unfold comp. cbn [map_error]. rewrite comp_toks. reflexivity.
  Qed.
  Lemma comp_initial i : comp map_initial i.
  Proof. destruct i as [e|t]; unfold comp; cbn [map_initial]; rewrite ?(comp_expr e), ?(comp_type t); reflexivity. Qed.
  Lemma comp_iteration i : comp map_iteration i.
  Proof. destruct i as [[t|t] v]; unfold comp, map_iteration; cbn [li_operation li_operand]; rewrite (comp_va v); reflexivity. Qed.
  Lemma comp_condition i : comp map_condition i.
  Proof. destruct i as [e|e]; unfold comp; cbn [map_condition]; rewrite (comp_expr e); reflexivity. Qed.
  Lemma comp_block_of b : all_nodes (comp map_node) b -> comp map_block b.
  Proof. destruct b as [ns]. intros H. unfold comp. rewrite !map_block_eq. f_equal. apply (comp_list map_node ns H). Qed.
  Lemma comp_node n : comp map_node n.
  Proof.
    induction n as [t l it c b e Hb|t omgs d Ho Hd|t yes no mebbes Hy Hn Hm|t i params b Hb|n Hn] using node_ind'; unfold comp.
    - rewrite !map_loop_eq. rewrite (comp_block_of b Hb), (comp_option map_iteration it (fun a _ => comp_iteration a)),
        (comp_option map_condition c (fun a _ => comp_condition a)). reflexivity.
    - rewrite !map_wtf_eq. do 2 f_equal.
      + apply (comp_list map_omg). revert Ho. apply Forall_impl. intros [u e b] Hb. unfold comp.
        rewrite !map_omg_eq, (comp_expr e), (comp_block_of b Hb). reflexivity.
      + apply (comp_option map_omg_wtf). intros [u b] ->. unfold comp. rewrite !map_omg_wtf_eq, (comp_block_of b Hd). reflexivity.
    - rewrite !map_o_rly_eq. do 2 f_equal.
      + apply (comp_option map_ya_rly). intros [u b] ->. unfold comp. rewrite !map_ya_rly_eq, (comp_block_of b Hy). reflexivity.
      + apply (comp_option map_no_wai). intros [u b] ->. unfold comp. rewrite !map_no_wai_eq, (comp_block_of b Hn). reflexivity.
      + apply (comp_list map_mebbe). revert Hm. apply Forall_impl. intros [u e b] Hb. unfold comp.
        rewrite !map_mebbe_eq, (comp_expr e), (comp_block_of b Hb). reflexivity.
    - rewrite !map_fun_eq, (comp_id i), (comp_list' map_identifier params comp_id), (comp_block_of b Hb). reflexivity.
    - destruct n; try (destruct Hn; fail); try reflexivity; cbn [map_node]; f_equal.
      + destruct x as [t i v]. unfold map_i_has_a. cbn [ihasa_token ihasa_identifier ihasa_initial_value].
        rewrite (comp_id i), (comp_option map_initial v (fun a _ => comp_initial a)). reflexivity.
      + destruct x as [t v]. unfold map_hai. cbn [hai_token hai_version]. rewrite comp_toks. reflexivity.
      + destruct x as [v i e]. unfold map_set_slot. cbn [bss_bukkit bss_slot_name bss_value].
        rewrite (comp_va v), (comp_id i), (comp_expr e). reflexivity.
      + destruct x as [v e t]. unfold map_assignment. cbn [asg_variable_access asg_expression asg_r_token].
        rewrite (comp_va v), (comp_expr e). reflexivity.
      + destruct x as [t es o]. unfold map_visible. cbn [visible_token visible_expressions visible_exclamation_mark].
        rewrite (comp_list' map_expr es comp_expr), comp_opt. reflexivity.
      + destruct x as [t e]. unfold map_found_yr. cbn [found_yr_token found_yr_expression]. rewrite (comp_expr e). reflexivity.
      + destruct x as [t v es]. unfold map_i_iz. cbn [iiz_token iiz_name iiz_arguments].
        rewrite (comp_va v), (comp_list' map_expr es comp_expr). reflexivity.
      + destruct x as [t v]. unfold map_gimmeh. cbn [gimmeh_token gimmeh_variable_access]. rewrite (comp_va v). reflexivity.
      + apply comp_expr.
      + apply comp_error.
  Qed.
  Lemma comp_block b : map_block g (map_block f b) = map_block h b.
  Proof. apply comp_block_of. unfold all_nodes. apply Forall_forall. intros n _. apply comp_node. Qed.
End Comp.

(** ** [==] *)
Lemma canon_drop t : canon (drop_offsets t) = canon t.
Proof. reflexivity. Qed.
Lemma canon_block b : map_block canon (map_block drop_offsets b) = map_block canon b.
Proof. rewrite comp_block. reflexivity. Qed.
Lemma drop_canon b b' : map_block drop_offsets b = map_block drop_offsets b' -> map_block canon b = map_block canon b'.
Proof. intros E. rewrite <- (canon_block b), E. apply canon_block. Qed.

Definition zero_float (t : token) : Prop := exists s, tok_type t = TValue (VNumber (Float (S754_zero s))).
Lemma canon_zero t u : canon t = canon u -> zero_float u -> zero_float t.
Proof.
  intros E [s H]. assert (E' : canon_type (tok_type t) = canon_type (tok_type u)) by (unfold canon in E; congruence).
  destruct (canon_type_inv _ _ E') as [F|(a & b & F & _)]; [exists s; congruence|exists a; exact F].
Qed.
Lemma canon_no_zero l : forall m, map canon l = map canon m -> Forall (fun t => ~ zero_float t) l ->
  Forall (fun t => ~ zero_float t) m.
Proof.
  induction l as [|t l IH]; intros [|u m] E H; try discriminate E; [constructor|].
  change (canon t :: map canon l = canon u :: map canon m) in E.
  assert (E1 : canon t = canon u) by congruence. assert (E2 : map canon l = map canon m) by congruence.
  inversion H; subst. constructor; [|auto]. intros Z. eapply canon_zero in Z; eauto.
Qed.
Lemma canon_back t u : ~ zero_float t -> canon t = canon u -> drop_offsets t = drop_offsets u.
Proof.
  intros Z E. assert (E' : canon_type (tok_type t) = canon_type (tok_type u) /\ canon_range (tok_range t) = canon_range (tok_range u)).
  { unfold canon in E. split; congruence. }
  destruct E' as [E1 E2]. unfold drop_offsets. destruct (canon_type_inv _ _ E1) as [F|(a & b & Ht & _)].
  - f_equal; [exact F|exact E2].
  - destruct Z. exists a. exact Ht.
Qed.
Lemma canon_drop_block b b' : Forall (fun t => ~ zero_float t) (block_tokens b) ->
  map_block canon b = map_block canon b' -> map_block drop_offsets b = map_block drop_offsets b'.
Proof.
  intros Z E.
  assert (Z' : Forall (fun t => ~ zero_float t) (block_tokens b')).
  { eapply canon_no_zero; [|exact Z]. rewrite <- !block_tokens_map, E. reflexivity. }
  assert (D : forall b, Forall (fun t => ~ zero_float t) (block_tokens b) ->
    Forall (fun t => ~ zero_float t /\ drop_offsets t = t) (block_tokens (map_block drop_offsets b))).
  { clear. intros b H. rewrite block_tokens_map. apply Forall_map. revert H. apply Forall_impl. intros t H. split; [exact H|reflexivity]. }
  apply (inj_block canon (fun t => ~ zero_float t /\ drop_offsets t = t)); [|apply D, Z|apply D, Z'|rewrite !canon_block; exact E].
  intros t u [H1 H2] [_ H4] Etu. rewrite <- H2, <- H4. apply canon_back; assumption.
Qed.

Section EqTexts.
  Variables (shown : char -> bool) (float_text : spec_float -> str).
  Hypothesis FT : float_texts float_text.
  Theorem debug_equal code b b' : tokenize_and_parse code = ApiOk b ->
    block_debug shown float_text b = block_debug shown float_text b' -> block_eqb b b' = true.
  Proof.
    intros H E. apply (block_debug_iff _ FT) in E. apply block_eqb_iff. split; [apply drop_canon, E|].
    apply (block_ok b b), (ast_reflexive code), H.
  Qed.
  Theorem equal_debug b b' : Forall (fun t => ~ zero_float t) (block_tokens b) -> block_eqb b b' = true ->
    block_debug shown float_text b = block_debug shown float_text b'.
  Proof.
    intros Z E. apply (block_debug_iff _ FT). apply block_eqb_iff in E as [E _]. apply canon_drop_block; assumption.
  Qed.
End EqTexts.
