(** What is handed to the formatter identifies tokens and ASTs up to offsets. *)
From Coq Require Import String.
From Verif Require Import Eq EqSpec EqFacts LexSpec DisplayProofs AstTokens.
From Verif Require Export DebugProofs.
Local Open Scope string_scope.
Local Open Scope list_scope.

Lemma tuple_iff n x y : DTuple n x = DTuple n y <-> x = y.
Proof. split; [intros E; injection E; auto|intros ->; reflexivity]. Qed.
Lemma struct_iff n fs fs' : DStruct n fs = DStruct n fs' <-> fs = fs'.
Proof. split; [intros E; injection E; auto|intros ->; reflexivity]. Qed.
Lemma field_iff (n : string) (x y : dbg) l l' : (n, x) :: l = (n, y) :: l' <-> x = y /\ l = l'.
Proof. split; [intros E; injection E; auto|intros [-> ->]; reflexivity]. Qed.
Lemma dlist_iff l l' : DList l = DList l' <-> l = l'.
Proof. split; [intros E; injection E; auto|intros ->; reflexivity]. Qed.
Lemma dstring_iff l l' : DString l = DString l' <-> l = l'.
Proof. split; [intros E; injection E; auto|intros ->; reflexivity]. Qed.
Lemma dleaf_iff l l' : DLeaf l = DLeaf l' <-> l = l'.
Proof. split; [intros E; injection E; auto|intros ->; reflexivity]. Qed.

Ltac name := split; [discriminate|reflexivity].
Ltac wfs := repeat match goal with
  | |- wf (DLeaf (lit _)) => apply wf_leaf; name
  | |- wf (leaf _) => apply wf_leaf; name
  | |- wf (DTuple _ _) => apply wf_tuple; [name|]
  | |- wf (DStruct _ _) => apply wf_struct; [name|]
  | |- wf (DList _) => apply wf_list
  | |- wf (DString _) => apply wf_string
  | |- Forall _ [] => apply Forall_nil
  | |- Forall _ ((_, _) :: _) => apply Forall_cons; [split; [name|cbn [snd]]|]
  end.

Section Trees.
  Variable float_text : spec_float -> str.
  Hypothesis FT : float_texts float_text.
  Notation f := drop_offsets.

  (** The tree of [x] is well-formed and identifies [g x]. *)
  Definition good {T} (d : T -> dbg) (g : T -> T) (x : T) : Prop :=
    wf (d x) /\ forall y, d x = d y <-> g x = g y.

  Lemma list_wf {T} (d : T -> dbg) g l : Forall (good d g) l -> Forall wf (map d l).
  Proof. induction 1 as [|x l [H _] _ IH]; cbn [map]; constructor; assumption. Qed.
  Lemma list_good {T} (d : T -> dbg) g l : Forall (good d g) l -> good (fun l => DList (map d l)) (map g) l.
  Proof.
    intros H. split; [apply wf_list; eapply list_wf; exact H|]. intros m. rewrite dlist_iff. revert m.
    induction H as [|x l [_ Hx] _ IH]; intros [|y m]; cbn [map]; try (split; discriminate); [tauto|].
    specialize (Hx y). specialize (IH m). split; intros E; injection E as E1 E2.
    - apply Hx in E1. apply IH in E2. congruence.
    - apply Hx in E1. apply IH in E2. congruence.
  Qed.
  Lemma list_good' {T} (d : T -> dbg) g l : (forall x, good d g x) -> good (fun l => DList (map d l)) (map g) l.
  Proof. intros H. apply list_good, Forall_forall. auto. Qed.
  Lemma option_good {T} (d : T -> dbg) g o : (forall x, o = Some x -> good d g x) -> good (Debug.d_option d) (option_map g) o.
  Proof.
    intros H. destruct o as [x|]; (split; [|intros [y|]]); cbn [Debug.d_option option_map]; try (split; discriminate).
    - wfs. apply (H x eq_refl).
    - rewrite tuple_iff. destruct (H x eq_refl) as [_ E]. rewrite (E y). intuition congruence.
    - wfs.
    - tauto.
  Qed.

  (** ** Tokens *)
  Lemma i32_plain z : plain (i32_text z).
  Proof.
    pose proof (i32_text_spells z) as H. split.
    - destruct H as (neg & ds & -> & Hn & _). destruct neg; [discriminate|exact Hn].
    - apply spells_chars in H. apply forallb_forall. rewrite Forall_forall in H. intros c Hc. specialize (H c Hc).
      unfold plainb, delimiters. cbn [existsb]. unfold digit in H.
      rewrite !(proj2 (N.eqb_neq _ _)) by lia. reflexivity.
  Qed.
  Lemma i32_iff z z' : i32_text z = i32_text z' <-> z = z'.
  Proof.
    split; [|intros ->; reflexivity]. intros E. eapply spells_value; [apply i32_text_spells|]. rewrite E. apply i32_text_spells.
  Qed.
  Lemma float_plain x : plain (float_text x).
  Proof.
    destruct FT as [_ H]. destruct (H x) as [H1 H2]. split; [exact H1|]. apply forallb_forall. rewrite Forall_forall in H2.
    intros c Hc. specialize (H2 c Hc). unfold float_char in H2. unfold plainb, delimiters. cbn [existsb].
    rewrite !(proj2 (N.eqb_neq _ _)) by lia. reflexivity.
  Qed.
  Lemma float_iff x y : float_text x = float_text y <-> x = y.
  Proof. split; [apply FT|intros ->; reflexivity]. Qed.
  Lemma ident_plain k : plain (lit (ident k)).
  Proof. destruct k; name. Qed.
  Lemma ident_iff k k' : lit (ident k) = lit (ident k') <-> k = k'.
  Proof.
    split; [|intros ->; reflexivity]. intros E. apply lit_inj in E. revert E.
    destruct k; destruct k'; intros E; try reflexivity; discriminate E.
  Qed.
  Lemma type_tree_wf t : wf (Debug.d_token_type float_text t).
  Proof.
    destruct t as [s|k|s|[[z|x]|s|[]|]|s|s| | | | |]; cbn [Debug.d_token_type Debug.d_token_value Debug.d_number Debug.d_keyword]; wfs.
    - apply wf_leaf, ident_plain.
    - apply wf_leaf, i32_plain.
    - apply wf_leaf, float_plain.
  Qed.
  Lemma type_tree_iff t u : Debug.d_token_type float_text t = Debug.d_token_type float_text u <-> t = u.
  Proof.
    split; [|intros ->; reflexivity].
    destruct t as [s|k|s|[[z|x]|s|[]|]|s|s| | | | |], u as [s'|k'|s'|[[z'|x']|s'|[]|]|s'|s'| | | | |];
      cbn [Debug.d_token_type Debug.d_token_value Debug.d_number Debug.d_keyword]; intros E; try discriminate E; try reflexivity;
      rewrite ?tuple_iff, ?dstring_iff in E; try congruence; f_equal.
    - apply dleaf_iff, ident_iff in E. exact E.
    - apply dleaf_iff, i32_iff in E. congruence.
    - apply dleaf_iff, float_iff in E. congruence.
  Qed.
  Notation dt := (Debug.d_tok float_text).
  Lemma tok_good t : good dt f t.
  Proof.
    split.
    - apply wf_token; [eexists; reflexivity|]. apply type_tree_wf.
    - intros u. unfold Debug.d_tok, drop_offsets, no_offsets.
      transitivity (range_debug (tok_range t) = range_debug (tok_range u) /\ tok_type t = tok_type u).
      + rewrite <- type_tree_iff. intuition congruence.
      + rewrite range_debug_iff. unfold range_eqb, position_eqb. rewrite !andb_true_iff, !Z.eqb_eq. intuition congruence.
  Qed.
  Lemma tok_iff t u : dt t = dt u <-> f t = f u.
  Proof. apply tok_good. Qed.
  Lemma opt_tok_good o : good (Debug.d_option dt) (option_map f) o.
  Proof. apply option_good. intros. apply tok_good. Qed.
  Lemma opt_tok_iff o o' : Debug.d_option dt o = Debug.d_option dt o' <-> option_map f o = option_map f o'.
  Proof. apply opt_tok_good. Qed.
  Lemma toks_iff l l' : DList (map dt l) = DList (map dt l') <-> map f l = map f l'.
  Proof. apply (list_good' dt f l tok_good). Qed.

  (** ** Expressions *)
  Ltac norm := rewrite ?tuple_iff, ?struct_iff, ?field_iff, ?tok_iff, ?opt_tok_iff.
  Ltac fin := intuition congruence.
  Ltac off := try (split; discriminate).
  Ltac wft := wfs; repeat match goal with
    | |- wf (Debug.d_tok _ _) => apply tok_good
    | |- wf (Debug.d_option (Debug.d_tok _) _) => apply opt_tok_good
    end.

  Lemma id_good i : good (Debug.d_id float_text) (map_identifier f) i.
  Proof.
    destruct i as [n s]. split; [unfold Debug.d_id; cbn [id_name id_srs]; wft|]. intros [n' s'].
    unfold Debug.d_id, map_identifier. cbn [id_name id_srs]. norm. fin.
  Qed.
  Lemma slot_good i : good (Debug.d_slot float_text) (map_slot f) i.
  Proof.
    destruct i as [n s]. destruct (id_good s) as [W H]. split; [unfold Debug.d_slot; cbn [slot_access_token slot_identifier]; wft; exact W|].
    intros [n' s']. unfold Debug.d_slot, map_slot. cbn [slot_access_token slot_identifier]. norm. rewrite (H s'). fin.
  Qed.
  Lemma va_good v : good (Debug.d_variable_access float_text) (map_va f) v.
  Proof.
    destruct v as [i s]. destruct (id_good i) as [W H], (list_good' _ _ s slot_good) as [W' H'].
    split; [unfold Debug.d_variable_access; cbn [va_identifier va_accesses]; wfs; [exact W|]|].
    { inversion W'. assumption. }
    intros [i' s']. unfold Debug.d_variable_access, map_va. cbn [va_identifier va_accesses]. norm. rewrite (H i'), (H' s'). fin.
  Qed.
  Lemma value_good v : good (Debug.d_expr_value float_text) (map_value f) v.
  Proof.
    destruct v as [v|t].
    - destruct (va_good v) as [W H]. split; [cbn [Debug.d_expr_value]; wfs; exact W|]. intros [v'|t']; cbn; off. norm. rewrite (H v'). fin.
    - split; [cbn [Debug.d_expr_value]; wft|]. intros [v'|t']; cbn; off. norm. fin.
  Qed.
  Lemma binary_good o : good (Debug.d_binary_opt float_text) (map_binary f) o.
  Proof. split; [destruct o; cbn [Debug.d_binary_opt]; wft|]. intros o'. destruct o, o'; cbn; off; norm; fin. Qed.
  Lemma unary_good o : good (Debug.d_unary_opt float_text) (map_unary f) o.
  Proof. split; [destruct o; cbn [Debug.d_unary_opt]; wft|]. intros o'. destruct o, o'; cbn; off; norm; fin. Qed.
  Lemma nary_good o : good (Debug.d_nary_opt float_text) (map_nary f) o.
  Proof. split; [destruct o; cbn [Debug.d_nary_opt]; wft|]. intros o'. destruct o, o'; cbn; off; norm; fin. Qed.
  Lemma type_good o : good (Debug.d_type float_text) (map_type f) o.
  Proof. split; [destruct o; cbn [Debug.d_type]; wft|]. intros o'. destruct o, o'; cbn; off; norm; fin. Qed.
  Notation de := (Debug.d_expression float_text).
  Lemma expr_good e : good de (map_expr f) e.
  Proof.
    induction e as [l o r an IHl IHr|o x IH|o es m IH|v] using expr_ind'.
    - destruct IHl as [W1 H1], IHr as [W2 H2], (binary_good o) as [W3 H3]. split.
      + cbn [Debug.d_expression]. wft; assumption.
      + intros [l' o' r' an'|o' x'|o' es' m'|v']; cbn [Debug.d_expression map_expr]; off. norm. rewrite (H1 l'), (H2 r'), (H3 o'). fin.
    - destruct IH as [W1 H1], (unary_good o) as [W3 H3]. split.
      + cbn [Debug.d_expression]. wft; assumption.
      + intros [l' o' r' an'|o' x'|o' es' m'|v']; cbn [Debug.d_expression map_expr]; off. norm. rewrite (H1 x'), (H3 o'). fin.
    - destruct (nary_good o) as [W3 H3].
      assert (G : Forall (good (Debug.d_operand float_text) (map_operand f)) es).
      { revert IH. apply Forall_impl. intros [e an] [W H]. cbn [operand_expr] in *. split.
        - cbn [Debug.d_operand]. wft; assumption.
        - intros [e' an']. cbn [Debug.d_operand]. rewrite !map_operand_eq. norm. rewrite (H e'). fin. }
      apply list_good in G as [W4 H4]. split.
      + cbn [Debug.d_expression]. wft; [assumption|]. inversion W4. assumption.
      + intros [l' o' r' an'|o' x'|o' es' m'|v']; rewrite ?map_nary_eq; cbn [Debug.d_expression map_expr]; off.
        norm. rewrite (H3 o'), (H4 es'). fin.
    - destruct (value_good v) as [W H]. split; [cbn [Debug.d_expression]; wfs; exact W|].
      intros [l' o' r' an'|o' x'|o' es' m'|v']; cbn [Debug.d_expression map_expr]; off. norm. rewrite (H v'). fin.
  Qed.
  Lemma error_good e : good (Debug.d_ast_error float_text) (map_error f) e.
  Proof.
    split.
    - destruct e as [t|ts|[]|[]|[]|t|[]|t|[]|[]|[]]; cbn [Debug.d_ast_error]; wft.
      apply (list_wf _ f), Forall_forall. intros. apply tok_good.
    - intros e'. destruct e as [t|ts|[]|[]|[]|t|[]|t|[]|[]|[]], e' as [t'|ts'|[]|[]|[]|t'|[]|t'|[]|[]|[]];
        cbn [Debug.d_ast_error map_error]; off; norm; try fin.
      rewrite toks_iff. fin.
  Qed.

  (** ** Statements *)
  Lemma initial_good i : good (Debug.d_initial_value float_text) (map_initial f) i.
  Proof.
    destruct i as [e|t].
    - destruct (expr_good e) as [W H]. split; [cbn [Debug.d_initial_value]; wfs; exact W|]. intros [e'|t']; cbn [Debug.d_initial_value map_initial]; off.
      norm. rewrite (H e'). fin.
    - destruct (type_good t) as [W H]. split; [cbn [Debug.d_initial_value]; wfs; exact W|]. intros [e'|t']; cbn [Debug.d_initial_value map_initial]; off.
      norm. rewrite (H t'). fin.
  Qed.
  Lemma i_has_a_good x : good (Debug.d_i_has_a float_text) (map_i_has_a f) x.
  Proof.
    destruct x as [t i v]. destruct (id_good i) as [W H], (option_good _ _ v (fun a _ => initial_good a)) as [W' H'].
    split; [unfold Debug.d_i_has_a; cbn [ihasa_token ihasa_identifier ihasa_initial_value]; wft; assumption|].
    intros [t' i' v']. unfold Debug.d_i_has_a, map_i_has_a. cbn [ihasa_token ihasa_identifier ihasa_initial_value].
    norm. rewrite (H i'), (H' v'). fin.
  Qed.
  Lemma hai_good x : good (Debug.d_hai float_text) (map_hai f) x.
  Proof.
    destruct x as [t v]. destruct (list_good' _ _ v tok_good) as [W H].
    split; [unfold Debug.d_hai; cbn [hai_token hai_version]; wft; inversion W; assumption|].
    intros [t' v']. unfold Debug.d_hai, map_hai. cbn [hai_token hai_version]. norm. rewrite (H v'). fin.
  Qed.
  Lemma gimmeh_good x : good (Debug.d_gimmeh float_text) (map_gimmeh f) x.
  Proof.
    destruct x as [t v]. destruct (va_good v) as [W H].
    split; [unfold Debug.d_gimmeh; cbn [gimmeh_token gimmeh_variable_access]; wft; assumption|].
    intros [t' v']. unfold Debug.d_gimmeh, map_gimmeh. cbn [gimmeh_token gimmeh_variable_access]. norm. rewrite (H v'). fin.
  Qed.
  Lemma found_yr_good x : good (Debug.d_found_yr float_text) (map_found_yr f) x.
  Proof.
    destruct x as [t v]. destruct (expr_good v) as [W H].
    split; [unfold Debug.d_found_yr; cbn [found_yr_token found_yr_expression]; wft; assumption|].
    intros [t' v']. unfold Debug.d_found_yr, map_found_yr. cbn [found_yr_token found_yr_expression]. norm. rewrite (H v'). fin.
  Qed.
  Lemma assignment_good x : good (Debug.d_assignment float_text) (map_assignment f) x.
  Proof.
    destruct x as [v e t]. destruct (va_good v) as [W H], (expr_good e) as [W' H'].
    split; [unfold Debug.d_assignment; cbn [asg_variable_access asg_expression asg_r_token]; wft; assumption|].
    intros [v' e' t']. unfold Debug.d_assignment, map_assignment. cbn [asg_variable_access asg_expression asg_r_token].
    norm. rewrite (H v'), (H' e'). fin.
  Qed.
  Lemma set_slot_good x : good (Debug.d_bukkit_set_slot float_text) (map_set_slot f) x.
  Proof.
    destruct x as [v i e]. destruct (va_good v) as [W H], (id_good i) as [W1 H1], (expr_good e) as [W' H'].
    split; [unfold Debug.d_bukkit_set_slot; cbn [bss_bukkit bss_slot_name bss_value]; wft; assumption|].
    intros [v' i' e']. unfold Debug.d_bukkit_set_slot, map_set_slot. cbn [bss_bukkit bss_slot_name bss_value].
    norm. rewrite (H v'), (H1 i'), (H' e'). fin.
  Qed.
  Lemma visible_good x : good (Debug.d_visible float_text) (map_visible f) x.
  Proof.
    destruct x as [t es o]. destruct (list_good' _ _ es expr_good) as [W H].
    split; [unfold Debug.d_visible; cbn [visible_token visible_expressions visible_exclamation_mark]; wft; inversion W; assumption|].
    intros [t' es' o']. unfold Debug.d_visible, map_visible. cbn [visible_token visible_expressions visible_exclamation_mark].
    norm. rewrite (H es'). fin.
  Qed.
  Lemma i_iz_good x : good (Debug.d_i_iz float_text) (map_i_iz f) x.
  Proof.
    destruct x as [t v es]. destruct (va_good v) as [W1 H1], (list_good' _ _ es expr_good) as [W H].
    split; [unfold Debug.d_i_iz; cbn [iiz_token iiz_name iiz_arguments]; wft; [assumption|inversion W; assumption]|].
    intros [t' v' es']. unfold Debug.d_i_iz, map_i_iz. cbn [iiz_token iiz_name iiz_arguments].
    norm. rewrite (H1 v'), (H es'). fin.
  Qed.
  Lemma operation_good x : good (Debug.d_loop_operation float_text) (map_operation f) x.
  Proof. split; [destruct x; cbn [Debug.d_loop_operation]; wft|]. intros y. destruct x, y; cbn; off; norm; fin. Qed.
  Lemma iteration_good x : good (Debug.d_loop_iteration float_text) (map_iteration f) x.
  Proof.
    destruct x as [o v]. destruct (operation_good o) as [W H], (va_good v) as [W' H'].
    split; [unfold Debug.d_loop_iteration; cbn [li_operation li_operand]; wft; assumption|].
    intros [o' v']. unfold Debug.d_loop_iteration, map_iteration. cbn [li_operation li_operand]. norm. rewrite (H o'), (H' v'). fin.
  Qed.
  Lemma condition_good x : good (Debug.d_loop_condition float_text) (map_condition f) x.
  Proof.
    destruct x as [e|e]; destruct (expr_good e) as [W H]; (split; [cbn [Debug.d_loop_condition]; wfs; exact W|]);
      intros [e'|e']; cbn [Debug.d_loop_condition map_condition]; off; norm; rewrite (H e'); fin.
  Qed.

  (** ** Nodes *)
  Notation dn := (Debug.d_node float_text).
  Notation db := (Debug.d_ast_block float_text).
  Lemma block_good_of b : all_nodes (good dn (map_node f)) b -> good db (map_block f) b.
  Proof.
    destruct b as [ns]. intros H. apply list_good in H as [W H]. split.
    - cbn [Debug.d_ast_block]. wfs. inversion W. assumption.
    - intros [ns']. cbn [Debug.d_ast_block]. rewrite !map_block_eq. norm. rewrite (H ns'). cbn [block_nodes]. fin.
  Qed.
  Ltac take H := destruct H as [? ?H].
  Lemma node_good n : good dn (map_node f) n.
  Proof.
    induction n as [t l it c b e Hb|t omgs d Ho Hd|t yes no mebbes Hy Hn Hm|t i params b Hb|n Hn] using node_ind'.
    - apply block_good_of in Hb as [W1 H1].
      destruct (option_good _ _ it (fun a _ => iteration_good a)) as [W2 H2],
               (option_good _ _ c (fun a _ => condition_good a)) as [W3 H3].
      split; [cbn [Debug.d_node Debug.d_im_in_yr]; wft; assumption|].
      intros n'. destruct n' as [ | |[t' l' it' c' b' e']| | | | | | | | | | | | | ];
        rewrite ?map_loop_eq; cbn [Debug.d_node Debug.d_im_in_yr]; try (split; intros E; discriminate E).
      norm. rewrite (H1 b'), (H2 it'), (H3 c'). fin.
    - assert (Ho' : Forall (good (Debug.d_wtf_omg float_text) (map_omg f)) omgs).
      { revert Ho. apply Forall_impl. intros [u e b] Hb. apply block_good_of in Hb as [W1 H1]. destruct (expr_good e) as [W2 H2].
        split; [cbn [Debug.d_wtf_omg]; wft; assumption|]. intros [u' e' b']. cbn [Debug.d_wtf_omg]. rewrite !map_omg_eq.
        norm. rewrite (H1 b'), (H2 e'). fin. }
      assert (Hd' : good (Debug.d_option (Debug.d_wtf_omg_wtf float_text)) (option_map (map_omg_wtf f)) d).
      { apply option_good. intros [u b] ->. apply block_good_of in Hd as [W1 H1].
        split; [cbn [Debug.d_wtf_omg_wtf]; wft; assumption|]. intros [u' b']. cbn [Debug.d_wtf_omg_wtf]. rewrite !map_omg_wtf_eq.
        norm. rewrite (H1 b'). fin. }
      apply list_good in Ho' as [W1 H1]. destruct Hd' as [W2 H2].
      split; [cbn [Debug.d_node Debug.d_wtf]; wft; [inversion W1; assumption|exact W2]|].
      intros n'. destruct n' as [ | | | | | | |[t' omgs' d']| | | | | | | | ];
        rewrite ?map_wtf_eq; cbn [Debug.d_node Debug.d_wtf]; try (split; intros E; discriminate E).
      specialize (H2 d'). unfold Debug.d_option in H2. norm. rewrite (H1 omgs'), H2. fin.
    - assert (Hm' : Forall (good (Debug.d_mebbe float_text) (map_mebbe f)) mebbes).
      { revert Hm. apply Forall_impl. intros [u e b] Hb. apply block_good_of in Hb as [W1 H1]. destruct (expr_good e) as [W2 H2].
        split; [cbn [Debug.d_mebbe]; wft; assumption|]. intros [u' e' b']. cbn [Debug.d_mebbe]. rewrite !map_mebbe_eq.
        norm. rewrite (H1 b'), (H2 e'). fin. }
      assert (Hy' : good (Debug.d_option (Debug.d_ya_rly float_text)) (option_map (map_ya_rly f)) yes).
      { apply option_good. intros [u b] ->. apply block_good_of in Hy as [W1 H1].
        split; [cbn [Debug.d_ya_rly]; wft; assumption|]. intros [u' b']. cbn [Debug.d_ya_rly]. rewrite !map_ya_rly_eq.
        norm. rewrite (H1 b'). fin. }
      assert (Hn' : good (Debug.d_option (Debug.d_no_wai float_text)) (option_map (map_no_wai f)) no).
      { apply option_good. intros [u b] ->. apply block_good_of in Hn as [W1 H1].
        split; [cbn [Debug.d_no_wai]; wft; assumption|]. intros [u' b']. cbn [Debug.d_no_wai]. rewrite !map_no_wai_eq.
        norm. rewrite (H1 b'). fin. }
      apply list_good in Hm' as [W1 H1]. destruct Hy' as [W2 H2], Hn' as [W3 H3].
      split; [cbn [Debug.d_node Debug.d_o_rly]; wft; [exact W2|exact W3|inversion W1; assumption]|].
      intros n'. destruct n' as [ | | | | | | | |[t' yes' no' mebbes']| | | | | | | ];
        rewrite ?map_o_rly_eq; cbn [Debug.d_node Debug.d_o_rly]; try (split; intros E; discriminate E).
      specialize (H2 yes'). specialize (H3 no'). unfold Debug.d_option in H2, H3. norm. rewrite (H1 mebbes'), H2, H3. fin.
    - apply block_good_of in Hb as [W1 H1]. destruct (id_good i) as [W2 H2], (list_good' _ _ params id_good) as [W3 H3].
      split; [cbn [Debug.d_node Debug.d_how_iz_i]; wft; [assumption|inversion W3; assumption|assumption]|].
      intros n'. destruct n' as [ | | | | | | | | | |[t' i' params' b']| | | | | ];
        rewrite ?map_fun_eq; cbn [Debug.d_node Debug.d_how_iz_i]; try (split; intros E; discriminate E).
      norm. rewrite (H1 b'), (H2 i'), (H3 params'). fin.
    - destruct n; try (destruct Hn; fail);
        [pose proof (i_has_a_good x) as [W H]|pose proof (hai_good x) as [W H]|pose proof (set_slot_good x) as [W H]
        |pose proof (assignment_good x) as [W H]|pose proof (visible_good x) as [W H]|pose proof (found_yr_good x) as [W H]
        |pose proof (i_iz_good x) as [W H]| |pose proof (gimmeh_good x) as [W H]|pose proof (expr_good x) as [W H]
        |pose proof (error_good x) as [W H]|];
        (split; [cbn [Debug.d_node]; wfs; try exact W; unfold Debug.d_gtfo, Debug.d_kthxbye; wft|]);
        intros n'; destruct n'; try (split; intros E; discriminate E);
        cbn [Debug.d_node map_node]; unfold Debug.d_gtfo, Debug.d_kthxbye; norm;
        match goal with
        | |- context [gtfo_token] => destruct x, x0; cbn; norm; fin
        | |- context [kthxbye_token] => destruct x, x0; cbn; norm; fin
        | |- _ => rewrite (H _); fin
        end.
  Qed.
  Lemma block_good b : good db (map_block f) b.
  Proof. apply block_good_of. unfold all_nodes. apply Forall_forall. intros n _. apply node_good. Qed.

  (** ** Texts *)
  Variable shown : char -> bool.
  Lemma texts_iff {T} (d : T -> dbg) g : (forall x, good d g x) ->
    forall x y, Debug.print shown (d x) = Debug.print shown (d y) <-> g x = g y.
  Proof.
    intros G x y. destruct (G x) as [W H]. rewrite <- (H y). split; [|congruence].
    apply print_inj; [exact W|apply G].
  Qed.
  Theorem token_debug_iff t u : token_debug shown float_text t = token_debug shown float_text u <-> f t = f u.
  Proof. apply (texts_iff dt f tok_good). Qed.
  Theorem tokens_debug_iff l l' : tokens_debug shown float_text l = tokens_debug shown float_text l' <-> map f l = map f l'.
  Proof. apply (texts_iff _ _ (fun l => list_good' dt f l tok_good)). Qed.
  Theorem node_debug_iff n n' : node_debug shown float_text n = node_debug shown float_text n' <-> map_node f n = map_node f n'.
  Proof. apply (texts_iff dn _ node_good). Qed.
  Theorem block_debug_iff b b' : block_debug shown float_text b = block_debug shown float_text b' <-> map_block f b = map_block f b'.
  Proof. apply (texts_iff db _ block_good). Qed.

  (** Tokens printed one after the other can be told apart. *)
  Theorem token_debug_split t u r r' : token_debug shown float_text t ++ r = token_debug shown float_text u ++ r' ->
    f t = f u /\ r = r'.
  Proof.
    unfold token_debug, Debug.d_tok. cbn [Debug.print]. rewrite <- !app_assoc. intros E.
    apply range_split in E as [E1 E]; try (eexists; reflexivity).
    apply print_unique in E as [E2 E]; [|apply type_tree_wf|apply type_tree_wf|cbn; auto|cbn; auto].
    injection E as ->. split; [|reflexivity]. apply tok_iff. unfold Debug.d_tok. congruence.
  Qed.
  Theorem token_stream_iff ts us :
    flat_map (token_debug shown float_text) ts = flat_map (token_debug shown float_text) us <-> map f ts = map f us.
  Proof.
    assert (N : forall t, token_debug shown float_text t <> []).
    { intros t. unfold token_debug, Debug.d_tok, range_debug, position_debug. discriminate. }
    revert us. induction ts as [|t ts IH]; intros [|u us]; cbn [flat_map map].
    - tauto.
    - split; intros E; [|discriminate E]. symmetry in E. apply app_eq_nil in E as [E _]. destruct (N _ E).
    - split; intros E; [|discriminate E]. apply app_eq_nil in E as [E _]. destruct (N _ E).
    - split; intros E.
      + apply token_debug_split in E as [E1 E2]. apply IH in E2. congruence.
      + assert (E1 : f t = f u) by congruence. assert (E2 : map f ts = map f us) by congruence.
        apply token_debug_iff in E1. apply IH in E2. congruence.
  Qed.
  Theorem result_debug_iff r r' : result_debug shown float_text r = result_debug shown float_text r' <->
    match r, r' with
    | inl b, inl b' => map_block f b = map_block f b'
    | inr (UnclosedMultilineComment x), inr (UnclosedMultilineComment y) => range_eqb x y = true
    | _, _ => False
    end.
  Proof.
    assert (W : forall r, wf match r with inl b => DTuple "Ok" (db b) | inr e => DTuple "Err" (Debug.d_token_error e) end).
    { intros [b|[x]]; cbn [Debug.d_token_error]; wfs; [apply block_good|apply wf_range; eexists; reflexivity]. }
    unfold result_debug. transitivity (match r with inl b => DTuple "Ok" (db b) | inr e => DTuple "Err" (Debug.d_token_error e) end
      = match r' with inl b => DTuple "Ok" (db b) | inr e => DTuple "Err" (Debug.d_token_error e) end).
    { split; [apply print_inj; apply W|congruence]. }
    destruct r as [b|[x]], r' as [b'|[y]]; cbn [Debug.d_token_error]; try (split; [discriminate|tauto]).
    - rewrite tuple_iff. apply block_good.
    - rewrite !tuple_iff, <- range_debug_iff. split; congruence.
  Qed.
End Trees.
