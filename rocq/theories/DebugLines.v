(** Two line feeds for each token. *)
From Coq Require Import String.
From Verif Require Import EqSpec EqFacts EqInj LexSpec DisplayProofs AstTokens.
From Verif Require Export DebugAst.
Local Open Scope string_scope.
Local Open Scope list_scope.

Definition feeds (s : str) : nat := count_occ N.eq_dec s 10%N.
Lemma feeds_app a b : feeds (a ++ b) = feeds a + feeds b.
Proof. apply count_occ_app. Qed.
Lemma feeds_none s : ~ In 10%N s -> feeds s = 0.
Proof. apply count_occ_not_In. Qed.
Lemma plain_feeds s : plain s -> feeds s = 0.
Proof.
  intros [_ H]. apply feeds_none. intros I. rewrite forallb_forall in H. specialize (H _ I). discriminate H.
Qed.
Lemma i32_feeds z : feeds (i32_text z) = 0.
Proof. apply plain_feeds, i32_plain. Qed.
Lemma range_feeds r : feeds (range_debug r) = 1.
Proof. unfold range_debug, position_debug. rewrite !feeds_app, !i32_feeds. reflexivity. Qed.
Lemma hex_digit_feed n : (n < 16)%N -> hex_digit n <> 10%N.
Proof. unfold hex_digit. destruct (N.ltb_spec n 10); lia. Qed.
Lemma hex_feeds f : forall n, feeds (hex_digits f n) = 0.
Proof.
  induction f as [|f IH]; intros n; [reflexivity|]. cbn [hex_digits]. rewrite feeds_app.
  assert (H : feeds [hex_digit (n mod 16)] = 0).
  { apply feeds_none. intros [E|[]]. revert E. apply hex_digit_feed, N.mod_lt. discriminate. }
  rewrite H. destruct (n <? 16)%N; [reflexivity|]. rewrite IH. reflexivity.
Qed.

Section Feeds.
  Variables (shown : char -> bool).
  Lemma escape_feeds c : feeds (escape shown c) = 0.
  Proof.
    unfold escape. do 3 (destruct (N.eqb _ _); [reflexivity|]). destruct (N.eqb_spec c 10) as [|H]; [reflexivity|].
    do 2 (destruct (N.eqb _ _); [reflexivity|]). destruct (shown c).
    - apply feeds_none. intros [E|[]]. auto.
    - rewrite !feeds_app. unfold hex_text. rewrite hex_feeds. reflexivity.
  Qed.
  Lemma string_feeds s : feeds (string_debug shown s) = 0.
  Proof.
    unfold string_debug. rewrite !feeds_app. change (feeds [34%N]) with 0. rewrite Nat.add_0_r. cbn [Nat.add].
    induction s as [|c s IH]; [reflexivity|]. cbn [flat_map]. rewrite feeds_app, escape_feeds, IH. reflexivity.
  Qed.

  Fixpoint marks (d : dbg) : nat :=
    match d with
    | DLeaf _ | DString _ => 0
    | DRange _ => 1
    | DTuple _ x => marks x
    | DStruct _ fs => list_sum (map (fun fx => marks (snd fx)) fs)
    | DList xs => list_sum (map marks xs)
    | DToken _ x => S (S (marks x))
    end.
  Lemma separated_feeds l : feeds (separated l) = list_sum (map feeds l).
  Proof.
    induction l as [|a [|b l] IH]; [reflexivity|cbn [separated map list_sum fold_right]; lia|].
    change (separated (a :: b :: l)) with (a ++ lit ", " ++ separated (b :: l)).
    rewrite !feeds_app, IH. reflexivity.
  Qed.
  Lemma print_feeds x : wf x -> feeds (Debug.print shown x) = marks x.
  Proof.
    induction x as [s|n x IH|n fs IH|xs IH|s|t|t x IH] using dbg_ind'; intros H; inversion H; subst; cbn [Debug.print marks].
    - apply plain_feeds. assumption.
    - rewrite !feeds_app, IH, plain_feeds by assumption. change (feeds (lit "(")) with 0. change (feeds (lit ")")) with 0. lia.
    - rewrite !feeds_app, plain_feeds, separated_feeds, map_map by assumption.
      change (feeds (lit " { ")) with 0. change (feeds (lit " }")) with 0. rewrite Nat.add_0_r. cbn [Nat.add]. f_equal.
      apply map_ext_in. intros [f y] Hf. rewrite Forall_forall in IH, H3. specialize (IH _ Hf). destruct (H3 _ Hf) as [P W].
      cbn [fst snd] in *. rewrite !feeds_app, plain_feeds, IH by assumption. reflexivity.
    - rewrite !feeds_app, separated_feeds, map_map. change (feeds (lit "[")) with 0. change (feeds (lit "]")) with 0.
      rewrite Nat.add_0_r. cbn [Nat.add]. f_equal. apply map_ext_in. intros y Hy. rewrite Forall_forall in IH, H1. auto.
    - apply string_feeds.
    - destruct H1 as [r ->]. apply range_feeds.
    - destruct H2 as [r ->]. rewrite !feeds_app, range_feeds, IH by assumption. change (feeds [10%N]) with 1. lia.
  Qed.
End Feeds.

Section Marks.
  Variable float_text : spec_float -> str.
  Definition counted {T} (d : T -> dbg) (tk : T -> list token) (x : T) : Prop := marks (d x) = 2 * List.length (tk x).
  Lemma list_counted {T} (d : T -> dbg) tk l : Forall (counted d tk) l ->
    marks (DList (map d l)) = 2 * List.length (flat_map tk l).
  Proof.
    intros H. cbn [marks]. induction H as [|x l Hx _ IH]; [reflexivity|].
    cbn [map flat_map]. change (marks (d x) + list_sum (map marks (map d l)) = 2 * List.length (tk x ++ flat_map tk l)).
    rewrite app_length, IH, Hx. lia.
  Qed.
  Lemma list_counted' {T} (d : T -> dbg) tk l : (forall x, counted d tk x) -> marks (DList (map d l)) = 2 * List.length (flat_map tk l).
  Proof. intros H. apply list_counted, Forall_forall. auto. Qed.
  Lemma option_counted {T} (d : T -> dbg) tk o : (forall x, o = Some x -> counted d tk x) ->
    marks (d_option d o) = 2 * List.length (opt_tokens tk o).
  Proof. intros H. destruct o as [x|]; [apply (H x eq_refl)|reflexivity]. Qed.
  Lemma type_marks t : marks (Debug.d_token_type float_text t) = 0.
  Proof. destruct t as [s|k|s|[[z|x]|s|[]|]|s|s| | | | |]; reflexivity. Qed.
  Notation dt := (Debug.d_tok float_text).
  Lemma tok_marks t : marks (dt t) = 2.
  Proof. unfold d_tok. cbn [marks]. rewrite type_marks. reflexivity. Qed.
  Lemma opt_marks o : marks (d_option dt o) = 2 * List.length (opt_token o).
  Proof. destruct o; [apply tok_marks|reflexivity]. Qed.
  Lemma toks_marks l : marks (DList (map dt l)) = 2 * List.length l.
  Proof.
    rewrite (list_counted' dt (fun t => [t]) l tok_marks). do 2 f_equal. induction l as [|t l IH]; [reflexivity|].
    cbn [flat_map app]. rewrite IH. reflexivity.
  Qed.
  Lemma struct_marks n fs : marks (DStruct n fs) = list_sum (map (fun fx => marks (snd fx)) fs).
  Proof. reflexivity. Qed.
  Lemma tuple_marks n x : marks (DTuple n x) = marks x.
  Proof. reflexivity. Qed.
  Ltac sums := rewrite ?tuple_marks, ?struct_marks; cbn [map list_sum fold_right fst snd];
    rewrite ?tok_marks, ?opt_marks, ?toks_marks.
  Ltac lens := cbn [List.length]; repeat (rewrite ?app_length; cbn [List.length]); lia.

  (** The trees of values with blocks or operands inside. *)
  Lemma operand_tree e an : Debug.d_operand float_text (Operand e an) =
    DStruct "NaryOperationOperand" [("operand", Debug.d_expression float_text e); ("an_token", d_option dt an)].
  Proof. reflexivity. Qed.
  Lemma nary_tree o es m : Debug.d_expression float_text (NaryOperation o es m) =
    DTuple "NaryOperation" (DStruct "NaryOperation"
      [("operator", Debug.d_nary_opt float_text o); ("expressions", DList (map (Debug.d_operand float_text) es)); ("mkay_token", d_option dt m)]).
  Proof. reflexivity. Qed.
  Notation db := (Debug.d_ast_block float_text).
  Lemma block_tree ns : db (ASTBlock ns) = DTuple "ASTBlock" (DList (map (Debug.d_node float_text) ns)).
  Proof. reflexivity. Qed.
  Lemma loop_tree t l it c b e : Debug.d_node float_text (NImInYr (ImInYr t l it c b e)) =
    DTuple "ImInYr" (DStruct "ImInYr" [("im_in_yr_token", dt t); ("label", dt l); ("on_iteration", d_option (Debug.d_loop_iteration float_text) it);
                        ("condition", d_option (Debug.d_loop_condition float_text) c); ("code_block", db b); ("end_label", dt e)]).
  Proof. reflexivity. Qed.
  Lemma wtf_tree t omgs d : Debug.d_node float_text (NWtf (Wtf t omgs d)) =
    DTuple "Wtf" (DStruct "Wtf" [("wtf_token", dt t); ("omg", DList (map (Debug.d_wtf_omg float_text) omgs));
                     ("omg_wtf", d_option (Debug.d_wtf_omg_wtf float_text) d)]).
  Proof. reflexivity. Qed.
  Lemma omg_tree t e b : Debug.d_wtf_omg float_text (WtfOmg t e b) =
    DStruct "WtfOmg" [("omg_token", dt t); ("expression", Debug.d_expression float_text e); ("block", db b)].
  Proof. reflexivity. Qed.
  Lemma omg_wtf_tree t b : Debug.d_wtf_omg_wtf float_text (WtfOmgWtf t b) = DStruct "WtfOmgWtf" [("omg_wtf_token", dt t); ("block", db b)].
  Proof. reflexivity. Qed.
  Lemma o_rly_tree t yes no mebbes : Debug.d_node float_text (NORly (ORly t yes no mebbes)) =
    DTuple "ORly" (DStruct "ORly" [("o_rly_token", dt t); ("if_true", d_option (Debug.d_ya_rly float_text) yes);
                      ("if_false", d_option (Debug.d_no_wai float_text) no); ("mebbes", DList (map (Debug.d_mebbe float_text) mebbes))]).
  Proof. reflexivity. Qed.
  Lemma ya_rly_tree t b : Debug.d_ya_rly float_text (YaRly t b) = DStruct "YaRly" [("ya_rly_token", dt t); ("block", db b)].
  Proof. reflexivity. Qed.
  Lemma no_wai_tree t b : Debug.d_no_wai float_text (NoWai t b) = DStruct "NoWai" [("no_wai_token", dt t); ("block", db b)].
  Proof. reflexivity. Qed.
  Lemma mebbe_tree t e b : Debug.d_mebbe float_text (Mebbe t e b) =
    DStruct "Mebbe" [("mebbe_token", dt t); ("condition", Debug.d_expression float_text e); ("block", db b)].
  Proof. reflexivity. Qed.
  Lemma fun_tree t i args b : Debug.d_node float_text (NHowIzI (HowIzI t i args b)) =
    DTuple "HowIzI" (DStruct "HowIzI" [("how_iz_i_token", dt t); ("name", Debug.d_id float_text i);
      ("arguments", DList (map (Debug.d_id float_text) args)); ("body", db b)]).
  Proof. reflexivity. Qed.

  Lemma id_counted i : counted (Debug.d_id float_text) identifier_tokens i.
  Proof.
    destruct i as [n s]. unfold counted, Debug.d_id, identifier_tokens. cbn [id_name id_srs].
    change (match s with Some s => [s] | None => [] end) with (opt_token s). sums. lens.
  Qed.
  Lemma slot_counted i : counted (Debug.d_slot float_text) slot_tokens i.
  Proof.
    destruct i as [n s]. unfold counted, Debug.d_slot, slot_tokens. cbn [slot_access_token slot_identifier]. sums.
    rewrite (id_counted s). lens.
  Qed.
  Lemma va_counted v : counted (Debug.d_variable_access float_text) va_tokens v.
  Proof.
    destruct v as [i s]. unfold counted, Debug.d_variable_access, va_tokens. cbn [va_identifier va_accesses]. sums.
    rewrite (id_counted i), (list_counted' _ slot_tokens s slot_counted). lens.
  Qed.
  Lemma value_counted v : counted (Debug.d_expr_value float_text) value_tokens v.
  Proof. destruct v as [v|t]; unfold counted; cbn [Debug.d_expr_value value_tokens]; sums; [apply va_counted|reflexivity]. Qed.
  Lemma binary_counted o : marks (Debug.d_binary_opt float_text o) = 2.
  Proof. destruct o; apply tok_marks. Qed.
  Lemma unary_counted o : marks (Debug.d_unary_opt float_text o) = 2.
  Proof. destruct o; apply tok_marks. Qed.
  Lemma nary_counted o : marks (Debug.d_nary_opt float_text o) = 2.
  Proof. destruct o; apply tok_marks. Qed.
  Lemma expr_counted e : counted (Debug.d_expression float_text) expr_tokens e.
  Proof.
    unfold counted. induction e as [l o r an IHl IHr|o x IH|o es m IH|v] using expr_ind'; rewrite ?nary_tree; cbn [Debug.d_expression expr_tokens]; sums.
    - rewrite IHl, IHr, binary_counted. lens.
    - rewrite IH, unary_counted. lens.
    - rewrite nary_counted. change (fun x => match x with Operand e an => expr_tokens e ++ opt_token an end) with operand_tokens.
      rewrite (list_counted _ operand_tokens es); [lens|]. revert IH. apply Forall_impl. intros [e an] H. unfold counted.
      rewrite operand_tree. cbn [operand_tokens operand_expr] in *. sums. rewrite H. lens.
    - apply value_counted.
  Qed.
  Lemma ast_type_counted o : marks (Debug.d_type float_text o) = 2.
  Proof. destruct o; apply tok_marks. Qed.
  Lemma error_counted e : counted (Debug.d_ast_error float_text) error_tokens e.
  Proof.
    unfold counted. destruct e as [t|ts|[]|[]|[]|t|[]|t|[]|[]|[]]; cbn [Debug.d_ast_error error_tokens]; sums; reflexivity.
  Qed.
  Lemma initial_counted i : counted (Debug.d_initial_value float_text) (fun i => initial_tokens (Some i)) i.
  Proof. destruct i as [e|t]; unfold counted; cbn [Debug.d_initial_value initial_tokens]; sums; [apply expr_counted|apply ast_type_counted]. Qed.
  Lemma operation_counted o : marks (Debug.d_loop_operation float_text o) = 2.
  Proof. destruct o; apply tok_marks. Qed.
  Lemma iteration_counted i : counted (Debug.d_loop_iteration float_text) (fun i => iteration_tokens (Some i)) i.
  Proof.
    destruct i as [o v]. unfold counted, Debug.d_loop_iteration. cbn [li_operation li_operand iteration_tokens]. sums.
    rewrite operation_counted, (va_counted v). lens.
  Qed.
  Lemma condition_counted i : counted (Debug.d_loop_condition float_text) (fun i => condition_tokens (Some i)) i.
  Proof. destruct i as [e|e]; apply (expr_counted e). Qed.

  Lemma block_counted_of b : all_nodes (counted (Debug.d_node float_text) node_tokens) b ->
    marks (Debug.d_ast_block float_text b) = 2 * List.length (block_tokens b).
  Proof. destruct b as [ns]. intros H. rewrite block_tree. cbn [block_tokens]. sums. apply (list_counted _ node_tokens ns H). Qed.
  Lemma node_counted n : counted (Debug.d_node float_text) node_tokens n.
  Proof.
    induction n as [t l it c b e Hb|t omgs d Ho Hd|t yes no mebbes Hy Hn Hm|t i params b Hb|n Hn] using node_ind'; unfold counted.
    - rewrite loop_tree. cbn [node_tokens im_in_yr_tokens]. rewrite iteration_opt, condition_opt. sums.
      rewrite (block_counted_of b Hb), (option_counted _ _ it (fun a _ => iteration_counted a)),
        (option_counted _ _ c (fun a _ => condition_counted a)). lens.
    - rewrite wtf_tree. cbn [node_tokens wtf_tokens]. sums.
      rewrite (list_counted _ wtf_omg_tokens omgs), (option_counted _ wtf_omg_wtf_tokens d).
      + unfold opt_tokens. lens.
      + intros [u b] ->. unfold counted. rewrite omg_wtf_tree. cbn [wtf_omg_wtf_tokens]. sums. rewrite (block_counted_of b Hd). lens.
      + revert Ho. apply Forall_impl. intros [u e b] Hb. unfold counted. rewrite omg_tree. cbn [wtf_omg_tokens]. sums.
        rewrite (block_counted_of b Hb), (expr_counted e). lens.
    - rewrite o_rly_tree. cbn [node_tokens o_rly_tokens]. sums.
      rewrite (list_counted _ mebbe_tokens mebbes), (option_counted _ ya_rly_tokens yes), (option_counted _ no_wai_tokens no).
      + unfold opt_tokens. lens.
      + intros [u b] ->. unfold counted. rewrite no_wai_tree. cbn [no_wai_tokens]. sums. rewrite (block_counted_of b Hn). lens.
      + intros [u b] ->. unfold counted. rewrite ya_rly_tree. cbn [ya_rly_tokens]. sums. rewrite (block_counted_of b Hy). lens.
      + revert Hm. apply Forall_impl. intros [u e b] Hb. unfold counted. rewrite mebbe_tree. cbn [mebbe_tokens]. sums.
        rewrite (block_counted_of b Hb), (expr_counted e). lens.
    - rewrite fun_tree. cbn [node_tokens how_iz_i_tokens]. sums.
      rewrite (block_counted_of b Hb), (id_counted i), (list_counted' _ identifier_tokens params id_counted). lens.
    - destruct n; try (destruct Hn; fail); cbn [Debug.d_node node_tokens]; rewrite tuple_marks.
      + destruct x as [t i v]. unfold Debug.d_i_has_a, i_has_a_tokens. cbn [ihasa_token ihasa_identifier ihasa_initial_value].
        rewrite initial_opt. sums. rewrite (id_counted i), (option_counted _ _ v (fun a _ => initial_counted a)). lens.
      + destruct x as [t v]. unfold Debug.d_hai, hai_tokens. cbn [hai_token hai_version]. sums. lens.
      + destruct x as [v i e]. unfold Debug.d_bukkit_set_slot, set_slot_tokens. cbn [bss_bukkit bss_slot_name bss_value]. sums.
        rewrite (va_counted v), (id_counted i), (expr_counted e). lens.
      + destruct x as [v e t]. unfold Debug.d_assignment, assignment_tokens. cbn [asg_variable_access asg_expression asg_r_token]. sums.
        rewrite (va_counted v), (expr_counted e). lens.
      + destruct x as [t es o]. unfold Debug.d_visible, visible_tokens. cbn [visible_token visible_expressions visible_exclamation_mark]. sums.
        rewrite (list_counted' _ expr_tokens es expr_counted). lens.
      + destruct x as [t e]. unfold Debug.d_found_yr, found_yr_tokens. cbn [found_yr_token found_yr_expression]. sums. rewrite (expr_counted e). lens.
      + destruct x as [t v es]. unfold Debug.d_i_iz, i_iz_tokens. cbn [iiz_token iiz_name iiz_arguments]. sums.
        rewrite (va_counted v), (list_counted' _ expr_tokens es expr_counted). lens.
      + unfold Debug.d_gtfo. sums. reflexivity.
      + destruct x as [t v]. unfold Debug.d_gimmeh, gimmeh_tokens. cbn [gimmeh_token gimmeh_variable_access]. sums. rewrite (va_counted v). lens.
      + apply expr_counted.
      + apply error_counted.
      + unfold Debug.d_kthxbye. sums. reflexivity.
  Qed.
  Hypothesis FT : float_texts float_text.
  Theorem block_feeds shown b : feeds (block_debug shown float_text b) = 2 * List.length (block_tokens b).
  Proof.
    unfold block_debug. rewrite print_feeds by apply (block_good _ FT). apply block_counted_of.
    unfold all_nodes. apply Forall_forall. intros n _. apply node_counted.
  Qed.
End Marks.
