(** Proofs about the depth of ASTs. *)
From Coq Require Import String.
From Verif Require Import EqFacts ParserProps2 NodeTokens Relabel RelabelTokens
  Api Grammar Clean LexSpec SourceSpec SourceProofs LexProps2 CostProofs.
From Verif Require Export Depth.

Lemma deepest_le {A} (d : A -> nat) (tk : A -> list token) l :
  Forall (fun x => d x <= length (tk x)) l -> deepest d l <= length (flat_map tk l).
Proof.
  induction 1 as [|x l Hx _ IH]; cbn [deepest flat_map]; [lia|]. rewrite app_length. lia.
Qed.

Lemma deepest_in {A} (d : A -> nat) l x : In x l -> d x <= deepest d l.
Proof.
  induction l as [|y l IH]; [intros []|]. intros [->|H]; cbn [deepest]; [lia|].
  specialize (IH H). lia.
Qed.

Lemma value_tokens_pos v : 1 <= length (value_tokens v).
Proof.
  destruct v as [v|t]; cbn [value_tokens length]; [|lia].
  unfold va_tokens, AstTokens.identifier_tokens. rewrite !app_length. cbn [length]. lia.
Qed.

Lemma expr_depth_le e : expr_depth e <= length (expr_tokens e).
Proof.
  induction e as [l o r an IHl IHr|o e IH|o es m IH|v] using expr_ind'.
  - cbn [expr_depth expr_tokens length]. rewrite !app_length. lia.
  - cbn [expr_depth expr_tokens length]. lia.
  - cbn [expr_depth expr_tokens length]. rewrite app_length.
    enough (deepest operand_depth es <= length (flat_map operand_tokens es))
      by (unfold operand_tokens in *; lia).
    apply deepest_le. revert IH. apply Forall_impl. intros [e an] H.
    cbn [operand_depth operand_tokens operand_expr] in *. rewrite app_length. lia.
  - cbn [expr_depth expr_tokens]. apply value_tokens_pos.
Qed.

Lemma exprs_depth_le es : deepest expr_depth es <= length (flat_map expr_tokens es).
Proof. apply deepest_le, Forall_forall. intros e _. apply expr_depth_le. Qed.

Lemma condition_depth_le c : condition_depth c <= length (condition_tokens c).
Proof. destruct c as [[e|e]|]; cbn [condition_depth condition_tokens length]; try lia; apply expr_depth_le. Qed.

Lemma initial_depth_le i : initial_depth i <= length (initial_tokens i).
Proof. destruct i as [[e|t]|]; cbn [initial_depth initial_tokens length]; try lia; apply expr_depth_le. Qed.

Lemma block_depth_of b : all_nodes (fun n => node_depth n <= length (node_tokens n)) b ->
  block_depth b <= length (block_tokens b).
Proof. destruct b as [ns]. cbn [block_depth block_tokens]. apply deepest_le. Qed.

Lemma node_depth_le n : node_depth n <= length (node_tokens n).
Proof.
  induction n as [t l it c b e Hb|t omgs d Ho Hd|t yes no mebbes Hy Hn Hm|t i params b Hb|n Hn] using node_ind'.
  - cbn [node_depth node_tokens im_in_yr_tokens length]. rewrite !app_length.
    apply block_depth_of in Hb. pose proof (condition_depth_le c). lia.
  - cbn [node_depth node_tokens wtf_tokens length]. rewrite app_length.
    assert (H1 : deepest omg_depth omgs <= length (flat_map wtf_omg_tokens omgs)).
    { apply deepest_le. revert Ho. apply Forall_impl. intros [u e b] Hb. apply block_depth_of in Hb.
      cbn [omg_depth wtf_omg_tokens length]. rewrite app_length. pose proof (expr_depth_le e). lia. }
    destruct d as [[u b]|]; [|lia]. apply block_depth_of in Hd. cbn [wtf_omg_wtf_tokens length]. lia.
  - cbn [node_depth node_tokens o_rly_tokens length]. rewrite !app_length.
    assert (H1 : deepest mebbe_depth mebbes <= length (flat_map mebbe_tokens mebbes)).
    { apply deepest_le. revert Hm. apply Forall_impl. intros [u e b] Hb. apply block_depth_of in Hb.
      cbn [mebbe_depth mebbe_tokens length]. rewrite app_length. pose proof (expr_depth_le e). lia. }
    destruct yes as [[u b]|]; [apply block_depth_of in Hy|];
      (destruct no as [[u' b']|]; [apply block_depth_of in Hn|]);
      cbn [ya_rly_tokens no_wai_tokens length]; lia.
  - cbn [node_depth node_tokens how_iz_i_tokens length]. rewrite !app_length.
    apply block_depth_of in Hb. lia.
  - destruct n as [x|x|x|x|x|x|x|x|x|x|x|x|x|x|x|x]; try (destruct Hn; fail);
      cbn [node_depth node_tokens length]; try lia.
    + unfold i_has_a_tokens. cbn [length]. rewrite app_length.
      pose proof (initial_depth_le (ihasa_initial_value x)). lia.
    + unfold hai_tokens. cbn [length]. lia.
    + unfold set_slot_tokens, AstTokens.identifier_tokens. rewrite !app_length. cbn [length].
      pose proof (expr_depth_le (bss_value x)). lia.
    + unfold assignment_tokens. rewrite app_length. cbn [length].
      pose proof (expr_depth_le (asg_expression x)). lia.
    + unfold visible_tokens. cbn [length]. rewrite app_length.
      pose proof (exprs_depth_le (visible_expressions x)). lia.
    + unfold found_yr_tokens. cbn [length]. pose proof (expr_depth_le (found_yr_expression x)). lia.
    + unfold i_iz_tokens. cbn [length]. rewrite app_length.
      pose proof (exprs_depth_le (iiz_arguments x)). lia.
    + unfold gimmeh_tokens. cbn [length]. lia.
    + apply expr_depth_le.
Qed.

Lemma block_depth_le b : block_depth b <= length (block_tokens b).
Proof. apply block_depth_of, Forall_forall. intros n _. apply node_depth_le. Qed.

Lemma subseq_length {A} (a b : list A) : Subseq a b -> length a <= length b.
Proof. induction 1; cbn [length]; lia. Qed.

Theorem depth_tokens ts b : parse ts = ParseOk b -> block_depth b <= length ts.
Proof.
  intros H. apply parse_subseq, subseq_length in H. pose proof (block_depth_le b). lia.
Qed.

(** ** Relabelling keeps the depth *)
Lemma deepest_map {A B} (g : A -> B) (d : B -> nat) (d' : A -> nat) l :
  Forall (fun x => d (g x) = d' x) l -> deepest d (map g l) = deepest d' l.
Proof. induction 1 as [|x l Hx _ IH]; cbn [map deepest]; [reflexivity|]. rewrite Hx, IH. reflexivity. Qed.

Section Map.
Variable f : token -> token.

Lemma expr_depth_map e : expr_depth (map_expr f e) = expr_depth e.
Proof.
  induction e as [l o r an IHl IHr|o e IH|o es m IH|v] using expr_ind'.
  - rewrite map_binary_eq. cbn [expr_depth]. rewrite IHl, IHr. reflexivity.
  - change (map_expr f (UnaryOperation o e)) with (UnaryOperation (map_unary f o) (map_expr f e)).
    cbn [expr_depth]. rewrite IH. reflexivity.
  - rewrite map_nary_eq. cbn [expr_depth]. f_equal. apply deepest_map.
    revert IH. apply Forall_impl. intros [e an] H. rewrite map_operand_eq. exact H.
  - reflexivity.
Qed.

Lemma exprs_depth_map es : deepest expr_depth (map (map_expr f) es) = deepest expr_depth es.
Proof. apply deepest_map, Forall_forall. intros e _. apply expr_depth_map. Qed.

Lemma block_depth_map_of b : all_nodes (fun n => node_depth (map_node f n) = node_depth n) b ->
  block_depth (map_block f b) = block_depth b.
Proof. destruct b as [ns]. rewrite map_block_eq. cbn [block_depth]. apply deepest_map. Qed.

Lemma node_depth_map n : node_depth (map_node f n) = node_depth n.
Proof.
  induction n as [t l it c b e Hb|t omgs d Ho Hd|t yes no mebbes Hy Hn Hm|t i params b Hb|n Hn] using node_ind'.
  - rewrite map_loop_eq. cbn [node_depth]. apply block_depth_map_of in Hb. rewrite Hb.
    f_equal. f_equal. destruct c as [[x|x]|]; [| |reflexivity]; exact (expr_depth_map x).
  - rewrite map_wtf_eq. cbn [node_depth]. f_equal. f_equal.
    + apply deepest_map. revert Ho. apply Forall_impl. intros [u e b] Hb. apply block_depth_map_of in Hb.
      rewrite map_omg_eq. cbn [omg_depth]. rewrite Hb, expr_depth_map. reflexivity.
    + destruct d as [[u b]|]; [|reflexivity]. apply block_depth_map_of in Hd. cbn [option_map].
      rewrite map_omg_wtf_eq, Hd. reflexivity.
  - rewrite map_o_rly_eq. cbn [node_depth]. f_equal. f_equal; [|f_equal].
    + destruct yes as [[u b]|]; [|reflexivity]. apply block_depth_map_of in Hy. cbn [option_map].
      rewrite map_ya_rly_eq, Hy. reflexivity.
    + destruct no as [[u b]|]; [|reflexivity]. apply block_depth_map_of in Hn. cbn [option_map].
      rewrite map_no_wai_eq, Hn. reflexivity.
    + apply deepest_map. revert Hm. apply Forall_impl. intros [u e b] Hb. apply block_depth_map_of in Hb.
      rewrite map_mebbe_eq. cbn [mebbe_depth]. rewrite Hb, expr_depth_map. reflexivity.
  - rewrite map_fun_eq. cbn [node_depth]. apply block_depth_map_of in Hb. rewrite Hb. reflexivity.
  - destruct n as [x|x|x|x|x|x|x|x|x|x|x|x|x|x|x|x]; try (destruct Hn; fail); try reflexivity.
    + destruct x as [t i [[e|ty]|]]; try reflexivity. exact (f_equal S (expr_depth_map e)).
    + exact (f_equal S (expr_depth_map (bss_value x))).
    + exact (f_equal S (expr_depth_map (asg_expression x))).
    + exact (f_equal S (exprs_depth_map (visible_expressions x))).
    + exact (f_equal S (expr_depth_map (found_yr_expression x))).
    + exact (f_equal S (exprs_depth_map (iiz_arguments x))).
    + exact (expr_depth_map x).
Qed.

Lemma nodes_depth_map ns : deepest node_depth (map (map_node f) ns) = deepest node_depth ns.
Proof. apply deepest_map, Forall_forall. intros n _. apply node_depth_map. Qed.
End Map.

(** ** Deep sources *)
Definition spell (t : token) : str :=
  match tok_type t with TKeyword k => spelling k | TIdentifier s => s | _ => [] end.

Lemma writable_keyword k : ~ In k [BTW; OBTW; WIN; FAIL; NOOB; ANY_OF] -> writable spell (bare (TKeyword k)).
Proof. intros Hk. split; [apply writes_keyword, Hk|]. repeat split; discriminate. Qed.

Lemma writable_identifier c : (97 <= c <= 122)%N -> writable spell (bare (TIdentifier [c])).
Proof.
  intros Hc. split; [|repeat split; discriminate]. apply writes_identifier; [discriminate| |].
  - constructor; [|constructor]. right. left. exact Hc.
  - intros k (u & E). unfold spell in E. cbn in E.
    destruct k; cbn in E; injection E as -> _; lia.
Qed.

Definition name_x : token := bare (TIdentifier (lit "x")).
Definition name_a : token := bare (TIdentifier (lit "a")).
Definition word (k : keyword) : token := bare (TKeyword k).

Definition nots_line (n : nat) : list token := repeat (word Keywords.NOT) n ++ [name_x].
Fixpoint nots_expr (n : nat) : expr :=
  match n with
  | O => Value (VariableAccess (mkVA (mkIdentifier name_x None) []))
  | S n' => UnaryOperation (UNot (word Keywords.NOT)) (nots_expr n')
  end.

Lemma nots_derive n : d_expr false (nots_line n) (nots_expr n).
Proof.
  induction n as [|n IH]; cbn [nots_expr].
  - apply d_variable. apply (d_access [name_x] _ [] []); [|constructor].
    constructor. exists (lit "x"). reflexivity.
  - apply (d_not (word Keywords.NOT) false (nots_line n)); [reflexivity|exact IH].
Qed.

Lemma print_tokens_nots n : print (print_tokens spell (nots_line n)) = nots_source n.
Proof.
  induction n as [|n IH]; [reflexivity|]. unfold nots_line. cbn [repeat app].
  fold (nots_line n). unfold nots_source. cbn [repeat concat]. rewrite <- app_assoc.
  fold (nots_source n). rewrite <- IH.
  destruct (nots_line n) as [|t l] eqn:E; [destruct n; discriminate E|]. reflexivity.
Qed.

Lemma nots_expr_depth n : expr_depth (nots_expr n) = S n.
Proof. induction n as [|n IH]; cbn [nots_expr expr_depth]; [reflexivity|]. rewrite IH. reflexivity. Qed.

Lemma program_of_lines ls ns : d_block ls ns -> d_program ls ns.
Proof. intros H. exists 1, ls, []. split; [reflexivity|exact H]. Qed.

Lemma nots_writable n : Forall (writable spell) (nots_line n).
Proof.
  apply Forall_app. split.
  - apply Forall_forall. intros t Ht. apply repeat_spec in Ht. rewrite Ht.
    apply writable_keyword. cbn. intuition discriminate.
  - constructor; [|constructor]. apply (writable_identifier 120%N). lia.
Qed.

Theorem deep_expression n : exists ns,
  tokenize_and_parse (nots_source n) = ApiOk (ASTBlock ns) /\ forallb node_clean ns = true /\
  block_depth (ASTBlock ns) = S n.
Proof.
  assert (HW : Forall (Forall (writable spell)) [nots_line n])
    by (constructor; [apply nots_writable|constructor]).
  assert (HD : d_program [nots_line n] [NExpression (nots_expr n)]).
  { apply program_of_lines, d_block_stmts; [|discriminate].
    apply (d_stmts_cons [nots_line n] _ [] []); [|constructor].
    apply d_single, (d_expression false), nots_derive. }
  destruct (program_round_trip spell _ _ HW HD) as (ns & E & Em & Hc).
  exists ns. split; [|split; [exact Hc|]].
  - rewrite <- E, <- print_tokens_nots. unfold print_program. cbn [flat_map].
    rewrite app_nil_r. destruct (nots_line n) as [|t l] eqn:El; [destruct n; discriminate El|]. reflexivity.
  - cbn [block_depth]. rewrite <- (nodes_depth_map erase ns), Em, nodes_depth_map.
    cbn [deepest node_depth]. rewrite nots_expr_depth. lia.
Qed.

Definition loop_open : list token := [word IM_IN_YR; name_a].
Definition loop_close : list token := [word IM_OUTTA_YR; name_a].
Fixpoint loop_lines (n : nat) : list (list token) :=
  match n with
  | O => [[word GTFO]]
  | S n' => loop_open :: loop_lines n' ++ [loop_close]
  end.
Fixpoint loop_node (n : nat) : node :=
  match n with
  | O => NGtfo (mkGtfo (word GTFO))
  | S n' => NImInYr (ImInYr (word IM_IN_YR) name_a None None (ASTBlock [loop_node n']) name_a)
  end.

Lemma loops_derive n : d_stmt (loop_lines n) (loop_node n).
Proof.
  induction n as [|n IH]; cbn [loop_lines loop_node].
  - apply d_single, d_gtfo. reflexivity.
  - apply (d_loop (word IM_IN_YR) name_a [] None [] None (loop_lines n) [loop_node n] (word IM_OUTTA_YR) name_a);
      try reflexivity; try constructor; try (exists (lit "a"); reflexivity).
    + rewrite <- (app_nil_r (loop_lines n)). constructor; [exact IH|constructor].
    + discriminate.
Qed.

Lemma loop_node_depth n : node_depth (loop_node n) = S n.
Proof.
  induction n as [|n IH]; [reflexivity|].
  cbn [loop_node node_depth block_depth deepest condition_depth]. rewrite IH. lia.
Qed.

Lemma loop_lines_shape n : loop_lines n = repeat loop_open n ++ [word GTFO] :: repeat loop_close n.
Proof.
  induction n as [|n IH]; [reflexivity|]. cbn [loop_lines repeat app]. rewrite IH, <- app_assoc.
  cbn [app]. f_equal. f_equal. f_equal. rewrite <- repeat_cons. reflexivity.
Qed.

Lemma print_app a b : print (a ++ b) = print a ++ print b.
Proof. unfold print. rewrite map_app, concat_app. reflexivity. Qed.

Lemma print_repeat l n : print (flat_map (print_line spell) (repeat l n)) = concat (repeat (print (print_line spell l)) n).
Proof.
  induction n as [|n IH]; [reflexivity|]. cbn [repeat flat_map concat]. rewrite print_app, IH. reflexivity.
Qed.

Lemma print_loops n : print_program spell (loop_lines n) = loops_source n.
Proof.
  unfold print_program, loops_source. rewrite loop_lines_shape, flat_map_app, print_app, print_repeat.
  cbn [flat_map]. rewrite print_app, print_repeat. reflexivity.
Qed.

Theorem deep_blocks n : exists ns,
  tokenize_and_parse (loops_source n) = ApiOk (ASTBlock ns) /\ forallb node_clean ns = true /\
  block_depth (ASTBlock ns) = S n.
Proof.
  assert (Ha : writable spell name_a) by (apply (writable_identifier 97%N); lia).
  assert (HW : Forall (Forall (writable spell)) (loop_lines n)).
  { induction n as [|n IH]; cbn [loop_lines].
    - constructor; [|constructor]. constructor; [|constructor].
      apply writable_keyword. cbn. intuition discriminate.
    - constructor.
      + constructor; [apply writable_keyword; cbn; intuition discriminate|constructor; [exact Ha|constructor]].
      + apply Forall_app. split; [exact IH|]. constructor; [|constructor].
        constructor; [apply writable_keyword; cbn; intuition discriminate|constructor; [exact Ha|constructor]]. }
  assert (HD : d_program (loop_lines n) [loop_node n]).
  { apply program_of_lines, d_block_stmts; [|discriminate].
    rewrite <- (app_nil_r (loop_lines n)). constructor; [apply loops_derive|constructor]. }
  destruct (program_round_trip spell _ _ HW HD) as (ns & E & Em & Hc).
  exists ns. split; [|split; [exact Hc|]].
  - rewrite <- E, print_loops. reflexivity.
  - cbn [block_depth]. rewrite <- (nodes_depth_map erase ns), Em, nodes_depth_map.
    cbn [deepest]. rewrite loop_node_depth. lia.
Qed.

Lemma nots_source_length n : length (nots_source n) = 4 * n + 2.
Proof.
  unfold nots_source. induction n as [|n IH]; [reflexivity|].
  cbn [repeat concat]. rewrite <- app_assoc, app_length, IH.
  change (length (lit "NOT" ++ [9%N])) with 4. lia.
Qed.

Theorem depth_unbounded : ~ exists d, forall code b, tokenize_and_parse code = ApiOk b -> block_depth b <= d.
Proof.
  intros (d & H). destruct (deep_expression d) as (ns & E & _ & Hd). specialize (H _ _ E). lia.
Qed.

Theorem depth_source code b : tokenize_and_parse code = ApiOk b -> block_depth b <= length code.
Proof.
  unfold tokenize_and_parse. destruct (tokenize code) as [ts|e| |] eqn:E; try discriminate.
  destruct (parse ts) as [b'| |] eqn:Ep; try discriminate. intros H. injection H as <-.
  apply depth_tokens in Ep. pose proof (tokens_le_chars code ts E). lia.
Qed.

Theorem deep_expression_tokens n : exists ts ns,
  tokenize (nots_source n) = LexOk ts /\ length ts = n + 1 /\
  tokenize_and_parse (nots_source n) = ApiOk (ASTBlock ns) /\ forallb node_clean ns = true /\
  block_depth (ASTBlock ns) = n + 1 /\ length (nots_source n) = 4 * n + 2.
Proof.
  destruct (deep_expression n) as (ns & E & Hc & Hd).
  destruct (tokenize (nots_source n)) as [ts| | |] eqn:Et;
    try (unfold tokenize_and_parse in E; rewrite Et in E; discriminate E).
  exists ts, ns. rewrite Nat.add_1_r.
  assert (Hl : length ts = S n).
  { destruct (print_tokenize [] (print_tokens spell (nots_line n)) (Forall_nil _)) as (ts' & E' & Ht).
    - apply print_tokens_ok, nots_writable.
    - cbn [app] in E'. rewrite print_tokens_nots, Et in E'. injection E' as <-.
      apply (f_equal (@length _)) in Ht. rewrite !map_length in Ht. rewrite Ht.
      clear. induction n as [|n IH]; [reflexivity|]. unfold nots_line in *. cbn [repeat app].
      destruct (repeat (word Keywords.NOT) n ++ [name_x]) as [|t l] eqn:E;
        [destruct n; discriminate E|]. cbn [print_tokens length] in *. rewrite IH. reflexivity. }
  repeat split; try assumption. apply nots_source_length.
Qed.
