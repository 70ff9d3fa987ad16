(** Theorems on the shape of ASTs and on writing them back as text, by property
    number.  Vocabulary: Shape.v (shapes), Grammar.v, Unparse.v (the lines of an
    AST), Format.v (their text). *)
From Coq Require Import String.
From Verif Require Import Lexer Parser Api Clean ProgComplete Shape Unparse ShapeProofs UnparseProofs SourceSpec Format FormatProofs PropLexer PropParser.
Local Open Scope string_scope.
Local Open Scope list_scope.

(** ** C58 *)
(** Every field of an AST holds tokens of the kind it is for, with or without
    errors in the source. *)
Theorem C58_every_ast_has_its_shape ts b : parse ts = ParseOk b -> block_shape b.
Proof. exact (parse_shape ts b). Qed.
Print Assumptions C58_every_ast_has_its_shape.

(** The ASTs of grammatical programs are those of this shape without errors. *)
Theorem C58_grammatical_asts ns :
  (exists ls, d_program ls ns) <-> Forall node_shape ns /\ forallb node_clean ns = true.
Proof. exact (image_iff ns). Qed.
Print Assumptions C58_grammatical_asts.

(** The tokens of an expression are in its AST, and nothing else. *)
Theorem C58_expression_asts ts e o :
  d_expr o ts e <-> ts = expr_tokens e /\ expr_shape e /\ unclosed e = o.
Proof. exact (expr_iff o ts e). Qed.
Print Assumptions C58_expression_asts.

Example C58_case :
  let ts := toks [ "VISIBLE ALL OF WIN AN x"; "O RLY ? "; "MEBBE BOTH SAEM x AN 1 "; "x'Z SRS y R 2 "; "VISIBLE ( "; "OIC" ] in
  exists b, parse ts = ParseOk b /\ block_shape b /\ length (block_all b) = 4%nat /\ block_clean b = false.
Proof. vm_compute. eexists. split; [reflexivity|]. split; [|split; reflexivity]. repeat split; eauto; try (left; eauto); try discriminate. Qed.
(** VISIBLE ALL OF x without MKAY, followed by another expression: no program
    has this AST. *)
Definition open_then_more : node :=
  let x := Value (VariableAccess (mkVA (mkIdentifier (bare (TIdentifier (lit "x"))) None) [])) in
  NVisible (mkVisible (bare (TKeyword VISIBLE))
    [NaryOperation (AllOf (bare (TKeyword ALL_OF))) [Operand x None] None; x] None).
Example C58_case_no_program ls : ~ d_program ls [open_then_more].
Proof.
  intros H. pose proof (proj1 (C58_grammatical_asts _) (ex_intro _ ls H)) as [HS _]. apply Forall_inv in HS.
  destruct HS as (_ & _ & HS & _). discriminate (HS eq_refl).
Qed.

(** ** C59 *)
(** The source of an AST without errors can be formatted: the text that the
    formatter writes parses to the same AST up to positions, and formatting once
    more changes nothing. *)
Theorem C59_format_keeps_the_ast code ns : ascii_str code -> ~ ends_with_colon code ->
  tokenize_and_parse code = ApiOk (ASTBlock ns) -> forallb node_clean ns = true ->
  Forall plain_version (versions (ASTBlock ns)) ->
  exists ns', tokenize_and_parse (format code ns) = ApiOk (ASTBlock ns') /\
              map (map_node erase) ns' = map (map_node erase) ns /\ forallb node_clean ns' = true /\
              format (format code ns) ns' = format code ns.
Proof. exact (format_parses code ns). Qed.
Print Assumptions C59_format_keeps_the_ast.

(** The same without a text: the lines of an AST are grammatical and derive it. *)
Theorem C59_lines_of_an_ast ns : Forall node_shape ns -> forallb node_clean ns = true ->
  d_program (unparse_block (ASTBlock ns)) ns.
Proof. exact (unparse_program ns). Qed.
Print Assumptions C59_lines_of_an_ast.

Definition tidy_me : str :=
  lit "HAI   1.20 " ++ nl ++ lit "..., IM IN YR a UPPIN YR i WILE WIN" ++ nl ++
  lit "  VISIBLE  SUM OF -1.50..." ++ nl ++ lit "x ! , O RLY?" ++ nl ++ lit " YA RLY , I HAS A y ITZ 007 " ++ nl ++ lit "OIC" ++ nl ++
  lit "IM OUTTA YR b , I IZ f YR x AN YR 1 MKAY ".
Definition api_nodes (r : api_result) : list node := match r with ApiOk (ASTBlock ns) => ns | _ => [] end.
Example C59_case :
  ascii_str tidy_me /\ ~ ends_with_colon tidy_me /\
  let ns := api_nodes (tokenize_and_parse tidy_me) in
  tokenize_and_parse tidy_me = ApiOk (ASTBlock ns) /\ forallb node_clean ns = true /\
  Forall plain_version (versions (ASTBlock ns)) /\ map tok_type (versions (ASTBlock ns)) <> [] /\
  format tidy_me ns =
    flat_map (fun l => flat_map (fun c => if N.eqb c 47 then [9%N] else [c]) (lit l) ++ nl)
    [ "HAI/1.20"; ".../,"; "IM IN YR/a/UPPIN/YR/i/WILE/WIN"; "VISIBLE/SUM OF/-1.50/x/!"; "O RLY/?"; "YA RLY";
      "I HAS A/y/ITZ/007"; "OIC"; "IM OUTTA YR/b"; "I IZ/f/YR/x/AN/YR/1/MKAY" ].
Proof.
  split; [reflexivity|]. split.
  { intros (a & E). apply (f_equal (fun s => last s 0%N)) in E. rewrite last_last in E. discriminate E. }
  vm_compute. split; [reflexivity|]. split; [reflexivity|]. split; [|split; [discriminate|reflexivity]].
  repeat constructor.
Qed.
