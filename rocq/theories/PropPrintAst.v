(** Property C87: an AST can be printed without its source.  Statements; the
    proofs are in PrintAstProofs.v. *)
From Coq Require Import String ZArith Floats.SpecFloat.
From Verif Require Import PropLexer PropParser PropShape Relabel Clean Shape Api Format PrintAstProofs.
From Verif Require Export PrintAst.
Local Open Scope string_scope.
Local Open Scope list_scope.

(** Every value of a number token has a literal: all of i32, and all of binary32
    but NaN. *)
Theorem C87_integers n : (- 2 ^ 31 <= n < 2 ^ 31)%Z -> Writes (TValue (VNumber (Token.Int n))) (type_text (TValue (VNumber (Token.Int n)))).
Proof. exact (int_writes n). Qed.
Print Assumptions C87_integers.
Theorem C87_floats x : valid_binary 24 128 x = true -> x <> S754_nan ->
  Writes (TValue (VNumber (Token.Float x))) (type_text (TValue (VNumber (Token.Float x)))).
Proof. exact (float_writes x). Qed.
Print Assumptions C87_floats.

(** The text of an AST of a source without errors parses to the AST up to
    positions, and the AST that it parses to has the same text. *)
Theorem C87_print_keeps_the_ast code ns : ascii_str code -> ~ ends_with_colon code ->
  tokenize_and_parse code = ApiOk (ASTBlock ns) -> forallb node_clean ns = true ->
  Forall plain_version (versions (ASTBlock ns)) ->
  exists ns', tokenize_and_parse (print_ast ns) = ApiOk (ASTBlock ns') /\
              map (map_node erase) ns' = map (map_node erase) ns /\ forallb node_clean ns' = true /\
              print_ast ns' = print_ast ns.
Proof. exact (source_print code ns). Qed.
Print Assumptions C87_print_keeps_the_ast.

(** Two sources without errors have the same AST up to positions iff the texts of
    their ASTs are the same. *)
Theorem C87_same_text_iff code code' ns ns' : ascii_str code -> ~ ends_with_colon code -> ascii_str code' -> ~ ends_with_colon code' ->
  tokenize_and_parse code = ApiOk (ASTBlock ns) -> forallb node_clean ns = true -> Forall plain_version (versions (ASTBlock ns)) ->
  tokenize_and_parse code' = ApiOk (ASTBlock ns') -> forallb node_clean ns' = true -> Forall plain_version (versions (ASTBlock ns')) ->
  print_ast ns = print_ast ns' <-> map (map_node erase) ns = map (map_node erase) ns'.
Proof. exact (source_print_iff code code' ns ns'). Qed.
Print Assumptions C87_same_text_iff.

(** The same for any AST of the right shape without errors whose tokens can be
    written. *)
Theorem C87_any_ast ns : Forall node_shape ns -> forallb node_clean ns = true -> Forall written (block_tokens (ASTBlock ns)) ->
  exists ns', tokenize_and_parse (print_ast ns) = ApiOk (ASTBlock ns') /\
              map (map_node erase) ns' = map (map_node erase) ns /\ forallb node_clean ns' = true.
Proof. exact (print_parses ns). Qed.
Print Assumptions C87_any_ast.

(** The source must not end in a colon: a string that is not closed can end in
    one, and is then not a string that can be written and closed. *)
Definition C87_colon : str := lit "VISIBLE " ++ quote :: lit "a:".
Theorem C87_sources_that_end_in_a_colon_refuted : ~ forall code ns, ascii_str code ->
  tokenize_and_parse code = ApiOk (ASTBlock ns) -> forallb node_clean ns = true -> Forall plain_version (versions (ASTBlock ns)) ->
  exists ns', tokenize_and_parse (print_ast ns) = ApiOk (ASTBlock ns') /\ map (map_node erase) ns' = map (map_node erase) ns.
Proof.
  intros H. destruct (H C87_colon (api_nodes (tokenize_and_parse C87_colon))) as (ns' & E1 & E2).
  - reflexivity.
  - vm_compute. reflexivity.
  - vm_compute. reflexivity.
  - vm_compute. constructor.
  - vm_compute in E1. injection E1 as <-. vm_compute in E2. discriminate E2.
Qed.
Print Assumptions C87_sources_that_end_in_a_colon_refuted.

(** A source with several spellings of numbers, and its text. *)
Definition C87_source (a b : string) : str :=
  lit "HAI " ++ lit a ++ nl ++ lit "...," ++ nl ++ lit "VISIBLE SUM OF " ++ lit b ++ lit " AN +00.0000100" ++ nl ++
  lit "O RLY?" ++ nl ++ lit " YA RLY , VISIBLE -00." ++ nl ++ lit "OIC".
Example C87_case :
  let ns := api_nodes (tokenize_and_parse (C87_source "1.2" "007")) in
  ascii_str (C87_source "1.2" "007") /\ ~ ends_with_colon (C87_source "1.2" "007") /\
  tokenize_and_parse (C87_source "1.2" "007") = ApiOk (ASTBlock ns) /\ forallb node_clean ns = true /\
  Forall plain_version (versions (ASTBlock ns)) /\
  print_ast ns = flat_map (fun l => flat_map (fun c => if N.eqb c 47 then [9%N] else [c]) (lit l) ++ nl)
    [ "HAI/1.2"; ".../,"; "VISIBLE/SUM OF/7/AN/0.00001"; "O RLY/?"; "YA RLY"; "VISIBLE/-0.0"; "OIC" ].
Proof.
  split; [reflexivity|]. split.
  { intros (x & E). apply (f_equal (fun s => last s 0%N)) in E. rewrite last_last in E. discriminate E. }
  vm_compute. split; [reflexivity|]. split; [reflexivity|]. split; [repeat constructor|reflexivity].
Qed.
Example C87_same_text :
  print_ast (api_nodes (tokenize_and_parse (C87_source "1.2" "007"))) =
  print_ast (api_nodes (tokenize_and_parse (C87_source "1.20" "+7"))).
Proof. vm_compute. reflexivity. Qed.
