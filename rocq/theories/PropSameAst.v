(** Property C63: what the AST of a program without errors does not tell.
    Statements; the proofs are in SameAstProofs.v. *)
From Coq Require Import String.
From Verif Require Import Lines Clean PropParser SameAstProofs.
From Verif Require Export SameAst.
Local Open Scope string_scope.

(** Two programs without errors have the same AST, up to positions, exactly when
    they have the same lines, up to empty lines and an AN after the last
    parameter or argument of a function. *)
Theorem C63_same_ast bl ns bl' ns' : d_block bl ns -> d_block bl' ns' ->
  map (map_node erase) ns = map (map_node erase) ns' <-> essence bl = essence bl'.
Proof. exact (same_ast bl ns bl' ns'). Qed.
Print Assumptions C63_same_ast.

(** For parse, when no line is empty. *)
Theorem C63_same_ast_of_tokens ts ts' ns ns' :
  parse ts = ParseOk (ASTBlock ns) -> forallb node_clean ns = true -> Forall (fun l => l <> []) (logical_lines ts) ->
  parse ts' = ParseOk (ASTBlock ns') -> forallb node_clean ns' = true -> Forall (fun l => l <> []) (logical_lines ts') ->
  map (map_node erase) ns = map (map_node erase) ns' <->
  map (fun l => map tok_type (trim l)) (logical_lines ts) = map (fun l => map tok_type (trim l)) (logical_lines ts').
Proof. exact (same_ast_parse ts ts' ns ns'). Qed.
Print Assumptions C63_same_ast_of_tokens.

(** An AST without errors tells everything about its lines: refuted, not the
    last AN. *)
Theorem C63_everything_refuted : exists ts ts' ns ns',
  parse ts = ParseOk (ASTBlock ns) /\ parse ts' = ParseOk (ASTBlock ns') /\ forallb node_clean ns = true /\
  map (map_node erase) ns = map (map_node erase) ns' /\
  map (map tok_type) (logical_lines ts) <> map (map tok_type) (logical_lines ts').
Proof.
  exists (toks [ "I IZ f YR x MKAY " ]), (toks [ "I IZ f YR x AN MKAY " ]).
  eexists _, _. split; [vm_compute; reflexivity|]. split; [vm_compute; reflexivity|]. split; [vm_compute; reflexivity|].
  split; [vm_compute; reflexivity|]. vm_compute. discriminate.
Qed.
Print Assumptions C63_everything_refuted.

(** Two programs with the same AST, and one with another AST. *)
Example C63_case :
  let ts := toks [ "O RLY?"; "YA RLY"; "I IZ f YR x AN YR 1  MKAY"; "OIC"; "VISIBLE x!" ] in
  let ts' := toks [ "O RLY?"; "YA RLY"; "I IZ f YR x AN YR 1  AN MKAY"; "OIC"; "VISIBLE x!" ] in
  let ts'' := toks [ "O RLY?"; "YA RLY"; "I IZ f YR x AN YR 1  AN MKAY"; "OIC"; "VISIBLE x" ] in
  let ns ts := nodes_of (parse ts) in
  let ok ts := parse ts = ParseOk (ASTBlock (ns ts)) /\ forallb node_clean (ns ts) = true /\
               forallb not_empty (logical_lines ts) = true in
  ok ts /\ ok ts' /\ ok ts'' /\
  map (map_node erase) (ns ts) = map (map_node erase) (ns ts') /\
  map (map_node erase) (ns ts) <> map (map_node erase) (ns ts'').
Proof. vm_compute. repeat split; try reflexivity. discriminate. Qed.
(** A block and the same block with an empty line before it. *)
Example C63_case_block :
  let h := mkToken (TKeyword HAI) (mkRange position_start position_start) in
  let k := mkToken (TKeyword KTHXBYE) (mkRange position_start position_start) in
  let ns := [NHai (mkHai h []); NKThxBye (mkKthxbye k)] in
  d_block [[h]; []; [k]] ns /\ d_block [[]; [h]; []; [k]] ns /\ essence [[h]; []; [k]] = [[TKeyword HAI]; [TKeyword KTHXBYE]].
Proof.
  intros h k ns.
  assert (D : d_stmts [[h]; []; [k]] ns).
  { apply (d_stmts_cons [[h]; []] _ [[k]]); [constructor; reflexivity|].
    apply (d_stmts_cons [[k]] _ []); [|constructor]. apply d_single. constructor. reflexivity. }
  split; [apply d_block_stmts; [exact D|discriminate]|]. split; [apply d_block_empty_line, D|reflexivity].
Qed.
