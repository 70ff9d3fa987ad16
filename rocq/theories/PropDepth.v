(** Property C61: the depth of ASTs.  Statements; the proofs are in
    DepthProofs.v. *)
From Coq Require Import String.
From Verif Require Import Api Clean CostProofs DepthProofs.
From Verif Require Export Depth.

(** An AST is at most as deep as the token vector is long. *)
Theorem C61_depth_within_tokens ts b : parse ts = ParseOk b -> block_depth b <= length ts.
Proof. exact (depth_tokens ts b). Qed.
Print Assumptions C61_depth_within_tokens.

Theorem C61_depth_within_source code b :
  tokenize_and_parse code = ApiOk b -> block_depth b <= length code.
Proof. exact (depth_source code b). Qed.
Print Assumptions C61_depth_within_source.

(** The bound for tokens is reached: [n] times NOT and an identifier, [n + 1]
    tokens and [4n + 2] characters, without errors. *)
Theorem C61_deep_expressions n : exists ts ns,
  tokenize (nots_source n) = LexOk ts /\ length ts = n + 1 /\
  tokenize_and_parse (nots_source n) = ApiOk (ASTBlock ns) /\ forallb node_clean ns = true /\
  block_depth (ASTBlock ns) = n + 1 /\ length (nots_source n) = 4 * n + 2.
Proof. exact (deep_expression_tokens n). Qed.
Print Assumptions C61_deep_expressions.

(** Blocks can be nested to any depth. *)
Theorem C61_deep_blocks n : exists ns,
  tokenize_and_parse (loops_source n) = ApiOk (ASTBlock ns) /\ forallb node_clean ns = true /\
  block_depth (ASTBlock ns) = n + 1.
Proof. rewrite Nat.add_1_r. exact (deep_blocks n). Qed.
Print Assumptions C61_deep_blocks.

(** So no depth suffices for all sources: the recursion of the parser is not
    bounded. *)
Theorem C61_bounded_depth_refuted :
  ~ exists d, forall code b, tokenize_and_parse code = ApiOk b -> block_depth b <= d.
Proof. exact depth_unbounded. Qed.
Print Assumptions C61_bounded_depth_refuted.

Example C61_case : exists b,
  tokenize_and_parse (loops_source 2 ++ lit "VISIBLE SUM OF NOT x AN 1" ++ [10%N]) = ApiOk b /\
  block_depth b = 4.
Proof. eexists. split; vm_compute; reflexivity. Qed.
