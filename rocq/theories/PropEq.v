(** Theorems about the [PartialEq], [Display] and [Debug] implementations.  The
    vocabulary of the statements: EqSpec.v. *)
From Coq Require Import String.
From Verif Require Import Lexer Parser Api LexPropSpec Eq EqSpec EqFacts EqProps Display DisplayProofs PropParser.
Local Open Scope string_scope.
Local Open Scope list_scope.

(** ** C52 *)
Theorem C52_tokens t u : token_eqb t u = true <-> canon t = canon u /\ ~ is_nan t.
Proof. exact (token_eqb_iff t u). Qed.
Print Assumptions C52_tokens.
Theorem C52_asts b b' :
  block_eqb b b' = true <-> map_block canon b = map_block canon b' /\ no_nan (block_tokens b).
Proof. exact (block_eqb_iff b b'). Qed.
Print Assumptions C52_asts.
Theorem C52_nodes n n' :
  node_eqb n n' = true <-> map_node canon n = map_node canon n' /\ no_nan (node_tokens n).
Proof. exact (node_ok n n'). Qed.
Print Assumptions C52_nodes.
Theorem C52_lexer_errors r r' :
  token_error_eqb (UnclosedMultilineComment r) (UnclosedMultilineComment r') = true <-> canon_range r = canon_range r'.
Proof. exact (range_eqb_canon r r'). Qed.
Print Assumptions C52_lexer_errors.

(** [==] is a partial equivalence relation. *)
Theorem C52_symmetric b b' : block_eqb b b' = block_eqb b' b.
Proof. exact (block_eqb_sym b b'). Qed.
Print Assumptions C52_symmetric.
Theorem C52_transitive b b' b'' : block_eqb b b' = true -> block_eqb b' b'' = true -> block_eqb b b'' = true.
Proof. exact (block_eqb_trans b b' b''). Qed.
Print Assumptions C52_transitive.

(** It is not reflexive, but it is on everything the crate produces. *)
Theorem C52_reflexive_refuted : ~ forall t, token_eqb t t = true.
Proof.
  intros H. specialize (H (mkToken (TValue (VNumber (Token.Float S754_nan))) (mkRange position_start position_start))).
  vm_compute in H. discriminate H.
Qed.
Print Assumptions C52_reflexive_refuted.
Theorem C52_reflexive_on_results code b : tokenize_and_parse code = ApiOk b -> block_eqb b b = true.
Proof. exact (ast_reflexive code b). Qed.
Print Assumptions C52_reflexive_on_results.

(** In one source it is identity: two occurrences of the same text differ. *)
Theorem C52_identity_on_tokens_of_a_source code ts t u : tokenize code = LexOk ts -> In t ts -> In u ts ->
  token_eqb t u = true <-> t = u.
Proof. exact (one_source_tokens code ts t u). Qed.
Print Assumptions C52_identity_on_tokens_of_a_source.
Theorem C52_identity_on_nodes_of_a_source code ts n n' : tokenize code = LexOk ts ->
  incl (node_tokens n) ts -> incl (node_tokens n') ts -> node_eqb n n' = true <-> n = n'.
Proof. exact (one_source_nodes code ts n n'). Qed.
Print Assumptions C52_identity_on_nodes_of_a_source.

(** For different sources it is not. *)
Theorem C52_equal_asts_are_identical_refuted : ~ forall code code' b b',
  tokenize_and_parse code = ApiOk b -> tokenize_and_parse code' = ApiOk b' -> block_eqb b b' = true -> b = b'.
Proof.
  intros H.
  assert (E := H (lit "-0.0 ") (lit "00.0 ") _ _ ltac:(vm_compute; reflexivity) ltac:(vm_compute; reflexivity)).
  specialize (E ltac:(vm_compute; reflexivity)). discriminate E.
Qed.
Print Assumptions C52_equal_asts_are_identical_refuted.

(** Equal vectors of tokens have equal results. *)
Theorem C52_parse_respects_equality ts ts' : list_eqb token_eqb ts ts' = true ->
  match parse ts, parse ts' with
  | ParseOk b, ParseOk b' => block_eqb b b' = true
  | ParsePanic c, ParsePanic c' => map_cause canon c = map_cause canon c'
  | _, _ => False
  end.
Proof. exact (parse_respects ts ts'). Qed.
Print Assumptions C52_parse_respects_equality.

(** A blank line with and without a space: other bytes, equal tokens. *)
Example C52_case :
  let ts := toks [ ""; "O RLY?"; "YA RLY"; "VISIBLE -0.0 "; "OIC" ] in
  let ts' := toks [ " "; "O RLY?"; "YA RLY"; "VISIBLE 00.0 "; "OIC" ] in
  list_eqb token_eqb ts ts' = true /\ length ts = 6%nat /\ ts <> ts' /\
  match parse ts, parse ts' with
  | ParseOk b, ParseOk b' => block_eqb b b' = true /\ b <> b' /\ length (block_nodes b) = 1%nat
  | _, _ => False
  end.
Proof. vm_compute. repeat split; discriminate. Qed.
Example C52_case_one_source : exists ts t u, tokenize (lit "x x ") = LexOk ts /\ ts = [t; u] /\
  tok_type t = tok_type u /\ token_eqb t u = false /\ token_eqb t t = true.
Proof. do 3 eexists. split; [vm_compute; reflexivity|]. repeat split. Qed.

(** ** C53 *)
Theorem C53_position_text p : exists l c, spells l (line p) /\ spells c (column p) /\
  position_display p = lit "(L" ++ l ++ lit ", C" ++ c ++ lit ")" /\
  position_debug p = lit "(" ++ l ++ lit ", " ++ c ++ lit ")".
Proof. exact (position_texts p). Qed.
Print Assumptions C53_position_text.
Theorem C53_display_iff_equal p q : position_display p = position_display q <-> position_eqb p q = true.
Proof. exact (display_iff p q). Qed.
Print Assumptions C53_display_iff_equal.
Theorem C53_debug_iff_equal p q : position_debug p = position_debug q <-> position_eqb p q = true.
Proof. exact (debug_iff p q). Qed.
Print Assumptions C53_debug_iff_equal.
Theorem C53_range_text r : exists l c l' c',
  spells l (line (r_start r)) /\ spells c (column (r_start r)) /\
  spells l' (line (r_end r)) /\ spells c' (column (r_end r)) /\
  range_debug r = lit "(" ++ l ++ lit ", " ++ c ++ lit ") -> (" ++ l' ++ lit ", " ++ c' ++ lit ")" ++ [10%N].
Proof. exact (range_texts r). Qed.
Print Assumptions C53_range_text.
Theorem C53_range_debug_iff_equal r r' : range_debug r = range_debug r' <-> range_eqb r r' = true.
Proof. exact (range_debug_iff r r'). Qed.
Print Assumptions C53_range_debug_iff_equal.
Theorem C53_display_identifies_tokens code ts t u : tokenize code = LexOk ts -> In t ts -> In u ts ->
  position_display (start_of t) = position_display (start_of u) -> t = u.
Proof. exact (display_identifies code ts t u). Qed.
Print Assumptions C53_display_identifies_tokens.
Example C53_case :
  position_display (mkPos 12 305 0 0) = lit "(L12, C305)" /\
  range_debug (mkRange (mkPos 1 10 0 0) (mkPos (-2147483648) 0 0 0)) =
    lit "(1, 10) -> (-2147483648, 0)" ++ [10%N] /\
  map (fun t => position_display (start_of t)) (toks [ "HAI"; "x R" ]) = [lit "(L1, C1)"; lit "(L2, C1)"; lit "(L2, C3)"].
Proof. vm_compute. repeat split. Qed.
