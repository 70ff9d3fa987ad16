(** Property C69: the texts written by [Debug].  Statements; the proofs are in
    DebugProofs.v, DebugAst.v, DebugEq.v and DebugLines.v. *)
From Coq Require Import String.
From Verif Require Import PropParser Eq EqSpec NodeTokens DebugProofs DebugAst DebugEq DebugLines DebugExample.
From Verif Require Export DebugSpec.
From Verif Require Import Api.
Local Open Scope string_scope.
Local Open Scope list_scope.

(** All statements hold for any table of the characters that strings show as they
    are, and for any way to write floats that identifies them. *)

(** Escaping loses nothing. *)
Theorem C69_strings shown s s' : string_debug shown s = string_debug shown s' <-> s = s'.
Proof. exact (string_debug_iff shown s s'). Qed.
Print Assumptions C69_strings.

(** The text of a token tells its type and the lines and columns of its range,
    and nothing else; so do the texts of vectors of tokens, of nodes and of
    ASTs. *)
Theorem C69_tokens shown float_text t u : float_texts float_text ->
  token_debug shown float_text t = token_debug shown float_text u <-> drop_offsets t = drop_offsets u.
Proof. intros H. exact (token_debug_iff float_text H shown t u). Qed.
Print Assumptions C69_tokens.
Theorem C69_vectors shown float_text ts us : float_texts float_text ->
  tokens_debug shown float_text ts = tokens_debug shown float_text us <-> map drop_offsets ts = map drop_offsets us.
Proof. intros H. exact (tokens_debug_iff float_text H shown ts us). Qed.
Print Assumptions C69_vectors.
Theorem C69_nodes shown float_text n n' : float_texts float_text ->
  node_debug shown float_text n = node_debug shown float_text n' <-> map_node drop_offsets n = map_node drop_offsets n'.
Proof. intros H. exact (node_debug_iff float_text H shown n n'). Qed.
Print Assumptions C69_nodes.
Theorem C69_asts shown float_text b b' : float_texts float_text ->
  block_debug shown float_text b = block_debug shown float_text b' <-> map_block drop_offsets b = map_block drop_offsets b'.
Proof. intros H. exact (block_debug_iff float_text H shown b b'). Qed.
Print Assumptions C69_asts.

(** The texts of tokens written one after the other can be taken apart. *)
Theorem C69_streams_of_tokens shown float_text ts us : float_texts float_text ->
  flat_map (token_debug shown float_text) ts = flat_map (token_debug shown float_text) us <->
  map drop_offsets ts = map drop_offsets us.
Proof. intros H. exact (token_stream_iff float_text H shown ts us). Qed.
Print Assumptions C69_streams_of_tokens.

(** What [tokenize_and_parse] returns is identified too, also the error. *)
Theorem C69_results shown float_text r r' : float_texts float_text ->
  result_debug shown float_text r = result_debug shown float_text r' <->
  match r, r' with
  | inl b, inl b' => map_block drop_offsets b = map_block drop_offsets b'
  | inr (UnclosedMultilineComment x), inr (UnclosedMultilineComment y) => range_eqb x y = true
  | _, _ => False
  end.
Proof. intros H. exact (result_debug_iff float_text H shown r r'). Qed.
Print Assumptions C69_results.

(** ASTs with the same text are [==] if one of them is of a source.  ASTs that
    are [==] have the same text if no zero float occurs in them. *)
Theorem C69_same_text_is_equal shown float_text code b b' : float_texts float_text ->
  tokenize_and_parse code = ApiOk b ->
  block_debug shown float_text b = block_debug shown float_text b' -> block_eqb b b' = true.
Proof. intros H. exact (debug_equal shown float_text H code b b'). Qed.
Print Assumptions C69_same_text_is_equal.
Theorem C69_equal_is_same_text shown float_text b b' : float_texts float_text ->
  (forall t s, In t (block_tokens b) -> tok_type t <> TValue (VNumber (Token.Float (S754_zero s)))) ->
  block_eqb b b' = true -> block_debug shown float_text b = block_debug shown float_text b'.
Proof. intros H Z. apply (equal_debug shown float_text H b b'). apply Forall_forall. intros t I [s E]. exact (Z t s I E). Qed.
Print Assumptions C69_equal_is_same_text.
Theorem C69_equal_is_same_text_with_zeros_refuted : ~ forall shown float_text code code' b b', float_texts float_text ->
  tokenize_and_parse code = ApiOk b -> tokenize_and_parse code' = ApiOk b' -> block_eqb b b' = true ->
  block_debug shown float_text b = block_debug shown float_text b'.
Proof.
  intros H.
  assert (E := H (fun _ => true) example_float (lit "-0.0 ") (lit "00.0 ") _ _ example_float_ok
    ltac:(vm_compute; reflexivity) ltac:(vm_compute; reflexivity) ltac:(vm_compute; reflexivity)).
  vm_compute in E. discriminate E.
Qed.
Print Assumptions C69_equal_is_same_text_with_zeros_refuted.

(** Each token of an AST is shown, with two line feeds; there are no others. *)
Theorem C69_line_feeds shown float_text b : float_texts float_text ->
  count_occ N.eq_dec (block_debug shown float_text b) 10%N = 2 * List.length (block_tokens b).
Proof. intros H. exact (block_feeds float_text H shown b). Qed.
Print Assumptions C69_line_feeds.

(** The hypothesis can be met, and the text of a statement. *)
Example C69_floats_can_be_written : float_texts example_float.
Proof. exact example_float_ok. Qed.
Definition C69_ascii (c : char) : bool := N.leb 32 c && N.leb c 126.
Example C69_text :
  match tokenize_and_parse (lit "GTFO") with
  | ApiOk b => block_debug C69_ascii example_float b =
      lit "ASTBlock([Gtfo(Gtfo { gtfo_token: (1, 1) -> (1, 5)" ++ [10%N] ++ lit "Keyword(GTFO)" ++ [10%N] ++ lit " })])"
  | _ => False
  end.
Proof. vm_compute. reflexivity. Qed.
Example C69_string_text : string_debug C69_ascii (lit "a\" ++ [34; 10; 233; 128512; 7]%N) =
  [34%N] ++ lit "a\\\" ++ [34%N] ++ lit "\n\u{e9}\u{1f600}\u{7}" ++ [34%N].
Proof. vm_compute. reflexivity. Qed.
(** Two sources whose ASTs have the same text: only offsets differ. *)
Example C69_offsets :
  match tokenize_and_parse (lit "GTFO" ++ [10%N] ++ lit "GTFO"), tokenize_and_parse (lit "GTFO  " ++ [10%N] ++ lit "GTFO") with
  | ApiOk b, ApiOk b' => b <> b' /\ block_debug C69_ascii example_float b = block_debug C69_ascii example_float b'
  | _, _ => False
  end.
Proof. vm_compute. split; [discriminate|reflexivity]. Qed.
