(** Property C71: the texts written by [{:#?}].  Statements; the proofs are in
    PrettyProofs.v and PrettyLayoutProofs.v. *)
From Coq Require Import String.
From Verif Require Import PropLexer PropParser Eq EqSpec NodeTokens PropDebug PrettyProofs PrettyLayoutProofs.
From Verif Require Export Pretty PrettyLayout DebugSpec.
From Verif Require Import Api.
Local Open Scope string_scope.
Local Open Scope list_scope.

(** The text of a token, of a vector of tokens, of a node or of an AST tells the
    types and the lines and columns of the tokens, and nothing else. *)
Theorem C71_tokens shown float_text t u : float_texts float_text ->
  token_pretty shown float_text t = token_pretty shown float_text u <-> drop_offsets t = drop_offsets u.
Proof. intros H. exact (token_pretty_iff float_text H shown t u). Qed.
Print Assumptions C71_tokens.
Theorem C71_vectors shown float_text ts us : float_texts float_text ->
  tokens_pretty shown float_text ts = tokens_pretty shown float_text us <-> map drop_offsets ts = map drop_offsets us.
Proof. intros H. exact (tokens_pretty_iff float_text H shown ts us). Qed.
Print Assumptions C71_vectors.
Theorem C71_nodes shown float_text n n' : float_texts float_text ->
  node_pretty shown float_text n = node_pretty shown float_text n' <-> map_node drop_offsets n = map_node drop_offsets n'.
Proof. intros H. exact (node_pretty_iff float_text H shown n n'). Qed.
Print Assumptions C71_nodes.
Theorem C71_asts shown float_text b b' : float_texts float_text ->
  block_pretty shown float_text b = block_pretty shown float_text b' <-> map_block drop_offsets b = map_block drop_offsets b'.
Proof. intros H. exact (block_pretty_iff float_text H shown b b'). Qed.
Print Assumptions C71_asts.

(** Results have the same text in this format iff they have in the plain one. *)
Theorem C71_results shown float_text r r' : float_texts float_text ->
  result_pretty shown float_text r = result_pretty shown float_text r' <->
  result_debug shown float_text r = result_debug shown float_text r'.
Proof. intros H. exact (result_pretty_iff float_text H shown r r'). Qed.
Print Assumptions C71_results.

(** The lines of a text: every part of a value has lines of its own, four spaces
    further to the right, and a comma after the last one. *)
Theorem C71_lines_of_vectors shown float_text ts : float_texts float_text ->
  tokens_pretty shown float_text ts = written_lines (layout shown (DList (map (d_tok float_text) ts))).
Proof. intros H. exact (tokens_layout float_text H shown ts). Qed.
Print Assumptions C71_lines_of_vectors.
Theorem C71_lines_of_nodes shown float_text n : float_texts float_text ->
  node_pretty shown float_text n = written_lines (layout shown (d_node float_text n)).
Proof. intros H. exact (node_layout float_text H shown n). Qed.
Print Assumptions C71_lines_of_nodes.
Theorem C71_lines_of_asts shown float_text b : float_texts float_text ->
  block_pretty shown float_text b = written_lines (layout shown (d_ast_block float_text b)).
Proof. intros H. exact (block_layout float_text H shown b). Qed.
Print Assumptions C71_lines_of_asts.

(** A token is written the same in both formats, an AST is not: the line feeds
    inside a token are followed by the indentation of its place. *)
Example C71_tokens_are_plain shown float_text t : token_pretty shown float_text t = token_debug shown float_text t.
Proof. reflexivity. Qed.
Example C71_text :
  match tokenize_and_parse (lit "GTFO") with
  | ApiOk b => block_pretty C69_ascii DebugExample.example_float b =
      lit "ASTBlock(" ++ nl ++
      lit "    [" ++ nl ++
      lit "        Gtfo(" ++ nl ++
      lit "            Gtfo {" ++ nl ++
      lit "                gtfo_token: (1, 1) -> (1, 5)" ++ nl ++
      lit "                Keyword(GTFO)" ++ nl ++
      lit "                ," ++ nl ++
      lit "            }," ++ nl ++
      lit "        )," ++ nl ++
      lit "    ]," ++ nl ++
      lit ")"
  | _ => False
  end.
Proof. vm_compute. reflexivity. Qed.
Example C71_empty :
  match tokenize_and_parse [] with
  | ApiOk b => block_pretty C69_ascii DebugExample.example_float b = lit "ASTBlock(" ++ nl ++ lit "    []," ++ nl ++ lit ")"
  | _ => False
  end.
Proof. vm_compute. reflexivity. Qed.
