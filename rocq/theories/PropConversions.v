(** Property C72: the conversions of the crate.  Statements; the proofs are in
    ConversionsProofs.v. *)
From Coq Require Import String.
From Verif Require Import PropParser Grammar AstTokens TokIter ConversionsProofs.
From Verif Require Export Conversions.
Local Open Scope string_scope.
Local Open Scope list_scope.

Definition C72_tok (ty : token_type) : token := {| tok_type := ty; tok_range := range_of_position position_start |}.

(** A token is converted to a type iff it is the keyword of one; the type has
    that token, and a token that is refused is given back. *)
Theorem C72_types t :
  (forall a, type_of_token t = inl a <-> d_type t a) /\
  (forall a, type_of_token t = inl a -> type_into_token a = t) /\
  (forall u, type_of_token t = inr u -> u = t).
Proof.
  split; [exact (type_accepts t)|].
  pose proof (type_tokens t) as H. split; intros x E; rewrite E in H; apply H.
Qed.
Print Assumptions C72_types.

(** The parser reads exactly the tokens that are converted to values as literals,
    and the keyword NOOB, which is not converted. *)
Theorem C72_values t : parse [t] = ParseOk (ASTBlock [NExpression (Value (LiteralValue t))]) <->
  (exists v, value_of_token t = Some v) \/ tok_type t = TKeyword NOOB.
Proof. exact (single_value t). Qed.
Print Assumptions C72_values.

(** How tokens are distributed over inner deques does not matter: only their
    lines do.  So an inner deque need not be a statement. *)
Theorem C72_deques sts : parse_statements sts = parse (concat sts).
Proof. exact (statements_concat sts). Qed.
Print Assumptions C72_deques.
Theorem C72_inner_deques_are_statements_refuted : ~ forall l l' ns ns',
  parse_statements [l] = ParseOk (ASTBlock ns) -> parse_statements [l'] = ParseOk (ASTBlock ns') ->
  parse_statements [l; l'] = ParseOk (ASTBlock (ns ++ ns')).
Proof.
  intros H. specialize (H [C72_tok (TKeyword GTFO)] [C72_tok (TKeyword GTFO)] _ _ eq_refl eq_refl). vm_compute in H. discriminate H.
Qed.
Print Assumptions C72_inner_deques_are_statements_refuted.

(** Each node comes from exactly one value; so does each error that is not one of
    the four general ones, which come from none. *)
Theorem C72_nodes n : exists s, node_from s = n /\ forall s', node_from s' = n -> s' = s.
Proof. exact (node_sources n). Qed.
Print Assumptions C72_nodes.
Theorem C72_errors e :
  (exists s, error_from s = e /\ forall s', error_from s' = e -> s' = s) <->
  match e with UnexpectedToken _ | TooManyTokens _ | MissingToken _ | MissingBlockClosingToken _ => False | _ => True end.
Proof. exact (error_sources e). Qed.
Print Assumptions C72_errors.
(** A result becomes an error node iff it is an error. *)
Theorem C72_results r e : node_from_result r = NASTError e <-> r = inr e \/ r = inl (FromError e).
Proof. exact (error_results r e). Qed.
Print Assumptions C72_results.

(** The nodes a block is made of are those it is iterated over. *)
Theorem C72_blocks b : block_of_nodes (block_into_iter b) = b /\ forall ns, block_into_iter (block_of_nodes ns) = ns.
Proof. destruct b. split; reflexivity. Qed.
Print Assumptions C72_blocks.

(** Ranges: of the two ends of a range, of a value that is one token, and of a
    position. *)
Theorem C72_ranges :
  (forall r, range_of_pair (r_start r, r_end r) = r) /\
  (forall e t, expr_tokens e = [t] -> range_of_pair (expr_range e) = tok_range t) /\
  (forall p, range_of_position p = range_of_pair (p, p)).
Proof. exact range_conversions. Qed.
Print Assumptions C72_ranges.
(** A variable access as a value has the same tokens and the same range; the
    tokens of both kinds of value and of loop operations are kept. *)
Theorem C72_accesses v :
  value_tokens (value_of_access v) = va_tokens v /\ value_range (value_of_access v) = va_range v.
Proof. split; reflexivity. Qed.
Print Assumptions C72_accesses.
Theorem C72_value_tokens t v : value_of_token t = Some v -> value_tokens v = [t].
Proof. exact (value_token t v). Qed.
Print Assumptions C72_value_tokens.
Theorem C72_loop_operations o : loop_operation_into_token o = loop_operation_token o.
Proof. destruct o; reflexivity. Qed.
Print Assumptions C72_loop_operations.
(** Results with their sides exchanged. *)
Theorem C72_swapped {T U} (r : T + U) x : (swap_ok_err r = inl x <-> r = inr x) /\ forall y, (swap_ok_err r = inr y <-> r = inl y).
Proof. exact (swap_sides r x). Qed.
Print Assumptions C72_swapped.

Example C72_type_refused : type_of_token (C72_tok (TKeyword MAEK)) = inr (C72_tok (TKeyword MAEK)).
Proof. reflexivity. Qed.
Example C72_type_accepted : type_of_token (C72_tok (TKeyword NUMBR)) = inl (TyNumbr (C72_tok (TKeyword NUMBR))).
Proof. reflexivity. Qed.
Example C72_values_differ :
  value_of_token (C72_tok (TKeyword NOOB)) = None /\
  parse [C72_tok (TKeyword NOOB)] = ParseOk (ASTBlock [NExpression (Value (LiteralValue (C72_tok (TKeyword NOOB))))]) /\
  value_of_token (C72_tok (TValue (VNumber (Token.Int 3)))) <> None.
Proof. vm_compute. repeat split. discriminate. Qed.
Example C72_error_conversion : error_from (FromORlyError (MissingQuestionMark (C72_tok (TKeyword O_RLY)))) = EORly (MissingQuestionMark (C72_tok (TKeyword O_RLY))).
Proof. reflexivity. Qed.
