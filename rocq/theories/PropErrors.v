(** Property C62: the errors of ASTs.  Statements; the proofs are in
    ErrorShapeProofs.v, LinesImage.v, ErrorImage.v and SourceImage.v. *)
From Coq Require Import String.
From Verif Require Import Api Lines Clean Shape SourceSpec ErrorShapeProofs LinesImage ErrorImage SourceImage PropParser.
From Verif Require Export ErrorShape.
Local Open Scope string_scope.

(** Every error at any depth of an AST carries a token of the kind that it is
    about. *)
Theorem C62_errors_have_their_shape ts b e :
  parse ts = ParseOk b -> In e (block_errors b) -> error_shape e.
Proof. exact (errors_have_their_shape ts b e). Qed.
Print Assumptions C62_errors_have_their_shape.

(** These are all the errors: each of them is reported for some token vector,
    and no other is. *)
Theorem C62_errors_that_occur e :
  (exists ts b, parse ts = ParseOk b /\ In e (block_errors b)) <->
  error_shape e /\ Forall inner (error_tokens e).
Proof. exact (errors_image e). Qed.
Print Assumptions C62_errors_that_occur.

(** Every variant of the error types is reported for some input: refuted, three
    variants are never reported. *)
Theorem C62_every_variant_occurs_refuted t ts b : parse ts = ParseOk b ->
  ~ In (EVariableAssignment (MissingR t)) (block_errors b) /\
  ~ In (EImInYr (InvalidOperation t)) (block_errors b) /\
  ~ In (EImInYr (InvalidConditional t)) (block_errors b).
Proof. intros H. split; [|split]; exact (errors_have_their_shape ts b _ H). Qed.
Print Assumptions C62_every_variant_occurs_refuted.

(** The lines of token vectors are all lists of lists of tokens other than
    commas and ellipses. *)
Theorem C62_lines_that_occur ls :
  (exists ts, logical_lines ts = ls) <-> Forall (Forall inner) ls.
Proof. exact (lines_image ls). Qed.
Print Assumptions C62_lines_that_occur.

(** The error-free ASTs of token vectors are those with the shape of C58 and
    without commas and ellipses. *)
Theorem C62_error_free_asts_that_occur ns :
  (exists ts, parse ts = ParseOk (ASTBlock ns)) /\ forallb node_clean ns = true <->
  Forall node_shape ns /\ forallb node_clean ns = true /\ Forall inner (block_tokens (ASTBlock ns)).
Proof. exact (clean_image ns). Qed.
Print Assumptions C62_error_free_asts_that_occur.

(** Sources have them too: every error about tokens that can be written is
    reported for some source, up to positions. *)
Theorem C62_errors_of_sources e :
  error_shape e -> Forall written (error_tokens e) ->
  exists code ns e', tokenize_and_parse code = ApiOk (ASTBlock ns) /\ In (NASTError e') ns /\
    map_error erase e' = map_error erase e.
Proof. exact (errors_of_sources e). Qed.
Print Assumptions C62_errors_of_sources.

(** So is every error-free AST. *)
Theorem C62_error_free_asts_of_sources ns :
  Forall node_shape ns -> forallb node_clean ns = true -> Forall written (block_tokens (ASTBlock ns)) ->
  exists code ns', tokenize_and_parse code = ApiOk (ASTBlock ns') /\
    map (map_node erase) ns' = map (map_node erase) ns.
Proof. exact (clean_asts_of_sources ns). Qed.
Print Assumptions C62_error_free_asts_of_sources.

(** Errors at several depths, with the tokens that they are about. *)
Example C62_case :
  let ts := toks [ "IM IN YR a UPPIN YR x"; "I HAS A y ITZ"; "x R"; "IM OUTTA YR 1 "; "SUM OF 1 "; "WTF" ] in
  let b := ASTBlock (nodes_of (parse ts)) in
  block_errors b =
    [EImInYr (InvalidEndLabel (tok 11 ts)); EExpression (MissingOperands (tok 12 ts)); EORly (MissingQuestionMark (tok 14 ts))].
Proof. vm_compute. reflexivity. Qed.
Example C62_case_inner :
  let ts := toks [ "IM IN YR a UPPIN YR x"; "I HAS A y ITZ"; "x R"; "IM OUTTA YR a" ] in
  let b := ASTBlock (nodes_of (parse ts)) in
  length (block_nodes b) = 1 /\
  block_errors b = [EIHasA (ExpectedInitialValue (tok 7 ts)); EVariableAssignment (ExpectedValue (tok 9 ts))] /\
  kw ITZ (tok 7 ts) /\ kw R (tok 9 ts).
Proof. vm_compute. auto. Qed.
Example C62_case_source :
  let e := EImInYr (InvalidEndLabel (bare (TValue (VNumber (Int (-7)%Z))))) in
  error_shape e /\ Forall written (error_tokens e).
Proof.
  split; [intros [s E]; discriminate|]. constructor; [|constructor].
  exists (fun _ => lit "-007"). split; [|repeat split; discriminate].
  apply (writes_int (lit "-") true (lit "007")); vm_compute; try discriminate; repeat constructor; intuition discriminate.
Qed.
Example C62_case_ast :
  let n := NVisible (mkVisible (bare (TKeyword VISIBLE))
             [Value (LiteralValue (bare (TValue (VBoolean true))))] (Some (bare TExclamationMark))) in
  node_shape n /\ node_clean n = true /\ Forall written (block_tokens (ASTBlock [n])).
Proof.
  split; [|split; [reflexivity|]].
  - vm_compute. repeat split; repeat constructor; eauto.
  - vm_compute. constructor; [|constructor; [|constructor; [|constructor]]].
    + exists (fun _ => lit "VISIBLE"). split; [|repeat split; discriminate].
      apply (writes_keyword VISIBLE). cbn. intuition discriminate.
    + exists (fun _ => lit "WIN"). split; [constructor|repeat split; discriminate].
    + exists (fun _ => lit "!"). split; [constructor|repeat split; discriminate].
Qed.
