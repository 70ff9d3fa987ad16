(** What the conversions keep. *)
From Verif Require Import Lines ParseFuel AstTokens TokIter TokIterFacts Grammar.
From Verif Require Export Conversions.

Lemma single_value t : parse [t] = ParseOk (ASTBlock [NExpression (Value (LiteralValue t))]) <->
  (exists v, value_of_token t = Some v) \/ tok_type t = TKeyword NOOB.
Proof.
  rewrite parse_logical_lines. destruct t as [ty r]. unfold value_of_token. cbn [tok_type].
  destruct ty as [s|k|s|v|s|s| | | | |]; try destruct k; vm_compute;
    (split; [intros E; try discriminate E; eauto|intros [[w E]|E]; try discriminate E; auto]).
Qed.
Lemma statements_concat sts : parse_statements sts = parse (concat sts).
Proof. reflexivity. Qed.
Lemma type_tokens t : match type_of_token t with
  | inl a => type_into_token a = t /\ ast_type_token a = t /\ ast_type_try_from t = Some a
  | inr u => u = t /\ ast_type_try_from t = None
  end.
Proof.
  destruct t as [ty r]. destruct ty as [s|k|s|v|s|s| | | | |]; try destruct k; vm_compute; auto.
Qed.
Lemma type_accepts t a : type_of_token t = inl a <-> d_type t a.
Proof.
  destruct t as [ty r]. split.
  - destruct ty as [s|k|s|v|s|s| | | | |]; try destruct k; intros E; try discriminate E; injection E as <-; constructor; reflexivity.
  - intros H. destruct H as [t H|t H|t H|t H|t H|t H]; unfold kw in H; unfold type_of_token; rewrite H; reflexivity.
Qed.
Definition source_of (n : node) : node_source :=
  match n with
  NIHasA x => FromIHasA x | NHai x => FromHai x | NImInYr x => FromImInYr x | NBukkitSetSlot x => FromBukkitSetSlot x | NVariableAssignment x => FromVariableAssignment x | NVisible x => FromVisible x | NFoundYr x => FromFoundYr x | NWtf x => FromWtf x | NORly x => FromORly x | NIIz x => FromIIz x | NHowIzI x => FromHowIzI x | NGtfo x => FromGtfo x | NGimmeh x => FromGimmeh x | NExpression x => FromExpression x | NASTError x => FromError x | NKThxBye x => FromKThxBye x
  end.
Lemma node_sources n : exists s, node_from s = n /\ forall s', node_from s' = n -> s' = s.
Proof. exists (source_of n). split; [destruct n; reflexivity|]. intros s <-. destruct s; reflexivity. Qed.
Lemma error_sources e :
  (exists s, error_from s = e /\ forall s', error_from s' = e -> s' = s) <->
  match e with UnexpectedToken _ | TooManyTokens _ | MissingToken _ | MissingBlockClosingToken _ => False | _ => True end.
Proof.
  split.
  - intros (s & <- & _). destruct s; exact I.
  - destruct e; intros H; try contradiction.
    + exists (FromIHasAError e). split; [reflexivity|]. intros [] E; cbn in E; congruence.
    + exists (FromAssignmentError e). split; [reflexivity|]. intros [] E; cbn in E; congruence.
    + exists (FromExpressionError e). split; [reflexivity|]. intros [] E; cbn in E; congruence.
    + exists (FromORlyError e). split; [reflexivity|]. intros [] E; cbn in E; congruence.
    + exists (FromHowIsIError e). split; [reflexivity|]. intros [] E; cbn in E; congruence.
    + exists (FromImInYrError e). split; [reflexivity|]. intros [] E; cbn in E; congruence.
    + exists (FromIIzError e). split; [reflexivity|]. intros [] E; cbn in E; congruence.
Qed.
Lemma error_results r e : node_from_result r = NASTError e <-> r = inr e \/ r = inl (FromError e).
Proof.
  split; [|intros [->| ->]; reflexivity]. destruct r as [[]|x]; cbn; intros E; try discriminate E; injection E as ->; auto.
Qed.

(** ** Ranges, values and results *)
Lemma range_conversions :
  (forall r, range_of_pair (r_start r, r_end r) = r) /\
  (forall e t, expr_tokens e = [t] -> range_of_pair (expr_range e) = tok_range t) /\
  (forall p, range_of_position p = range_of_pair (p, p)).
Proof.
  split; [intros []; reflexivity|]. split; [|reflexivity].
  intros e t H. destruct (expr_spans e) as [(u & r & E & H1) (u' & r' & E' & H2)].
  rewrite H in E, E'. injection E as <- _.
  destruct r' as [|? [|]]; try discriminate E'. injection E' as <-.
  destruct (expr_range e) as [a b]. cbn in *. subst. destruct (tok_range t). reflexivity.
Qed.
Lemma value_token t v : value_of_token t = Some v -> value_tokens v = [t].
Proof. unfold value_of_token. destruct (tok_type t); try discriminate. intros E; injection E as <-. reflexivity. Qed.
Lemma swap_sides {T U} (r : T + U) x :
  (swap_ok_err r = inl x <-> r = inr x) /\ forall y, (swap_ok_err r = inr y <-> r = inl y).
Proof. destruct r; cbn; (split; [|intros y]); split; intros E; try discriminate E; injection E as ->; reflexivity. Qed.
