(** Theorems about [tokenize_and_parse] as a whole, by property number.
    Vocabulary: LexSpec.v (pieces of a source), SourceLines.v (statements of a
    source), Recovery.v (nodes and panics of a sequence of lines). *)
From Coq Require Import String.
From Verif Require Import Lexer Parser Api LexSpec LexProofs Lines Recovery SourceLines SourceLinesProofs
  LexPropSpec Relabel Clean SourceJoin PropLexer PropParser.
Local Open Scope string_scope.
Local Open Scope list_scope.

(** ** C54 *)
Theorem C54_result_of_every_source code r : source_result code r <-> tokenize_and_parse code = r.
Proof. exact (source_result_iff code r). Qed.
Print Assumptions C54_result_of_every_source.

(** The specification gives every source exactly one result. *)
Theorem C54_total_and_unique code : exists r, source_result code r /\ forall r', source_result code r' -> r' = r.
Proof.
  exists (tokenize_and_parse code). split; [apply source_result_iff; reflexivity|].
  intros r' H. symmetry. apply source_result_iff, H.
Qed.
Print Assumptions C54_total_and_unique.

(** The lines the parser sees, read off the newlines, commas and ellipses of the
    source: no line numbers of tokens are involved. *)
Theorem C54_statements_of_a_source ps : statements (tokens_after [] ps) = source_statements ps.
Proof. exact (statements_of_source ps). Qed.
Print Assumptions C54_statements_of_a_source.
Theorem C54_lines_of_a_source ps ls : source_lines ps ls <-> logical_lines (tokens_after [] ps) = ls.
Proof. exact (logical_lines_of_source ps ls). Qed.
Print Assumptions C54_lines_of_a_source.

(** Four statements on five physical lines: a comma separates two of them, an
    ellipsis joins two lines across a blank line. *)
Definition c54_code : str :=
  lit "I HAS A x, VISIBLE ..." ++ nl ++ nl ++ lit "  x" ++ nl ++ lit "SUM OF 1" ++ nl ++ lit "GTFO" ++ nl.
Example C54_statements_case : exists ps, LexesTo c54_code ps [] /\ ~ starts_with_comma ps /\
  map (map tok_type) (source_statements ps) =
    [[TKeyword I_HAS_A; TIdentifier (lit "x")]; [TKeyword VISIBLE; TIdentifier (lit "x")];
     [TKeyword SUM_OF; TValue (VNumber (Int 1))]; [TKeyword GTFO]].
Proof.
  assert (E : exists ts, tokenize c54_code = LexOk ts /\
    map (map tok_type) (statements ts) =
      [[TKeyword I_HAS_A; TIdentifier (lit "x")]; [TKeyword VISIBLE; TIdentifier (lit "x")];
       [TKeyword SUM_OF; TValue (VNumber (Int 1))]; [TKeyword GTFO]] /\ logical_lines ts = statements ts).
  { eexists. split; [vm_compute; reflexivity|]. split; vm_compute; reflexivity. }
  destruct E as (ts & E & E1 & E2). apply tokenize_ok_iff in E as (ps & HL & ->).
  exists ps. split; [exact HL|]. rewrite <- C54_statements_of_a_source. split; [|exact E1].
  apply C54_lines_of_a_source in E2. destruct E2 as [[_ E2]|[E2 _]]; [|exact E2].
  rewrite C54_statements_of_a_source in E2. exfalso.
  apply (f_equal (@length _)) in E2. simpl in E2. lia.
Qed.
(** All four kinds of results occur. *)
Example C54_ast_case : exists n1 n2 e n3, source_result c54_code (ApiOk (ASTBlock [NIHasA n1; NVisible n2; NASTError e; NGtfo n3])).
Proof. do 4 eexists. apply C54_result_of_every_source. vm_compute. reflexivity. Qed.
Example C54_parser_panic_case : source_result (lit "x y") ApiPanic /\
  (exists ps ls c, LexesTo (lit "x y ") ps [] /\ source_lines ps ls /\ program_panics ls c).
Proof.
  split; [apply C54_result_of_every_source; vm_compute; reflexivity|].
  assert (H : source_result (lit "x y ") ApiPanic) by (apply C54_result_of_every_source; vm_compute; reflexivity).
  inversion H as [|ps ls c H1 H2 H3 E| |ps rem H1 H2 E]; subst; [exists ps, ls, c; auto|exfalso].
  assert (E0 : tokenize (lit "x y ") = LexPanic) by (apply tokenize_panic_iff; eauto).
  vm_compute in E0. discriminate E0.
Qed.
Example C54_error_case : exists r, source_result (lit "GTFO OBTW ") (ApiErr (UnclosedMultilineComment r)).
Proof. eexists. apply C54_result_of_every_source. vm_compute. reflexivity. Qed.

(** ** C55 *)
Theorem C55_one_source_after_another (code0 more : str) ts ns :
  tokenize (code0 ++ [newline]) = LexOk ts ->
  Forall (fun t => bytes (end_of t) <= Z.of_nat (byte_len code0))%Z ts ->
  (forall ts0 t, ts = ts0 ++ [t] -> tok_type t <> TEllipsis) ->
  Forall (fun l => l <> []) (statements ts) ->
  tokenize_and_parse (code0 ++ [newline]) = ApiOk (ASTBlock ns) ->
  forallb node_clean ns = true ->
  (forall ns0 n, ns = ns0 ++ [n] -> ~ swallows n) ->
  (forall us ls, tokenize more = LexOk us -> statements us <> [] :: ls) ->
  tokenize_and_parse (code0 ++ newline :: more) =
  then_result ns (pos_at ts (code0 ++ [newline])) (tokenize_and_parse more).
Proof.
  intros H1 H2 H3. apply sources_joined; try assumption. intros ts0 t E. specialize (H3 _ _ E).
  unfold is_ellipsis. destruct (tok_type t); try reflexivity. contradiction.
Qed.
Print Assumptions C55_one_source_after_another.

(** The condition on the second source is needed: if its first statement is
    empty, the program ends there. *)
Theorem C55_empty_statement_refuted : exists code0 more ns m ts,
  tokenize (code0 ++ [newline]) = LexOk ts /\
  Forall (fun t => bytes (end_of t) <= Z.of_nat (byte_len code0))%Z ts /\
  (forall ts0 t, ts = ts0 ++ [t] -> tok_type t <> TEllipsis) /\
  Forall (fun l => l <> []) (statements ts) /\
  tokenize_and_parse (code0 ++ [newline]) = ApiOk (ASTBlock ns) /\
  forallb node_clean ns = true /\ (forall ns0 n, ns = ns0 ++ [n] -> ~ swallows n) /\
  tokenize_and_parse more = ApiOk (ASTBlock [m]) /\
  tokenize_and_parse (code0 ++ newline :: more) = ApiOk (ASTBlock ns).
Proof.
  exists (lit "GTFO"), (lit "...,GTFO" ++ nl). do 3 eexists.
  split; [vm_compute; reflexivity|]. split; [repeat constructor; vm_compute; discriminate|].
  split; [intros ts0 t E; apply (f_equal (@rev _)) in E; rewrite rev_app_distr in E; injection E as <- _; discriminate|].
  split; [repeat constructor; discriminate|]. split; [vm_compute; reflexivity|].
  split; [reflexivity|]. split; [intros ns0 t E; apply (f_equal (@rev _)) in E; rewrite rev_app_distr in E; injection E as <- _; intros []|].
  split; [vm_compute; reflexivity|vm_compute; reflexivity].
Qed.
Print Assumptions C55_empty_statement_refuted.

Definition c55_code1 : str := lit "I HAS A x" ++ nl ++ lit "IM IN YR l" ++ nl ++ lit "GTFO" ++ nl ++ lit "IM OUTTA YR l".
(** The second source may contain errors of any kind. *)
Example C55_case : exists ts ns ms e m, tokenize_and_parse c54_code = ApiOk (ASTBlock ms) /\ In (NASTError e) ms /\
  tokenize_and_parse (c55_code1 ++ newline :: c54_code) =
  ApiOk (ASTBlock (ns ++ map (map_node (shift_token (pos_at ts (c55_code1 ++ [newline])))) ms)) /\
  In m ns /\ line (pos_at ts (c55_code1 ++ [newline])) = 5%Z.
Proof.
  assert (E : exists ts ns ms e m, tokenize (c55_code1 ++ [newline]) = LexOk ts /\
    tokenize_and_parse (c55_code1 ++ [newline]) = ApiOk (ASTBlock ns) /\
    tokenize_and_parse c54_code = ApiOk (ASTBlock ms) /\ In (NASTError e) ms /\ In m ns /\
    (forall us ls, tokenize c54_code = LexOk us -> statements us <> [] :: ls) /\
    Forall (fun t => bytes (end_of t) <= Z.of_nat (byte_len c55_code1))%Z ts /\
    (forall ts0 t, ts = ts0 ++ [t] -> tok_type t <> TEllipsis) /\
    Forall (fun l => l <> []) (statements ts) /\ forallb node_clean ns = true /\
    (forall ns0 n, ns = ns0 ++ [n] -> ~ swallows n) /\ line (pos_at ts (c55_code1 ++ [newline])) = 5%Z).
  { do 5 eexists. split; [vm_compute; reflexivity|]. split; [vm_compute; reflexivity|].
    split; [vm_compute; reflexivity|]. split; [right; right; left; reflexivity|]. split; [left; reflexivity|].
    split; [intros us ls H; vm_compute in H; injection H as <-; discriminate|].
    split; [repeat constructor; vm_compute; discriminate|].
    split; [intros ts0 t E; apply (f_equal (@rev _)) in E; rewrite rev_app_distr in E; injection E as <- _; discriminate|].
    split; [vm_compute; repeat constructor; discriminate|]. split; [reflexivity|].
    split; [intros ns0 t E; apply (f_equal (@rev _)) in E; rewrite rev_app_distr in E; injection E as <- _; intros []|].
    vm_compute. reflexivity. }
  destruct E as (ts & ns & ms & e & m & E1 & E2 & E3 & E4 & E5 & E6 & E7 & E8 & E9 & E10 & E11 & E12).
  exists ts, ns, ms, e, m. split; [exact E3|]. split; [exact E4|]. split; [|split; [exact E5|exact E12]].
  rewrite (C55_one_source_after_another _ _ ts ns); auto. rewrite E3. reflexivity.
Qed.
