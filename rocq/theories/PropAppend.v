(** Property C70: what the first part of a program decides.  Statements; the
    proofs are in Prefix.v and AppendProofs.v.  [is_error n]: the node is an
    [ASTNode::ASTError] (ParserProps.v). *)
From Coq Require Import String.
From Verif Require Import Lexer Api LexSpec LexPropSpec Clean SourceLines ParseFuel Grammar LineGrammar Free LinesSim ParserProps PropLexer PropParser PropApi AppendProofs.
From Verif Require Export Lines AppendSpec.
Local Open Scope string_scope.
Local Open Scope list_scope.

(** Every program, with or without errors, is closed (anything can follow it
    and is parsed as if it were alone), has ended (nothing that follows is read),
    or is open: what follows can change its last node and no other. *)
Theorem C70_closed_ended_or_open ts1 ns : parse ts1 = ParseOk (ASTBlock ns) ->
  closed_with ts1 ns \/ ended_with ts1 ns \/ open_with ts1 ns.
Proof. exact (three_fates ts1 ns). Qed.
Print Assumptions C70_closed_ended_or_open.

(** One line decides whether a program is closed: GTFO after it becomes one more
    node if and only if every program can follow. *)
Theorem C70_one_line_decides ts1 ns g tp : parse ts1 = ParseOk (ASTBlock ns) -> kw GTFO g -> followed_by ts1 [g] tp ->
  (closed_with ts1 ns <-> parse tp = ParseOk (ASTBlock (ns ++ [NGtfo (mkGtfo g)]))).
Proof. exact (test_exact ts1 ns g tp). Qed.
Print Assumptions C70_one_line_decides.

(** Any line will do, if it gives one more node that is not an error. *)
Theorem C70_any_line_decides ts1 tl tp l ns y : parse ts1 = ParseOk (ASTBlock ns) ->
  logical_lines tl = [l] -> followed_by ts1 tl tp ->
  parse tp = ParseOk (ASTBlock (ns ++ [y])) -> ~ is_error y -> closed_with ts1 ns.
Proof. exact (test_line ts1 tl tp l ns y). Qed.
Print Assumptions C70_any_line_decides.

(** Appending lines to a program changes at most its last node. *)
Theorem C70_only_the_last_node_changes ts1 ts2 ts ns ns' : parse ts1 = ParseOk (ASTBlock ns) ->
  followed_by ts1 ts2 ts -> parse ts = ParseOk (ASTBlock ns') ->
  exists cs tl tl', ns = cs ++ tl /\ ns' = cs ++ tl' /\ length tl <= 1.
Proof. exact (last_node ts1 ts2 ts ns ns'). Qed.
Print Assumptions C70_only_the_last_node_changes.

(** A panic stays, whatever follows. *)
Theorem C70_panics_stay ts1 ts2 ts c : parse ts1 = ParsePanic c -> followed_by ts1 ts2 ts -> parse ts = ParsePanic c.
Proof. exact (panics_persist ts1 ts2 ts c). Qed.
Print Assumptions C70_panics_stay.

(** Closed programs can be put together. *)
Theorem C70_closed_after_closed ts1 ts2 ts ns1 ns2 : closed_with ts1 ns1 -> closed_with ts2 ns2 ->
  logical_lines ts2 <> [] -> ~ starts_empty ts2 -> followed_by ts1 ts2 ts -> closed_with ts (ns1 ++ ns2).
Proof. exact (closed_app ts1 ts2 ts ns1 ns2). Qed.
Print Assumptions C70_closed_after_closed.

(** Error-free programs are closed unless they end with one of the statements
    that take the next line (C35-C37). *)
Theorem C70_error_free_programs_are_closed ts ns : parse ts = ParseOk (ASTBlock ns) ->
  Forall (fun l => l <> []) (statements ts) -> forallb node_clean ns = true ->
  (forall ns0 n, ns = ns0 ++ [n] -> ~ swallows n) -> closed_with ts ns.
Proof. exact (clean_closed ts ns). Qed.
Print Assumptions C70_error_free_programs_are_closed.

(** Sources, with or without errors: if GTFO on a line after the first source
    gives one more node, any source can follow, and is parsed as if it were
    alone, except that its positions are shifted. *)
Theorem C70_sources (code0 more : str) ts ns y :
  tokenize (code0 ++ [newline]) = LexOk ts ->
  Forall (fun t => bytes (end_of t) <= Z.of_nat (byte_len code0))%Z ts ->
  (forall ts0 t, ts = ts0 ++ [t] -> tok_type t <> TEllipsis) ->
  tokenize_and_parse (code0 ++ [newline]) = ApiOk (ASTBlock ns) ->
  tokenize_and_parse (code0 ++ newline :: test_line_code) = ApiOk (ASTBlock (ns ++ [y])) -> ~ is_error y ->
  (forall us ls, tokenize more = LexOk us -> statements us <> [] :: ls) ->
  tokenize_and_parse (code0 ++ newline :: more) =
  then_result ns (pos_at ts (code0 ++ [newline])) (tokenize_and_parse more).
Proof. exact (test_source code0 more ts ns y). Qed.
Print Assumptions C70_sources.
Theorem C70_panics_of_sources_stay (code0 more : str) ts us c :
  tokenize (code0 ++ [newline]) = LexOk ts ->
  Forall (fun t => bytes (end_of t) <= Z.of_nat (byte_len code0))%Z ts ->
  (forall ts0 t, ts = ts0 ++ [t] -> tok_type t <> TEllipsis) ->
  parse ts = ParsePanic c -> tokenize more = LexOk us ->
  tokenize_and_parse (code0 ++ newline :: more) = ApiPanic.
Proof. exact (panic_source code0 more ts us c). Qed.
Print Assumptions C70_panics_of_sources_stay.

(** ** Cases *)
Definition c70_last (ls : list string) : token := last (toks ls) dummy.

(** Four errors and yet closed; the hypotheses of the test are met. *)
Definition c70_broken : list string :=
  ["VISIBLE"; "IM IN YR l"; "SUM OF 1"; "IM OUTTA YR 5"; "O RLY?"; "VISIBLE 1"; "OIC"].
Example C70_closed_case : exists ns n e1 e2 e3 e4, parse (toks c70_broken) = ParseOk (ASTBlock ns) /\
  ns = [n; NASTError e1; NASTError e2; NASTError e3; NASTError e4] /\ closed_with (toks c70_broken) ns.
Proof.
  do 6 eexists. split; [vm_compute; reflexivity|]. split; [reflexivity|].
  apply (C70_one_line_decides _ _ (c70_last (c70_broken ++ ["GTFO"])) (toks (c70_broken ++ ["GTFO"])));
    vm_compute; reflexivity.
Qed.
(** A loop that is not closed: GTFO disappears in it, and its last node changes
    when the end follows. *)
Example C70_open_case :
  let first := ["VISIBLE 1"; "IM IN YR l"; "VISIBLE 2"] in
  exists n e f m, parse (toks first) = ParseOk (ASTBlock [n; NASTError e]) /\
    parse (toks (first ++ ["GTFO"])) = ParseOk (ASTBlock [n; NASTError f]) /\
    parse (toks (first ++ ["IM OUTTA YR l"])) = ParseOk (ASTBlock [n; NImInYr m]) /\
    ~ closed_with (toks first) [n; NASTError e].
Proof.
  do 4 eexists. split; [vm_compute; reflexivity|]. split; [vm_compute; reflexivity|]. split; [vm_compute; reflexivity|].
  intros H.
  apply (C70_one_line_decides _ _ (c70_last ["VISIBLE 1"; "IM IN YR l"; "VISIBLE 2"; "GTFO"]) (toks ["VISIBLE 1"; "IM IN YR l"; "VISIBLE 2"; "GTFO"])) in H;
    [vm_compute in H; discriminate|vm_compute; reflexivity..].
Qed.
(** A program that has ended, at an empty statement. *)
Example C70_ended_case :
  let first := ["VISIBLE 1, ..., GTFO"] in
  exists n, parse (toks first) = ParseOk (ASTBlock [n]) /\ ended_with (toks first) [n].
Proof.
  eexists. split; [vm_compute; reflexivity|].
  assert (E : exists t c l, logical_lines (toks ["VISIBLE 1, ..., GTFO"]) = [t :: c; []; l] /\ tok_type t = TKeyword VISIBLE /\
    parse_logical [t :: c] = parse (toks ["VISIBLE 1"])).
  { do 3 eexists. split; [vm_compute; reflexivity|]. split; [reflexivity|vm_compute; reflexivity]. }
  destruct E as (t & c & l & E & Et & Ep). intros ts2 ts F. unfold followed_by in F. rewrite E in F. cbn [app] in F.
  rewrite parse_logical_lines, F, single_line_unfold, Ep; [vm_compute; reflexivity|].
  unfold multi_line, kw. rewrite Et. intros H. decompose [or] H; discriminate.
Qed.
(** The hypotheses of C70_sources, for a first source with an error. *)
Definition c70_code : str := lit "SUM OF 1" ++ nl ++ lit "GTFO".
Example C70_sources_case : exists ts ns y e m, tokenize (c70_code ++ [newline]) = LexOk ts /\
  Forall (fun t => bytes (end_of t) <= Z.of_nat (byte_len c70_code))%Z ts /\
  (forall ts0 t, ts = ts0 ++ [t] -> tok_type t <> TEllipsis) /\
  tokenize_and_parse (c70_code ++ [newline]) = ApiOk (ASTBlock ns) /\ ns = [NASTError e; m] /\
  tokenize_and_parse (c70_code ++ newline :: test_line_code) = ApiOk (ASTBlock (ns ++ [y])) /\ ~ is_error y /\
  (forall us ls, tokenize c54_code = LexOk us -> statements us <> [] :: ls).
Proof.
  do 5 eexists. split; [vm_compute; reflexivity|]. split; [repeat constructor; vm_compute; discriminate|].
  split; [intros ts0 t E; apply (f_equal (@rev _)) in E; rewrite rev_app_distr in E; injection E as <- _; discriminate|].
  split; [vm_compute; reflexivity|]. split; [reflexivity|]. split; [vm_compute; reflexivity|].
  split; [intros (e & E); discriminate|]. intros us ls H. vm_compute in H. injection H as <-. discriminate.
Qed.
(** A panic, and closed programs that can be put together. *)
Example C70_panic_case : exists c, parse (toks ["GTFO"; "x y"]) = ParsePanic c /\
  followed_by (toks ["GTFO"; "x y"]) [c70_last ["GTFO"; "x y"; "GTFO"]] (toks ["GTFO"; "x y"; "GTFO"]).
Proof. eexists. split; [vm_compute; reflexivity|]. unfold followed_by. vm_compute. reflexivity. Qed.
Example C70_error_free_case : exists ns, parse program = ParseOk (ASTBlock ns) /\
  Forall (fun l => l <> []) (statements program) /\ forallb node_clean ns = true /\ forall ns0 n, ns = ns0 ++ [n] -> ~ swallows n.
Proof.
  eexists. split; [vm_compute; reflexivity|]. split; [vm_compute; repeat constructor; discriminate|].
  split; [vm_compute; reflexivity|].
  intros ns0 t E; apply (f_equal (@rev _)) in E; rewrite rev_app_distr in E; injection E as <- _; intros [].
Qed.
