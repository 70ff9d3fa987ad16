(** The parser's theorems, by property number.  Each is followed by a concrete
    case that meets its hypotheses.  The vocabulary of the statements:
    Lines.v (logical lines), Grammar.v (grammar), Clean.v (no error nodes),
    AstTokens.v (tokens of AST values). *)
From Coq Require Import String Lia.
From Verif Require Import Lexer Parser Api Lines LinesSim ParseFuel Grammar ExprGrammar LineGrammar Clean
  ProgGrammar ProgComplete IterFacts TokIter TokIterFacts Free LineLocal ParserProps ReadAll PropLexer.
Local Open Scope string_scope.
Local Open Scope list_scope.

(** For the examples: the tokens of a text, one string per line. *)
Definition text (lines : list string) : str := flat_map (fun l => lit l ++ nl) lines.
Definition toks (lines : list string) : list token :=
  match tokenize (text lines) with LexOk ts => ts | _ => [] end.
Definition nodes_of (r : parse_result) : list node :=
  match r with ParseOk (ASTBlock ns) => ns | _ => [] end.
Definition dummy : token := mkToken TComma (mkRange position_start position_start).
Definition tok (n : nat) (ts : list token) : token := nth n ts dummy.

Definition program : list token := toks
  [ "I HAS A x ITZ SUM OF 1 AN NOT y";
    "IM IN YR loop UPPIN YR x'Z k TIL BOTH SAEM x AN 3";
    "VISIBLE x ALL OF x AN 2 MKAY ""text"" !";
    "O RLY ?"; "YA RLY"; "x R 2"; "MEBBE x"; "GTFO"; "NO WAI"; "GIMMEH x"; "OIC";
    "IM OUTTA YR loop";
    "x HAS A y ITZ SMOOSH 1 2 3";
    "I IZ f YR x AN YR 2 MKAY,  KTHXBYE" ].

(** ** C21 *)
Theorem C21_statements_are_logical_lines ts n :
  fst (iter_next_statement (skip_statements n (iter_new ts))) = nth n (logical_lines ts) [].
Proof. exact (nth_statement ts n). Qed.
Print Assumptions C21_statements_are_logical_lines.

Theorem C21_parse_sees_only_lines ts ts' :
  logical_lines ts = logical_lines ts' -> parse ts = parse ts'.
Proof. exact (same_lines ts ts'). Qed.
Print Assumptions C21_parse_sees_only_lines.

(** The cut into chunks loses nothing. *)
Theorem C21_chunks_partition ts : concat (chunks ts) = ts.
Proof. exact (ParserProps.chunks_concat ts). Qed.
Print Assumptions C21_chunks_partition.

Example C21_case :
  map (map tok_type) (logical_lines (toks [ "VISIBLE ..."; "1, x"; "GTFO" ])) =
  [[TKeyword VISIBLE; TValue (VNumber (Int 1))]; [TIdentifier (lit "x")]; [TKeyword GTFO]].
Proof. vm_compute. reflexivity. Qed.

(** ** C22 *)
Theorem C22_peek_is_transparent it :
  fst (iter_peek it) = fst (iter_next it) /\
  iter_next (snd (iter_peek it)) = iter_next it /\
  iter_peek (snd (iter_peek it)) = iter_peek it /\
  iter_collect (snd (iter_peek it)) = iter_collect it /\
  iter_next_statement (snd (iter_peek it)) = iter_next_statement it.
Proof.
  exact (conj (peek_is_next it) (conj (peek_then_next it) (conj (peek_peek it)
        (conj (peek_collect it) (peek_next_statement it))))).
Qed.
Print Assumptions C22_peek_is_transparent.

(** [collect] is the loop of [next]. *)
Theorem C22_collect_is_next_loop it :
  iter_collect it =
  match iter_next it with
  | (Some t, it') => let (l, it'') := iter_collect it' in (t :: l, it'')
  | (None, it') => ([], it')
  end.
Proof. exact (collect_unfold it). Qed.
Print Assumptions C22_collect_is_next_loop.

Example C22_case :
  let it := snd (iter_next (iter_new program)) in
  option_map tok_type (fst (iter_peek it)) = Some (TIdentifier (lit "x")) /\
  fst (iter_next (snd (iter_next (snd (iter_peek it))))) = fst (iter_next (snd (iter_next it))).
Proof. vm_compute. auto. Qed.

(** ** C23 *)
(** [ParseFuel], "the recursion did not finish within the fuel", is not a
    result, and more fuel changes nothing. *)
Theorem C23_parse_terminates ts fuel :
  length ts + 3 < fuel ->
  result_of (parse_block_root iter_next iter_peek iter_next_statement fuel (iter_new ts)) = parse ts /\
  parse ts <> ParseFuel.
Proof. intros H. exact (conj (parse_any_fuel ts fuel H) (parse_terminates ts)). Qed.
Print Assumptions C23_parse_terminates.

Example C23_case : length program + 3 < 100 /\ length (nodes_of (parse program)) = 5.
Proof. vm_compute. split; [lia|reflexivity]. Qed.

(** ** C26 *)
Theorem C26_expression_stores_its_tokens f t it e it' :
  reachable it ->
  expr_parse iter_next iter_peek f t it = ROk e it' ->
  exists used, t :: rest_of_line it = used ++ rest_of_line it' /\ used = expr_tokens e /\
    forall n, exists F, forall g, F <= g ->
      calls (expr_next g) n (expression_iter e) = Some (map (nth_error used) (seq 0 n)).
Proof. exact (iter_expr_tokens f t it e it'). Qed.
Print Assumptions C26_expression_stores_its_tokens.

(** ** C27 *)
Theorem C27_identifier_tokens n i :
  calls (fun it => Some (id_next it)) n (identifier_iter i)
  = Some (map (nth_error (identifier_tokens i)) (seq 0 n)).
Proof. exact (identifier_calls n i). Qed.
Print Assumptions C27_identifier_tokens.
Theorem C27_variable_access_tokens n v : exists F, forall f, F <= f ->
  calls (va_next f) n (variable_access_iter v) = Some (map (nth_error (va_tokens v)) (seq 0 n)).
Proof. exact (va_calls n v). Qed.
Print Assumptions C27_variable_access_tokens.
Theorem C27_expression_tokens n e : exists F, forall f, F <= f ->
  calls (expr_next f) n (expression_iter e) = Some (map (nth_error (expr_tokens e)) (seq 0 n)).
Proof. exact (expr_calls n e). Qed.
Print Assumptions C27_expression_tokens.
Theorem C27_assignment_tokens n a : exists F, forall f, F <= f ->
  calls (assignment_next f) n (variable_assignment_iter a)
  = Some (map (nth_error (assignment_tokens a)) (seq 0 n)).
Proof. exact (assignment_calls n a). Qed.
Print Assumptions C27_assignment_tokens.

(** ** C28 *)
Theorem C28_identifier_range i : spans (identifier_tokens i) (identifier_range i).
Proof. exact (identifier_spans i). Qed.
Print Assumptions C28_identifier_range.
Theorem C28_variable_access_range v : spans (va_tokens v) (va_range v).
Proof. exact (va_spans v). Qed.
Print Assumptions C28_variable_access_range.
Theorem C28_expression_range e : spans (expr_tokens e) (expr_range e).
Proof. exact (expr_spans e). Qed.
Print Assumptions C28_expression_range.
Theorem C28_assignment_range a : spans (assignment_tokens a) (assignment_range a).
Proof. exact (assignment_spans a). Qed.
Print Assumptions C28_assignment_range.

(** An expression, its tokens and its iterator. *)
Definition expression_line : list token := toks [ "SUM OF x'Z SRS k AN ALL OF NOT 1 AN 2 MKAY" ].
Definition expression_value : expr :=
  match parse expression_line with
  | ParseOk (ASTBlock [NExpression e]) => e
  | _ => Value (LiteralValue dummy)
  end.
Example C26_case : expr_tokens expression_value = expression_line /\ length expression_line = 12.
Proof. vm_compute. auto. Qed.
Example C27_case :
  calls (expr_next 50) 14 (expression_iter expression_value) =
  Some (map Some expression_line ++ [None; None]).
Proof. vm_compute. reflexivity. Qed.
Example C28_case :
  expr_range expression_value =
  (r_start (tok_range (tok 0 expression_line)), r_end (tok_range (tok 11 expression_line))).
Proof. vm_compute. reflexivity. Qed.

(** ** C29 *)
(** [fits open ts rest]: an open expression (n-ary without MKAY) ends its
    statement, and an identifier is not cut off from its 'Z. *)
Theorem C29_expressions_sound f t it e it' :
  reachable it ->
  expr_parse iter_next iter_peek f t it = ROk e it' ->
  after_line it' = after_line it /\
  exists open ts, t :: rest_of_line it = ts ++ rest_of_line it' /\ d_expr open ts e /\
                  fits open ts (rest_of_line it').
Proof. exact (iter_expr_sound f t it e it'). Qed.
Print Assumptions C29_expressions_sound.

(** ** C30 *)
Theorem C30_expressions_complete f t ts open e c it :
  reachable it ->
  d_expr open (t :: ts) e -> rest_of_line it = ts ++ c -> fits open (t :: ts) c ->
  length (t :: ts) < f ->
  exists it', expr_parse iter_next iter_peek f t it = ROk e it' /\
              rest_of_line it' = c /\ after_line it' = after_line it.
Proof. exact (iter_expr_complete f t ts open e c it). Qed.
Print Assumptions C30_expressions_complete.

Example C29_C30_case :
  let it := snd (iter_next (iter_new expression_line)) in
  reachable it /\
  exists it', expr_parse iter_next iter_peek 50 (tok 0 expression_line) it = ROk expression_value it'.
Proof.
  split; [apply reach_next, reach_new|]. eexists. vm_compute. reflexivity.
Qed.

(** ** C31 *)
Theorem C31_expressions_unambiguous o o' ts ts' e e' c c' :
  d_expr o ts e -> d_expr o' ts' e' -> fits o ts c -> fits o' ts' c' -> ts ++ c = ts' ++ c' ->
  ts = ts' /\ e = e' /\ c = c'.
Proof. exact (expr_unambiguous o o' ts ts' e e' c c'). Qed.
Print Assumptions C31_expressions_unambiguous.
Theorem C31_one_tree_per_sequence o o' ts e e' : d_expr o ts e -> d_expr o' ts e' -> e = e'.
Proof. exact (expr_unique o o' ts e e'). Qed.
Print Assumptions C31_one_tree_per_sequence.
Theorem C31_one_node_per_line l n n' : d_line l n -> d_line l n' -> n = n'.
Proof. exact (line_unique l n n'). Qed.
Print Assumptions C31_one_node_per_line.
Theorem C31_one_ast_per_program ls ns ns' : d_program ls ns -> d_program ls ns' -> ns = ns'.
Proof. exact (program_unique ls ns ns'). Qed.
Print Assumptions C31_one_ast_per_program.

(** The first tokens of the line [1 'Z x] and of the line [x 'Z y]: an
    expression may stop before ['Z] after a number, not after an identifier. *)
Example C31_case :
  let ts := toks [ "1 'Z x" ] in let us := toks [ "x 'Z y" ] in
  d_expr false [tok 0 ts] (Value (LiteralValue (tok 0 ts))) /\ fits false [tok 0 ts] (tl ts) /\
  d_expr false [tok 0 us] (Value (VariableAccess (mkVA (mkIdentifier (tok 0 us) None) []))) /\
  ~ fits false [tok 0 us] (tl us).
Proof.
  cbv zeta. split; [|split; [|split]].
  - constructor. eexists. vm_compute. reflexivity.
  - split; [discriminate|]. intros ((a & x & E & (s & Hx)) & _).
    destruct a as [|? [|? ?]]; [|discriminate E..]. injection E as <-. vm_compute in Hx. discriminate Hx.
  - constructor. apply (d_access [_] _ [] []); [|constructor]. constructor. eexists. vm_compute. reflexivity.
  - intros (_ & H). apply H. split.
    + exists [], (tok 0 (toks [ "x 'Z y" ])). split; [reflexivity|]. eexists. vm_compute. reflexivity.
    + exists (tok 1 (toks [ "x 'Z y" ])), (skipn 2 (toks [ "x 'Z y" ])).
      split; vm_compute; reflexivity.
Qed.

(** ** C32 *)
Theorem C32_single_line_statements ts t c n :
  logical_lines ts = [t :: c] -> ~ multi_line t ->
  (parse ts = ParseOk (ASTBlock [n]) /\ ~ is_error n) <-> d_line (t :: c) n.
Proof. intros E. rewrite parse_logical_lines, E. exact (line_iff t c n). Qed.
Print Assumptions C32_single_line_statements.

Example C32_case : exists n, d_line expression_line n.
Proof.
  exists (NExpression expression_value).
  assert (E : expression_line = tok 0 expression_line :: tl expression_line) by (vm_compute; reflexivity).
  rewrite E.
  assert (H1 : logical_lines expression_line = [tok 0 expression_line :: tl expression_line]).
  { vm_compute. reflexivity. }
  assert (H2 : ~ multi_line (tok 0 expression_line)).
  { intros [H|[H|[H|[H|H]]]]; vm_compute in H; discriminate H. }
  assert (H3 : parse expression_line = ParseOk (ASTBlock [NExpression expression_value])).
  { vm_compute. reflexivity. }
  apply (C32_single_line_statements _ _ _ _ H1 H2). split; [exact H3|].
  intros [e H]. discriminate H.
Qed.

(** ** C33 and C34 *)
Theorem C33_error_free_means_grammatical ts ns :
  parse ts = ParseOk (ASTBlock ns) -> forallb node_clean ns = true ->
  d_program (logical_lines ts) ns.
Proof. intros H Hc. rewrite parse_logical_lines in H. exact (program_sound _ _ H Hc). Qed.
Print Assumptions C33_error_free_means_grammatical.

Theorem C34_grammatical_programs_accepted ts ns :
  d_program (logical_lines ts) ns ->
  parse ts = ParseOk (ASTBlock ns) /\ forallb node_clean ns = true.
Proof. intros H. rewrite parse_logical_lines. exact (proj2 (program_iff _ _) H). Qed.
Print Assumptions C34_grammatical_programs_accepted.

Example C33_C34_case :
  exists ns, parse program = ParseOk (ASTBlock ns) /\ forallb node_clean ns = true /\
             d_program (logical_lines program) ns.
Proof.
  exists (nodes_of (parse program)). assert (H : parse program = ParseOk (ASTBlock (nodes_of (parse program)))).
  { vm_compute. reflexivity. }
  assert (Hc : forallb node_clean (nodes_of (parse program)) = true) by (vm_compute; reflexivity).
  exact (conj H (conj Hc (C33_error_free_means_grammatical _ _ H Hc))).
Qed.

(** ** C35 *)
(** [rest_result ls]: the result for the remaining lines; [put] prepends nodes. *)
Theorem C35_hai_swallows_next_line_refuted ts h v l ls :
  logical_lines ts = (h :: v) :: l :: ls -> kw HAI h -> l <> [] ->
  parse ts = put [NHai (mkHai h v); NASTError (TooManyTokens l)] (rest_result ls).
Proof. intros E. rewrite parse_logical_lines, E. exact (hai_swallows h v l ls). Qed.
Print Assumptions C35_hai_swallows_next_line_refuted.

Example C35_case :
  let ts := toks [ "HAI 1.2"; "VISIBLE 1"; "KTHXBYE" ] in
  nodes_of (parse ts) =
  [NHai (mkHai (tok 0 ts) [tok 1 ts]); NASTError (TooManyTokens [tok 2 ts; tok 3 ts]);
   NKThxBye (mkKthxbye (tok 4 ts))].
Proof. vm_compute. reflexivity. Qed.

(** ** C36 *)
Theorem C36_function_swallows_next_line_refuted toks' t ts i us ps body ns e l ls :
  logical_lines toks' = (t :: ts ++ us) :: body ++ [e] :: l :: ls ->
  kw HOW_IZ_I t -> d_identifier ts i -> d_params us ps -> d_block body ns -> kw IF_U_SAY_SO e ->
  l <> [] ->
  parse toks' = put [NHowIzI (HowIzI t i ps (ASTBlock ns)); NASTError (TooManyTokens l)] (rest_result ls).
Proof.
  intros E Hk Hi Hp Hb He Hl. rewrite parse_logical_lines, E.
  destruct l as [|x l]; [destruct (Hl eq_refl)|]. exact (function_swallows t ts i us ps body ns e (x :: l) ls Hk Hi Hp Hb He).
Qed.
Print Assumptions C36_function_swallows_next_line_refuted.

Example C36_case :
  let ts := toks [ "HOW IZ I f YR x"; "FOUND YR x"; "IF U SAY SO"; "VISIBLE 1"; "GTFO" ] in
  match nodes_of (parse ts) with
  | [NHowIzI _; NASTError (TooManyTokens l); NGtfo _] => map tok_type l
  | _ => []
  end = [TKeyword VISIBLE; TValue (VNumber (Int 1))].
Proof. vm_compute. reflexivity. Qed.

(** ** C37 *)
Theorem C37_wtf_swallows_next_line_refuted ts t q L omgs D d e l ls :
  logical_lines ts = [t; q] :: L ++ D ++ [e] :: l :: ls ->
  kw WTF t -> question_tok q -> d_omgs L omgs -> d_default D d -> kw OIC e -> l <> [] ->
  parse ts = put [NWtf (Wtf t omgs d); NASTError (TooManyTokens l)] (rest_result ls).
Proof.
  intros E Hk Hq Ho Hd He Hl. rewrite parse_logical_lines, E.
  destruct l as [|x l]; [destruct (Hl eq_refl)|]. exact (wtf_swallows t q L omgs D d e (x :: l) ls Hk Hq Ho Hd He).
Qed.
Print Assumptions C37_wtf_swallows_next_line_refuted.

Example C37_case :
  let ts := toks [ "WTF ?"; "OMG 1"; "GTFO"; "OMGWTF"; "VISIBLE 2"; "OIC"; "VISIBLE 1"; "GTFO" ] in
  match nodes_of (parse ts) with
  | [NWtf _; NASTError (TooManyTokens l); NGtfo _] => map tok_type l
  | _ => []
  end = [TKeyword VISIBLE; TValue (VNumber (Int 1))].
Proof. vm_compute. reflexivity. Qed.

(** ** C38 *)
Theorem C38_empty_loop_refuted ts t label its it cs cond imo c ls b :
  logical_lines ts = (t :: label :: its ++ cs) :: (imo :: c) :: ls ->
  kw IM_IN_YR t -> ident_tok label -> d_iteration its it -> d_condition cs cond -> kw IM_OUTTA_YR imo ->
  parse ts = ParseOk b ->
  exists n ns, b = ASTBlock (n :: ns) /\
    (is_error n \/ exists ms el,
       n = NImInYr (ImInYr t label it cond (ASTBlock (NASTError (UnexpectedToken imo) :: ms)) el)).
Proof. intros E. rewrite parse_logical_lines, E. exact (empty_loop_body t label its it cs cond imo c ls b). Qed.
Print Assumptions C38_empty_loop_refuted.

Theorem C38_empty_function_refuted toks' t ts i us ps e c ls b :
  logical_lines toks' = (t :: ts ++ us) :: (e :: c) :: ls ->
  kw HOW_IZ_I t -> d_identifier ts i -> d_params us ps -> kw IF_U_SAY_SO e ->
  parse toks' = ParseOk b ->
  exists n ns, b = ASTBlock (n :: ns) /\
    (is_error n \/ exists ms,
       n = NHowIzI (HowIzI t i ps (ASTBlock (NASTError (UnexpectedToken e) :: ms)))).
Proof. intros E. rewrite parse_logical_lines, E. exact (empty_function_body t ts i us ps e c ls b). Qed.
Print Assumptions C38_empty_function_refuted.

(** On lines, any block: never empty unless it starts at an empty line, and a
    block that starts at a closing keyword starts with an error. *)
Theorem C38_blocks_not_empty stop s s' : blk stop s = ROk [] s' -> fst s = [].
Proof. exact (blk_not_empty stop s s'). Qed.
Print Assumptions C38_blocks_not_empty.
Theorem C38_closing_keyword_is_an_error stop t c ls ns s' :
  kw IF_U_SAY_SO t \/ kw IM_OUTTA_YR t \/ kw MEBBE t \/ kw NO_WAI t \/ kw YA_RLY t \/ kw OIC t \/
  kw OMG t \/ kw OMGWTF t ->
  blk stop (t :: c, ls) = ROk ns s' -> exists ms, ns = NASTError (UnexpectedToken t) :: ms.
Proof. exact (blk_at_closer stop t c ls ns s'). Qed.
Print Assumptions C38_closing_keyword_is_an_error.

Example C38_case :
  let ts := toks [ "IM IN YR a UPPIN YR x"; "IM OUTTA YR a"; "IM OUTTA YR b" ] in
  nodes_of (parse ts) =
  [NImInYr (ImInYr (tok 0 ts) (tok 1 ts)
     (Some (mkLoopIteration (LUppin (tok 2 ts)) (mkVA (mkIdentifier (tok 4 ts) None) []))) None
     (ASTBlock [NASTError (UnexpectedToken (tok 5 ts)); NASTError (TooManyTokens [tok 6 ts])])
     (tok 8 ts))].
Proof. vm_compute. reflexivity. Qed.

(** ** C39 *)
Theorem C39_comments_spoil_lines_refuted ts ns l k :
  parse ts = ParseOk (ASTBlock ns) ->
  (forall l, In l (logical_lines ts) -> l <> []) ->
  In l (logical_lines ts) -> In k l -> comment_tok k -> (forall h v, l = h :: v -> ~ kw HAI h) ->
  forallb node_clean ns = false.
Proof. rewrite parse_logical_lines. exact (comment_spoils (logical_lines ts) ns l k). Qed.
Print Assumptions C39_comments_spoil_lines_refuted.

Example C39_case :
  let ts := toks [ "VISIBLE 1"; "I HAS A x BTW note"; "GTFO" ] in
  nodes_of (parse ts) =
  [NVisible (mkVisible (tok 0 ts) [Value (LiteralValue (tok 1 ts))] None);
   NASTError (UnexpectedToken (tok 4 ts)); NGtfo (mkGtfo (tok 5 ts))] /\ comment_tok (tok 4 ts).
Proof. vm_compute. split; [reflexivity|left; eexists; reflexivity]. Qed.

(** ** C40 *)
(** [tss]: vectors that consist of one line each.  [join_results] concatenates
    their nodes, up to the first panic. *)
Theorem C40_lines_are_independent ts tss :
  Forall single_line (logical_lines ts) ->
  Forall2 (fun l us => logical_lines us = [l]) (logical_lines ts) tss ->
  parse ts = join_results (map parse tss).
Proof. exact (vectors_joined ts tss). Qed.
Print Assumptions C40_lines_are_independent.

(** Without the condition on the later lines: they may be anything. *)
Theorem C40_first_line_is_independent ts us t c ls :
  logical_lines ts = (t :: c) :: ls -> logical_lines us = [t :: c] -> ~ multi_line t ->
  parse ts = match parse us with
             | ParseOk (ASTBlock ns) => put ns (rest_result ls)
             | r => r
             end.
Proof. intros E E' Hm. rewrite !parse_logical_lines, E, E'. exact (single_line_unfold t c ls Hm). Qed.
Print Assumptions C40_first_line_is_independent.

Example C40_case :
  let ts := toks [ "VISIBLE ="; "x R 2"; "GTFO 3" ] in
  Forall2 (fun l us => logical_lines us = [l]) (logical_lines ts)
    [firstn 2 ts; firstn 3 (skipn 2 ts); skipn 5 ts] /\
  length (nodes_of (parse ts)) = 4.
Proof. vm_compute. repeat constructor. Qed.

(** ** C41 *)
Theorem C41_parse_reads_everything ts f b it :
  Forall non_empty (tl (logical_lines ts)) ->
  parse_block_root iter_next iter_peek iter_next_statement f (iter_new ts) = ROk b it ->
  tokens_iter it = [] /\ fst (iter_next it) = None.
Proof. exact (reads_everything ts f b it). Qed.
Print Assumptions C41_parse_reads_everything.
Theorem C41_holds_without_ellipsis ts :
  (forall t, In t ts -> is_ellipsis t = false) -> Forall non_empty (tl (logical_lines ts)).
Proof. exact (no_ellipsis_lines ts). Qed.
Print Assumptions C41_holds_without_ellipsis.

(** In general a part of the program is silently dropped. *)
Theorem C41_parse_reads_everything_refuted :
  exists ts b it,
    parse_block_root iter_next iter_peek iter_next_statement (parse_fuel (length ts)) (iter_new ts) = ROk b it /\
    forallb node_clean (block_nodes b) = true /\
    map tok_type (tokens_iter it) = [TComma; TKeyword VISIBLE; TValue (VNumber (Int 1))].
Proof.
  exists (toks [ "GTFO"; "..., VISIBLE 1" ]). eexists _, _.
  split; [vm_compute; reflexivity|]. vm_compute. auto.
Qed.
Print Assumptions C41_parse_reads_everything_refuted.

Example C41_case :
  Forall non_empty (tl (logical_lines program)) /\
  match parse_block_root iter_next iter_peek iter_next_statement (parse_fuel (length program)) (iter_new program) with
  | ROk _ it => tokens_iter it = []
  | _ => False
  end.
Proof.
  split; [|vm_compute; reflexivity]. apply C41_holds_without_ellipsis.
  apply Forall_forall. vm_compute. repeat constructor.
Qed.

(** ** C45 *)
Theorem C45_tokenize_and_parse code :
  match tokenize code with
  | LexErr e => tokenize_and_parse code = ApiErr e
  | LexOk ts => tokenize_and_parse code =
                match parse ts with ParseOk b => ApiOk b | _ => ApiPanic end
  | _ => tokenize_and_parse code = ApiPanic
  end.
Proof.
  unfold tokenize_and_parse. destruct (tokenize code) as [ts|e| |] eqn:E; try reflexivity.
  - pose proof (parse_terminates ts). destruct (parse ts); try reflexivity. contradiction.
  - destruct (proj2 (C01_tokenize_terminates code (S (length code)) ltac:(lia)) E).
Qed.
Print Assumptions C45_tokenize_and_parse.
Theorem C45_terminates code : tokenize_and_parse code <> ApiFuel.
Proof.
  pose proof (C45_tokenize_and_parse code) as H. destruct (tokenize code); try congruence.
  destruct (parse tokens); congruence.
Qed.
Print Assumptions C45_terminates.
Theorem C45_error_iff code e : tokenize_and_parse code = ApiErr e <-> tokenize code = LexErr e.
Proof.
  pose proof (C45_tokenize_and_parse code) as H.
  destruct (tokenize code) as [ts|e'| |]; [destruct (parse ts)|..]; rewrite H; split; congruence.
Qed.
Print Assumptions C45_error_iff.

Example C45_case :
  (exists b, tokenize_and_parse (text [ "VISIBLE 1" ]) = ApiOk b) /\
  (exists e, tokenize_and_parse (text [ "OBTW" ]) = ApiErr e).
Proof. split; eexists; vm_compute; reflexivity. Qed.
