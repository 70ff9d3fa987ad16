(** More theorems about the parser.  The vocabulary of the statements: Lines.v
    (logical lines), NodeTokens.v (tokens, nodes and errors of an AST,
    subsequences), NodeKind.v (what a token announces), Grammar.v. *)
From Coq Require Import String Lia.
From Verif Require Import Lexer Parser Api Lines LinesSim ParseFuel Grammar NodeKind Blocks ParserProps
  ParserProps2 PropParser.
Local Open Scope string_scope.
Local Open Scope list_scope.

(** ** C24 *)
Theorem C24_panics_only_in_two_situations ts c : parse ts = ParsePanic c ->
  match c with
  | PanicMaek t => kw MAEK t /\ In t ts
  | PanicUnreachable v u =>
    exists vs rest, In (vs ++ u :: rest) (logical_lines ts) /\ d_va vs v /\ ~ kw R u /\ ~ kw HAS_A u
  end.
Proof. exact (parse_panics ts c). Qed.
Print Assumptions C24_panics_only_in_two_situations.

Theorem C24_no_panic ts :
  (forall t, In t ts -> ~ kw MAEK t /\ ~ ident_tok t /\ ~ kw SRS t) -> exists b, parse ts = ParseOk b.
Proof. exact (no_panic ts). Qed.
Print Assumptions C24_no_panic.

(** Both situations do panic. *)
Theorem C24_parse_never_panics_refuted ts vs v u rest ls :
  logical_lines ts = (vs ++ u :: rest) :: ls ->
  d_va vs v -> ~ slot_tok u -> ~ kw R u -> ~ kw HAS_A u ->
  parse ts = ParsePanic (PanicUnreachable v u).
Proof. intros E. rewrite parse_logical_lines, E. exact (line_panics vs v u rest ls). Qed.
Print Assumptions C24_parse_never_panics_refuted.
Theorem C24_maek_never_panics_refuted ts t c ls :
  logical_lines ts = (t :: c) :: ls -> kw MAEK t -> parse ts = ParsePanic (PanicMaek t).
Proof. intros E. rewrite parse_logical_lines, E. exact (maek_panics t c ls). Qed.
Print Assumptions C24_maek_never_panics_refuted.

Example C24_case_variable :
  let ts := toks [ "x'Z y 1" ] in
  parse ts = ParsePanic (PanicUnreachable
    (mkVA (mkIdentifier (tok 0 ts) None) [mkSlot (tok 1 ts) (mkIdentifier (tok 2 ts) None)]) (tok 3 ts)).
Proof. vm_compute. reflexivity. Qed.
Example C24_case_maek :
  let ts := toks [ "VISIBLE MAEK 1 A NUMBR" ] in parse ts = ParsePanic (PanicMaek (tok 1 ts)).
Proof. vm_compute. reflexivity. Qed.
Example C24_case_no_panic : Forall (fun t => ~ kw MAEK t /\ ~ ident_tok t /\ ~ kw SRS t)
    (toks [ "HAI 1.2"; "VISIBLE SUM OF 1 AN NOT 2 )"; "OIC" ]).
Proof. vm_compute. repeat constructor; try discriminate; intros [s H]; discriminate H. Qed.

(** ** C25 *)
Theorem C25_ast_tokens_are_source_tokens_in_order ts b : parse ts = ParseOk b -> Subseq (block_tokens b) ts.
Proof. exact (parse_subseq ts b). Qed.
Print Assumptions C25_ast_tokens_are_source_tokens_in_order.

Example C25_case :
  map tok_type (block_tokens (ASTBlock (nodes_of (parse (toks
    [ "IM IN YR a TIL x"; "x R 1"; "VISIBLE = 2"; "IM OUTTA YR b" ]))))) =
  [TKeyword IM_IN_YR; TIdentifier (lit "a"); TIdentifier (lit "x"); TIdentifier (lit "x"); TKeyword R;
   TValue (VNumber (Int 1)); TSymbol (lit "="); TValue (VNumber (Int 2)); TIdentifier (lit "b")].
Proof. vm_compute. reflexivity. Qed.

(** ** C42 *)
Theorem C42_too_many_tokens_is_the_end_of_a_line ts b l :
  parse ts = ParseOk b -> In (TooManyTokens l) (block_errors b) ->
  l <> [] /\ exists p, In (p ++ l) (logical_lines ts).
Proof. exact (parse_errors ts b l). Qed.
Print Assumptions C42_too_many_tokens_is_the_end_of_a_line.

Example C42_case :
  let ts := toks [ "IM IN YR a TIL x"; "x R 1 2 3"; "IM OUTTA YR a" ] in
  block_errors (ASTBlock (nodes_of (parse ts))) = [TooManyTokens [tok 7 ts; tok 8 ts]] /\
  nth 1 (logical_lines ts) [] = [tok 4 ts; tok 5 ts; tok 6 ts] ++ [tok 7 ts; tok 8 ts].
Proof. vm_compute. auto. Qed.

(** ** C43 *)
Theorem C43_first_token_announces_the_node ts b n : parse ts = ParseOk b -> In n (block_all b) ->
  (exists e, n = NASTError e) \/ exists t c, In (t :: c) (logical_lines ts) /\ announced (logical_lines ts) t n.
Proof. exact (parse_announced ts b n). Qed.
Print Assumptions C43_first_token_announces_the_node.

Example C43_case :
  let b := ASTBlock (nodes_of (parse program)) in
  length (block_all b) = 10 /\ block_errors b = [].
Proof. vm_compute. auto. Qed.

(** ** C44 *)
Theorem C44_loop_labels_are_identifiers ts b t label it cond body end_label :
  parse ts = ParseOk b -> In (NImInYr (ImInYr t label it cond body end_label)) (block_all b) ->
  (exists rest, In (t :: label :: rest) (logical_lines ts)) /\ kw IM_IN_YR t /\ ident_tok label /\
  (exists o rest, In (o :: end_label :: rest) (logical_lines ts) /\ kw IM_OUTTA_YR o) /\ ident_tok end_label.
Proof.
  intros H Hin. destruct (parse_announced ts b _ H Hin) as [[e He]|(u & c & _ & Ha)]; [discriminate|].
  cbn [announced] in Ha. destruct Ha as (H1 & -> & H2 & H3 & H4 & H5). tauto.
Qed.
Print Assumptions C44_loop_labels_are_identifiers.
Theorem C44_loop_labels_match_refuted : exists ts t label it cond body end_label,
  parse ts = ParseOk (ASTBlock [NImInYr (ImInYr t label it cond body end_label)]) /\
  block_errors body = [] /\ tok_type label <> tok_type end_label.
Proof.
  exists (toks [ "IM IN YR a"; "GTFO"; "IM OUTTA YR b" ]). eexists _, _, _, _, _, _.
  split; [vm_compute; reflexivity|]. vm_compute. split; [reflexivity|discriminate].
Qed.
Print Assumptions C44_loop_labels_match_refuted.

Example C44_case : exists t label it cond body end_label,
  In (NImInYr (ImInYr t label it cond body end_label)) (block_all (ASTBlock (nodes_of (parse program)))).
Proof. do 6 eexists. vm_compute. right. left. reflexivity. Qed.

(** ** C46 *)
(** Whatever the block and however far the iteration, [next] panics. *)
Theorem C46_errors_enumerated_refuted it : error_iter_next it = NextPanic.
Proof. unfold error_iter_next. destruct (error_iter_search it). reflexivity. Qed.
Print Assumptions C46_errors_enumerated_refuted.

(** The part of the enumeration that exists, the inner blocks of a node, is
    complete and in source order. *)
Theorem C46_inner_blocks n :
  flat_map block_all (match get_inner_block n with Some bs => bs | None => [] end) = tl (node_all n).
Proof. exact (inner_blocks n). Qed.
Print Assumptions C46_inner_blocks.

(** Before it panics, the first [next] has found the first node that is an error
    or has inner blocks, and has counted the nodes up to it; if there is none, it
    has counted all. *)
Theorem C46_search ns :
  (exists pre n post x, ns = pre ++ n :: post /\ Forall (fun m => ~ exists y, descends m y) pre /\ descends n x /\
     error_iter_search (iter_errors (ASTBlock ns)) = (Some x, mkErrorIter [ASTBlock ns] 0 (S (length pre)))) \/
  (Forall (fun m => ~ exists y, descends m y) ns /\
     error_iter_search (iter_errors (ASTBlock ns)) = (None, mkErrorIter [ASTBlock ns] 1 (length ns))).
Proof. exact (search_spec ns). Qed.
Print Assumptions C46_search.

Example C46_case_search :
  let ns := nodes_of (parse (toks [ "VISIBLE 1"; "O RLY ?"; "YA RLY"; "1 2"; "NO WAI"; "="; "OIC" ])) in
  match error_iter_search (iter_errors (ASTBlock ns)) with
  | (Some (EBBlock [_; _]), it) => ei_statement_index it = 2
  | _ => False
  end.
Proof. vm_compute. reflexivity. Qed.
Example C46_case :
  let b := ASTBlock (nodes_of (parse (toks [ "VISIBLE ="; "O RLY ?"; "YA RLY"; "1 2"; "NO WAI"; "="; "OIC" ]))) in
  length (block_errors b) = 3 /\ error_iter_next (iter_errors b) = NextPanic /\
  match b with
  | ASTBlock (_ :: n :: _) => option_map (@length block) (get_inner_block n) = Some 2
  | _ => False
  end.
Proof. vm_compute. auto. Qed.
