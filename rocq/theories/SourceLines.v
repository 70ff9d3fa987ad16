(** Specification: the statements of a source text, read off its newlines,
    commas and ellipses.  No token positions are used to find them. *)
From Verif Require Export LexSpec LexPropSpec Lines Recovery Relabel Api.

(** What matters for lines: the tokens and the newlines between them. *)
Inductive mark : Set :=
| Word (t : token)
| NewLine.
Fixpoint marks (before ps : list piece) : list mark :=
  match ps with
  | [] => []
  | Gap c :: ps' => (if N.eqb c newline then [NewLine] else []) ++ marks (before ++ [Gap c]) ps'
  | Tok raw ty :: ps' =>
    Word {| tok_type := ty;
            tok_range := {| r_start := pos_after before;
                            r_end := pos_after (before ++ [Tok raw ty]) |} |}
    :: marks (before ++ [Tok raw ty]) ps'
  end.

(** The newlines after an ellipsis are dropped. *)
Fixpoint continued (after_ellipsis : bool) (ms : list mark) : list mark :=
  match ms with
  | [] => []
  | NewLine :: ms' => if after_ellipsis then continued true ms' else NewLine :: continued false ms'
  | Word t :: ms' => Word t :: continued (is_ellipsis t) ms'
  end.

(** Cut at newlines and commas. *)
Fixpoint cut (ms : list mark) : list (list token) :=
  match ms with
  | [] => [[]]
  | NewLine :: ms' => [] :: cut ms'
  | Word t :: ms' =>
    if is_comma t then [] :: cut ms'
    else match cut ms' with
         | l :: ls => (t :: l) :: ls
         | [] => [[t]]
         end
  end.

Definition nonempty (l : list token) : bool := match l with [] => false | _ => true end.

(** Empty statements count only if they consist of ellipses. *)
Definition source_statements (ps : list piece) : list (list token) :=
  map (filter (fun t => negb (is_ellipsis t)))
      (filter nonempty (cut (continued false (marks [] ps)))).

Definition starts_with_comma (ps : list piece) : Prop :=
  exists ps1 raw ps2, ps = ps1 ++ Tok raw TComma :: ps2 /\ forall raw' ty, ~ In (Tok raw' ty) ps1.

(** The lines the parser sees. *)
Definition source_lines (ps : list piece) (ls : list (list token)) : Prop :=
  (starts_with_comma ps /\ ls = [] :: source_statements ps) \/
  (~ starts_with_comma ps /\ ls = source_statements ps).

(** The result of [tokenize_and_parse] for every source. *)
Inductive source_result (code : str) : api_result -> Prop :=
| source_ast ps ls ns : LexesTo code ps [] -> source_lines ps ls -> program_nodes ls ns ->
    source_result code (ApiOk (ASTBlock ns))
| source_parser_panic ps ls c : LexesTo code ps [] -> source_lines ps ls -> program_panics ls c ->
    source_result code ApiPanic
| source_error ps rem : LexesTo code ps rem -> UnclosedComment rem ->
    source_result code (ApiErr (UnclosedMultilineComment
      {| r_start := pos_after ps; r_end := position_add (pos_after ps) rem |}))
| source_lexer_panic ps rem : LexesTo code ps rem -> PanicsAt rem -> source_result code ApiPanic.

(** ** One source after another (C55) *)
(** A statement that swallows the line after it (C35 to C37). *)
Definition swallows (n : node) : Prop :=
  match n with NHai _ | NHowIzI _ | NWtf _ => True | _ => False end.

(** The nodes [ns], then a result for a text that starts at [base]. *)
Definition then_result (ns : list node) (base : position) (r : api_result) : api_result :=
  match r with
  | ApiOk (ASTBlock ms) => ApiOk (ASTBlock (ns ++ map (map_node (shift_token base)) ms))
  | ApiErr (UnclosedMultilineComment r) => ApiErr (UnclosedMultilineComment (shift_range base r))
  | r => r
  end.
