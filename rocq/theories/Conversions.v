(** Model of the conversions of the crate ([From], [Into], [TryFrom],
    [IntoIterator], [token], [into_token]) that the parse functions of Parser.v
    and Ast.v do not already name. *)
From Verif Require Export Parser.

(** ** Ranges *)
(** [From<(Position, Position)> for Range], src/lexer/range.rs:8-12. *)
Definition range_of_pair (p : position * position) : range := let (s, e) := p in mkRange s e.
(** [From<Position> for Range], src/lexer/range.rs:14-18. *)
Definition range_of_position (p : position) : range := mkRange p p.

(** ** Statement iterators, src/parser/statement_iterator.rs:79-101 *)
(** [From<Vec<Token>>], [From<VecDeque<Token>>], [From<[Token; T]>], lines 85-101. *)
Definition iter_of_tokens (ts : list token) : stmt_iter := iter_new ts.
(** [From<VecDeque<VecDeque<Token>>>], lines 79-83. *)
Definition iter_of_statements (sts : list (list token)) : stmt_iter := iter_new (concat sts).
(** [parse_block_root] on such an iterator, src/parser/blocks.rs:158-160 (as the
    tests of the crate call it). *)
Definition parse_statements (sts : list (list token)) : parse_result :=
  result_of
    (parse_block_root iter_next iter_peek iter_next_statement
                      (parse_fuel (length (concat sts))) (iter_of_statements sts)).

(** ** Types and values *)
(** [TryFrom<Token> for ASTType] with its error, src/parser/expression/identifier.rs:99-112. *)
Definition type_of_token (t : token) : ast_type + token :=
  match tok_type t with
  | TKeyword NUMBR => inl (TyNumbr t)
  | TKeyword NUMBAR => inl (TyNumbar t)
  | TKeyword YARN => inl (TyYarn t)
  | TKeyword NOOB => inl (TyNoob t)
  | TKeyword BUKKIT => inl (TyBukkit t)
  | TKeyword TROOF => inl (TyTroof t)
  | _ => inr t
  end.
(** [ASTType::into_token], src/parser/expression/identifier.rs:87-96 ([token],
    lines 76-85, is [ast_type_token]). *)
Definition type_into_token (a : ast_type) : token :=
  match a with
  | TyBukkit t => t | TyNumbr t => t | TyNumbar t => t | TyYarn t => t | TyTroof t => t | TyNoob t => t
  end.
(** [From<VariableAccess>] and [TryFrom<Token>] for [ASTExpressionValue],
    src/parser/expression/mod.rs:107-121. *)
Definition value_of_access (v : variable_access) : expr_value := VariableAccess v.
Definition value_of_token (t : token) : option expr_value :=
  match tok_type t with
  | TValue _ => Some (LiteralValue t)
  | _ => None
  end.
(** [Into<Token> for LoopOperation], src/parser/statements/im_in_yr.rs:73-80. *)
Definition loop_operation_into_token (o : loop_operation) : token :=
  match o with LNerfin t => t | LUppin t => t end.
(** [swap_ok_err], src/parser/expression/mod.rs:282-289. *)
Definition swap_ok_err {T U} (r : T + U) : U + T :=
  match r with inl ok => inr ok | inr err => inl err end.

(** ** Errors, src/parser/error.rs:39-79 *)
Inductive error_source : Set :=
| FromAssignmentError (e : assignment_error)
| FromExpressionError (e : expression_error)
| FromHowIsIError (e : how_is_i_error)
| FromImInYrError (e : im_in_yr_error)
| FromIIzError (e : i_iz_error)
| FromORlyError (e : o_rly_error)
| FromIHasAError (e : i_has_a_error).
Definition error_from (s : error_source) : ast_error :=
  match s with
  | FromAssignmentError e => EVariableAssignment e
  | FromExpressionError e => EExpression e
  | FromHowIsIError e => EHowIsI e
  | FromImInYrError e => EImInYr e
  | FromIIzError e => EIIz e
  | FromORlyError e => EORly e
  | FromIHasAError e => EIHasA e
  end.

(** ** Nodes, src/parser/statements/mod.rs:111-191 *)
Inductive node_source : Set :=
| FromIHasA (x : i_has_a) | FromHai (x : hai) | FromImInYr (x : im_in_yr) | FromBukkitSetSlot (x : bukkit_set_slot)
| FromVariableAssignment (x : assignment) | FromVisible (x : visible) | FromFoundYr (x : found_yr) | FromWtf (x : wtf)
| FromORly (x : o_rly) | FromIIz (x : i_iz) | FromHowIzI (x : how_iz_i) | FromGtfo (x : gtfo) | FromGimmeh (x : gimmeh)
| FromExpression (x : expr) | FromError (x : ast_error) | FromKThxBye (x : kthxbye).
Definition node_from (s : node_source) : node :=
  match s with
  | FromIHasA x => NIHasA x | FromHai x => NHai x | FromImInYr x => NImInYr x | FromBukkitSetSlot x => NBukkitSetSlot x
  | FromVariableAssignment x => NVariableAssignment x | FromVisible x => NVisible x | FromFoundYr x => NFoundYr x
  | FromWtf x => NWtf x | FromORly x => NORly x | FromIIz x => NIIz x | FromHowIzI x => NHowIzI x | FromGtfo x => NGtfo x
  | FromGimmeh x => NGimmeh x | FromExpression x => NExpression x | FromError x => NASTError x | FromKThxBye x => NKThxBye x
  end.
(** [From<Result<T, ASTErrorType>> for Node], src/parser/statements/mod.rs:193-200. *)
Definition node_from_result (r : node_source + ast_error) : node :=
  match r with
  | inl val => node_from val
  | inr err => NASTError err
  end.

(** ** Blocks, src/parser/blocks.rs:19-29 and 123-130 *)
Definition block_default : block := ASTBlock [].
Definition block_of_nodes (ns : list node) : block := ASTBlock ns.
Definition block_into_iter (b : block) : list node := match b with ASTBlock ns => ns end.

(** [VariableAssignment::similar], src/parser/statements/assignment.rs:86-88:
    [todo!()], [None] stands for the panic. *)
Definition similar (a b : assignment) : option bool := None.
