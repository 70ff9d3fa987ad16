(** Model of the derived [PartialEq] implementations.  [#[derive(PartialEq)]]
    compares the variants and then all fields in turn; [VecDeque] and [Vec]
    compare lengths and elements, [Option] and [Box] their contents. *)
From Verif Require Export Ast.
Local Open Scope bool_scope.

(** ** Standard library types *)

(** [==] of [Vec]/[VecDeque] *)
Section ListEq.
  Context {A : Type}.
  Variable eqb : A -> A -> bool.
  Fixpoint list_eqb (l l' : list A) : bool :=
    match l, l' with
    | [], [] => true
    | x :: m, x' :: m' => eqb x x' && list_eqb m m'
    | _, _ => false
    end.
  (** [==] of [Option] *)
  Definition option_eqb (o o' : option A) : bool :=
    match o, o' with
    | Some x, Some x' => eqb x x'
    | None, None => true
    | _, _ => false
    end.
End ListEq.

(** [==] of [String]: the same characters. *)
Definition str_eqb (s s' : str) : bool := list_eqb N.eqb s s'.

(** ** Tokens *)

(** [PartialEq for Range], src/lexer/range.rs:26-30; that of [Position],
    src/lexer/position.rs:27-31, is [position_eqb]. *)
Definition range_eqb (r r' : range) : bool :=
  position_eqb (r_start r) (r_start r') && position_eqb (r_end r) (r_end r').

(** src/lexer/token.rs:7; [==] of [f32] is [SFeqb] of the standard library. *)
Definition number_token_eqb (n n' : number_token) : bool :=
  match n, n' with
  | Int z, Int z' => Z.eqb z z'
  | Float x, Float x' => SFeqb x x'
  | _, _ => false
  end.

(** src/lexer/token.rs:16 *)
Definition token_value_eqb (v v' : token_value) : bool :=
  match v, v' with
  | VNumber n, VNumber n' => number_token_eqb n n'
  | VString s, VString s' => str_eqb s s'
  | VBoolean b, VBoolean b' => Bool.eqb b b'
  | VNoob, VNoob => true
  | _, _ => false
  end.

(** src/lexer/token.rs:29 *)
Definition token_type_eqb (t t' : token_type) : bool :=
  match t, t' with
  | TIdentifier s, TIdentifier s' => str_eqb s s'
  | TKeyword k, TKeyword k' => keyword_eqb k k'
  | TSymbol s, TSymbol s' => str_eqb s s'
  | TValue v, TValue v' => token_value_eqb v v'
  | TCommentSingleLine s, TCommentSingleLine s' => str_eqb s s'
  | TCommentMultiLine s, TCommentMultiLine s' => str_eqb s s'
  | TBukkitSlotAccess, TBukkitSlotAccess => true
  | TEllipsis, TEllipsis => true
  | TComma, TComma => true
  | TExclamationMark, TExclamationMark => true
  | TQuestionMark, TQuestionMark => true
  | _, _ => false
  end.

(** src/lexer/token.rs:65 *)
Definition token_eqb (t t' : token) : bool :=
  token_type_eqb (tok_type t) (tok_type t') && range_eqb (tok_range t) (tok_range t').

(** src/lexer/token.rs:58 *)
Definition token_error_eqb (e e' : token_error) : bool :=
  match e, e' with UnclosedMultilineComment r, UnclosedMultilineComment r' => range_eqb r r' end.

(** ** Expressions *)

(** src/parser/expression/identifier.rs:7 *)
Definition identifier_eqb (i i' : identifier) : bool :=
  token_eqb (id_name i) (id_name i') && option_eqb token_eqb (id_srs i) (id_srs i').

(** src/parser/expression/variable_access.rs:12 *)
Definition slot_eqb (s s' : va_slot) : bool :=
  token_eqb (slot_access_token s) (slot_access_token s') &&
  identifier_eqb (slot_identifier s) (slot_identifier s').

(** src/parser/expression/variable_access.rs:32 *)
Definition va_eqb (v v' : variable_access) : bool :=
  identifier_eqb (va_identifier v) (va_identifier v') &&
  list_eqb slot_eqb (va_accesses v) (va_accesses v').

(** src/parser/expression/mod.rs:83 *)
Definition value_eqb (v v' : expr_value) : bool :=
  match v, v' with
  | VariableAccess a, VariableAccess a' => va_eqb a a'
  | LiteralValue t, LiteralValue t' => token_eqb t t'
  | _, _ => false
  end.

(** src/parser/expression/binary_operation.rs:10 *)
Definition binary_opt_eqb (o o' : binary_opt) : bool :=
  match o, o' with
  | EitherOf t, EitherOf t' | WonOf t, WonOf t' | SumOf t, SumOf t'
  | DiffOf t, DiffOf t' | ProduktOf t, ProduktOf t' | QuoshuntOf t, QuoshuntOf t'
  | ModOf t, ModOf t' | BiggrOf t, BiggrOf t' | SmallrOf t, SmallrOf t'
  | BothSaem t, BothSaem t' | BothOf t, BothOf t' | Diffrint t, Diffrint t' => token_eqb t t'
  | _, _ => false
  end.

(** src/parser/expression/unary_operation.rs:7 *)
Definition unary_opt_eqb (o o' : unary_opt) : bool :=
  match o, o' with UNot t, UNot t' => token_eqb t t' end.

(** src/parser/expression/nary_operations.rs:10 *)
Definition nary_opt_eqb (o o' : nary_opt) : bool :=
  match o, o' with
  | AllOf t, AllOf t' | Smoosh t, Smoosh t' | AnyOf t, AnyOf t' => token_eqb t t'
  | _, _ => false
  end.

(** src/parser/expression/mod.rs:193, binary_operation.rs:169,
    unary_operation.rs:77, nary_operations.rs:147 and 160 *)
Fixpoint expr_eqb (e e' : expr) : bool :=
  match e, e' with
  | BinaryOperation l o r an, BinaryOperation l' o' r' an' =>
    expr_eqb l l' && binary_opt_eqb o o' && expr_eqb r r' && option_eqb token_eqb an an'
  | UnaryOperation o x, UnaryOperation o' x' => unary_opt_eqb o o' && expr_eqb x x'
  | NaryOperation o es mkay, NaryOperation o' es' mkay' =>
    nary_opt_eqb o o' && list_eqb operand_eqb es es' && option_eqb token_eqb mkay mkay'
  | Value v, Value v' => value_eqb v v'
  | _, _ => false
  end
with operand_eqb (x x' : operand) : bool :=
  match x, x' with
  | Operand e an, Operand e' an' => expr_eqb e e' && option_eqb token_eqb an an'
  end.

(** src/parser/expression/identifier.rs:59 *)
Definition ast_type_eqb (a a' : ast_type) : bool :=
  match a, a' with
  | TyBukkit t, TyBukkit t' | TyNumbr t, TyNumbr t' | TyNumbar t, TyNumbar t'
  | TyYarn t, TyYarn t' | TyTroof t, TyTroof t' | TyNoob t, TyNoob t' => token_eqb t t'
  | _, _ => false
  end.

(** ** Errors: src/parser/error.rs:13, src/parser/expression/mod.rs:272,
    src/parser/statements/{assignment.rs:96, how_is_i.rs:22, i_has_a.rs:18,
    i_is.rs:22, im_in_yr.rs:10, o_rly.rs:43} *)
Definition error_eqb (e e' : ast_error) : bool :=
  match e, e' with
  | UnexpectedToken t, UnexpectedToken t' => token_eqb t t'
  | TooManyTokens l, TooManyTokens l' => list_eqb token_eqb l l'
  | EIHasA x, EIHasA x' =>
    match x, x' with
    | InvalidIdentifier t, InvalidIdentifier t' | MissingIdentifier t, MissingIdentifier t'
    | ExpectedInitialValue t, ExpectedInitialValue t' => token_eqb t t'
    | _, _ => false
    end
  | EVariableAssignment x, EVariableAssignment x' =>
    match x, x' with
    | MissingR t, MissingR t' | ExpectedValue t, ExpectedValue t' => token_eqb t t'
    | _, _ => false
    end
  | EExpression x, EExpression x' =>
    match x, x' with MissingOperands t, MissingOperands t' => token_eqb t t' end
  | MissingToken t, MissingToken t' => token_eqb t t'
  | EORly x, EORly x' =>
    match x, x' with
    | MissingQuestionMark t, MissingQuestionMark t'
    | MissingMebbeExpression t, MissingMebbeExpression t' => token_eqb t t'
    | _, _ => false
    end
  | MissingBlockClosingToken t, MissingBlockClosingToken t' => token_eqb t t'
  | EHowIsI x, EHowIsI x' =>
    match x, x' with MissingNameIdentifier t, MissingNameIdentifier t' => token_eqb t t' end
  | EImInYr x, EImInYr x' =>
    match x, x' with
    | MissingYr t, MissingYr t' | MissingStartLabel t, MissingStartLabel t'
    | InvalidStartLabel t, InvalidStartLabel t' | MissingEndLabel t, MissingEndLabel t'
    | InvalidEndLabel t, InvalidEndLabel t' | MissingImOuttaYr t, MissingImOuttaYr t'
    | InvalidOperation t, InvalidOperation t' | MissingOperand t, MissingOperand t'
    | InvalidConditional t, InvalidConditional t'
    | MissingConditionalExpression t, MissingConditionalExpression t' => token_eqb t t'
    | _, _ => false
    end
  | EIIz x, EIIz x' =>
    match x, x' with
    | MissingName t, MissingName t' | MissingArgument t, MissingArgument t'
    | MissingMkay t, MissingMkay t' => token_eqb t t'
    | _, _ => false
    end
  | _, _ => false
  end.

(** ** Statements *)

(** src/parser/statements/i_has_a.rs:9 and 30 *)
Definition initial_value_eqb (i i' : initial_value) : bool :=
  match i, i' with
  | InitExpression e, InitExpression e' => expr_eqb e e'
  | InitType t, InitType t' => ast_type_eqb t t'
  | _, _ => false
  end.
Definition i_has_a_eqb (x y : i_has_a) : bool :=
  token_eqb (ihasa_token x) (ihasa_token y) &&
  identifier_eqb (ihasa_identifier x) (ihasa_identifier y) &&
  option_eqb initial_value_eqb (ihasa_initial_value x) (ihasa_initial_value y).
(** src/parser/statements/hai.rs:8 *)
Definition hai_eqb (x y : hai) : bool :=
  token_eqb (hai_token x) (hai_token y) && list_eqb token_eqb (hai_version x) (hai_version y).
(** src/parser/statements/gimmeh.rs:12 *)
Definition gimmeh_eqb (x y : gimmeh) : bool :=
  token_eqb (gimmeh_token x) (gimmeh_token y) &&
  va_eqb (gimmeh_variable_access x) (gimmeh_variable_access y).
(** src/parser/statements/found_yr.rs:15 *)
Definition found_yr_eqb (x y : found_yr) : bool :=
  token_eqb (found_yr_token x) (found_yr_token y) &&
  expr_eqb (found_yr_expression x) (found_yr_expression y).
(** src/parser/statements/assignment.rs:69 *)
Definition assignment_eqb (x y : assignment) : bool :=
  va_eqb (asg_variable_access x) (asg_variable_access y) &&
  expr_eqb (asg_expression x) (asg_expression y) &&
  token_eqb (asg_r_token x) (asg_r_token y).
(** src/parser/statements/bukkit_set_slot.rs:11 *)
Definition set_slot_eqb (x y : bukkit_set_slot) : bool :=
  va_eqb (bss_bukkit x) (bss_bukkit y) &&
  identifier_eqb (bss_slot_name x) (bss_slot_name y) &&
  expr_eqb (bss_value x) (bss_value y).
(** src/parser/statements/visible.rs:10 *)
Definition visible_eqb (x y : visible) : bool :=
  token_eqb (visible_token x) (visible_token y) &&
  list_eqb expr_eqb (visible_expressions x) (visible_expressions y) &&
  option_eqb token_eqb (visible_exclamation_mark x) (visible_exclamation_mark y).
(** src/parser/statements/i_is.rs:10 *)
Definition i_iz_eqb (x y : i_iz) : bool :=
  token_eqb (iiz_token x) (iiz_token y) &&
  va_eqb (iiz_name x) (iiz_name y) &&
  list_eqb expr_eqb (iiz_arguments x) (iiz_arguments y).
(** src/parser/statements/im_in_yr.rs:64, 83, 91 *)
Definition operation_eqb (o o' : loop_operation) : bool :=
  match o, o' with
  | LUppin t, LUppin t' | LNerfin t, LNerfin t' => token_eqb t t'
  | _, _ => false
  end.
Definition condition_eqb (c c' : loop_condition) : bool :=
  match c, c' with
  | LTil e, LTil e' | LWile e, LWile e' => expr_eqb e e'
  | _, _ => false
  end.
Definition iteration_eqb (x y : loop_iteration) : bool :=
  operation_eqb (li_operation x) (li_operation y) && va_eqb (li_operand x) (li_operand y).

(** src/parser/statements/mod.rs:91, src/parser/blocks.rs:16,
    src/parser/statements/{im_in_yr.rs:126, wtf.rs:11, 18 and 25,
    o_rly.rs:9, 15, 21 and 29, how_is_i.rs:10, gtfo.rs:20, kthxbye.rs:4} *)
Fixpoint node_eqb (n n' : node) : bool :=
  match n, n' with
  | NIHasA x, NIHasA y => i_has_a_eqb x y
  | NHai x, NHai y => hai_eqb x y
  | NImInYr x, NImInYr y => im_in_yr_eqb x y
  | NBukkitSetSlot x, NBukkitSetSlot y => set_slot_eqb x y
  | NVariableAssignment x, NVariableAssignment y => assignment_eqb x y
  | NVisible x, NVisible y => visible_eqb x y
  | NFoundYr x, NFoundYr y => found_yr_eqb x y
  | NWtf x, NWtf y => wtf_eqb x y
  | NORly x, NORly y => o_rly_eqb x y
  | NIIz x, NIIz y => i_iz_eqb x y
  | NHowIzI x, NHowIzI y => how_iz_i_eqb x y
  | NGtfo x, NGtfo y => token_eqb (gtfo_token x) (gtfo_token y)
  | NGimmeh x, NGimmeh y => gimmeh_eqb x y
  | NExpression x, NExpression y => expr_eqb x y
  | NASTError x, NASTError y => error_eqb x y
  | NKThxBye x, NKThxBye y => token_eqb (kthxbye_token x) (kthxbye_token y)
  | _, _ => false
  end
with block_eqb (b b' : block) : bool :=
  match b, b' with ASTBlock ns, ASTBlock ns' => list_eqb node_eqb ns ns' end
with im_in_yr_eqb (x y : im_in_yr) : bool :=
  match x, y with
  | ImInYr t l it c b e, ImInYr t' l' it' c' b' e' =>
    token_eqb t t' && token_eqb l l' && option_eqb iteration_eqb it it' &&
    option_eqb condition_eqb c c' && block_eqb b b' && token_eqb e e'
  end
with wtf_eqb (x y : wtf) : bool :=
  match x, y with
  | Wtf t omgs d, Wtf t' omgs' d' =>
    token_eqb t t' && list_eqb wtf_omg_eqb omgs omgs' && option_eqb wtf_omg_wtf_eqb d d'
  end
with wtf_omg_eqb (x y : wtf_omg) : bool :=
  match x, y with
  | WtfOmg t e b, WtfOmg t' e' b' => token_eqb t t' && expr_eqb e e' && block_eqb b b'
  end
with wtf_omg_wtf_eqb (x y : wtf_omg_wtf) : bool :=
  match x, y with WtfOmgWtf t b, WtfOmgWtf t' b' => token_eqb t t' && block_eqb b b' end
with o_rly_eqb (x y : o_rly) : bool :=
  match x, y with
  | ORly t yes no mebbes, ORly t' yes' no' mebbes' =>
    token_eqb t t' && option_eqb ya_rly_eqb yes yes' && option_eqb no_wai_eqb no no' &&
    list_eqb mebbe_eqb mebbes mebbes'
  end
with ya_rly_eqb (x y : ya_rly) : bool :=
  match x, y with YaRly t b, YaRly t' b' => token_eqb t t' && block_eqb b b' end
with no_wai_eqb (x y : no_wai) : bool :=
  match x, y with NoWai t b, NoWai t' b' => token_eqb t t' && block_eqb b b' end
with mebbe_eqb (x y : mebbe) : bool :=
  match x, y with
  | Mebbe t e b, Mebbe t' e' b' => token_eqb t t' && expr_eqb e e' && block_eqb b b'
  end
with how_iz_i_eqb (x y : how_iz_i) : bool :=
  match x, y with
  | HowIzI t i params b, HowIzI t' i' params' b' =>
    token_eqb t t' && identifier_eqb i i' && list_eqb identifier_eqb params params' && block_eqb b b'
  end.
