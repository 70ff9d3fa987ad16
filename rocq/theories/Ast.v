(** Model of the AST data types (files under src/parser). *)
From Verif Require Export Token.

(** src/parser/expression/identifier.rs:8-13 *)
Record identifier : Set := mkIdentifier {
  id_name : token;
  id_srs : option token
}.

(** src/parser/expression/variable_access.rs:13-16 *)
Record va_slot : Set := mkSlot {
  slot_access_token : token;
  slot_identifier : identifier
}.

(** src/parser/expression/variable_access.rs:33-39 *)
Record variable_access : Set := mkVA {
  va_identifier : identifier;
  va_accesses : list va_slot
}.

(** src/parser/expression/mod.rs:84-90 *)
Inductive expr_value : Set :=
| VariableAccess (v : variable_access)
| LiteralValue (t : token).

(** src/parser/expression/binary_operation.rs:11-73 *)
Inductive binary_opt : Set :=
| EitherOf (t : token) | WonOf (t : token) | SumOf (t : token)
| DiffOf (t : token) | ProduktOf (t : token) | QuoshuntOf (t : token)
| ModOf (t : token) | BiggrOf (t : token) | SmallrOf (t : token)
| BothSaem (t : token) | BothOf (t : token) | Diffrint (t : token).

(** src/parser/expression/binary_operation.rs:77-92 (and [into_token], 95-110) *)
Definition binary_opt_token (o : binary_opt) : token :=
  match o with
  | EitherOf t => t | WonOf t => t | SumOf t => t | DiffOf t => t
  | ProduktOf t => t | QuoshuntOf t => t | ModOf t => t | BiggrOf t => t
  | SmallrOf t => t | BothSaem t => t | BothOf t => t | Diffrint t => t
  end.

(** src/parser/expression/unary_operation.rs:8-30 *)
Inductive unary_opt : Set := UNot (t : token).
Definition unary_opt_token (o : unary_opt) : token := match o with UNot t => t end.

(** src/parser/expression/nary_operations.rs:11-47 *)
Inductive nary_opt : Set := AllOf (t : token) | Smoosh (t : token) | AnyOf (t : token).
Definition nary_opt_token (o : nary_opt) : token :=
  match o with AllOf t => t | Smoosh t => t | AnyOf t => t end.

(** src/parser/expression/mod.rs:194-203 ([ASTExpression]) with
    binary_operation.rs:170-175, unary_operation.rs:78-81,
    nary_operations.rs:148-151 and 161-165. *)
Inductive expr : Set :=
| BinaryOperation (left : expr) (operator : binary_opt) (right : expr)
                  (an_token : option token)
| UnaryOperation (operator : unary_opt) (expression : expr)
| NaryOperation (operator : nary_opt) (expressions : list operand)
                (mkay_token : option token)
| Value (v : expr_value)
with operand : Set :=
| Operand (e : expr) (an_token : option token).

(** src/parser/expression/identifier.rs:60-73 *)
Inductive ast_type : Set :=
| TyBukkit (t : token) | TyNumbr (t : token) | TyNumbar (t : token)
| TyYarn (t : token) | TyTroof (t : token) | TyNoob (t : token).

(** src/parser/expression/identifier.rs:76-85 *)
Definition ast_type_token (a : ast_type) : token :=
  match a with
  | TyBukkit t => t | TyNumbr t => t | TyNumbar t => t
  | TyYarn t => t | TyTroof t => t | TyNoob t => t
  end.

(** src/parser/expression/mod.rs:273-276 *)
Inductive expression_error : Set := MissingOperands (t : token).
(** src/parser/statements/assignment.rs:97-108 *)
Inductive assignment_error : Set := MissingR (t : token) | ExpectedValue (t : token).
(** src/parser/statements/how_is_i.rs:23-26 *)
Inductive how_is_i_error : Set := MissingNameIdentifier (t : token).
(** src/parser/statements/i_has_a.rs:19-27 *)
Inductive i_has_a_error : Set :=
| InvalidIdentifier (t : token) | MissingIdentifier (t : token)
| ExpectedInitialValue (t : token).
(** src/parser/statements/i_is.rs:23-39 *)
Inductive i_iz_error : Set :=
| MissingName (t : token) | MissingArgument (t : token) | MissingMkay (t : token).
(** src/parser/statements/im_in_yr.rs:11-62 (three variants are never built) *)
Inductive im_in_yr_error : Set :=
| MissingYr (t : token) | MissingStartLabel (t : token)
| InvalidStartLabel (t : token) | MissingEndLabel (t : token)
| InvalidEndLabel (t : token) | MissingImOuttaYr (t : token)
| InvalidOperation (t : token) | MissingOperand (t : token)
| InvalidConditional (t : token) | MissingConditionalExpression (t : token).
(** src/parser/statements/o_rly.rs:44-49 *)
Inductive o_rly_error : Set :=
| MissingQuestionMark (t : token) | MissingMebbeExpression (t : token).

(** src/parser/error.rs:14-37 *)
Inductive ast_error : Set :=
| UnexpectedToken (t : token)
| TooManyTokens (ts : list token)
| EIHasA (e : i_has_a_error)
| EVariableAssignment (e : assignment_error)
| EExpression (e : expression_error)
| MissingToken (t : token)
| EORly (e : o_rly_error)
| MissingBlockClosingToken (t : token)
| EHowIsI (e : how_is_i_error)
| EImInYr (e : im_in_yr_error)
| EIIz (e : i_iz_error).

(** src/parser/statements/i_has_a.rs:10-15 and 31-37 *)
Inductive initial_value : Set :=
| InitExpression (e : expr)
| InitType (t : ast_type).
Record i_has_a : Set := mkIHasA {
  ihasa_token : token;
  ihasa_identifier : identifier;
  ihasa_initial_value : option initial_value
}.

(** src/parser/statements/hai.rs:9-12 *)
Record hai : Set := mkHai { hai_token : token; hai_version : list token }.
(** src/parser/statements/kthxbye.rs:5-7 *)
Record kthxbye : Set := mkKthxbye { kthxbye_token : token }.
(** src/parser/statements/gtfo.rs:21-23 *)
Record gtfo : Set := mkGtfo { gtfo_token : token }.
(** src/parser/statements/gimmeh.rs:13-16 *)
Record gimmeh : Set := mkGimmeh {
  gimmeh_token : token; gimmeh_variable_access : variable_access }.
(** src/parser/statements/found_yr.rs:16-19 *)
Record found_yr : Set := mkFoundYr {
  found_yr_token : token; found_yr_expression : expr }.
(** src/parser/statements/assignment.rs:70-77 *)
Record assignment : Set := mkAssignment {
  asg_variable_access : variable_access;
  asg_expression : expr;
  asg_r_token : token
}.
(** src/parser/statements/bukkit_set_slot.rs:12-19 *)
Record bukkit_set_slot : Set := mkBukkitSetSlot {
  bss_bukkit : variable_access;
  bss_slot_name : identifier;
  bss_value : expr
}.
(** src/parser/statements/visible.rs:11-15 *)
Record visible : Set := mkVisible {
  visible_token : token;
  visible_expressions : list expr;
  visible_exclamation_mark : option token
}.
(** src/parser/statements/i_is.rs:11-19 *)
Record i_iz : Set := mkIIz {
  iiz_token : token;
  iiz_name : variable_access;
  iiz_arguments : list expr
}.
(** src/parser/statements/im_in_yr.rs:66-71, 84-89, 93-98 *)
Inductive loop_operation : Set := LUppin (t : token) | LNerfin (t : token).
Definition loop_operation_token (o : loop_operation) : token :=
  match o with LNerfin t => t | LUppin t => t end.
Inductive loop_condition : Set := LTil (e : expr) | LWile (e : expr).
Record loop_iteration : Set := mkLoopIteration {
  li_operation : loop_operation; li_operand : variable_access }.

(** src/parser/statements/mod.rs:92-109 ([Node]),
    src/parser/blocks.rs:17 ([ASTBlock]),
    src/parser/statements/im_in_yr.rs:127-139,
    src/parser/statements/wtf.rs:12-32,
    src/parser/statements/o_rly.rs:10-40,
    src/parser/statements/how_is_i.rs:11-19. *)
Inductive node : Set :=
| NIHasA (x : i_has_a)
| NHai (x : hai)
| NImInYr (x : im_in_yr)
| NBukkitSetSlot (x : bukkit_set_slot)
| NVariableAssignment (x : assignment)
| NVisible (x : visible)
| NFoundYr (x : found_yr)
| NWtf (x : wtf)
| NORly (x : o_rly)
| NIIz (x : i_iz)
| NHowIzI (x : how_iz_i)
| NGtfo (x : gtfo)
| NGimmeh (x : gimmeh)
| NExpression (x : expr)
| NASTError (x : ast_error)
| NKThxBye (x : kthxbye)
with block : Set :=
| ASTBlock (nodes : list node)
with im_in_yr : Set :=
| ImInYr (im_in_yr_token label : token)
         (on_iteration : option loop_iteration)
         (condition : option loop_condition)
         (code_block : block) (end_label : token)
with wtf : Set :=
| Wtf (wtf_token : token) (omg : list wtf_omg) (omg_wtf : option wtf_omg_wtf)
with wtf_omg : Set :=
| WtfOmg (omg_token : token) (expression : expr) (b : block)
with wtf_omg_wtf : Set :=
| WtfOmgWtf (omg_wtf_token : token) (b : block)
with o_rly : Set :=
| ORly (o_rly_token : token) (if_true : option ya_rly)
       (if_false : option no_wai) (mebbes : list mebbe)
with ya_rly : Set :=
| YaRly (ya_rly_token : token) (b : block)
with no_wai : Set :=
| NoWai (no_wai_token : token) (b : block)
with mebbe : Set :=
| Mebbe (mebbe_token : token) (condition : expr) (b : block)
with how_iz_i : Set :=
| HowIzI (how_iz_i_token : token) (name : identifier)
         (arguments : list identifier) (body : block).

Definition block_nodes (b : block) : list node := match b with ASTBlock l => l end.
