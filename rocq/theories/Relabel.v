(** Specification: an AST in which every token is replaced by [f token]. *)
From Verif Require Export Parser.

Section Relabel.
Variable f : token -> token.

Definition map_identifier (i : identifier) : identifier :=
  mkIdentifier (f (id_name i)) (option_map f (id_srs i)).
Definition map_slot (s : va_slot) : va_slot :=
  mkSlot (f (slot_access_token s)) (map_identifier (slot_identifier s)).
Definition map_va (v : variable_access) : variable_access :=
  mkVA (map_identifier (va_identifier v)) (map map_slot (va_accesses v)).
Definition map_value (v : expr_value) : expr_value :=
  match v with
  | VariableAccess v => VariableAccess (map_va v)
  | LiteralValue t => LiteralValue (f t)
  end.
Definition map_binary (o : binary_opt) : binary_opt :=
  match o with
  | EitherOf t => EitherOf (f t) | WonOf t => WonOf (f t) | SumOf t => SumOf (f t)
  | DiffOf t => DiffOf (f t) | ProduktOf t => ProduktOf (f t) | QuoshuntOf t => QuoshuntOf (f t)
  | ModOf t => ModOf (f t) | BiggrOf t => BiggrOf (f t) | SmallrOf t => SmallrOf (f t)
  | BothSaem t => BothSaem (f t) | BothOf t => BothOf (f t) | Diffrint t => Diffrint (f t)
  end.
Definition map_unary (o : unary_opt) : unary_opt := match o with UNot t => UNot (f t) end.
Definition map_nary (o : nary_opt) : nary_opt :=
  match o with AllOf t => AllOf (f t) | Smoosh t => Smoosh (f t) | AnyOf t => AnyOf (f t) end.
Fixpoint map_expr (e : expr) : expr :=
  match e with
  | BinaryOperation l o r an => BinaryOperation (map_expr l) (map_binary o) (map_expr r) (option_map f an)
  | UnaryOperation o e => UnaryOperation (map_unary o) (map_expr e)
  | NaryOperation o es m => NaryOperation (map_nary o) (map map_operand es) (option_map f m)
  | Value v => Value (map_value v)
  end
with map_operand (x : operand) : operand :=
  match x with Operand e an => Operand (map_expr e) (option_map f an) end.
Definition map_type (a : ast_type) : ast_type :=
  match a with
  | TyBukkit t => TyBukkit (f t) | TyNumbr t => TyNumbr (f t) | TyNumbar t => TyNumbar (f t)
  | TyYarn t => TyYarn (f t) | TyTroof t => TyTroof (f t) | TyNoob t => TyNoob (f t)
  end.
Definition map_error (e : ast_error) : ast_error :=
  match e with
  | UnexpectedToken t => UnexpectedToken (f t)
  | TooManyTokens ts => TooManyTokens (map f ts)
  | EIHasA (InvalidIdentifier t) => EIHasA (InvalidIdentifier (f t))
  | EIHasA (MissingIdentifier t) => EIHasA (MissingIdentifier (f t))
  | EIHasA (ExpectedInitialValue t) => EIHasA (ExpectedInitialValue (f t))
  | EVariableAssignment (MissingR t) => EVariableAssignment (MissingR (f t))
  | EVariableAssignment (ExpectedValue t) => EVariableAssignment (ExpectedValue (f t))
  | EExpression (MissingOperands t) => EExpression (MissingOperands (f t))
  | MissingToken t => MissingToken (f t)
  | EORly (MissingQuestionMark t) => EORly (MissingQuestionMark (f t))
  | EORly (MissingMebbeExpression t) => EORly (MissingMebbeExpression (f t))
  | MissingBlockClosingToken t => MissingBlockClosingToken (f t)
  | EHowIsI (MissingNameIdentifier t) => EHowIsI (MissingNameIdentifier (f t))
  | EImInYr (MissingYr t) => EImInYr (MissingYr (f t))
  | EImInYr (MissingStartLabel t) => EImInYr (MissingStartLabel (f t))
  | EImInYr (InvalidStartLabel t) => EImInYr (InvalidStartLabel (f t))
  | EImInYr (MissingEndLabel t) => EImInYr (MissingEndLabel (f t))
  | EImInYr (InvalidEndLabel t) => EImInYr (InvalidEndLabel (f t))
  | EImInYr (MissingImOuttaYr t) => EImInYr (MissingImOuttaYr (f t))
  | EImInYr (InvalidOperation t) => EImInYr (InvalidOperation (f t))
  | EImInYr (MissingOperand t) => EImInYr (MissingOperand (f t))
  | EImInYr (InvalidConditional t) => EImInYr (InvalidConditional (f t))
  | EImInYr (MissingConditionalExpression t) => EImInYr (MissingConditionalExpression (f t))
  | EIIz (MissingName t) => EIIz (MissingName (f t))
  | EIIz (MissingArgument t) => EIIz (MissingArgument (f t))
  | EIIz (MissingMkay t) => EIIz (MissingMkay (f t))
  end.
Definition map_initial (i : initial_value) : initial_value :=
  match i with InitExpression e => InitExpression (map_expr e) | InitType t => InitType (map_type t) end.
Definition map_i_has_a (x : i_has_a) : i_has_a :=
  mkIHasA (f (ihasa_token x)) (map_identifier (ihasa_identifier x)) (option_map map_initial (ihasa_initial_value x)).
Definition map_hai (x : hai) : hai := mkHai (f (hai_token x)) (map f (hai_version x)).
Definition map_gimmeh (x : gimmeh) : gimmeh := mkGimmeh (f (gimmeh_token x)) (map_va (gimmeh_variable_access x)).
Definition map_found_yr (x : found_yr) : found_yr :=
  mkFoundYr (f (found_yr_token x)) (map_expr (found_yr_expression x)).
Definition map_assignment (x : assignment) : assignment :=
  mkAssignment (map_va (asg_variable_access x)) (map_expr (asg_expression x)) (f (asg_r_token x)).
Definition map_set_slot (x : bukkit_set_slot) : bukkit_set_slot :=
  mkBukkitSetSlot (map_va (bss_bukkit x)) (map_identifier (bss_slot_name x)) (map_expr (bss_value x)).
Definition map_visible (x : visible) : visible :=
  mkVisible (f (visible_token x)) (map map_expr (visible_expressions x))
            (option_map f (visible_exclamation_mark x)).
Definition map_i_iz (x : i_iz) : i_iz :=
  mkIIz (f (iiz_token x)) (map_va (iiz_name x)) (map map_expr (iiz_arguments x)).
Definition map_operation (o : loop_operation) : loop_operation :=
  match o with LUppin t => LUppin (f t) | LNerfin t => LNerfin (f t) end.
Definition map_condition (c : loop_condition) : loop_condition :=
  match c with LTil e => LTil (map_expr e) | LWile e => LWile (map_expr e) end.
Definition map_iteration (i : loop_iteration) : loop_iteration :=
  mkLoopIteration (map_operation (li_operation i)) (map_va (li_operand i)).

Fixpoint map_node (n : node) : node :=
  match n with
  | NIHasA x => NIHasA (map_i_has_a x)
  | NHai x => NHai (map_hai x)
  | NImInYr x => NImInYr (map_im_in_yr x)
  | NBukkitSetSlot x => NBukkitSetSlot (map_set_slot x)
  | NVariableAssignment x => NVariableAssignment (map_assignment x)
  | NVisible x => NVisible (map_visible x)
  | NFoundYr x => NFoundYr (map_found_yr x)
  | NWtf x => NWtf (map_wtf x)
  | NORly x => NORly (map_o_rly x)
  | NIIz x => NIIz (map_i_iz x)
  | NHowIzI x => NHowIzI (map_how_iz_i x)
  | NGtfo x => NGtfo (mkGtfo (f (gtfo_token x)))
  | NGimmeh x => NGimmeh (map_gimmeh x)
  | NExpression x => NExpression (map_expr x)
  | NASTError x => NASTError (map_error x)
  | NKThxBye x => NKThxBye (mkKthxbye (f (kthxbye_token x)))
  end
with map_block (b : block) : block :=
  match b with ASTBlock ns => ASTBlock (map map_node ns) end
with map_im_in_yr (x : im_in_yr) : im_in_yr :=
  match x with
  | ImInYr t l it c b e =>
    ImInYr (f t) (f l) (option_map map_iteration it) (option_map map_condition c) (map_block b) (f e)
  end
with map_wtf (x : wtf) : wtf :=
  match x with
  | Wtf t omgs d =>
    Wtf (f t) (map map_omg omgs) (match d with Some d => Some (map_omg_wtf d) | None => None end)
  end
with map_omg (x : wtf_omg) : wtf_omg :=
  match x with WtfOmg t e b => WtfOmg (f t) (map_expr e) (map_block b) end
with map_omg_wtf (x : wtf_omg_wtf) : wtf_omg_wtf :=
  match x with WtfOmgWtf t b => WtfOmgWtf (f t) (map_block b) end
with map_o_rly (x : o_rly) : o_rly :=
  match x with
  | ORly t yes no mebbes =>
    ORly (f t) (match yes with Some y => Some (map_ya_rly y) | None => None end)
         (match no with Some y => Some (map_no_wai y) | None => None end) (map map_mebbe mebbes)
  end
with map_ya_rly (x : ya_rly) : ya_rly := match x with YaRly t b => YaRly (f t) (map_block b) end
with map_no_wai (x : no_wai) : no_wai := match x with NoWai t b => NoWai (f t) (map_block b) end
with map_mebbe (x : mebbe) : mebbe :=
  match x with Mebbe t e b => Mebbe (f t) (map_expr e) (map_block b) end
with map_how_iz_i (x : how_iz_i) : how_iz_i :=
  match x with
  | HowIzI t i params b => HowIzI (f t) (map_identifier i) (map map_identifier params) (map_block b)
  end.

Definition map_cause (c : panic_cause) : panic_cause :=
  match c with
  | PanicMaek t => PanicMaek (f t)
  | PanicUnreachable v t => PanicUnreachable (map_va v) (f t)
  end.
Definition map_result (r : parse_result) : parse_result :=
  match r with
  | ParseOk b => ParseOk (map_block b)
  | ParsePanic c => ParsePanic (map_cause c)
  | ParseFuel => ParseFuel
  end.
End Relabel.

(** Tokens without positions. *)
Definition erase (t : token) : token := mkToken (tok_type t) (mkRange position_start position_start).

(** All the parser looks at in a token on a line: the keyword, or whether it is
    an identifier, a literal value, the symbol [?], ['Z] or [!]. *)
Inductive kind : Set := KIdentifier | KKeyword (k : keyword) | KValue | KQuestion | KSlot | KExclamation | KOther.
Definition kind_of (ty : token_type) : kind :=
  match ty with
  | TIdentifier _ => KIdentifier
  | TKeyword k => KKeyword k
  | TValue _ => KValue
  | TSymbol [c] => if N.eqb c 63 then KQuestion else KOther
  | TBukkitSlotAccess => KSlot
  | TExclamationMark => KExclamation
  | TSymbol _ | TCommentSingleLine _ | TCommentMultiLine _ | TEllipsis | TComma | TQuestionMark => KOther
  end.
Definition tok_kind (t : token) : kind := kind_of (tok_type t).

(** A token of the same kind without its text and position. *)
Definition plain (t : token) : token :=
  mkToken (match tok_kind t with
           | KIdentifier => TIdentifier []
           | KKeyword k => TKeyword k
           | KValue => TValue VNoob
           | KQuestion => TSymbol [63%N]
           | KSlot => TBukkitSlotAccess
           | KExclamation => TExclamationMark
           | KOther => TComma
           end) (mkRange position_start position_start).
