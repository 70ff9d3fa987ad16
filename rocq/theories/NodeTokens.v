(** Specification: the tokens stored in nodes, in source order, and the errors
    stored in nodes. *)
From Verif Require Export AstTokens.

Definition error_tokens (e : ast_error) : list token :=
  match e with
  | UnexpectedToken t => [t]
  | TooManyTokens ts => ts
  | EIHasA (InvalidIdentifier t) | EIHasA (MissingIdentifier t) | EIHasA (ExpectedInitialValue t) => [t]
  | EVariableAssignment (MissingR t) | EVariableAssignment (ExpectedValue t) => [t]
  | EExpression (MissingOperands t) => [t]
  | MissingToken t => [t]
  | EORly (MissingQuestionMark t) | EORly (MissingMebbeExpression t) => [t]
  | MissingBlockClosingToken t => [t]
  | EHowIsI (MissingNameIdentifier t) => [t]
  | EImInYr (MissingYr t) | EImInYr (MissingStartLabel t) | EImInYr (InvalidStartLabel t)
  | EImInYr (MissingEndLabel t) | EImInYr (InvalidEndLabel t) | EImInYr (MissingImOuttaYr t)
  | EImInYr (InvalidOperation t) | EImInYr (MissingOperand t) | EImInYr (InvalidConditional t)
  | EImInYr (MissingConditionalExpression t) => [t]
  | EIIz (MissingName t) | EIIz (MissingArgument t) | EIIz (MissingMkay t) => [t]
  end.

Definition initial_tokens (i : option initial_value) : list token :=
  match i with
  | Some (InitExpression e) => expr_tokens e
  | Some (InitType ty) => [ast_type_token ty]
  | None => []
  end.
Definition i_has_a_tokens (x : i_has_a) : list token :=
  ihasa_token x :: identifier_tokens (ihasa_identifier x) ++ initial_tokens (ihasa_initial_value x).
Definition set_slot_tokens (x : bukkit_set_slot) : list token :=
  va_tokens (bss_bukkit x) ++ identifier_tokens (bss_slot_name x) ++ expr_tokens (bss_value x).
Definition visible_tokens (x : visible) : list token :=
  visible_token x :: flat_map expr_tokens (visible_expressions x) ++ opt_token (visible_exclamation_mark x).
Definition found_yr_tokens (x : found_yr) : list token := found_yr_token x :: expr_tokens (found_yr_expression x).
Definition gimmeh_tokens (x : gimmeh) : list token := gimmeh_token x :: va_tokens (gimmeh_variable_access x).
Definition i_iz_tokens (x : i_iz) : list token :=
  iiz_token x :: va_tokens (iiz_name x) ++ flat_map expr_tokens (iiz_arguments x).
Definition hai_tokens (x : hai) : list token := hai_token x :: hai_version x.
Definition iteration_tokens (x : option loop_iteration) : list token :=
  match x with Some i => loop_operation_token (li_operation i) :: va_tokens (li_operand i) | None => [] end.
Definition condition_tokens (x : option loop_condition) : list token :=
  match x with Some (LTil e) | Some (LWile e) => expr_tokens e | None => [] end.

Fixpoint node_tokens (n : node) : list token :=
  match n with
  | NIHasA x => i_has_a_tokens x
  | NHai x => hai_tokens x
  | NImInYr x => im_in_yr_tokens x
  | NBukkitSetSlot x => set_slot_tokens x
  | NVariableAssignment x => assignment_tokens x
  | NVisible x => visible_tokens x
  | NFoundYr x => found_yr_tokens x
  | NWtf x => wtf_tokens x
  | NORly x => o_rly_tokens x
  | NIIz x => i_iz_tokens x
  | NHowIzI x => how_iz_i_tokens x
  | NGtfo x => [gtfo_token x]
  | NGimmeh x => gimmeh_tokens x
  | NExpression x => expr_tokens x
  | NASTError x => error_tokens x
  | NKThxBye x => [kthxbye_token x]
  end
with block_tokens (b : block) : list token :=
  match b with ASTBlock ns => flat_map node_tokens ns end
with im_in_yr_tokens (x : im_in_yr) : list token :=
  match x with
  | ImInYr t label it cond b el =>
    t :: label :: iteration_tokens it ++ condition_tokens cond ++ block_tokens b ++ [el]
  end
with wtf_tokens (x : wtf) : list token :=
  match x with
  | Wtf t omgs default =>
    t :: flat_map wtf_omg_tokens omgs ++ match default with Some d => wtf_omg_wtf_tokens d | None => [] end
  end
with wtf_omg_tokens (x : wtf_omg) : list token :=
  match x with WtfOmg t e b => t :: expr_tokens e ++ block_tokens b end
with wtf_omg_wtf_tokens (x : wtf_omg_wtf) : list token :=
  match x with WtfOmgWtf t b => t :: block_tokens b end
with o_rly_tokens (x : o_rly) : list token :=
  match x with
  | ORly t yes no mebbes =>
    t :: match yes with Some y => ya_rly_tokens y | None => [] end ++
      flat_map mebbe_tokens mebbes ++
      match no with Some y => no_wai_tokens y | None => [] end
  end
with ya_rly_tokens (x : ya_rly) : list token := match x with YaRly t b => t :: block_tokens b end
with no_wai_tokens (x : no_wai) : list token := match x with NoWai t b => t :: block_tokens b end
with mebbe_tokens (x : mebbe) : list token :=
  match x with Mebbe t e b => t :: expr_tokens e ++ block_tokens b end
with how_iz_i_tokens (x : how_iz_i) : list token :=
  match x with
  | HowIzI t i params b => t :: identifier_tokens i ++ flat_map identifier_tokens params ++ block_tokens b
  end.

(** The nodes of an AST at any depth, in source order: a node comes before the
    nodes of its blocks. *)
Fixpoint node_all (n : node) : list node :=
  n ::
  match n with
  | NImInYr (ImInYr _ _ _ _ b _) => block_all b
  | NWtf (Wtf _ omgs default) =>
    flat_map (fun x => match x with WtfOmg _ _ b => block_all b end) omgs ++
    match default with Some (WtfOmgWtf _ b) => block_all b | None => [] end
  | NORly (ORly _ yes no mebbes) =>
    match yes with Some (YaRly _ b) => block_all b | None => [] end ++
    flat_map (fun x => match x with Mebbe _ _ b => block_all b end) mebbes ++
    match no with Some (NoWai _ b) => block_all b | None => [] end
  | NHowIzI (HowIzI _ _ _ b) => block_all b
  | _ => []
  end
with block_all (b : block) : list node :=
  match b with ASTBlock ns => flat_map node_all ns end.

(** The errors of an AST. *)
Definition node_error (n : node) : list ast_error := match n with NASTError e => [e] | _ => [] end.
Definition block_errors (b : block) : list ast_error := flat_map node_error (block_all b).

(** Subsequences. *)
Inductive Subseq {A} : list A -> list A -> Prop :=
| sub_nil l : Subseq [] l
| sub_take x a b : Subseq a b -> Subseq (x :: a) (x :: b)
| sub_skip x a b : Subseq a b -> Subseq a (x :: b).
