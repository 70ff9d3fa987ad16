(** Specification: the parts of an AST that have a [range] method (identifiers,
    variable accesses, expressions, assignments), how they are nested, and what
    it means for ranges to be nested and in order. *)
From Coq Require Import ZArith.
From Verif Require Export TokIter LexPropSpec.
Local Open Scope Z_scope.

(** Positions by their byte offset. *)
Definition within (r s : position * position) : Prop :=
  bytes (fst s) <= bytes (fst r) /\ bytes (snd r) <= bytes (snd s).
Definition before (r s : position * position) : Prop := bytes (snd r) <= bytes (fst s).

(** The range covers the text [raw], which [a] precedes and [b] follows. *)
Definition covers (r : position * position) (code a raw b : str) : Prop :=
  code = a ++ raw ++ b /\ raw <> [] /\
  bytes (fst r) = Z.of_nat (byte_len a) /\ chars (fst r) = Z.of_nat (length a) /\
  bytes (snd r) = Z.of_nat (byte_len (a ++ raw)) /\ chars (snd r) = Z.of_nat (length (a ++ raw)).

Inductive part : Set :=
| PIdentifier (i : identifier)
| PAccess (v : variable_access)
| PExpr (e : expr)
| PAssignment (a : assignment).

(** What the [range] method of the code returns. *)
Definition part_range (p : part) : position * position :=
  match p with
  | PIdentifier i => identifier_range i
  | PAccess v => va_range v
  | PExpr e => expr_range e
  | PAssignment a => assignment_range a
  end.

(** The parts directly inside a part, in source order. *)
Definition children (p : part) : list part :=
  match p with
  | PIdentifier _ => []
  | PAccess v => PIdentifier (va_identifier v) :: map (fun s => PIdentifier (slot_identifier s)) (va_accesses v)
  | PExpr (BinaryOperation l _ r _) => [PExpr l; PExpr r]
  | PExpr (UnaryOperation _ e) => [PExpr e]
  | PExpr (NaryOperation _ es _) => map (fun x => match x with Operand e _ => PExpr e end) es
  | PExpr (Value (VariableAccess v)) => [PAccess v]
  | PExpr (Value (LiteralValue _)) => []
  | PAssignment a => [PAccess (asg_variable_access a); PExpr (asg_expression a)]
  end.

(** [part_of p q]: [p] is [q] or occurs in it. *)
Inductive part_of : part -> part -> Prop :=
| part_refl p : part_of p p
| part_step p q r : part_of p q -> In q (children r) -> part_of p r.

(** The outermost parts of an AST, in source order. *)
Definition initial_parts (i : option initial_value) : list part :=
  match i with Some (InitExpression e) => [PExpr e] | _ => [] end.
Definition iteration_parts (x : option loop_iteration) : list part :=
  match x with Some i => [PAccess (li_operand i)] | None => [] end.
Definition condition_parts (x : option loop_condition) : list part :=
  match x with Some (LTil e) | Some (LWile e) => [PExpr e] | None => [] end.

Fixpoint node_parts (n : node) : list part :=
  match n with
  | NIHasA x => PIdentifier (ihasa_identifier x) :: initial_parts (ihasa_initial_value x)
  | NImInYr x => im_in_yr_parts x
  | NBukkitSetSlot x => [PAccess (bss_bukkit x); PIdentifier (bss_slot_name x); PExpr (bss_value x)]
  | NVariableAssignment x => [PAssignment x]
  | NVisible x => map PExpr (visible_expressions x)
  | NFoundYr x => [PExpr (found_yr_expression x)]
  | NWtf x => wtf_parts x
  | NORly x => o_rly_parts x
  | NIIz x => PAccess (iiz_name x) :: map PExpr (iiz_arguments x)
  | NHowIzI x => how_iz_i_parts x
  | NGimmeh x => [PAccess (gimmeh_variable_access x)]
  | NExpression x => [PExpr x]
  | NHai _ | NGtfo _ | NASTError _ | NKThxBye _ => []
  end
with block_parts (b : block) : list part :=
  match b with ASTBlock ns => flat_map node_parts ns end
with im_in_yr_parts (x : im_in_yr) : list part :=
  match x with ImInYr _ _ it cond b _ => iteration_parts it ++ condition_parts cond ++ block_parts b end
with wtf_parts (x : wtf) : list part :=
  match x with
  | Wtf _ omgs default =>
    flat_map wtf_omg_parts omgs ++ match default with Some d => wtf_omg_wtf_parts d | None => [] end
  end
with wtf_omg_parts (x : wtf_omg) : list part :=
  match x with WtfOmg _ e b => PExpr e :: block_parts b end
with wtf_omg_wtf_parts (x : wtf_omg_wtf) : list part :=
  match x with WtfOmgWtf _ b => block_parts b end
with o_rly_parts (x : o_rly) : list part :=
  match x with
  | ORly _ yes no mebbes =>
    match yes with Some y => ya_rly_parts y | None => [] end ++
    flat_map mebbe_parts mebbes ++
    match no with Some y => no_wai_parts y | None => [] end
  end
with ya_rly_parts (x : ya_rly) : list part := match x with YaRly _ b => block_parts b end
with no_wai_parts (x : no_wai) : list part := match x with NoWai _ b => block_parts b end
with mebbe_parts (x : mebbe) : list part := match x with Mebbe _ e b => PExpr e :: block_parts b end
with how_iz_i_parts (x : how_iz_i) : list part :=
  match x with HowIzI _ i params b => PIdentifier i :: map PIdentifier params ++ block_parts b end.
