(** Specification: how deep an AST is.

    One level for each operator of an expression and its operands, for each
    statement with a keyword of its own, and for each section of a statement
    (OMG, OMGWTF, YA RLY, MEBBE, NO WAI). *)
From Coq Require Import String.
From Verif Require Export Ast.

Section Deepest.
Context {A : Type} (depth : A -> nat).
Fixpoint deepest (l : list A) : nat :=
  match l with
  | [] => 0
  | x :: l' => Nat.max (depth x) (deepest l')
  end.
End Deepest.

Fixpoint expr_depth (e : expr) : nat :=
  match e with
  | BinaryOperation l _ r _ => 1 + Nat.max (expr_depth l) (expr_depth r)
  | UnaryOperation _ e => 1 + expr_depth e
  | NaryOperation _ es _ => 1 + deepest operand_depth es
  | Value _ => 1
  end
with operand_depth (x : operand) : nat :=
  match x with Operand e _ => expr_depth e end.

Definition initial_depth (i : option initial_value) : nat :=
  match i with
  | Some (InitExpression e) => expr_depth e
  | _ => 0
  end.

Definition condition_depth (c : option loop_condition) : nat :=
  match c with
  | Some (LTil e) | Some (LWile e) => expr_depth e
  | None => 0
  end.

Fixpoint node_depth (n : node) : nat :=
  match n with
  | NIHasA x => 1 + initial_depth (ihasa_initial_value x)
  | NHai _ | NGtfo _ | NKThxBye _ | NGimmeh _ => 1
  | NImInYr (ImInYr _ _ _ c b _) => 1 + Nat.max (condition_depth c) (block_depth b)
  | NBukkitSetSlot x => 1 + expr_depth (bss_value x)
  | NVariableAssignment x => 1 + expr_depth (asg_expression x)
  | NVisible x => 1 + deepest expr_depth (visible_expressions x)
  | NFoundYr x => 1 + expr_depth (found_yr_expression x)
  | NWtf (Wtf _ omgs d) =>
    1 + Nat.max (deepest omg_depth omgs)
                (match d with Some (WtfOmgWtf _ b) => 1 + block_depth b | None => 0 end)
  | NORly (ORly _ yes no mebbes) =>
    1 + Nat.max (match yes with Some (YaRly _ b) => 1 + block_depth b | None => 0 end)
        (Nat.max (match no with Some (NoWai _ b) => 1 + block_depth b | None => 0 end)
                 (deepest mebbe_depth mebbes))
  | NIIz x => 1 + deepest expr_depth (iiz_arguments x)
  | NHowIzI (HowIzI _ _ _ b) => 1 + block_depth b
  | NExpression e => expr_depth e
  | NASTError _ => 0
  end
with block_depth (b : block) : nat :=
  match b with ASTBlock ns => deepest node_depth ns end
with omg_depth (x : wtf_omg) : nat :=
  match x with WtfOmg _ e b => 1 + Nat.max (expr_depth e) (block_depth b) end
with mebbe_depth (x : mebbe) : nat :=
  match x with Mebbe _ e b => 1 + Nat.max (expr_depth e) (block_depth b) end.

(** ** Deep sources *)

(** NOT, [n] times, and [x] *)
Definition nots_source (n : nat) : str :=
  concat (repeat (lit "NOT" ++ [9%N]) n) ++ lit "x" ++ [10%N].

(** [n] loops in each other *)
Definition loops_source (n : nat) : str :=
  concat (repeat (lit "IM IN YR" ++ [9%N] ++ lit "a" ++ [10%N]) n) ++
  lit "GTFO" ++ [10%N] ++
  concat (repeat (lit "IM OUTTA YR" ++ [9%N] ++ lit "a" ++ [10%N]) n).
