(** Specification: the tokens of an AST value in source order, independently of
    the iterators of the code. *)
From Verif Require Export Ast.

Definition identifier_tokens (i : identifier) : list token :=
  match id_srs i with Some s => [s] | None => [] end ++ [id_name i].

Definition slot_tokens (s : va_slot) : list token :=
  slot_access_token s :: identifier_tokens (slot_identifier s).

Definition va_tokens (v : variable_access) : list token :=
  identifier_tokens (va_identifier v) ++ flat_map slot_tokens (va_accesses v).

Definition value_tokens (v : expr_value) : list token :=
  match v with
  | VariableAccess v => va_tokens v
  | LiteralValue t => [t]
  end.

Definition opt_token (o : option token) : list token :=
  match o with Some t => [t] | None => [] end.

Fixpoint expr_tokens (e : expr) : list token :=
  match e with
  | BinaryOperation l o r an =>
    binary_opt_token o :: expr_tokens l ++ opt_token an ++ expr_tokens r
  | UnaryOperation o e => unary_opt_token o :: expr_tokens e
  | NaryOperation o es mkay =>
    nary_opt_token o ::
      flat_map (fun x => match x with Operand e an => expr_tokens e ++ opt_token an end) es
      ++ opt_token mkay
  | Value v => value_tokens v
  end.

Definition operand_tokens (x : operand) : list token :=
  match x with Operand e an => expr_tokens e ++ opt_token an end.

Definition assignment_tokens (a : assignment) : list token :=
  va_tokens (asg_variable_access a) ++ asg_r_token a :: expr_tokens (asg_expression a).

(** Induction over expressions through the operand lists. *)
Definition operand_expr (x : operand) : expr := match x with Operand e _ => e end.

Section ExprInd.
  Variable P : expr -> Prop.
  Hypothesis HB : forall l o r an, P l -> P r -> P (BinaryOperation l o r an).
  Hypothesis HU : forall o e, P e -> P (UnaryOperation o e).
  Hypothesis HN : forall o es mkay,
    Forall (fun x => P (operand_expr x)) es -> P (NaryOperation o es mkay).
  Hypothesis HV : forall v, P (Value v).

  Fixpoint expr_ind' (e : expr) : P e :=
    match e with
    | BinaryOperation l o r an => HB l o r an (expr_ind' l) (expr_ind' r)
    | UnaryOperation o e => HU o e (expr_ind' e)
    | NaryOperation o es mkay =>
      HN o es mkay
         ((fix go (es : list operand) : Forall (fun x => P (operand_expr x)) es :=
             match es with
             | [] => Forall_nil _
             | Operand e an :: es' =>
               @Forall_cons _ (fun x => P (operand_expr x)) (Operand e an) es'
                            (expr_ind' e) (go es')
             end) es)
    | Value v => HV v
    end.
End ExprInd.
