(** Specification: counting the calls of [next] made inside one call of [next]
    on the iterators behind [tokens()].

    The functions below are those of TokIter.v with a counter: every call of
    [next] on any iterator counts 1, the outermost one and [self.next()]
    included.  C74_counting says that they compute the same. *)
From Verif Require Export TokIter Depth.

(** A result with the number of calls. *)
Definition with_calls (A : Type) : Type := option (A * nat).
(** [n] more calls *)
Definition more {A} (n : nat) (r : with_calls A) : with_calls A :=
  match r with
  | Some (a, k) => Some (a, n + k)
  | None => None
  end.
Definition answer {A} (r : with_calls A) : option A :=
  match r with
  | Some (a, _) => Some a
  | None => None
  end.

(** Identifiers make no further call, slots one when they are in their
    identifier. *)
Definition slot_next_calls (it : slot_iter) : nat :=
  match sli_state it with
  | SlIdentifier _ => 2
  | _ => 1
  end.

Fixpoint va_next_counted (fuel : nat) (it : va_iter)
  : with_calls (option token * va_iter) :=
  match fuel with
  | O => None
  | S f =>
    let v := vai_access it in
    match vai_state it with
    | VaStart =>
      more 1 (va_next_counted f (mkVaIter v (VaIdentifier (identifier_iter (va_identifier v)))))
    | VaIdentifier i =>
      match id_next i with
      | (Some t, i') => Some ((Some t, mkVaIter v (VaIdentifier i')), 2)
      | (None, _) => more 2 (va_next_counted f (mkVaIter v (VaAccess 0 None)))
      end
    | VaAccess index o =>
      let advance :=
        match nth_error (va_accesses v) index with
        | Some s =>
          va_next_counted f (mkVaIter v (VaAccess (index + 1) (Some (va_slot_iter s))))
        | None => Some ((None, mkVaIter v VaDone), 0)
        end in
      match o with
      | Some si =>
        match slot_next si with
        | (Some t, si') =>
          Some ((Some t, mkVaIter v (VaAccess index (Some si'))), 1 + slot_next_calls si)
        | (None, _) => more (1 + slot_next_calls si) advance
        end
      | None => more 1 advance
      end
    | VaDone => Some ((None, it), 1)
    end
  end.

Fixpoint value_next_counted (fuel : nat) (it : value_iter)
  : with_calls (option token * value_iter) :=
  match fuel with
  | O => None
  | S f =>
    let x := vali_value it in
    match vali_state it with
    | ValStart =>
      match x with
      | VariableAccess v =>
        more 1 (value_next_counted f (mkValueIter x (ValVariableAccess (variable_access_iter v))))
      | LiteralValue t => Some ((Some t, mkValueIter x ValEnd), 1)
      end
    | ValVariableAccess vi =>
      match va_next_counted f vi with
      | Some ((Some t, vi'), k) => Some ((Some t, mkValueIter x (ValVariableAccess vi')), 1 + k)
      | Some ((None, _), k) => more (1 + k) (value_next_counted f (mkValueIter x ValEnd))
      | None => None
      end
    | ValEnd => Some ((None, it), 1)
    end
  end.

Fixpoint expr_next_counted (fuel : nat) (it : expr_iter)
  : with_calls (option token * expr_iter) :=
  match fuel, it with
  | O, _ => None
  | S f, ExprIter e st =>
    match st with
    | ExStart =>
      more 1
        match e with
        | BinaryOperation l o r an =>
          expr_next_counted f (ExprIter e (ExBinary (binary_operation_iter l o r an)))
        | UnaryOperation o x =>
          expr_next_counted f (ExprIter e (ExUnary (unary_operation_iter o x)))
        | NaryOperation o es mkay =>
          expr_next_counted f (ExprIter e (ExNary (nary_operation_iter o es mkay)))
        | Value v => expr_next_counted f (ExprIter e (ExValue (expr_value_iter v)))
        end
    | ExValue i =>
      match value_next_counted f i with
      | Some ((Some t, i'), k) => Some ((Some t, ExprIter e (ExValue i')), 1 + k)
      | Some ((None, _), k) => Some ((None, ExprIter e ExEnd), 1 + k)
      | None => None
      end
    | ExBinary i =>
      match binary_next_counted f i with
      | Some ((Some t, i'), k) => Some ((Some t, ExprIter e (ExBinary i')), 1 + k)
      | Some ((None, _), k) => Some ((None, ExprIter e ExEnd), 1 + k)
      | None => None
      end
    | ExUnary i =>
      match unary_next_counted f i with
      | Some ((Some t, i'), k) => Some ((Some t, ExprIter e (ExUnary i')), 1 + k)
      | Some ((None, _), k) => Some ((None, ExprIter e ExEnd), 1 + k)
      | None => None
      end
    | ExNary i =>
      match nary_next_counted f i with
      | Some ((Some t, i'), k) => Some ((Some t, ExprIter e (ExNary i')), 1 + k)
      | Some ((None, _), k) => Some ((None, ExprIter e ExEnd), 1 + k)
      | None => None
      end
    | ExEnd => Some ((None, it), 1)
    end
  end
with binary_next_counted (fuel : nat) (it : binary_iter)
  : with_calls (option token * binary_iter) :=
  match fuel, it with
  | O, _ => None
  | S f, BinaryIter l o r an st =>
    match st with
    | BiStart =>
      Some ((Some (binary_opt_token o), BinaryIter l o r an (BiLeft (expression_iter l))), 1)
    | BiLeft i =>
      match expr_next_counted f i with
      | Some ((Some t, i'), k) => Some ((Some t, BinaryIter l o r an (BiLeft i')), 1 + k)
      | Some ((None, _), k) => more (1 + k) (binary_next_counted f (BinaryIter l o r an BiAnToken))
      | None => None
      end
    | BiAnToken =>
      match an with
      | Some t => Some ((Some t, BinaryIter l o r an (BiRight (expression_iter r))), 1)
      | None =>
        more 1 (binary_next_counted f (BinaryIter l o r an (BiRight (expression_iter r))))
      end
    | BiRight i =>
      match expr_next_counted f i with
      | Some ((Some t, i'), k) => Some ((Some t, BinaryIter l o r an (BiRight i')), 1 + k)
      | Some ((None, _), k) => more (1 + k) (binary_next_counted f (BinaryIter l o r an BiEnd))
      | None => None
      end
    | BiEnd => Some ((None, it), 1)
    end
  end
with unary_next_counted (fuel : nat) (it : unary_iter)
  : with_calls (option token * unary_iter) :=
  match fuel, it with
  | O, _ => None
  | S f, UnaryIter o e st =>
    match st with
    | UnStart =>
      Some ((Some (unary_opt_token o), UnaryIter o e (UnOperand (expression_iter e))), 1)
    | UnOperand i =>
      match expr_next_counted f i with
      | Some ((Some t, i'), k) => Some ((Some t, UnaryIter o e (UnOperand i')), 1 + k)
      | Some ((None, _), k) => Some ((None, UnaryIter o e UnEnd), 1 + k)
      | None => None
      end
    | UnEnd => Some ((None, it), 1)
    end
  end
with nary_next_counted (fuel : nat) (it : nary_iter)
  : with_calls (option token * nary_iter) :=
  match fuel, it with
  | O, _ => None
  | S f, NaryIter o es mkay st =>
    match st with
    | NaStart => Some ((Some (nary_opt_token o), NaryIter o es mkay (NaOperand 0 None)), 1)
    | NaOperand index oi =>
      let advance :=
        match nth_error es index with
        | Some x =>
          nary_next_counted f
            (NaryIter o es mkay (NaOperand (index + 1) (Some (nary_operand_iter x))))
        | None => nary_next_counted f (NaryIter o es mkay NaMkay)
        end in
      match oi with
      | Some i =>
        match operand_next_counted f i with
        | Some ((Some t, i'), k) =>
          Some ((Some t, NaryIter o es mkay (NaOperand index (Some i'))), 1 + k)
        | Some ((None, _), k) => more (1 + k) advance
        | None => None
        end
      | None => more 1 advance
      end
    | NaMkay => Some ((mkay, NaryIter o es mkay NaEnd), 1)
    | NaEnd => Some ((None, it), 1)
    end
  end
with operand_next_counted (fuel : nat) (it : operand_iter)
  : with_calls (option token * operand_iter) :=
  match fuel, it with
  | O, _ => None
  | S f, OperandIter x st =>
    match st with
    | OpExpression i =>
      match expr_next_counted f i with
      | Some ((Some t, i'), k) => Some ((Some t, OperandIter x (OpExpression i')), 1 + k)
      | Some ((None, _), k) => more (1 + k) (operand_next_counted f (OperandIter x OpAnToken))
      | None => None
      end
    | OpAnToken => Some ((match x with Operand _ an => an end, OperandIter x OpEnd), 1)
    | OpEnd => Some ((None, it), 1)
    end
  end.

Fixpoint assignment_next_counted (fuel : nat) (it : assignment_iter)
  : with_calls (option token * assignment_iter) :=
  match fuel with
  | O => None
  | S f =>
    let a := asi_assignment it in
    match asi_state it with
    | AsStart =>
      more 1 (assignment_next_counted f
        (mkAssignmentIter a (AsVariableAccess (variable_access_iter (asg_variable_access a)))))
    | AsVariableAccess i =>
      match va_next_counted f i with
      | Some ((Some t, i'), k) => Some ((Some t, mkAssignmentIter a (AsVariableAccess i')), 1 + k)
      | Some ((None, _), k) => more (1 + k) (assignment_next_counted f (mkAssignmentIter a AsRToken))
      | None => None
      end
    | AsRToken =>
      Some ((Some (asg_r_token a),
             mkAssignmentIter a (AsExpression (expression_iter (asg_expression a)))), 1)
    | AsExpression i =>
      match expr_next_counted f i with
      | Some ((Some t, i'), k) => Some ((Some t, mkAssignmentIter a (AsExpression i')), 1 + k)
      | Some ((None, _), k) => Some ((None, mkAssignmentIter a AsEnd), 1 + k)
      | None => None
      end
    | AsEnd => Some ((None, it), 1)
    end
  end.

(** [n] calls from outside: for each, what it returns and how many calls of
    [next] it takes. *)
Fixpoint counted_calls {I} (next : I -> with_calls (option token * I)) (n : nat) (it : I)
  : option (list (option token * nat)) :=
  match n with
  | O => Some []
  | S n' =>
    match next it with
    | Some ((o, it'), k) =>
      match counted_calls next n' it' with
      | Some os => Some ((o, k) :: os)
      | None => None
      end
    | None => None
    end
  end.

(** The calls of all of them. *)
Definition total_calls (os : list (option token * nat)) : nat := list_sum (map snd os).

(** [n] times NOT around [x] *)
Fixpoint nots (t : token) (n : nat) (x : expr) : expr :=
  match n with
  | O => x
  | S n' => UnaryOperation (UNot t) (nots t n' x)
  end.
