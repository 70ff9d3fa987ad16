(** Model of the iterators behind [tokens()] and of [range()].

    A Rust iterator is a value with a mutable [state]; here [next] returns the
    item and the new iterator.  The Rust code calls [self.next()] again after
    changing state; the model recurses on fuel and returns [None] when the fuel
    is used up, which the theorems of TokIterFacts.v exclude for all large
    enough fuel. *)
From Verif Require Export Ast.

(** ** Identifiers: src/parser/expression/identifier_iterator.rs:4-46 *)
Inductive id_state : Set := IdStart | IdHasUsedSrs | IdDone.
Record id_iter : Set := mkIdIter { idi_identifier : identifier; idi_state : id_state }.

Definition id_next (it : id_iter) : option token * id_iter :=
  let i := idi_identifier it in
  match idi_state it with
  | IdStart =>
    match id_srs i with
    | Some srs => (Some srs, mkIdIter i IdHasUsedSrs)
    | None => (Some (id_name i), mkIdIter i IdDone)
    end
  | IdHasUsedSrs => (Some (id_name i), mkIdIter i IdDone)
  | IdDone => (None, it)
  end.

(** [Identifier::tokens], src/parser/expression/identifier.rs:26-28 *)
Definition identifier_iter (i : identifier) : id_iter := mkIdIter i IdStart.

(** ** Slots: src/parser/expression/variable_access_iterator.rs:7-47 *)
Inductive slot_state : Set := SlSlot | SlIdentifier (it : id_iter) | SlEnd.
Record slot_iter : Set := mkSlotIter { sli_slot : va_slot; sli_state : slot_state }.

Definition slot_next (it : slot_iter) : option token * slot_iter :=
  let s := sli_slot it in
  match sli_state it with
  | SlSlot =>
    (Some (slot_access_token s),
     mkSlotIter s (SlIdentifier (identifier_iter (slot_identifier s))))
  | SlIdentifier i =>
    match id_next i with
    | (Some t, i') => (Some t, mkSlotIter s (SlIdentifier i'))
    | (None, _) => (None, mkSlotIter s SlEnd)
    end
  | SlEnd => (None, it)
  end.

(** [VariableAccessSlot::tokens], src/parser/expression/variable_access.rs:20-22 *)
Definition va_slot_iter (s : va_slot) : slot_iter := mkSlotIter s SlSlot.

(** ** Variable accesses: src/parser/expression/variable_access_iterator.rs:49-107 *)
Inductive va_state : Set :=
| VaStart
| VaIdentifier (it : id_iter)
| VaAccess (index : nat) (it : option slot_iter)
| VaDone.
Record va_iter : Set := mkVaIter { vai_access : variable_access; vai_state : va_state }.

Fixpoint va_next (fuel : nat) (it : va_iter) : option (option token * va_iter) :=
  match fuel with
  | O => None
  | S f =>
    let v := vai_access it in
    match vai_state it with
    | VaStart =>
      va_next f (mkVaIter v (VaIdentifier (identifier_iter (va_identifier v))))
    | VaIdentifier i =>
      match id_next i with
      | (Some t, i') => Some (Some t, mkVaIter v (VaIdentifier i'))
      | (None, _) => va_next f (mkVaIter v (VaAccess 0 None))
      end
    | VaAccess index o =>
      let advance :=
        match nth_error (va_accesses v) index with
        | Some s => va_next f (mkVaIter v (VaAccess (index + 1) (Some (va_slot_iter s))))
        | None => Some (None, mkVaIter v VaDone)
        end in
      match o with
      | Some si =>
        match slot_next si with
        | (Some t, si') => Some (Some t, mkVaIter v (VaAccess index (Some si')))
        | (None, _) => advance
        end
      | None => advance
      end
    | VaDone => Some (None, it)
    end
  end.

(** [VariableAccess::tokens], src/parser/expression/variable_access.rs:61-63 *)
Definition variable_access_iter (v : variable_access) : va_iter := mkVaIter v VaStart.

(** ** Values: src/parser/expression/mod.rs:30-80 *)
Inductive value_state : Set := ValStart | ValVariableAccess (it : va_iter) | ValEnd.
Record value_iter : Set := mkValueIter { vali_value : expr_value; vali_state : value_state }.

Fixpoint value_next (fuel : nat) (it : value_iter) : option (option token * value_iter) :=
  match fuel with
  | O => None
  | S f =>
    let x := vali_value it in
    match vali_state it with
    | ValStart =>
      match x with
      | VariableAccess v =>
        value_next f (mkValueIter x (ValVariableAccess (variable_access_iter v)))
      | LiteralValue t => Some (Some t, mkValueIter x ValEnd)
      end
    | ValVariableAccess vi =>
      match va_next f vi with
      | Some (Some t, vi') => Some (Some t, mkValueIter x (ValVariableAccess vi'))
      | Some (None, _) => value_next f (mkValueIter x ValEnd)
      | None => None
      end
    | ValEnd => Some (None, it)
    end
  end.

(** [ASTExpressionValue::tokens], src/parser/expression/mod.rs:102-104 *)
Definition expr_value_iter (v : expr_value) : value_iter := mkValueIter v ValStart.

(** ** Expressions.  The iterators of src/parser/expression/mod.rs:123-190,
    binary_operation.rs:113-166, unary_operation.rs:32-74,
    nary_operations.rs:49-105 and 107-145 contain one another. *)
Inductive expr_iter : Set :=
| ExprIter (expression : expr) (state : expr_state)
with expr_state : Set :=
| ExStart
| ExBinary (it : binary_iter)
| ExUnary (it : unary_iter)
| ExNary (it : nary_iter)
| ExValue (it : value_iter)
| ExEnd
with binary_iter : Set :=
| BinaryIter (left : expr) (operator : binary_opt) (right : expr)
             (an_token : option token) (state : binary_state)
with binary_state : Set :=
| BiStart | BiLeft (it : expr_iter) | BiAnToken | BiRight (it : expr_iter) | BiEnd
with unary_iter : Set :=
| UnaryIter (operator : unary_opt) (expression : expr) (state : unary_state)
with unary_state : Set :=
| UnStart | UnOperand (it : expr_iter) | UnEnd
with nary_iter : Set :=
| NaryIter (operator : nary_opt) (expressions : list operand)
           (mkay_token : option token) (state : nary_state)
with nary_state : Set :=
| NaStart | NaOperand (index : nat) (it : option operand_iter) | NaMkay | NaEnd
with operand_iter : Set :=
| OperandIter (op : operand) (state : operand_state)
with operand_state : Set :=
| OpExpression (it : expr_iter) | OpAnToken | OpEnd.

(** [ASTExpression::tokens], src/parser/expression/mod.rs:266-268;
    [BinaryOperation::tokens], binary_operation.rs:179-181;
    [UnaryOperation::tokens], unary_operation.rs:85-87;
    [NaryOperation::tokens], nary_operations.rs:169-171;
    [NaryOperationOperand::tokens], nary_operations.rs:154-156 with 119-124. *)
Definition expression_iter (e : expr) : expr_iter := ExprIter e ExStart.
Definition binary_operation_iter l o r an : binary_iter := BinaryIter l o r an BiStart.
Definition unary_operation_iter o e : unary_iter := UnaryIter o e UnStart.
Definition nary_operation_iter o es mkay : nary_iter := NaryIter o es mkay NaStart.
Definition nary_operand_iter (x : operand) : operand_iter :=
  OperandIter x (match x with Operand e _ => OpExpression (expression_iter e) end).

Fixpoint expr_next (fuel : nat) (it : expr_iter) : option (option token * expr_iter) :=
  match fuel, it with
  | O, _ => None
  | S f, ExprIter e st =>
    match st with
    | ExStart =>
      match e with
      | BinaryOperation l o r an =>
        expr_next f (ExprIter e (ExBinary (binary_operation_iter l o r an)))
      | UnaryOperation o x =>
        expr_next f (ExprIter e (ExUnary (unary_operation_iter o x)))
      | NaryOperation o es mkay =>
        expr_next f (ExprIter e (ExNary (nary_operation_iter o es mkay)))
      | Value v => expr_next f (ExprIter e (ExValue (expr_value_iter v)))
      end
    | ExValue i =>
      match value_next f i with
      | Some (Some t, i') => Some (Some t, ExprIter e (ExValue i'))
      | Some (None, _) => Some (None, ExprIter e ExEnd)
      | None => None
      end
    | ExBinary i =>
      match binary_next f i with
      | Some (Some t, i') => Some (Some t, ExprIter e (ExBinary i'))
      | Some (None, _) => Some (None, ExprIter e ExEnd)
      | None => None
      end
    | ExUnary i =>
      match unary_next f i with
      | Some (Some t, i') => Some (Some t, ExprIter e (ExUnary i'))
      | Some (None, _) => Some (None, ExprIter e ExEnd)
      | None => None
      end
    | ExNary i =>
      match nary_next f i with
      | Some (Some t, i') => Some (Some t, ExprIter e (ExNary i'))
      | Some (None, _) => Some (None, ExprIter e ExEnd)
      | None => None
      end
    | ExEnd => Some (None, it)
    end
  end
with binary_next (fuel : nat) (it : binary_iter) : option (option token * binary_iter) :=
  match fuel, it with
  | O, _ => None
  | S f, BinaryIter l o r an st =>
    match st with
    | BiStart =>
      Some (Some (binary_opt_token o), BinaryIter l o r an (BiLeft (expression_iter l)))
    | BiLeft i =>
      match expr_next f i with
      | Some (Some t, i') => Some (Some t, BinaryIter l o r an (BiLeft i'))
      | Some (None, _) => binary_next f (BinaryIter l o r an BiAnToken)
      | None => None
      end
    | BiAnToken =>
      match an with
      | Some t => Some (Some t, BinaryIter l o r an (BiRight (expression_iter r)))
      | None => binary_next f (BinaryIter l o r an (BiRight (expression_iter r)))
      end
    | BiRight i =>
      match expr_next f i with
      | Some (Some t, i') => Some (Some t, BinaryIter l o r an (BiRight i'))
      | Some (None, _) => binary_next f (BinaryIter l o r an BiEnd)
      | None => None
      end
    | BiEnd => Some (None, it)
    end
  end
with unary_next (fuel : nat) (it : unary_iter) : option (option token * unary_iter) :=
  match fuel, it with
  | O, _ => None
  | S f, UnaryIter o e st =>
    match st with
    | UnStart =>
      Some (Some (unary_opt_token o), UnaryIter o e (UnOperand (expression_iter e)))
    | UnOperand i =>
      match expr_next f i with
      | Some (Some t, i') => Some (Some t, UnaryIter o e (UnOperand i'))
      | Some (None, _) => Some (None, UnaryIter o e UnEnd)
      | None => None
      end
    | UnEnd => Some (None, it)
    end
  end
with nary_next (fuel : nat) (it : nary_iter) : option (option token * nary_iter) :=
  match fuel, it with
  | O, _ => None
  | S f, NaryIter o es mkay st =>
    match st with
    | NaStart => Some (Some (nary_opt_token o), NaryIter o es mkay (NaOperand 0 None))
    | NaOperand index oi =>
      let advance :=
        match nth_error es index with
        | Some x =>
          nary_next f (NaryIter o es mkay (NaOperand (index + 1) (Some (nary_operand_iter x))))
        | None => nary_next f (NaryIter o es mkay NaMkay)
        end in
      match oi with
      | Some i =>
        match operand_next f i with
        | Some (Some t, i') => Some (Some t, NaryIter o es mkay (NaOperand index (Some i')))
        | Some (None, _) => advance
        | None => None
        end
      | None => advance
      end
    | NaMkay => Some (mkay, NaryIter o es mkay NaEnd)
    | NaEnd => Some (None, it)
    end
  end
with operand_next (fuel : nat) (it : operand_iter) : option (option token * operand_iter) :=
  match fuel, it with
  | O, _ => None
  | S f, OperandIter x st =>
    match st with
    | OpExpression i =>
      match expr_next f i with
      | Some (Some t, i') => Some (Some t, OperandIter x (OpExpression i'))
      | Some (None, _) => operand_next f (OperandIter x OpAnToken)
      | None => None
      end
    | OpAnToken => Some (match x with Operand _ an => an end, OperandIter x OpEnd)
    | OpEnd => Some (None, it)
    end
  end.

(** ** Assignments: src/parser/statements/assignment.rs:9-66 *)
Inductive assignment_state : Set :=
| AsStart | AsVariableAccess (it : va_iter) | AsRToken | AsExpression (it : expr_iter) | AsEnd.
Record assignment_iter : Set :=
  mkAssignmentIter { asi_assignment : assignment; asi_state : assignment_state }.

Fixpoint assignment_next (fuel : nat) (it : assignment_iter)
  : option (option token * assignment_iter) :=
  match fuel with
  | O => None
  | S f =>
    let a := asi_assignment it in
    match asi_state it with
    | AsStart =>
      assignment_next f
        (mkAssignmentIter a (AsVariableAccess (variable_access_iter (asg_variable_access a))))
    | AsVariableAccess i =>
      match va_next f i with
      | Some (Some t, i') => Some (Some t, mkAssignmentIter a (AsVariableAccess i'))
      | Some (None, _) => assignment_next f (mkAssignmentIter a AsRToken)
      | None => None
      end
    | AsRToken =>
      Some (Some (asg_r_token a),
            mkAssignmentIter a (AsExpression (expression_iter (asg_expression a))))
    | AsExpression i =>
      match expr_next f i with
      | Some (Some t, i') => Some (Some t, mkAssignmentIter a (AsExpression i'))
      | Some (None, _) => Some (None, mkAssignmentIter a AsEnd)
      | None => None
      end
    | AsEnd => Some (None, it)
    end
  end.

(** [VariableAssignment::tokens], src/parser/statements/assignment.rs:83-85 *)
Definition variable_assignment_iter (a : assignment) : assignment_iter :=
  mkAssignmentIter a AsStart.

(** ** Ranges *)

(** [Identifier::range], src/parser/expression/identifier.rs:16-24 *)
Definition identifier_range (i : identifier) : position * position :=
  (match id_srs i with
   | Some srs => r_start (tok_range srs)
   | None => r_start (tok_range (id_name i))
   end,
   r_end (tok_range (id_name i))).

(** [VariableAccess::range], src/parser/expression/variable_access.rs:50-58 *)
Definition va_range (v : variable_access) : position * position :=
  (fst (identifier_range (va_identifier v)),
   match rev (va_accesses v) with
   | s :: _ => snd (identifier_range (slot_identifier s))
   | [] => snd (identifier_range (va_identifier v))
   end).

(** [ASTExpressionValue::range], src/parser/expression/mod.rs:94-99 *)
Definition value_range (v : expr_value) : position * position :=
  match v with
  | VariableAccess v => va_range v
  | LiteralValue t => (r_start (tok_range t), r_end (tok_range t))
  end.

(** [ASTExpression::range], src/parser/expression/mod.rs:225-263.
    [expressions.last()] is written as a recursion over the list. *)
Fixpoint expr_range (e : expr) : position * position :=
  match e with
  | BinaryOperation _ o r _ =>
    (r_start (tok_range (binary_opt_token o)), snd (expr_range r))
  | UnaryOperation o e =>
    (r_start (tok_range (unary_opt_token o)), snd (expr_range e))
  | NaryOperation o es mkay =>
    (r_start (tok_range (nary_opt_token o)),
     match mkay with
     | Some t => r_end (tok_range t)
     | None =>
       (fix last_end (es : list operand) : position :=
          match es with
          | [] => r_end (tok_range (nary_opt_token o))
          | [Operand x an] =>
            match an with
            | Some t => r_end (tok_range t)
            | None => snd (expr_range x)
            end
          | _ :: es' => last_end es'
          end) es
     end)
  | Value v => value_range v
  end.

(** [VariableAssignment::range], src/parser/statements/assignment.rs:80-82 *)
Definition assignment_range (a : assignment) : position * position :=
  (fst (va_range (asg_variable_access a)), snd (expr_range (asg_expression a))).
