(** Specification: what the errors of an AST carry. *)
From Verif Require Export NodeTokens Failure.

(** A token that can be on a logical line. *)
Definition inner (t : token) : Prop := tok_type t <> TComma /\ tok_type t <> TEllipsis.

Definition error_shape (e : ast_error) : Prop :=
  match e with
  (* any token *)
  | UnexpectedToken t => True
  (* the rest of a line *)
  | TooManyTokens ts => ts <> []
  (* the token after I HAS A; I HAS A; ITZ *)
  | EIHasA (InvalidIdentifier t) => ~ id_start t
  | EIHasA (MissingIdentifier t) => kw I_HAS_A t
  | EIHasA (ExpectedInitialValue t) => kw ITZ t
  | EVariableAssignment (MissingR t) => False
  | EVariableAssignment (ExpectedValue t) => kw R t \/ kw HAS_A t
  (* the operator *)
  | EExpression (MissingOperands t) => is_binary t \/ kw Keywords.NOT t
  (* the token after which the line ends *)
  | MissingToken t =>
    kw SRS t \/ slot_tok t \/ ident_tok t \/ kw ITZ t \/ kw GIMMEH t \/ kw FOUND_YR t \/ kw YR t \/ kw OMG t
  | EORly (MissingQuestionMark t) => kw WTF t \/ kw O_RLY t
  | EORly (MissingMebbeExpression t) => kw MEBBE t
  (* the start of the statement *)
  | MissingBlockClosingToken t => kw HOW_IZ_I t \/ kw WTF t \/ kw O_RLY t
  | EHowIsI (MissingNameIdentifier t) => kw HOW_IZ_I t
  | EImInYr (MissingYr t) => ~ kw YR t
  | EImInYr (MissingStartLabel t) => kw IM_IN_YR t
  | EImInYr (InvalidStartLabel t) => ~ ident_tok t
  | EImInYr (MissingEndLabel t) => kw IM_OUTTA_YR t
  | EImInYr (InvalidEndLabel t) => ~ ident_tok t
  | EImInYr (MissingImOuttaYr t) => kw IM_IN_YR t
  | EImInYr (InvalidOperation t) => False
  | EImInYr (MissingOperand t) => kw UPPIN t \/ kw NERFIN t
  | EImInYr (InvalidConditional t) => False
  | EImInYr (MissingConditionalExpression t) => kw TIL t \/ kw WILE t
  | EIIz (MissingName t) => kw I_IZ t
  | EIIz (MissingArgument t) => kw YR t
  (* I IZ or the token in the place of MKAY *)
  | EIIz (MissingMkay t) => ~ kw MKAY t
  end.
