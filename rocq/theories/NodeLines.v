(** Specification: the nodes that one logical line gives, and what each error
    says about its line. *)
From Verif Require Export Lines NodeTokens Recovery.

(** The error is reported on the line [p ++ r] when [p] has been read and [r] is
    left. *)
Definition error_at (p r : list token) (e : ast_error) : Prop :=
  match e with
  (* the last token that was read *)
  | UnexpectedToken t => exists q, p = q ++ [t]
  | TooManyTokens _ => False
  (* I HAS A t *)
  | EIHasA (InvalidIdentifier t) => exists h, kw I_HAS_A h /\ ~ id_start t /\ p = [h; t]
  (* I HAS A and nothing else *)
  | EIHasA (MissingIdentifier t) => kw I_HAS_A t /\ p = [t] /\ r = []
  (* I HAS A identifier ITZ and nothing else *)
  | EIHasA (ExpectedInitialValue t) =>
    kw ITZ t /\ r = [] /\ exists h ts i, kw I_HAS_A h /\ d_identifier ts i /\ p = h :: ts ++ [t]
  | EVariableAssignment (MissingR _) => False
  (* variable R, or variable HAS A, and nothing else *)
  | EVariableAssignment (ExpectedValue t) =>
    (kw R t \/ kw HAS_A t) /\ r = [] /\ exists ts v, d_va ts v /\ p = ts ++ [t]
  (* the line ends where an operand of the operator [t] is missing *)
  | EExpression (MissingOperands t) =>
    r = [] /\ exists q us, p = q ++ t :: us /\
      ((is_binary t \/ kw Keywords.NOT t) /\ us = [] \/
       is_binary t /\ exists o ls l ans an, d_expr o ls l /\ d_opt AN ans an /\ us = ls ++ ans)
  (* the line ends after [t] *)
  | MissingToken t => r = [] /\ exists q, p = q ++ [t]
  (* the line ends after WTF or O RLY, or something else than ? follows *)
  | EORly (MissingQuestionMark t) =>
    (kw WTF t \/ kw O_RLY t) /\ (p = [t] /\ r = [] \/ exists u, ~ question_tok u /\ p = [t; u])
  | EORly (MissingMebbeExpression t) => kw MEBBE t /\ p = [t] /\ r = []
  (* [t] starts the line, which is otherwise in order *)
  | MissingBlockClosingToken t =>
    r = [] /\ (kw HOW_IZ_I t /\ (exists c i ps, function_header c i ps [] /\ p = t :: c) \/
               (kw WTF t \/ kw O_RLY t) /\ exists q, question_tok q /\ p = [t; q])
  | EHowIsI (MissingNameIdentifier t) => kw HOW_IZ_I t /\ p = [t] /\ r = []
  (* IM IN YR label UPPIN t *)
  | EImInYr (MissingYr t) =>
    ~ kw YR t /\ exists m l s, kw IM_IN_YR m /\ ident_tok l /\ is_step s /\ p = [m; l; s; t]
  | EImInYr (MissingStartLabel t) => kw IM_IN_YR t /\ p = [t] /\ r = []
  | EImInYr (InvalidStartLabel t) => ~ ident_tok t /\ exists m, kw IM_IN_YR m /\ p = [m; t]
  | EImInYr (MissingEndLabel t) => kw IM_OUTTA_YR t /\ p = [t] /\ r = []
  | EImInYr (InvalidEndLabel t) => ~ ident_tok t /\ exists m, kw IM_OUTTA_YR m /\ p = [m; t]
  | EImInYr (MissingImOuttaYr t) =>
    kw IM_IN_YR t /\ r = [] /\ exists c label it cond, loop_header c label it cond [] /\ p = t :: c
  | EImInYr (InvalidOperation _) => False
  (* IM IN YR label UPPIN, or IM IN YR label UPPIN YR, and nothing else *)
  | EImInYr (MissingOperand t) =>
    is_step t /\ r = [] /\ exists m l, kw IM_IN_YR m /\ ident_tok l /\
      (p = [m; l; t] \/ exists yr, kw YR yr /\ p = [m; l; t; yr])
  | EImInYr (InvalidConditional _) => False
  (* IM IN YR label [UPPIN YR variable] TIL and nothing else *)
  | EImInYr (MissingConditionalExpression t) =>
    is_until t /\ r = [] /\ exists m l its it, kw IM_IN_YR m /\ ident_tok l /\ d_iteration its it /\ p = m :: l :: its ++ [t]
  | EIIz (MissingName t) => kw I_IZ t /\ p = [t] /\ r = []
  (* I IZ ... YR and nothing else *)
  | EIIz (MissingArgument t) => kw YR t /\ r = [] /\ exists h q, kw I_IZ h /\ p = h :: q ++ [t]
  (* the line ends where MKAY is missing: [t] is I IZ; or [t] is in the place of MKAY *)
  | EIIz (MissingMkay t) =>
    kw I_IZ t /\ r = [] /\ (exists q, p = t :: q) \/
    ~ kw MKAY t /\ exists h q, kw I_IZ h /\ p = h :: q ++ [t]
  end.

(** The node is a statement read from the tokens [p], a statement with blocks
    that starts with them, or an error when they have been read; [r] is left. *)
Definition node_at (p r : list token) (n : node) : Prop :=
  match n with
  | NASTError e => error_at p r e
  | NImInYr _ | NWtf _ | NORly _ | NHowIzI _ =>
    r = [] /\ exists t us c, node_tokens n = t :: us /\ p = t :: c
  | NHai _ => r = [] /\ node_tokens n = p /\ p <> []
  | _ => d_line p n /\ Subseq (node_tokens n) p /\ exists t us c, node_tokens n = t :: us /\ p = t :: c
  end.

(** No node, one node, the tokens that are left, or both. *)
Inductive line_nodes : list token -> list node -> Prop :=
| no_node l : line_nodes l []
| one_node l n : node_at l [] n -> line_nodes l [n]
| left_node p r : r <> [] -> line_nodes (p ++ r) [NASTError (TooManyTokens r)]
| two_nodes p r n : node_at p r n -> r <> [] -> line_nodes (p ++ r) [n; NASTError (TooManyTokens r)].

(** The error is about the tokens [l]: about one of them, or about those that
    are left at the end. *)
Definition error_on (l : list token) (e : ast_error) : Prop :=
  match e with
  | TooManyTokens ts => ts <> [] /\ exists p, l = p ++ ts
  | _ => exists t, error_tokens e = [t] /\ In t l
  end.
