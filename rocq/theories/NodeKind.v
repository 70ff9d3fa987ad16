(** Specification: what a node of an AST has to do with the line it starts on. *)
From Verif Require Export Grammar NodeTokens.

(** A token that can start an expression. *)
Definition starts_expression (t : token) : Prop :=
  value_tok t \/ ident_tok t \/ kw NOOB t \/ kw SRS t \/ kw Keywords.NOT t \/
  (exists k op, kw k t /\ binary_operator k op) \/ (exists k op, kw k t /\ nary_operator k op).

(** [n] is the kind of node that [t], the first token of its line, announces,
    and stores [t]; [L] are the lines of the program. *)
Definition announced (L : list (list token)) (t : token) (n : node) : Prop :=
  match n with
  | NIHasA x => kw I_HAS_A t /\ ihasa_token x = t
  | NHai x => kw HAI t /\ hai_token x = t
  | NVisible x => kw VISIBLE t /\ visible_token x = t
  | NFoundYr x => kw FOUND_YR t /\ found_yr_token x = t
  | NIIz x => kw I_IZ t /\ iiz_token x = t
  | NGtfo x => kw GTFO t /\ gtfo_token x = t
  | NGimmeh x => kw GIMMEH t /\ gimmeh_token x = t
  | NKThxBye x => kw KTHXBYE t /\ kthxbye_token x = t
  | NWtf (Wtf t' _ _) => kw WTF t /\ t' = t
  | NORly (ORly t' _ _ _) => kw O_RLY t /\ t' = t
  | NHowIzI (HowIzI t' _ _ _) => kw HOW_IZ_I t /\ t' = t
  | NImInYr (ImInYr t' label _ _ _ end_label) =>
    kw IM_IN_YR t /\ t' = t /\
    (exists rest, In (t :: label :: rest) L) /\ ident_tok label /\
    (exists o rest, In (o :: end_label :: rest) L /\ kw IM_OUTTA_YR o) /\ ident_tok end_label
  | NVariableAssignment x =>
    (ident_tok t \/ kw SRS t) /\ hd_error (va_tokens (asg_variable_access x)) = Some t
  | NBukkitSetSlot x => (ident_tok t \/ kw SRS t) /\ hd_error (va_tokens (bss_bukkit x)) = Some t
  | NExpression e => starts_expression t /\ hd_error (expr_tokens e) = Some t
  | NASTError _ => False
  end.
