(** Specification for C90: a reader of single lines, token by token.  Together
    with the checker of lines (Checker.v) it reads programs from left to right,
    without going back. *)
From Coq Require Import String.
From Verif Require Export Checker.
Local Open Scope string_scope.
Local Open Scope list_scope.

(** The operations around the expression that is being read, the innermost first:
    a binary operation that waits for its second operand, or an n-ary one. *)
Inductive pending : Set := PBinary | PNary.
(** What comes after the whole expression: nothing; more expressions of VISIBLE or
    an exclamation mark; AN or MKAY of a call. *)
Inductive context : Set := AtEnd | InVisible | InCall.
(** What an identifier is read for. *)
Inductive naming : Set :=
| AsOperand (k : list pending) (x : context)
| AsDeclared                                            (* I HAS A *)
| AsInput                                               (* GIMMEH *)
| AsCalled                                              (* I IZ *)
| AsFirst                                               (* the first on its line *)
| AsSlot                                                (* HAS A *)
| AsCounter                                             (* UPPIN YR and NERFIN YR *)
| AsFunction                                            (* HOW IZ I *)
| AsParam.                                              (* YR in HOW IZ I *)

Inductive reader : Set :=
| RStart (s : state)                                    (* nothing was read *)
| RName (c : naming)                                    (* SRS or an identifier must come *)
| RSrs (c : naming)                                     (* an identifier must come *)
| RNamed (c : naming)                                   (* after an identifier *)
| RExpr (k : list pending) (x : context)                (* an expression must come *)
| RDone (k : list pending) (x : context)                (* after an expression *)
| RMore (k : list pending) (x : context)                (* operands or MKAY may come *)
| RInit                                                 (* after ITZ in a declaration *)
| RArgs                                                 (* after AN in a call *)
| RParams                                               (* after AN in HOW IZ I *)
| RLabel                                                (* after IM IN YR *)
| RLoop                                                 (* after the label *)
| RCounter                                              (* after UPPIN or NERFIN *)
| REndLabel                                             (* after IM OUTTA YR *)
| RQuestion                                             (* after WTF or O RLY *)
| RRest                                                 (* any token may come *)
| REnd.                                                 (* nothing may come *)

(** An expression has been read. *)
Inductive done (k : list pending) (x : context) : reader -> Prop :=
| done_value : done k x (RDone k x)
| done_name : done k x (RNamed (AsOperand k x)).

(** An expression may come. *)
Inductive expects : list pending -> context -> reader -> Prop :=
| expects_now k x : expects k x (RExpr k x)
| expects_second k x q : done (PBinary :: k) x q -> expects k x q
| expects_operand k x q : done (PNary :: k) x q -> expects (PNary :: k) x q
| expects_first_operand k x : expects (PNary :: k) x (RMore k x)
| expects_argument q : done [] InVisible q -> expects [] InVisible q
| expects_initial : expects [] AtEnd RInit.

(** The first token of an expression. *)
Inductive opens (k : list pending) (x : context) : token -> reader -> Prop :=
| opens_value t : value_tok t -> opens k x t (RDone k x)
| opens_noob t : kw NOOB t -> opens k x t (RDone k x)
| opens_name t : ident_tok t -> opens k x t (RNamed (AsOperand k x))
| opens_srs t : kw SRS t -> opens k x t (RSrs (AsOperand k x))
| opens_binary w op t : binary_operator w op -> kw w t -> opens k x t (RExpr (PBinary :: k) x)
| opens_not t : kw NOT t -> opens k x t (RExpr k x)
| opens_nary w op t : nary_operator w op -> kw w t -> opens k x t (RMore k x).

Definition slots_allowed (c : naming) : Prop :=
  match c with AsOperand _ _ | AsInput | AsCalled | AsFirst | AsCounter => True | _ => False end.
Definition is_type (t : token) : Prop := exists k, In k [NUMBR; NUMBAR; YARN; BUKKIT; TROOF] /\ kw k t.

(** What one token does. *)
Inductive rstep : reader -> token -> reader -> Prop :=
(* identifiers *)
| rs_name c t : ident_tok t -> rstep (RName c) t (RNamed c)
| rs_srs c t : kw SRS t -> rstep (RName c) t (RSrs c)
| rs_srs_name c t : ident_tok t -> rstep (RSrs c) t (RNamed c)
| rs_slot c t : slots_allowed c -> slot_tok t -> rstep (RNamed c) t (RName c)
(* expressions *)
| rs_expr k x q t q' : expects k x q -> opens k x t q' -> rstep q t q'
| rs_binary_an k x q t : done (PBinary :: k) x q -> kw AN t -> rstep q t (RExpr k x)
| rs_nary_an k x q t : done (PNary :: k) x q -> kw AN t -> rstep q t (RMore k x)
| rs_nary_mkay k x q t : done (PNary :: k) x q \/ q = RMore k x -> kw MKAY t -> rstep q t (RDone k x)
(* single lines *)
| rs_i_has_a s open t : in_block s open -> kw I_HAS_A t -> rstep (RStart s) t (RName AsDeclared)
| rs_itz t : kw ITZ t -> rstep (RNamed AsDeclared) t RInit
| rs_type t : is_type t -> rstep RInit t REnd
| rs_visible s open t : in_block s open -> kw VISIBLE t -> rstep (RStart s) t (RDone [] InVisible)
| rs_bang q t : done [] InVisible q -> exclamation_tok t -> rstep q t REnd
| rs_gimmeh s open t : in_block s open -> kw GIMMEH t -> rstep (RStart s) t (RName AsInput)
| rs_found_yr s open t : in_block s open -> kw FOUND_YR t -> rstep (RStart s) t (RExpr [] AtEnd)
| rs_kthxbye s open t : in_block s open -> kw KTHXBYE t -> rstep (RStart s) t REnd
| rs_gtfo s open t : in_block s open -> kw GTFO t -> rstep (RStart s) t REnd
| rs_i_iz s open t : in_block s open -> kw I_IZ t -> rstep (RStart s) t (RName AsCalled)
| rs_yr t q : q = RNamed AsCalled \/ q = RArgs -> kw YR t -> rstep q t (RExpr [] InCall)
| rs_arg_an q t : done [] InCall q -> kw AN t -> rstep q t RArgs
| rs_call_end q t : q = RNamed AsCalled \/ q = RArgs \/ done [] InCall q -> kw MKAY t -> rstep q t REnd
| rs_first s open t : in_block s open -> ident_tok t -> rstep (RStart s) t (RNamed AsFirst)
| rs_first_srs s open t : in_block s open -> kw SRS t -> rstep (RStart s) t (RSrs AsFirst)
| rs_r t : kw R t -> rstep (RNamed AsFirst) t (RExpr [] AtEnd)
| rs_has_a t : kw HAS_A t -> rstep (RNamed AsFirst) t (RName AsSlot)
| rs_slot_itz t : kw ITZ t -> rstep (RNamed AsSlot) t (RExpr [] AtEnd)
| rs_expression s open t q : in_block s open -> opens [] AtEnd t q -> ~ ident_tok t -> ~ kw SRS t -> rstep (RStart s) t q
(* lines of blocks *)
| rs_hai s open t : in_block s open -> kw HAI t -> rstep (RStart s) t RRest
| rs_loop s open t : in_block s open -> kw IM_IN_YR t -> rstep (RStart s) t RLabel
| rs_label t : ident_tok t -> rstep RLabel t RLoop
| rs_uppin t : kw UPPIN t \/ kw NERFIN t -> rstep RLoop t RCounter
| rs_counter t : kw YR t -> rstep RCounter t (RName AsCounter)
| rs_until q t : q = RLoop \/ q = RNamed AsCounter -> kw TIL t \/ kw WILE t -> rstep q t (RExpr [] AtEnd)
| rs_function s open t : in_block s open -> kw HOW_IZ_I t -> rstep (RStart s) t (RName AsFunction)
| rs_param q t : q = RNamed AsFunction \/ q = RParams -> kw YR t -> rstep q t (RName AsParam)
| rs_param_an t : kw AN t -> rstep (RNamed AsParam) t RParams
| rs_wtf s open t : in_block s open -> kw WTF t \/ kw O_RLY t -> rstep (RStart s) t RQuestion
| rs_question t : question_tok t -> rstep RQuestion t REnd
| rs_ended t : rstep (RStart Ended) t RRest
| rs_rest t : rstep RRest t RRest
| rs_loop_end open t : kw IM_OUTTA_YR t -> rstep (RStart (Begun (FLoop :: open))) t REndLabel
| rs_end_label t : ident_tok t -> rstep REndLabel t REnd
| rs_function_end open t : kw IF_U_SAY_SO t -> rstep (RStart (Begun (FFunction :: open))) t REnd
| rs_omg s open t : before_case s open -> kw OMG t -> rstep (RStart s) t (RExpr [] AtEnd)
| rs_omgwtf s open t : before_case s open -> kw OMGWTF t -> rstep (RStart s) t REnd
| rs_switch_end s open t : before_case s open \/ s = Begun (FDefault :: open) -> kw OIC t -> rstep (RStart s) t REnd
| rs_ya_rly open t : kw YA_RLY t -> rstep (RStart (IfHead open)) t REnd
| rs_mebbe s open t : before_mebbe s open -> kw MEBBE t -> rstep (RStart s) t (RExpr [] AtEnd)
| rs_no_wai s open t : before_mebbe s open -> kw NO_WAI t -> rstep (RStart s) t REnd
| rs_if_end s open t : before_mebbe s open \/ s = Begun (FElse :: open) -> kw OIC t -> rstep (RStart s) t REnd.

Inductive reads_to : reader -> list token -> reader -> Prop :=
| reads_nil q : reads_to q [] q
| reads_cons q t q' l q'' : rstep q t q' -> reads_to q' l q'' -> reads_to q (t :: l) q''.

(** The line may end: only n-ary operations are open, and no call. *)
Definition may_end (k : list pending) (x : context) : Prop := Forall (eq PNary) k /\ x <> InCall.
Definition final (q : reader) : Prop :=
  match q with
  | RStart s => match s with Fresh _ | NeedEmpty _ | Begun [] | Ended => True | _ => False end
  | RNamed (AsOperand k x) | RDone k x | RMore k x => may_end k x
  | RNamed (AsDeclared | AsInput | AsFirst | AsCounter | AsFunction | AsParam) => True
  | RParams | RLoop | RRest | REnd => True
  | _ => False
  end.

(** ** Tokens that finish a line *)
Definition made (ty : token_type) : token := mkToken ty (mkRange position_start position_start).
Definition some_value : token := made (TValue VNoob).
Fixpoint finish (k : list pending) (x : context) : list token :=
  match k with
  | [] => match x with InCall => [word MKAY] | _ => [] end
  | PBinary :: k' => some_value :: finish k' x
  | PNary :: k' => word MKAY :: finish k' x
  end.
Definition finish_name (c : naming) : list token :=
  match c with
  | AsOperand k x => finish k x
  | AsCalled => [word MKAY]
  | AsSlot => [word ITZ; some_value]
  | _ => []
  end.
Definition finish_line (q : reader) : list token :=
  match q with
  | RStart (Fresh _ | Begun _) => [word GTFO]
  | RStart (SwitchHead _ | IfHead _) => [word OIC]
  | RName c | RSrs c => some_label :: finish_name c
  | RNamed c => finish_name c
  | RExpr k x => some_value :: finish k x
  | RDone k x => finish k x
  | RMore k x => word MKAY :: finish k x
  | RInit => [some_value]
  | RArgs => [word MKAY]
  | RLabel | REndLabel => [some_label]
  | RCounter => [word YR; some_label]
  | RQuestion => [made (TSymbol (lit "?"))]
  | _ => []
  end.
