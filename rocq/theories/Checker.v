(** Specification for C89: a checker that reads a program line by line, from the
    first to the last, with a stack of open blocks.  It never goes back. *)
From Coq Require Import String.
From Verif Require Export Grammar SourceSpec SourceEdit.
Local Open Scope string_scope.
Local Open Scope list_scope.

(** The blocks that are open. *)
Inductive frame : Set :=
| FLoop                                                 (* IM IN YR *)
| FFunction                                             (* HOW IZ I *)
| FSwitch                                               (* OMG *)
| FDefault                                              (* OMGWTF *)
| FIf                                                   (* YA RLY or MEBBE *)
| FElse.                                                (* NO WAI *)

Inductive state : Set :=
| Fresh (open : list frame)                             (* at the start of a block *)
| Begun (open : list frame)                             (* in a block *)
| NeedEmpty (open : list frame)                         (* an empty line must come *)
| SwitchHead (open : list frame)                        (* after WTF? *)
| IfHead (open : list frame)                            (* after O RLY? *)
| Ended.                                                (* the rest is not read *)

Inductive in_block : state -> list frame -> Prop :=
| in_fresh open : in_block (Fresh open) open
| in_begun open : in_block (Begun open) open.
Inductive before_case : state -> list frame -> Prop :=
| before_first_case open : before_case (SwitchHead open) open
| before_next_case open : before_case (Begun (FSwitch :: open)) open.
Inductive before_mebbe : state -> list frame -> Prop :=
| before_any_branch open : before_mebbe (IfHead open) open
| before_next_branch open : before_mebbe (Begun (FIf :: open)) open.

(** What one line does. *)
Inductive step : state -> list token -> state -> Prop :=
| step_line s open l n : in_block s open -> d_line l n -> step s l (Begun open)
| step_hai s open t version : in_block s open -> kw HAI t -> step s (t :: version) (NeedEmpty open)
| step_loop s open t label its it cs cond : in_block s open ->
    kw IM_IN_YR t -> ident_tok label -> d_iteration its it -> d_condition cs cond ->
    step s (t :: label :: its ++ cs) (Fresh (FLoop :: open))
| step_function s open t ts i us params : in_block s open ->
    kw HOW_IZ_I t -> d_identifier ts i -> d_params us params ->
    step s (t :: ts ++ us) (Fresh (FFunction :: open))
| step_wtf s open t q : in_block s open -> kw WTF t -> question_tok q -> step s [t; q] (SwitchHead open)
| step_o_rly s open t q : in_block s open -> kw O_RLY t -> question_tok q -> step s [t; q] (IfHead open)
| step_first_empty open : step (Fresh open) [] (Begun open)
| step_needed_empty open : step (NeedEmpty open) [] (Begun open)
| step_end : step (Begun []) [] Ended
| step_ended l : step Ended l Ended
| step_loop_end open t label : kw IM_OUTTA_YR t -> ident_tok label -> step (Begun (FLoop :: open)) [t; label] (Begun open)
| step_function_end open t : kw IF_U_SAY_SO t -> step (Begun (FFunction :: open)) [t] (NeedEmpty open)
| step_omg s open t o ts e : before_case s open -> kw OMG t -> d_expr o ts e -> step s (t :: ts) (Fresh (FSwitch :: open))
| step_omgwtf s open t : before_case s open -> kw OMGWTF t -> step s [t] (Fresh (FDefault :: open))
| step_switch_end s open t : before_case s open \/ s = Begun (FDefault :: open) -> kw OIC t -> step s [t] (NeedEmpty open)
| step_ya_rly open t : kw YA_RLY t -> step (IfHead open) [t] (Fresh (FIf :: open))
| step_mebbe s open t o ts e : before_mebbe s open -> kw MEBBE t -> d_expr o ts e -> step s (t :: ts) (Fresh (FIf :: open))
| step_no_wai s open t : before_mebbe s open -> kw NO_WAI t -> step s [t] (Fresh (FElse :: open))
| step_if_end s open t : before_mebbe s open \/ s = Begun (FElse :: open) -> kw OIC t -> step s [t] (Begun open).

Inductive steps : state -> list (list token) -> state -> Prop :=
| steps_nil s : steps s [] s
| steps_cons s l s' ls s'' : step s l s' -> steps s' ls s'' -> steps s (l :: ls) s''.

(** No block is open. *)
Definition complete (s : state) : Prop :=
  match s with Fresh [] | Begun [] | NeedEmpty [] | Ended => True | _ => False end.

(** ** Lines that close what is open *)
Definition word (k : keyword) : token := mkToken (TKeyword k) (mkRange position_start position_start).
Definition some_label : token := mkToken (TIdentifier (lit "x")) (mkRange position_start position_start).
Fixpoint close_blocks (open : list frame) : list (list token) :=
  match open with
  | [] => []
  | FLoop :: open' => [word IM_OUTTA_YR; some_label] :: close_blocks open'
  | FFunction :: open' => [word IF_U_SAY_SO] :: [] :: close_blocks open'
  | FSwitch :: open' | FDefault :: open' => [word OIC] :: [] :: close_blocks open'
  | FIf :: open' | FElse :: open' => [word OIC] :: close_blocks open'
  end.
Definition closing (s : state) : list (list token) :=
  match s with
  | Ended => []
  | Fresh [] => []
  | Fresh open => [] :: close_blocks open
  | Begun open => close_blocks open
  | NeedEmpty open => [] :: close_blocks open
  | SwitchHead open => [word OIC] :: [] :: close_blocks open
  | IfHead open => [word OIC] :: close_blocks open
  end.

(** The source of these lines. *)
Definition closing_text (s : state) : str :=
  print_program (fun t => match tok_type t with TKeyword k => spelling k | TIdentifier i => i | _ => [] end) (closing s).
