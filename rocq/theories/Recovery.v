(** Specification: the result of every program, well-formed or not.

    The relations below say for every sequence of logical lines which nodes,
    errors or panic it gives and where reading stops.  They are built from the
    grammar ([Grammar]) and the failures of single lines ([Failure]); nothing
    here refers to the parse functions. *)
From Verif Require Export Failure.

(** What is left: the rest of the current line and the later lines. *)
Definition place : Set := (list token * list (list token))%type.

(** The start of the first of the lines [ls]; after the last line come empty ones. *)
Definition line_of (ls : list (list token)) : place :=
  match ls with
  | l :: ls' => (l, ls')
  | [] => ([], [])
  end.

(** Outcome of reading an [A]. *)
Inductive out (A : Type) : Type :=
| Done (a : A) (p : place)
| Err (e : ast_error) (p : place)
| Crash (c : panic_cause).
Arguments Done {A}. Arguments Err {A}. Arguments Crash {A}.

Definition omap {A B} (f : A -> B) (o : out A) : out B :=
  match o with
  | Done a p => Done (f a) p
  | Err e p => Err e p
  | Crash c => Crash c
  end.

(** An outcome of a part that is the outcome of the whole. *)
Inductive aborts {A B : Type} : out A -> out B -> Prop :=
| aborts_err e p : aborts (Err e p) (Err e p)
| aborts_crash c : aborts (Crash c) (Crash c).

(** A failure on a line followed by [ls]. *)
Definition failed {A} (f : failure) (ls : list (list token)) : out A :=
  match f with
  | FErr e r => Err e (r, ls)
  | FPanic c => Crash c
  end.

(** ** Headers of loops: what follows IM IN YR on its line *)
Definition is_step (t : token) : Prop := kw UPPIN t \/ kw NERFIN t.
Definition is_until (t : token) : Prop := kw TIL t \/ kw WILE t.

Inductive x_iteration : list token -> failure -> Prop :=
| x_step_end t : is_step t -> x_iteration [t] (FErr (EImInYr (MissingOperand t)) [])
| x_step_yr t u r : is_step t -> ~ kw YR u ->
    x_iteration (t :: u :: r) (FErr (EImInYr (MissingYr u)) r)
| x_step_yr_end t yr : is_step t -> kw YR yr ->
    x_iteration [t; yr] (FErr (EImInYr (MissingOperand t)) [])
| x_step_va t yr l f : is_step t -> kw YR yr -> x_va l f -> x_iteration (t :: yr :: l) f.
Inductive x_condition : list token -> failure -> Prop :=
| x_until t l f : is_until t -> x_expected (EImInYr (MissingConditionalExpression t)) l f ->
    x_condition (t :: l) f.

(** The header fails ([t] is IM IN YR). *)
Inductive x_loop (t : token) : list token -> failure -> Prop :=
| x_loop_end : x_loop t [] (FErr (EImInYr (MissingStartLabel t)) [])
| x_loop_label u r : ~ ident_tok u -> x_loop t (u :: r) (FErr (EImInYr (InvalidStartLabel u)) r)
| x_loop_iteration u l f : ident_tok u -> x_iteration l f -> x_loop t (u :: l) f
| x_loop_condition u its it l f : ident_tok u -> d_iteration its it -> x_condition l f ->
    x_loop t (u :: its ++ l) f.

Definition open_condition (cond : option loop_condition) : Prop :=
  match cond with
  | Some (LTil e) | Some (LWile e) => open_expr e = true
  | None => False
  end.

(** The header can be read and [r] is left of its line. *)
Definition loop_header (c : list token) (label : token) (it : option loop_iteration)
           (cond : option loop_condition) (r : list token) : Prop :=
  exists its cs, c = label :: its ++ cs ++ r /\ ident_tok label /\
    d_iteration its it /\ d_condition cs cond /\
    (its = [] -> ~ begins is_step (cs ++ r)) /\
    (cs = [] -> ~ begins is_until r) /\
    (open_condition cond -> r = []) /\
    ~ (ends_with_identifier (its ++ cs) /\ begins slot_tok r).

(** ** Headers of functions: what follows HOW IZ I on its line *)
Inductive x_params : list token -> failure -> Prop :=
| x_param_end yr : kw YR yr -> x_params [yr] (FErr (MissingToken yr) [])
| x_param_name yr l f : kw YR yr -> x_identifier l f -> x_params (yr :: l) f
| x_param_later yr ts i an l f : kw YR yr -> d_identifier ts i -> kw AN an ->
    x_params l f -> x_params (yr :: ts ++ an :: l) f.
Inductive x_function (t : token) : list token -> failure -> Prop :=
| x_function_end : x_function t [] (FErr (EHowIsI (MissingNameIdentifier t)) [])
| x_function_name l f : x_identifier l f -> x_function t l f
| x_function_params ts i l f : d_identifier ts i -> x_params l f -> x_function t (ts ++ l) f.

Definition ends_with_an (us : list token) : Prop := exists ws a, us = ws ++ [a] /\ kw AN a.

Definition function_header (c : list token) (i : identifier) (ps : list identifier)
           (r : list token) : Prop :=
  exists ts us, c = ts ++ us ++ r /\ d_identifier ts i /\ d_params us ps /\
    (us = [] \/ ends_with_an us -> ~ begins (kw YR) r) /\
    (us <> [] -> ~ ends_with_an us -> ~ begins (kw AN) r).

(** ** The question mark after WTF and O RLY (the token [t]) *)
Inductive x_question (t : token) : list token -> failure -> Prop :=
| x_question_end : x_question t [] (FErr (EORly (MissingQuestionMark t)) [])
| x_question_other u r : ~ question_tok u ->
    x_question t (u :: r) (FErr (EORly (MissingQuestionMark t)) r).

(** ** The closing OIC of the statement that starts with [t] *)
Inductive closing (t : token) : place -> out unit -> Prop :=
| closing_missing ls : closing t ([], ls) (Err (MissingBlockClosingToken t) ([], ls))
| closing_other u r ls : ~ kw OIC u -> closing t (u :: r, ls) (Err (UnexpectedToken u) (r, ls))
| closing_oic u r ls : kw OIC u -> closing t (u :: r, ls) (Done tt (r, ls)).

(** ** Where blocks end *)
Inductive kind : Set := Root | FunctionBody | LoopBody | IfBody | SwitchBody.
Definition closes (k : kind) (t : token) : Prop :=
  match k with
  | Root => False
  | FunctionBody => kw IF_U_SAY_SO t
  | LoopBody => kw IM_OUTTA_YR t
  | IfBody => kw MEBBE t \/ kw NO_WAI t \/ kw YA_RLY t \/ kw OIC t
  | SwitchBody => kw OMG t \/ kw OMGWTF t \/ kw OIC t
  end.

(** ** Statements and blocks *)

(** [r_stmt l ls o]: the statement at the start of the line [l], with the lines
    [ls] after it, has the outcome [o]. *)
Inductive r_stmt : list token -> list (list token) -> out node -> Prop :=
(* on one line *)
| r_reads l ls n r : reads l n r -> r_stmt l ls (Done n (r, ls))
| r_fails l ls f : fails_stmt l f -> r_stmt l ls (failed f ls)
(* HAI *)
| r_hai t v ls : kw HAI t -> r_stmt (t :: v) ls (Done (NHai (mkHai t v)) (line_of ls))
(* IM IN YR *)
| r_loop_header t c ls f : kw IM_IN_YR t -> x_loop t c f -> r_stmt (t :: c) ls (failed f ls)
| r_loop_junk t c ls label it cond x r : kw IM_IN_YR t -> loop_header c label it cond (x :: r) ->
    r_stmt (t :: c) ls (Err (TooManyTokens (x :: r)) (line_of ls))
| r_loop_crash t c ls label it cond p : kw IM_IN_YR t -> loop_header c label it cond [] ->
    r_block LoopBody (line_of ls) (Crash p) -> r_stmt (t :: c) ls (Crash p)
| r_loop_unclosed t c ls label it cond ns ls' :
    kw IM_IN_YR t -> loop_header c label it cond [] ->
    r_block LoopBody (line_of ls) (Done ns ([], ls')) ->
    r_stmt (t :: c) ls (Err (EImInYr (MissingImOuttaYr t)) ([], ls'))
| r_loop_no_label t c ls label it cond ns imo ls' :
    kw IM_IN_YR t -> loop_header c label it cond [] ->
    r_block LoopBody (line_of ls) (Done ns ([imo], ls')) ->
    r_stmt (t :: c) ls (Err (EImInYr (MissingEndLabel imo)) ([], ls'))
| r_loop_bad_label t c ls label it cond ns imo e r ls' :
    kw IM_IN_YR t -> loop_header c label it cond [] ->
    r_block LoopBody (line_of ls) (Done ns (imo :: e :: r, ls')) -> ~ ident_tok e ->
    r_stmt (t :: c) ls (Err (EImInYr (InvalidEndLabel e)) (r, ls'))
| r_loop t c ls label it cond ns imo e r ls' :
    kw IM_IN_YR t -> loop_header c label it cond [] ->
    r_block LoopBody (line_of ls) (Done ns (imo :: e :: r, ls')) -> ident_tok e ->
    r_stmt (t :: c) ls (Done (NImInYr (ImInYr t label it cond (ASTBlock ns) e)) (r, ls'))
(* HOW IZ I *)
| r_function_header t c ls f : kw HOW_IZ_I t -> x_function t c f -> r_stmt (t :: c) ls (failed f ls)
| r_function_junk t c ls i ps x r : kw HOW_IZ_I t -> function_header c i ps (x :: r) ->
    r_stmt (t :: c) ls (Err (TooManyTokens (x :: r)) (line_of ls))
| r_function_crash t c ls i ps p : kw HOW_IZ_I t -> function_header c i ps [] ->
    r_block FunctionBody (line_of ls) (Crash p) -> r_stmt (t :: c) ls (Crash p)
| r_function_unclosed t c ls i ps ns ls' : kw HOW_IZ_I t -> function_header c i ps [] ->
    r_block FunctionBody (line_of ls) (Done ns ([], ls')) ->
    r_stmt (t :: c) ls (Err (MissingBlockClosingToken t) ([], ls'))
| r_function_end_junk t c ls i ps ns e x r ls' : kw HOW_IZ_I t -> function_header c i ps [] ->
    r_block FunctionBody (line_of ls) (Done ns (e :: x :: r, ls')) ->
    r_stmt (t :: c) ls (Err (TooManyTokens (x :: r)) (line_of ls'))
| r_function t c ls i ps ns e ls' : kw HOW_IZ_I t -> function_header c i ps [] ->
    r_block FunctionBody (line_of ls) (Done ns ([e], ls')) ->
    r_stmt (t :: c) ls (Done (NHowIzI (HowIzI t i ps (ASTBlock ns))) (line_of ls'))
(* WTF? *)
| r_wtf_question t c ls f : kw WTF t -> x_question t c f -> r_stmt (t :: c) ls (failed f ls)
| r_wtf_junk t q x r ls : kw WTF t -> question_tok q ->
    r_stmt (t :: q :: x :: r) ls (Err (TooManyTokens (x :: r)) (line_of ls))
| r_wtf_cases t q ls o o' : kw WTF t -> question_tok q ->
    r_cases OMG MissingToken SwitchBody (line_of ls) o -> aborts o o' -> r_stmt [t; q] ls o'
| r_wtf_default t q ls omgs p o o' : kw WTF t -> question_tok q ->
    r_cases OMG MissingToken SwitchBody (line_of ls) (Done omgs p) ->
    r_section OMGWTF SwitchBody p o -> aborts o o' -> r_stmt [t; q] ls o'
| r_wtf_closing t q ls omgs p d p' o o' : kw WTF t -> question_tok q ->
    r_cases OMG MissingToken SwitchBody (line_of ls) (Done omgs p) ->
    r_section OMGWTF SwitchBody p (Done d p') -> closing t p' o -> aborts o o' -> r_stmt [t; q] ls o'
| r_wtf_end_junk t q ls omgs p d p' x r ls' : kw WTF t -> question_tok q ->
    r_cases OMG MissingToken SwitchBody (line_of ls) (Done omgs p) ->
    r_section OMGWTF SwitchBody p (Done d p') -> closing t p' (Done tt (x :: r, ls')) ->
    r_stmt [t; q] ls (Err (TooManyTokens (x :: r)) (line_of ls'))
| r_wtf t q ls omgs p d p' ls' : kw WTF t -> question_tok q ->
    r_cases OMG MissingToken SwitchBody (line_of ls) (Done omgs p) ->
    r_section OMGWTF SwitchBody p (Done d p') -> closing t p' (Done tt ([], ls')) ->
    r_stmt [t; q] ls
      (Done (NWtf (Wtf t (map (fun '(a, e, ns) => WtfOmg a e (ASTBlock ns)) omgs)
                         (option_map (fun '(a, ns) => WtfOmgWtf a (ASTBlock ns)) d)))
            (line_of ls'))
(* O RLY? *)
| r_o_rly_question t c ls f : kw O_RLY t -> x_question t c f -> r_stmt (t :: c) ls (failed f ls)
| r_o_rly_junk t q x r ls : kw O_RLY t -> question_tok q ->
    r_stmt (t :: q :: x :: r) ls (Err (TooManyTokens (x :: r)) (line_of ls))
| r_o_rly_yes t q ls o o' : kw O_RLY t -> question_tok q ->
    r_section YA_RLY IfBody (line_of ls) o -> aborts o o' -> r_stmt [t; q] ls o'
| r_o_rly_mebbes t q ls y p o o' : kw O_RLY t -> question_tok q ->
    r_section YA_RLY IfBody (line_of ls) (Done y p) ->
    r_cases MEBBE (fun m => EORly (MissingMebbeExpression m)) IfBody p o -> aborts o o' ->
    r_stmt [t; q] ls o'
| r_o_rly_no t q ls y p ms p' o o' : kw O_RLY t -> question_tok q ->
    r_section YA_RLY IfBody (line_of ls) (Done y p) ->
    r_cases MEBBE (fun m => EORly (MissingMebbeExpression m)) IfBody p (Done ms p') ->
    r_section NO_WAI IfBody p' o -> aborts o o' -> r_stmt [t; q] ls o'
| r_o_rly_closing t q ls y p ms p' n p'' o o' : kw O_RLY t -> question_tok q ->
    r_section YA_RLY IfBody (line_of ls) (Done y p) ->
    r_cases MEBBE (fun m => EORly (MissingMebbeExpression m)) IfBody p (Done ms p') ->
    r_section NO_WAI IfBody p' (Done n p'') -> closing t p'' o -> aborts o o' -> r_stmt [t; q] ls o'
| r_o_rly t q ls y p ms p' n p'' p3 : kw O_RLY t -> question_tok q ->
    r_section YA_RLY IfBody (line_of ls) (Done y p) ->
    r_cases MEBBE (fun m => EORly (MissingMebbeExpression m)) IfBody p (Done ms p') ->
    r_section NO_WAI IfBody p' (Done n p'') -> closing t p'' (Done tt p3) ->
    r_stmt [t; q] ls
      (Done (NORly (ORly t (option_map (fun '(a, ns) => YaRly a (ASTBlock ns)) y)
                           (option_map (fun '(a, ns) => NoWai a (ASTBlock ns)) n)
                           (map (fun '(a, e, ns) => Mebbe a e (ASTBlock ns)) ms))) p3)

(** A block: its first line is read even if it is a closing line or empty. *)
with r_block : kind -> place -> out (list node) -> Prop :=
| r_block_empty k ls o : r_more k ls o -> r_block k ([], ls) o
| r_block_done k t c ls n r ls' o : r_stmt (t :: c) ls (Done n (r, ls')) -> r_more k ls' o ->
    r_block k (t :: c, ls) (omap (app (n :: left_over r)) o)
| r_block_err k t c ls e r ls' o : r_stmt (t :: c) ls (Err e (r, ls')) -> r_more k ls' o ->
    r_block k (t :: c, ls) (omap (app (NASTError e :: left_over r)) o)
| r_block_crash k t c ls p : r_stmt (t :: c) ls (Crash p) -> r_block k (t :: c, ls) (Crash p)

(** The rest of a block after a line: it ends before an empty line or a closing
    line. *)
with r_more : kind -> list (list token) -> out (list node) -> Prop :=
| r_more_empty k ls : fst (line_of ls) = [] -> r_more k ls (Done [] (line_of ls))
| r_more_close k t c ls : closes k t -> r_more k ((t :: c) :: ls) (Done [] (t :: c, ls))
| r_more_go k t c ls o : ~ closes k t -> r_block k (t :: c, ls) o -> r_more k ((t :: c) :: ls) o

(** An optional section: the keyword [w] alone on its line, then a block. *)
with r_section : keyword -> kind -> place -> out (option (token * list node)) -> Prop :=
| r_section_none w k c ls : ~ begins (kw w) c -> r_section w k (c, ls) (Done None (c, ls))
| r_section_junk w k t x r ls : kw w t ->
    r_section w k (t :: x :: r, ls) (Err (TooManyTokens (x :: r)) (line_of ls))
| r_section_block w k t ls o : kw w t -> r_block k (line_of ls) o ->
    r_section w k ([t], ls) (omap (fun ns => Some (t, ns)) o)

(** Any number of sections [w expression]; [missing] is the error when the
    expression is missing. *)
with r_cases : keyword -> (token -> ast_error) -> kind -> place ->
               out (list (token * expr * list node)) -> Prop :=
| r_cases_none w m k c ls : ~ begins (kw w) c -> r_cases w m k (c, ls) (Done [] (c, ls))
| r_cases_expr w m k t l f ls : kw w t -> x_expected (m t) l f ->
    r_cases w m k (t :: l, ls) (failed f ls)
| r_cases_junk w m k t o ts e x r ls : kw w t -> d_expr o ts e -> fits o ts (x :: r) ->
    r_cases w m k (t :: ts ++ x :: r, ls) (Err (TooManyTokens (x :: r)) (line_of ls))
| r_cases_block w m k t b ts e ls o o' : kw w t -> d_expr b ts e ->
    r_block k (line_of ls) o -> aborts o o' -> r_cases w m k (t :: ts, ls) o'
| r_cases_cons w m k t b ts e ls ns p o : kw w t -> d_expr b ts e ->
    r_block k (line_of ls) (Done ns p) -> r_cases w m k p o ->
    r_cases w m k (t :: ts, ls) (omap (cons (t, e, ns)) o).

Scheme r_stmt_ind2 := Minimality for r_stmt Sort Prop
  with r_block_ind2 := Minimality for r_block Sort Prop
  with r_more_ind2 := Minimality for r_more Sort Prop
  with r_section_ind2 := Minimality for r_section Sort Prop
  with r_cases_ind2 := Minimality for r_cases Sort Prop.
Combined Scheme r_mut from r_stmt_ind2, r_block_ind2, r_more_ind2, r_section_ind2, r_cases_ind2.

(** ** Programs *)
Definition program_nodes (ls : list (list token)) (ns : list node) : Prop :=
  exists p, r_block Root (line_of ls) (Done ns p).
Definition program_panics (ls : list (list token)) (c : panic_cause) : Prop :=
  r_block Root (line_of ls) (Crash c).

(** ** Programs whose lines are independent *)
Definition result_ (x : list node + panic_cause) : parse_result :=
  match x with
  | inl ns => ParseOk (ASTBlock ns)
  | inr c => ParsePanic c
  end.
(** Results one after the other; the first panic ends the program. *)
Fixpoint in_order (xs : list (list node + panic_cause)) : list node + panic_cause :=
  match xs with
  | [] => inl []
  | inl ns :: xs => match in_order xs with inl ms => inl (ns ++ ms) | inr c => inr c end
  | inr c :: _ => inr c
  end.
