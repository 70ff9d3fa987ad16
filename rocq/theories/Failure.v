(** Specification: what happens on a line that is not well-formed.

    [reads l n r]: the tokens at the front of the line [l] are the statement [n]
    and [r] is left.  [fails_stmt l f]: no statement can be read from the front
    of [l]; [f] is the error that is reported and what is left of the line, or
    the panic.  Nothing here refers to the parse functions. *)
From Verif Require Export Grammar Parser.

(** Outcome of a failure: an error and the unread rest of the line, or a panic. *)
Inductive failure : Set :=
| FErr (e : ast_error) (rest : list token)
| FPanic (c : panic_cause).

Definition begins (p : token -> Prop) (l : list token) : Prop :=
  exists t r, l = t :: r /\ p t.

(** ** Identifiers and variable accesses *)
Definition id_start (t : token) : Prop := ident_tok t \/ kw SRS t.

Inductive x_identifier : list token -> failure -> Prop :=
| x_no_name t r : ~ id_start t -> x_identifier (t :: r) (FErr (UnexpectedToken t) r)
| x_srs_end s : kw SRS s -> x_identifier [s] (FErr (MissingToken s) [])
| x_srs_bad s t r : kw SRS s -> ~ ident_tok t ->
    x_identifier (s :: t :: r) (FErr (UnexpectedToken t) r).

(** An access fails at its first identifier, after a final ['Z], or at the
    identifier after a ['Z]. *)
Inductive x_va : list token -> failure -> Prop :=
| x_va_identifier l f : x_identifier l f -> x_va l f
| x_va_end ts v a : d_va ts v -> slot_tok a -> x_va (ts ++ [a]) (FErr (MissingToken a) [])
| x_va_slot ts v a l f : d_va ts v -> slot_tok a -> x_identifier l f -> x_va (ts ++ a :: l) f.

(** ** Expressions *)
Definition is_binary (t : token) : Prop := exists k op, binary_operator k op /\ kw k t.
Definition is_nary (t : token) : Prop := exists k op, nary_operator k op /\ kw k t.
Definition starts_expr (t : token) : Prop :=
  value_tok t \/ kw NOOB t \/ id_start t \/ is_binary t \/ kw Keywords.NOT t \/ is_nary t.

(** [ts ++ ans] are an expression and the optional AN after it; [rest] follows. *)
Definition then_an (ts ans : list token) (an : option token) (rest : list token) : Prop :=
  d_opt AN ans an /\ fits false ts (ans ++ rest) /\ (ans = [] -> ~ begins (kw AN) rest).

Inductive x_expr : list token -> failure -> Prop :=
| x_expr_other t r : ~ starts_expr t -> ~ kw MAEK t ->
    x_expr (t :: r) (FErr (UnexpectedToken t) r)
| x_expr_maek t r : kw MAEK t -> x_expr (t :: r) (FPanic (PanicMaek t))
| x_expr_va l f : begins id_start l -> x_va l f -> x_expr l f
| x_binary_left_missing t : is_binary t ->
    x_expr [t] (FErr (EExpression (MissingOperands t)) [])
| x_binary_left t l f : is_binary t -> x_expr l f -> x_expr (t :: l) f
| x_binary_right_missing t o ls e ans an : is_binary t -> d_expr o ls e -> d_opt AN ans an ->
    (o = true -> ans = []) ->
    x_expr (t :: ls ++ ans) (FErr (EExpression (MissingOperands t)) [])
| x_binary_right t ls e ans an l f : is_binary t -> d_expr false ls e ->
    then_an ls ans an l -> x_expr l f -> x_expr (t :: ls ++ ans ++ l) f
| x_not_missing t : kw Keywords.NOT t ->
    x_expr [t] (FErr (EExpression (MissingOperands t)) [])
| x_not t l f : kw Keywords.NOT t -> x_expr l f -> x_expr (t :: l) f
| x_nary t l f : is_nary t -> x_operands l f -> x_expr (t :: l) f
(** The first operand that is not an expression. *)
with x_operands : list token -> failure -> Prop :=
| x_operand_here l f : ~ begins (kw MKAY) l -> x_expr l f -> x_operands l f
| x_operand_later ts e ans an l f : d_expr false ts e -> then_an ts ans an l ->
    x_operands l f -> x_operands (ts ++ ans ++ l) f.

Scheme x_expr_ind2 := Induction for x_expr Sort Prop
  with x_operands_ind2 := Induction for x_operands Sort Prop.
Combined Scheme x_expr_mut from x_expr_ind2, x_operands_ind2.

(** An expression is expected at the front of the line: an empty line is the
    error [e]. *)
Inductive x_expected (e : ast_error) : list token -> failure -> Prop :=
| x_expected_end : x_expected e [] (FErr e [])
| x_expected_expr l f : x_expr l f -> x_expected e l f.

(** ** The pieces of statements *)

(** After the identifier of I HAS A. *)
Inductive x_initial : list token -> failure -> Prop :=
| x_initial_no_itz t r : ~ kw ITZ t -> x_initial (t :: r) (FErr (UnexpectedToken t) r)
| x_initial_expr t l f : kw ITZ t -> ~ begins (fun u => exists ty, d_type u ty) l ->
    x_expected (EIHasA (ExpectedInitialValue t)) l f -> x_initial (t :: l) f.

(** The first argument of VISIBLE that is not an expression. *)
Inductive x_exprs : list token -> failure -> Prop :=
| x_exprs_here l f : ~ begins exclamation_tok l -> x_expr l f -> x_exprs l f
| x_exprs_later ts e l f : d_expr false ts e -> fits false ts l -> x_exprs l f ->
    x_exprs (ts ++ l) f.

(** After the name of I IZ (whose keyword is [t]): an argument that fails, or
    arguments without MKAY after them. *)
Inductive x_no_mkay (t : token) : list token -> failure -> Prop :=
| x_mkay_end : x_no_mkay t [] (FErr (EIIz (MissingMkay t)) [])
| x_mkay_other u r : ~ kw MKAY u -> x_no_mkay t (u :: r) (FErr (EIIz (MissingMkay u)) r).
Inductive x_args (t : token) : list token -> failure -> Prop :=
| x_args_stop l f : ~ begins (kw YR) l -> x_no_mkay t l f -> x_args t l f
| x_args_expr yr l f : kw YR yr -> x_expected (EIIz (MissingArgument yr)) l f ->
    x_args t (yr :: l) f
| x_args_last yr o ts e l f : kw YR yr -> d_expr o ts e -> fits o ts l ->
    ~ begins (kw AN) l -> x_no_mkay t l f -> x_args t (yr :: ts ++ l) f
| x_args_later yr ts e an l f : kw YR yr -> d_expr false ts e -> kw AN an ->
    x_args t l f -> x_args t (yr :: ts ++ an :: l) f.

(** After the bukkit and HAS A (the token [h]). *)
Inductive x_set_slot (h : token) : list token -> failure -> Prop :=
| x_slot_end : x_set_slot h [] (FErr (EVariableAssignment (ExpectedValue h)) [])
| x_slot_name l f : x_identifier l f -> x_set_slot h l f
| x_slot_no_itz ts i : d_identifier ts i -> x_set_slot h ts (FErr (MissingToken (id_name i)) [])
| x_slot_bad_itz ts i u r : d_identifier ts i -> ~ kw ITZ u ->
    x_set_slot h (ts ++ u :: r) (FErr (UnexpectedToken u) r)
| x_slot_value ts i u l f : d_identifier ts i -> kw ITZ u -> x_expected (MissingToken u) l f ->
    x_set_slot h (ts ++ u :: l) f.

(** ** Single-line statements *)
Definition block_start (t : token) : Prop :=
  kw HAI t \/ kw IM_IN_YR t \/ kw HOW_IZ_I t \/ kw WTF t \/ kw O_RLY t.
Definition line_start (t : token) : Prop :=
  id_start t \/ kw I_HAS_A t \/ kw VISIBLE t \/ kw GIMMEH t \/ kw FOUND_YR t \/ kw KTHXBYE t \/
  kw GTFO t \/ kw I_IZ t.

Inductive fails_stmt : list token -> failure -> Prop :=
(* I HAS A *)
| f_i_has_a_end t : kw I_HAS_A t -> fails_stmt [t] (FErr (EIHasA (MissingIdentifier t)) [])
| f_i_has_a_name t u r : kw I_HAS_A t -> ~ id_start u ->
    fails_stmt (t :: u :: r) (FErr (EIHasA (InvalidIdentifier u)) r)
| f_i_has_a_identifier t l f : kw I_HAS_A t -> begins id_start l -> x_identifier l f ->
    fails_stmt (t :: l) f
| f_i_has_a_initial t ts i l f : kw I_HAS_A t -> d_identifier ts i -> x_initial l f ->
    fails_stmt (t :: ts ++ l) f
(* VISIBLE *)
| f_visible t l f : kw VISIBLE t -> x_exprs l f -> fails_stmt (t :: l) f
(* GIMMEH *)
| f_gimmeh_end t : kw GIMMEH t -> fails_stmt [t] (FErr (MissingToken t) [])
| f_gimmeh t l f : kw GIMMEH t -> x_va l f -> fails_stmt (t :: l) f
(* FOUND YR *)
| f_found_yr t l f : kw FOUND_YR t -> x_expected (MissingToken t) l f -> fails_stmt (t :: l) f
(* I IZ *)
| f_i_iz_end t : kw I_IZ t -> fails_stmt [t] (FErr (EIIz (MissingName t)) [])
| f_i_iz_name t l f : kw I_IZ t -> x_va l f -> fails_stmt (t :: l) f
| f_i_iz_args t ts v l f : kw I_IZ t -> d_va ts v -> ~ begins slot_tok l -> x_args t l f ->
    fails_stmt (t :: ts ++ l) f
(* variable accesses *)
| f_va l f : begins id_start l -> x_va l f -> fails_stmt l f
| f_va_unreachable ts v u r : d_va ts v -> ~ slot_tok u -> ~ kw R u -> ~ kw HAS_A u ->
    fails_stmt (ts ++ u :: r) (FPanic (PanicUnreachable v u))
| f_assignment ts v u l f : d_va ts v -> kw R u ->
    x_expected (EVariableAssignment (ExpectedValue u)) l f -> fails_stmt (ts ++ u :: l) f
| f_set_slot ts v u l f : d_va ts v -> kw HAS_A u -> x_set_slot u l f ->
    fails_stmt (ts ++ u :: l) f
(* other expressions *)
| f_expression l f : ~ begins block_start l -> ~ begins line_start l -> x_expr l f ->
    fails_stmt l f.

(** ** Statements that can be read, and where they end *)

(** The expression ends in an n-ary operation without MKAY. *)
Fixpoint open_expr (e : expr) : bool :=
  match e with
  | BinaryOperation _ _ r _ => open_expr r
  | UnaryOperation _ x => open_expr x
  | NaryOperation _ _ None => true
  | _ => false
  end.

(** The statement extends to the end of its line. *)
Definition greedy (n : node) : Prop :=
  match n with
  | NIHasA x =>
    match ihasa_initial_value x with
    | None => True
    | Some (InitExpression e) => open_expr e = true
    | Some (InitType _) => False
    end
  | NVisible x => visible_exclamation_mark x = None
  | NFoundYr x => open_expr (found_yr_expression x) = true
  | NVariableAssignment x => open_expr (asg_expression x) = true
  | NBukkitSetSlot x => open_expr (bss_value x) = true
  | NExpression (Value (VariableAccess _)) => True
  | NExpression e => open_expr e = true
  | _ => False
  end.

Definition reads (l : list token) (n : node) (r : list token) : Prop :=
  exists ts, l = ts ++ r /\ d_line ts n /\ (greedy n -> r = []) /\
             ~ (ends_with_identifier ts /\ begins slot_tok r).

(** ** The result of a line: the nodes, or a panic *)
Definition left_over (r : list token) : list node :=
  match r with [] => [] | _ => [NASTError (TooManyTokens r)] end.

Inductive line_result : list token -> list node + panic_cause -> Prop :=
| lr_empty : line_result [] (inl [])
| lr_reads l n r : reads l n r -> line_result l (inl (n :: left_over r))
| lr_error l e r : fails_stmt l (FErr e r) -> line_result l (inl (NASTError e :: left_over r))
| lr_panic l c : fails_stmt l (FPanic c) -> line_result l (inr c).
