(** Specification: the grammar of the language the parser accepts, as
    derivation relations between tokens (or lines of tokens) and AST values.
    Nothing here refers to the parse functions. *)
From Coq Require Import String.
From Verif Require Export AstTokens.

(** ** Token classes *)
Definition kw (k : keyword) (t : token) : Prop := tok_type t = TKeyword k.
Definition ident_tok (t : token) : Prop := exists s, tok_type t = TIdentifier s.
Definition slot_tok (t : token) : Prop := tok_type t = TBukkitSlotAccess.
Definition value_tok (t : token) : Prop := exists v, tok_type t = TValue v.
Definition question_tok (t : token) : Prop := tok_type t = TSymbol (lit "?").
Definition exclamation_tok (t : token) : Prop := tok_type t = TExclamationMark.

(** An optional keyword. *)
Inductive d_opt (k : keyword) : list token -> option token -> Prop :=
| d_none : d_opt k [] None
| d_some t : kw k t -> d_opt k [t] (Some t).

(** ** Identifiers: [name] or [SRS name] *)
Inductive d_identifier : list token -> identifier -> Prop :=
| d_name t : ident_tok t -> d_identifier [t] (mkIdentifier t None)
| d_srs s t : kw SRS s -> ident_tok t -> d_identifier [s; t] (mkIdentifier t (Some s)).

(** ** Variable accesses: an identifier, then ['Z identifier] any number of times *)
Inductive d_slots : list token -> list va_slot -> Prop :=
| d_no_slot : d_slots [] []
| d_slot a ts i us sl : slot_tok a -> d_identifier ts i -> d_slots us sl ->
    d_slots (a :: ts ++ us) (mkSlot a i :: sl).

Inductive d_va : list token -> variable_access -> Prop :=
| d_access ts i us sl : d_identifier ts i -> d_slots us sl -> d_va (ts ++ us) (mkVA i sl).

(** ** Operators *)
Inductive binary_operator : keyword -> (token -> binary_opt) -> Prop :=
| op_both_of : binary_operator BOTH_OF BothOf
| op_either_of : binary_operator EITHER_OF EitherOf
| op_won_of : binary_operator WON_OF WonOf
| op_sum_of : binary_operator SUM_OF SumOf
| op_diff_of : binary_operator DIFF_OF DiffOf
| op_produkt_of : binary_operator PRODUKT_OF ProduktOf
| op_quoshunt_of : binary_operator QUOSHUNT_OF QuoshuntOf
| op_mod_of : binary_operator MOD_OF ModOf
| op_biggr_of : binary_operator BIGGR_OF BiggrOf
| op_smallr_of : binary_operator SMALLR_OF SmallrOf
| op_both_saem : binary_operator BOTH_SAEM BothSaem
| op_diffrint : binary_operator DIFFRINT Diffrint.
Inductive nary_operator : keyword -> (token -> nary_opt) -> Prop :=
| op_all_of : nary_operator ALL_OF AllOf
| op_any_of : nary_operator ANY_OF AnyOf
| op_smoosh : nary_operator SMOOSH Smoosh.

(** ** Expressions.  The flag tells that the expression is open: it ends in an
    n-ary operation without MKAY, so it must end its line. *)
Inductive d_expr : bool -> list token -> expr -> Prop :=
| d_literal t : value_tok t -> d_expr false [t] (Value (LiteralValue t))
| d_noob t : kw NOOB t -> d_expr false [t] (Value (LiteralValue t))
| d_variable ts v : d_va ts v -> d_expr false ts (Value (VariableAccess v))
| d_binary k op t o ls l ans an rs r :
    binary_operator k op -> kw k t ->
    d_expr false ls l -> d_opt AN ans an -> d_expr o rs r ->
    d_expr o (t :: ls ++ ans ++ rs) (BinaryOperation l (op t) r an)
| d_not t o ts e :
    kw NOT t -> d_expr o ts e -> d_expr o (t :: ts) (UnaryOperation (UNot t) e)
| d_nary_closed k op t ts es m :
    nary_operator k op -> kw k t -> d_operands ts es -> kw MKAY m ->
    d_expr false (t :: ts ++ [m]) (NaryOperation (op t) es (Some m))
| d_nary_open k op t ts es :
    nary_operator k op -> kw k t -> d_operands ts es ->
    d_expr true (t :: ts) (NaryOperation (op t) es None)
| d_nary_open_last k op t ts es us e :
    nary_operator k op -> kw k t -> d_operands ts es -> d_expr true us e ->
    d_expr true (t :: ts ++ us) (NaryOperation (op t) (es ++ [Operand e None]) None)
(** Operands, each followed by an optional AN. *)
with d_operands : list token -> list operand -> Prop :=
| d_no_operand : d_operands [] []
| d_operand ts e ans an us es :
    d_expr false ts e -> d_opt AN ans an -> d_operands us es ->
    d_operands (ts ++ ans ++ us) (Operand e an :: es).

Scheme d_expr_ind2 := Induction for d_expr Sort Prop
  with d_operands_ind2 := Induction for d_operands Sort Prop.
Combined Scheme d_expr_mut from d_expr_ind2, d_operands_ind2.

(** What may follow an expression with tokens [ts] on its line. *)
Definition ends_with_identifier (ts : list token) : Prop :=
  exists us x, ts = us ++ [x] /\ ident_tok x.
Definition starts_with_slot (ts : list token) : Prop :=
  exists y us, ts = y :: us /\ slot_tok y.
Definition fits (open : bool) (ts rest : list token) : Prop :=
  (open = true -> rest = []) /\ ~ (ends_with_identifier ts /\ starts_with_slot rest).

(** ** Types after ITZ *)
Inductive d_type : token -> ast_type -> Prop :=
| d_numbr t : kw NUMBR t -> d_type t (TyNumbr t)
| d_numbar t : kw NUMBAR t -> d_type t (TyNumbar t)
| d_yarn t : kw YARN t -> d_type t (TyYarn t)
| d_noob_type t : kw NOOB t -> d_type t (TyNoob t)
| d_bukkit t : kw BUKKIT t -> d_type t (TyBukkit t)
| d_troof t : kw TROOF t -> d_type t (TyTroof t).

(** ** The pieces of single-line statements *)

(** [ITZ type] or [ITZ expression] ([ITZ NOOB] is the type). *)
Inductive d_initial : list token -> option initial_value -> Prop :=
| d_no_initial : d_initial [] None
| d_initial_type itz t ty : kw ITZ itz -> d_type t ty ->
    d_initial [itz; t] (Some (InitType ty))
| d_initial_expr itz o ts e : kw ITZ itz -> d_expr o ts e ->
    (forall t, ts = [t] -> ~ kw NOOB t) ->
    d_initial (itz :: ts) (Some (InitExpression e)).

(** The arguments of VISIBLE; only the last one may be open. *)
Inductive d_exprs : bool -> list token -> list expr -> Prop :=
| d_exprs_nil : d_exprs false [] []
| d_exprs_last o ts e : d_expr o ts e -> d_exprs o ts [e]
| d_exprs_cons o ts e us es : d_expr false ts e -> d_exprs o us es -> es <> [] ->
    d_exprs o (ts ++ us) (e :: es).

(** The arguments of I IZ: [YR expression] separated by AN; an AN after the last
    one is allowed. *)
Inductive d_args : list token -> list expr -> Prop :=
| d_args_nil : d_args [] []
| d_args_last yr ts e : kw YR yr -> d_expr false ts e -> d_args (yr :: ts) [e]
| d_args_cons yr ts e an us es : kw YR yr -> d_expr false ts e -> kw AN an ->
    d_args us es -> d_args (yr :: ts ++ an :: us) (e :: es).

(** The parameters of HOW IZ I; an AN after the last one is allowed. *)
Inductive d_params : list token -> list identifier -> Prop :=
| d_params_nil : d_params [] []
| d_params_last yr ts i : kw YR yr -> d_identifier ts i -> d_params (yr :: ts) [i]
| d_params_cons yr ts i an us is : kw YR yr -> d_identifier ts i -> kw AN an ->
    d_params us is -> d_params (yr :: ts ++ an :: us) (i :: is).

(** ** Single-line statements: the whole line and its node *)
Inductive d_line : list token -> node -> Prop :=
| d_i_has_a t ts i us init : kw I_HAS_A t -> d_identifier ts i -> d_initial us init ->
    d_line (t :: ts ++ us) (NIHasA (mkIHasA t i init))
| d_visible t o ts es : kw VISIBLE t -> d_exprs o ts es ->
    d_line (t :: ts) (NVisible (mkVisible t es None))
| d_visible_bang t ts es x : kw VISIBLE t -> d_exprs false ts es -> exclamation_tok x ->
    d_line (t :: ts ++ [x]) (NVisible (mkVisible t es (Some x)))
| d_gimmeh t ts v : kw GIMMEH t -> d_va ts v ->
    d_line (t :: ts) (NGimmeh (mkGimmeh t v))
| d_found_yr t o ts e : kw FOUND_YR t -> d_expr o ts e ->
    d_line (t :: ts) (NFoundYr (mkFoundYr t e))
| d_kthxbye t : kw KTHXBYE t -> d_line [t] (NKThxBye (mkKthxbye t))
| d_gtfo t : kw GTFO t -> d_line [t] (NGtfo (mkGtfo t))
| d_i_iz t ts v us es m : kw I_IZ t -> d_va ts v -> d_args us es -> kw MKAY m ->
    d_line (t :: ts ++ us ++ [m]) (NIIz (mkIIz t v es))
| d_assignment ts v r o us e : d_va ts v -> kw R r -> d_expr o us e ->
    d_line (ts ++ r :: us) (NVariableAssignment (mkAssignment v e r))
| d_set_slot ts v h us i itz o ws e : d_va ts v -> kw HAS_A h -> d_identifier us i ->
    kw ITZ itz -> d_expr o ws e ->
    d_line (ts ++ h :: us ++ itz :: ws) (NBukkitSetSlot (mkBukkitSetSlot v i e))
| d_expression o ts e : d_expr o ts e -> d_line ts (NExpression e).

(** ** Headers of loops *)
Inductive d_iteration : list token -> option loop_iteration -> Prop :=
| d_no_iteration : d_iteration [] None
| d_uppin t yr ts v : kw UPPIN t -> kw YR yr -> d_va ts v ->
    d_iteration (t :: yr :: ts) (Some (mkLoopIteration (LUppin t) v))
| d_nerfin t yr ts v : kw NERFIN t -> kw YR yr -> d_va ts v ->
    d_iteration (t :: yr :: ts) (Some (mkLoopIteration (LNerfin t) v)).
Inductive d_condition : list token -> option loop_condition -> Prop :=
| d_no_condition : d_condition [] None
| d_til t o ts e : kw TIL t -> d_expr o ts e -> d_condition (t :: ts) (Some (LTil e))
| d_wile t o ts e : kw WILE t -> d_expr o ts e -> d_condition (t :: ts) (Some (LWile e)).

(** ** Statements, as the list of their logical lines.

    HAI, HOW IZ I and WTF? need an empty logical line after them (there are
    infinitely many at the end of the program); it is part of the statement
    here.  A block is a non-empty sequence of statements, or a sequence of
    statements after an empty line. *)
Inductive d_stmt : list (list token) -> node -> Prop :=
| d_single l n : d_line l n -> d_stmt [l] n
| d_hai t version : kw HAI t -> d_stmt [t :: version; []] (NHai (mkHai t version))
| d_loop t label its it cs cond ls ns imo end_label :
    kw IM_IN_YR t -> ident_tok label -> d_iteration its it -> d_condition cs cond ->
    d_block ls ns -> kw IM_OUTTA_YR imo -> ident_tok end_label ->
    d_stmt ((t :: label :: its ++ cs) :: ls ++ [[imo; end_label]])
           (NImInYr (ImInYr t label it cond (ASTBlock ns) end_label))
| d_function t ts i us params ls ns e :
    kw HOW_IZ_I t -> d_identifier ts i -> d_params us params ->
    d_block ls ns -> kw IF_U_SAY_SO e ->
    d_stmt ((t :: ts ++ us) :: ls ++ [[e]; []])
           (NHowIzI (HowIzI t i params (ASTBlock ns)))
| d_wtf t q ls omgs ms default e :
    kw WTF t -> question_tok q -> d_omgs ls omgs -> d_default ms default -> kw OIC e ->
    d_stmt ([t; q] :: ls ++ ms ++ [[e]; []]) (NWtf (Wtf t omgs default))
| d_o_rly t q ls yes ms mebbes ks no e :
    kw O_RLY t -> question_tok q -> d_ya_rly ls yes -> d_mebbes ms mebbes ->
    d_no_wai ks no -> kw OIC e ->
    d_stmt ([t; q] :: ls ++ ms ++ ks ++ [[e]]) (NORly (ORly t yes no mebbes))
with d_block : list (list token) -> list node -> Prop :=
| d_block_stmts ls ns : d_stmts ls ns -> ns <> [] -> d_block ls ns
| d_block_empty_line ls ns : d_stmts ls ns -> d_block ([] :: ls) ns
with d_stmts : list (list token) -> list node -> Prop :=
| d_stmts_nil : d_stmts [] []
| d_stmts_cons ls n ms ns : d_stmt ls n -> d_stmts ms ns -> d_stmts (ls ++ ms) (n :: ns)
with d_omgs : list (list token) -> list wtf_omg -> Prop :=
| d_omgs_nil : d_omgs [] []
| d_omgs_cons t o ts e ls ns ms omgs :
    kw OMG t -> d_expr o ts e -> d_block ls ns -> d_omgs ms omgs ->
    d_omgs ((t :: ts) :: ls ++ ms) (WtfOmg t e (ASTBlock ns) :: omgs)
with d_default : list (list token) -> option wtf_omg_wtf -> Prop :=
| d_no_default : d_default [] None
| d_omg_wtf t ls ns : kw OMGWTF t -> d_block ls ns ->
    d_default ([t] :: ls) (Some (WtfOmgWtf t (ASTBlock ns)))
with d_ya_rly : list (list token) -> option ya_rly -> Prop :=
| d_no_ya_rly : d_ya_rly [] None
| d_ya t ls ns : kw YA_RLY t -> d_block ls ns ->
    d_ya_rly ([t] :: ls) (Some (YaRly t (ASTBlock ns)))
with d_mebbes : list (list token) -> list mebbe -> Prop :=
| d_mebbes_nil : d_mebbes [] []
| d_mebbes_cons t o ts e ls ns ms mebbes :
    kw MEBBE t -> d_expr o ts e -> d_block ls ns -> d_mebbes ms mebbes ->
    d_mebbes ((t :: ts) :: ls ++ ms) (Mebbe t e (ASTBlock ns) :: mebbes)
with d_no_wai : list (list token) -> option no_wai -> Prop :=
| d_no_no_wai : d_no_wai [] None
| d_no t ls ns : kw NO_WAI t -> d_block ls ns ->
    d_no_wai ([t] :: ls) (Some (NoWai t (ASTBlock ns))).

Scheme d_stmt_ind2 := Induction for d_stmt Sort Prop
  with d_block_ind2 := Induction for d_block Sort Prop
  with d_stmts_ind2 := Induction for d_stmts Sort Prop
  with d_omgs_ind2 := Induction for d_omgs Sort Prop
  with d_default_ind2 := Induction for d_default Sort Prop
  with d_ya_rly_ind2 := Induction for d_ya_rly Sort Prop
  with d_mebbes_ind2 := Induction for d_mebbes Sort Prop
  with d_no_wai_ind2 := Induction for d_no_wai Sort Prop.
Combined Scheme d_stmt_mut from d_stmt_ind2, d_block_ind2, d_stmts_ind2, d_omgs_ind2,
  d_default_ind2, d_ya_rly_ind2, d_mebbes_ind2, d_no_wai_ind2.

(** ** Programs: the parser reads a block up to the first empty logical line
    that follows a statement; [k] empty lines stand for the end of the input. *)
Definition d_program (ls : list (list token)) (ns : list node) : Prop :=
  exists k block rest, ls ++ repeat [] k = block ++ [] :: rest /\ d_block block ns.
