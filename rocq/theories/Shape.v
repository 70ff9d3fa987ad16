(** Specification: the shape of the ASTs of the parser.  Every token is of the
    kind that its field is for; an n-ary operation without MKAY is only found
    at the end of a statement or of a header. *)
From Verif Require Export Grammar.

Definition opt_kw (k : keyword) (o : option token) : Prop :=
  match o with Some t => kw k t | None => True end.

Definition identifier_shape (i : identifier) : Prop := ident_tok (id_name i) /\ opt_kw SRS (id_srs i).
Definition slot_shape (s : va_slot) : Prop :=
  slot_tok (slot_access_token s) /\ identifier_shape (slot_identifier s).
Definition va_shape (v : variable_access) : Prop :=
  identifier_shape (va_identifier v) /\ Forall slot_shape (va_accesses v).

Definition binary_shape (o : binary_opt) : Prop :=
  match o with
  | BothOf t => kw BOTH_OF t
  | EitherOf t => kw EITHER_OF t
  | WonOf t => kw WON_OF t
  | SumOf t => kw SUM_OF t
  | DiffOf t => kw DIFF_OF t
  | ProduktOf t => kw PRODUKT_OF t
  | QuoshuntOf t => kw QUOSHUNT_OF t
  | ModOf t => kw MOD_OF t
  | BiggrOf t => kw BIGGR_OF t
  | SmallrOf t => kw SMALLR_OF t
  | BothSaem t => kw BOTH_SAEM t
  | Diffrint t => kw DIFFRINT t
  end.
Definition unary_shape (o : unary_opt) : Prop := match o with UNot t => kw Keywords.NOT t end.
Definition nary_shape (o : nary_opt) : Prop :=
  match o with
  | AllOf t => kw ALL_OF t
  | AnyOf t => kw ANY_OF t
  | Smoosh t => kw SMOOSH t
  end.

(** The expression ends in an n-ary operation without MKAY. *)
Fixpoint unclosed (e : expr) : bool :=
  match e with
  | BinaryOperation _ _ r _ => unclosed r
  | UnaryOperation _ x => unclosed x
  | NaryOperation _ _ None => true
  | _ => false
  end.

Fixpoint expr_shape (e : expr) : Prop :=
  match e with
  | Value (VariableAccess v) => va_shape v
  | Value (LiteralValue t) => value_tok t \/ kw NOOB t
  | UnaryOperation o x => unary_shape o /\ expr_shape x
  | BinaryOperation l o r an =>
    binary_shape o /\ expr_shape l /\ unclosed l = false /\ opt_kw AN an /\ expr_shape r
  | NaryOperation o es mkay =>
    nary_shape o /\ opt_kw MKAY mkay /\
    (fix operands (es : list operand) : Prop :=
       match es with
       | [] => True
       | Operand x an :: es' =>
         expr_shape x /\ opt_kw AN an /\
         (unclosed x = true -> mkay = None /\ an = None /\ es' = []) /\ operands es'
       end) es
  end.

Definition type_shape (ty : ast_type) : Prop :=
  match ty with
  | TyBukkit t => kw BUKKIT t
  | TyNumbr t => kw NUMBR t
  | TyNumbar t => kw NUMBAR t
  | TyYarn t => kw YARN t
  | TyTroof t => kw TROOF t
  | TyNoob t => kw NOOB t
  end.
(** The initial value NOOB is a type when it is the keyword. *)
Definition initial_shape (i : option initial_value) : Prop :=
  match i with
  | None => True
  | Some (InitType ty) => type_shape ty
  | Some (InitExpression e) => expr_shape e /\ forall t, e = Value (LiteralValue t) -> ~ kw NOOB t
  end.

(** Several expressions on a line, with something after them or not. *)
Fixpoint exprs_shape (es : list expr) : Prop :=
  match es with
  | [] => True
  | e :: es' => expr_shape e /\ (unclosed e = true -> es' = []) /\ exprs_shape es'
  end.
Definition closed_exprs (es : list expr) : Prop := Forall (fun e => expr_shape e /\ unclosed e = false) es.

Definition iteration_shape (x : option loop_iteration) : Prop :=
  match x with
  | None => True
  | Some i => match li_operation i with LUppin t => kw UPPIN t | LNerfin t => kw NERFIN t end /\ va_shape (li_operand i)
  end.
Definition condition_shape (x : option loop_condition) : Prop :=
  match x with Some (LTil e) | Some (LWile e) => expr_shape e | None => True end.

(** Error nodes are not restricted here. *)
Fixpoint node_shape (n : node) : Prop :=
  match n with
  | NIHasA x =>
    kw I_HAS_A (ihasa_token x) /\ identifier_shape (ihasa_identifier x) /\ initial_shape (ihasa_initial_value x)
  | NHai x => kw HAI (hai_token x)
  | NImInYr x => im_in_yr_shape x
  | NBukkitSetSlot x => va_shape (bss_bukkit x) /\ identifier_shape (bss_slot_name x) /\ expr_shape (bss_value x)
  | NVariableAssignment x =>
    va_shape (asg_variable_access x) /\ kw R (asg_r_token x) /\ expr_shape (asg_expression x)
  | NVisible x =>
    kw VISIBLE (visible_token x) /\
    match visible_exclamation_mark x with
    | None => exprs_shape (visible_expressions x)
    | Some t => exclamation_tok t /\ closed_exprs (visible_expressions x)
    end
  | NFoundYr x => kw FOUND_YR (found_yr_token x) /\ expr_shape (found_yr_expression x)
  | NWtf x => wtf_shape x
  | NORly x => o_rly_shape x
  | NIIz x => kw I_IZ (iiz_token x) /\ va_shape (iiz_name x) /\ closed_exprs (iiz_arguments x)
  | NHowIzI x => how_iz_i_shape x
  | NGtfo x => kw GTFO (gtfo_token x)
  | NGimmeh x => kw GIMMEH (gimmeh_token x) /\ va_shape (gimmeh_variable_access x)
  | NExpression e => expr_shape e
  | NASTError _ => True
  | NKThxBye x => kw KTHXBYE (kthxbye_token x)
  end
with block_shape (b : block) : Prop :=
  match b with
  | ASTBlock ns => (fix all ns := match ns with [] => True | n :: ns' => node_shape n /\ all ns' end) ns
  end
with im_in_yr_shape (x : im_in_yr) : Prop :=
  match x with
  | ImInYr t label it cond b el =>
    kw IM_IN_YR t /\ ident_tok label /\ iteration_shape it /\ condition_shape cond /\ block_shape b /\ ident_tok el
  end
with wtf_shape (x : wtf) : Prop :=
  match x with
  | Wtf t omgs default =>
    kw WTF t /\
    (fix all xs := match xs with [] => True | x :: xs' => wtf_omg_shape x /\ all xs' end) omgs /\
    match default with Some d => wtf_omg_wtf_shape d | None => True end
  end
with wtf_omg_shape (x : wtf_omg) : Prop :=
  match x with WtfOmg t e b => kw OMG t /\ expr_shape e /\ block_shape b end
with wtf_omg_wtf_shape (x : wtf_omg_wtf) : Prop :=
  match x with WtfOmgWtf t b => kw OMGWTF t /\ block_shape b end
with o_rly_shape (x : o_rly) : Prop :=
  match x with
  | ORly t yes no mebbes =>
    kw O_RLY t /\
    match yes with Some y => ya_rly_shape y | None => True end /\
    match no with Some y => no_wai_shape y | None => True end /\
    (fix all xs := match xs with [] => True | x :: xs' => mebbe_shape x /\ all xs' end) mebbes
  end
with ya_rly_shape (x : ya_rly) : Prop := match x with YaRly t b => kw YA_RLY t /\ block_shape b end
with no_wai_shape (x : no_wai) : Prop := match x with NoWai t b => kw NO_WAI t /\ block_shape b end
with mebbe_shape (x : mebbe) : Prop := match x with Mebbe t e b => kw MEBBE t /\ expr_shape e /\ block_shape b end
with how_iz_i_shape (x : how_iz_i) : Prop :=
  match x with
  | HowIzI t i params b =>
    kw HOW_IZ_I t /\ identifier_shape i /\ Forall identifier_shape params /\ block_shape b
  end.
