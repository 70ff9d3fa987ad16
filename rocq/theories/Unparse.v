(** Specification: the lines of tokens of an AST without errors.  Tokens that
    the AST does not store are made up. *)
From Coq Require Import String.
From Verif Require Export NodeTokens SourceSpec.
Local Open Scope list_scope.

Definition word (k : keyword) : token := bare (TKeyword k).
Definition question : token := bare (TSymbol (lit "?")).

Definition unparse_initial (i : option initial_value) : list token :=
  match i with
  | None => []
  | Some (InitType ty) => [word ITZ; ast_type_token ty]
  | Some (InitExpression e) => word ITZ :: expr_tokens e
  end.
(** [YR x AN YR y ...] *)
Fixpoint unparse_list (l : list (list token)) : list token :=
  match l with
  | [] => []
  | [x] => word YR :: x
  | x :: l' => word YR :: x ++ word AN :: unparse_list l'
  end.
Definition unparse_iteration (x : option loop_iteration) : list token :=
  match x with
  | None => []
  | Some i => loop_operation_token (li_operation i) :: word YR :: va_tokens (li_operand i)
  end.
Definition unparse_condition (x : option loop_condition) : list token :=
  match x with
  | None => []
  | Some (LTil e) => word TIL :: expr_tokens e
  | Some (LWile e) => word WILE :: expr_tokens e
  end.

Fixpoint unparse (n : node) : list (list token) :=
  match n with
  | NIHasA x => [ihasa_token x :: identifier_tokens (ihasa_identifier x) ++ unparse_initial (ihasa_initial_value x)]
  | NHai x => [hai_token x :: hai_version x; []]
  | NImInYr x => unparse_im_in_yr x
  | NBukkitSetSlot x =>
    [va_tokens (bss_bukkit x) ++ word HAS_A :: identifier_tokens (bss_slot_name x) ++
     word ITZ :: expr_tokens (bss_value x)]
  | NVariableAssignment x => [assignment_tokens x]
  | NVisible x => [visible_tokens x]
  | NFoundYr x => [found_yr_tokens x]
  | NWtf x => unparse_wtf x
  | NORly x => unparse_o_rly x
  | NIIz x => [iiz_token x :: va_tokens (iiz_name x) ++ unparse_list (map expr_tokens (iiz_arguments x)) ++ [word MKAY]]
  | NHowIzI x => unparse_how_iz_i x
  | NGtfo x => [[gtfo_token x]]
  | NGimmeh x => [gimmeh_tokens x]
  | NExpression e => [expr_tokens e]
  | NASTError _ => []
  | NKThxBye x => [[kthxbye_token x]]
  end
(** A block without statements needs an empty line. *)
with unparse_block (b : block) : list (list token) :=
  match b with
  | ASTBlock [] => [[]]
  | ASTBlock ns => flat_map unparse ns
  end
with unparse_im_in_yr (x : im_in_yr) : list (list token) :=
  match x with
  | ImInYr t label it cond b el =>
    (t :: label :: unparse_iteration it ++ unparse_condition cond) ::
    unparse_block b ++ [[word IM_OUTTA_YR; el]]
  end
with unparse_wtf (x : wtf) : list (list token) :=
  match x with
  | Wtf t omgs default =>
    [t; question] ::
    flat_map unparse_omg omgs ++ match default with Some d => unparse_omg_wtf d | None => [] end ++ [[word OIC]; []]
  end
with unparse_omg (x : wtf_omg) : list (list token) :=
  match x with WtfOmg t e b => (t :: expr_tokens e) :: unparse_block b end
with unparse_omg_wtf (x : wtf_omg_wtf) : list (list token) :=
  match x with WtfOmgWtf t b => [t] :: unparse_block b end
with unparse_o_rly (x : o_rly) : list (list token) :=
  match x with
  | ORly t yes no mebbes =>
    [t; question] ::
    match yes with Some y => unparse_ya_rly y | None => [] end ++
    flat_map unparse_mebbe mebbes ++
    match no with Some y => unparse_no_wai y | None => [] end ++ [[word OIC]]
  end
with unparse_ya_rly (x : ya_rly) : list (list token) := match x with YaRly t b => [t] :: unparse_block b end
with unparse_no_wai (x : no_wai) : list (list token) := match x with NoWai t b => [t] :: unparse_block b end
with unparse_mebbe (x : mebbe) : list (list token) :=
  match x with Mebbe t e b => (t :: expr_tokens e) :: unparse_block b end
with unparse_how_iz_i (x : how_iz_i) : list (list token) :=
  match x with
  | HowIzI t i params b =>
    (t :: identifier_tokens i ++ unparse_list (map identifier_tokens params)) ::
    unparse_block b ++ [[word IF_U_SAY_SO]; []]
  end.

(** The tokens after HAI, at any depth. *)
Definition version_tokens (n : node) : list token := match n with NHai x => hai_version x | _ => [] end.
Definition versions (b : block) : list token := flat_map version_tokens (block_all b).
