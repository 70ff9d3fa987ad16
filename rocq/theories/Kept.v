(** Specification: the tokens that an AST has to contain. *)
From Coq Require Import String.
From Verif Require Export NodeTokens.
Local Open Scope string_scope.
Local Open Scope list_scope.

(** All tokens but separators, the question mark, and the keywords between and
    after the parts of a statement.  Some of the keywords are stored in some
    places ([AN] and [MKAY] of operations). *)
Definition kept (t : token) : bool :=
  match tok_type t with
  | TComma | TEllipsis => false
  | TSymbol s => if list_eq_dec N.eq_dec s (lit "?") then false else true
  | TKeyword (AN | YR | MKAY | ITZ | HAS_A | TIL | WILE | OIC | IF_U_SAY_SO | IM_OUTTA_YR) => false
  | _ => true
  end.
