(** Specification for C88: a normal form of sources.  The lines of tokens are
    written one per line, with one tab between tokens.  It is defined for all
    vectors of tokens, also those of programs with errors. *)
From Coq Require Import String.
From Verif Require Export Lines PrintAst.
Local Open Scope list_scope.

Definition normal (ts : list token) : str :=
  print_program (fun t => type_text (tok_type t)) (logical_lines ts).

(** Tokens that can be written before others.  Digits that are not part of a
    number cannot, nor can the text of a string that ends in a colon. *)
Definition ordinary (ty : token_type) : Prop :=
  match ty with
  | TSymbol s => ~ Exists digit s
  | TValue (VString s) => ascii_str s /\ StringBody s
  | _ => True
  end.
