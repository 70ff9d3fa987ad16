(** Specification: the tokens that programs without errors are made of. *)
From Coq Require Import String.
From Verif Require Export Token.
Local Open Scope string_scope.

(** Not in the vocabulary: comments, symbols but the question mark, and some
    keywords: those of comments and boolean literals, which are tokens of other
    types, and those of casts and of ITZ A, which the parser does not know. *)
Definition vocabulary (ty : token_type) : Prop :=
  match ty with
  | TIdentifier _ | TValue _ | TBukkitSlotAccess | TExclamationMark => True
  | TSymbol s => s = lit "?"
  | TKeyword k => ~ In k [BTW; OBTW; TLDR; WIN; FAIL; MAEK; IS_NOW; A]
  | TCommentSingleLine _ | TCommentMultiLine _ | TEllipsis | TComma | TQuestionMark => False
  end.

(** The characters outside strings: letters, digits, whitespace and those of
    numbers, ['Z], separators, [!] and [?]. *)
From Verif Require Export LexSpec.
Definition plain_char (c : char) : Prop := letter c \/ digit c \/ ws c \/ In c (lit "+-.',!?").
