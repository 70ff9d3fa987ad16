(** Specification: a formatter.  The AST of a source is written back as text:
    one statement per line and one tab between tokens, with the texts of numbers
    copied from the source. *)
From Coq Require Import String.
From Verif Require Export Unparse SourceSpec.

(** The characters of [code] in the range of [t]. *)
Definition slice (code : str) (t : token) : str :=
  firstn (Z.to_nat (chars (end_of t) - chars (start_of t))) (skipn (Z.to_nat (chars (start_of t))) code).

Definition source_text (code : str) (t : token) : str :=
  match tok_type t with
  | TIdentifier s => s
  | TKeyword k => spelling k
  | TSymbol s => s
  | TValue (VNumber _) => slice code t
  | TValue (VString s) => quote :: s ++ [quote]
  | TValue (VBoolean true) => lit "WIN"
  | TValue (VBoolean false) => lit "FAIL"
  | TValue VNoob => lit "NOOB"
  | TCommentSingleLine s => lit "BTW" ++ s
  | TCommentMultiLine s => lit "OBTW" ++ s ++ lit "TLDR"
  | TBukkitSlotAccess => lit "'Z"
  | TEllipsis => lit "..."
  | TComma => lit ","
  | TExclamationMark => lit "!"
  | TQuestionMark => lit "?"
  end.

Definition format (code : str) (ns : list node) : str :=
  print_program (source_text code) (unparse_block (ASTBlock ns)).

(** After HAI anything may be written.  The formatter does not do single-line
    comments there, nor digits that are not part of a number. *)
Definition plain_version (t : token) : Prop :=
  match tok_type t with
  | TCommentSingleLine _ => False
  | TSymbol s => ~ Exists digit s
  | _ => True
  end.
