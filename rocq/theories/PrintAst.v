(** Specification for C87: a printer.  It writes an AST as text, one statement per
    line and one tab between tokens, and needs nothing but the AST. *)
From Coq Require Import String ZArith Floats.SpecFloat.
From Verif Require Export Unparse SourceSpec FloatText.

Local Open Scope list_scope.

(** A literal for each float: the digits of its [Debug] text, without exponent.
    Infinity is [10^39]. *)
Definition float_literal (x : spec_float) : str :=
  match x with
  | S754_nan => []
  | S754_infinity s => sign_str s ++ (49%N :: repeat 48%N 39) ++ lit ".0"
  | S754_zero s => sign_str s ++ lit "0.0"
  | S754_finite s m e =>
    let (d, k) := shortest_digits m e in
    sign_str s ++ digits_to_dec_str (i32_text d) (k + Z.of_nat (List.length (i32_text d)))
  end.

Definition type_text (ty : token_type) : str :=
  match ty with
  | TIdentifier s => s
  | TKeyword k => spelling k
  | TSymbol s => s
  | TValue (VNumber (Token.Int n)) => i32_text n
  | TValue (VNumber (Token.Float x)) => float_literal x
  | TValue (VString s) => quote :: s ++ [quote]
  | TValue (VBoolean true) => lit "WIN"
  | TValue (VBoolean false) => lit "FAIL"
  | TValue VNoob => lit "NOOB"
  | TCommentSingleLine s => lit "BTW" ++ s
  | TCommentMultiLine s => lit "OBTW" ++ s ++ lit "TLDR"
  | TBukkitSlotAccess => lit "'Z"
  | TEllipsis => lit "..."
  | TComma => lit ","
  | TExclamationMark => lit "!"
  | TQuestionMark => lit "?"
  end.

Definition print_ast (ns : list node) : str :=
  print_program (fun t => type_text (tok_type t)) (unparse_block (ASTBlock ns)).
