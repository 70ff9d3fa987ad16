(** Specification: sources by the types of the tokens on their lines, and the
    ASTs of the statements of the documentation, up to positions. *)
From Coq Require Import String.
From Verif Require Export SourceSpec Grammar.
From Verif Require Import Lexer Api Lines.
Local Open Scope list_scope.

(** [code] has these lines: the types of the tokens on its logical lines.  The
    layout is free. *)
Definition source_with (ls : list (list token_type)) (code : str) : Prop :=
  exists ts, tokenize code = LexOk ts /\ map (map tok_type) (logical_lines ts) = ls.
(** What [tokenize_and_parse] returns, up to positions. *)
Definition outcome (code : str) : api_result := map_api erase (tokenize_and_parse code).

(** Token types. *)
Definition name_ (s : str) : token_type := TIdentifier s.
Definition value_ (v : token_value) : token_type := TValue v.
Definition question_ : token_type := TSymbol (lit "?").
Definition comment_ (s : str) : token_type := TCommentSingleLine s.

(** Expressions. *)
Definition the_name (s : str) : identifier := mkIdentifier (bare (name_ s)) None.
Definition the_variable (s : str) : variable_access := mkVA (the_name s) [].
Definition variable_ (s : str) : expr := Value (VariableAccess (the_variable s)).
Definition literal_ (v : token_value) : expr := Value (LiteralValue (bare (value_ v))).
Definition both_saem_ (l r : expr) : expr :=
  BinaryOperation l (BothSaem (bare (TKeyword BOTH_SAEM))) r (Some (bare (TKeyword AN))).
Definition key (k : keyword) : token := bare (TKeyword k).
