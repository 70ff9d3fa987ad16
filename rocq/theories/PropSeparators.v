(** C21, continued: the separators that Lines.v is written with are the comma and
    the ellipsis tokens, and lines are compared by where tokens start. *)
From Verif Require Import Str Token Lexer Lines PropParser.

Theorem C21_separators t :
  (is_comma t = true <-> tok_type t = TComma) /\ (is_ellipsis t = true <-> tok_type t = TEllipsis) /\
  tok_line t = line (r_start (tok_range t)).
Proof. unfold is_comma, is_ellipsis, tok_line, start_line. destruct (tok_type t); repeat split; congruence. Qed.
Print Assumptions C21_separators.
Example C21_separators_case : is_comma dummy = true /\ is_ellipsis dummy = false.
Proof. split; reflexivity. Qed.
