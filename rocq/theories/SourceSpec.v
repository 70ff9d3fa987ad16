(** Specification: the lines of a printed source, and a printer of lines of
    tokens. *)
From Coq Require Import String.
From Verif Require Export LexPropSpec Relabel.
From Verif Require Import Api.

Definition printed_type (x : printed) : token_type := fst (fst x).
Definition printed_sep (x : printed) : str := snd x.
Definition comma_type (ty : token_type) : bool := match ty with TComma => true | _ => false end.
Definition ellipsis_type (ty : token_type) : bool := match ty with TEllipsis => true | _ => false end.
Definition breaks (sep : str) : bool := existsb (N.eqb newline) sep.

(** The token [x] printed before [y] is on the same line as [y]: no comma among
    them, and no newline between them except after an ellipsis. *)
Definition same_statement (x y : printed) : bool :=
  negb (comma_type (printed_type x)) && negb (comma_type (printed_type y)) &&
  (ellipsis_type (printed_type x) || negb (breaks (printed_sep x))).

Fixpoint cut (xs : list printed) : list (list printed) :=
  match xs with
  | [] => []
  | x :: xs' =>
    match cut xs' with
    | (y :: g) :: gs => if same_statement x y then (x :: y :: g) :: gs else [x] :: (y :: g) :: gs
    | _ => [[x]]
    end
  end.

(** The token types on each line: commas end lines and are not part of them,
    ellipses are dropped, and a source that starts with a comma starts with an
    empty line. *)
Definition printed_lines (xs : list printed) : list (list token_type) :=
  match xs with
  | x :: _ => if comma_type (printed_type x) then [[]] else []
  | [] => []
  end ++
  map (fun g => filter (fun ty => negb (ellipsis_type ty)) (map printed_type g))
      (filter (fun g => negb (existsb (fun x => comma_type (printed_type x)) g)) (cut xs)).

(** A token of a type, without a position. *)
Definition bare (ty : token_type) : token := mkToken ty (mkRange position_start position_start).

Definition map_api (f : token -> token) (r : api_result) : api_result :=
  match r with ApiOk b => ApiOk (map_block f b) | r => r end.

(** ** A printer.  [w] gives the text of each token.  Tokens are separated by
    tabs and lines by newlines; an empty line is [...] and a comma. *)
Definition tab : str := [9%N].
Definition eol : str := [10%N].
Fixpoint print_tokens (w : token -> str) (l : list token) : list printed :=
  match l with
  | [] => []
  | [t] => [(tok_type t, w t, eol)]
  | t :: l' => (tok_type t, w t, tab) :: print_tokens w l'
  end.
Definition print_line (w : token -> str) (l : list token) : list printed :=
  match l with
  | [] => [(TEllipsis, lit "...", tab); (TComma, lit ",", eol)]
  | _ => print_tokens w l
  end.
Definition print_program (w : token -> str) (ls : list (list token)) : str :=
  print (flat_map (print_line w) ls).

(** [w] is a text for [t], and [t] does not affect what is on the line. *)
Definition writable (w : token -> str) (t : token) : Prop :=
  Writes (tok_type t) (w t) /\ tok_type t <> TComma /\ tok_type t <> TEllipsis /\
  (forall s, tok_type t <> TCommentSingleLine s).
(** [t] can be written on a line before other tokens. *)
Definition written (t : token) : Prop := exists w, writable w t.
