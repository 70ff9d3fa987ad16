(** Specification: sources that consist of whole lines, and results up to the
    byte and character offsets of tokens. *)
From Coq Require Import ZArith List.
From Verif Require Export LexPropSpec Lines SourceSpec LineEffect.
From Verif Require Import Api.
Import ListNotations.
Local Open Scope Z_scope.

(** The source [s], with the tokens [ts], is made of whole lines: it is empty, or
    it ends with a newline that is part of no token and does not follow an
    ellipsis. *)
Definition whole_lines (s : str) (ts : list token) : Prop :=
  s = [] /\ ts = [] \/
  exists s0, s = s0 ++ [newline] /\ tokenize s = LexOk ts /\
    Forall (fun t => bytes (end_of t) <= Z.of_nat (byte_len s0)) ts /\
    forall ts0 t, ts = ts0 ++ [t] -> is_ellipsis t = false.

(** The source [s] is one line, with the tokens [l], which are one statement. *)
Definition one_line (s : str) (l : list token) : Prop :=
  whole_lines s l /\ statements l = [l] /\ line (pos_at l s) = 2.

(** A token with the type, lines and columns of [t]. *)
Definition no_offsets (p : position) : position := mkPos (line p) (column p) 0 0.
Definition drop_offsets (t : token) : token :=
  mkToken (tok_type t) (mkRange (no_offsets (r_start (tok_range t))) (no_offsets (r_end (tok_range t)))).

(** The tokens [l] of a line, where the line comes after a source that ends at
    [b]. *)
Definition placed (b : position) (l : list token) : list token := map (fun t => drop_offsets (shift_token b t)) l.

Definition api_of (r : parse_result) : api_result :=
  match r with ParseOk b => ApiOk b | ParsePanic _ => ApiPanic | ParseFuel => ApiFuel end.

(** The source [s] is whole lines, does not start with a comma, and its logical
    lines are [ls], without the positions of tokens. *)
Definition lines_of (s : str) (ls : list (list token)) : Prop :=
  exists ts, whole_lines s ts /\ (exists t r, ts = t :: r /\ is_comma t = false) /\
    ls = map (map erase) (statements ts).
