(** Specification: the lines of a [{:#?}] text, each with the level at which it
    stands.  The name of a value opens a level, its bracket closes it, and
    between them every part has lines of its own, the last one with a comma. *)
From Coq Require Import String.
From Verif Require Export Debug.
Local Open Scope list_scope.

(** Four spaces for each level. *)
Definition indent (level : nat) : str := repeat 32%N (4 * level).
(** Lines with line feeds between them. *)
Fixpoint written_lines (ls : list (nat * str)) : str :=
  match ls with
  | [] => []
  | [(k, s)] => indent k ++ s
  | (k, s) :: ls' => indent k ++ s ++ [10%N] ++ written_lines ls'
  end.

Definition deeper (ls : list (nat * str)) : list (nat * str) := map (fun l => (S (fst l), snd l)) ls.
(** [x] before the first line, or after the last *)
Definition with_first (x : str) (ls : list (nat * str)) : list (nat * str) :=
  match ls with
  | [] => []
  | (k, s) :: ls' => (k, x ++ s) :: ls'
  end.
Fixpoint with_last (ls : list (nat * str)) (x : str) : list (nat * str) :=
  match ls with
  | [] => []
  | [(k, s)] => [(k, s ++ x)]
  | l :: ls' => l :: with_last ls' x
  end.

(** The lines of a text. *)
Fixpoint split_lines (s : str) : list str :=
  match s with
  | [] => [[]]
  | c :: s' =>
    if N.eqb c 10 then [] :: split_lines s'
    else match split_lines s' with
         | l :: ls => (c :: l) :: ls
         | [] => [[c]]
         end
  end.
Definition as_written (s : str) : list (nat * str) := map (pair 0) (split_lines s).

Section Layout.
  Variable shown : char -> bool.
  Fixpoint layout (d : dbg) : list (nat * str) :=
    match d with
    | DTuple name x =>
      (0, lit name ++ lit "(") :: deeper (with_last (layout x) (lit ",")) ++ [(0, lit ")")]
    | DStruct name fields =>
      (0, lit name ++ lit " {") ::
      flat_map (fun fx => deeper (with_last (with_first (lit (fst fx) ++ lit ": ") (layout (snd fx)))
                                            (lit ","))) fields
      ++ [(0, lit "}")]
    | DList [] => [(0, lit "[]")]
    | DList xs =>
      (0, lit "[") :: flat_map (fun x => deeper (with_last (layout x) (lit ","))) xs ++ [(0, lit "]")]
    | DString s => [(0, string_debug shown s)]
    | DLeaf s => [(0, s)]
    | DRange text => as_written text
    | DToken range x => as_written (range ++ print shown x ++ [10%N])
    end.
End Layout.
