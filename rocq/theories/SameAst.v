(** Specification: what the AST of a program without errors does not tell. *)
From Verif Require Export Grammar Relabel.

(** A line of a function definition or call without the AN after its last
    parameter or argument. *)
Definition trim (l : list token) : list token :=
  match l with
  | [] => []
  | t :: _ =>
    if is_kw HOW_IZ_I t then
      match rev l with a :: m => if is_kw AN a then rev m else l | [] => l end
    else if is_kw I_IZ t then
      match rev l with k :: a :: m => if is_kw AN a then rev m ++ [k] else l | _ => l end
    else l
  end.

Definition not_empty (l : list token) : bool := match l with [] => false | _ => true end.

(** The token types of the lines, without empty lines and such ANs. *)
Definition essence (ls : list (list token)) : list (list token_type) :=
  map (fun l => map tok_type (trim l)) (filter not_empty ls).
