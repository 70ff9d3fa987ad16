(** Specification of [==]: two values are equal if they agree once the bytes
    and chars of all positions and the sign of all zeros are forgotten, and no
    NaN occurs in them. *)
From Verif Require Export NodeTokens Relabel.
From Verif Require Import LexSpec.

Definition canon_position (p : position) : position := mkPos (line p) (column p) 0 0.
Definition canon_range (r : range) : range :=
  mkRange (canon_position (r_start r)) (canon_position (r_end r)).
Definition canon_type (t : token_type) : token_type :=
  match t with
  | TValue (VNumber (Float (S754_zero _))) => TValue (VNumber (Float (S754_zero false)))
  | _ => t
  end.
Definition canon (t : token) : token := mkToken (canon_type (tok_type t)) (canon_range (tok_range t)).

Definition is_nan (t : token) : Prop := tok_type t = TValue (VNumber (Float S754_nan)).
Definition no_nan (ts : list token) : Prop := Forall (fun t => ~ is_nan t) ts.

(** The decimal spelling of a number: no leading zero, no plus, no -0. *)
Definition spells (s : str) (z : Z) : Prop :=
  exists neg ds, s = (if neg : bool then [45%N] else []) ++ ds /\ ds <> [] /\ Forall digit ds /\
    (forall r, ds = 48%N :: r -> r = []) /\ (neg = true -> (z < 0)%Z) /\ z = signed neg (dec ds).
