(** Specification for C86: what a decimal text of a float stands for, and which
    decimals are read as which float. *)
From Coq Require Import String ZArith Reals Floats.SpecFloat.
From Flocq Require Import Core.Core IEEE754.BinarySingleNaN.
From Verif Require Export FloatText LexSpec FloatRounding DebugSpec.

Local Open Scope Z_scope.
Local Open Scope list_scope.

(** The part of a text before a character, and the part after it. *)
Fixpoint cut (c : char) (s : str) : str * option str :=
  match s with
  | [] => ([], None)
  | x :: r => if N.eqb x c then ([], Some r) else let (a, b) := cut c r in (x :: a, b)
  end.
Definition number (s : str) : option Z :=
  if forallb (fun c => (48 <=? c) && (c <=? 57))%N s && negb (match s with [] => true | _ => false end)
  then Some (dec s) else None.
Definition minus (s : str) : bool * str :=
  match s with
  | c :: r => if N.eqb c 45 then (true, r) else (false, s)
  | [] => (false, [])
  end.

(** [Some (neg, d, k)]: the text is [(-1)^neg * d * 10^k], written with digits, at
    most one point, and an optional exponent after the letter e. *)
Definition read_decimal (s : str) : option (bool * Z * Z) :=
  let (neg, r) := minus s in
  let (a, x) := cut 101%N r in
  let (ip, fp) := cut 46%N a in
  let fs := match fp with Some f => f | None => [] end in
  match number (ip ++ fs), x with
  | Some d, None => Some (neg, d, - Z.of_nat (length fs))
  | Some d, Some t =>
    let (n, u) := minus t in
    match number u with Some z => Some (neg, d, signed n z - Z.of_nat (length fs)) | None => None end
  | None, _ => None
  end.

Local Open Scope R_scope.

Definition radix10 : radix := Build_radix 10 eq_refl.
Definition value (d k : Z) : Rdefinitions.R := IZR d * bpow radix10 k.

(** [x] is the binary32 number nearest to [(-1)^neg * d * 10^k], the one with
    even mantissa in a tie, infinity if that is too large. *)
Definition nearest (neg : bool) (d k : Z) (x : spec_float) : Prop :=
  valid_binary 24 128 x = true /\
  (Rabs (round32 (value d k)) < bpow radix2 128 ->
     is_finite_SF x = true /\ sign_SF x = neg /\ SF2R radix2 x = (if neg then - round32 (value d k) else round32 (value d k))) /\
  (~ Rabs (round32 (value d k)) < bpow radix2 128 -> x = S754_infinity neg).

(** [d] has no more digits than [d']. *)
Definition no_longer (d d' : Z) : Prop := forall n, (0 <= n)%Z -> (d' < 10 ^ n)%Z -> (d < 10 ^ n)%Z.

(** The text of a number is one with the fewest digits among those that are read
    as the number, and the nearest one of those, the larger one in a tie. *)
Definition shortest_text (x : spec_float) (d k : Z) : Prop :=
  (0 < d)%Z /\ nearest (sign_SF x) d k x /\
  forall d' k', (0 < d')%Z -> nearest (sign_SF x) d' k' x ->
    no_longer d d' /\
    (no_longer d' d ->
       Rabs (value d k - Rabs (SF2R radix2 x)) <= Rabs (value d' k' - Rabs (SF2R radix2 x)) /\
       (Rabs (value d k - Rabs (SF2R radix2 x)) = Rabs (value d' k' - Rabs (SF2R radix2 x)) -> value d' k' <= value d k)).

(** The floats that are written without exponent. *)
Definition written_plainly (x : spec_float) : Prop :=
  is_finite_SF x = true /\
  (SF2R radix2 x = 0 \/ round32 (value 1 (-4)) <= Rabs (SF2R radix2 x) < round32 (value 1 16)).

(** No zeros are written that could be left out, except the last one of a part. *)
Definition no_leading_zero (s : str) : Prop := forall r, s = 48%N :: r -> r = [].
Definition no_trailing_zero (s : str) : Prop := forall r, s = r ++ [48%N] -> r = [].

(** [plain_form s]: a sign if negative, digits, a point and digits. *)
Definition plain_form (x : spec_float) (s : str) : Prop :=
  exists ip f, s = (if sign_SF x then [45%N] else []) ++ ip ++ 46%N :: f /\
    ip <> [] /\ f <> [] /\ Forall digit ip /\ Forall digit f /\ no_leading_zero ip /\ no_trailing_zero f.

(** [exponent_form s]: a sign if negative, a digit other than zero, a point and
    digits unless there are none, the letter e, and an integer. *)
Definition exponent_form (x : spec_float) (s : str) : Prop :=
  exists c f neg z, s = (if sign_SF x then [45%N] else []) ++ c :: (match f with [] => [] | _ => 46%N :: f end) ++
                        101%N :: (if neg : bool then [45%N] else []) ++ z /\
    digit c /\ c <> 48%N /\ Forall digit f /\ (forall r, f <> r ++ [48%N]) /\ z <> [] /\ Forall digit z /\ no_leading_zero z.
