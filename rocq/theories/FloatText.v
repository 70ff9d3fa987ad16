(** Model of [Debug for f32] (Rust standard library, core::fmt::float and
    core::num::flt2dec), which the derived [Debug for NumberToken]
    (src/lexer/token.rs:14-18) calls.  The library is not part of /repo; this
    follows its documented algorithm (Steele and White's, as in
    flt2dec::strategy::dragon). *)
From Coq Require Import String.
From Verif Require Export Lexer Display.
From Coq Require Import Floats.SpecFloat.
Local Open Scope Z_scope.

(** The [f32] nearest to [(-1)^neg * d * 10^k] (ties to even). *)
Definition f32_of_scaled (neg : bool) (d k : Z) : spec_float :=
  if k <? 0 then f32_of_decimal neg d (Z.to_nat (- k)) else f32_of_decimal neg (d * 10 ^ k) 0.

Definition same_f32 (x y : spec_float) : bool :=
  match x, y with
  | S754_finite s m e, S754_finite s' m' e' => Bool.eqb s s' && Pos.eqb m m' && (e =? e')
  | _, _ => false
  end.

(** [flt2dec::strategy::dragon::format_shortest], for the number
    [v = m * 2^e]. *)
Section Shortest.
  Variables (m : positive) (e : Z).

  (** Is [d * 10^k] in the interval of the numbers that are rounded to [v]?  (The
      library compares with the ends of the interval, which belong to it if the
      mantissa is even.) *)
  Definition rounds_to (d k : Z) : bool := same_f32 (f32_of_scaled false d k) (S754_finite false m e).

  (** [v / 10^k = num k / den k] ([mant] and [scale] in the library). *)
  Definition num (k : Z) : Z := Zpos m * 2 ^ Z.max e 0 * 10 ^ Z.max (- k) 0.
  Definition den (k : Z) : Z := 2 ^ Z.max (- e) 0 * 10 ^ Z.max k 0.

  (** The first [k], from the given one on, with [v < 10^k]. *)
  Fixpoint magnitude (fuel : nat) (k : Z) : Z :=
    match fuel with
    | O => k
    | S f => if num k <? den k then k else magnitude f (k + 1)
    end.
  (** [estimate_scaling_factor] and the fixup after it: the exponent of the upper
      end of the interval. *)
  Definition scaling : Z :=
    let k := magnitude 90 (-45) in if rounds_to 1 k then k + 1 else k.

  (** Digits are generated until the number cut after them ([down]) or the next
      one ([up]) is in the interval; if both are, the nearer one is taken, the
      larger one in a tie.  The result [(d, k)] stands for [d * 10^k].  The
      buffer of the library has 17 digits. *)
  Fixpoint shortest (fuel : nat) (k : Z) : Z * Z :=
    let q := num k / den k in
    let r := num k mod den k in
    let down := rounds_to q k in
    let up := rounds_to (q + 1) k in
    if up && (negb down || (den k <=? 2 * r)) then (q + 1, k)
    else if down then (q, k)
    else match fuel with
         | O => (q, k)
         | S f => shortest f (k - 1)
         end.
  Definition shortest_digits : Z * Z := shortest 16 (scaling - 1).
End Shortest.

Local Open Scope list_scope.

(** [flt2dec::digits_to_dec_str] with one digit after the point at least; the
    number is [0.buf * 10^exp]. *)
Definition zero_digits (n : Z) : str := repeat c_zero (Z.to_nat n).
Definition digits_to_dec_str (buf : str) (exp : Z) : str :=
  let len := Z.of_nat (length buf) in
  if exp <=? 0 then lit "0." ++ zero_digits (- exp) ++ buf
  else if exp <? len then firstn (Z.to_nat exp) buf ++ lit "." ++ skipn (Z.to_nat exp) buf
  else buf ++ zero_digits (exp - len) ++ lit ".0".

(** [flt2dec::digits_to_exp_str], lower case, no minimum number of digits. *)
Definition digits_to_exp_str (buf : str) (exp : Z) : str :=
  firstn 1 buf ++ (if Nat.ltb 1 (length buf) then lit "." ++ skipn 1 buf else []) ++
  lit "e" ++ i32_text (exp - 1).

(** [already_rounded_value_should_use_exponential], for numbers other than zero:
    [abs < 1e-4 || abs >= 1e16] in [f32]. *)
Definition should_use_exponential (abs : spec_float) : bool :=
  SFltb abs (f32_of_decimal false 1 4) || SFleb (f32_of_decimal false (10 ^ 16) 0) abs.

Definition sign_str (s : bool) : str := if s then lit "-" else [].

(** [float_to_general_debug] without precision.  A finite [spec_float] that is
    not normalised to 24 bits is no [f32]; its text here is not used. *)
Definition f32_debug (x : spec_float) : str :=
  match x with
  | S754_nan => lit "NaN"
  | S754_infinity s => sign_str s ++ lit "inf"
  | S754_zero s => sign_str s ++ lit "0.0"
  | S754_finite s m e =>
    if valid_binary 24 128 x then
      let (d, k) := shortest_digits m e in
      let buf := i32_text d in
      let exp := k + Z.of_nat (length buf) in
      sign_str s ++
      (if should_use_exponential (S754_finite false m e) then digits_to_exp_str buf exp
       else digits_to_dec_str buf exp)
    else lit "X" ++ sign_str s ++ i32_text (Zpos m) ++ lit "e" ++ i32_text e
  end.
