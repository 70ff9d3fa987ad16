(** Model of the hand-written [Display] and [Debug] implementations. *)
From Coq Require Import String.
From Verif Require Export Token.
Local Open Scope Z_scope.

(** [Display]/[Debug] of [i32] (Rust standard library): decimal digits without
    leading zeros, after a minus sign if the number is negative. *)
Fixpoint digits_text (fuel : nat) (n : Z) : str :=
  match fuel with
  | O => []
  | S f => (if n <? 10 then [] else digits_text f (n / 10)) ++ [Z.to_N (48 + n mod 10)]
  end.
Definition i32_text (z : Z) : str :=
  if z <? 0 then c_minus :: digits_text (S (Z.to_nat (Z.log2 (- z)))) (- z)
  else digits_text (S (Z.to_nat (Z.log2 z))) z.

(** [Display for Position], src/lexer/position.rs:21-25. *)
Definition position_display (p : position) : str :=
  lit "(L" ++ i32_text (line p) ++ lit ", C" ++ i32_text (column p) ++ lit ")".

(** [Debug for Position], src/lexer/position.rs:72-76. *)
Definition position_debug (p : position) : str :=
  lit "(" ++ i32_text (line p) ++ lit ", " ++ i32_text (column p) ++ lit ")".

(** [Debug for Range], src/lexer/range.rs:20-24 ([writeln!]). *)
Definition range_debug (r : range) : str :=
  position_debug (r_start r) ++ lit " -> " ++ position_debug (r_end r) ++ [10%N].
