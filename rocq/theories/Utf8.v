(** UTF-8, for C83: Rust's [str] is a list of bytes that is the encoding of a list
    of [char]s.  Written from the Unicode standard (section 3.9, tables 3-6 and
    3-7), not from the model; and the operations of [str] on the bytes, as in
    Rust's standard library. *)
From Coq Require Import List NArith.
Import ListNotations.
Local Open Scope N_scope.

(** Unicode scalar values, the values of Rust's [char]. *)
Definition scalar (c : N) : Prop := c < 55296 \/ 57344 <= c < 1114112.

(** The bytes of a character: its bits in groups of six, in the fewest bytes. *)
Inductive Utf8Char : N -> list N -> Prop :=
| utf8_1 c : c < 128 -> Utf8Char c [c]
| utf8_2 c x y : c = x * 64 + y -> x < 32 -> y < 64 -> 128 <= c ->
    Utf8Char c [192 + x; 128 + y]
| utf8_3 c x y z : c = x * 4096 + y * 64 + z -> x < 16 -> y < 64 -> z < 64 -> 2048 <= c -> scalar c ->
    Utf8Char c [224 + x; 128 + y; 128 + z]
| utf8_4 c x y z v : c = x * 262144 + y * 4096 + z * 64 + v -> x < 8 -> y < 64 -> z < 64 -> v < 64 ->
    65536 <= c -> scalar c ->
    Utf8Char c [240 + x; 128 + y; 128 + z; 128 + v].

Inductive Utf8 : list N -> list N -> Prop :=
| utf8_nil : Utf8 [] []
| utf8_cons c cb s bs : Utf8Char c cb -> Utf8 s bs -> Utf8 (c :: s) (cb ++ bs).

(** [is_char_boundary] (core::str): the start, the end, and the indices of bytes
    that are not continuation bytes ([(b as i8) >= -0x40]). *)
Definition continuation (b : N) : Prop := 128 <= b < 192.
Definition char_boundary (bs : list N) (n : nat) : Prop :=
  n = 0%nat \/ n = length bs \/ exists b, nth_error bs n = Some b /\ ~ continuation b.

(** Where the bytes [pb] are found first in [bs]. *)
Definition bytes_found_at (pb bs : list N) (n : nat) : Prop :=
  (exists x y, bs = x ++ pb ++ y /\ length x = n) /\
  forall x y, bs = x ++ pb ++ y -> (n <= length x)%nat.
