(** Model of the part of Rust's [&str] that the lexer uses.

    A string is the list of its Unicode code points ([char]s).  Rust's [str] is
    the UTF-8 encoding of such a list; a byte index [n] is meaningful for
    slicing only if it falls between two encoded characters, and slicing
    anywhere else panics.  The model computes byte positions from the UTF-8
    lengths of the characters and makes that panic an explicit value.

    Simplification: any [N] is accepted as a code point (surrogates and values
    above 0x10FFFF, which a Rust [char] cannot hold, get length 3 or 4); every
    theorem therefore holds in particular for real Rust strings. *)
From Coq Require Export List NArith ZArith Lia Bool Arith.
From Coq Require Import String Ascii.
Export ListNotations.

Definition char := N.
Definition str := list char.

(** A computation that may panic. *)
Inductive outcome (A : Type) : Type :=
| Ret (a : A)
| Panic.
Arguments Ret {A} a.
Arguments Panic {A}.

Definition obind {A B} (m : outcome A) (f : A -> outcome B) : outcome B :=
  match m with Ret a => f a | Panic => Panic end.

(** [char::len_utf8] (Rust standard library). *)
Definition utf8_len (c : char) : nat :=
  if N.ltb c 128%N then 1
  else if N.ltb c 2048%N then 2
  else if N.ltb c 65536%N then 3
  else 4.

(** [str::len] / [str.bytes().len()]: number of UTF-8 bytes. *)
Fixpoint byte_len (s : str) : nat :=
  match s with
  | [] => 0
  | c :: s' => utf8_len c + byte_len s'
  end.

(** [str.split_at(n)]: [None] if [n] is out of range or not a char boundary. *)
Fixpoint split_bytes (n : nat) (s : str) {struct s} : option (str * str) :=
  match n with
  | 0 => Some ([], s)
  | _ =>
    match s with
    | [] => None
    | c :: s' =>
      if Nat.leb (utf8_len c) n then
        match split_bytes (n - utf8_len c) s' with
        | Some (a, b) => Some (c :: a, b)
        | None => None
        end
      else None
    end
  end.

(** [&s[..n]] *)
Definition slice_to (s : str) (n : nat) : outcome str :=
  match split_bytes n s with Some (a, _) => Ret a | None => Panic end.

(** [&s[n..]] *)
Definition slice_from (s : str) (n : nat) : outcome str :=
  match split_bytes n s with Some (_, b) => Ret b | None => Panic end.

(** [&s[a..b]] (panics also when [a > b]) *)
Definition slice (s : str) (a b : nat) : outcome str :=
  if Nat.leb a b then
    obind (slice_from s a) (fun s' => slice_to s' (b - a))
  else Panic.

(** [s.starts_with(p)] for a string (or one-character) pattern. *)
Fixpoint starts_with (p s : str) : bool :=
  match p, s with
  | [], _ => true
  | _ :: _, [] => false
  | a :: p', b :: s' => N.eqb a b && starts_with p' s'
  end.

(** [s.find(p)]: byte index of the first occurrence of [p]. *)
Fixpoint find (p s : str) : option nat :=
  if starts_with p s then Some 0
  else match s with
       | [] => None
       | c :: s' =>
         match find p s' with
         | Some n => Some (utf8_len c + n)
         | None => None
         end
       end.

(** [chars().take_while(p).count()] *)
Fixpoint count_while (p : char -> bool) (s : str) : nat :=
  match s with
  | [] => 0
  | c :: s' => if p c then S (count_while p s') else 0
  end.

(** String literals of the Rust source, as code point lists. *)
Fixpoint lit (s : string) : str :=
  match s with
  | EmptyString => []
  | String a s' => N_of_ascii a :: lit s'
  end.

Definition is_ascii (c : char) : bool := N.ltb c 128%N.
Definition ascii_str (s : str) : Prop := forallb is_ascii s = true.

(** Character constants. *)
Definition c_nl : char := 10%N.      (* '\n' *)
Definition c_tab : char := 9%N.      (* '\t' *)
Definition c_space : char := 32%N.   (* ' ' *)
Definition c_bang : char := 33%N.    (* '!' *)
Definition c_quote : char := 34%N.   (* double quote *)
Definition c_plus : char := 43%N.    (* '+' *)
Definition c_comma : char := 44%N.   (* ',' *)
Definition c_minus : char := 45%N.   (* '-' *)
Definition c_dot : char := 46%N.     (* '.' *)
Definition c_zero : char := 48%N.    (* '0' *)
Definition c_nine : char := 57%N.    (* '9' *)
Definition c_colon : char := 58%N.   (* ':' *)
Definition c_qmark : char := 63%N.   (* '?' *)
Definition c_A : char := 65%N.
Definition c_Z : char := 90%N.
Definition c_underscore : char := 95%N.
Definition c_a : char := 97%N.
Definition c_z : char := 122%N.
Definition c_ellipsis : char := 8230%N. (* '\u{2026}' *)
