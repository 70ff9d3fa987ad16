(** Specification for [Debug]: what is assumed about the texts of floats. *)
From Verif Require Export Debug SourceEdit.

(** A letter, a digit, a minus or a point. *)
Definition float_char (c : char) : Prop :=
  (48 <= c <= 57 \/ 65 <= c <= 90 \/ 97 <= c <= 122 \/ c = 45 \/ c = 46)%N.

(** The text of a float identifies it.  ([Debug for f32] writes the shortest
    decimal number that is read back as the float.) *)
Definition float_texts (float_text : spec_float -> str) : Prop :=
  (forall x y, float_text x = float_text y -> x = y) /\
  forall x, float_text x <> [] /\ Forall float_char (float_text x).
