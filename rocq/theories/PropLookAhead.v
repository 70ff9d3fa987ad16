(** Theorems about what decides a token and what an edit changes, by property
    number.  Vocabulary: LookAhead.v, LexPropSpec.v. *)
From Coq Require Import String Lia.
From Verif Require Import Lexer LexBasics StrFacts LexProofs LexProps LookAhead LookAheadProofs PropLexer.
Local Open Scope string_scope.
Local Open Scope list_scope.

(** ** C77 *)

(** Two sources with the same start: the tokens decided by it are the same. *)
Theorem C77_before_an_edit (a b b' : str) ts0 ts1 us :
  tokenize (a ++ b) = LexOk (ts0 ++ ts1) -> tokenize (a ++ b') = LexOk us ->
  Forall (decided (a ++ b) (length a)) ts0 ->
  exists us1, us = ts0 ++ us1.
Proof. exact (before_edit a b b' ts0 ts1 us). Qed.
Print Assumptions C77_before_an_edit.

(** If the start is ASCII, ten characters are enough for all tokens but digits,
    signs and dots outside number literals. *)
Theorem C77_ten_characters (a b b' : str) ts0 ts1 us :
  tokenize (a ++ b) = LexOk (ts0 ++ ts1) -> tokenize (a ++ b') = LexOk us -> ascii_str a ->
  Forall (fun t => chars (end_of t) + 10 <= Z.of_nat (length a) /\ forall c, tok_type t = TSymbol [c] -> ~ numeric c)%Z ts0 ->
  exists us1, us = ts0 ++ us1.
Proof. exact (ten_characters a b b' ts0 ts1 us). Qed.
Print Assumptions C77_ten_characters.
(** Eight are not. *)
Theorem C77_eight_characters_refuted : exists a b b' t ts1 us,
  tokenize (a ++ b) = LexOk (t :: ts1) /\ tokenize (a ++ b') = LexOk us /\ ascii_str a /\
  (chars (end_of t) + 8 = Z.of_nat (length a))%Z /\ tok_type t = TIdentifier (lit "IF") /\
  map tok_type us = [TKeyword IF_U_SAY_SO].
Proof.
  exists (lit "IF U SAY S"), (lit "A"), (lit "O"). do 3 eexists. split; [vm_compute; reflexivity|].
  split; [vm_compute; reflexivity|]. repeat split.
Qed.
Print Assumptions C77_eight_characters_refuted.
(** For digits no number of characters is enough. *)
Theorem C77_bounded_refuted n : exists a b b' t ts1 us,
  tokenize (a ++ b) = LexOk (t :: ts1) /\ tokenize (a ++ b') = LexOk us /\ ascii_str a /\
  (chars (end_of t) + Z.of_nat n = Z.of_nat (length a))%Z /\ tok_type t = TSymbol (lit "0") /\
  map tok_type us = [TValue (VNumber (Int 0))].
Proof. exact (unbounded_digits n). Qed.
Print Assumptions C77_bounded_refuted.

(** The tokens after a place that no token lies over are those of the text after
    it alone, shifted. *)
Theorem C77_after_an_edit (a b : str) ts :
  tokenize (a ++ b) = LexOk ts -> no_token_over (Z.of_nat (byte_len a)) ts ->
  exists ts0 vs, tokenize b = LexOk vs /\ ts = ts0 ++ map (shift_token (pos_at ts a)) vs /\
    Forall (fun t => bytes (end_of t) <= Z.of_nat (byte_len a))%Z ts0.
Proof. exact (after_edit a b ts). Qed.
Print Assumptions C77_after_an_edit.

(** So an edit only changes the tokens around it: those after it keep their types,
    and their ranges are shifted. *)
Theorem C77_edit (a m m' b : str) ts us t0 u0 :
  tokenize (a ++ m ++ b) = LexOk ts -> tokenize (a ++ m' ++ b) = LexOk us ->
  no_token_over (Z.of_nat (byte_len (a ++ m))) ts -> no_token_over (Z.of_nat (byte_len (a ++ m'))) us ->
  ts = t0 ++ u0 -> Forall (decided (a ++ m ++ b) (length a)) t0 ->
  exists t1 u1 vs, tokenize b = LexOk vs /\
    ts = t0 ++ t1 ++ map (shift_token (pos_at ts (a ++ m))) vs /\
    us = t0 ++ u1 ++ map (shift_token (pos_at us (a ++ m'))) vs.
Proof. exact (edit_tokens a m m' b ts us t0 u0). Qed.
Print Assumptions C77_edit.

(** For example, the middle line of a source is replaced. *)
Definition c77_a : str := lit "VISIBLE x" ++ nl ++ lit "GTFO       ".
Definition c77_m : str := lit "BTW y".
Definition c77_m' : str := lit "OBTW" ++ nl ++ lit "TLDR".
Definition c77_b : str := nl ++ lit "SUM OF 1 AN 2" ++ nl.
Example C77_case : exists ts us t0 u0, tokenize (c77_a ++ c77_m ++ c77_b) = LexOk ts /\ tokenize (c77_a ++ c77_m' ++ c77_b) = LexOk us /\
  no_token_over (Z.of_nat (byte_len (c77_a ++ c77_m))) ts /\ no_token_over (Z.of_nat (byte_len (c77_a ++ c77_m'))) us /\
  ts = t0 ++ u0 /\ Forall (decided (c77_a ++ c77_m ++ c77_b) (length c77_a)) t0 /\
  map tok_type t0 = [TKeyword VISIBLE; TIdentifier (lit "x"); TKeyword GTFO] /\
  map tok_type u0 = [TCommentSingleLine (lit " y"); TKeyword SUM_OF; TValue (VNumber (Int 1)); TKeyword AN; TValue (VNumber (Int 2))].
Proof.
  do 2 eexists. exists (match tokenize (c77_a ++ c77_m ++ c77_b) with LexOk ts => firstn 3 ts | _ => [] end).
  exists (match tokenize (c77_a ++ c77_m ++ c77_b) with LexOk ts => skipn 3 ts | _ => [] end).
  split; [vm_compute; reflexivity|]. split; [vm_compute; reflexivity|].
  split; [unfold no_token_over; repeat (apply Forall_cons; [vm_compute; first [left; discriminate|right; discriminate]|]); apply Forall_nil|].
  split; [unfold no_token_over; repeat (apply Forall_cons; [vm_compute; first [left; discriminate|right; discriminate]|]); apply Forall_nil|].
  split; [vm_compute; reflexivity|]. split; [|split; vm_compute; reflexivity].
  vm_compute (match _ with LexOk _ => _ | _ => _ end). repeat (apply Forall_cons; [vm_compute; discriminate|]). apply Forall_nil.
Qed.
