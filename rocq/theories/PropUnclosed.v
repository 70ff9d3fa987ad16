(** C82: sources that end inside a multi-line comment.  Vocabulary: LexSpec.v. *)
From Coq Require Import String Lia.
From Verif Require Import Str Lexer StrFacts LexPropSpec UnclosedProofs PropLexer.
Local Open Scope string_scope.
Local Open Scope list_scope.

(** An unclosed comment stays unclosed, at the same place, while no TLDR comes. *)
Theorem C82_typing_on code r x : tokenize code = LexErr (UnclosedMultilineComment r) ->
  exists a s, code = a ++ lit "OBTW" ++ s /\ chars (r_start r) = Z.of_nat (length a) /\
    (~ occurs_in (lit "TLDR") (lit "OBTW" ++ s ++ x) ->
     exists r', tokenize (code ++ x) = LexErr (UnclosedMultilineComment r') /\ r_start r' = r_start r).
Proof. exact (still_open code r x). Qed.
Print Assumptions C82_typing_on.

(** A TLDR at the end closes it: every source refused by the lexer is accepted
    with one appended.  The tokens are those before the comment, and the comment;
    (in ASCII sources) the former do not depend on what the comment says. *)
Theorem C82_closing code r : tokenize code = LexErr (UnclosedMultilineComment r) ->
  exists a s ts t, code = a ++ lit "OBTW" ++ s /\ chars (r_start r) = Z.of_nat (length a) /\
    tokenize (code ++ lit "TLDR") = LexOk (ts ++ [t]) /\ tok_type t = TCommentMultiLine s /\ start_of t = r_start r /\
    forall s', ~ occurs_in (lit "TLDR") (lit "OBTW" ++ s') -> ascii_str a ->
      exists t', tokenize (a ++ lit "OBTW" ++ s' ++ lit "TLDR") = LexOk (ts ++ [t']) /\ tok_type t' = TCommentMultiLine s'.
Proof. exact (closing code r). Qed.
Print Assumptions C82_closing.

(** Cutting a source short gives an error only if the cut is in a comment. *)
Theorem C82_cut_error code rest ts e : tokenize (code ++ rest) = LexOk ts -> tokenize code = LexErr e ->
  exists t s, In t ts /\ tok_type t = TCommentMultiLine s /\
    (chars (start_of t) + 4 <= Z.of_nat (length code) < chars (end_of t))%Z.
Proof. exact (cut_inside code rest ts e). Qed.
Print Assumptions C82_cut_error.

(** For ASCII sources: exactly then, and every other cut is accepted. *)
Theorem C82_cut code rest ts : ascii_str (code ++ rest) -> tokenize (code ++ rest) = LexOk ts ->
  ((exists e, tokenize code = LexErr e) <->
   exists t s, In t ts /\ tok_type t = TCommentMultiLine s /\
     (chars (start_of t) + 4 <= Z.of_nat (length code) < chars (end_of t))%Z) /\
  ((exists ts', tokenize code = LexOk ts') <->
   forall t s, In t ts -> tok_type t = TCommentMultiLine s ->
     ~ (chars (start_of t) + 4 <= Z.of_nat (length code) < chars (end_of t))%Z).
Proof. exact (cutting code rest ts). Qed.
Print Assumptions C82_cut.

(** Not for all sources: a string with other characters ends early, here so early
    that the end of it reads as a comment; cut inside that, the quote that ended
    the string is gone, and there is no comment. *)
Theorem C82_all_sources_refuted :
  ~ (forall code rest ts t s, tokenize (code ++ rest) = LexOk ts -> In t ts -> tok_type t = TCommentMultiLine s ->
     (chars (start_of t) + 4 <= Z.of_nat (length code) < chars (end_of t))%Z -> exists e, tokenize code = LexErr e).
Proof.
  intro H.
  set (a := 34%N :: repeat 233%N 5 ++ lit "xOBTW"). set (b := 34%N :: lit "TLDR").
  set (ts := match tokenize (a ++ b) with LexOk ts => ts | _ => [] end).
  set (t := nth 1 ts (mkToken TComma (mkRange (mkPos 0 0 0 0) (mkPos 0 0 0 0)))).
  assert (E : tokenize (a ++ b) = LexOk ts) by (vm_compute; reflexivity).
  assert (I : In t ts) by (vm_compute; tauto).
  assert (T : tok_type t = TCommentMultiLine [34%N]) by (vm_compute; reflexivity).
  assert (P : (chars (start_of t) + 4 <= Z.of_nat (length a) < chars (end_of t))%Z)
    by (split; [apply Z.leb_le|apply Z.ltb_lt]; vm_compute; reflexivity).
  destruct (H a b ts t [34%N] E I T P) as [e X]. vm_compute in X. discriminate X.
Qed.
Print Assumptions C82_all_sources_refuted.

(** A source cut inside its comment, going on in it, and closed. *)
Definition open_comment : str := lit "VISIBLE 1 OBTW the".
Example C82_applies :
  (exists r, tokenize open_comment = LexErr (UnclosedMultilineComment r) /\ chars (r_start r) = 10%Z /\
     exists r', tokenize (open_comment ++ lit " end TLD") = LexErr (UnclosedMultilineComment r') /\ r_start r' = r_start r) /\
  (exists ts, tokenize (open_comment ++ lit "TLDR") = LexOk ts /\ length ts = 3%nat) /\
  (exists ts, tokenize (open_comment ++ lit " end TLDR GTFO") = LexOk ts /\ length ts = 4%nat) /\
  (exists ts, tokenize (lit "VISIBLE 1 OBT") = LexOk ts) /\ ascii_str (open_comment ++ lit " end TLDR GTFO").
Proof.
  split; [eexists; split; [vm_compute; reflexivity|split; [vm_compute; reflexivity|eexists; split; vm_compute; reflexivity]]|].
  split; [eexists; split; vm_compute; reflexivity|]. split; [eexists; split; vm_compute; reflexivity|].
  split; [eexists; vm_compute; reflexivity|]. repeat constructor.
Qed.
