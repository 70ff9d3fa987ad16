(** C80: the positions of the code are 32-bit numbers.  The model with [i32]
    arithmetic (Machine.v) agrees with the unbounded one (Lexer.v) on all
    sources shorter than [2^31 - 1] bytes, and what happens beyond. *)
From Coq Require Import String.
From Verif Require Import MachineSpec MachineProofs PropLexer.
Local Open Scope string_scope.
Local Open Scope list_scope.
Local Open Scope Z_scope.

(** [as i32] keeps the lowest 32 bits. *)
Theorem C80_as_i32 z w : as_i32 z = w <-> held z w.
Proof. exact (as_i32_iff z w). Qed.
Print Assumptions C80_as_i32.

Example C80_as_i32_ex :
  map as_i32 [2 ^ 31 - 1; 2 ^ 31; 2 ^ 32; -1; 2 ^ 32 + 5] = [2 ^ 31 - 1; - 2 ^ 31; 0; -1; 5].
Proof. reflexivity. Qed.

(** Up to [2^31 - 2] bytes, both builds compute what the unbounded model does:
    tokens, errors, positions and the AST. *)
Theorem C80_same_below_the_bound b code : Z.of_nat (byte_len code) < 2 ^ 31 - 1 ->
  tokenize_m b code = tokenize code /\ tokenize_and_parse_m b code = tokenize_and_parse code.
Proof. intro H. split; [exact (tokenize_same b code H)|exact (api_same b code H)]. Qed.
Print Assumptions C80_same_below_the_bound.

(** One byte more, and debug builds panic, release builds report a negative
    column. *)
Theorem C80_bound_is_sharp : exists code ts, Z.of_nat (byte_len code) = 2 ^ 31 - 1 /\ tokenize code = LexOk ts /\
  tokenize_m Checked code = LexPanic /\
  exists t, tokenize_m Wrapping code = LexOk [t] /\ column (r_end (tok_range t)) = - 2 ^ 31.
Proof. exact sharp. Qed.
Print Assumptions C80_bound_is_sharp.

(** Release builds, up to [2^32 - 1] characters: the same tokens, errors and
    AST, with all positions cut to 32 bits.  Lines are compared after the cut;
    that two lines never become one is part of the statement. *)
Theorem C80_release_builds code : Z.of_nat (length code) < 2 ^ 32 ->
  tokenize_m Wrapping code = cut_lex (tokenize code) /\
  tokenize_and_parse_m Wrapping code = cut_api (tokenize_and_parse code).
Proof. intro H. split; [exact (tokenize_cut code H)|exact (api_cut code H)]. Qed.
Print Assumptions C80_release_builds.

(** From [2^32] digits on this ends: [index as i32 == 0] holds again, a sign
    inside the number is accepted, and the number is not recognised. *)
Theorem C80_release_builds_all_sizes_refuted :
  ~ forall code, tokenize_m Wrapping code = cut_lex (tokenize code).
Proof.
  intro H. destruct long_number as (code & _ & (t & ts & E & Et) & W). specialize (H code). rewrite E in H.
  destruct (W _ H) as (u & us & Eu & Ty). inversion Eu; subst u. change (tok_type t = TSymbol [48%N]) in Ty.
  rewrite Et in Ty. discriminate.
Qed.
Print Assumptions C80_release_builds_all_sizes_refuted.

(** Debug builds: if no token is [2^31] bytes long, the tokens are right or the
    code panics; it panics if the source has [2^31] bytes or more. *)
Theorem C80_debug_builds code ts : tokenize code = LexOk ts ->
  Forall (fun t => token_bytes t < 2 ^ 31) ts -> Z.of_nat (length code) < 2 ^ 32 ->
  (tokenize_m Checked code = LexOk ts /\ Z.of_nat (byte_len code) < 2 ^ 31) \/
  tokenize_m Checked code = LexPanic.
Proof. exact (tokenize_checked code ts). Qed.
Print Assumptions C80_debug_builds.

(** A source that meets the hypotheses, with several lines, a comment with
    multi-byte characters, a string and a number. *)
Definition small : str := lit "HAI 1.2" ++ nl ++ lit "I HAS A x ITZ -5" ++ nl ++
  lit "VISIBLE ""a b"" x BTW " ++ [233; 8364]%N ++ nl ++ lit "KTHXBYE" ++ nl.
Definition small_tokens := Eval vm_compute in match tokenize small with LexOk ts => ts | _ => [] end.
Example C80_small : tokenize small = LexOk small_tokens /\ length small_tokens = 11%nat.
Proof. vm_compute. split; reflexivity. Qed.
Example C80_small_hypotheses : (Z.of_nat (byte_len small) <? 2 ^ 31 - 1) = true /\
  forallb (fun t => token_bytes t <? 2 ^ 31) small_tokens = true.
Proof. vm_compute. split; reflexivity. Qed.
Example C80_small_machine : tokenize_m Checked small = LexOk small_tokens /\
  tokenize_m Wrapping small = LexOk small_tokens /\ cut_lex (LexOk small_tokens) = LexOk small_tokens.
Proof. vm_compute. repeat split. Qed.
