(** Property C60: how many characters [tokenize] reads.  Statements; the proofs
    are in LexCostProofs.v. *)
From Coq Require Import String.
From Verif Require Import LexCost LexCostProofs.

(** The lexer with a counter gives the result of the lexer. *)
Theorem C60_counting_changes_nothing code : fst (tokenize_c code) = tokenize code.
Proof. exact (tokenize_fst code). Qed.
Print Assumptions C60_counting_changes_nothing.

(** At most quadratic, for every source. *)
Theorem C60_at_most_quadratic code :
  lexer_reads code <= 366 * length code + 4 * byte_len code + length code * (length code + 1).
Proof. rewrite <- step_constant_value, Nat.add_1_r. exact (reads_quadratic code). Qed.
Print Assumptions C60_at_most_quadratic.

(** Linear if no run of number characters is longer than [L]. *)
Theorem C60_linear_without_long_numbers L code :
  numeric_runs_within L code ->
  lexer_reads code <= (368 + 2 * L) * length code + 4 * byte_len code.
Proof.
  intros H. replace (368 + 2 * L) with (step_constant + 2 * S L).
  - exact (reads_linear L code H).
  - rewrite step_constant_value. lia.
Qed.
Print Assumptions C60_linear_without_long_numbers.

(** A source that consists of digits is read again for every digit. *)
Theorem C60_digits_at_the_end_are_quadratic (s : str) :
  Forall (fun c => 48 <= c <= 57)%N s ->
  length s * (length s + 1) <= 2 * lexer_reads s.
Proof. rewrite Nat.add_1_r. exact (digits_reads s). Qed.
Print Assumptions C60_digits_at_the_end_are_quadratic.

(** So is a number too large for an [i32], whatever follows. *)
Theorem C60_large_numbers_are_quadratic (s : str) (c : char) (r : str) :
  Forall (fun c => 49 <= c <= 57)%N s -> ~ numeric c ->
  length s * (length s + 1) <= 2 * lexer_reads (s ++ c :: r) + 110.
Proof. rewrite Nat.add_1_r. exact (run_reads s c r). Qed.
Print Assumptions C60_large_numbers_are_quadratic.

(** No linear bound holds, even for ASCII sources. *)
Theorem C60_linear_refuted :
  ~ exists k b, forall code, ascii_str code -> lexer_reads code <= k * length code + b.
Proof. exact reads_not_linear. Qed.
Print Assumptions C60_linear_refuted.

(** Examples *)

Definition newline_str : str := [10%N].

(** An ordinary line: the reads and the bound. *)
Example C60_line :
  lexer_reads (lit "VISIBLE SUM OF 12 AN x" ++ newline_str) = 311 /\
  numeric_runs_within 2 (lit "VISIBLE SUM OF 12 AN x" ++ newline_str).
Proof. split; [vm_compute; reflexivity|apply runs_check_ok; vm_compute; reflexivity]. Qed.

(** Eight digits at the end of the source become eight symbols; with a newline
    they are one number. *)
Example C60_digits :
  Forall (fun c => 48 <= c <= 57)%N (lit "12345678") /\
  (exists ts, tokenize (lit "12345678") = LexOk ts /\ length ts = 8) /\
  lexer_reads (lit "12345678") = 652 /\
  (exists t, tokenize (lit "12345678" ++ newline_str) = LexOk [t]) /\
  lexer_reads (lit "12345678" ++ newline_str) = 99.
Proof.
  split; [|split; [|split; [|split]]].
  - repeat constructor; intro H; discriminate H.
  - eexists. split; vm_compute; reflexivity.
  - vm_compute. reflexivity.
  - eexists. vm_compute. reflexivity.
  - vm_compute. reflexivity.
Qed.
