(** Property C92: which programs have no errors is decided by a program that gets
    their tokens one at a time.  Statements; the proofs are in
    AutomatonProofs.v. *)
From Coq Require Import String ZArith List.
From Verif Require Import Parser Lines Lexer Api Clean Checker Reader AutomatonProofs PropLexer PropParser.
From Verif Require Export Automaton.
Import ListNotations.
Local Open Scope string_scope.
Local Open Scope list_scope.

(** It is the reader of C90 as a function. *)
Theorem C92_reader q t q' : reader_f q t = Some q' <-> rstep q t q'.
Proof. exact (reader_iff q t q'). Qed.
Print Assumptions C92_reader.

(** It accepts exactly the token vectors that [parse] gives an AST without errors
    for. *)
Theorem C92_accepts ts : accepts ts = true <->
  exists ns, parse ts = ParseOk (ASTBlock ns) /\ forallb node_clean ns = true.
Proof. exact (accepts_iff ts). Qed.
Print Assumptions C92_accepts.

(** So it decides for sources whether [tokenize_and_parse] finds errors. *)
Theorem C92_sources code : accepts_source code = true <->
  exists ns, tokenize_and_parse code = ApiOk (ASTBlock ns) /\ forallb node_clean ns = true.
Proof. exact (accepts_source_iff code). Qed.
Print Assumptions C92_sources.

(** It stops at the earliest token possible: while it reads, tokens can be added
    such that [parse] finds no errors, and no longer. *)
Theorem C92_earliest ts : reads ts = true <->
  exists us ns, parse (ts ++ us) = ParseOk (ASTBlock ns) /\ forallb node_clean ns = true.
Proof. exact (reads_iff ts). Qed.
Print Assumptions C92_earliest.

(** Besides two tokens it only keeps its stacks, which grow by at most two entries
    with each token. *)
Theorem C92_memory t ts c c' : start t = Some c -> run c ts = Some c' -> config_size c' <= 1 + 2 * length ts.
Proof. intros S R. apply start_size in S. apply run_size in R. exact (Nat.le_trans _ _ _ R (proj1 (Nat.add_le_mono_r _ _ _) S)). Qed.
Print Assumptions C92_memory.

(** ** Cases *)
Definition c92_good : list token :=
  toks ["HOW IZ I f YR a AN YR b"; "O RLY?"; "YA RLY, VISIBLE SUM OF a AN ..."; "ALL OF b WIN"; "NO WAI"; "GTFO"; "OIC"; "IF U SAY SO"].
Example C92_case_accepts : accepts c92_good = true.
Proof. vm_compute. reflexivity. Qed.
(** After 17 of these tokens ALL OF has been read and two blocks are open; the
    vector is unfinished, but can be finished. *)
Example C92_case_beginning : tok_type (nth 16 c92_good dummy) = TKeyword ALL_OF /\
  reads (firstn 17 c92_good) = true /\ accepts (firstn 17 c92_good) = false.
Proof. vm_compute. auto. Qed.
Example C92_case_memory : match firstn 17 c92_good with
  | t :: ts => match start t with Some c => option_map config_size (run c ts) | None => None end
  | [] => None
  end = Some 3.
Proof. vm_compute. reflexivity. Qed.
(** YR cannot come after AN in an expression, whatever follows. *)
Definition c92_bad : list token := toks ["VISIBLE SUM OF a AN YR b"].
Example C92_case_rejects : reads (firstn 4 c92_bad) = true /\ reads (firstn 5 c92_bad) = false /\ length c92_bad = 6.
Proof. vm_compute. auto. Qed.
Example C92_case_source : accepts_source (text ["IM IN YR a UPPIN YR b TIL BOTH SAEM b AN 3"; "VISIBLE b!"; "IM OUTTA YR a"]) = true /\
  accepts_source (text ["IM IN YR a UPPIN YR b TIL BOTH SAEM b AN 3"; "VISIBLE b!"]) = false.
Proof. vm_compute. auto. Qed.
