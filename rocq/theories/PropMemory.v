(** Property C94: finding out whether a program has errors takes memory that grows
    with the program.  Statements; the proofs are in MemoryProofs.v. *)
From Coq Require Import String List PeanoNat.
From Verif Require Import Parser Lines Lexer Checker Automaton AutomatonProofs MemoryProofs PropLexer PropParser.
From Verif Require Export Memory.
Import ListNotations.
Local Open Scope string_scope.
Local Open Scope list_scope.

(** Whatever reads the tokens one after another and knows in the end whether there
    are errors must tell all chains of operations of one length apart. *)
Theorem C94_distinct m a b : decides m -> length a = length b -> after m (chain a) = after m (chain b) -> a = b.
Proof. exact (chains_distinct m a b). Qed.
Print Assumptions C94_distinct.

(** So for programs of [n + 1] tokens it has at least [2 ^ n] states: as many bits
    as there are tokens but one.  The automaton of C92 needs at most two stack
    entries for each token, besides two tokens (C92_memory). *)
Theorem C94_states m n qs : decides m -> (forall ts, length ts <= S n -> In (after m ts) qs) -> 2 ^ n <= length qs.
Proof. exact (many_states m n qs). Qed.
Print Assumptions C94_states.

(** No machine with finitely many states can do it. *)
Theorem C94_not_finite m (qs : list (m_state m)) : decides m -> ~ forall q, In q qs.
Proof. exact (not_finite m qs). Qed.
Print Assumptions C94_not_finite.

(** The same for machines that read the characters of a source: the chains are
    text, of seven characters for each operation. *)
Theorem C94_sources m n qs : decides_sources m ->
  (forall code, length code <= 9 + 7 * n -> In (after m code) qs) -> 2 ^ n <= length qs.
Proof. exact (many_source_states m n qs). Qed.
Print Assumptions C94_sources.
Theorem C94_sources_not_finite m (qs : list (m_state m)) : decides_sources m -> ~ forall q, In q qs.
Proof. exact (sources_not_finite m qs). Qed.
Print Assumptions C94_sources_not_finite.

(** There is a machine that does it. *)
Theorem C94_automaton : decides automaton.
Proof. exact automaton_decides. Qed.
Print Assumptions C94_automaton.

(** ** Cases *)
(** Two chains of three operations, and the tokens that finish the first one; the
    second one is unfinished with them. *)
Definition c94_a : list token := toks ["FOUND YR SUM OF ALL OF SUM OF 1 2 MKAY 3"].
Definition c94_b : list token := toks ["FOUND YR SUM OF SUM OF ALL OF 1 2 MKAY 3"].
Example C94_case_chain : map tok_type (firstn 4 c94_a) = map tok_type (chain [true; false; true]) /\
  map tok_type (firstn 4 c94_b) = map tok_type (chain [true; true; false]).
Proof. vm_compute. auto. Qed.
Example C94_case_accept : m_accept automaton (after automaton c94_a) = true /\ m_accept automaton (after automaton (firstn 5 c94_a)) = false /\
  m_accept automaton (after automaton c94_b) = false.
Proof. vm_compute. auto. Qed.
Example C94_case_states : m_accept automaton (after automaton (chain [true; false] ++ [some_value; word MKAY; some_value])) = true /\
  m_accept automaton (after automaton (chain [false; true] ++ [some_value; word MKAY; some_value])) = false.
Proof. vm_compute. auto. Qed.
(** A machine for sources: it keeps the whole source. *)
Example C94_case_sources : decides_sources (mkMachine char str [] (fun s c => s ++ [c]) accepts_source).
Proof.
  intros code. rewrite <- accepts_source_iff. unfold after. cbn [m_step m_start m_accept].
  assert (E : forall l s, fold_left (fun (s : str) c => s ++ [c]) l s = s ++ l).
  { induction l as [|c l IH]; intros s; cbn [fold_left]; [now rewrite app_nil_r|]. rewrite IH, <- app_assoc. reflexivity. }
  rewrite E. reflexivity.
Qed.
Example C94_case_text : map tok_type (firstn 4 (toks ["FOUND YR SUM OF ALL OF SUM OF 1 2 MKAY 3"])) = map tok_type (chain [true; false; true]) /\
  chain_text [true; false; true] = lit "FOUND YR SUM OF ALL OF SUM OF ".
Proof. vm_compute. auto. Qed.
