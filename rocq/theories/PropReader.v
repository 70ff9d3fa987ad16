(** Property C90: programs can be read token by token, and which tokens may come
    next.  Statements; the proofs are in ReaderProofs.v. *)
From Coq Require Import String ZArith.
From Verif Require Import PropLexer PropParser PropShape PropChecker Parser Lexer Lines Clean ErrorShape ReaderProofs.
From Verif Require Export Reader.
Local Open Scope string_scope.
Local Open Scope list_scope.

(** A line can be read by the checker of C89 iff the reader, which reads it once
    and from left to right, gets to its end and may stop there. *)
Theorem C90_lines s l : (exists s', step s l s') <-> exists q, reads_to (RStart s) l q /\ final q.
Proof. exact (line_iff s l). Qed.
Print Assumptions C90_lines.

(** The reader never has a choice. *)
Theorem C90_deterministic l q q1 q2 : reads_to q l q1 -> reads_to q l q2 -> q1 = q2.
Proof. exact (reads_fun l q q1 q2). Qed.
Print Assumptions C90_deterministic.

(** It can read [t] after [l] iff there is a line that starts with [l] and [t]. *)
Theorem C90_next_token s l q t : reads_to (RStart s) l q ->
  (exists r s', step s (l ++ t :: r) s') <-> exists q', rstep q t q'.
Proof. exact (next_iff s l q t). Qed.
Print Assumptions C90_next_token.

(** For programs: the lines [ls] and the tokens [l] of the next line are the
    beginning of a token vector that [parse] gives an AST without errors for iff
    they can be read.  ([inner]: no commas and ellipses, which are on no logical
    line.) *)
Theorem C90_beginnings ls l : Forall (Forall inner) ls -> Forall inner l ->
  (exists ts r ls2, logical_lines ts = ls ++ (l ++ r) :: ls2 /\
     exists ns, parse ts = ParseOk (ASTBlock ns) /\ forallb node_clean ns = true) <->
  exists s q, steps (Fresh []) ls s /\ reads_to (RStart s) l q.
Proof. exact (tokens_iff ls l). Qed.
Print Assumptions C90_beginnings.

(** What is missing of a line is at hand. *)
Theorem C90_finish s l q : reads_to (RStart s) l q -> exists s', step s (l ++ finish_line q) s'.
Proof.
  intros R. destruct (finish_line_ok q) as (q' & R' & F). apply line_iff. exists q'. split; [exact (reads_app _ _ _ _ _ R R')|exact F].
Qed.
Print Assumptions C90_finish.

(** ** Cases *)
Definition c90_line : list token := toks ["VISIBLE SUM OF x AN ALL OF WIN"].
(** In an n-ary operation that is the second operand of SUM OF. *)
Example C90_case_reads : reads_to (RStart (Fresh [])) c90_line (RDone [PNary] InVisible).
Proof.
  set (ts := c90_line). change (reads_to (RStart (Fresh [])) [tok 0 ts; tok 1 ts; tok 2 ts; tok 3 ts; tok 4 ts; tok 5 ts] (RDone [PNary] InVisible)).
  econstructor; [eapply rs_visible; [constructor|reflexivity]|].
  econstructor; [eapply rs_expr; [apply expects_argument; constructor|eapply opens_binary; [constructor|reflexivity]]|].
  econstructor; [eapply rs_expr; [apply expects_now|apply opens_name; eexists; reflexivity]|].
  econstructor; [eapply rs_binary_an; [constructor|reflexivity]|].
  econstructor; [eapply rs_expr; [apply expects_now|eapply opens_nary; [constructor|reflexivity]]|].
  econstructor; [|constructor]. eapply rs_expr; [apply expects_first_operand|apply opens_value; eexists; reflexivity].
Qed.
(** The line may end here; it can also go on with AN, MKAY or an operand, but not
    with YR. *)
Example C90_case_final : final (RDone [PNary] InVisible).
Proof. split; [repeat constructor|discriminate]. Qed.
Example C90_case_next (t : token) : kw MKAY t -> exists q', rstep (RDone [PNary] InVisible) t q'.
Proof. intros H. eexists. eapply rs_nary_mkay; [left; constructor|exact H]. Qed.
Example C90_case_bad t : kw YR t -> ~ exists r s', step (Fresh []) (c90_line ++ t :: r) s'.
Proof.
  intros Ht H. apply (C90_next_token _ _ _ t C90_case_reads) in H as (q' & H).
  inversion H; subst; repeat match goal with
  | H : _ \/ _ |- _ => destruct H
  | H : done _ _ _ |- _ => inversion H; clear H; subst
  | H : RDone _ _ = _ |- _ => discriminate H
  end; try (unfold kw in *; congruence).
  match goal with H : opens _ _ _ _ |- _ => apply opens_opener in H; unfold opener in H; rewrite Ht in H; discriminate H end.
Qed.
(** A line that is not finished. *)
Example C90_case_finish :
  reads_to (RStart (Fresh [])) (toks ["I IZ f YR SUM OF 1"]) (RDone [PBinary] InCall) /\
  finish_line (RDone [PBinary] InCall) = [some_value; word MKAY].
Proof.
  split; [|reflexivity]. set (ts := toks ["I IZ f YR SUM OF 1"]).
  change (reads_to (RStart (Fresh [])) [tok 0 ts; tok 1 ts; tok 2 ts; tok 3 ts; tok 4 ts] (RDone [PBinary] InCall)).
  econstructor; [eapply rs_i_iz; [constructor|reflexivity]|].
  econstructor; [apply rs_name; eexists; reflexivity|].
  econstructor; [apply rs_yr; [left; reflexivity|reflexivity]|].
  econstructor; [eapply rs_expr; [apply expects_now|eapply opens_binary; [constructor|reflexivity]]|].
  econstructor; [|constructor]. eapply rs_expr; [apply expects_now|apply opens_value; eexists; reflexivity].
Qed.
