(** Property C89: programs can be checked line by line, and which beginnings of
    programs can be continued without errors.  Statements; the proofs are in
    CheckerProofs.v. *)
From Coq Require Import String ZArith.
From Verif Require Import PropLexer PropParser PropShape Parser Lexer Api Lines Clean CheckerProofs.
From Verif Require Export Checker.
Local Open Scope string_scope.
Local Open Scope list_scope.

(** [parse] gives an AST without errors iff the checker, which reads the lines of
    the program once and from the first to the last, gets to its end with no block
    open. *)
Theorem C89_checker ts :
  (exists ns, parse ts = ParseOk (ASTBlock ns) /\ forallb node_clean ns = true) <->
  exists s, steps (Fresh []) (logical_lines ts) s /\ complete s.
Proof. exact (checked_tokens ts). Qed.
Print Assumptions C89_checker.

(** The checker never has a choice. *)
Theorem C89_deterministic s ls s1 s2 : steps s ls s1 -> steps s ls s2 -> s1 = s2.
Proof. exact (steps_fun ls s s1 s2). Qed.
Print Assumptions C89_deterministic.

(** A line that the checker cannot read is in no program without errors that
    begins with the lines before it: whatever comes after it. *)
Theorem C89_bad_line ls1 l s : steps (Fresh []) ls1 s -> (forall s', ~ step s l s') ->
  forall ts ls2, logical_lines ts = ls1 ++ l :: ls2 ->
  ~ exists ns, parse ts = ParseOk (ASTBlock ns) /\ forallb node_clean ns = true.
Proof. exact (bad_line ls1 l s). Qed.
Print Assumptions C89_bad_line.

(** And only such lines are bad: the lines of a source can be read by the checker
    iff something can be written after them such that [tokenize_and_parse] finds
    no error. *)
Theorem C89_beginnings code ts : whole_lines code ts ->
  (exists s, steps (Fresh []) (logical_lines ts) s) <->
  exists more ns, tokenize_and_parse (code ++ more) = ApiOk (ASTBlock ns) /\ forallb node_clean ns = true.
Proof. exact (sources_iff code ts). Qed.
Print Assumptions C89_beginnings.

(** The lines that close the open blocks will do. *)
Theorem C89_closing code ts s : whole_lines code ts -> steps (Fresh []) (logical_lines ts) s ->
  exists ns, tokenize_and_parse (code ++ closing_text s) = ApiOk (ASTBlock ns) /\ forallb node_clean ns = true.
Proof. exact (closing_works code ts s). Qed.
Print Assumptions C89_closing.

(** ** Cases *)
Definition c89_code (ls : list string) : str := flat_map (fun l => lit l ++ nl) ls.
Definition c89_toks (ls : list string) : list token := match tokenize (c89_code ls) with LexOk ts => ts | _ => [] end.

(** A function and a loop are open. *)
Definition c89_open := ["HOW IZ I f YR a"; "IM IN YR loop"; "GTFO"].
Example C89_case_whole : whole_lines (c89_code c89_open) (c89_toks c89_open).
Proof.
  right. exists (removelast (c89_code c89_open)). split; [vm_compute; reflexivity|]. split; [vm_compute; reflexivity|].
  split; [vm_compute; repeat constructor; discriminate|].
  intros ts0 t E. assert (E2 : last (c89_toks c89_open) dummy = last (ts0 ++ [t]) dummy) by (rewrite E; reflexivity).
  rewrite last_last in E2. subst t. vm_compute. reflexivity.
Qed.
Example C89_case_steps : steps (Fresh []) (logical_lines (c89_toks c89_open)) (Begun [FLoop; FFunction]).
Proof.
  set (ts := c89_toks c89_open).
  change (steps (Fresh []) [[tok 0 ts; tok 1 ts; tok 2 ts; tok 3 ts]; [tok 4 ts; tok 5 ts]; [tok 6 ts]] (Begun [FLoop; FFunction])).
  econstructor.
  { apply (step_function _ [] (tok 0 ts) [tok 1 ts] (mkIdentifier (tok 1 ts) None) [tok 2 ts; tok 3 ts] [mkIdentifier (tok 3 ts) None]); [constructor|reflexivity| |].
    - constructor. eexists; reflexivity.
    - apply d_params_last; [reflexivity|]. constructor. eexists; reflexivity. }
  econstructor.
  { apply (step_loop _ [FFunction] (tok 4 ts) (tok 5 ts) [] None [] None); [constructor|reflexivity|eexists; reflexivity|constructor|constructor]. }
  econstructor; [|constructor]. eapply step_line; [constructor|]. apply d_gtfo. reflexivity.
Qed.
Example C89_case_closing : closing_text (Begun [FLoop; FFunction]) =
  lit "IM OUTTA YR" ++ tab ++ lit "x" ++ nl ++ lit "IF U SAY SO" ++ nl ++ lit "..." ++ tab ++ lit "," ++ nl.
Proof. vm_compute. reflexivity. Qed.
Example C89_case_closed : exists ns,
  tokenize_and_parse (c89_code c89_open ++ closing_text (Begun [FLoop; FFunction])) = ApiOk (ASTBlock ns) /\
  forallb node_clean ns = true /\ length ns = 1.
Proof. eexists. split; [vm_compute; reflexivity|]. vm_compute. auto. Qed.

(** HAI wants an empty line after it, so this program cannot be saved. *)
Definition c89_bad := c89_toks ["HAI 1.2"; "KTHXBYE"].
Example C89_case_hai : steps (Fresh []) (firstn 1 (logical_lines c89_bad)) (NeedEmpty []).
Proof.
  econstructor; [|constructor]. apply step_hai; [constructor|reflexivity].
Qed.
Example C89_case_no_step s' : ~ step (NeedEmpty []) (nth 1 (logical_lines c89_bad) []) s'.
Proof.
  change (nth 1 (logical_lines c89_bad) []) with [tok 2 c89_bad]. intros H. inversion H; subst;
    repeat match goal with
    | H : _ \/ _ |- _ => destruct H
    | H : in_block _ _ |- _ => inversion H
    | H : before_case _ _ |- _ => inversion H
    | H : before_mebbe _ _ |- _ => inversion H
    end; discriminate.
Qed.
Example C89_case_bad ts ls2 : logical_lines ts = logical_lines c89_bad ++ ls2 ->
  ~ exists ns, parse ts = ParseOk (ASTBlock ns) /\ forallb node_clean ns = true.
Proof.
  intros E. apply (C89_bad_line _ _ _ C89_case_hai C89_case_no_step ts ls2). exact E.
Qed.
