(** Theorems about programs that are not well-formed.  The vocabulary of the
    statements: Lines.v (logical lines), Grammar.v, Failure.v (failures of a
    line), Recovery.v (results of a program). *)
From Coq Require Import String.
From Verif Require Import Lexer Parser Lines Grammar Failure Recovery RecoveryProps PropParser.
Local Open Scope string_scope.
Local Open Scope list_scope.

(** ** C50 *)
Theorem C50_lines_one_after_the_other ts x :
  Forall (fun l => l <> [] /\ ~ begins block_start l) (logical_lines ts) ->
  parse ts = result_ x <-> exists xs, Forall2 line_result (logical_lines ts) xs /\ in_order xs = x.
Proof. exact (lines_iff ts x). Qed.
Print Assumptions C50_lines_one_after_the_other.
Theorem C50_every_line_has_a_result l : ~ begins block_start l -> exists x, line_result l x.
Proof. exact (line_result_total l). Qed.
Print Assumptions C50_every_line_has_a_result.
Theorem C50_results_are_unique l x y : line_result l x -> line_result l y -> x = y.
Proof. exact (line_result_unique l x y). Qed.
Print Assumptions C50_results_are_unique.

Lemma C50_simple ts : forallb (fun l => match l with
    | [] => false
    | t :: _ => negb (is_kw HAI t || is_kw IM_IN_YR t || is_kw HOW_IZ_I t || is_kw WTF t || is_kw O_RLY t)
    end) (logical_lines ts) = true ->
  Forall (fun l => l <> [] /\ ~ begins block_start l) (logical_lines ts).
Proof.
  intros H. apply Forall_forall. intros l Hl. rewrite forallb_forall in H. specialize (H _ Hl).
  destruct l as [|t l]; [discriminate|]. split; [discriminate|]. intros (u & r & E & Hu). injection E as <- <-.
  unfold is_kw, kw in *. destruct Hu as [Hu|[Hu|[Hu|[Hu|Hu]]]]; unfold kw in Hu; rewrite Hu in H; discriminate.
Qed.

(** The errors of six lines and what is left of them. *)
Example C50_case :
  let ts := toks [ "I HAS A 5 6"; "VISIBLE SUM OF 1 AN )"; "x R"; "I IZ f YR 1 AN YR 2"; "GTFO 7 8"; "NOT" ] in
  Forall (fun l => l <> [] /\ ~ begins block_start l) (logical_lines ts) /\
  parse ts = result_ (inl
    [NASTError (EIHasA (InvalidIdentifier (tok 1 ts))); NASTError (TooManyTokens [tok 2 ts]);
     NASTError (UnexpectedToken (tok 7 ts));
     NASTError (EVariableAssignment (ExpectedValue (tok 9 ts)));
     NASTError (EIIz (MissingMkay (tok 10 ts)));
     NGtfo (mkGtfo (tok 17 ts)); NASTError (TooManyTokens [tok 18 ts; tok 19 ts]);
     NASTError (EExpression (MissingOperands (tok 20 ts)))]).
Proof. split; [apply C50_simple; vm_compute; reflexivity|vm_compute; reflexivity]. Qed.

(** ** C51 *)
Theorem C51_results_of_programs ts ns :
  parse ts = ParseOk (ASTBlock ns) <-> program_nodes (logical_lines ts) ns.
Proof. exact (parse_nodes ts ns). Qed.
Print Assumptions C51_results_of_programs.
Theorem C51_panics_of_programs ts c : parse ts = ParsePanic c <-> program_panics (logical_lines ts) c.
Proof. exact (parse_panics_iff ts c). Qed.
Print Assumptions C51_panics_of_programs.
Theorem C51_blocks_have_one_outcome k s : exists o, r_block k s o /\ forall o', r_block k s o' -> o' = o.
Proof. exact (block_one_outcome k s). Qed.
Print Assumptions C51_blocks_have_one_outcome.
Theorem C51_statements_have_one_outcome l ls : l <> [] ->
  exists o, r_stmt l ls o /\ forall o', r_stmt l ls o' -> o' = o.
Proof. exact (stmt_one_outcome l ls). Qed.
Print Assumptions C51_statements_have_one_outcome.

(** Broken headers, a header that swallows the line after it, and end labels. *)
Example C51_case :
  let ts := toks [ "IM IN YR a UPPIN x"; "GTFO"; "IM IN YR b 1"; "VISIBLE 2"; "GTFO"; "IM OUTTA YR 5 6";
                   "IM IN YR c"; "GTFO"; "IM OUTTA YR 7"; "WTF?"; "OMG"; "GTFO"; "OIC" ] in
  program_nodes (logical_lines ts)
    [NASTError (EImInYr (MissingYr (tok 3 ts))); NGtfo (mkGtfo (tok 4 ts));
     NASTError (TooManyTokens [tok 7 ts]); NASTError (TooManyTokens [tok 8 ts; tok 9 ts]);
     NGtfo (mkGtfo (tok 10 ts));
     NASTError (UnexpectedToken (tok 11 ts)); NASTError (TooManyTokens [tok 12 ts; tok 13 ts]);
     NASTError (EImInYr (InvalidEndLabel (tok 18 ts)));
     NASTError (MissingToken (tok 21 ts)); NGtfo (mkGtfo (tok 22 ts));
     NASTError (UnexpectedToken (tok 23 ts))].
Proof. intros ts. apply C51_results_of_programs. vm_compute. reflexivity. Qed.
Example C51_case_panic :
  let ts := toks [ "HOW IZ I f YR x"; "O RLY?"; "MEBBE x"; "VISIBLE MAEK 1"; "OIC"; "IF U SAY SO" ] in
  program_panics (logical_lines ts) (PanicMaek (tok 9 ts)).
Proof. intros ts. apply C51_panics_of_programs. vm_compute. reflexivity. Qed.

(** The specification used by hand: the line after a header with a token too
    many is swallowed. *)
Example C51_case_by_hand t l x g h :
  kw IM_IN_YR t -> ident_tok l -> kw GTFO x -> kw GTFO g -> kw KTHXBYE h ->
  program_nodes [[t; l; x]; [g]; [h]]
    [NASTError (TooManyTokens [x]); NASTError (TooManyTokens [g]); NKThxBye (mkKthxbye h)].
Proof.
  intros Ht Hl Hx Hg Hh. eexists.
  eapply (r_block_err Root t [l; x] [[g]; [h]] (TooManyTokens [x]) [g] [[h]] (Done [NKThxBye (mkKthxbye h)] _)).
  - apply (r_loop_junk t [l; x] [[g]; [h]] l None None x []); [exact Ht|].
    assert (Hn : forall k, k <> GTFO -> ~ kw k x) by (intros k Hk H; apply Hk; unfold kw in *; congruence).
    exists [], []. repeat split; [exact Hl|constructor|constructor|..].
    + intros _ (y & r & E & [H|H]); injection E as <- _; [apply (Hn UPPIN)|apply (Hn NERFIN)]; (discriminate || exact H).
    + intros _ (y & r & E & [H|H]); injection E as <- _; [apply (Hn TIL)|apply (Hn WILE)]; (discriminate || exact H).
    + intros [].
    + intros [(us & y & E & _) _]. destruct us; discriminate.
  - apply r_more_go; [intros []|].
    eapply (r_block_done Root h [] [] (NKThxBye (mkKthxbye h)) [] [] (Done [] _)).
    + apply r_reads. exists [h]. repeat split; [constructor; exact Hh|intros [_ (y & r & E & _)]; discriminate].
    + apply r_more_empty. reflexivity.
Qed.
