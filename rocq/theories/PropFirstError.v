(** Property C91: the first line that is wrong is where the errors begin.
    Statements; the proofs are in FirstErrorMain.v. *)
From Coq Require Import String ZArith.
From Verif Require Import Parser Lines Lexer Api LexPropSpec SourceEdit Clean Recovery NodeTokens NodeLines Checker CheckerProofs ProgComplete FirstError FirstErrorProofs FirstErrorRuns
  FirstErrorMain PropLexer PropParser PropChecker.
Local Open Scope string_scope.
Local Open Scope list_scope.

(** The checker that keeps the first tokens of the open statements reads what
    the one of C89 reads; it keeps one token for each open statement. *)
Theorem C91_tracked s ls s' : steps s ls s' <-> exists T', tracks s [] ls s' T'.
Proof. exact (tracked_ok s ls s'). Qed.
Print Assumptions C91_tracked.
Theorem C91_one_each ls s T : tracks (Fresh []) [] ls s T -> length T = depth s.
Proof. exact (tracked_length_ok ls s T). Qed.
Print Assumptions C91_one_each.

(** No false alarms: when the checker has read the lines [ls1], every error of
    the program is about tokens after them, or says that one of the statements
    that are open after them is not closed. *)
Theorem C91_no_false_alarms ls1 ls2 s T ts b e : logical_lines ts = ls1 ++ ls2 -> tracks (Fresh []) [] ls1 s T ->
  parse ts = ParseOk b -> In e (block_errors b) ->
  incl (error_tokens e) (concat ls2) \/ exists t, In t T /\ unclosed t e.
Proof. exact (no_false_alarms_ok ls1 ls2 s T ts b e). Qed.
Print Assumptions C91_no_false_alarms.

(** And if the parser panics, it does so at a token after them. *)
Theorem C91_no_false_panics ls1 ls2 s T ts c : logical_lines ts = ls1 ++ ls2 -> tracks (Fresh []) [] ls1 s T ->
  parse ts = ParsePanic c -> incl (panic_tokens c) (concat ls2).
Proof. exact (no_false_panics_ok ls1 ls2 s T ts c). Qed.
Print Assumptions C91_no_false_panics.

(** A program whose lines can be read and that ends with open statements: one
    error, the last node, about the outermost of them.  It does not panic. *)
Theorem C91_unclosed ts s T t : tracks (Fresh []) [] (logical_lines ts) s (T ++ [t]) ->
  exists ns e, parse ts = ParseOk (ASTBlock (ns ++ [NASTError e])) /\ forallb node_clean ns = true /\ unclosed t e.
Proof. exact (unclosed_ok ts s T t). Qed.
Print Assumptions C91_unclosed.

(** Outside all statements, a line that the checker cannot read has an error
    about its own tokens, and no node before this error contains one. *)
Theorem C91_bad_line ls1 l ls2 s ts ns : logical_lines ts = ls1 ++ l :: ls2 -> tracks (Fresh []) [] ls1 s [] ->
  (forall s', ~ step s l s') -> parse ts = ParseOk (ASTBlock ns) ->
  exists ns1 e ns2, ns = ns1 ++ NASTError e :: ns2 /\ forallb node_clean ns1 = true /\ error_on l e.
Proof. exact (bad_line_ok ls1 l ls2 s ts ns). Qed.
Print Assumptions C91_bad_line.

(** In a source: after whole lines that the checker has read, every error is
    about tokens after these lines, or about an open statement. *)
Theorem C91_sources code ts s T more b e : whole_lines code ts -> tracks (Fresh []) [] (logical_lines ts) s T ->
  tokenize_and_parse (code ++ more) = ApiOk b -> In e (block_errors b) ->
  Forall (fun t => (Z.of_nat (byte_len code) <= bytes (start_of t))%Z) (error_tokens e) \/ exists t, In t T /\ unclosed t e.
Proof. exact (sources_ok code ts s T more b e). Qed.
Print Assumptions C91_sources.

(** ** Cases *)
(** Two statements are open. *)
Lemma c91_loop (ts := c89_toks c89_open) : tracks (Fresh []) [] (logical_lines ts) (Begun [FLoop; FFunction]) [tok 4 ts; tok 0 ts].
Proof.
  change (logical_lines ts) with [[tok 0 ts; tok 1 ts; tok 2 ts; tok 3 ts]; [tok 4 ts; tok 5 ts]; [tok 6 ts]].
  apply (tracks_cons _ _ _ (Fresh [FFunction])).
  { apply (step_function _ [] (tok 0 ts) [tok 1 ts] (mkIdentifier (tok 1 ts) None) [tok 2 ts; tok 3 ts] [mkIdentifier (tok 3 ts) None]); [constructor|reflexivity| |].
    - constructor. eexists; reflexivity.
    - apply d_params_last; [reflexivity|]. constructor. eexists; reflexivity. }
  apply (tracks_cons _ _ _ (Fresh [FLoop; FFunction])).
  { apply (step_loop _ [FFunction] (tok 4 ts) (tok 5 ts) [] None [] None); [constructor|reflexivity|eexists; reflexivity|constructor|constructor]. }
  apply (tracks_cons _ _ _ (Begun [FLoop; FFunction])).
  { eapply step_line; [constructor|]. apply d_gtfo. reflexivity. }
  constructor.
Qed.
Example C91_case_open : exists ns e, parse (c89_toks c89_open) = ParseOk (ASTBlock (ns ++ [NASTError e])) /\
  forallb node_clean ns = true /\ unclosed (tok 0 (c89_toks c89_open)) e.
Proof. exact (C91_unclosed _ _ [tok 4 (c89_toks c89_open)] _ c91_loop). Qed.
Example C91_case_open_parse : parse (c89_toks c89_open) = ParseOk (ASTBlock [NASTError (MissingBlockClosingToken (tok 0 (c89_toks c89_open)))]).
Proof. vm_compute. reflexivity. Qed.

(** The same as a source, with a wrong line after it. *)
Example C91_case_source b e : tokenize_and_parse (c89_code c89_open ++ lit "OIC") = ApiOk b -> In e (block_errors b) ->
  Forall (fun t => (Z.of_nat (byte_len (c89_code c89_open)) <= bytes (start_of t))%Z) (error_tokens e) \/
  exists t, In t [tok 4 (c89_toks c89_open); tok 0 (c89_toks c89_open)] /\ unclosed t e.
Proof. exact (C91_sources _ _ _ _ (lit "OIC") b e C89_case_whole c91_loop). Qed.
Example C91_case_source_error : exists b, tokenize_and_parse (c89_code c89_open ++ lit "OIC") = ApiOk b /\ length (block_errors b) = 1.
Proof. eexists. split; vm_compute; reflexivity. Qed.

(** HAI wants an empty line after it. *)
Example C91_case_bad ns : parse c89_bad = ParseOk (ASTBlock ns) ->
  exists ns1 e ns2, ns = ns1 ++ NASTError e :: ns2 /\ forallb node_clean ns1 = true /\ error_on (nth 1 (logical_lines c89_bad) []) e.
Proof.
  apply (C91_bad_line (firstn 1 (logical_lines c89_bad)) _ [] (NeedEmpty [])); [reflexivity| |exact C89_case_no_step].
  eapply tracks_cons; [apply step_hai; [constructor|reflexivity]|]. constructor.
Qed.
Example C91_case_bad_parse : exists n, parse c89_bad = ParseOk (ASTBlock [n; NASTError (TooManyTokens (nth 1 (logical_lines c89_bad) []))]) /\ node_clean n = true.
Proof. eexists. split; vm_compute; reflexivity. Qed.

(** An error after lines that are right: none is about the first of them. *)
Definition c91_late := c89_toks ["GTFO"; "IM IN YR a"; "GTFO"; "IM OUTTA YR"; "GTFO GTFO"].
Example C91_case_late b e : parse c91_late = ParseOk b -> In e (block_errors b) ->
  incl (error_tokens e) (concat (skipn 3 (logical_lines c91_late))) \/ exists t, In t [tok 1 c91_late] /\ unclosed t e.
Proof.
  apply (C91_no_false_alarms (firstn 3 (logical_lines c91_late)) (skipn 3 (logical_lines c91_late)) (Begun [FLoop]) [tok 1 c91_late]); [reflexivity|].
  set (ts := c91_late). change (firstn 3 (logical_lines ts)) with [[tok 0 ts]; [tok 1 ts; tok 2 ts]; [tok 3 ts]].
  apply (tracks_cons _ _ _ (Begun [])); [eapply step_line; [constructor|apply d_gtfo; reflexivity]|].
  apply (tracks_cons _ _ _ (Fresh [FLoop])).
  { apply (step_loop _ [] (tok 1 ts) (tok 2 ts) [] None [] None); [constructor|reflexivity|eexists; reflexivity|constructor|constructor]. }
  apply (tracks_cons _ _ _ (Begun [FLoop])); [eapply step_line; [constructor|apply d_gtfo; reflexivity]|]. apply tracks_nil.
Qed.
Example C91_case_late_errors : exists b e1 e2, parse c91_late = ParseOk b /\ block_errors b = [e1; e2].
Proof. eexists _, _, _. split; vm_compute; reflexivity. Qed.

(** MAEK may be part of a version; the panic is at the later one. *)
Definition c91_maek := c89_toks ["HAI MAEK"; "..."; ","; "MAEK"].
Example C91_case_maek : exists c, parse c91_maek = ParsePanic c /\ incl (panic_tokens c) (concat (skipn 1 (logical_lines c91_maek))).
Proof.
  eexists. split; [vm_compute; reflexivity|].
  apply (C91_no_false_panics (firstn 1 (logical_lines c91_maek)) (skipn 1 (logical_lines c91_maek)) (NeedEmpty []) [] c91_maek);
    [reflexivity| |vm_compute; reflexivity].
  apply (tracks_cons _ _ _ (NeedEmpty [])); [|apply tracks_nil].
  apply (step_hai _ [] (tok 0 c91_maek) [tok 1 c91_maek]); [constructor|reflexivity].
Qed.

(** Inside a statement the error of such a line can be lost: when the statement
    is not closed, its own error is the only one. *)
Definition c91_lost := c89_toks ["IM IN YR a"; "OIC"].
Theorem C91_inner_bad_line_refuted : ~ (forall ls1 l ls2 s T ts ns, logical_lines ts = ls1 ++ l :: ls2 -> tracks (Fresh []) [] ls1 s T ->
  (forall s', ~ step s l s') -> parse ts = ParseOk (ASTBlock ns) -> exists e, In e (block_errors (ASTBlock ns)) /\ error_on l e).
Proof.
  intros H. set (ts := c91_lost).
  destruct (H [[tok 0 ts; tok 1 ts]] [tok 2 ts] [] (Fresh [FLoop]) [tok 0 ts] ts [NASTError (EImInYr (MissingImOuttaYr (tok 0 ts)))]) as (e & He & Ho).
  - reflexivity.
  - apply (tracks_cons _ _ _ (Fresh [FLoop])); [|apply tracks_nil]. apply (step_loop _ [] (tok 0 ts) (tok 1 ts) [] None [] None);
      [constructor|reflexivity|eexists; reflexivity|constructor|constructor].
  - intros s' K. inversion K; subst; try discriminate;
      repeat match goal with
      | H : _ \/ _ |- _ => destruct H
      | H : before_case _ _ |- _ => inversion H
      | H : before_mebbe _ _ |- _ => inversion H
      end; try discriminate.
    eapply (line_reserved OIC (tok 2 ts)); [eassumption|reflexivity|reflexivity].
  - vm_compute. reflexivity.
  - cbn in He. destruct He as [<-|[]]. destruct Ho as (t & E & Hi). injection E as <-. destruct Hi as [E|[]]. vm_compute in E. discriminate.
Qed.
Print Assumptions C91_inner_bad_line_refuted.
