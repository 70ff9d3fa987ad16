(** Property C93: errors and panics are about the first token that is wrong.
    Statements; the proofs are in EarliestProofs.v and HeaderProofs.v. *)
From Coq Require Import String List.
From Verif Require Import Parser Lines Lexer FirstError Checker Reader ReaderProofs AutomatonProofs EarliestProofs HeaderProofs PropLexer PropParser.
From Verif Require Export Earliest.
Import ListNotations.
Local Open Scope string_scope.
Local Open Scope list_scope.

(** In a program of single-line statements, each line has the nodes that
    [located] says: an error is about the first token after which the line could
    not be continued to one of the grammar, or about a token of a line that ends
    too early; TooManyTokens starts with the first wrong token or after it. *)
Theorem C93_errors ts ns : Forall plain_line (logical_lines ts) -> parse ts = ParseOk (ASTBlock ns) ->
  exists nss, ns = concat nss /\ Forall2 located (logical_lines ts) nss.
Proof. exact (located_program ts ns). Qed.
Print Assumptions C93_errors.

(** A panic also happens at the first wrong token of its line, and the lines before
    it have their nodes. *)
Theorem C93_panics ts c : Forall plain_line (logical_lines ts) -> parse ts = ParsePanic c ->
  exists ls1 nss l1 t r ls2, logical_lines ts = ls1 ++ (l1 ++ t :: r) :: ls2 /\ Forall2 located ls1 nss /\
    panic_tokens c = [t] /\ first_wrong l1 t.
Proof. exact (located_crash ts c). Qed.
Print Assumptions C93_panics.

(** There is only one first wrong token. *)
Theorem C93_unique l1 t r l2 u s : l1 ++ t :: r = l2 ++ u :: s -> first_wrong l1 t -> first_wrong l2 u -> l1 = l2 /\ t = u /\ r = s.
Proof. exact (first_wrong_unique l1 t r l2 u s). Qed.
Print Assumptions C93_unique.

(** The same for the first header of a loop or a function that is not well-formed,
    after single-line statements: its error is about its first wrong token, or
    TooManyTokens starts with that, or the header is unfinished. *)
Theorem C93_headers ts ls1 l ls ns : logical_lines ts = ls1 ++ l :: ls -> Forall plain_line ls1 -> begins header_start l ->
  (forall s', ~ step (Fresh []) l s') -> parse ts = ParseOk (ASTBlock ns) ->
  exists nss e ns', ns = concat nss ++ NASTError e :: ns' /\ Forall2 located ls1 nss /\ located_header l e.
Proof. exact (located_headers ts ls1 l ls ns). Qed.
Print Assumptions C93_headers.

(** For the lines of other blocks this is false: in O RLY x the first wrong token is x,
    but the error is about O RLY. *)
Theorem C93_blocks_refuted : exists ts o x e, logical_lines ts = [[o; x]] /\
  (exists r s', step (Fresh []) ([o] ++ r) s') /\ (forall r s', ~ step (Fresh []) ([o; x] ++ r) s') /\
  parse ts = ParseOk (ASTBlock [NASTError e]) /\ ~ In x (error_tokens e).
Proof.
  set (ts := toks ["O RLY x"]). exists ts, (tok 0 ts), (tok 1 ts), (EORly (MissingQuestionMark (tok 0 ts))).
  assert (R : reads_to (RStart (Fresh [])) [tok 0 ts] RQuestion) by (econstructor; [apply f_reads; vm_compute; reflexivity|constructor]).
  split; [vm_compute; reflexivity|]. split; [apply begun_line_iff; eexists; exact R|]. split; [|split; [vm_compute; reflexivity|]].
  - intros r s' H. destruct (proj1 (next_iff _ _ _ (tok 1 ts) R) (ex_intro _ r (ex_intro _ s' H))) as (q & Q). apply reads_f in Q. vm_compute in Q. discriminate Q.
  - intros [E|[]]. discriminate E.
Qed.
Print Assumptions C93_blocks_refuted.

(** ** Cases *)
Definition c93_toks : list token := toks ["I HAS A x ITZ SUM OF 1 AN YR WIN"; "VISIBLE x"; "GTFO GTFO"; "GIMMEH"].
Example C93_case_plain : Forall plain_line (logical_lines c93_toks).
Proof.
  vm_compute. repeat constructor; try discriminate; intros (t & r & E & [K|[K|[K|[K|K]]]]); injection E as <- <-; discriminate K.
Qed.
Example C93_case_parse : exists ns, parse c93_toks = ParseOk (ASTBlock ns) /\
  map (fun n => match n with NASTError e => map tok_type (error_tokens e) | _ => [] end) ns =
    [[TKeyword YR]; [TValue (VBoolean true)]; []; []; [TKeyword GTFO]; [TKeyword GIMMEH]].
Proof. eexists. split; vm_compute; reflexivity. Qed.
Definition c93_panic : list token := toks ["GTFO"; "x YR 1"].
Example C93_case_panics : match parse c93_panic with ParsePanic c => panic_tokens c | _ => [] end = [tok 2 c93_panic] /\
  tok_type (tok 2 c93_panic) = TKeyword YR.
Proof. vm_compute. auto. Qed.

Definition c93_header : list token := toks ["GTFO"; "HOW IZ I f YR x YR y"; "VISIBLE x"].
Example C93_case_header : exists ls1 l ls, logical_lines c93_header = ls1 ++ l :: ls /\ Forall plain_line ls1 /\ begins header_start l /\
  (forall s', ~ step (Fresh []) l s') /\
  exists ns, parse c93_header = ParseOk (ASTBlock ns) /\ nth_error ns 1 = Some (NASTError (TooManyTokens (skipn 4 l))).
Proof.
  eexists [_], _, [_]. split; [vm_compute; reflexivity|]. split; [|split; [|split; [|eexists; split; vm_compute; reflexivity]]].
  - repeat constructor; try discriminate. intros (t & r & E & [K|[K|[K|[K|K]]]]); injection E as <- <-; discriminate K.
  - eexists _, _. split; [reflexivity|]. right. reflexivity.
  - intros s' H. match type of H with step _ [?a; ?b; ?c; ?d; ?e; ?f] _ =>
      assert (R : reads_to (RStart (Fresh [])) [a; b; c; d] (RNamed AsParam)) by (repeat (econstructor; [apply f_reads; vm_compute; reflexivity|]); constructor);
      destruct (proj1 (next_iff _ _ _ e R) (ex_intro _ [f] (ex_intro _ s' H))) as (q & Q) end.
    apply reads_f in Q. vm_compute in Q. discriminate Q.
Qed.
