(** Property C68: the errors and their documentation.  Statements; the proofs
    are in ErrorDocs.v. *)
From Coq Require Import String.
From Verif Require Import PropParser ErrorDocs.
From Verif Require Export NodeLines LineEffect.
Local Open Scope string_scope.
Local Open Scope list_scope.

(** Every error at any depth says where reading stopped on its line: [error_at]
    says for every kind of error what has been read of the line, and whether it
    was at its end.  What is left of the line is reported too. *)
Theorem C68_errors_say_where ts b e : parse ts = ParseOk b -> In e (block_errors b) ->
  (exists p r, In (p ++ r) (logical_lines ts) /\ error_at p r e /\ (r <> [] -> In (TooManyTokens r) (block_errors b))) \/
  (exists p r, In (p ++ r) (logical_lines ts) /\ r <> [] /\ e = TooManyTokens r).
Proof. exact (errors_say_where ts b e). Qed.
Print Assumptions C68_errors_say_where.

(** src/parser/error.rs:17 on TooManyTokens: if these tokens were not there, the
    statement would be valid.  This is so for a line with a statement [n] and
    tokens [r] left: without them the line gives [n] alone and nothing else
    changes.  (Or the line is not read as a statement, with and without them.) *)
Theorem C68_too_many_tokens ls1 ls2 p r n : r <> [] -> plain p -> reads (p ++ r) n r -> forall ts ts',
  logical_lines ts = ls1 ++ (p ++ r) :: ls2 -> logical_lines ts' = ls1 ++ p :: ls2 ->
  exists f, answer f /\
   (parse ts = f (inl [n; NASTError (TooManyTokens r)]) /\ parse ts' = f (inl [n]) \/
    parse ts = f (inl [NASTError (TooManyTokens (p ++ r))]) /\ parse ts' = f (inl [NASTError (TooManyTokens p)]) \/
    exists t q, p = t :: q /\ parse ts = f (inl [NASTError (UnexpectedToken t); NASTError (TooManyTokens (q ++ r))]) /\
      parse ts' = f (inl (NASTError (UnexpectedToken t) :: left_over q))).
Proof. exact (too_many_tokens ls1 ls2 p r n). Qed.
Print Assumptions C68_too_many_tokens.

(** In general it is refuted: the statement may be invalid without them, the
    tokens may be a line of their own after HAI, and the block that their line
    would open may not be closed. *)
Theorem C68_valid_without_them_refuted :
  (exists t u, nodes_of (parse (toks ["I HAS A 1  2 "])) = [NASTError (EIHasA (InvalidIdentifier t)); NASTError (TooManyTokens [u])] /\
               nodes_of (parse (toks ["I HAS A 1 "])) = [NASTError (EIHasA (InvalidIdentifier t))]) /\
  (exists h v w, nodes_of (parse (toks ["HAI"; "GTFO"; "GTFO"])) = [NHai h; NASTError (TooManyTokens [v]); NGtfo (mkGtfo w)] /\
                 nodes_of (parse (toks ["HAI"; "    "; "GTFO"])) = [NHai h; NASTError (TooManyTokens [w])]) /\
  (exists m x, nodes_of (parse (toks ["IM IN YR a b"])) = [NASTError (TooManyTokens [x])] /\
               nodes_of (parse (toks ["IM IN YR a"])) = [NASTError (EImInYr (MissingImOuttaYr m))]).
Proof.
  split; [|split].
  - exists (tok 1 (toks ["I HAS A 1  2 "])), (tok 2 (toks ["I HAS A 1  2 "])). vm_compute. split; reflexivity.
  - exists (mkHai (tok 0 (toks ["HAI"; "GTFO"; "GTFO"])) []), (tok 1 (toks ["HAI"; "GTFO"; "GTFO"])), (tok 2 (toks ["HAI"; "GTFO"; "GTFO"])).
    vm_compute. split; reflexivity.
  - exists (tok 0 (toks ["IM IN YR a b"])), (tok 2 (toks ["IM IN YR a b"])). vm_compute. split; reflexivity.
Qed.
Print Assumptions C68_valid_without_them_refuted.

(** The examples in the documentation of MissingName, MissingArgument
    (i_is.rs:24-33), MissingR (assignment.rs:98-102), InvalidOperation and
    InvalidConditional (im_in_yr.rs:42-56): none of them gives the error. *)
Definition C68_error (line : string) : option (list token_type) :=
  match parse (toks [line]) with
  | ParseOk (ASTBlock [NASTError (UnexpectedToken t)]) => Some [tok_type t]
  | ParseOk (ASTBlock [NASTError (TooManyTokens us)]) => Some (map tok_type us)
  | _ => None
  end.
Theorem C68_documented_examples_refuted :
  C68_error "I IZ MKAY" = Some [TKeyword MKAY] /\
  C68_error "I IZ function_name YR MKAY" = Some [TKeyword MKAY] /\
  C68_error "IM IN YR loop ADDING YR var" = Some [TKeyword A; TIdentifier (lit "DDING"); TKeyword YR; TIdentifier (lit "var")] /\
  C68_error "IM IN YR loop UPPIN YR var BEFORE" = Some [TIdentifier (lit "BEFORE")] /\
  exists v u, parse (toks ["var 10 "]) = ParsePanic (PanicUnreachable v u).
Proof. do 4 (split; [vm_compute; reflexivity|]). eexists _, _. vm_compute. reflexivity. Qed.
Print Assumptions C68_documented_examples_refuted.

(** The same for all such lines. *)
Theorem C68_call_without_name ts i u r : logical_lines ts = [i :: u :: r] -> kw I_IZ i -> ~ id_start u ->
  parse ts = ParseOk (ASTBlock (NASTError (UnexpectedToken u) :: left_over r)).
Proof. exact (call_without_name ts i u r). Qed.
Print Assumptions C68_call_without_name.
Theorem C68_call_without_argument ts i ws v yr u r : logical_lines ts = [i :: ws ++ yr :: u :: r] -> kw I_IZ i -> d_va ws v ->
  kw YR yr -> ~ starts_expr u -> ~ kw MAEK u ->
  parse ts = ParseOk (ASTBlock (NASTError (UnexpectedToken u) :: left_over r)).
Proof. exact (call_without_argument ts i ws v yr u r). Qed.
Print Assumptions C68_call_without_argument.
Theorem C68_assignment_without_r ts ws v u r : logical_lines ts = [ws ++ u :: r] -> d_va ws v ->
  ~ slot_tok u -> ~ kw R u -> ~ kw HAS_A u -> parse ts = ParsePanic (PanicUnreachable v u).
Proof. exact (assignment_without_r ts ws v u r). Qed.
Print Assumptions C68_assignment_without_r.
Theorem C68_other_operation ts m l u r : logical_lines ts = [m :: l :: u :: r] -> kw IM_IN_YR m -> ident_tok l ->
  ~ is_step u -> ~ is_until u -> parse ts = ParseOk (ASTBlock [NASTError (TooManyTokens (u :: r))]).
Proof. exact (other_operation ts m l u r). Qed.
Print Assumptions C68_other_operation.
Theorem C68_function_without_name ts h u r : logical_lines ts = [h :: u :: r] -> kw HOW_IZ_I h -> ~ id_start u ->
  parse ts = ParseOk (ASTBlock (NASTError (UnexpectedToken u) :: left_over r)).
Proof. exact (function_without_name ts h u r). Qed.
Print Assumptions C68_function_without_name.

(** Errors at the end of a line, in a block, and with tokens left. *)
Example C68_case_where :
  let ts := toks [ "IM IN YR l"; "I HAS A x ITZ"; "SUM OF SUM OF 1 AN 2 AN"; "I IZ f YR 1  2 "; "IM OUTTA YR l" ] in
  match parse ts with
  | ParseOk b => block_errors b =
      [ EIHasA (ExpectedInitialValue (tok 4 ts)); EExpression (MissingOperands (tok 5 ts));
        EIIz (MissingMkay (tok 15 ts)) ]
  | _ => False
  end.
Proof. vm_compute. reflexivity. Qed.
(** Tokens that are too many in a loop, and the program without them. *)
Example C68_case_too_many :
  let with_ := toks [ "IM IN YR l"; "GTFO 1  2 "; "IM OUTTA YR l" ] in
  let without := toks [ "IM IN YR l"; "GTFO      "; "IM OUTTA YR l" ] in
  let p := [tok 2 with_] in
  let r := [tok 3 with_; tok 4 with_] in
  plain p /\ reads (p ++ r) (NGtfo (mkGtfo (tok 2 with_))) r /\
  logical_lines with_ = [[tok 0 with_; tok 1 with_]; p ++ r; [tok 5 with_; tok 6 with_]] /\
  logical_lines without = [[tok 0 with_; tok 1 with_]; p; [tok 5 with_; tok 6 with_]].
Proof.
  cbv zeta. split; [|split; [|split; vm_compute; reflexivity]].
  - split; [discriminate|]. split.
    + intros (t & c & E & H). vm_compute in E. injection E as <- <-. vm_compute in H. decompose [or] H; discriminate.
    + intros k (t & c & E & H). vm_compute in E. injection E as <- <-. destruct k; vm_compute in H; decompose [or] H; try discriminate; assumption.
  - eexists [_]. split; [reflexivity|]. split; [apply d_gtfo; vm_compute; reflexivity|]. split; [intros []|].
    intros [(w & t & E & Ht) _]. destruct w as [|? [|]]; try discriminate. injection E as <-. destruct Ht as [s Ht]. vm_compute in Ht. discriminate.
Qed.
Example C68_case_call :
  let ts := toks ["I IZ f'Z g YR OIC x"] in
  logical_lines ts = [tok 0 ts :: [tok 1 ts; tok 2 ts; tok 3 ts] ++ tok 4 ts :: tok 5 ts :: [tok 6 ts]] /\
  kw I_IZ (tok 0 ts) /\ kw YR (tok 4 ts) /\ kw OIC (tok 5 ts).
Proof. vm_compute. repeat split. Qed.
