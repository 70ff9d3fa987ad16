(** Theorems about the amount of work, by property number.  Vocabulary: Cost.v. *)
From Coq Require Import String Lia.
From Verif Require Import Lexer Parser Api LexSpec LexProofs LexProps Cost CostLimit CostProofs CostPanic PropLexer PropParser.
Local Open Scope string_scope.
Local Open Scope list_scope.

(** ** C56 *)
Theorem C56_linear_number_of_calls ts b : parse ts = ParseOk b ->
  exists k it, counted_parse ts = ROk b (k, it) /\ k <= 7 * length ts + 3.
Proof.
  intros H. rewrite <- counted_result in H. destruct (counted_parse ts) as [b' [k it]|e s|c|] eqn:E; try discriminate H.
  injection H as ->. exists k, it. split; [reflexivity|]. exact (parse_cost ts b k it E).
Qed.
Print Assumptions C56_linear_number_of_calls.

(** Counting does not change the result. *)
Theorem C56_counting_changes_nothing ts : result_of (counted_parse ts) = parse ts.
Proof. exact (counted_result ts). Qed.
Print Assumptions C56_counting_changes_nothing.

(** In terms of the source text. *)
Theorem C56_linear_in_the_source code ts b : tokenize code = LexOk ts -> parse ts = ParseOk b ->
  exists k it, counted_parse ts = ROk b (k, it) /\ k <= 7 * length code + 3.
Proof.
  intros E H. destruct (C56_linear_number_of_calls _ _ H) as (k & it & E1 & H1). exists k, it. split; [exact E1|].
  assert (HL : length ts <= length code) by exact (tokens_le_chars code ts E). lia.
Qed.
Print Assumptions C56_linear_in_the_source.

(** Half a page of nested statements with errors. *)
Definition c56_code : str :=
  lit "O RLY?" ++ nl ++ lit "YA RLY" ++ nl ++ lit "IM IN YR l UPPIN YR x TIL BOTH SAEM x AN 3" ++ nl ++
  lit "VISIBLE SUM OF 1 AN" ++ nl ++ lit "IM OUTTA YR l" ++ nl ++ lit "MEBBE WIN" ++ nl ++ lit "x R 1 2 3" ++ nl ++
  lit "OIC" ++ nl.
Example C56_case : exists ts b it, tokenize c56_code = LexOk ts /\ length ts = 27 /\ parse ts = ParseOk b /\
  counted_parse ts = ROk b (53, it).
Proof. do 3 eexists. split; [vm_compute; reflexivity|]. split; [reflexivity|]. split; vm_compute; reflexivity. Qed.

(** No more calls are made, whatever the result is: what the iterator answers
    after [7 n + 3] calls does not matter.  This holds for panics too. *)
Theorem C56_later_calls_do_not_happen ts limit o o' l : 7 * length ts + 3 <= limit ->
  limited_parse limit o o' l ts = parse ts.
Proof. exact (limited_result limit o o' l ts). Qed.
Print Assumptions C56_later_calls_do_not_happen.

(** A panic inside two blocks: it needs 36 of at most 164 calls. *)
Definition c56_panic : str :=
  lit "O RLY?" ++ nl ++ lit "YA RLY" ++ nl ++ lit "IM IN YR l UPPIN YR x TIL BOTH SAEM x AN 3" ++ nl ++
  lit "VISIBLE SUM OF 1 AN 2" ++ nl ++ lit "x 3" ++ nl ++ lit "IM OUTTA YR l" ++ nl ++ lit "OIC" ++ nl.
Example C56_panicking_case : exists ts c, tokenize c56_panic = LexOk ts /\ length ts = 23 /\ parse ts = ParsePanic c /\
  limited_parse 36 None None [] ts = ParsePanic c /\ exists b, limited_parse 35 None None [] ts = ParseOk b.
Proof. do 2 eexists. split; [vm_compute; reflexivity|]. split; [reflexivity|]. split; [vm_compute; reflexivity|]. split; [vm_compute; reflexivity|]. eexists. vm_compute. reflexivity. Qed.
