(** Property C67: replacing statements.  Statements; the proofs are in
    StmtSubst.v and SourceSubst.v. *)
From Coq Require Import String Lia.
From Verif Require Import PropLexer PropParser NodeTokens ParseFuel ParserProps SourceLines SourceJoin ProgGrammar ProgComplete SourceEditProofs StmtSubst SourceSubst.
From Verif Require Export SourceEdit Grammar.
From Verif Require Import Api.
Local Open Scope string_scope.
Local Open Scope list_scope.

(** In an error-free program, statements that stand next to each other, with or
    without blocks and at any depth, can be replaced by any others. *)
Theorem C67_replacing_statements ls1 S ls2 ss ts b :
  parse ts = ParseOk b -> block_clean b = true -> logical_lines ts = ls1 ++ S ++ ls2 -> d_stmts S ss -> ss <> [] ->
  (exists h, context h /\ b = ASTBlock (h ss) /\
     forall ts' S' ss', logical_lines ts' = ls1 ++ S' ++ ls2 -> d_stmts S' ss' -> ss' <> [] ->
       parse ts' = ParseOk (ASTBlock (h ss')) /\ block_clean (ASTBlock (h ss')) = true) \/
  (forall ts' ls, logical_lines ts' = ls1 ++ ls -> parse ts' = ParseOk b).
Proof.
  intros Hp Hc E HS Hss. rewrite parse_logical_lines, E in Hp.
  destruct (logical_subst _ _ _ _ _ Hp Hc HS Hss) as [(h & Hh & Eb & H)|H]; [left; exists h|right].
  - repeat split; auto; intros; rewrite ?parse_logical_lines, ?H0; apply (H S' ss'); assumption.
  - intros ts' ls E'. rewrite parse_logical_lines, E'. apply H.
Qed.
Print Assumptions C67_replacing_statements.

(** So one of two neighbouring statements can be deleted, and they can be
    swapped. *)
Theorem C67_deleting_and_swapping ls1 S1 S2 ls2 ss1 ss2 ts b :
  parse ts = ParseOk b -> block_clean b = true -> logical_lines ts = ls1 ++ (S1 ++ S2) ++ ls2 ->
  d_stmts S1 ss1 -> ss1 <> [] -> d_stmts S2 ss2 -> ss2 <> [] ->
  (exists h, context h /\ b = ASTBlock (h (ss1 ++ ss2)) /\
     (forall ts', logical_lines ts' = ls1 ++ S1 ++ ls2 -> parse ts' = ParseOk (ASTBlock (h ss1))) /\
     (forall ts', logical_lines ts' = ls1 ++ S2 ++ ls2 -> parse ts' = ParseOk (ASTBlock (h ss2))) /\
     (forall ts', logical_lines ts' = ls1 ++ (S2 ++ S1) ++ ls2 -> parse ts' = ParseOk (ASTBlock (h (ss2 ++ ss1))))) \/
  (forall ts' ls, logical_lines ts' = ls1 ++ ls -> parse ts' = ParseOk b).
Proof.
  intros Hp Hc E H1 N1 H2 N2.
  assert (N12 : ss1 ++ ss2 <> []) by (intros E0; apply app_eq_nil in E0 as [E0 _]; contradiction).
  assert (N21 : ss2 ++ ss1 <> []) by (intros E0; apply app_eq_nil in E0 as [E0 _]; contradiction).
  destruct (C67_replacing_statements _ _ _ _ _ _ Hp Hc E (stmts_app _ _ _ _ H1 H2) N12) as [(h & Hh & Eb & H)|H]; [left; exists h|right; exact H].
  repeat split; auto; intros ts' E'.
  - apply (H _ _ _ E' H1 N1).
  - apply (H _ _ _ E' H2 N2).
  - apply (H _ _ _ E' (stmts_app _ _ _ _ H2 H1) N21).
Qed.
Print Assumptions C67_deleting_and_swapping.

(** The same for source texts, up to the positions of tokens. *)
Theorem C67_replacing_lines_of_a_source p tp s us m S ss b : whole_lines p tp -> tokenize s = LexOk us ->
  lines_of m S -> d_stmts S ss -> ss <> [] ->
  tokenize_and_parse (p ++ m ++ s) = ApiOk b -> block_clean b = true ->
  (exists h, context h /\ map_block erase b = ASTBlock (h ss) /\
     forall m' S' ss', lines_of m' S' -> d_stmts S' ss' -> ss' <> [] ->
       map_api erase (tokenize_and_parse (p ++ m' ++ s)) = ApiOk (ASTBlock (h ss')) /\
       block_clean (ASTBlock (h ss')) = true) \/
  (forall m' S', lines_of m' S' -> map_api erase (tokenize_and_parse (p ++ m' ++ s)) = ApiOk (map_block erase b)).
Proof. exact (source_subst p tp s us m S ss b). Qed.
Print Assumptions C67_replacing_lines_of_a_source.

(** A program that meets the hypotheses: a statement on one line and one with a
    block next to each other in a loop. *)
Definition C67_one : list string := [ "VISIBLE b" ].
Definition C67_two : list string := [ "O RLY?"; "YA RLY"; "GTFO"; "NO WAI"; "b R 1"; "OIC" ].
Definition C67_program (body : list string) : list token :=
  toks ([ "I HAS A b"; "IM IN YR l UPPIN YR x" ] ++ body ++ [ "IM OUTTA YR l"; "KTHXBYE" ]).
Definition C67_part (i n : nat) (ts : list token) : list (list token) := firstn n (skipn i (logical_lines ts)).
Lemma statements_of ls : forallb (fun l => match l with [] => false | _ => true end) ls = true ->
  forallb node_clean (nodes_of (parse_logical ls)) = true ->
  match parse_logical ls with ParseOk _ => true | _ => false end = true ->
  match rev (nodes_of (parse_logical ls)) with NHai _ :: _ | NWtf _ :: _ | NHowIzI _ :: _ => false | _ => true end = true ->
  d_stmts ls (nodes_of (parse_logical ls)).
Proof.
  intros H1 H2 H3 H4. apply closed_lines; auto.
  - apply Forall_forall. intros l Hl. rewrite forallb_forall in H1. specialize (H1 l Hl). destruct l; [discriminate|discriminate].
  - destruct (parse_logical ls) as [[ns]| |]; [reflexivity|discriminate H3|discriminate H3].
  - intros ns0 n E. rewrite E, rev_app_distr in H4. cbn [rev app] in H4. destruct n; try discriminate H4; auto.
Qed.
Example C67_case : let ts := C67_program (C67_one ++ C67_two) in
  match parse ts with ParseOk b => block_clean b | _ => false end = true /\
  logical_lines ts = C67_part 0 2 ts ++ (C67_part 2 1 ts ++ C67_part 3 6 ts) ++ C67_part 9 2 ts /\
  (exists ss, d_stmts (C67_part 2 1 ts) ss /\ length ss = 1) /\ (exists ss, d_stmts (C67_part 3 6 ts) ss /\ length ss = 1).
Proof.
  cbv zeta. split; [vm_compute; reflexivity|]. split; [vm_compute; reflexivity|].
  split; eexists; (split; [apply statements_of; vm_compute; reflexivity|vm_compute; reflexivity]).
Qed.

(** The same as source texts. *)
Definition C67_lines (lines : list string) : list (list token) := map (map erase) (statements (toks lines)).
Lemma C67_lines_of l0 lines : let s0 := flat_map (fun l => lit l ++ nl) lines ++ lit l0 in
  forallb (fun t => (bytes (end_of t) <=? Z.of_nat (byte_len s0))%Z) (toks (lines ++ [l0])) = true ->
  match rev (toks (lines ++ [l0])) with t :: _ => is_ellipsis t | [] => true end = false ->
  match toks (lines ++ [l0]) with t :: _ => is_comma t | [] => true end = false ->
  lines_of (text (lines ++ [l0])) (C67_lines (lines ++ [l0])).
Proof.
  intros s0 H1 H2 H3. exists (toks (lines ++ [l0])).
  assert (E : text (lines ++ [l0]) = s0 ++ [newline]).
  { unfold text, s0. rewrite flat_map_app. cbn [flat_map]. rewrite app_nil_r, <- app_assoc. reflexivity. }
  split; [|split; [destruct (toks (lines ++ [l0])) as [|t r]; [discriminate|eauto]|reflexivity]].
  rewrite E. apply whole_check; auto.
  - rewrite <- E. unfold toks in *. destruct (tokenize (text (lines ++ [l0]))); [reflexivity|discriminate..].
  - destruct (rev _); [discriminate|assumption].
Qed.
Example C67_case_source :
  let before := [ "I HAS A b"; "IM IN YR l UPPIN YR x" ] in let after := [ "IM OUTTA YR l"; "KTHXBYE" ] in
  whole_lines (text before) (toks before) /\ (exists us, tokenize (text after) = LexOk us) /\
  lines_of (text C67_one) (C67_lines C67_one) /\ lines_of (text C67_two) (C67_lines C67_two) /\
  (exists ss, d_stmts (C67_lines C67_one) ss /\ length ss = 1) /\
  (exists ss, d_stmts (C67_lines C67_two) ss /\ length ss = 1) /\
  match tokenize_and_parse (text before ++ text C67_one ++ text after) with ApiOk b => block_clean b | _ => false end = true.
Proof.
  cbv zeta. split; [apply (whole_check (lit "I HAS A b" ++ nl ++ lit "IM IN YR l UPPIN YR x")); vm_compute; reflexivity|].
  split; [eexists; vm_compute; reflexivity|].
  split; [apply (C67_lines_of "VISIBLE b" []); vm_compute; reflexivity|].
  split; [apply (C67_lines_of "OIC" [ "O RLY?"; "YA RLY"; "GTFO"; "NO WAI"; "b R 1" ]); vm_compute; reflexivity|].
  split; [eexists; (split; [apply statements_of; vm_compute; reflexivity|vm_compute; reflexivity])|].
  split; [eexists; (split; [apply statements_of; vm_compute; reflexivity|vm_compute; reflexivity])|].
  vm_compute. reflexivity.
Qed.
