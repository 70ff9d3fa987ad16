(** Property C66: one line of a source.  Statements; the proofs are in
    SourceEditProofs.v. *)
From Coq Require Import String.
From Verif Require Import PropParser NodeTokens SourceEditProofs.
From Verif Require Export SourceEdit Grammar.
From Verif Require Import Api.
Local Open Scope string_scope.
Local Open Scope list_scope.

(** A source is whole lines [p], one line [m] and anything [s] that can be
    tokenized.  Whatever [p] and [s] are, the result is, up to the byte and
    character offsets of tokens, a fixed function of what the line gives at its
    place. *)
Theorem C66_effect_of_a_source_line p tp s us : whole_lines p tp -> tokenize s = LexOk us ->
  exists u f, answer f /\
  forall m l x, one_line m l -> plain l -> gives u (placed (pos_at tp p) l) x ->
    map_api drop_offsets (tokenize_and_parse (p ++ m ++ s)) = api_of (f x).
Proof. exact (source_line_effect p tp s us). Qed.
Print Assumptions C66_effect_of_a_source_line.

(** Replacing one line of an error-free source by another well-formed line
    replaces its node, keeps the source error-free, and changes nothing else but
    byte and character offsets. *)
Theorem C66_editing_a_source_line p tp s us m l b : whole_lines p tp -> tokenize s = LexOk us ->
  one_line m l -> plain l ->
  tokenize_and_parse (p ++ m ++ s) = ApiOk b -> block_clean b = true ->
  (exists h n, context h /\ d_line (placed (pos_at tp p) l) n /\ map_block drop_offsets b = ASTBlock (h [n]) /\
     forall m' l' n', one_line m' l' -> d_line (placed (pos_at tp p) l') n' ->
       map_api drop_offsets (tokenize_and_parse (p ++ m' ++ s)) = ApiOk (ASTBlock (h [n'])) /\
       block_clean (ASTBlock (h [n'])) = true) \/
  (forall m' l', one_line m' l' -> plain l' ->
     map_api drop_offsets (tokenize_and_parse (p ++ m' ++ s)) = ApiOk (map_block drop_offsets b)).
Proof. exact (edit_source_line p tp s us m l b). Qed.
Print Assumptions C66_editing_a_source_line.

(** A source that meets the hypotheses, and another line for it. *)
Definition C66_before : str := lit "I HAS A b" ++ newline :: lit "O RLY?" ++ newline :: lit "YA RLY".
Definition C66_line : str := lit "VISIBLE b".
Definition C66_other_line : str := lit "  b R SUM OF 1 AN 22".
Definition C66_after : str := newline :: lit "OIC, KTHXBYE".
Definition tokens_of (s : str) : list token := match tokenize s with LexOk ts => ts | _ => [] end.
Definition only_clean (r : api_result) : bool := match r with ApiOk b => block_clean b | _ => false end.

Example C66_case :
  let nl := [newline] in
  whole_lines (C66_before ++ nl) (tokens_of (C66_before ++ nl)) /\
  tokenize C66_after = LexOk (tokens_of C66_after) /\
  one_line (C66_line ++ nl) (tokens_of (C66_line ++ nl)) /\
  one_line (C66_other_line ++ nl) (tokens_of (C66_other_line ++ nl)) /\
  plain (tokens_of (C66_line ++ nl)) /\ plain (tokens_of (C66_other_line ++ nl)) /\
  only_clean (tokenize_and_parse ((C66_before ++ nl) ++ (C66_line ++ nl) ++ C66_after)) = true /\
  only_clean (tokenize_and_parse ((C66_before ++ nl) ++ (C66_other_line ++ nl) ++ C66_after)) = true.
Proof.
  cbv zeta.
  repeat split; try (apply whole_check; vm_compute; reflexivity); try (vm_compute; reflexivity);
    try (vm_compute; discriminate).
  - intros (t & c & E & H). vm_compute in E. injection E as <- <-. vm_compute in H. decompose [or] H; discriminate.
  - intros k (t & c & E & H). vm_compute in E. injection E as <- <-. destruct k; vm_compute in H; decompose [or] H; try discriminate; assumption.
  - intros (t & c & E & H). vm_compute in E. injection E as <- <-. vm_compute in H. decompose [or] H; discriminate.
  - intros k (t & c & E & H). vm_compute in E. injection E as <- <-. destruct k; vm_compute in H; decompose [or] H; try discriminate; assumption.
Qed.
