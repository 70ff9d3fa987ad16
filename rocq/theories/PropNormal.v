(** Property C88: a normal form of sources, with or without errors.  Statements;
    the proofs are in NormalProofs.v. *)
From Coq Require Import String ZArith.
From Verif Require Import PropLexer PropParser PropShape Relabel Clean Lexer Api Format NormalProofs.
From Verif Require Export Normal.
Local Open Scope string_scope.
Local Open Scope list_scope.

(** The normal form of a source has the same lines of tokens, and
    [tokenize_and_parse] does the same with it up to positions: the same AST, the
    same errors or the same panic.  The normal form of the normal form is itself. *)
Theorem C88_normal_form code ts : tokenize code = LexOk ts -> Forall ordinary (map tok_type ts) ->
  exists ts', tokenize (normal ts) = LexOk ts' /\
    map (map tok_type) (logical_lines ts') = map (map tok_type) (logical_lines ts) /\
    map_api erase (tokenize_and_parse (normal ts)) = map_api erase (tokenize_and_parse code) /\
    normal ts' = normal ts.
Proof. exact (normal_form code ts). Qed.
Print Assumptions C88_normal_form.

(** It is canonical: two sources have the same normal form iff they have the same
    lines of tokens. *)
Theorem C88_canonical code code' ts ts' : tokenize code = LexOk ts -> Forall ordinary (map tok_type ts) ->
  tokenize code' = LexOk ts' -> Forall ordinary (map tok_type ts') ->
  normal ts = normal ts' <-> map (map tok_type) (logical_lines ts) = map (map tok_type) (logical_lines ts').
Proof. exact (normal_iff code code' ts ts'). Qed.
Print Assumptions C88_canonical.

(** The condition holds for all ASCII sources that do not end in a colon and in
    which every digit is part of a number. *)
Theorem C88_ascii code ts : ascii_str code -> ~ ends_with_colon code -> tokenize code = LexOk ts ->
  (forall t d, In t ts -> tok_type t = TSymbol [d] -> ~ digit d) -> Forall ordinary (map tok_type ts).
Proof. exact (ascii_ordinary code ts). Qed.
Print Assumptions C88_ascii.

(** It cannot be left out: the digit at the end of a source becomes a number when
    a newline is added. *)
Theorem C88_digits_refuted : ~ forall code ts, ascii_str code -> ~ ends_with_colon code -> tokenize code = LexOk ts ->
  map_api erase (tokenize_and_parse (normal ts)) = map_api erase (tokenize_and_parse code).
Proof.
  intros H. specialize (H (lit "5") match tokenize (lit "5") with LexOk ts => ts | _ => [] end eq_refl).
  specialize (H ltac:(intros (x & X); destruct x as [|a [|b x]]; discriminate X) ltac:(vm_compute; reflexivity)).
  vm_compute in H. discriminate H.
Qed.
Print Assumptions C88_digits_refuted.

(** A source with errors, comments, a comma at the start, joined lines and empty
    lines, and its normal form. *)
Definition C88_source : str :=
  lit ",  HAI 1.20  BTW version, one" ++ nl ++ nl ++ lit "... , VISIBLE  +07 ..." ++ nl ++ lit "  ..." ++ nl ++ lit " x OBTW a" ++ nl ++ lit "TLDR !, OIC" ++ nl ++
  lit "SUM OF" ++ [9%N] ++ lit "1 AN 00.50 BTW" ++ nl ++ lit "VISIBLE " ++ quote :: lit "open".
Definition C88_tokens : list token := match tokenize C88_source with LexOk ts => ts | _ => [] end.
Example C88_case :
  tokenize C88_source = LexOk C88_tokens /\ Forall ordinary (map tok_type C88_tokens) /\
  normal C88_tokens = flat_map (fun l => flat_map (fun c => if N.eqb c 47 then [9%N] else if N.eqb c 36 then nl else if N.eqb c 39 then [quote] else [c]) (lit l) ++ nl)
    [ ".../,"; "HAI/1.2/BTW version, one"; ".../,"; "VISIBLE/7/x/OBTW a$TLDR/!"; "OIC"; "SUM OF/1/AN/0.5/BTW"; "VISIBLE/'open'" ].
Proof.
  assert (E : tokenize C88_source = LexOk C88_tokens) by (vm_compute; reflexivity). split; [exact E|]. split.
  - apply (C88_ascii C88_source); [reflexivity| |exact E|].
    + intros (x & X). apply (f_equal (fun s => last s 0%N)) in X. rewrite last_last in X. discriminate X.
    + intros t d Hin Et. assert (F : Forall (fun t => match tok_type t with TSymbol _ => False | _ => True end) C88_tokens) by (vm_compute; repeat constructor).
      rewrite Forall_forall in F. specialize (F t Hin). rewrite Et in F. contradiction.
  - vm_compute. reflexivity.
Qed.
(** Its program has an error; the sources below end in the same panic. *)
Example C88_error : exists n : node, In n (api_nodes (tokenize_and_parse C88_source)) /\ node_clean n = false.
Proof.
  destruct (existsb (fun n => negb (node_clean n)) (api_nodes (tokenize_and_parse C88_source))) eqn:E; [|vm_compute in E; discriminate E].
  apply existsb_exists in E as (n & H1 & H2). exists n. split; [exact H1|]. destruct (node_clean n); [discriminate H2|reflexivity].
Qed.
Example C88_panic : map_api erase (tokenize_and_parse (lit "x  , y")) = map_api erase (tokenize_and_parse (normal match tokenize (lit "x  , y") with LexOk ts => ts | _ => [] end)).
Proof. vm_compute. reflexivity. Qed.
