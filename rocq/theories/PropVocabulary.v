(** Theorems about the tokens and characters of programs without errors, by
    property number.  Vocabulary: Vocabulary.v. *)
From Coq Require Import String Lia.
From Verif Require Import Lexer Lines Parser Grammar Clean LexPropSpec Vocabulary VocabularyProofs PropLexer PropParser.
Local Open Scope string_scope.
Local Open Scope list_scope.

(** ** C79 *)

(** If the AST has no errors and no line is empty, all tokens on the lines are
    in the vocabulary, except on the line of HAI, where anything may be. *)
Theorem C79_vocabulary ts ns l t : parse ts = ParseOk (ASTBlock ns) -> forallb node_clean ns = true ->
  Forall (fun l => l <> []) (logical_lines ts) -> In l (logical_lines ts) -> In t l ->
  vocabulary (tok_type t) \/ exists h v, l = h :: v /\ kw HAI h.
Proof. exact (clean_vocabulary ts ns l t). Qed.
Print Assumptions C79_vocabulary.

(** Every type of the vocabulary occurs. *)
Definition occurs_on_a_line (ty : token_type) : Prop := exists ts ns l t,
  parse ts = ParseOk (ASTBlock ns) /\ forallb node_clean ns = true /\ Forall (fun l => l <> []) (logical_lines ts) /\
  In l (logical_lines ts) /\ In t l /\ tok_type t = ty.
Definition c79_1 := toks
  ["I HAS A a ITZ TROOF"; "I HAS A a ITZ NUMBR"; "I HAS A a ITZ NUMBAR"; "I HAS A a ITZ YARN"; "I HAS A a ITZ BUKKIT";
   "a HAS A b ITZ 4"; "GIMMEH SRS a'Z b"; "VISIBLE a !"; "I IZ f YR 1 AN YR 2 MKAY"; "FOUND YR 1"; "GTFO";
   "a R SUM OF 1 AN DIFF OF 2 AN PRODUKT OF 3 AN QUOSHUNT OF 4 AN MOD OF 5 AN BIGGR OF 6 AN SMALLR OF 7 AN 8";
   "a R BOTH SAEM 1 AN DIFFRINT 2 AN BOTH OF 3 AN EITHER OF 4 AN WON OF 5 AN NOT 6"; "SMOOSH 1 AN ALL OF 1 AN 2 MKAY";
   "IM IN YR l UPPIN YR i TIL a"; "VISIBLE i"; "IM OUTTA YR l"; "IM IN YR l NERFIN YR i WILE a"; "VISIBLE i"; "IM OUTTA YR l";
   "O RLY?"; "YA RLY"; "VISIBLE 5"; "MEBBE 1"; "GTFO"; "NO WAI"; "GTFO"; "OIC";
   "WTF?"; "OMG 1"; "GTFO"; "OMGWTF"; "KTHXBYE"; "OIC"].
Definition c79_2 := toks ["HOW IZ I f YR a"; "GTFO"; "IF U SAY SO"].
Definition c79_3 := toks ["HAI 1.2"].
Definition one (ty : token_type) : token := mkToken ty (mkRange position_start position_start).
Definition c79_4 := [one (TKeyword ANY_OF); one (TKeyword NOOB)].
Lemma occurs_in_program ty ts : (exists ns, parse ts = ParseOk (ASTBlock ns) /\ forallb node_clean ns = true) ->
  forallb (fun l => match l with [] => false | _ => true end) (logical_lines ts) = true ->
  In ty (map tok_type (concat (logical_lines ts))) -> occurs_on_a_line ty.
Proof.
  intros (ns & E & C) N H. apply in_map_iff in H as (t & Et & Ht). apply in_concat in Ht as (l & Hl & Ht).
  exists ts, ns, l, t. repeat split; auto. apply Forall_forall. intros l' Hl'. rewrite forallb_forall in N. specialize (N _ Hl').
  destruct l'; [discriminate N|discriminate].
Qed.
Definition types_1 := Eval vm_compute in map tok_type (concat (logical_lines c79_1)).
Definition types_2 := Eval vm_compute in map tok_type (concat (logical_lines c79_2 ++ logical_lines c79_3 ++ logical_lines c79_4)).
Lemma occurs_1 ty : In ty types_1 -> occurs_on_a_line ty.
Proof. apply (occurs_in_program ty c79_1); [eexists; split; vm_compute; reflexivity|vm_compute; reflexivity]. Qed.
Lemma occurs_2 ty : In ty types_2 -> occurs_on_a_line ty.
Proof.
  change types_2 with (map tok_type (concat (logical_lines c79_2)) ++ map tok_type (concat (logical_lines c79_3)) ++
    map tok_type (concat (logical_lines c79_4))).
  intros H. apply in_app_or in H as [H|H]; [|apply in_app_or in H as [H|H]]; revert H; apply occurs_in_program;
    first [eexists; split; vm_compute; reflexivity|vm_compute; reflexivity].
Qed.
Ltac listed := repeat ((left; reflexivity) || right).
Theorem C79_all_of_it ty : vocabulary ty -> occurs_on_a_line ty.
Proof.
  intros H. destruct ty as [s|k|s|v|s|s| | | | |]; try exact (False_ind _ H).
  - apply (occurs_in_program _ [one (TKeyword GIMMEH); one (TIdentifier s)]);
      [eexists; split; vm_compute; reflexivity|vm_compute; reflexivity|right; left; reflexivity].
  - cbn [vocabulary] in H. destruct k; try solve [exfalso; apply H; cbn; tauto];
      solve [apply occurs_1; listed|apply occurs_2; listed].
  - cbn [vocabulary] in H. subst s. apply occurs_1; listed.
  - apply (occurs_in_program _ [one (TValue v)]); [eexists; split; vm_compute; reflexivity|vm_compute; reflexivity|left; reflexivity].
  - apply occurs_1; listed.
  - apply occurs_1; listed.
Qed.
Print Assumptions C79_all_of_it.

(** The characters of a source with an AST without errors, outside strings and
    the line of HAI. *)
Theorem C79_characters code ts ns (a : str) c (b : str) :
  tokenize code = LexOk ts -> parse ts = ParseOk (ASTBlock ns) -> forallb node_clean ns = true ->
  Forall (fun l => l <> []) (logical_lines ts) -> code = a ++ c :: b ->
  plain_char c \/
  exists t, In t ts /\ (bytes (start_of t) <= Z.of_nat (byte_len a) < bytes (end_of t))%Z /\
    ((exists s, tok_type t = TValue (VString s)) \/ exists h v, In (h :: v) (logical_lines ts) /\ kw HAI h /\ In t (h :: v)).
Proof. exact (clean_chars code ts ns a c b). Qed.
Print Assumptions C79_characters.

(** So the carriage return of a Windows line ending is an error on every line but
    that of HAI. *)
Theorem C79_windows_line_endings code ts ns (a b : str) :
  tokenize code = LexOk ts -> parse ts = ParseOk (ASTBlock ns) -> Forall (fun l => l <> []) (logical_lines ts) ->
  code = a ++ [13; 10]%N ++ b ->
  (forall t s, In t ts -> tok_type t = TValue (VString s) ->
     ~ (bytes (start_of t) <= Z.of_nat (byte_len a) < bytes (end_of t))%Z) ->
  (forall h v, In (h :: v) (logical_lines ts) -> ~ kw HAI h) ->
  forallb node_clean ns = false.
Proof.
  intros E P N Ec Hs Hh. destruct (forallb node_clean ns) eqn:C; [exfalso|reflexivity].
  destruct (C79_characters code ts ns a 13%N (10%N :: b) E P C N Ec) as [H|(t & Hi & Hr & [[s H]|(h & v & Hl & H & _)])].
  - unfold plain_char, letter, digit, ws in H. cbn in H. lia.
  - exact (Hs _ _ Hi H Hr).
  - exact (Hh _ _ Hl H).
Qed.
Print Assumptions C79_windows_line_endings.

(** Line endings matter. *)
Definition clean_source (code : str) : bool :=
  match tokenize code with
  | LexOk ts => match parse ts with ParseOk b => block_clean b | _ => false end
  | _ => false
  end.
Fixpoint crlf (s : str) : str :=
  match s with
  | [] => []
  | c :: s' => if N.eqb c 10 then 13%N :: 10%N :: crlf s' else c :: crlf s'
  end.
Theorem C79_line_endings_do_not_matter_refuted : ~ forall code, clean_source (crlf code) = clean_source code.
Proof. intros H. specialize (H (lit "VISIBLE 5" ++ nl)). vm_compute in H. discriminate H. Qed.
Print Assumptions C79_line_endings_do_not_matter_refuted.
Example C79_case : exists ns, parse c79_1 = ParseOk (ASTBlock ns) /\ forallb node_clean ns = true /\
  Forall (fun l => l <> []) (logical_lines c79_1) /\ length (logical_lines c79_1) = 34.
Proof.
  eexists. split; [vm_compute; reflexivity|]. split; [vm_compute; reflexivity|]. split; [|vm_compute; reflexivity].
  apply Forall_forall. intros l Hl. assert (N : forallb (fun l => match l with [] => false | _ => true end) (logical_lines c79_1) = true) by (vm_compute; reflexivity).
  rewrite forallb_forall in N. specialize (N _ Hl). destruct l; [discriminate N|discriminate].
Qed.
