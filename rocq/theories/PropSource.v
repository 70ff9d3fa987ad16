(** Theorems about lexer and parser together, by property number.  Vocabulary:
    LexPropSpec.v (printed tokens), SourceSpec.v (lines of a printed source),
    Relabel.v (an AST with other tokens), Grammar.v. *)
From Coq Require Import String.
From Verif Require Import Lexer Parser Api Lines LinesSim ParseFuel Grammar Clean ProgComplete
  SourceSpec RelabelProofs SourceProofs PropLexer PropParser.
Local Open Scope string_scope.
Local Open Scope list_scope.

(** ** C48 *)
(** A printed source parses without errors exactly when its lines are
    grammatical, and then to the AST of the derivation. *)
Theorem C48_printed_source_parses gap xs ns : Forall ws gap -> Forall printed_ok xs ->
  d_program (map (map bare) (printed_lines xs)) ns <->
  exists ns', tokenize_and_parse (gap ++ print xs) = ApiOk (ASTBlock ns') /\
              map (map_node erase) ns' = ns /\ forallb node_clean ns' = true.
Proof. exact (print_grammatical gap xs ns). Qed.
Print Assumptions C48_printed_source_parses.

(** Every grammatical program with writable tokens has a source text that parses
    to it. *)
Theorem C48_round_trip (w : token -> str) ls ns : Forall (Forall (writable w)) ls -> d_program ls ns ->
  exists ns', tokenize_and_parse (print_program w ls) = ApiOk (ASTBlock ns') /\
              map (map_node erase) ns' = map (map_node erase) ns /\ forallb node_clean ns' = true.
Proof. exact (program_round_trip w ls ns). Qed.
Print Assumptions C48_round_trip.

(** The lines of a program with HAI, which needs an empty line after it. *)
Definition hai_lines : list (list token) :=
  [[bare (TKeyword HAI)]; []; [bare (TKeyword VISIBLE); bare (TIdentifier (lit "x"))]].
Definition hai_nodes : list node :=
  [NHai (mkHai (bare (TKeyword HAI)) []);
   NVisible (mkVisible (bare (TKeyword VISIBLE))
     [Value (VariableAccess (mkVA (mkIdentifier (bare (TIdentifier (lit "x"))) None) []))] None)].
Definition spell (t : token) : str :=
  match tok_type t with TKeyword k => spelling k | TIdentifier s => s | _ => [] end.
Example C48_case :
  print_program spell hai_lines = lit "HAI" ++ nl ++ lit "..." ++ [9%N] ++ lit "," ++ nl ++
                                  lit "VISIBLE" ++ [9%N] ++ lit "x" ++ nl /\
  Forall (Forall (writable spell)) hai_lines /\ d_program hai_lines hai_nodes /\
  exists ns', tokenize_and_parse (print_program spell hai_lines) = ApiOk (ASTBlock ns') /\
              map (map_node erase) ns' = map (map_node erase) hai_nodes /\ forallb node_clean ns' = true.
Proof.
  assert (HW : Forall (Forall (writable spell)) hai_lines).
  { assert (HK : forall k, ~ In k [BTW; OBTW; WIN; FAIL; NOOB; ANY_OF] -> writable spell (bare (TKeyword k))).
    { intros k Hk. split; [apply writes_keyword, Hk|]. repeat split; discriminate. }
    assert (HX : writable spell (bare (TIdentifier (lit "x")))).
    { split; [|repeat split; discriminate]. apply writes_identifier; [discriminate| |].
      - constructor; [|constructor]. right. left. split; discriminate.
      - intros k (u & E). destruct k; discriminate E. }
    apply Forall_cons; [apply Forall_cons; [|apply Forall_nil]|apply Forall_cons; [apply Forall_nil|apply Forall_cons;
      [apply Forall_cons; [|apply Forall_cons; [exact HX|apply Forall_nil]]|apply Forall_nil]]];
      apply HK; simpl; intuition discriminate. }
  assert (HD : d_program hai_lines hai_nodes).
  { apply program_iff. split; [vm_compute; reflexivity|reflexivity]. }
  split; [reflexivity|]. split; [exact HW|]. split; [exact HD|]. exact (C48_round_trip spell _ _ HW HD).
Qed.

(** ** C49 *)
(** Of the positions of the tokens, only the cut in lines matters. *)
Theorem C49_positions_only_cut_lines ts ts' :
  map (map tok_type) (logical_lines ts) = map (map tok_type) (logical_lines ts') ->
  map_result erase (parse ts) = map_result erase (parse ts').
Proof. intros E. rewrite !parse_logical_lines. exact (same_types _ _ E). Qed.
Print Assumptions C49_positions_only_cut_lines.

(** Of the tokens on the lines only the kinds matter: not the names of
    identifiers, not the values of literals. *)
Theorem C49_names_and_values_do_not_matter ts ts' :
  map (map tok_kind) (logical_lines ts) = map (map tok_kind) (logical_lines ts') ->
  map_result plain (parse ts) = map_result plain (parse ts').
Proof. intros E. rewrite !parse_logical_lines. exact (same_kinds _ _ E). Qed.
Print Assumptions C49_names_and_values_do_not_matter.

(** The tokens of the AST move with the tokens of the lines. *)
Theorem C49_parse_commutes_with_relabelling f ts ts' : (forall t, tok_kind (f t) = tok_kind t) ->
  logical_lines ts' = map (map f) (logical_lines ts) -> parse ts' = map_result f (parse ts).
Proof. intros Hf E. rewrite !parse_logical_lines, E. exact (parse_logical_map f Hf _). Qed.
Print Assumptions C49_parse_commutes_with_relabelling.

(** Two printed sources with the same lines have the same result up to positions. *)
Theorem C49_layout_does_not_matter gap gap' xs xs' :
  Forall ws gap -> Forall ws gap' -> Forall printed_ok xs -> Forall printed_ok xs' ->
  printed_lines xs = printed_lines xs' ->
  map_api erase (tokenize_and_parse (gap ++ print xs)) = map_api erase (tokenize_and_parse (gap' ++ print xs')).
Proof.
  intros Hg Hg' H H' E. rewrite (print_parse gap xs Hg H), (print_parse gap' xs' Hg' H'), E. reflexivity.
Qed.
Print Assumptions C49_layout_does_not_matter.

Example C49_case :
  let ts := toks [ "VISIBLE 1 x"; "GTFO MAEK" ] in
  let ts' := toks [ ""; "VISIBLE    1 ..."; " x, GTFO MAEK" ] in
  map (map tok_type) (logical_lines ts) = map (map tok_type) (logical_lines ts') /\
  map_result erase (parse ts) = map_result erase (parse ts') /\ parse ts <> parse ts' /\
  printed_lines [(TKeyword VISIBLE, spelling VISIBLE, lit " "); (TEllipsis, lit "...", nl);
                 (TValue (VBoolean true), lit "WIN", lit " "); (TComma, lit ",", nl); (TKeyword GTFO, lit "GTFO", nl)] =
  printed_lines [(TKeyword VISIBLE, spelling VISIBLE, lit " ");
                 (TValue (VBoolean true), lit "WIN", nl); (TKeyword GTFO, lit "GTFO", lit " ")].
Proof. vm_compute. split; [reflexivity|]. split; [reflexivity|]. split; [discriminate|reflexivity]. Qed.
Example C49_case_names :
  let ts := toks [ "IM IN YR lop UPPIN YR x TIL BOTH SAEM x AN 5 "; "y'Z z R 1.5 "; "IM OUTTA YR pool )" ] in
  let ts' := toks [ "IM IN YR a UPPIN YR b TIL BOTH SAEM c AN WIN "; "d'Z e R 7 "; "IM OUTTA YR f %" ] in
  map (map tok_kind) (logical_lines ts) = map (map tok_kind) (logical_lines ts') /\
  (exists n, parse ts = ParseOk (ASTBlock n) /\ length n = 2%nat) /\
  map (map tok_type) (logical_lines ts) <> map (map tok_type) (logical_lines ts').
Proof. vm_compute. split; [reflexivity|]. split; [eexists; split; reflexivity|discriminate]. Qed.
