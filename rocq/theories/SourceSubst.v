(** Replacing lines of a source: proofs for C67. *)
From Coq Require Import Lia.
From Verif Require Import Lines LinesSim ParseFuel ParserProps LexSpec LexProofs LexPropSpec LexProps LexProps2 Relabel RelabelProofs
  Api SourceJoin SourceProofs LineEffectProofs ProgGrammar Grammar Clean Recovery StmtSubst SourceEditProofs.
From Verif Require Export SourceEdit.

Lemma erase_kind t : tok_kind (erase t) = tok_kind t.
Proof. reflexivity. Qed.
Lemma api_erase code ts : tokenize code = LexOk ts ->
  map_api erase (tokenize_and_parse code) = api_of (parse_logical (map (map erase) (logical_lines ts))).
Proof.
  intros E. rewrite (parse_logical_map _ erase_kind), <- parse_logical_lines. unfold tokenize_and_parse. rewrite E.
  destruct (parse ts); reflexivity.
Qed.
Lemma erase_shift b l : map erase (map (shift_token b) l) = map erase l.
Proof. rewrite map_map. reflexivity. Qed.
Lemma erase_shifts b ls : map (map erase) (map (map (shift_token b)) ls) = map (map erase) ls.
Proof. rewrite map_map. apply map_ext. intros l. apply erase_shift. Qed.

Lemma source_lines_erased p tp m S s us : whole_lines p tp -> lines_of m S -> tokenize s = LexOk us ->
  map_api erase (tokenize_and_parse (p ++ m ++ s)) =
  api_of (parse_logical (map (map erase) (before tp) ++ S ++ map (map erase) (statements us))).
Proof.
  intros Hp (l & Hm & (v & r & El & Hv) & ->) Es.
  destruct (whole_then m l s us Hm Es) as (E1 & E2).
  destruct (whole_then p tp (m ++ s) _ Hp E1) as (E3 & E4).
  rewrite (api_erase _ _ E3).
  set (b := pos_at tp p) in *. set (c := pos_at l m) in *.
  assert (E5 : map (map erase) (statements (tp ++ map (shift_token b) (l ++ map (shift_token c) us))) =
    map (map erase) (statements tp) ++ map (map erase) (statements l) ++ map (map erase) (statements us)).
  { rewrite E4, E2, !map_app, !erase_shifts. reflexivity. }
  do 2 f_equal. unfold logical_lines, before. destruct tp as [|t tp].
  - cbn [app] in *. subst l. cbn [app map] in *. change (is_comma (shift_token b v)) with (is_comma v). rewrite Hv. exact E5.
  - cbn [app] in *. destruct (is_comma t); cbn [map app]; rewrite E5; reflexivity.
Qed.

Theorem source_subst p tp s us m S ss b : whole_lines p tp -> tokenize s = LexOk us ->
  lines_of m S -> d_stmts S ss -> ss <> [] ->
  tokenize_and_parse (p ++ m ++ s) = ApiOk b -> block_clean b = true ->
  (exists h, context h /\ map_block erase b = ASTBlock (h ss) /\
     forall m' S' ss', lines_of m' S' -> d_stmts S' ss' -> ss' <> [] ->
       map_api erase (tokenize_and_parse (p ++ m' ++ s)) = ApiOk (ASTBlock (h ss')) /\
       block_clean (ASTBlock (h ss')) = true) \/
  (forall m' S', lines_of m' S' -> map_api erase (tokenize_and_parse (p ++ m' ++ s)) = ApiOk (map_block erase b)).
Proof.
  intros Hp Es Hm HS Hss Hb Hc. pose proof (source_lines_erased _ _ _ _ _ _ Hp Hm Es) as E. rewrite Hb in E.
  cbn [map_api] in E.
  destruct (parse_logical _) as [b'|c|] eqn:EP in E; try discriminate. injection E as <-.
  assert (Hc' : block_clean (map_block erase b) = true).
  { destruct b as [ns]. change (forallb node_clean (map (map_node erase) ns) = true). rewrite clean_map_all. exact Hc. }
  destruct (logical_subst _ _ _ _ _ EP Hc' HS Hss) as [(h & Hh & E & H)|H]; [left; exists h|right].
  - repeat split; auto; intros; [|apply (H _ _ H1 H2)].
    rewrite (source_lines_erased _ _ _ _ _ _ Hp H0 Es). rewrite (proj1 (H _ _ H1 H2)). reflexivity.
  - intros m' S' Hm'. rewrite (source_lines_erased _ _ _ _ _ _ Hp Hm' Es), H. reflexivity.
Qed.
