(** Theorems about ranges in ASTs, by property number.  Vocabulary: Ranges.v. *)
From Coq Require Import String ZArith.
From Verif Require Import Lexer Parser Api Ranges RangesProofs PropLexer PropParser.
Local Open Scope string_scope.
Local Open Scope list_scope.

(** ** C57 *)
Theorem C57_ranges_nest code ts b p q r : tokenize code = LexOk ts -> parse ts = ParseOk b ->
  In r (block_parts b) -> part_of q r -> part_of p q -> within (part_range p) (part_range q).
Proof. intros E1 E2. exact (source_within code ts b E1 E2 p q r). Qed.
Print Assumptions C57_ranges_nest.

Theorem C57_siblings_in_order code ts b p q : tokenize code = LexOk ts -> parse ts = ParseOk b ->
  In q (block_parts b) -> part_of p q -> ForallOrdPairs before (map part_range (children p)).
Proof. intros E1 E2 H1 H2. exact (proj2 (source_nested code ts b E1 E2 p q H1 H2)). Qed.
Print Assumptions C57_siblings_in_order.

Theorem C57_outermost_in_order code ts b : tokenize code = LexOk ts -> parse ts = ParseOk b ->
  ForallOrdPairs before (map part_range (block_parts b)).
Proof. exact (source_parts_ordered code ts b). Qed.
Print Assumptions C57_outermost_in_order.

(** A range can be cut out of the source, by bytes or by characters, and the
    piece is not empty. *)
Theorem C57_ranges_cover_text code ts b p q : tokenize code = LexOk ts -> parse ts = ParseOk b ->
  In q (block_parts b) -> part_of p q -> exists x raw y, covers (part_range p) code x raw y.
Proof. intros E1 E2. exact (source_covers code ts b E1 E2 p q). Qed.
Print Assumptions C57_ranges_cover_text.

Definition ranged_source : str := lit "HOW IZ I f YR x" ++ nl ++ lit "y'Z z R SUM OF x AN SMOOSH 1 AN y MKAY" ++ nl ++ lit "IF U SAY SO".
Definition offsets (p : part) : Z * Z := (bytes (fst (part_range p)), bytes (snd (part_range p))).
Example C57_case : exists ts b, tokenize ranged_source = LexOk ts /\ parse ts = ParseOk b /\
  map (fun p => (offsets p, map (fun q => (offsets q, map offsets (children q))) (children p))) (block_parts b) =
  [((9, 10), []); ((14, 15), []);
   ((16, 54), [((16, 21), [(16, 17); (20, 21)]); ((24, 54), [(31, 32); (36, 54)])])]%Z.
Proof. eexists _, _. split; [vm_compute; reflexivity|]. split; [vm_compute; reflexivity|]. vm_compute. reflexivity. Qed.
(** The piece of text of the assignment. *)
Example C57_case_text :
  covers (mkPos 2 1 16 16, mkPos 2 39 54 54) ranged_source (lit "HOW IZ I f YR x" ++ nl)
    (lit "y'Z z R SUM OF x AN SMOOSH 1 AN y MKAY") (nl ++ lit "IF U SAY SO").
Proof. repeat split. discriminate. Qed.
