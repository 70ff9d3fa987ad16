(** Property C64: the nodes that every logical line gives.  Statements; the
    proofs are in NodeLinesProofs.v. *)
From Coq Require Import String.
From Verif Require Import PropParser NodeLinesProofs.
From Verif Require Export NodeLines.
Local Open Scope string_scope.

(** The nodes of an AST, at any depth and in source order, are those of one line
    after the other: a line gives at most one node, about tokens of the line,
    and one error with the rest of the line. *)
Theorem C64_nodes_by_line ts b : parse ts = ParseOk b ->
  exists gs, Forall2 line_nodes (logical_lines ts) gs /\ block_all b = concat gs.
Proof. exact (nodes_by_line ts b). Qed.
Print Assumptions C64_nodes_by_line.

(** Errors do not cascade: at most two for every line. *)
Theorem C64_errors_by_line ts b : parse ts = ParseOk b ->
  exists gs, Forall2 (fun l es => length es <= 2 /\ Forall (error_on l) es) (logical_lines ts) gs /\
    block_errors b = concat gs.
Proof. exact (errors_by_line ts b). Qed.
Print Assumptions C64_errors_by_line.

(** The size of ASTs: at most two nodes for every line that is not empty, and at
    most one for every token. *)
Theorem C64_number_of_nodes ts b : parse ts = ParseOk b ->
  length (block_all b) <= 2 * length (filter (fun l => match l with [] => false | _ => true end) (logical_lines ts)) /\
  length (block_all b) <= length ts.
Proof. exact (nodes_number ts b). Qed.
Print Assumptions C64_number_of_nodes.

(** At most one error for every line: refuted. *)
Theorem C64_one_error_per_line_refuted : exists ts b,
  parse ts = ParseOk b /\ length (logical_lines ts) = 3 /\ length (block_errors b) = 6.
Proof.
  exists (toks [ "I HAS A 1  2 "; "VISIBLE WTF x"; "O RLY y z" ]). eexists.
  split; [vm_compute; reflexivity|]. vm_compute. split; reflexivity.
Qed.
Print Assumptions C64_one_error_per_line_refuted.

(** A program with errors in blocks: the first tokens of its nodes, and the
    number of its lines. *)
Example C64_case :
  let ts := toks [ "IM IN YR l UPPIN YR x"; "GIMMEH"; "O RLY?"; "YA RLY"; "VISIBLE 1 ! 2 "; "MEBBE x"; "I HAS A 1  2 ";
                   "NO WAI"; "x R 5  6 "; "OIC 8 "; "IM OUTTA YR l z" ] in
  match parse ts with
  | ParseOk b =>
    map (fun n => map tok_type (firstn 1 (node_tokens n))) (block_all b) =
      [ [TKeyword IM_IN_YR]; [TKeyword GIMMEH]; [TKeyword O_RLY]; [TKeyword VISIBLE]; [TValue (VNumber (Int 2))];
        [TValue (VNumber (Int 1))]; [TValue (VNumber (Int 2))]; [TIdentifier (lit "x")]; [TValue (VNumber (Int 6))];
        [TValue (VNumber (Int 8))]; [TIdentifier (lit "z")] ] /\
    length (block_errors b) = 7 /\ length (logical_lines ts) = 11
  | _ => False
  end.
Proof. vm_compute. repeat split. Qed.
