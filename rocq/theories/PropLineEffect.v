(** Property C65: the effect of one line on the AST.  Statements; the proofs are
    in LineEffectProofs.v. *)
From Coq Require Import String.
From Verif Require Import PropParser NodeTokens LineEffectProofs.
From Verif Require Export Lines LineEffect.
Local Open Scope string_scope.
Local Open Scope list_scope.

(** Whatever is before and after it, a plain line matters only through what it
    gives: the result of the program is a fixed function of that, and this
    function puts the line's nodes in one fixed place, or loses them. *)
Theorem C65_effect_of_a_line ls1 ls2 : exists u f, answer f /\
  forall ts l x, logical_lines ts = ls1 ++ l :: ls2 -> plain l -> gives u l x -> parse ts = f x.
Proof. exact (line_effect ls1 ls2). Qed.
Print Assumptions C65_effect_of_a_line.

(** Every plain line gives something, whatever happens to it. *)
Theorem C65_every_line_gives_something u l : plain l -> exists x, gives u l x.
Proof. exact (gives_total u l). Qed.
Print Assumptions C65_every_line_gives_something.

(** Replacing a line of an error-free program by another well-formed line
    replaces its node and nothing else (unless the line comes after the end of
    what is parsed). *)
Theorem C65_editing_an_error_free_program ls1 l ls2 ts b :
  parse ts = ParseOk b -> block_clean b = true -> logical_lines ts = ls1 ++ l :: ls2 -> plain l ->
  (exists h n, context h /\ d_line l n /\ b = ASTBlock (h [n]) /\
     forall ts' l' n', logical_lines ts' = ls1 ++ l' :: ls2 -> d_line l' n' ->
       parse ts' = ParseOk (ASTBlock (h [n'])) /\ block_clean (ASTBlock (h [n'])) = true) \/
  (forall ts' l', logical_lines ts' = ls1 ++ l' :: ls2 -> plain l' -> parse ts' = ParseOk b).
Proof. exact (edit_line ls1 l ls2 ts b). Qed.
Print Assumptions C65_editing_an_error_free_program.


(** A program that meets the hypotheses of the last theorem; the line is the
    one in the O RLY? in the loop. *)
Definition C65_program (line : string) : list token :=
  toks [ "I HAS A b"; "VISIBLE b"; "IM IN YR l UPPIN YR x"; "O RLY?"; "YA RLY"; line; "NO WAI"; "GTFO"; "OIC"; "IM OUTTA YR l"; "KTHXBYE" ].
Example C65_case_edit : exists ls1 l ls2 b,
  parse (C65_program "VISIBLE a") = ParseOk b /\ block_clean b = true /\
  logical_lines (C65_program "VISIBLE a") = ls1 ++ l :: ls2 /\ plain l /\ length ls1 = 5 /\ length ls2 = 5.
Proof.
  exists (firstn 5 (logical_lines (C65_program "VISIBLE a"))), (nth 5 (logical_lines (C65_program "VISIBLE a")) []),
    (skipn 6 (logical_lines (C65_program "VISIBLE a"))). eexists.
  split; [vm_compute; reflexivity|]. split; [vm_compute; reflexivity|]. split; [vm_compute; reflexivity|].
  split; [|split; vm_compute; reflexivity]. split; [vm_compute; discriminate|]. split.
  - intros (t & c & E & H). vm_compute in E. injection E as <- <-. vm_compute in H. decompose [or] H; discriminate.
  - intros k (t & c & E & H). vm_compute in E. injection E as <- <-. destruct k; vm_compute in H; decompose [or] H; try discriminate; assumption.
Qed.

(** The five things that can happen to the line [line]: its nodes are in a
    block; it is swallowed after HAI; OIC was wanted; it is lost with an unclosed
    loop; it comes after an empty line. *)
Definition C65_shape (ss : list string) : option (list (list token_type)) :=
  match parse (toks ss) with
  | ParseOk b => Some (map (fun n => map tok_type (node_tokens n)) (block_nodes b))
  | _ => None
  end.
Example C65_case_uses :
  C65_shape ["O RLY?"; "YA RLY"; "GTFO"; "OIC"] = Some [[TKeyword O_RLY; TKeyword YA_RLY; TKeyword GTFO]] /\
  C65_shape ["HAI"; "GTFO"] = Some [[TKeyword HAI]; [TKeyword GTFO]] /\
  C65_shape ["O RLY?"; "GTFO KTHXBYE"] = Some [[TKeyword GTFO]; [TKeyword KTHXBYE]] /\
  C65_shape ["IM IN YR l"; "GTFO"] = Some [[TKeyword IM_IN_YR]] /\
  C65_shape ["KTHXBYE"; "...,GTFO"] = Some [[TKeyword KTHXBYE]].
Proof. vm_compute. repeat split. Qed.
