(** Single-line statements see only their own line. *)
From Coq Require Import Lia.
From Verif Require Import Lines LinesSim ParseFuel Grammar ExprGrammar LineGrammar.

(** The same line with other lines after it. *)
Definition same_line (ls1 ls2 : list (list token)) (s1 s2 : lstate) : Prop :=
  fst s1 = fst s2 /\ snd s1 = ls1 /\ snd s2 = ls2.

Section Local.
Variables ls1 ls2 : list (list token).
Notation Rel := (same_line ls1 ls2).

Lemma SL_next s1 s2 : Rel s1 s2 -> fst (l_next s1) = fst (l_next s2) /\ Rel (snd (l_next s1)) (snd (l_next s2)).
Proof.
  destruct s1 as [c1 m1], s2 as [c2 m2]. unfold same_line. cbn. intros (-> & -> & ->).
  destruct c2; cbn; auto.
Qed.
Lemma SL_peek s1 s2 : Rel s1 s2 -> fst (l_peek s1) = fst (l_peek s2) /\ Rel (snd (l_peek s1)) (snd (l_peek s2)).
Proof.
  destruct s1 as [c1 m1], s2 as [c2 m2]. unfold same_line. cbn. intros (-> & -> & ->).
  destruct c2; cbn; auto.
Qed.

Lemma single_local t f c : ~ multi_line t ->
  res_rel Rel (parse_statement l_next l_peek l_next_statement f t (c, ls1))
              (parse_statement l_next l_peek l_next_statement f t (c, ls2)).
Proof.
  intros Hm. assert (H0 : Rel (c, ls1) (c, ls2)) by (unfold same_line; auto).
  destruct f as [|f]; [exact I|]. cbn [parse_statement].
  destruct (va_is_valid t).
  { exact (sim_va_statement _ _ _ _ Rel SL_next SL_peek f t _ _ H0). }
  assert (Hexpr : res_rel Rel (as_node NExpression (expr_parse l_next l_peek f t) (c, ls1))
                              (as_node NExpression (expr_parse l_next l_peek f t) (c, ls2))).
  { apply (sim_as_node Rel); [|exact H0]. exact (sim_expr _ _ _ _ Rel SL_next SL_peek f t). }
  destruct (tok_type t) as [|k| | | | | | | | |] eqn:Et; auto.
  destruct k; auto; try (destruct Hm; unfold multi_line, kw; tauto).
  all: try (unfold ret; cbn; auto; fail).
  all: (apply (sim_as_node Rel); [|exact H0]).
  - exact (sim_i_has_a _ _ _ _ Rel SL_next SL_peek f t).
  - exact (sim_visible _ _ _ _ Rel SL_next SL_peek f t).
  - exact (sim_gimmeh _ _ _ _ Rel SL_next SL_peek f t).
  - exact (sim_found_yr _ _ _ _ Rel SL_next SL_peek f t).
  - exact (sim_i_iz _ _ _ _ Rel SL_next SL_peek f t).
Qed.
End Local.
