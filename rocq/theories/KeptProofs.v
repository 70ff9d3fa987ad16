(** Proofs for C76. *)
From Coq Require Import String.
From Verif Require Import Lines Grammar Clean ExprGrammar LineGrammar ProgGrammar ProgComplete ParseFuel NodeLinesProofs SameAstProofs FormatProofs Kept.

Lemma kw_kept k t : kw k t -> kept t = kept (mkToken (TKeyword k) (tok_range t)).
Proof. unfold kw, kept. intros ->. reflexivity. Qed.
Lemma question_kept t : question_tok t -> kept t = false.
Proof. unfold question_tok, kept. intros ->. reflexivity. Qed.
Ltac kws := repeat match goal with
  | H : kw ?k ?t |- _ => apply kw_kept in H; change (kept t = true) in H || change (kept t = false) in H
  | H : question_tok ?t |- _ => apply question_kept in H
  end.
Ltac filters := repeat (cbn [app concat flat_map map]; rewrite ?filter_app, ?concat_app, ?flat_map_app, ?app_nil_r, <- ?app_assoc; cbn [filter];
  match goal with H : kept ?t = _ |- context [kept ?t] => rewrite H | _ => idtac end).

Definition keeps (us vs : list token) : Prop := filter kept us = filter kept vs.

Lemma args_keeps us es : d_args us es -> keeps us (flat_map expr_tokens es).
Proof.
  unfold keeps. induction 1; kws; repeat match goal with H : d_expr _ _ _ |- _ => apply expr_tokens_of in H as -> end; filters; [reflexivity| |].
  - reflexivity.
  - rewrite IHd_args. reflexivity.
Qed.
Lemma params_keeps us is : d_params us is -> keeps us (flat_map identifier_tokens is).
Proof.
  unfold keeps. induction 1; kws; repeat match goal with H : d_identifier _ _ |- _ => apply d_identifier_shape in H as -> end; filters; [reflexivity| |].
  - reflexivity.
  - rewrite IHd_params. reflexivity.
Qed.
Ltac shapes := repeat match goal with
  | H : d_expr _ _ _ |- _ => apply expr_tokens_of in H as ->
  | H : d_exprs _ _ _ |- _ => apply exprs_tokens in H as ->
  | H : d_identifier _ _ |- _ => apply d_identifier_shape in H as ->
  | H : d_va _ _ |- _ => apply d_va_shape in H as ->
  | H : d_args _ _ |- _ => apply args_keeps in H; unfold keeps in H
  | H : d_params _ _ |- _ => apply params_keeps in H; unfold keeps in H
  end.
Lemma line_keeps l n : d_line l n -> keeps l (node_tokens n).
Proof.
  unfold keeps. destruct 1; try match goal with H : d_initial _ _ |- _ => destruct H as [|itz u ty Hi [] |] end; shapes; cbn -[filter kept expr_tokens];
    unfold i_has_a_tokens, visible_tokens, gimmeh_tokens, found_yr_tokens, i_iz_tokens, set_slot_tokens, assignment_tokens;
    cbn -[filter kept expr_tokens]; kws; filters; try reflexivity; repeat match goal with H : filter _ _ = _ |- _ => rewrite H end; reflexivity.
Qed.

Lemma stmts_keep :
  (forall ls n, d_stmt ls n -> keeps (concat ls) (node_tokens n)) /\
  (forall ls ns, d_block ls ns -> keeps (concat ls) (flat_map node_tokens ns)) /\
  (forall ls ns, d_stmts ls ns -> keeps (concat ls) (flat_map node_tokens ns)) /\
  (forall ls x, d_omgs ls x -> keeps (concat ls) (flat_map wtf_omg_tokens x)) /\
  (forall ls x, d_default ls x -> keeps (concat ls) (match x with Some d => wtf_omg_wtf_tokens d | None => [] end)) /\
  (forall ls x, d_ya_rly ls x -> keeps (concat ls) (match x with Some y => ya_rly_tokens y | None => [] end)) /\
  (forall ls x, d_mebbes ls x -> keeps (concat ls) (flat_map mebbe_tokens x)) /\
  (forall ls x, d_no_wai ls x -> keeps (concat ls) (match x with Some y => no_wai_tokens y | None => [] end)).
Proof.
  unfold keeps. apply d_stmt_mut; intros;
    repeat match goal with
    | H : d_iteration _ _ |- _ => destruct H
    | H : d_condition _ _ |- _ => destruct H
    end; shapes; kws;
    cbn -[filter kept expr_tokens identifier_tokens va_tokens]; unfold hai_tokens; cbn -[filter kept expr_tokens identifier_tokens va_tokens]; filters;
    repeat match goal with H : filter _ _ = _ |- _ => rewrite H end; try reflexivity; auto.
  apply line_keeps in d. exact d.
Qed.

Theorem clean_keeps ts ns : parse ts = ParseOk (ASTBlock ns) -> forallb node_clean ns = true ->
  Forall (fun l => l <> []) (logical_lines ts) -> keeps ts (block_tokens (ASTBlock ns)).
Proof.
  rewrite parse_logical_lines. intros E C N. destruct (proj1 (program_iff _ _) (conj E C)) as (k & bl & rest & EL & D).
  pose proof (all_read _ _ _ _ N EL) as HR. apply stmts_keep in D. unfold keeps in *. cbn [block_tokens]. rewrite <- D.
  assert (HF : concat (filter not_empty bl) = concat bl).
  { clear. induction bl as [|[|x l] bl IH]; [reflexivity|exact IH|]. cbn [filter not_empty concat]. rewrite IH. reflexivity. }
  rewrite <- HF, HR, lines_tokens. clear. induction ts as [|t ts IH]; [reflexivity|]. cbn [filter].
  assert (H : FormatProofs.on_line t = false -> kept t = false).
  { unfold FormatProofs.on_line, is_comma, is_ellipsis, kept. destruct (tok_type t); cbn; congruence. }
  destruct (FormatProofs.on_line t); cbn [filter]; [rewrite IH; reflexivity|]. rewrite (H eq_refl). exact IH.
Qed.
