(** What the errors mean: proofs for PropErrorDocs.v. *)
From Coq Require Import Lia.
From Verif Require Import Lines ParserProps2 RecoveryProps LineEffectProofs ExprGrammar LineGrammar.
From Verif Require Import NodeLinesProofs.
From Verif Require Export NodeLines LineEffect.

Theorem errors_say_where ts b e : parse ts = ParseOk b -> In e (block_errors b) ->
  (exists p r, In (p ++ r) (logical_lines ts) /\ error_at p r e /\ (r <> [] -> In (TooManyTokens r) (block_errors b))) \/
  (exists p r, In (p ++ r) (logical_lines ts) /\ r <> [] /\ e = TooManyTokens r).
Proof.
  intros H He. apply nodes_by_line in H as (gs & H & E). unfold block_errors in *. rewrite E in *.
  apply in_flat_map in He as (n & Hn & He).
  assert (G : exists l g, In l (logical_lines ts) /\ In g gs /\ line_nodes l g /\ In n g).
  { clear E. induction H as [|l g ls gs Hl _ IH]; [destruct Hn|]. cbn [concat] in Hn. apply in_app_or in Hn as [Hn|Hn].
    - exists l, g. cbn. auto.
    - destruct (IH Hn) as (l' & g' & H1 & H2 & H3). exists l', g'. cbn. auto. }
  clear Hn. destruct G as (l & g & Hl & Hg & Hlg & Hn). destruct n; try contradiction. destruct He as [->|[]].
  destruct Hlg as [l|l n Hat|p r Hr|p r n Hat Hr].
  - destruct Hn.
  - destruct Hn as [->|[]]. left. exists l, []. rewrite app_nil_r. split; [assumption|]. split; [exact Hat|]. intros N. now elim N.
  - destruct Hn as [[= <-]|[]]. right. eauto.
  - destruct Hn as [->|[[= <-]|[]]]; [|right; eauto]. left. exists p, r. split; [assumption|]. split; [exact Hat|].
    intros _. apply in_flat_map. exists (NASTError (TooManyTokens r)). split; [|now left].
    apply in_concat. exists [NASTError e; NASTError (TooManyTokens r)]. split; [assumption|]. cbn. auto.
Qed.

Lemma plain_more p r : p <> [] -> plain p -> plain (p ++ r).
Proof.
  destruct p as [|t p]; [contradiction|]. intros _ (_ & H1 & H2). split; [discriminate|]. split.
  - intros (u & c & [= <- <-] & Hu). apply H1. exists t, p. auto.
  - intros k (u & c & [= <- <-] & Hu). apply (H2 k). exists t, p. auto.
Qed.
Lemma reads_less p r n : reads (p ++ r) n r -> reads p n [].
Proof.
  intros (ts & E & H & _ & _). apply app_inv_tail in E as <-. exists p. rewrite app_nil_r. repeat split; auto.
  intros [_ (t & q & [=] & _)].
Qed.
Theorem too_many_tokens ls1 ls2 p r n : r <> [] -> plain p -> reads (p ++ r) n r -> forall ts ts',
  logical_lines ts = ls1 ++ (p ++ r) :: ls2 -> logical_lines ts' = ls1 ++ p :: ls2 ->
  exists f, answer f /\
   (parse ts = f (inl [n; NASTError (TooManyTokens r)]) /\ parse ts' = f (inl [n]) \/
    parse ts = f (inl [NASTError (TooManyTokens (p ++ r))]) /\ parse ts' = f (inl [NASTError (TooManyTokens p)]) \/
    exists t q, p = t :: q /\ parse ts = f (inl [NASTError (UnexpectedToken t); NASTError (TooManyTokens (q ++ r))]) /\
      parse ts' = f (inl (NASTError (UnexpectedToken t) :: left_over q))).
Proof.
  intros Hr Hp Hn ts ts' E E'. destruct (line_effect ls1 ls2) as (u & f & Hf & H). exists f. split; [exact Hf|].
  pose proof (plain_more p r (proj1 Hp) Hp) as Hpr. destruct u.
  - left. split.
    + apply (H _ _ _ E Hpr). cbn. replace [NASTError (TooManyTokens r)] with (left_over r) by (destruct r; [contradiction|reflexivity]).
      apply lr_reads, Hn.
    + apply (H _ _ _ E' Hp). cbn. change [n] with (n :: left_over []). apply lr_reads, (reads_less _ _ _ Hn).
  - right. left. split; [apply (H _ _ _ E Hpr)|apply (H _ _ _ E' Hp)]; reflexivity.
  - right. right. destruct p as [|t q]; [elim (proj1 Hp eq_refl)|]. exists t, q. split; [reflexivity|]. split.
    + apply (H _ _ _ E Hpr). cbn. exists t, (q ++ r). split; [reflexivity|]. f_equal. f_equal.
      destruct (q ++ r) eqn:F; [|reflexivity]. apply app_eq_nil in F as [_ ->]. contradiction.
    + apply (H _ _ _ E' Hp). cbn. eauto.
Qed.

(** ** Lines for which the documented error is not reported *)
Lemma single_line ts l x : logical_lines ts = [l] -> l <> [] -> ~ begins block_start l -> line_result l x -> parse ts = result_ x.
Proof.
  intros E N B H. apply lines_iff. { rewrite E. repeat constructor; assumption. }
  rewrite E. exists [x]. split; [repeat constructor; assumption|]. destruct x; cbn; [now rewrite app_nil_r|reflexivity].
Qed.
Lemma not_block t r k : kw k t -> (k = I_IZ \/ k = MEBBE) -> ~ begins block_start (t :: r).
Proof.
  intros H K (u & c & [= <- <-] & B). unfold block_start, kw in *. destruct K as [-> | ->]; decompose [or] B; congruence.
Qed.
Theorem call_without_name ts i u r : logical_lines ts = [i :: u :: r] -> kw I_IZ i -> ~ id_start u ->
  parse ts = ParseOk (ASTBlock (NASTError (UnexpectedToken u) :: left_over r)).
Proof.
  intros E Hi Hu. apply (single_line _ _ (inl (NASTError (UnexpectedToken u) :: left_over r)) E); [discriminate| |].
  - eapply not_block; eauto.
  - apply lr_error. apply f_i_iz_name; [assumption|]. constructor. now constructor.
Qed.
Theorem call_without_argument ts i ws v yr u r : logical_lines ts = [i :: ws ++ yr :: u :: r] -> kw I_IZ i -> d_va ws v ->
  kw YR yr -> ~ starts_expr u -> ~ kw MAEK u ->
  parse ts = ParseOk (ASTBlock (NASTError (UnexpectedToken u) :: left_over r)).
Proof.
  intros E Hi Hv Hy Hu Hm. apply (single_line _ _ (inl (NASTError (UnexpectedToken u) :: left_over r)) E); [discriminate| |].
  - eapply not_block; eauto.
  - apply lr_error. apply (f_i_iz_args i ws v); [assumption|assumption| |].
    + intros (t & c & [= <- <-] & S). unfold slot_tok, kw in *. congruence.
    + apply x_args_expr; [assumption|]. apply x_expected_expr. now apply x_expr_other.
Qed.
Theorem assignment_without_r ts ws v u r : logical_lines ts = [ws ++ u :: r] -> d_va ws v ->
  ~ slot_tok u -> ~ kw R u -> ~ kw HAS_A u -> parse ts = ParsePanic (PanicUnreachable v u).
Proof.
  intros E Hv H1 H2 H3. apply (single_line _ _ (inr (PanicUnreachable v u)) E).
  - destruct ws; discriminate.
  - destruct (d_va_first _ _ Hv) as (x & xs & -> & Hx). intros (t & c & [= <- <-] & B). 
    unfold block_start, kw, id_start, ident_tok in *.
    destruct Hx as [[s Hx]|Hx]; decompose [or] B; unfold kw in *; congruence.
  - apply lr_panic. now apply f_va_unreachable.
Qed.
Lemma one_statement ts l e p q ns : logical_lines ts = [l] -> l <> [] -> r_stmt l [] (Err e (p, q)) -> r_more Root q (Done ns ([], [])) ->
  parse ts = ParseOk (ASTBlock (NASTError e :: left_over p ++ ns)).
Proof.
  intros E N H M. apply parse_nodes. rewrite E. destruct l as [|t c]; [contradiction|]. eexists.
  exact (r_block_err Root t c [] e p q _ H M).
Qed.
Theorem other_operation ts m l u r : logical_lines ts = [m :: l :: u :: r] -> kw IM_IN_YR m -> ident_tok l ->
  ~ is_step u -> ~ is_until u -> parse ts = ParseOk (ASTBlock [NASTError (TooManyTokens (u :: r))]).
Proof.
  intros E Hm Hl H1 H2. apply (one_statement _ _ _ [] [] [] E); [discriminate| |apply (r_more_empty Root []); reflexivity].
  apply (r_loop_junk m (l :: u :: r) [] l None None u r Hm). exists [], []. cbn.
  split; [reflexivity|]. split; [assumption|]. split; [constructor|]. split; [constructor|].
  split; [intros _ (t & c & [= <- <-] & H); contradiction|]. split; [intros _ (t & c & [= <- <-] & H); contradiction|].
  split; [contradiction|]. intros [(w & t & F & _) _]. destruct w; discriminate.
Qed.
Theorem function_without_name ts h u r : logical_lines ts = [h :: u :: r] -> kw HOW_IZ_I h -> ~ id_start u ->
  parse ts = ParseOk (ASTBlock (NASTError (UnexpectedToken u) :: left_over r)).
Proof.
  intros E Hh Hu. rewrite <- (app_nil_r (left_over r)).
  apply (one_statement _ _ _ r [] [] E); [discriminate| |apply (r_more_empty Root []); reflexivity].
  apply (r_function_header h (u :: r) [] (FErr (UnexpectedToken u) r) Hh). constructor. now constructor.
Qed.
