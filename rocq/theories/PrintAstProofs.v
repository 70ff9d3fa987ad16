(** Proofs for C87. *)
From Coq Require Import String Lia ZArith Reals Floats.SpecFloat.
From Flocq Require Import Core.Core IEEE754.BinarySingleNaN.
From Verif Require Import LexProps3 Lexer Parser StrFacts EqFacts RelabelTokens RelabelProofs Clean RecoveryProps LinesSim Api
  Grammar Shape ShapeProofs Unparse UnparseProofs SourceProofs SourceImage ErrorImage Format FormatProofs
  FloatTextSpec FloatTextProofs FloatTextRead LexPropSpec DisplayProofs ImageProofs PrintAst.
Local Open Scope Z_scope.
Local Open Scope list_scope.

Lemma float_writes x : valid_binary 24 128 x = true -> x <> S754_nan -> Writes (TValue (VNumber (Float x))) (float_literal x).
Proof.
  intros V F. assert (D0 : digit 48%N) by (unfold digit; lia). assert (D1 : digit 49%N) by (unfold digit; lia). destruct x as [s|s| |s m e]; [| |contradiction|].
  - exact (writes_float (sign_str s) s [48%N] [48%N] (sign_ok s) ltac:(discriminate) ltac:(auto) ltac:(auto)).
  - pose proof (writes_float (sign_str s) s (49%N :: repeat 48%N 39) [48%N] (sign_ok s) ltac:(discriminate)
      ltac:(constructor; [exact D1|apply Forall_forall; intros c Hc; apply repeat_spec in Hc; subst c; exact D0]) ltac:(auto)) as W.
    match type of W with Writes (TValue (VNumber (Float ?x))) _ => replace x with (S754_infinity s) in W by (destruct s; vm_compute; reflexivity) end. exact W.
  - pose proof V as V0. rewrite valid_sign in V0. destruct (shortest_best m e V0) as (d & k & E & (P & R & B)).
    cbn [float_literal]. rewrite E. destruct (number_text s d k (proj1 P)) as ((ip & f & H1 & H2 & H3 & H4 & H5 & d' & k' & R' & P' & Ev & H6 & H7) & _).
    rewrite H5.
    assert (N : nearest s d' k' (S754_finite s m e)) by (apply (nearest_value _ d k); [symmetry; exact Ev|apply (nearest_iff m e V0 s d k V); exact R]).
    apply (scaled_iff s d' k' _ ltac:(lia)) in N. unfold f32_of_scaled in N.
    assert (Lf : (0 < length f)%nat) by (destruct f; [contradiction|apply Nat.lt_0_succ]).
    destruct (Z.ltb_spec k' 0) as [L|L]; [|lia]. rewrite H6 in N. replace (Z.to_nat (- k')) with (length f) in N by lia. rewrite <- N.
    apply writes_float; [apply sign_ok|intros X; apply app_eq_nil in X as [X _]; exact (H1 X)|exact H2|exact H4].
Qed.
Lemma int_writes n : (- 2 ^ 31 <= n < 2 ^ 31)%Z -> Writes (TValue (VNumber (Int n))) (i32_text n).
Proof.
  intros B. destruct (i32_text_spells n) as (neg & ds & E & Hn & Hds & Hz & Hneg & Hv). rewrite E, Hv.
  apply (writes_int _ neg ds); [destruct neg; constructor|exact Hn|exact Hds|rewrite <- Hv; exact B].
Qed.
Lemma decimal_ok neg d k : 0 <= d -> valid_binary 24 128 (f32_of_decimal neg d k) = true /\ f32_of_decimal neg d k <> S754_nan.
Proof.
  intros Hd. destruct (f32_of_decimal_correct neg d k Hd) as [V H]. split; [exact V|]. intros X. rewrite X in H.
  destruct (Rlt_bool _ _); [destruct H as (_ & H & _)|]; discriminate H.
Qed.
Lemma type_writes ty raw : Writes ty raw -> Writes ty (type_text ty).
Proof.
  intros W. destruct W; try (econstructor; eassumption).
  - apply int_writes. assumption.
  - destruct (decimal_ok neg (dec (ip ++ fp)) (length fp)) as [V N]; [apply LexProps3.dec_nonneg; apply Forall_app; auto|].
    apply float_writes; assumption.
Qed.
Definition w0 (t : token) : str := type_text (tok_type t).
Lemma written_w0 t : written t -> writable w0 t.
Proof. intros (w & H & K). split; [exact (type_writes _ _ H)|exact K]. Qed.

Theorem print_parses ns : Forall node_shape ns -> forallb node_clean ns = true -> Forall written (block_tokens (ASTBlock ns)) ->
  exists ns', tokenize_and_parse (print_ast ns) = ApiOk (ASTBlock ns') /\
              map (map_node erase) ns' = map (map_node erase) ns /\ forallb node_clean ns' = true.
Proof.
  intros HS HC HW. apply (program_round_trip w0 (unparse_nodes ns) ns); [|apply unparse_program; assumption].
  assert (G : Forall (Forall written) (unparse_nodes ns)) by (apply Q_nodes; [exact written_made_up|exact HW]).
  eapply Forall_impl; [|exact G]. intros l. apply Forall_impl. exact written_w0.
Qed.

(** ** The text depends on types only *)
Lemma print_erase ns : print_ast (map (map_node erase) ns) = print_ast ns.
Proof.
  unfold print_ast. change (unparse_block (ASTBlock ns)) with (unparse_nodes ns). change (unparse_block (ASTBlock (map (map_node erase) ns))) with (unparse_nodes (map (map_node erase) ns)).
  rewrite (nodes_commute erase) by reflexivity. symmetry. apply same_print; [reflexivity|].
  apply Forall_forall. intros l _. apply Forall_forall. reflexivity.
Qed.
Theorem print_iff ns ns' : Forall node_shape ns -> forallb node_clean ns = true -> Forall written (block_tokens (ASTBlock ns)) ->
  Forall node_shape ns' -> forallb node_clean ns' = true -> Forall written (block_tokens (ASTBlock ns')) ->
  print_ast ns = print_ast ns' <-> map (map_node erase) ns = map (map_node erase) ns'.
Proof.
  intros S C W S' C' W'. split.
  - intros E. destruct (print_parses ns S C W) as (m & P & Q & _), (print_parses ns' S' C' W') as (m' & P' & Q' & _).
    rewrite E, P' in P. injection P as ->. congruence.
  - intros E. rewrite <- (print_erase ns), <- (print_erase ns'), E. reflexivity.
Qed.

(** ** Sources *)
Theorem source_ast code ns : ascii_str code -> ~ ends_with_colon code ->
  tokenize_and_parse code = ApiOk (ASTBlock ns) -> forallb node_clean ns = true -> Forall plain_version (versions (ASTBlock ns)) ->
  Forall node_shape ns /\ Forall written (block_tokens (ASTBlock ns)).
Proof.
  intros Ha Hcol E HC HVer. unfold tokenize_and_parse in E. destruct (tokenize code) as [ts| | |] eqn:Et; try discriminate.
  destruct (parse ts) as [b|c|] eqn:Ep; try discriminate. injection E as ->.
  assert (HS : Forall node_shape ns) by (apply block_shape_eq, (parse_shape _ _ Ep)). split; [exact HS|].
  assert (HP : Forall (fun t => plain_version t) (block_tokens (ASTBlock ns))).
  { apply p_nodes; try assumption; unfold plain_version.
    - intros k t Hk. unfold kw in Hk. rewrite Hk. exact I.
    - intros t (s & Hk). rewrite Hk. exact I.
    - intros t Hk. unfold slot_tok in Hk. rewrite Hk. exact I.
    - intros t (v & Hk). rewrite Hk. exact I.
    - intros t Hk. unfold exclamation_tok in Hk. rewrite Hk. exact I. }
  rewrite Forall_forall in HP. apply Forall_forall. intros t Hin. pose proof (ast_tokens _ _ Ep t Hin) as Hl.
  rewrite lines_tokens in Hl. apply filter_In in Hl as [Hts Hon]. exists (source_text code). split; [|split; [|split]].
  - apply (source_writes code ts); auto.
  - intros X. unfold on_line, is_comma in Hon. rewrite X in Hon. discriminate.
  - intros X. unfold on_line, is_comma, is_ellipsis in Hon. rewrite X in Hon. discriminate.
  - intros s X. specialize (HP t Hin). unfold plain_version in HP. rewrite X in HP. exact HP.
Qed.
Theorem source_print code ns : ascii_str code -> ~ ends_with_colon code ->
  tokenize_and_parse code = ApiOk (ASTBlock ns) -> forallb node_clean ns = true -> Forall plain_version (versions (ASTBlock ns)) ->
  exists ns', tokenize_and_parse (print_ast ns) = ApiOk (ASTBlock ns') /\
              map (map_node erase) ns' = map (map_node erase) ns /\ forallb node_clean ns' = true /\ print_ast ns' = print_ast ns.
Proof.
  intros Ha Hc E HC HV. destruct (source_ast code ns Ha Hc E HC HV) as [HS HW]. destruct (print_parses ns HS HC HW) as (ns' & P & Q & R).
  exists ns'. repeat (split; [assumption|]). rewrite <- (print_erase ns'), Q. apply print_erase.
Qed.
Theorem source_print_iff code code' ns ns' : ascii_str code -> ~ ends_with_colon code -> ascii_str code' -> ~ ends_with_colon code' ->
  tokenize_and_parse code = ApiOk (ASTBlock ns) -> forallb node_clean ns = true -> Forall plain_version (versions (ASTBlock ns)) ->
  tokenize_and_parse code' = ApiOk (ASTBlock ns') -> forallb node_clean ns' = true -> Forall plain_version (versions (ASTBlock ns')) ->
  print_ast ns = print_ast ns' <-> map (map_node erase) ns = map (map_node erase) ns'.
Proof.
  intros A C A' C' E HC HV E' HC' HV'. destruct (source_ast code ns A C E HC HV), (source_ast code' ns' A' C' E' HC' HV'). apply print_iff; assumption.
Qed.
