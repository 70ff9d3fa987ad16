(** Consequences for the tokens and ASTs that the crate produces. *)
From Coq Require Import Sorted.
From Verif Require Import Eq EqSpec EqFacts EqInj RelabelTokens StrFacts Lexer LexSpec LexPropSpec LexProps LexProps2
  Lines ParseFuel ParserProps ParserProps2 RelabelProofs Api.
Local Open Scope Z_scope.

(** ** The general facts *)
Lemma canon_nan t u : canon t = canon u -> is_nan t -> is_nan u.
Proof.
  unfold is_nan. intros E H. injection E as E _ _ _ _. rewrite H in E.
  apply canon_type_inv in E as [E|(s & s' & E & _)]; [congruence|discriminate E].
Qed.
Lemma token_eqb_sym t u : token_eqb t u = token_eqb u t.
Proof.
  apply Bool.eq_true_iff_eq. rewrite !token_eqb_iff. split; intros [E N]; (split; [congruence|]); intros H;
    apply N; exact (canon_nan _ _ (eq_sym E) H).
Qed.

Section Equiv.
  Context {A : Type} (eqb : A -> A -> bool) (cn : A -> A) (tk : A -> list token).
  Hypothesis Hok : forall a, ok eqb cn tk a.
  Hypothesis Hcn : forall a b, cn a = cn b -> no_nan (tk a) -> no_nan (tk b).
  Lemma ok_sym a b : eqb a b = eqb b a.
  Proof. apply Bool.eq_true_iff_eq. rewrite (Hok a b), (Hok b a). split; intros [E N]; split; eauto. Qed.
  Lemma ok_trans a b c : eqb a b = true -> eqb b c = true -> eqb a c = true.
  Proof. rewrite (Hok a b), (Hok b c), (Hok a c). intros [E N] [F _]. split; [congruence|assumption]. Qed.
  Lemma ok_refl a : eqb a a = true <-> no_nan (tk a).
  Proof. rewrite (Hok a a). tauto. Qed.
End Equiv.

Lemma no_nan_canon l m : map canon l = map canon m -> no_nan l -> no_nan m.
Proof.
  revert m. induction l as [|t l IH]; intros [|u m] E; try discriminate E; [auto|].
  cbn [map] in E. assert (E1 : canon t = canon u) by congruence. assert (E2 : map canon l = map canon m) by congruence.
  rewrite !no_nan_cons. intros [N H]. split; [|exact (IH m E2 H)].
  intros Hu. apply N. exact (canon_nan _ _ (eq_sym E1) Hu).
Qed.
Lemma block_no_nan a b : map_block canon a = map_block canon b -> no_nan (block_tokens a) -> no_nan (block_tokens b).
Proof.
  intros E. apply no_nan_canon. rewrite <- !block_tokens_map, E. reflexivity.
Qed.

(** ** The tokens of a source *)
Lemma shr_1_nonneg m : 0 <= shr_m m -> 0 <= shr_m (shr_1 m).
Proof. destruct m as [[|[p|p|]|p] r t]; cbn; lia. Qed.
Lemma iter_nonneg p : forall m, 0 <= shr_m m -> 0 <= shr_m (SpecFloat.iter_pos shr_1 p m).
Proof. induction p; intros m H; cbn [SpecFloat.iter_pos]; auto using shr_1_nonneg. Qed.
Lemma shr_fexp_nonneg m e l : 0 <= m -> 0 <= shr_m (fst (shr_fexp 24 128 m e l)).
Proof.
  intros H. unfold shr_fexp, shr.
  assert (H0 : 0 <= shr_m (shr_record_of_loc m l)) by (destruct l as [|[]]; assumption).
  destruct (fexp 24 128 (Zdigits2 m + e) - e); cbn [fst]; auto using iter_nonneg.
Qed.
Lemma f32_not_nan neg m k : f32_of_decimal neg m k <> S754_nan.
Proof.
  destruct m as [|p|p]; cbn [f32_of_decimal]; [discriminate| |discriminate]. unfold SFdiv.
  destruct (SFdiv_core_binary _ _ _ _ _ _) as [[mz ez] lz] eqn:E.
  assert (Hm : 0 <= mz).
  { unfold SFdiv_core_binary in E. cbv zeta in E.
    match type of E with context [Z.div_eucl ?a ?b] => destruct (Z.div_eucl a b) as [q r] eqn:D;
      assert (Ha : 0 <= a) end.
    { match goal with |- 0 <= match ?x with _ => _ end => destruct x end; [lia| |lia].
      apply Z.shiftl_nonneg. lia. }
    injection E as <- _ _. change q with (fst (q, r)). rewrite <- D. apply Z.div_pos; lia. }
  unfold SpecFloat.binary_round_aux.
  pose proof (shr_fexp_nonneg mz ez lz Hm) as H1. destruct (shr_fexp 24 128 mz ez lz) as [r1 e1]. cbn [fst] in H1.
  assert (H2 : 0 <= round_nearest_even (shr_m r1) (loc_of_shr_record r1)).
  { unfold round_nearest_even. destruct (loc_of_shr_record r1) as [|[]]; try lia. destruct (Z.even _); lia. }
  pose proof (shr_fexp_nonneg _ e1 loc_Exact H2) as H3.
  destruct (shr_fexp 24 128 (round_nearest_even _ _) e1 loc_Exact) as [r2 e2]. cbn [fst] in H3.
  destruct (shr_m r2) as [|p'|p']; [discriminate| |lia]. destruct (e2 <=? _); discriminate.
Qed.
Theorem tokens_no_nan code ts : tokenize code = LexOk ts -> no_nan ts.
Proof.
  intros E. apply Forall_forall. intros t Hin Ht.
  destruct (number_tokens _ _ _ _ E Hin Ht) as (a & raw & b & Hat & HN). inversion HN.
  match goal with H : f32_of_decimal _ _ _ = S754_nan |- _ => exact (f32_not_nan _ _ _ H) end.
Qed.
Lemma sorted_starts_eq ts t u : Forall (fun t => bytes (start_of t) < bytes (end_of t)) ts ->
  StronglySorted (fun t u => bytes (end_of t) <= bytes (start_of u)) ts ->
  In t ts -> In u ts -> bytes (start_of t) = bytes (start_of u) -> t = u.
Proof.
  intros HF HS. induction HS as [|x ts HS IH Hx]; [intros []|]. inversion HF as [|? ? Hx' HF']; subst.
  rewrite Forall_forall in Hx. intros [<-|Ht] [<-|Hu] E; auto.
  - specialize (Hx _ Hu). lia.
  - specialize (Hx _ Ht). lia.
Qed.
Lemma canon_one_source code ts t u : tokenize code = LexOk ts -> In t ts -> In u ts -> canon t = canon u -> t = u.
Proof.
  intros E Ht Hu EC.
  destruct (tokenize_lossless code ts E) as (HF & HS & _).
  apply (sorted_starts_eq ts); auto.
  - revert HF. apply Forall_impl. tauto.
  - assert (Hb : forall x, In x ts -> boundary ts (start_of x)) by (intros x Hx; exists x; auto).
    apply (proj1 (boundaries_ordered code ts _ _ E (Hb t Ht) (Hb u Hu))).
    apply position_eqb_canon. injection EC as _ H1 H2 _ _. unfold canon_position, start_of. congruence.
Qed.
Theorem one_source_tokens code ts t u : tokenize code = LexOk ts -> In t ts -> In u ts ->
  token_eqb t u = true <-> t = u.
Proof.
  intros E Ht Hu. rewrite token_eqb_iff. split.
  - intros [EC _]. eapply canon_one_source; eauto.
  - intros ->. split; [reflexivity|]. pose proof (proj1 (Forall_forall _ _) (tokens_no_nan _ _ E)) as H. exact (H u Hu).
Qed.
Lemma incl_no_nan ts l : no_nan ts -> incl l ts -> no_nan l.
Proof. unfold no_nan. rewrite !Forall_forall. auto. Qed.
Theorem one_source_nodes code ts n n' : tokenize code = LexOk ts ->
  incl (node_tokens n) ts -> incl (node_tokens n') ts -> node_eqb n n' = true <-> n = n'.
Proof.
  intros E Hn Hn'. rewrite (node_ok n n'). split.
  - intros [EC _]. apply (inj_node canon (fun t => In t ts)); [|apply Forall_forall; auto|apply Forall_forall; auto|assumption].
    intros t u. apply (canon_one_source _ _ _ _ E).
  - intros ->. split; [reflexivity|]. eapply incl_no_nan; [eapply tokens_no_nan; eauto|assumption].
Qed.
Theorem one_source_blocks code ts b b' : tokenize code = LexOk ts ->
  incl (block_tokens b) ts -> incl (block_tokens b') ts -> block_eqb b b' = true <-> b = b'.
Proof.
  intros E Hn Hn'. rewrite (block_ok b b'). split.
  - intros [EC _]. apply (inj_block canon (fun t => In t ts)); [|apply Forall_forall; auto|apply Forall_forall; auto|assumption].
    intros t u. apply (canon_one_source _ _ _ _ E).
  - intros ->. split; [reflexivity|]. eapply incl_no_nan; [eapply tokens_no_nan; eauto|assumption].
Qed.

(** ** The parser *)
Lemma canon_kind t : tok_kind (canon t) = tok_kind t.
Proof. destruct t as [[ | | |[[|[]]| | |]| | | | | | |] r]; reflexivity. Qed.
Lemma canon_comma t : is_comma (canon t) = is_comma t.
Proof. destruct t as [[ | | |[[|[]]| | |]| | | | | | |] r]; reflexivity. Qed.
Lemma canon_ellipsis t : is_ellipsis (canon t) = is_ellipsis t.
Proof. destruct t as [[ | | |[[|[]]| | |]| | | | | | |] r]; reflexivity. Qed.
Lemma canon_joined t u : joined (canon t) (canon u) = joined t u.
Proof. unfold joined. rewrite !canon_comma, canon_ellipsis. reflexivity. Qed.
Lemma chunks_canon ts : chunks (map canon ts) = map (map canon) (chunks ts).
Proof.
  induction ts as [|t ts IH]; [reflexivity|]. cbn [map chunks]. rewrite IH.
  destruct (chunks ts) as [|[|u g] gs]; [reflexivity|reflexivity|]. cbn [map]. rewrite canon_joined.
  destruct (joined t u); reflexivity.
Qed.
Lemma filter_map_gen {A B} (g : A -> B) p q l : (forall x, p (g x) = q x) -> filter p (map g l) = map g (filter q l).
Proof.
  intros H. induction l as [|x l IH]; [reflexivity|]. cbn [map filter]. rewrite H, IH. destruct (q x); reflexivity.
Qed.
Lemma lines_canon ts : logical_lines (map canon ts) = map (map canon) (logical_lines ts).
Proof.
  assert (H : statements (map canon ts) = map (map canon) (statements ts)).
  { unfold statements. rewrite chunks_canon.
    rewrite (filter_map_gen (map canon) _ (fun g => negb (existsb is_comma g))).
    - rewrite !map_map. apply map_ext. intros l. apply filter_map_gen. intros t. rewrite canon_ellipsis. reflexivity.
    - intros l. f_equal. induction l as [|t l IH]; [reflexivity|]. cbn [map existsb]. rewrite canon_comma, IH. reflexivity. }
  unfold logical_lines. destruct ts as [|t ts]; [reflexivity|]. cbn [map] in *. rewrite canon_comma.
  destruct (is_comma t); cbn [map]; rewrite H; reflexivity.
Qed.
Lemma parse_canon ts : parse (map canon ts) = map_result canon (parse ts).
Proof. rewrite !parse_logical_lines, lines_canon. apply parse_logical_map, canon_kind. Qed.

(** Equal vectors of tokens have equal results. *)
Definition same_result (r r' : parse_result) : Prop :=
  match r, r' with
  | ParseOk b, ParseOk b' => block_eqb b b' = true
  | ParsePanic c, ParsePanic c' => map_cause canon c = map_cause canon c'
  | _, _ => False
  end.
Lemma subseq_incl {A} (a b : list A) : Subseq a b -> incl a b.
Proof. induction 1; intros y Hy; [destruct Hy|destruct Hy; [left; auto|right; auto]|right; auto]. Qed.
Theorem parse_respects ts ts' : list_eqb token_eqb ts ts' = true -> same_result (parse ts) (parse ts').
Proof.
  intros H. apply (tokens_ok ts ts') in H as [E N].
  assert (EP : map_result canon (parse ts) = map_result canon (parse ts')) by (rewrite <- !parse_canon, E; reflexivity).
  pose proof (parse_terminates ts) as T.
  destruct (parse ts) as [b|c|] eqn:P, (parse ts') as [b'|c'|] eqn:P'; cbn [map_result] in EP; try discriminate EP;
    cbn [same_result]; [|congruence|contradiction].
  apply (block_ok b b'). split; [congruence|]. eapply incl_no_nan; [exact N|].
  apply subseq_incl, parse_subseq, P.
Qed.
Theorem ast_reflexive code b : tokenize_and_parse code = ApiOk b -> block_eqb b b = true.
Proof.
  unfold tokenize_and_parse. destruct (tokenize code) as [ts| | |] eqn:E; try discriminate.
  destruct (parse ts) as [b'|c|] eqn:P; try discriminate. intros H. injection H as ->.
  apply (block_ok b b). split; [reflexivity|]. eapply incl_no_nan; [eapply tokens_no_nan; eauto|].
  apply subseq_incl, parse_subseq, P.
Qed.
Lemma block_eqb_sym b b' : block_eqb b b' = block_eqb b' b.
Proof. apply (ok_sym _ _ _ block_ok). exact block_no_nan. Qed.
Lemma block_eqb_trans b b' b'' : block_eqb b b' = true -> block_eqb b' b'' = true -> block_eqb b b'' = true.
Proof. apply (ok_trans _ _ _ block_ok). Qed.
Lemma block_eqb_iff b b' : block_eqb b b' = true <-> map_block canon b = map_block canon b' /\ no_nan (block_tokens b).
Proof. apply block_ok. Qed.
