(** Proofs for C79. *)
From Coq Require Import String Lia.
From Verif Require Import Lexer Lines Parser Grammar Clean ExprGrammar LineGrammar ProgGrammar ProgComplete ParseFuel StrFacts LexPropSpec LexProofs LexProps FormatProofs.
From Verif Require Export Vocabulary.

Definition known (t : token) : Prop := vocabulary (tok_type t).
Definition known_line (l : list token) : Prop := Forall known l.

Lemma known_app a b : known_line (a ++ b) <-> known_line a /\ known_line b.
Proof. apply Forall_app. Qed.
Lemma known_cons a b : known_line (a :: b) <-> known a /\ known_line b.
Proof. split; [intros H; inversion H; auto|intros [H1 H2]; constructor; auto]. Qed.
Lemma known_nil : known_line [].
Proof. constructor. Qed.
Lemma kw_known k t : kw k t -> vocabulary (TKeyword k) -> known t.
Proof. unfold kw, known. intros ->. auto. Qed.
Lemma kw_dec k : existsb (keyword_eqb k) [BTW; OBTW; TLDR; WIN; FAIL; MAEK; IS_NOW; A] = false -> vocabulary (TKeyword k).
Proof.
  intros H Hi. assert (existsb (keyword_eqb k) [BTW; OBTW; TLDR; WIN; FAIL; MAEK; IS_NOW; A] = true); [|congruence].
  apply existsb_exists. exists k. split; [exact Hi|]. unfold keyword_eqb. destruct (keyword_eq_dec k k); congruence.
Qed.
Lemma ident_known t : ident_tok t -> known t.
Proof. intros [s H]. unfold known. rewrite H. exact I. Qed.
Lemma value_known t : value_tok t -> known t.
Proof. intros [s H]. unfold known. rewrite H. exact I. Qed.
Lemma slot_known t : slot_tok t -> known t.
Proof. unfold slot_tok, known. intros ->. exact I. Qed.
Lemma question_known t : question_tok t -> known t.
Proof. unfold question_tok, known. intros ->. reflexivity. Qed.
Lemma exclamation_known t : exclamation_tok t -> known t.
Proof. unfold exclamation_tok, known. intros ->. exact I. Qed.
Lemma binary_known k op t : binary_operator k op -> kw k t -> known t.
Proof. intros H Hk. apply (kw_known _ _ Hk), kw_dec. destruct H; reflexivity. Qed.
Lemma nary_known k op t : nary_operator k op -> kw k t -> known t.
Proof. intros H Hk. apply (kw_known _ _ Hk), kw_dec. destruct H; reflexivity. Qed.
#[local] Hint Resolve known_nil ident_known value_known slot_known question_known exclamation_known binary_known nary_known : kn.
Ltac kws := repeat match goal with H : kw ?k ?t |- _ => apply kw_known in H; [|apply kw_dec; reflexivity] end.
Ltac kn := kws; repeat first [rewrite known_app|rewrite known_cons]; repeat split; eauto with kn.

Lemma kn_opt ts o : d_opt AN ts o -> known_line ts.
Proof. intros H; inversion H; subst; kn. Qed.
Lemma kn_identifier ts i : d_identifier ts i -> known_line ts.
Proof. intros H; destruct H; kn. Qed.
#[local] Hint Resolve kn_opt kn_identifier : kn.
Lemma kn_slots ts i : d_slots ts i -> known_line ts.
Proof. induction 1; kn. Qed.
#[local] Hint Resolve kn_slots : kn.
Lemma kn_va ts i : d_va ts i -> known_line ts.
Proof. intros H; destruct H; kn. Qed.
#[local] Hint Resolve kn_va : kn.
Lemma kn_expr_mut : (forall o ts e, d_expr o ts e -> known_line ts) /\ (forall ts es, d_operands ts es -> known_line ts).
Proof.
  apply d_expr_mut; intros; try (kn; fail);
    repeat match goal with H : kw MKAY _ |- _ => apply kw_known in H; [|apply kw_dec; reflexivity] end;
    repeat first [rewrite known_app|rewrite known_cons]; repeat split; eauto with kn.
Qed.
Lemma kn_expr o ts e : d_expr o ts e -> known_line ts.
Proof. apply kn_expr_mut. Qed.
Lemma kn_type t ty : d_type t ty -> known t.
Proof. intros H; destruct H; kn. Qed.
#[local] Hint Resolve kn_expr kn_type : kn.
Lemma kn_initial ts i : d_initial ts i -> known_line ts.
Proof. intros H; destruct H; kn. Qed.
Lemma kn_exprs o ts es : d_exprs o ts es -> known_line ts.
Proof. induction 1; kn. Qed.
Lemma kn_args ts es : d_args ts es -> known_line ts.
Proof. induction 1; kn. Qed.
Lemma kn_params ts es : d_params ts es -> known_line ts.
Proof. induction 1; kn. Qed.
#[local] Hint Resolve kn_initial kn_exprs kn_args kn_params : kn.
Lemma kn_line l n : d_line l n -> known_line l.
Proof. intros H; destruct H; kn. Qed.
Lemma kn_iteration ts i : d_iteration ts i -> known_line ts.
Proof. intros H; destruct H; kn. Qed.
Lemma kn_condition ts i : d_condition ts i -> known_line ts.
Proof. intros H; destruct H; kn. Qed.
#[local] Hint Resolve kn_line kn_iteration kn_condition : kn.

Definition known_or_hai (l : list token) : Prop := known_line l \/ exists h v, l = h :: v /\ kw HAI h.
Lemma kh_kn l : known_line l -> known_or_hai l.
Proof. left. assumption. Qed.
Lemma kh_cons a b : Forall known_or_hai (a :: b) <-> known_or_hai a /\ Forall known_or_hai b.
Proof. split; [intros H; inversion H; auto|intros [H1 H2]; constructor; auto]. Qed.
#[local] Hint Resolve kh_kn Forall_nil : kn.
Ltac kh := kws; repeat first [rewrite Forall_app|rewrite kh_cons]; repeat split; eauto with kn; apply kh_kn; kn.
Lemma kh_mut :
  (forall L n, d_stmt L n -> Forall known_or_hai L) /\ (forall L ns, d_block L ns -> Forall known_or_hai L) /\
  (forall L ns, d_stmts L ns -> Forall known_or_hai L) /\ (forall L os, d_omgs L os -> Forall known_or_hai L) /\
  (forall L d, d_default L d -> Forall known_or_hai L) /\ (forall L d, d_ya_rly L d -> Forall known_or_hai L) /\
  (forall L ms, d_mebbes L ms -> Forall known_or_hai L) /\ (forall L d, d_no_wai L d -> Forall known_or_hai L).
Proof.
  apply d_stmt_mut; intros; try (kh; fail).
  rewrite !kh_cons. repeat split; eauto with kn. right. eauto.
Qed.

Theorem clean_vocabulary ts ns l t : parse ts = ParseOk (ASTBlock ns) -> forallb node_clean ns = true ->
  Forall (fun l => l <> []) (logical_lines ts) -> In l (logical_lines ts) -> In t l ->
  vocabulary (tok_type t) \/ exists h v, l = h :: v /\ kw HAI h.
Proof.
  rewrite parse_logical_lines. intros E C N Hl Ht. destruct (proj1 (program_iff _ _) (conj E C)) as (k & bl & rest & EL & D).
  apply kh_mut in D.
  assert (Hin : In l bl).
  { assert (E' : exists m, bl = logical_lines ts ++ m).
    { clear -EL N. revert bl EL. induction N as [|x ls Hx N IH]; intros bl EL; [exists bl; reflexivity|].
      destruct bl as [|y bl]; cbn [app] in EL; [injection EL as EL _; contradiction|].
      injection EL as <- EL. destruct (IH _ EL) as [m ->]. exists m. reflexivity. }
    destruct E' as [m ->]. apply in_or_app. auto. }
  rewrite Forall_forall in D. destruct (D _ Hin) as [H|H]; [left|right; exact H].
  unfold known_line in H. rewrite Forall_forall in H. exact (H _ Ht).
Qed.

(** ** Characters *)
Lemma lit_plain s : forallb (fun c => (N.leb 65 c && N.leb c 90) || existsb (N.eqb c) (lit "+-.',!? ")) (lit s) = true ->
  forall c, In c (lit s) -> plain_char c.
Proof.
  intros H c Hc. rewrite forallb_forall in H. specialize (H c Hc). apply orb_true_iff in H as [H|H].
  - apply andb_true_iff in H as [H1 H2]. apply N.leb_le in H1, H2. left. unfold letter. lia.
  - apply existsb_exists in H as (d & Hd & E). apply N.eqb_eq in E. subst d.
    change (lit "+-.',!? ") with (lit "+-.',!?" ++ lit " ") in Hd. apply in_app_or in Hd as [Hd|[<-|[]]].
    + right. right. right. exact Hd.
    + right. right. left. left. reflexivity.
Qed.
Lemma text_plain raw rest ty c : TokText raw rest ty -> In c raw ->
  (vocabulary ty \/ ty = TComma \/ ty = TEllipsis) -> plain_char c \/ exists s, ty = TValue (VString s).
Proof.
  intros HT Hc Hv.
  destruct HT as [r1|r1|s r1 Hs Hr|s r1 Hf|r1|r1|r1|r1|r1
    |k r1 Hk Hmax|raw r1 n Hn|body after s d r1 Hb E Hlen Hd|s Ho|raw r1 Hn Hll Hr Hk
    |d r1 Hd Hnw Hll Hin Hz He Hn]; try (left; refine (lit_plain _ _ _ Hc); reflexivity).
  - destruct Hv as [[]|[H|H]]; discriminate H.
  - destruct Hv as [[]|[H|H]]; discriminate H.
  - left. unfold spelling in Hc. refine (lit_plain _ _ _ Hc). destruct k; reflexivity.
  - left. destruct (LexProps2.number_chars _ _ _ _ Hn Hc) as [H|[H|[H|H]]].
    all: unfold plain_char; cbn; unfold digit, dot in *; auto 10.
  - right. eexists. reflexivity.
  - right. eexists. reflexivity.
  - left. left. rewrite Forall_forall in Hll. exact (Hll _ Hc).
  - left. destruct Hv as [Hv|[H|H]]; try discriminate H. cbn [vocabulary] in Hv. rewrite Hv in Hc.
    refine (lit_plain _ _ _ Hc). reflexivity.
Qed.

Lemma in_the_token (code a b x raw y : str) (c : char) : code = a ++ c :: b -> code = x ++ raw ++ y ->
  (byte_len x <= byte_len a)%nat -> (byte_len a + utf8_len c <= byte_len (x ++ raw))%nat -> In c raw.
Proof.
  intros E1 E2 H1 H2. rewrite E1 in E2. clear E1.
  assert (Hx : prefix_of x a).
  { destruct (Nat.le_gt_cases (length x) (length a)) as [Hl|Hl].
    - apply (LexBasics.prefix_nested _ _ (a ++ c :: b)); [eexists; exact E2|eexists; reflexivity|exact Hl].
    - destruct (LexBasics.prefix_nested a x (a ++ c :: b)) as [u Hu]; [eexists; reflexivity|eexists; exact E2|lia|].
      rewrite Hu, byte_len_app in H1. destruct u as [|d u]; [rewrite Hu, app_nil_r in Hl; lia|].
      pose proof (byte_len_nonempty (d :: u) ltac:(discriminate)). lia. }
  destruct Hx as [a' ->]. rewrite <- app_assoc in E2. apply app_inv_head in E2.
  rewrite !byte_len_app in H2. assert (H3 : (byte_len (a' ++ [c]) <= byte_len raw)%nat) by (rewrite byte_len_app; cbn [byte_len]; lia).
  assert (Hp : prefix_of (a' ++ [c]) raw).
  { destruct (Nat.le_gt_cases (length (a' ++ [c])) (length raw)) as [Hl|Hl].
    - apply (LexBasics.prefix_nested _ _ (a' ++ c :: b)); [exists b; rewrite <- app_assoc; reflexivity|eexists; exact E2|exact Hl].
    - destruct (LexBasics.prefix_nested raw (a' ++ [c]) (a' ++ c :: b)) as [u Hu];
        [eexists; exact E2|exists b; rewrite <- app_assoc; reflexivity|lia|].
      rewrite Hu, byte_len_app in H3. destruct u as [|d u]; [rewrite app_nil_r in Hu; exists []; rewrite app_nil_r; symmetry; exact Hu|].
      pose proof (byte_len_nonempty (d :: u) ltac:(discriminate)). lia. }
  destruct Hp as [r ->]. apply in_or_app. left. apply in_or_app. right. left. reflexivity.
Qed.

Theorem clean_chars code ts ns (a : str) c (b : str) : tokenize code = LexOk ts -> parse ts = ParseOk (ASTBlock ns) ->
  forallb node_clean ns = true -> Forall (fun l => l <> []) (logical_lines ts) -> code = a ++ c :: b ->
  plain_char c \/
  exists t, In t ts /\ (bytes (start_of t) <= Z.of_nat (byte_len a) < bytes (end_of t))%Z /\
    ((exists s, tok_type t = TValue (VString s)) \/ exists h v, In (h :: v) (logical_lines ts) /\ kw HAI h /\ In t (h :: v)).
Proof.
  intros E P C N Ec. destruct (tokenize_lossless _ _ E) as (_ & _ & Hcov).
  destruct (Hcov a c b Ec) as [Hw|(t & Hi & Hs & He)]; [left; right; right; left; exact Hw|].
  apply tokenize_ok_iff in E as (ps & HL & Ets). pose proof Hi as Hi'. rewrite Ets in Hi'.
  destruct (token_facts _ _ _ _ HL Hi') as (ps1 & raw & ps2 & _ & _ & HT & _ & (Ecode & Es & Ee) & _).
  assert (Hin : In c raw).
  { eapply in_the_token; [exact Ec|exact Ecode| |]; [rewrite Es in Hs; lia|rewrite Ee in He; lia]. }
  assert (Hrange : (bytes (start_of t) <= Z.of_nat (byte_len a) < bytes (end_of t))%Z).
  { pose proof (utf8_len_pos c). lia. }
  destruct (FormatProofs.on_line t) eqn:Eon.
  - assert (Hl : In t (concat (logical_lines ts))) by (rewrite lines_tokens; apply filter_In; auto).
    apply in_concat in Hl as (l & Hl & Htl).
    destruct (clean_vocabulary _ _ _ _ P C N Hl Htl) as [Hv|(h & v & -> & Hh)].
    + destruct (text_plain _ _ _ _ HT Hin (or_introl Hv)) as [Hp|Hst]; [left; exact Hp|].
      right. exists t. auto.
    + right. exists t. split; [exact Hi|]. split; [exact Hrange|]. right. exists h, v. auto.
  - assert (Hty : tok_type t = TComma \/ tok_type t = TEllipsis).
    { unfold FormatProofs.on_line, is_comma, is_ellipsis in Eon. destruct (tok_type t); cbn in Eon; try discriminate Eon; auto. }
    destruct (text_plain _ _ _ _ HT Hin (or_intror Hty)) as [Hp|[s Hst]]; [left; exact Hp|].
    exfalso. destruct Hty; congruence.
Qed.
