(** The ranges of the parts of an AST are nested and in order. *)
From Coq Require Import ZArith Lia Sorted.
From Verif Require Import Lexer Parser StrFacts AstTokens NodeTokens TokIterFacts LexProps LexProps3 ExprGrammar LineTrace EqFacts ParserProps2 Ranges.
Local Open Scope Z_scope.

Definition part_tokens (p : part) : list token :=
  match p with
  | PIdentifier i => identifier_tokens i
  | PAccess v => va_tokens v
  | PExpr e => expr_tokens e
  | PAssignment a => assignment_tokens a
  end.

Lemma part_spans p : spans (part_tokens p) (part_range p).
Proof. destruct p; [apply identifier_spans|apply va_spans|apply expr_spans|apply assignment_spans]. Qed.

(** ** Tokens of the inner parts *)
Lemma subseq_flat_map {A B} (f g : A -> list B) l : (forall x, Subseq (f x) (g x)) ->
  Subseq (flat_map f l) (flat_map g l).
Proof. intros H. induction l; cbn; [constructor|]. apply subseq_app; auto. Qed.
Lemma flat_map_map {A B C} (f : B -> list C) (g : A -> B) l : flat_map f (map g l) = flat_map (fun x => f (g x)) l.
Proof. induction l; cbn; [reflexivity|]. now rewrite IHl. Qed.

Lemma children_tokens p : Subseq (flat_map part_tokens (children p)) (part_tokens p).
Proof.
  destruct p as [i|v|e|a].
  - constructor.
  - cbn [children flat_map part_tokens]. unfold va_tokens. apply subseq_app; [apply subseq_refl|].
    rewrite flat_map_map. apply subseq_flat_map. intros s. apply sub_skip, subseq_refl.
  - destruct e as [l o r an|o e|o es m|[v|t]].
    + cbn. rewrite app_nil_r. apply sub_skip. apply subseq_app; [apply subseq_refl|].
      apply subseq_skip_app, subseq_refl.
    + cbn. rewrite app_nil_r. apply sub_skip, subseq_refl.
    + cbn [children part_tokens expr_tokens]. apply sub_skip. rewrite flat_map_map.
      eapply subseq_trans; [|apply subseq_skip_end]. apply subseq_flat_map.
      intros [e an]. apply subseq_skip_end.
    + cbn. rewrite app_nil_r. apply subseq_refl.
    + constructor.
  - cbn. rewrite app_nil_r. apply subseq_app_same, sub_skip, subseq_refl.
Qed.

Lemma in_flat_subseq {A B} (f : A -> list B) x l : In x l -> Subseq (f x) (flat_map f l).
Proof.
  induction l as [|y l IH]; [intros []|]. intros [->|H]; cbn.
  - apply subseq_skip_end.
  - apply subseq_skip_app, IH, H.
Qed.
Lemma part_of_tokens p q : part_of p q -> Subseq (part_tokens p) (part_tokens q).
Proof.
  induction 1 as [p|p q r _ IH Hin]; [apply subseq_refl|].
  eapply subseq_trans; [exact IH|]. eapply subseq_trans; [|apply children_tokens].
  exact (in_flat_subseq part_tokens q _ Hin).
Qed.

(** ** Tokens of the outermost parts *)
Definition parts_ok (n : node) : Prop := Subseq (flat_map part_tokens (node_parts n)) (node_tokens n).
Lemma block_parts_ok b : all_nodes parts_ok b -> Subseq (flat_map part_tokens (block_parts b)) (block_tokens b).
Proof.
  destruct b as [ns]. unfold all_nodes. cbn [block_nodes block_parts block_tokens].
  induction 1 as [|n ns Hn _ IH]; cbn; [constructor|]. rewrite flat_map_app. apply subseq_app; assumption.
Qed.
Lemma flat_parts {A} (parts : A -> list part) (tks : A -> list token) xs :
  Forall (fun x => Subseq (flat_map part_tokens (parts x)) (tks x)) xs ->
  Subseq (flat_map part_tokens (flat_map parts xs)) (flat_map tks xs).
Proof.
  induction 1 as [|x xs Hx _ IH]; cbn; [constructor|]. rewrite flat_map_app. apply subseq_app; assumption.
Qed.
Lemma map_parts {A} (mk : A -> part) (tks : A -> list token) xs : (forall x, part_tokens (mk x) = tks x) ->
  flat_map part_tokens (map mk xs) = flat_map tks xs.
Proof. intros H. induction xs; cbn; [reflexivity|]. now rewrite H, IHxs. Qed.

Lemma node_parts_tokens n : parts_ok n.
Proof.
  induction n as [t l it c b e Hb|t omgs d Ho Hd|t yes no mebbes Hy Hn Hm|t i params b Hb|n Hn] using node_ind';
    unfold parts_ok.
  - cbn [node_parts im_in_yr_parts node_tokens im_in_yr_tokens]. do 2 apply sub_skip.
    rewrite !flat_map_app. apply subseq_app; [|apply subseq_app].
    + destruct it as [[o v]|]; cbn; [|constructor]. rewrite app_nil_r. apply sub_skip, subseq_refl.
    + destruct c as [[e0|e0]|]; cbn; [| |constructor]; rewrite app_nil_r; apply subseq_refl.
    + eapply subseq_trans; [apply block_parts_ok, Hb|apply subseq_skip_end].
  - cbn [node_parts wtf_parts node_tokens wtf_tokens]. apply sub_skip. rewrite flat_map_app. apply subseq_app.
    + apply flat_parts. revert Ho. apply Forall_impl. intros [t' e b] H.
      cbn [wtf_omg_parts flat_map part_tokens wtf_omg_tokens]. apply sub_skip, subseq_app_same, block_parts_ok, H.
    + destruct d as [[t' b]|]; [|constructor]. cbn [wtf_omg_wtf_parts wtf_omg_wtf_tokens]. apply sub_skip, block_parts_ok, Hd.
  - cbn [node_parts o_rly_parts node_tokens o_rly_tokens]. apply sub_skip. rewrite !flat_map_app.
    apply subseq_app; [|apply subseq_app].
    + destruct yes as [[t' b]|]; [|constructor]. apply sub_skip, block_parts_ok, Hy.
    + apply flat_parts. revert Hm. apply Forall_impl. intros [t' e b] H.
      cbn [mebbe_parts flat_map part_tokens mebbe_tokens]. apply sub_skip, subseq_app_same, block_parts_ok, H.
    + destruct no as [[t' b]|]; [|constructor]. apply sub_skip, block_parts_ok, Hn.
  - cbn [node_parts how_iz_i_parts node_tokens how_iz_i_tokens flat_map part_tokens]. apply sub_skip, subseq_app_same.
    rewrite flat_map_app. rewrite (map_parts PIdentifier identifier_tokens) by reflexivity.
    apply subseq_app_same, block_parts_ok, Hb.
  - destruct n as [[t i v]|x|x|[v i e]|a|[t es x]|[t e]|x|x|[t v es]|x|x|[t v]|x|x|x]; try (exact (False_ind _ Hn));
      cbn [node_parts node_tokens]; try (cbn; constructor; fail).
    + unfold i_has_a_tokens. cbn [flat_map part_tokens ihasa_identifier ihasa_initial_value]. apply sub_skip, subseq_app_same.
      destruct v as [[e|ty]|]; cbn; [|constructor|constructor]. rewrite app_nil_r. apply subseq_refl.
    + unfold set_slot_tokens. cbn. rewrite app_nil_r. apply subseq_refl.
    + cbn. rewrite app_nil_r. apply subseq_refl.
    + unfold visible_tokens. cbn [visible_expressions]. rewrite (map_parts PExpr expr_tokens) by reflexivity.
      apply sub_skip, subseq_skip_end.
    + unfold found_yr_tokens. cbn. rewrite app_nil_r. apply sub_skip, subseq_refl.
    + unfold i_iz_tokens. cbn [flat_map part_tokens iiz_name iiz_arguments]. rewrite (map_parts PExpr expr_tokens) by reflexivity.
      apply sub_skip, subseq_refl.
    + unfold gimmeh_tokens. cbn. rewrite app_nil_r. apply sub_skip, subseq_refl.
    + cbn. rewrite app_nil_r. apply subseq_refl.
Qed.
Lemma block_parts_tokens b : Subseq (flat_map part_tokens (block_parts b)) (block_tokens b).
Proof. apply block_parts_ok. destruct b as [ns]. apply Forall_forall. intros n _. apply node_parts_tokens. Qed.

(** ** Sorted tokens *)
Definition sorted (ts : list token) : Prop :=
  Forall (fun t => bytes (start_of t) < bytes (end_of t)) ts /\
  StronglySorted (fun t u => bytes (end_of t) <= bytes (start_of u)) ts.
Lemma sorted_subseq a b : Subseq a b -> sorted b -> sorted a.
Proof.
  induction 1 as [l|x a b H IH|x a b _ IH]; intros [HF HS].
  - split; constructor.
  - apply Forall_cons_iff in HF as [Hx HF]. apply StronglySorted_inv in HS as [HS Hy].
    destruct (IH (conj HF HS)) as [IF IS].
    split; constructor; auto. apply subseq_incl in H. rewrite Forall_forall in *. auto.
  - apply Forall_cons_iff in HF as [_ HF]. apply StronglySorted_inv in HS as [HS _]. apply IH. split; assumption.
Qed.
Lemma sorted_app_before a b : sorted (a ++ b) -> forall t u, In t a -> In u b -> bytes (end_of t) <= bytes (start_of u).
Proof.
  intros [_ HS]. induction a as [|x a IH]; [intros ? ? []|]. cbn in HS. inversion HS as [|? ? HS' Hx]; subst.
  intros t u [<-|Ht] Hu; [|apply IH; auto]. rewrite Forall_forall in Hx. apply Hx, in_or_app. auto.
Qed.
(** Every token of a sorted list lies in its span. *)
Lemma sorted_span l r t : sorted l -> spans l r -> In t l ->
  bytes (fst r) <= bytes (start_of t) /\ bytes (end_of t) <= bytes (snd r).
Proof.
  intros [HF HS] [(x & l1 & E1 & H1) (y & l2 & E2 & H2)] Hin. rewrite H1, H2. clear H1 H2. split.
  - subst l. destruct Hin as [<-|Hin]; [apply Z.le_refl|].
    pose proof (sorted_app_before [x] l1 (conj HF HS) x t (or_introl eq_refl) Hin).
    inversion HF; subst. unfold start_of, end_of in *. lia.
  - rewrite E2 in *. apply in_app_or in Hin as [Hin|[<-|[]]]; [|apply Z.le_refl].
    pose proof (sorted_app_before l2 [y] (conj HF HS) t y Hin (or_introl eq_refl)).
    rewrite Forall_forall in HF. specialize (HF y (in_or_app l2 [y] y (or_intror (or_introl eq_refl)))).
    unfold start_of, end_of in *. lia.
Qed.
Lemma spans_first l r : spans l r -> exists t, In t l /\ fst r = start_of t.
Proof. intros [(t & rest & -> & H) _]. exists t. split; [left; reflexivity|exact H]. Qed.
Lemma spans_last l r : spans l r -> exists t, In t l /\ snd r = end_of t.
Proof. intros [_ (t & rest & -> & H)]. exists t. split; [apply in_or_app; right; left; reflexivity|exact H]. Qed.
Lemma spans_within a b r s : sorted b -> Subseq a b -> spans a r -> spans b s -> within r s.
Proof.
  intros HS Hsub Ha Hb. apply subseq_incl in Hsub.
  destruct (spans_first _ _ Ha) as (t & Ht & Et). destruct (spans_last _ _ Ha) as (u & Hu & Eu).
  unfold within. rewrite Et, Eu. split.
  - apply (sorted_span b s t); auto.
  - apply (sorted_span b s u); auto.
Qed.
Lemma spans_before a b r s : sorted (a ++ b) -> spans a r -> spans b s -> before r s.
Proof.
  intros HS Ha Hb. destruct (spans_last _ _ Ha) as (t & Ht & Et). destruct (spans_first _ _ Hb) as (u & Hu & Eu).
  unfold before. rewrite Et, Eu. apply (sorted_app_before a b); auto.
Qed.
Lemma parts_ordered ps : sorted (flat_map part_tokens ps) -> ForallOrdPairs before (map part_range ps).
Proof.
  induction ps as [|p ps IH]; [constructor|]. cbn [flat_map map]. intros H. constructor.
  - apply Forall_map, Forall_forall. intros q Hq. apply (spans_before (part_tokens p) (part_tokens q)).
    + eapply sorted_subseq; [|exact H]. apply subseq_app_same, in_flat_subseq, Hq.
    + apply part_spans.
    + apply part_spans.
  - apply IH. eapply sorted_subseq; [|exact H]. apply subseq_skip_app, subseq_refl.
Qed.

(** ** ASTs of sources *)
Section Source.
Variables (code : str) (ts : list token) (b : block).
Hypothesis Etok : tokenize code = LexOk ts.
Hypothesis Eparse : Parser.parse ts = Parser.ParseOk b.

Lemma source_sorted : sorted ts.
Proof.
  destruct (tokenize_lossless code ts Etok) as (HF & HS & _). split; [|exact HS].
  revert HF. apply Forall_impl. tauto.
Qed.
Lemma parts_subseq : Subseq (flat_map part_tokens (block_parts b)) ts.
Proof. eapply subseq_trans; [apply block_parts_tokens|exact (parse_subseq ts b Eparse)]. Qed.
Lemma part_subseq p q : In q (block_parts b) -> part_of p q -> Subseq (part_tokens p) ts.
Proof.
  intros Hin Hp. eapply subseq_trans; [apply part_of_tokens, Hp|].
  eapply subseq_trans; [|exact parts_subseq]. apply in_flat_subseq, Hin.
Qed.

Lemma source_parts_ordered : ForallOrdPairs before (map part_range (block_parts b)).
Proof. apply parts_ordered. eapply sorted_subseq; [exact parts_subseq|exact source_sorted]. Qed.

Lemma source_nested p q : In q (block_parts b) -> part_of p q ->
  Forall (fun c => within (part_range c) (part_range p)) (children p) /\
  ForallOrdPairs before (map part_range (children p)).
Proof.
  intros Hin Hp. pose proof (part_subseq p q Hin Hp) as Hs.
  pose proof (sorted_subseq _ _ Hs source_sorted) as HS. split.
  - apply Forall_forall. intros c Hc. apply (spans_within (part_tokens c) (part_tokens p)); auto using part_spans.
    eapply subseq_trans; [|apply children_tokens]. apply in_flat_subseq, Hc.
  - apply parts_ordered. eapply sorted_subseq; [apply children_tokens|exact HS].
Qed.
Lemma source_within p q r : In r (block_parts b) -> part_of q r -> part_of p q -> within (part_range p) (part_range q).
Proof.
  intros Hin Hq Hp. apply (spans_within (part_tokens p) (part_tokens q)); auto using part_spans, part_of_tokens.
  eapply sorted_subseq; [apply (part_subseq q r); assumption|exact source_sorted].
Qed.

Lemma app_cut (a b' c d : str) : a ++ b' = c ++ d -> (byte_len a <= byte_len c)%nat -> exists m, c = a ++ m.
Proof.
  revert c. induction a as [|x a IH]; intros c E H; [exists c; reflexivity|].
  destruct c as [|y c].
  - exfalso. cbn in H. pose proof (utf8_len_pos x). lia.
  - cbn in E. injection E as <- E. destruct (IH c E) as (m & ->); [cbn in H; lia|]. exists m. reflexivity.
Qed.

Lemma source_covers p q : In q (block_parts b) -> part_of p q ->
  exists x raw y, covers (part_range p) code x raw y.
Proof.
  intros Hin Hp. pose proof (part_subseq p q Hin Hp) as Hs.
  pose proof (sorted_subseq _ _ Hs source_sorted) as HS. pose proof (subseq_incl _ _ Hs) as Hi.
  pose proof (part_spans p) as Hsp.
  destruct (spans_first _ _ Hsp) as (t & Ht & Et). destruct (spans_last _ _ Hsp) as (u & Hu & Eu).
  destruct (token_offsets code ts t Etok (Hi _ Ht)) as (a & raw & b1 & E1 & Hne & _ & B1 & C1 & B2 & C2).
  destruct (token_offsets code ts u Etok (Hi _ Hu)) as (a' & raw' & b2 & E2 & Hne' & _ & B3 & C3 & B4 & C4).
  pose proof (proj2 (sorted_span _ _ t HS Hsp Ht)) as Hle. rewrite Eu in Hle.
  destruct (app_cut a (raw ++ b1) (a' ++ raw') b2) as (m & Em).
  - rewrite <- app_assoc. congruence.
  - rewrite byte_len_app in *. lia.
  - exists a, m, b2. unfold covers. rewrite Et, Eu, <- Em. splits; auto.
    + rewrite E2, app_assoc, Em, <- app_assoc. reflexivity.
    + intros ->. rewrite app_nil_r in Em. rewrite Em in B4.
      assert (Hl : (0 < byte_len raw)%nat).
      { destruct raw as [|c r]; [congruence|]. cbn. pose proof (utf8_len_pos c). lia. }
      rewrite byte_len_app in B2. lia.
Qed.
End Source.
