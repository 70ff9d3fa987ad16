(** The lines of an AST are grammatical and parse to it. *)
From Coq Require Import Lia.
From Verif Require Import Parser ExprGrammar EqFacts RelabelTokens Clean ProgComplete RecoveryProps Recovery LinesSim
  Shape ShapeProofs Unparse.

(** ** Derivations of the pieces *)
Lemma kw_word k : kw k (word k).
Proof. reflexivity. Qed.
Lemma question_word : question_tok question.
Proof. reflexivity. Qed.

Lemma unparse_initial_ok i : initial_shape i -> d_initial (unparse_initial i) i.
Proof.
  destruct i as [[e|ty]|]; cbn [initial_shape unparse_initial].
  - intros [He Hn]. eapply d_initial_expr; [apply kw_word|apply expr_iff; split; [reflexivity|split; [exact He|reflexivity]]|].
    intros t Et Hk. apply (Hn t); [|exact Hk]. clear Hn.
    assert (HD : d_expr (unclosed e) [t] e) by (apply expr_iff; auto). revert HD Et Hk. generalize (unclosed e).
    intros o HD Et Hk. inversion HD; subst; try reflexivity.
    + match goal with H : d_va _ _ |- _ => apply va_iff in H as [E [[Hi Hs] _]] end.
      destruct v as [[n [s|]] sl]; cbn in E, Hi, Hs; injection E as <- E.
      * destruct (kw_fun _ _ _ Hk Hs) as []; discriminate.
      * destruct (kw_ident _ _ Hk Hi).
    + match goal with H : kw k _, B : binary_operator k _ |- _ => pose proof (kw_fun _ _ _ Hk H) as <-; inversion B end.
    + match goal with H : kw Keywords.NOT _ |- _ => pose proof (kw_fun _ _ _ Hk H); discriminate end.
    + match goal with H : kw k _, B : nary_operator k _ |- _ => pose proof (kw_fun _ _ _ Hk H) as <-; inversion B end.
    + match goal with H : kw k _, B : nary_operator k _ |- _ => pose proof (kw_fun _ _ _ Hk H) as <-; inversion B end.
    + match goal with H : kw k _, B : nary_operator k _ |- _ => pose proof (kw_fun _ _ _ Hk H) as <-; inversion B end.
  - intros H. apply d_initial_type; [apply kw_word|]. apply type_iff. auto.
  - intros _. constructor.
Qed.
Lemma unparse_exprs_ok es : exprs_shape es -> exists o, d_exprs o (flat_map expr_tokens es) es.
Proof.
  induction es as [|e es IH]; [exists false; constructor|]. cbn [exprs_shape flat_map]. intros (He & Hu & Hes).
  destruct (IH Hes) as (o & HD). destruct es as [|e' es'].
  - exists (unclosed e). cbn. rewrite app_nil_r. apply d_exprs_last, expr_iff. auto.
  - exists o. apply d_exprs_cons; [|exact HD|discriminate]. apply expr_iff. splits; auto.
    destruct (unclosed e); [discriminate (Hu eq_refl)|reflexivity].
Qed.
Lemma unparse_closed_ok es : closed_exprs es -> d_exprs false (flat_map expr_tokens es) es.
Proof.
  induction 1 as [|e es [He Hu] Hes IH]; [constructor|]. cbn [flat_map].
  destruct es as [|e' es'].
  - cbn. rewrite app_nil_r. apply d_exprs_last, expr_iff. auto.
  - apply d_exprs_cons; [|exact IH|discriminate]. apply expr_iff. auto.
Qed.
Lemma unparse_args_ok es : closed_exprs es -> d_args (unparse_list (map expr_tokens es)) es.
Proof.
  induction 1 as [|e es [He Hu] Hes IH]; [constructor|]. destruct es as [|e' es'].
  - apply d_args_last; [apply kw_word|]. apply expr_iff. auto.
  - cbn [map unparse_list]. apply d_args_cons; [apply kw_word| |apply kw_word|exact IH]. apply expr_iff. auto.
Qed.
Lemma unparse_params_ok is : Forall identifier_shape is -> d_params (unparse_list (map identifier_tokens is)) is.
Proof.
  induction 1 as [|i is Hi His IH]; [constructor|]. destruct is as [|i' is'].
  - apply d_params_last; [apply kw_word|]. apply identifier_iff. auto.
  - cbn [map unparse_list]. apply d_params_cons; [apply kw_word| |apply kw_word|exact IH]. apply identifier_iff. auto.
Qed.
Lemma unparse_iteration_ok it : iteration_shape it -> d_iteration (unparse_iteration it) it.
Proof.
  destruct it as [[[t|t] v]|]; cbn; intros H; [destruct H as [Hk Hv]|destruct H as [Hk Hv]|constructor];
    constructor; auto using kw_word; apply va_iff; auto.
Qed.
Lemma unparse_condition_ok c : condition_shape c -> d_condition (unparse_condition c) c.
Proof.
  destruct c as [[e|e]|]; cbn; intros H; [eapply d_til|eapply d_wile|constructor]; try apply kw_word; apply expr_iff; auto.
Qed.

(** ** Statements *)
Definition unparses (n : node) : Prop := node_shape n -> node_clean n = true -> d_stmt (unparse n) n.
Lemma unparse_stmts_ok ns : Forall unparses ns -> Forall node_shape ns -> forallb node_clean ns = true ->
  d_stmts (flat_map unparse ns) ns.
Proof.
  induction 1 as [|n ns Hn _ IH]; intros HS HC; [constructor|]. apply Forall_cons_iff in HS as [H1 HS].
  cbn in HC. apply andb_prop in HC as [H2 HC]. cbn [flat_map]. constructor; auto.
Qed.
Lemma unparse_block_ok ns : all_nodes unparses (ASTBlock ns) -> block_shape (ASTBlock ns) -> block_clean (ASTBlock ns) = true ->
  d_block (unparse_block (ASTBlock ns)) ns.
Proof.
  intros HA HS HC. apply block_shape_eq in HS. change (forallb node_clean ns = true) in HC.
  pose proof (unparse_stmts_ok ns HA HS HC) as HD. destruct ns as [|n ns].
  - apply (d_block_empty_line [] [] HD).
  - apply d_block_stmts; [exact HD|discriminate].
Qed.

Lemma unparse_ok n : unparses n.
Proof.
  induction n as [t l it c [b] e Hb|t omgs d Ho Hd|t yes no mebbes Hy Hn Hm|t i params [b] Hb|n Hn] using node_ind';
    intros HS HC.
  - cbn [node_shape im_in_yr_shape] in HS. destruct HS as (H1 & H2 & H3 & H4 & H5 & H6).
    cbn [node_clean im_in_yr_clean] in HC. cbn [unparse unparse_im_in_yr].
    apply d_loop; auto using unparse_iteration_ok, unparse_condition_ok, kw_word, unparse_block_ok.
  - cbn [node_shape wtf_shape] in HS. rewrite omgs_shape_eq in HS. destruct HS as (H1 & H2 & H3).
    cbn [node_clean wtf_clean] in HC. apply andb_prop in HC as [C1 C2]. cbn [unparse unparse_wtf].
    apply d_wtf; auto using question_word, kw_word.
    + induction Ho as [|[u e [b]] omgs Hb Hbs IH]; [constructor|].
      apply Forall_cons_iff in H2 as [(H21 & H22 & H23) H2]. cbn in C1. apply andb_prop in C1 as [C11 C1].
      cbn [flat_map unparse_omg]. rewrite <- app_comm_cons. eapply d_omgs_cons; auto.
      * apply expr_iff. auto.
      * apply unparse_block_ok; assumption.
    + destruct d as [[u [b]]|]; [|constructor]. destruct H3 as [H31 H32]. cbn [unparse_omg_wtf].
      constructor; [exact H31|]. apply unparse_block_ok; assumption.
  - cbn [node_shape o_rly_shape] in HS. rewrite mebbes_shape_eq in HS. destruct HS as (H1 & H2 & H3 & H4).
    cbn [node_clean o_rly_clean] in HC. apply andb_prop in HC as [C1 C3]. apply andb_prop in C1 as [C1 C2].
    cbn [unparse unparse_o_rly]. apply d_o_rly; auto using question_word, kw_word.
    + destruct yes as [[u [b]]|]; [|constructor]. destruct H2 as [H21 H22]. cbn [unparse_ya_rly].
      constructor; [exact H21|]. apply unparse_block_ok; assumption.
    + induction Hm as [|[u e [b]] ms Hb Hbs IH]; [constructor|].
      apply Forall_cons_iff in H4 as [(H41 & H42 & H43) H4]. cbn in C3. apply andb_prop in C3 as [C31 C3].
      cbn [flat_map unparse_mebbe]. rewrite <- app_comm_cons. eapply d_mebbes_cons; auto.
      * apply expr_iff. auto.
      * apply unparse_block_ok; assumption.
    + destruct no as [[u [b]]|]; [|constructor]. destruct H3 as [H31 H32]. cbn [unparse_no_wai].
      constructor; [exact H31|]. apply unparse_block_ok; assumption.
  - cbn [node_shape how_iz_i_shape] in HS. destruct HS as (H1 & H2 & H3 & H4).
    cbn [node_clean how_iz_i_clean] in HC. cbn [unparse unparse_how_iz_i].
    apply d_function; auto using unparse_params_ok, kw_word, unparse_block_ok. apply identifier_iff. auto.
  - destruct n as [[t i v]|[t v]|x|[v i e]|[v e r]|[t es [x|]]|[t e]|x|x|[t v es]|x|[t]|[t v]|e|x|[t]];
      try (exact (False_ind _ Hn)); try discriminate HC; cbn [node_shape] in HS; cbn in HS; cbn [unparse].
    + destruct HS as (H1 & H2 & H3). apply d_single. apply d_i_has_a; auto using unparse_initial_ok.
      apply identifier_iff. auto.
    + apply d_hai, HS.
    + destruct HS as (H1 & H2 & H3). apply d_single. cbn.
      eapply d_set_slot; auto using kw_word; [apply va_iff|apply identifier_iff|apply expr_iff]; auto.
    + destruct HS as (H1 & H2 & H3). apply d_single. unfold assignment_tokens. cbn.
      eapply d_assignment; auto; [apply va_iff|apply expr_iff]; auto.
    + destruct HS as (H1 & H2 & H3). apply d_single. unfold visible_tokens. cbn.
      apply d_visible_bang; auto using unparse_closed_ok.
    + destruct HS as (H1 & H2). apply d_single. unfold visible_tokens. cbn. rewrite app_nil_r.
      destruct (unparse_exprs_ok es H2) as (o & HD). eapply d_visible; eassumption.
    + destruct HS as (H1 & H2). apply d_single. unfold found_yr_tokens. cbn. eapply d_found_yr; auto. apply expr_iff. auto.
    + destruct HS as (H1 & H2 & H3). apply d_single. cbn. apply d_i_iz; auto using unparse_args_ok, kw_word. apply va_iff. auto.
    + apply d_single. cbn. apply d_gtfo, HS.
    + destruct HS as (H1 & H2). apply d_single. unfold gimmeh_tokens. cbn. apply d_gimmeh; auto. apply va_iff. auto.
    + apply d_single. eapply d_expression, expr_iff. auto.
    + apply d_single. cbn. apply d_kthxbye, HS.
Qed.

(** ** Programs *)
Definition unparse_nodes (ns : list node) : list (list token) := unparse_block (ASTBlock ns).
Lemma unparse_program ns : Forall node_shape ns -> forallb node_clean ns = true -> d_program (unparse_nodes ns) ns.
Proof.
  intros HS HC. exists 1, (unparse_nodes ns), []. split; [reflexivity|]. apply unparse_block_ok.
  - apply Forall_forall. intros n _. apply unparse_ok.
  - apply block_shape_eq, HS.
  - exact HC.
Qed.
Theorem image_iff ns : (exists ls, d_program ls ns) <-> Forall node_shape ns /\ forallb node_clean ns = true.
Proof.
  split.
  - intros (ls & H). apply program_iff in H as [E HC]. split; [|exact HC]. apply logical_nodes in E as (p & E).
    exact (proj1 (proj2 r_shape) _ _ _ E).
  - intros [HS HC]. exists (unparse_nodes ns). apply unparse_program; assumption.
Qed.

(** ** The tokens of the lines *)
Definition made_up : list token :=
  question :: map word [ITZ; YR; AN; TIL; WILE; HAS_A; IM_OUTTA_YR; OIC; IF_U_SAY_SO; MKAY].
Section Tokens.
Variable Q : token -> Prop.
Hypothesis HQ : Forall Q made_up.
Lemma Q_word k : In (word k) made_up -> Q (word k).
Proof. rewrite Forall_forall in HQ. apply HQ. Qed.
Ltac wd := apply Q_word; cbn; tauto.
Lemma Q_question : Q question.
Proof. apply Forall_inv in HQ. exact HQ. Qed.
Lemma Q_list l : Forall Q (concat l) -> Forall Q (unparse_list l).
Proof.
  induction l as [|x l IH]; [constructor|]. cbn [concat]. rewrite Forall_app. intros [Hx Hl]. destruct l as [|y l].
  - cbn. constructor; [wd|exact Hx].
  - cbn [unparse_list]. constructor; [wd|]. apply Forall_app. split; [exact Hx|]. constructor; [wd|]. apply IH, Hl.
Qed.
Lemma Q_flat {A} (f : A -> list token) l : Forall Q (flat_map f l) -> Forall Q (concat (map f l)).
Proof. rewrite flat_map_concat_map. auto. Qed.
Lemma Q_initial i : Forall Q (initial_tokens i) -> Forall Q (unparse_initial i).
Proof. destruct i as [[e|ty]|]; cbn; intros H; [| |constructor]; constructor; try wd; exact H. Qed.
Lemma Q_iteration i : Forall Q (iteration_tokens i) -> Forall Q (unparse_iteration i).
Proof.
  destruct i as [i|]; cbn; intros H; [|constructor]. apply Forall_cons_iff in H as [H1 H2].
  constructor; [exact H1|]. constructor; [wd|exact H2].
Qed.
Lemma Q_condition i : Forall Q (condition_tokens i) -> Forall Q (unparse_condition i).
Proof. destruct i as [[e|e]|]; cbn; intros H; [| |constructor]; constructor; try wd; exact H. Qed.

Definition lines_ok (n : node) : Prop := Forall Q (node_tokens n) -> Forall (Forall Q) (unparse n).
Lemma Q_block b : all_nodes lines_ok b -> Forall Q (block_tokens b) -> Forall (Forall Q) (unparse_block b).
Proof.
  destruct b as [ns]. unfold all_nodes. cbn [block_nodes block_tokens]. intros HA HT.
  assert (H : Forall (Forall Q) (flat_map unparse ns)).
  { revert HT. induction HA as [|n ns Hn _ IH]; cbn; [constructor|]. rewrite !Forall_app. intros [H1 H2]. auto. }
  destruct ns; [|exact H]. constructor; constructor.
Qed.
Lemma Q_lines n : lines_ok n.
Proof.
  induction n as [t l it c b e Hb|t omgs d Ho Hd|t yes no mebbes Hy Hn Hm|t i params b Hb|n Hn] using node_ind';
    unfold lines_ok; intros HT.
  - cbn [node_tokens im_in_yr_tokens] in HT. rewrite !Forall_cons_iff, !Forall_app, Forall_cons_iff in HT.
    destruct HT as (H1 & H2 & H3 & H4 & H5 & H6 & _). cbn [unparse unparse_im_in_yr].
    constructor; [|apply Forall_app; split].
    + constructor; [exact H1|]. constructor; [exact H2|]. apply Forall_app. auto using Q_iteration, Q_condition.
    + apply Q_block; assumption.
    + constructor; [|constructor]. constructor; [wd|]. constructor; [exact H6|constructor].
  - cbn [node_tokens wtf_tokens] in HT. rewrite Forall_cons_iff, Forall_app in HT. destruct HT as (H1 & H2 & H3).
    cbn [unparse unparse_wtf]. constructor; [|apply Forall_app; split; [|apply Forall_app; split]].
    + constructor; [exact H1|]. constructor; [exact Q_question|constructor].
    + revert H2. induction Ho as [|[u e b] omgs Hb Hbs IH]; [constructor|]. cbn [flat_map wtf_omg_tokens unparse_omg].
      rewrite <- app_comm_cons, Forall_cons_iff, !Forall_app. intros (G1 & (G2 & G3) & G4).
      split; [|apply IH, G4]. constructor; [constructor; assumption|apply Q_block; assumption].
    + destruct d as [[u b]|]; [|constructor]. cbn [wtf_omg_wtf_tokens unparse_omg_wtf] in *. apply Forall_cons_iff in H3 as [H31 H32].
      constructor; [constructor; [exact H31|constructor]|apply Q_block; assumption].
    + constructor; [constructor; [wd|constructor]|]. constructor; constructor.
  - cbn [node_tokens o_rly_tokens] in HT. rewrite Forall_cons_iff, !Forall_app in HT. destruct HT as (H1 & H2 & H3 & H4).
    cbn [unparse unparse_o_rly]. constructor; [|apply Forall_app; split; [|apply Forall_app; split; [|apply Forall_app; split]]].
    + constructor; [exact H1|]. constructor; [exact Q_question|constructor].
    + destruct yes as [[u b]|]; [|constructor]. cbn [ya_rly_tokens unparse_ya_rly] in *. apply Forall_cons_iff in H2 as [H21 H22].
      constructor; [constructor; [exact H21|constructor]|apply Q_block; assumption].
    + revert H3. induction Hm as [|[u e b] ms Hb Hbs IH]; [constructor|]. cbn [flat_map mebbe_tokens unparse_mebbe].
      rewrite <- app_comm_cons, Forall_cons_iff, !Forall_app. intros (G1 & (G2 & G3) & G4).
      split; [|apply IH, G4]. constructor; [constructor; assumption|apply Q_block; assumption].
    + destruct no as [[u b]|]; [|constructor]. cbn [no_wai_tokens unparse_no_wai] in *. apply Forall_cons_iff in H4 as [H41 H42].
      constructor; [constructor; [exact H41|constructor]|apply Q_block; assumption].
    + constructor; [constructor; [wd|constructor]|constructor].
  - cbn [node_tokens how_iz_i_tokens] in HT. rewrite Forall_cons_iff, !Forall_app in HT. destruct HT as (H1 & H2 & H3 & H4).
    cbn [unparse unparse_how_iz_i]. constructor; [|apply Forall_app; split].
    + constructor; [exact H1|]. apply Forall_app. split; [exact H2|]. apply Q_list, Q_flat, H3.
    + apply Q_block; assumption.
    + constructor; [constructor; [wd|constructor]|]. constructor; constructor.
  - destruct n as [[t i v]|[t v]|x|[v i e]|[v e r]|[t es x]|[t e]|x|x|[t v es]|x|[t]|[t v]|e|x|[t]];
      try (exact (False_ind _ Hn)); cbn [unparse]; try (constructor; [exact HT|constructor]; fail).
    + cbn [node_tokens] in HT. unfold i_has_a_tokens in HT. rewrite Forall_cons_iff, Forall_app in HT. destruct HT as (H1 & H2 & H3).
      constructor; [|constructor]. constructor; [exact H1|]. apply Forall_app. auto using Q_initial.
    + constructor; [exact HT|]. constructor; constructor.
    + cbn [node_tokens] in HT. unfold set_slot_tokens in HT. rewrite !Forall_app in HT. destruct HT as (H1 & H2 & H3).
      constructor; [|constructor]. apply Forall_app. split; [exact H1|]. constructor; [wd|]. apply Forall_app. split; [exact H2|].
      constructor; [wd|exact H3].
    + cbn [node_tokens] in HT. unfold i_iz_tokens in HT. rewrite Forall_cons_iff, Forall_app in HT. destruct HT as (H1 & H2 & H3).
      constructor; [|constructor]. constructor; [exact H1|]. apply Forall_app. split; [exact H2|]. apply Forall_app. split.
      * apply Q_list, Q_flat, H3.
      * constructor; [wd|constructor].
    + constructor.
Qed.
Lemma Q_nodes ns : Forall Q (block_tokens (ASTBlock ns)) -> Forall (Forall Q) (unparse_nodes ns).
Proof. intros H. apply Q_block; [|exact H]. apply Forall_forall. intros n _. apply Q_lines. Qed.
End Tokens.

(** ** Relabelling *)
Section Map.
Variable f : token -> token.
Hypothesis Hf : forall ty, f (bare ty) = bare ty.
Lemma f_word k : f (word k) = word k.
Proof. apply Hf. Qed.
Lemma map_list l : unparse_list (map (map f) l) = map f (unparse_list l).
Proof.
  induction l as [|x [|y l] IH]; [reflexivity| |].
  - cbn. rewrite f_word. reflexivity.
  - cbn [map unparse_list] in *. rewrite IH, !map_app. cbn [map]. rewrite !f_word. reflexivity.
Qed.
Lemma map_exprs es : map expr_tokens (map (map_expr f) es) = map (map f) (map expr_tokens es).
Proof. rewrite !map_map. apply map_ext. intros e. apply nat_expr. Qed.
Lemma map_identifiers es : map identifier_tokens (map (map_identifier f) es) = map (map f) (map identifier_tokens es).
Proof. rewrite !map_map. apply map_ext. intros e. apply nat_identifier. Qed.
Lemma map_unparse_initial i : unparse_initial (option_map (map_initial f) i) = map f (unparse_initial i).
Proof.
  destruct i as [[e|ty]|]; cbn; rewrite ?f_word; [|destruct ty; reflexivity|reflexivity].
  rewrite (nat_expr f e). reflexivity.
Qed.
Lemma map_unparse_iteration i : unparse_iteration (option_map (map_iteration f) i) = map f (unparse_iteration i).
Proof. destruct i as [[[t|t] v]|]; cbn; rewrite ?f_word; try reflexivity; rewrite (nat_va f v); reflexivity. Qed.
Lemma map_unparse_condition i : unparse_condition (option_map (map_condition f) i) = map f (unparse_condition i).
Proof. destruct i as [[e|e]|]; cbn; rewrite ?f_word; try reflexivity; rewrite (nat_expr f e); reflexivity. Qed.
Definition commutes (n : node) : Prop := unparse (map_node f n) = map (map f) (unparse n).
Lemma flat_commutes {A} (g : A -> A) (u : A -> list (list token)) l :
  Forall (fun x => u (g x) = map (map f) (u x)) l -> flat_map u (map g l) = map (map f) (flat_map u l).
Proof. induction 1 as [|x l Hx _ IH]; cbn; [reflexivity|]. rewrite map_app, Hx, IH. reflexivity. Qed.
Lemma block_commutes b : all_nodes commutes b -> unparse_block (map_block f b) = map (map f) (unparse_block b).
Proof.
  destruct b as [ns]. intros H. rewrite map_block_eq. pose proof (flat_commutes (map_node f) unparse ns H) as E.
  destruct ns as [|n ns]; [reflexivity|exact E].
Qed.
Lemma node_commutes n : commutes n.
Proof.
  induction n as [t l it c b e Hb|t omgs d Ho Hd|t yes no mebbes Hy Hn Hm|t i params b Hb|n Hn] using node_ind';
    unfold commutes.
  - rewrite map_loop_eq. cbn [unparse unparse_im_in_yr map].
    rewrite !map_app, map_unparse_iteration, map_unparse_condition, (block_commutes b Hb). cbn [map]. rewrite f_word. reflexivity.
  - rewrite map_wtf_eq. cbn [unparse unparse_wtf map]. rewrite !map_app. cbn [map].
    unfold question. rewrite f_word, Hf. f_equal. f_equal; [|f_equal].
    + apply flat_commutes. revert Ho. apply Forall_impl. intros [u e b] Hb. rewrite map_omg_eq. cbn [unparse_omg map].
      rewrite (nat_expr f e), (block_commutes b Hb). reflexivity.
    + destruct d as [[u b]|]; [|reflexivity]. cbn [option_map]. rewrite map_omg_wtf_eq. cbn [unparse_omg_wtf map].
      rewrite (block_commutes b Hd). reflexivity.
  - rewrite map_o_rly_eq. cbn [unparse unparse_o_rly map]. rewrite !map_app. cbn [map].
    unfold question. rewrite f_word, Hf. f_equal. f_equal; [|f_equal; [|f_equal]].
    + destruct yes as [[u b]|]; [|reflexivity]. cbn [option_map]. rewrite map_ya_rly_eq. cbn [unparse_ya_rly map].
      rewrite (block_commutes b Hy). reflexivity.
    + apply flat_commutes. revert Hm. apply Forall_impl. intros [u e b] Hb. rewrite map_mebbe_eq. cbn [unparse_mebbe map].
      rewrite (nat_expr f e), (block_commutes b Hb). reflexivity.
    + destruct no as [[u b]|]; [|reflexivity]. cbn [option_map]. rewrite map_no_wai_eq. cbn [unparse_no_wai map].
      rewrite (block_commutes b Hn). reflexivity.
  - rewrite map_fun_eq. cbn [unparse unparse_how_iz_i map].
    rewrite !map_app, (nat_identifier f i), map_identifiers, map_list, (block_commutes b Hb). cbn [map]. rewrite f_word. reflexivity.
  - destruct n as [x|x|x|x|x|x|x|x|x|x|x|x|x|x|x|x]; try (destruct Hn; fail); cbn [map_node unparse map]; try reflexivity.
    + unfold map_i_has_a. cbn [ihasa_token ihasa_identifier ihasa_initial_value].
      rewrite map_app, (nat_identifier f), map_unparse_initial. reflexivity.
    + unfold map_set_slot. cbn [bss_bukkit bss_slot_name bss_value].
      rewrite !map_app. cbn [map]. rewrite map_app. cbn [map]. rewrite !f_word, (nat_va f), (nat_identifier f), (nat_expr f). reflexivity.
    + f_equal. exact (nat_node f (NVariableAssignment x)).
    + f_equal. exact (nat_node f (NVisible x)).
    + f_equal. exact (nat_node f (NFoundYr x)).
    + unfold map_i_iz. cbn [iiz_token iiz_name iiz_arguments].
      rewrite !map_app. cbn [map]. rewrite f_word, (nat_va f), map_exprs, map_list. reflexivity.
    + f_equal. exact (nat_node f (NGimmeh x)).
    + f_equal. apply nat_expr.
Qed.
Lemma nodes_commute ns : unparse_nodes (map (map_node f) ns) = map (map f) (unparse_nodes ns).
Proof. apply (block_commutes (ASTBlock ns)). apply Forall_forall. intros n _. apply node_commutes. Qed.
End Map.
