(** Replacing statements by statements: proofs for C67. *)
From Coq Require Import Lia.
From Verif Require Import Lines LinesSim ParseFuel Grammar ExprGrammar LineGrammar Clean ProgGrammar ProgComplete ParserProps SourceJoin
  LineEffect LineEffectProofs.

(** A line at which no statement starts. *)
Definition dead (l : list token) : Prop := match l with [] => True | t :: _ => closer t end.
Definition stops (R : list (list token)) : Prop := match R with [] => True | l :: _ => dead l end.

Lemma split_at {A} (a b c d : list A) : a ++ b = c ++ d ->
  length c < length a \/ exists c', c = a ++ c' /\ b = c' ++ d.
Proof.
  intros E. apply app_eq_cases in E as [(l & -> & ->)|(l & -> & ->)].
  - destruct l as [|x l]; [right; exists []; rewrite !app_nil_r; auto|left; rewrite app_length; cbn; lia].
  - right. eauto.
Qed.

Lemma run_first S ss : d_stmts S ss -> ss <> [] -> exists t c M, S = (t :: c) :: M /\ ~ closer t.
Proof.
  intros H. destruct H as [|L n M ns Hn Hs]; [contradiction|]. intros _.
  destruct (d_stmt_first _ _ Hn) as (t & c & M' & -> & Ht). exists t, c, (M' ++ M). auto.
Qed.
Lemma stmt_prefix_unique L n L' n' r r' : d_stmt L n -> d_stmt L' n' -> L ++ r = L' ++ r' -> L = L' /\ n = n' /\ r = r'.
Proof.
  intros H H' E. destruct (d_stmt_first _ _ H) as (t & c & M & -> & _). destruct (d_stmt_first _ _ H') as (t' & c' & M' & -> & _).
  cbn [app] in E. injection E as <- <- E.
  destruct (proj1 complete_mut _ _ H) as [F HF]. destruct (proj1 complete_mut _ _ H') as [F' HF'].
  pose proof (HF (F + F') ltac:(lia) t c M r eq_refl) as H1. pose proof (HF' (F + F') ltac:(lia) t c M' r' eq_refl) as H2.
  rewrite E, H2 in H1. injection H1 as -> ->. apply app_inv_tail in E as ->. auto.
Qed.
Lemma stmts_prefix_of L ns : d_stmts L ns -> forall S ss R ls2, d_stmts S ss -> L ++ R = S ++ ls2 -> stops R ->
  exists M ms, L = S ++ M /\ ls2 = M ++ R /\ ns = ss ++ ms /\ d_stmts M ms.
Proof.
  intros H S ss R ls2 HS. revert L ns H. induction HS as [|S n T ns' Hn HT IH]; intros L ns H E HR.
  - exists L, ns. cbn [app] in *. auto.
  - destruct H as [|L m M ns Hm HM].
    + exfalso. destruct (d_stmt_first _ _ Hn) as (t & c & M' & -> & Ht). cbn [app] in E. subst R. exact (Ht HR).
    + rewrite <- !app_assoc in E. destruct (stmt_prefix_unique _ _ _ _ _ _ Hm Hn E) as (-> & -> & E').
      destruct (IH _ _ HM E' HR) as (K & ks & -> & -> & -> & HK).
      exists K, ks. repeat split; auto. apply app_assoc.
Qed.
Lemma stmts_app S ss M ms : d_stmts S ss -> d_stmts M ms -> d_stmts (S ++ M) (ss ++ ms).
Proof.
  intros H HM. induction H as [|L n T ns Hn HT IH]; [exact HM|]. rewrite <- app_assoc. cbn [app]. constructor; assumption.
Qed.
Lemma dead_absurd T R ls1 S ls2 ss : Forall dead T -> d_stmts S ss -> ss <> [] -> T ++ R = ls1 ++ S ++ ls2 ->
  length ls1 < length T -> False.
Proof.
  intros HT HS Hss E Hl. destruct (run_first _ _ HS Hss) as (t & c & M & -> & Ht).
  apply app_eq_cases in E as [(l & -> & E)|(l & -> & E)]; [|rewrite app_length in Hl; lia].
  destruct l as [|x l]; [rewrite app_nil_r in Hl; lia|]. injection E as <- E.
  apply Forall_app in HT as [_ HT]. inversion HT as [|? ? Hd _]. exact (Ht Hd).
Qed.
Lemma context_not_nil h ns : context h -> ns <> [] -> h ns <> [].
Proof.
  intros H Hn. destruct H as [h a b E|h a k b _ E]; rewrite E; intros E0; apply app_eq_nil in E0 as [_ E0]; [|discriminate].
  apply app_eq_nil in E0 as [E0 _]. contradiction.
Qed.

(** [x] is derived from [L]; a run of statements that starts in [L] ends in it,
    and can be replaced. *)
Definition Sub {X} (D : list (list token) -> X -> Prop) (Sh : (list node -> X) -> Prop) (L : list (list token)) (x : X) : Prop :=
  forall R ls1 S ls2 ss, stops R -> d_stmts S ss -> ss <> [] -> L ++ R = ls1 ++ S ++ ls2 -> length ls1 < length L ->
  exists M g, ls2 = M ++ R /\ Sh g /\ x = g ss /\
    forall S' ss', d_stmts S' ss' -> ss' <> [] -> D (ls1 ++ S' ++ M) (g ss').
Definition SubStmt (L : list (list token)) (n : node) : Prop :=
  forall R ls1 S ls2 ss, d_stmts S ss -> ss <> [] -> L ++ R = ls1 ++ S ++ ls2 -> 0 < length ls1 < length L ->
  exists M g, ls2 = M ++ R /\ node_context g /\ n = g ss /\
    forall S' ss', d_stmts S' ss' -> ss' <> [] -> d_stmt (ls1 ++ S' ++ M) (g ss').

Definition sh_omgs (g : list node -> list wtf_omg) : Prop := exists xs a e h ys, context h /\
  forall ns, g ns = xs ++ WtfOmg a e (ASTBlock (h ns)) :: ys.
Definition sh_default (g : list node -> option wtf_omg_wtf) : Prop := exists a h, context h /\
  forall ns, g ns = Some (WtfOmgWtf a (ASTBlock (h ns))).
Definition sh_ya (g : list node -> option ya_rly) : Prop := exists a h, context h /\
  forall ns, g ns = Some (YaRly a (ASTBlock (h ns))).
Definition sh_no (g : list node -> option no_wai) : Prop := exists a h, context h /\
  forall ns, g ns = Some (NoWai a (ASTBlock (h ns))).
Definition sh_mebbes (g : list node -> list mebbe) : Prop := exists xs a e h ys, context h /\
  forall ns, g ns = xs ++ Mebbe a e (ASTBlock (h ns)) :: ys.

Lemma omgs_stops L x R : d_omgs L x -> stops R -> stops (L ++ R).
Proof. intros H HR. destruct H; cbn; [exact HR|unfold closer; tauto]. Qed.
Lemma default_stops L x R : d_default L x -> stops R -> stops (L ++ R).
Proof. intros H HR. destruct H; cbn; [exact HR|unfold closer; tauto]. Qed.
Lemma mebbes_stops L x R : d_mebbes L x -> stops R -> stops (L ++ R).
Proof. intros H HR. destruct H; cbn; [exact HR|unfold closer; tauto]. Qed.
Lemma no_stops L x R : d_no_wai L x -> stops R -> stops (L ++ R).
Proof. intros H HR. destruct H; cbn; [exact HR|unfold closer; tauto]. Qed.

Ltac norm := repeat rewrite <- app_assoc; cbn [app]; try reflexivity.

Lemma subst_mut :
  (forall L n, d_stmt L n -> SubStmt L n) /\ (forall L ns, d_block L ns -> Sub d_block context L ns) /\
  (forall L ns, d_stmts L ns -> Sub d_stmts context L ns) /\ (forall L os, d_omgs L os -> Sub d_omgs sh_omgs L os) /\
  (forall L d, d_default L d -> Sub d_default sh_default L d) /\ (forall L d, d_ya_rly L d -> Sub d_ya_rly sh_ya L d) /\
  (forall L ms, d_mebbes L ms -> Sub d_mebbes sh_mebbes L ms) /\ (forall L d, d_no_wai L d -> Sub d_no_wai sh_no L d).
Proof.
  apply d_stmt_mut.
  - intros l n Hl R ls1 S ls2 ss HS Hss E [H1 H2]. cbn in H2. lia.
  - intros t v Hk R ls1 S ls2 ss HS Hss E [H1 H2]. exfalso.
    destruct ls1 as [|l0 ls1]; [cbn in H1; lia|]. injection E as <- E.
    apply (dead_absurd [[]] R ls1 S ls2 ss); auto; [repeat constructor|cbn in H2 |- *; lia].
  - intros t lb its it cs cond B ns imo el Hk Hlb Hit Hcs Hb IH Himo Hel R ls1 S ls2 ss HS Hss E [H1 H2].
    destruct ls1 as [|l0 ls1]; [cbn in H1; lia|]. cbn [app] in E. injection E as <- E. rewrite <- app_assoc in E.
    destruct (split_at _ _ _ _ E) as [Hl|(c' & -> & E')].
    + destruct (IH ([[imo; el]] ++ R) ls1 S ls2 ss ltac:(cbn; unfold closer; tauto) HS Hss E Hl) as (M & h & -> & Hh & -> & H).
      exists (M ++ [[imo; el]]), (fun ns => NImInYr (ImInYr t lb it cond (ASTBlock (h ns)) el)).
      split; [norm|]. split; [eapply in_loop; [exact Hh|reflexivity]|]. split; [reflexivity|].
      intros S' ss' HS' Hss'. cbn [app]. replace (ls1 ++ S' ++ M ++ [[imo; el]]) with ((ls1 ++ S' ++ M) ++ [[imo; el]]) by norm.
      constructor; auto.
    + exfalso. apply (dead_absurd [[imo; el]] R c' S ls2 ss); auto; [repeat constructor; cbn; unfold closer; tauto|].
      cbn in H2 |- *. rewrite !app_length in H2. cbn in H2. lia.
  - intros t ts i us ps B ns e Hk Hi Hp Hb IH He R ls1 S ls2 ss HS Hss E [H1 H2].
    destruct ls1 as [|l0 ls1]; [cbn in H1; lia|]. cbn [app] in E. injection E as <- E. rewrite <- app_assoc in E.
    destruct (split_at _ _ _ _ E) as [Hl|(c' & -> & E')].
    + destruct (IH ([[e]; []] ++ R) ls1 S ls2 ss ltac:(cbn; unfold closer; tauto) HS Hss E Hl) as (M & h & -> & Hh & -> & H).
      exists (M ++ [[e]; []]), (fun ns => NHowIzI (HowIzI t i ps (ASTBlock (h ns)))).
      split; [norm|]. split; [eapply in_function; [exact Hh|reflexivity]|]. split; [reflexivity|].
      intros S' ss' HS' Hss'. cbn [app]. replace (ls1 ++ S' ++ M ++ [[e]; []]) with ((ls1 ++ S' ++ M) ++ [[e]; []]) by norm.
      constructor; auto.
    + exfalso. apply (dead_absurd [[e]; []] R c' S ls2 ss); auto; [repeat constructor; cbn; unfold closer; tauto|].
      cbn in H2 |- *. rewrite !app_length in H2. cbn in H2. lia.
  - intros t q Lo omgs D d e Hk Hq Ho IHo Hd IHd He R ls1 S ls2 ss HS Hss E [H1 H2].
    destruct ls1 as [|l0 ls1]; [cbn in H1; lia|]. cbn [app] in E. injection E as <- E. rewrite <- !app_assoc in E.
    assert (Hst : stops ([[e]; []] ++ R)) by (cbn; unfold closer; tauto).
    destruct (split_at _ _ _ _ E) as [Hl|(c' & -> & E')].
    + destruct (IHo _ ls1 S ls2 ss (default_stops _ _ _ Hd Hst) HS Hss E Hl) as (M & g & -> & (xs & a & x & h & ys & Hh & Eg) & -> & H).
      exists (M ++ D ++ [[e]; []]), (fun ns => NWtf (Wtf t (g ns) d)).
      split; [norm|]. split; [eapply in_omg; [exact Hh|intros ns; rewrite Eg; reflexivity]|]. split; [reflexivity|].
      intros S' ss' HS' Hss'. cbn [app].
      replace (ls1 ++ S' ++ M ++ D ++ [[e]; []]) with ((ls1 ++ S' ++ M) ++ D ++ [[e]; []]) by norm. constructor; auto.
    + destruct (split_at _ _ _ _ E') as [Hl|(c & -> & E'')].
      * destruct (IHd _ c' S ls2 ss Hst HS Hss E' Hl) as (M & g & -> & (a & h & Hh & Eg) & -> & H).
        exists (M ++ [[e]; []]), (fun ns => NWtf (Wtf t omgs (g ns))).
        split; [norm|]. split; [eapply in_omgwtf; [exact Hh|intros ns; rewrite Eg; reflexivity]|]. split; [reflexivity|].
        intros S' ss' HS' Hss'. cbn [app].
        replace ((Lo ++ c') ++ S' ++ M ++ [[e]; []]) with (Lo ++ (c' ++ S' ++ M) ++ [[e]; []]) by norm. constructor; auto.
      * exfalso. apply (dead_absurd [[e]; []] R c S ls2 ss); auto; [repeat constructor; cbn; unfold closer; tauto|].
        cbn in H2 |- *. rewrite !app_length in H2. cbn in H2. lia.
  - intros t q Ly yes Lm mebbes Ln no e Hk Hq Hy IHy Hm IHm Hn IHn He R ls1 S ls2 ss HS Hss E [H1 H2].
    destruct ls1 as [|l0 ls1]; [cbn in H1; lia|]. cbn [app] in E. injection E as <- E. rewrite <- !app_assoc in E.
    assert (Hst : stops ([[e]] ++ R)) by (cbn; unfold closer; tauto).
    pose proof (no_stops _ _ _ Hn Hst) as Hst2. pose proof (mebbes_stops _ _ _ Hm Hst2) as Hst3.
    destruct (split_at _ _ _ _ E) as [Hl|(c1 & -> & E1)].
    + destruct (IHy _ ls1 S ls2 ss Hst3 HS Hss E Hl) as (M & g & -> & (a & h & Hh & Eg) & -> & H).
      exists (M ++ Lm ++ Ln ++ [[e]]), (fun ns => NORly (ORly t (g ns) no mebbes)).
      split; [norm|]. split; [eapply in_ya_rly; [exact Hh|intros ns; rewrite Eg; reflexivity]|]. split; [reflexivity|].
      intros S' ss' HS' Hss'. cbn [app].
      replace (ls1 ++ S' ++ M ++ Lm ++ Ln ++ [[e]]) with ((ls1 ++ S' ++ M) ++ Lm ++ Ln ++ [[e]]) by norm. constructor; auto.
    + destruct (split_at _ _ _ _ E1) as [Hl|(c2 & -> & E2)].
      * destruct (IHm _ c1 S ls2 ss Hst2 HS Hss E1 Hl) as (M & g & -> & (xs & a & x & h & ys & Hh & Eg) & -> & H).
        exists (M ++ Ln ++ [[e]]), (fun ns => NORly (ORly t yes no (g ns))).
        split; [norm|]. split; [eapply in_mebbe; [exact Hh|intros ns; rewrite Eg; reflexivity]|]. split; [reflexivity|].
        intros S' ss' HS' Hss'. cbn [app].
        replace ((Ly ++ c1) ++ S' ++ M ++ Ln ++ [[e]]) with (Ly ++ (c1 ++ S' ++ M) ++ Ln ++ [[e]]) by norm. constructor; auto.
      * destruct (split_at _ _ _ _ E2) as [Hl|(c3 & -> & E3)].
        -- destruct (IHn _ c2 S ls2 ss Hst HS Hss E2 Hl) as (M & g & -> & (a & h & Hh & Eg) & -> & H).
           exists (M ++ [[e]]), (fun ns => NORly (ORly t yes (g ns) mebbes)).
           split; [norm|]. split; [eapply in_no_wai; [exact Hh|intros ns; rewrite Eg; reflexivity]|]. split; [reflexivity|].
           intros S' ss' HS' Hss'. cbn [app].
           replace ((Ly ++ Lm ++ c2) ++ S' ++ M ++ [[e]]) with (Ly ++ Lm ++ (c2 ++ S' ++ M) ++ [[e]]) by norm. constructor; auto.
        -- exfalso. apply (dead_absurd [[e]] R c3 S ls2 ss); [repeat constructor; cbn; unfold closer; tauto|auto..|].
           cbn in H2 |- *. rewrite !app_length in H2. cbn in H2. lia.
  - intros L ns Hd IH Hne R ls1 S ls2 ss HR HS Hss E Hl.
    destruct (IH R ls1 S ls2 ss HR HS Hss E Hl) as (M & h & -> & Hh & -> & H). exists M, h.
    repeat split; auto. intros S' ss' HS' Hss'. apply d_block_stmts; [auto|apply context_not_nil; assumption].
  - intros L ns Hd IH R ls1 S ls2 ss HR HS Hss E Hl.
    destruct ls1 as [|l0 ls1].
    { exfalso. destruct (run_first _ _ HS Hss) as (t & c & M & -> & _). discriminate E. }
    cbn [app] in E. injection E as <- E.
    destruct (IH R ls1 S ls2 ss HR HS Hss E ltac:(cbn in Hl; lia)) as (M & h & -> & Hh & -> & H). exists M, h.
    repeat split; auto. intros S' ss' HS' Hss'. cbn [app]. apply d_block_empty_line. auto.
  - intros R ls1 S ls2 ss HR HS Hss E Hl. cbn in Hl. lia.
  - intros L n M ns Hn IHn Hs IHs R ls1 S ls2 ss HR HS Hss E Hl.
    destruct ls1 as [|l0 ls1].
    { destruct (stmts_prefix_of _ _ (d_stmts_cons _ _ _ _ Hn Hs) S ss R ls2 HS E HR) as (K & ks & EL & -> & -> & HK).
      exists K, (fun ns => ns ++ ks). repeat split; auto; [apply (here _ [] ks); reflexivity|].
      intros S' ss' HS' _. exact (stmts_app _ _ _ _ HS' HK). }
    rewrite <- app_assoc in E. destruct (split_at _ _ _ _ E) as [Hl'|(c & Ec & E')].
    + destruct (IHn (M ++ R) (l0 :: ls1) S ls2 ss HS Hss E ltac:(cbn in *; lia)) as (K & g & -> & Hg & -> & H).
      exists (K ++ M), (fun ss => g ss :: ns). split; [norm|]. split; [apply (inside _ [] g ns Hg); reflexivity|].
      split; [reflexivity|]. intros S' ss' HS' Hss'.
      replace ((l0 :: ls1) ++ S' ++ K ++ M) with (((l0 :: ls1) ++ S' ++ K) ++ M) by norm. constructor; auto.
    + rewrite Ec in *.
      destruct (IHs R c S ls2 ss HR HS Hss E' ltac:(rewrite !app_length in Hl; lia)) as (K & h & -> & Hh & -> & H).
      exists K, (fun ss => n :: h ss). split; [reflexivity|]. split.
      { destruct Hh as [h a b Eh|h a k b Hk Eh].
        - apply (here _ (n :: a) b). intros; rewrite Eh; reflexivity.
        - apply (inside _ (n :: a) k b Hk). intros; rewrite Eh; reflexivity. }
      split; [reflexivity|]. intros S' ss' HS' Hss'. rewrite <- app_assoc. constructor; auto.
  - intros R ls1 S ls2 ss HR HS Hss E Hl. cbn in Hl. lia.
  - intros t o ts e B ns M omgs Hk He Hb IHb Ho IHo R ls1 S ls2 ss HR HS Hss E Hl.
    destruct ls1 as [|l0 ls1].
    { exfalso. apply (dead_absurd [t :: ts] ((B ++ M) ++ R) [] S ls2 ss); [repeat constructor; cbn; unfold closer; tauto|auto..|cbn; lia]. }
    cbn [app] in E. injection E as <- E. rewrite <- app_assoc in E.
    destruct (split_at _ _ _ _ E) as [Hl'|(c & -> & E')].
    + destruct (IHb (M ++ R) ls1 S ls2 ss (omgs_stops _ _ _ Ho HR) HS Hss E Hl') as (K & h & -> & Hh & -> & H).
      exists (K ++ M), (fun ns => WtfOmg t e (ASTBlock (h ns)) :: omgs). split; [norm|].
      split; [exists [], t, e, h, omgs; auto|]. split; [reflexivity|]. intros S' ss' HS' Hss'. cbn [app].
      replace (ls1 ++ S' ++ K ++ M) with ((ls1 ++ S' ++ K) ++ M) by norm. econstructor; eauto.
    + destruct (IHo R c S ls2 ss HR HS Hss E' ltac:(cbn in Hl; rewrite !app_length in Hl; lia))
        as (K & g & -> & (xs & a & x & h & ys & Hh & Eg) & -> & H).
      exists K, (fun ss => WtfOmg t e (ASTBlock ns) :: g ss). split; [reflexivity|].
      split; [exists (WtfOmg t e (ASTBlock ns) :: xs), a, x, h, ys; split; [exact Hh|intros; rewrite Eg; reflexivity]|].
      split; [reflexivity|]. intros S' ss' HS' Hss'. cbn [app]. rewrite <- app_assoc. econstructor; eauto.
  - intros R ls1 S ls2 ss HR HS Hss E Hl. cbn in Hl. lia.
  - intros t B ns Hk Hb IHb R ls1 S ls2 ss HR HS Hss E Hl.
    destruct ls1 as [|l0 ls1].
    { exfalso. apply (dead_absurd [[t]] (B ++ R) [] S ls2 ss); [repeat constructor; cbn; unfold closer; tauto|auto..|cbn; lia]. }
    cbn [app] in E. injection E as <- E.
    destruct (IHb R ls1 S ls2 ss HR HS Hss E ltac:(cbn in Hl; lia)) as (K & h & -> & Hh & -> & H).
    exists K, (fun ns => Some (WtfOmgWtf t (ASTBlock (h ns)))). split; [reflexivity|].
    split; [exists t, h; auto|]. split; [reflexivity|]. intros S' ss' HS' Hss'. cbn [app]. constructor; auto.
  - intros R ls1 S ls2 ss HR HS Hss E Hl. cbn in Hl. lia.
  - intros t B ns Hk Hb IHb R ls1 S ls2 ss HR HS Hss E Hl.
    destruct ls1 as [|l0 ls1].
    { exfalso. apply (dead_absurd [[t]] (B ++ R) [] S ls2 ss); [repeat constructor; cbn; unfold closer; tauto|auto..|cbn; lia]. }
    cbn [app] in E. injection E as <- E.
    destruct (IHb R ls1 S ls2 ss HR HS Hss E ltac:(cbn in Hl; lia)) as (K & h & -> & Hh & -> & H).
    exists K, (fun ns => Some (YaRly t (ASTBlock (h ns)))). split; [reflexivity|].
    split; [exists t, h; auto|]. split; [reflexivity|]. intros S' ss' HS' Hss'. cbn [app]. constructor; auto.
  - intros R ls1 S ls2 ss HR HS Hss E Hl. cbn in Hl. lia.
  - intros t o ts e B ns M omgs Hk He Hb IHb Ho IHo R ls1 S ls2 ss HR HS Hss E Hl.
    destruct ls1 as [|l0 ls1].
    { exfalso. apply (dead_absurd [t :: ts] ((B ++ M) ++ R) [] S ls2 ss); [repeat constructor; cbn; unfold closer; tauto|auto..|cbn; lia]. }
    cbn [app] in E. injection E as <- E. rewrite <- app_assoc in E.
    destruct (split_at _ _ _ _ E) as [Hl'|(c & -> & E')].
    + destruct (IHb (M ++ R) ls1 S ls2 ss (mebbes_stops _ _ _ Ho HR) HS Hss E Hl') as (K & h & -> & Hh & -> & H).
      exists (K ++ M), (fun ns => Mebbe t e (ASTBlock (h ns)) :: omgs). split; [norm|].
      split; [exists [], t, e, h, omgs; auto|]. split; [reflexivity|]. intros S' ss' HS' Hss'. cbn [app].
      replace (ls1 ++ S' ++ K ++ M) with ((ls1 ++ S' ++ K) ++ M) by norm. econstructor; eauto.
    + destruct (IHo R c S ls2 ss HR HS Hss E' ltac:(cbn in Hl; rewrite !app_length in Hl; lia))
        as (K & g & -> & (xs & a & x & h & ys & Hh & Eg) & -> & H).
      exists K, (fun ss => Mebbe t e (ASTBlock ns) :: g ss). split; [reflexivity|].
      split; [exists (Mebbe t e (ASTBlock ns) :: xs), a, x, h, ys; split; [exact Hh|intros; rewrite Eg; reflexivity]|].
      split; [reflexivity|]. intros S' ss' HS' Hss'. cbn [app]. rewrite <- app_assoc. econstructor; eauto.
  - intros R ls1 S ls2 ss HR HS Hss E Hl. cbn in Hl. lia.
  - intros t B ns Hk Hb IHb R ls1 S ls2 ss HR HS Hss E Hl.
    destruct ls1 as [|l0 ls1].
    { exfalso. apply (dead_absurd [[t]] (B ++ R) [] S ls2 ss); [repeat constructor; cbn; unfold closer; tauto|auto..|cbn; lia]. }
    cbn [app] in E. injection E as <- E.
    destruct (IHb R ls1 S ls2 ss HR HS Hss E ltac:(cbn in Hl; lia)) as (K & h & -> & Hh & -> & H).
    exists K, (fun ns => Some (NoWai t (ASTBlock (h ns)))). split; [reflexivity|].
    split; [exists t, h; auto|]. split; [reflexivity|]. intros S' ss' HS' Hss'. cbn [app]. constructor; auto.
Qed.

(** Programs. *)
Lemma program_subst ls1 S ls2 ns ss : d_program (ls1 ++ S ++ ls2) ns -> d_stmts S ss -> ss <> [] ->
  (exists h, context h /\ ns = h ss /\
     forall S' ss', d_stmts S' ss' -> ss' <> [] -> d_program (ls1 ++ S' ++ ls2) (h ss')) \/
  (forall ls, d_program (ls1 ++ ls) ns).
Proof.
  intros (k & L & rest & E & Hd) HS Hss. rewrite <- !app_assoc in E. symmetry in E.
  destruct (split_at _ _ _ _ E) as [Hl|(c & -> & E')].
  - left. destruct (proj1 (proj2 subst_mut) _ _ Hd ([] :: rest) ls1 S _ ss I HS Hss E Hl) as (M & h & E2 & Hh & -> & H).
    exists h. repeat split; auto. intros S' ss' HS' Hss'. exists k, (ls1 ++ S' ++ M), rest. split; [|auto].
    rewrite <- !app_assoc. rewrite E2. reflexivity.
  - right. destruct c as [|l0 c].
    { exfalso. destruct (run_first _ _ HS Hss) as (t & d & M & -> & _). discriminate E'. }
    injection E' as <- E'. intros ls. exists 0, L, (c ++ ls). split; [|exact Hd]. cbn [repeat]. rewrite app_nil_r. norm.
Qed.

Lemma logical_subst ls1 S ls2 ss b : parse_logical (ls1 ++ S ++ ls2) = ParseOk b -> block_clean b = true ->
  d_stmts S ss -> ss <> [] ->
  (exists h, context h /\ b = ASTBlock (h ss) /\
     forall S' ss', d_stmts S' ss' -> ss' <> [] ->
       parse_logical (ls1 ++ S' ++ ls2) = ParseOk (ASTBlock (h ss')) /\ block_clean (ASTBlock (h ss')) = true) \/
  (forall ls, parse_logical (ls1 ++ ls) = ParseOk b).
Proof.
  destruct b as [ns]. intros Hp Hc HS Hss.
  destruct (program_subst ls1 S ls2 ns ss (proj1 (program_iff _ _) (conj Hp Hc)) HS Hss) as [(h & Hh & -> & H)|H].
  - left. exists h. repeat split; auto; apply (proj2 (program_iff _ _) (H _ _ H0 H1)).
  - right. intros ls. apply (proj2 (program_iff _ _) (H ls)).
Qed.
