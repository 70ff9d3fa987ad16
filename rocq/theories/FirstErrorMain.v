(** Proofs for C91, the end: whole programs. *)
From Coq Require Import String Lia.
From Verif Require Import Parser Lines LinesSim ParseFuel Free Relabel RelabelProofs ExprGrammar Grammar Clean LineGrammar ProgGrammar ProgComplete
  Failure Reads RecoveryProps RecoverySound ParserProps AppendProofs LineEffect LineEffectProofs StmtSubst NodeLines NodeLinesProofs CheckerProofs
  Lexer Api LexSpec LexProofs LexPropSpec LexProps LexProps2 SourceSpec SourceProofs SourceEdit SourceEditProofs LineTrace ParserProps2.
From Verif Require Import Recovery FirstErrorProofs FirstErrorRuns.
Local Open Scope list_scope.

Definition top_kind (open : list frame) : kind := match open with [] => Root | f :: _ => kind_of f end.
Lemma start_not_closer t : block_start t -> ~ closer t.
Proof.
  unfold block_start, closer. intros H K.
  repeat match goal with H : _ \/ _ |- _ => destruct H as [H|H] end; no_kw.
Qed.
Lemma opened_start f M t : opened f M t -> block_start t.
Proof. unfold block_start. destruct 1; tauto. Qed.
Lemma not_closes k t : ~ closer t -> ~ closes k t.
Proof. intros H K. exact (H (closes_closer _ _ K)). Qed.

(** A statement in a block that has been read up to there. *)
Lemma in_context k B ns t c X o : in_part B ns -> ~ closer t -> r_block k (t :: c, X) o ->
  r_block k (line_of (B ++ (t :: c) :: X)) (omap (app ns) o).
Proof.
  intros [(-> & ->)|HB] Ht H; [rewrite omap_id by reflexivity; exact H|].
  apply block_block; [exact HB|]. apply r_more_go; [exact (not_closes _ _ Ht)|exact H].
Qed.
Lemma part_clean B ns : in_part B ns -> forallb node_clean ns = true.
Proof. intros [(-> & ->)|H]; [reflexivity|]. exact (proj1 (proj2 clean_mut) _ _ H). Qed.
Lemma part_errors B ns : in_part B ns -> errs (ns_all ns) = [].
Proof. intros [(-> & ->)|H]; [reflexivity|]. exact (proj1 (proj2 derived_errors) _ _ H). Qed.
Lemma ns_all_app a b : ns_all (a ++ b) = ns_all a ++ ns_all b.
Proof. induction a as [|n a IH]; [reflexivity|]. cbn [app]. change (ns_all (n :: a ++ b)) with (node_all n ++ ns_all (a ++ b)).
  change (ns_all (n :: a)) with (node_all n ++ ns_all a). rewrite IH. apply app_assoc. Qed.
Lemma fine_part B ns Z T o : in_part B ns -> fine ns_all Z T o -> fine ns_all Z T (omap (app ns) o).
Proof. intros H. apply fine_map. intros a. rewrite ns_all_app, errs_app, (part_errors _ _ H). reflexivity. Qed.
Lemma left_fine r ls Z T : incl (tokens_of (r, ls)) Z -> Forall (ok_err Z T) (errs (ns_all (left_over r))).
Proof.
  intros H. destruct r as [|x r]; [constructor|]. constructor; [|constructor]. left. cbn [error_tokens].
  intros y Hy. apply H. apply in_or_app. left. exact Hy.
Qed.
Lemma fine_cons a o Z T : Forall (ok_err Z T) (errs (ns_all a)) -> fine ns_all Z T o -> fine ns_all Z T (omap (app a) o).
Proof.
  intros Ha. destruct o; cbn [omap fine]; [|tauto..]. intros (H & K). split; [|exact K].
  rewrite ns_all_app, errs_app. apply Forall_app. auto.
Qed.
Lemma block_fine k B ns t c X o Z T : in_part B ns -> ~ closer t -> r_stmt (t :: c) X o -> fine node_all Z T o ->
  exists o', r_block k (line_of (B ++ (t :: c) :: X)) o' /\ fine ns_all Z T o'.
Proof.
  intros HB Ht H F.
  assert (exists o', r_block k (t :: c, X) o' /\ fine ns_all Z T o') as (o' & K & F').
  { destruct o as [n [r ls]|e [r ls]|p]; cbn [fine] in F.
    - destruct F as (F & I). destruct (more_total k ls) as (o' & K).
      assert (I' : incl (concat ls) Z) by (intros y Hy; apply I, in_or_app; auto).
      pose proof (fine_more k ls o' Z T K I') as F'.
      eexists. split; [exact (r_block_done _ _ _ _ _ _ _ _ H K)|].
      apply fine_cons; [|exact F']. change (n :: left_over r) with ([n] ++ left_over r). rewrite ns_all_app, errs_app.
      apply Forall_app. split; [|exact (left_fine _ _ _ _ I)]. cbn. rewrite app_nil_r. exact F.
    - destruct F as (F & I). destruct (more_total k ls) as (o' & K).
      assert (I' : incl (concat ls) Z) by (intros y Hy; apply I, in_or_app; auto).
      pose proof (fine_more k ls o' Z T K I') as F'.
      eexists. split; [exact (r_block_err _ _ _ _ _ _ _ _ H K)|].
      apply fine_cons; [|exact F']. change (NASTError e :: left_over r) with ([NASTError e] ++ left_over r). rewrite ns_all_app, errs_app.
      apply Forall_app. split; [|exact (left_fine _ _ _ _ I)]. cbn. constructor; [exact F|constructor].
    - eexists. split; [exact (r_block_crash _ _ _ _ _ H)|exact F]. }
  eexists. split; [exact (in_context _ _ _ _ _ _ _ HB Ht K)|exact (fine_part _ _ _ _ _ HB F')].
Qed.
Lemma main_fine open : forall T P Y o Z T0, before open T P -> incl T T0 ->
  r_block (top_kind open) (line_of Y) o -> fine ns_all Z T0 o -> exists o', r_block Root (line_of (P ++ Y)) o' /\ fine ns_all Z T0 o'.
Proof.
  induction open as [|f open IH]; intros T P Y o Z T0 H HT HB F; cbn [before top_kind] in *.
  - destruct H as (-> & ->). exists o. auto.
  - destruct H as (P0 & B & ns & M & t & T' & -> & -> & H & Hp & Ho).
    destruct (pending_fine f M t Y o Z T0 Ho HB F (HT _ (or_introl eq_refl))) as (c & M' & o' & -> & Hs & Fs).
    destruct (block_fine (top_kind open) B ns t c (M' ++ Y) o' Z T0 Hp (start_not_closer _ (opened_start _ _ _ Ho)) Hs Fs) as (o2 & H2 & F2).
    destruct (IH T' P0 _ o2 Z T0 H (fun x Hx => HT x (or_intror Hx)) H2 F2) as (o3 & H3 & F3). exists o3. split; [|exact F3].
    rewrite <- !app_assoc. exact H3.
Qed.

(** A statement whose last line may be followed by anything. *)
Lemma need_empty M n : d_stmt (M ++ [[]]) n -> exists t c M', M = (t :: c) :: M' /\ ~ closer t /\
  forall Z, r_stmt (t :: c) (M' ++ Z) (Done n (line_of Z)).
Proof.
  intros H. remember (M ++ [[]]) as L eqn:E. destruct H.
  - destruct (d_line_not_closer _ _ H) as (t & c & -> & _). destruct M as [|m [|m' M]]; cbn in E; discriminate.
  - destruct M as [|m [|m' [|m'' M]]]; cbn in E; try discriminate. injection E as <-. exists t, version, [].
    split; [reflexivity|]. split; [apply start_not_closer; unfold block_start; auto|]. intros Z. now apply r_hai.
  - rewrite app_comm_cons in E. apply app_inj_tail in E as (_ & E). discriminate.
  - replace (ls ++ [[e]; []]) with ((ls ++ [[e]]) ++ [[]]) in E by (rewrite <- app_assoc; reflexivity).
    rewrite app_comm_cons in E. apply app_inj_tail in E as (<- & _).
    exists t, (ts ++ us), (ls ++ [[e]]). split; [reflexivity|]. split; [apply start_not_closer; unfold block_start; auto|].
    intros Z. rewrite <- app_assoc. cbn [app]. eapply r_function; [exact H|apply function_header_of; eassumption|].
    eapply block_ends; [eassumption|]. assumption.
  - replace (ls ++ ms ++ [[e]; []]) with ((ls ++ ms ++ [[e]]) ++ [[]]) in E by (rewrite <- !app_assoc; reflexivity).
    rewrite app_comm_cons in E. apply app_inj_tail in E as (<- & _).
    exists t, [q], (ls ++ ms ++ [[e]]). split; [reflexivity|]. split; [apply start_not_closer; unfold block_start; auto|].
    intros Z. rewrite <- !app_assoc. cbn [app].
    assert (He : closes SwitchBody e) by (right; right; exact H3).
    destruct H2 as [|u B ns Hu HB].
    + cbn [app]. destruct (omgs_cases _ _ e [] Z _ H1 He (r_cases_none _ _ _ [e] Z (not_begins OMG _ e [] H3 ltac:(discriminate)))) as (x' & <- & K & _).
      cbn [omap] in K. rewrite app_nil_r in K.
      exact (r_wtf t q _ x' _ None _ Z H H0 K (r_section_none _ _ [e] Z (not_begins OMGWTF _ e [] H3 ltac:(discriminate))) (closing_oic t e [] Z H3)).
    + assert (Hu' : closes SwitchBody u) by (right; left; exact Hu). cbn [app].
      destruct (omgs_cases _ _ u [] (B ++ [e] :: Z) _ H1 Hu' (r_cases_none _ _ _ [u] _ (not_begins OMG _ u [] Hu ltac:(discriminate)))) as (x' & <- & K & _).
      cbn [omap] in K. rewrite app_nil_r in K.
      exact (r_wtf t q _ x' _ (Some (u, ns)) _ Z H H0 K (r_section_block _ _ _ _ _ Hu (block_ends _ _ _ _ _ _ HB He)) (closing_oic t e [] Z H3)).
  - replace (ls ++ ms ++ ks ++ [[e]]) with ((ls ++ ms ++ ks) ++ [[e]]) in E by (rewrite <- !app_assoc; reflexivity).
    rewrite app_comm_cons in E. apply app_inj_tail in E as (_ & E). discriminate.
Qed.

(** ** No errors before the lines that have been read *)
Lemma program_fine s T ls ls2 : past s T ls -> s <> Ended -> exists o, r_block Root (line_of (ls ++ ls2)) o /\ fine ns_all (concat ls2) T o.
Proof.
  intros H Hs. destruct s as [open|open|open|open|open|]; cbn [past] in H; [| | | | |contradiction].
  - destruct (block_total (top_kind open) (line_of ls2)) as (o & K).
    eapply main_fine; [exact H|apply incl_refl|exact K|]. eapply fine_block; [exact K|]. apply line_of_incl, incl_refl.
  - destruct H as (P & B & ns & -> & H & HB). destruct (more_total (top_kind open) ls2) as (o & K).
    rewrite <- app_assoc. eapply main_fine; [exact H|apply incl_refl|exact (block_block _ _ _ _ _ HB K)|].
    eapply fine_part; [right; exact HB|]. eapply fine_more; [exact K|apply incl_refl].
  - destruct H as (P & B & ns & M & n & -> & H & HB & Hn). destruct (need_empty M n Hn) as (t & c & M' & -> & Ht & K).
    destruct (block_fine (top_kind open) B ns t c (M' ++ ls2) (Done n (line_of ls2)) (concat ls2) T HB Ht (K ls2)) as (o & K' & F).
    { split; [rewrite (proj1 derived_errors _ _ Hn); constructor|]. apply line_of_incl, incl_refl. }
    rewrite <- !app_assoc. eapply main_fine; [exact H|apply incl_refl|exact K'|exact F].
  - destruct H as (P & B & ns & t & q & T' & -> & -> & H & HB & Ht & Hq).
    destruct (omgs_total (line_of ls2)) as (o1 & K1).
    destruct (wtf_fine t q ls2 o1 (concat ls2) (t :: T') Ht Hq (or_introl eq_refl) K1) as (o2 & K2 & F2).
    { eapply fine_omgs; [exact K1|]. apply line_of_incl, incl_refl. }
    destruct (block_fine (top_kind open) B ns t [q] ls2 o2 _ _ HB (start_not_closer t ltac:(unfold block_start; auto)) K2 F2) as (o & K & F).
    rewrite <- !app_assoc. eapply main_fine; [exact H|apply incl_tl, incl_refl|exact K|exact F].
  - destruct H as (P & B & ns & t & q & T' & -> & -> & H & HB & Ht & Hq).
    destruct (section_total YA_RLY IfBody (line_of ls2)) as (o1 & K1).
    assert (F1 : fine sec_all (concat ls2) (t :: T') o1) by (eapply fine_section; [exact K1|]; apply line_of_incl, incl_refl).
    destruct (seq_from _ (r_cases MEBBE mebbe_missing IfBody) _ cases_all (concat ls2) (t :: T') _ _ K1 F1 mebbes_total
      ltac:(intros; eapply fine_mebbes; eauto)) as (o2 & K2 & F2).
    destruct (o_rly_fine t q ls2 o2 (concat ls2) (t :: T') Ht Hq (or_introl eq_refl) K2 F2) as (o3 & K3 & F3).
    destruct (block_fine (top_kind open) B ns t [q] ls2 o3 _ _ HB (start_not_closer t ltac:(unfold block_start; tauto)) K3 F3) as (o & K & F).
    rewrite <- !app_assoc. eapply main_fine; [exact H|apply incl_tl, incl_refl|exact K|exact F].
Qed.
Lemma program_ended T ls ls2 : past Ended T ls -> exists ns p, r_block Root (line_of (ls ++ ls2)) (Done ns p) /\ errs (ns_all ns) = [].
Proof.
  intros (_ & L & ns & L' & -> & H). exists ns, ([], L' ++ ls2). split; [|exact (proj1 (proj2 derived_errors) _ _ H)].
  rewrite <- app_assoc. cbn [app].
  pose proof (block_block L ns Root ([] :: L' ++ ls2) _ H (r_more_empty _ ([] :: L' ++ ls2) eq_refl)) as K. cbn [omap line_of] in K.
  rewrite app_nil_r in K. exact K.
Qed.
Lemma no_false_alarms_ok ls1 ls2 s T ts b e : logical_lines ts = ls1 ++ ls2 -> tracks (Fresh []) [] ls1 s T ->
  parse ts = ParseOk b -> In e (block_errors b) -> incl (error_tokens e) (concat ls2) \/ exists t, In t T /\ unclosed t e.
Proof.
  intros E Ht Hp He. apply past_run in Ht. destruct b as [ns]. apply RecoveryProps.parse_nodes in Hp as (p & Hp). rewrite E in Hp.
  assert (D : s = Ended \/ s <> Ended) by (destruct s; auto; right; discriminate).
  destruct (block_one_outcome Root (line_of (ls1 ++ ls2))) as (o & _ & U). pose proof (U _ Hp) as Uo.
  destruct D as [-> |Hs].
  - destruct (program_ended T ls1 ls2 Ht) as (ns' & p' & K & En). apply U in K. rewrite <- Uo in K. injection K as -> ->.
    change (block_errors (ASTBlock ns)) with (errs (ns_all ns)) in He. rewrite En in He. destruct He.
  - destruct (program_fine s T ls1 ls2 Ht Hs) as (o' & K & F). apply U in K. rewrite <- Uo in K. subst o'.
    destruct F as (F & _). rewrite Forall_forall in F. exact (F e He).
Qed.

Lemma no_false_panics_ok ls1 ls2 s T ts c : logical_lines ts = ls1 ++ ls2 -> tracks (Fresh []) [] ls1 s T ->
  parse ts = ParsePanic c -> incl (panic_tokens c) (concat ls2).
Proof.
  intros E Ht Hp. apply past_run in Ht. apply parse_panics_iff in Hp. unfold program_panics in Hp. rewrite E in Hp.
  assert (D : s = Ended \/ s <> Ended) by (destruct s; auto; right; discriminate).
  destruct (block_one_outcome Root (line_of (ls1 ++ ls2))) as (o & _ & U). pose proof (U _ Hp) as Uo.
  destruct D as [-> |Hs].
  - destruct (program_ended T ls1 ls2 Ht) as (ns' & p' & K & _). apply U in K. rewrite <- Uo in K. discriminate.
  - destruct (program_fine s T ls1 ls2 Ht Hs) as (o' & K & F). apply U in K. rewrite <- Uo in K. subst o'. exact F.
Qed.

(** ** Statements that are not closed *)
Definition ends_open (T : list token) (ns ns' : list node) : Prop :=
  T = [] /\ ns' = ns \/ exists T' t m e, T = T' ++ [t] /\ ns' = m ++ [NASTError e] /\ forallb node_clean m = true /\ unclosed t e.
Lemma err_block k B ns t c X e : in_part B ns -> ~ closer t -> r_stmt (t :: c) X (Err e ([], [])) ->
  r_block k (line_of (B ++ (t :: c) :: X)) (Done (ns ++ [NASTError e]) ([], [])).
Proof.
  intros HB Ht H. pose proof (r_block_err k _ _ _ _ _ _ _ H (r_more_empty k [] eq_refl)) as K.
  exact (in_context _ _ _ _ _ _ _ HB Ht K).
Qed.
Lemma main_end open : forall T P Y ns, before open T P -> r_block (top_kind open) (line_of Y) (Done ns ([], [])) ->
  exists ns', r_block Root (line_of (P ++ Y)) (Done ns' ([], [])) /\ ends_open T ns ns'.
Proof.
  induction open as [|f open IH]; intros T P Y ns H HB; cbn [before top_kind] in *.
  - destruct H as (-> & ->). exists ns. split; [exact HB|left; auto].
  - destruct H as (P0 & B & ns0 & M & t & T' & -> & -> & H & Hp & Ho).
    destruct (pending_end f M t Y ns Ho HB) as (c & M' & e & -> & Hs & He).
    pose proof (err_block (top_kind open) B ns0 t c (M' ++ Y) e Hp (start_not_closer _ (opened_start _ _ _ Ho)) Hs) as K.
    destruct (IH T' P0 _ _ H K) as (ns' & K' & D). exists ns'. rewrite <- !app_assoc. split; [exact K'|]. right.
    destruct D as [(-> & ->)|(T2 & t2 & m & e2 & -> & D)].
    + exists [], t, ns0, e. split; [reflexivity|]. split; [reflexivity|]. split; [exact (part_clean _ _ Hp)|exact He].
    + exists (t :: T2), t2, m, e2. split; [reflexivity|exact D].
Qed.
Lemma head_end open T t c P B ns e : before open T P -> in_part B ns -> block_start t -> r_stmt (t :: c) [] (Err e ([], [])) -> unclosed t e ->
  exists ns', r_block Root (line_of (P ++ B ++ [t :: c])) (Done ns' ([], [])) /\ ends_open (t :: T) ns ns'.
Proof.
  intros H Hp Ht Hs He. pose proof (err_block (top_kind open) B ns t c [] e Hp (start_not_closer _ Ht) Hs) as K.
  destruct (main_end open T P _ _ H K) as (ns' & K' & D). exists ns'. split; [exact K'|]. right.
  destruct D as [(-> & ->)|(T2 & t2 & m & e2 & -> & D)].
  - exists [], t, ns, e. split; [reflexivity|]. split; [reflexivity|]. split; [exact (part_clean _ _ Hp)|exact He].
  - exists (t :: T2), t2, m, e2. split; [reflexivity|exact D].
Qed.
Lemma wtf_end t q : kw WTF t -> question_tok q -> r_stmt [t; q] [] (Err (MissingBlockClosingToken t) ([], [])).
Proof.
  intros Ht Hq. eapply r_wtf_closing; [exact Ht|exact Hq|apply r_cases_none, nil_not|apply r_section_none, nil_not|constructor|constructor].
Qed.
Lemma o_rly_end t q : kw O_RLY t -> question_tok q -> r_stmt [t; q] [] (Err (MissingBlockClosingToken t) ([], [])).
Proof.
  intros Ht Hq. eapply r_o_rly_closing; [exact Ht|exact Hq|apply r_section_none, nil_not|apply r_cases_none, nil_not|apply r_section_none, nil_not|constructor|constructor].
Qed.
Lemma program_end s T ls : past s T ls -> T <> [] -> exists T' t m e, T = T' ++ [t] /\
  r_block Root (line_of ls) (Done (m ++ [NASTError e]) ([], [])) /\ forallb node_clean m = true /\ unclosed t e.
Proof.
  intros H HT. assert (G : forall ns ns', r_block Root (line_of ls) (Done ns' ([], [])) -> ends_open T ns ns' -> exists T' t m e, T = T' ++ [t] /\
    r_block Root (line_of ls) (Done (m ++ [NASTError e]) ([], [])) /\ forallb node_clean m = true /\ unclosed t e).
  { intros ns ns' K [(E & _)|(T' & t & m & e & E & -> & D)]; [contradiction|]. exists T', t, m, e. auto. }
  destruct s as [open|open|open|open|open|]; cbn [past] in H.
  - destruct (main_end open T ls [] [] H (r_block_empty _ _ _ (r_more_empty _ [] eq_refl))) as (ns' & K & D).
    rewrite app_nil_r in K. eauto.
  - destruct H as (P & B & ns & -> & H & HB).
    destruct (main_end open T P B ns H) as (ns' & K & D); [|eauto].
    pose proof (block_block _ _ (top_kind open) [] _ HB (r_more_empty _ [] eq_refl)) as K. cbn [omap line_of] in K. rewrite !app_nil_r in K. exact K.
  - destruct H as (P & B & ns & M & n & -> & H & HB & Hn). destruct (need_empty M n Hn) as (t & c & M' & -> & Ht & K).
    specialize (K []). rewrite app_nil_r in K. pose proof (r_block_done (top_kind open) _ _ _ _ _ _ _ K (r_more_empty _ [] eq_refl)) as K1.
    pose proof (in_context _ _ _ _ _ _ _ HB Ht K1) as K2.
    destruct (main_end open T P _ _ H K2) as (ns' & K' & D). eauto.
  - destruct H as (P & B & ns & t & q & T' & -> & -> & H & HB & Ht & Hq).
    destruct (head_end open T' t [q] P B ns _ H HB ltac:(unfold block_start; auto) (wtf_end t q Ht Hq) ltac:(apply unclosed_other; auto)) as (ns' & K & D). eauto.
  - destruct H as (P & B & ns & t & q & T' & -> & -> & H & HB & Ht & Hq).
    destruct (head_end open T' t [q] P B ns _ H HB ltac:(unfold block_start; tauto) (o_rly_end t q Ht Hq) ltac:(apply unclosed_other; auto)) as (ns' & K & D). eauto.
  - destruct H as (E & _). contradiction.
Qed.
Lemma unclosed_ok ts s T t : tracks (Fresh []) [] (logical_lines ts) s (T ++ [t]) ->
  exists ns e, parse ts = ParseOk (ASTBlock (ns ++ [NASTError e])) /\ forallb node_clean ns = true /\ unclosed t e.
Proof.
  intros H. apply past_run in H. destruct (program_end _ _ _ H) as (T' & t' & m & e & E & K & Hm & He); [destruct T; discriminate|].
  apply app_inj_tail in E as (<- & <-). exists m, e. split; [|auto]. apply RecoveryProps.parse_nodes. eexists. exact K.
Qed.

(** ** The first bad line, outside blocks *)
Definition bad_first (l : list token) (ns : list node) : Prop :=
  exists ns1 e ns2, ns = ns1 ++ NASTError e :: ns2 /\ forallb node_clean ns1 = true /\ error_on l e.
Lemma bad_app l a ns : forallb node_clean a = true -> bad_first l ns -> bad_first l (a ++ ns).
Proof.
  intros Ha (n1 & e & n2 & -> & H1 & H). exists (a ++ n1), e, n2. split; [apply app_assoc|]. split; [|exact H].
  rewrite forallb_app, Ha. exact H1.
Qed.
Lemma left_on p x r : error_on (p ++ x :: r) (TooManyTokens (x :: r)).
Proof. split; [discriminate|]. exists p. reflexivity. Qed.
Definition bad_stmt (l : list token) (o : out node) : Prop :=
  match o with
  | Done n (r, _) => node_clean n = true /\ r <> [] /\ exists p, l = p ++ r
  | Err e _ => error_on l e
  | Crash _ => True
  end.
Lemma failed_bad l f ls : on_line l f -> bad_stmt l (failed f ls).
Proof. destruct f as [e r|]; [|intros; exact I]. intros (p & -> & H). exact (error_on_at _ _ _ H). Qed.
Lemma bad_line_stmt t c ls o : (forall s', ~ step (Fresh []) (t :: c) s') -> r_stmt (t :: c) ls o -> bad_stmt (t :: c) o.
Proof.
  intros N H. remember (t :: c) as l eqn:E.
  assert (NL : forall u d label it cond, l = u :: d -> kw IM_IN_YR u -> loop_header d label it cond [] -> False).
  { intros u d label it cond -> Hu (its & cs & -> & Hl & Hi & Hc & _). rewrite app_nil_r in N.
    exact (N _ (step_loop _ _ u label its it cs cond (in_fresh []) Hu Hl Hi Hc)). }
  assert (NF : forall u d i ps, l = u :: d -> kw HOW_IZ_I u -> function_header d i ps [] -> False).
  { intros u d i ps -> Hu (ts & us & -> & Hi & Hp & _). rewrite app_nil_r in N.
    exact (N _ (step_function _ _ u ts i us ps (in_fresh []) Hu Hi Hp)). }
  assert (NW : forall u q, l = [u; q] -> kw WTF u -> question_tok q -> False)
    by (intros u q -> Hu Hq; exact (N _ (step_wtf _ _ u q (in_fresh []) Hu Hq))).
  assert (NO : forall u q, l = [u; q] -> kw O_RLY u -> question_tok q -> False)
    by (intros u q -> Hu Hq; exact (N _ (step_o_rly _ _ u q (in_fresh []) Hu Hq))).
  clear E. destruct H; try (exfalso; eauto; fail).
  - destruct H as (p & -> & Hd & _). split; [exact (proj1 clean_mut _ _ (d_single _ _ Hd))|]. split; [|exists p; reflexivity].
    intros ->. rewrite app_nil_r in N. exact (N _ (step_line _ _ _ _ (in_fresh []) Hd)).
  - apply failed_bad, fails_stmt_on. assumption.
  - destruct (N _ (step_hai _ _ t0 v (in_fresh []) H)).
  - apply failed_bad. apply x_loop_on; assumption.
  - destruct H0 as (its & cs & -> & H'). cbn [bad_stmt]. replace (t0 :: label :: its ++ cs ++ x :: r) with ((t0 :: label :: its ++ cs) ++ x :: r)
      by (cbn [app]; rewrite <- app_assoc; reflexivity). apply left_on.
  - apply failed_bad. apply x_function_on; assumption.
  - destruct H0 as (ts & us & -> & H'). cbn [bad_stmt]. replace (t0 :: ts ++ us ++ x :: r) with ((t0 :: ts ++ us) ++ x :: r)
      by (cbn [app]; rewrite <- app_assoc; reflexivity). apply left_on.
  - apply failed_bad. apply x_question_on; auto.
  - exact (left_on [t0; q] x r).
  - apply failed_bad. apply x_question_on; auto.
  - exact (left_on [t0; q] x r).
Qed.
Lemma bad_block k t c ls ns p : (forall s', ~ step (Fresh []) (t :: c) s') -> r_block k (t :: c, ls) (Done ns p) -> bad_first (t :: c) ns.
Proof.
  intros N H. remember (t :: c, ls) as q eqn:Eq. remember (Done ns p) as o eqn:Eo. destruct H; try discriminate.
  - injection Eq as -> -> ->. destruct o; try discriminate. injection Eo as <- <-.
    destruct (bad_line_stmt _ _ _ _ N H) as (Hn & Hr & pre & E). destruct r as [|x r]; [contradiction|].
    exists [n], (TooManyTokens (x :: r)), a. split; [reflexivity|]. split; [cbn; rewrite Hn; reflexivity|]. rewrite E. apply left_on.
  - injection Eq as -> -> ->. destruct o; try discriminate. injection Eo as <- <-.
    exists [], e, (left_over r ++ a). split; [reflexivity|]. split; [reflexivity|]. exact (bad_line_stmt _ _ _ _ N H).
Qed.
Lemma bad_line_ok ls1 l ls2 s ts ns : logical_lines ts = ls1 ++ l :: ls2 -> tracks (Fresh []) [] ls1 s [] -> (forall s', ~ step s l s') ->
  parse ts = ParseOk (ASTBlock ns) -> exists ns1 e ns2, ns = ns1 ++ NASTError e :: ns2 /\ forallb node_clean ns1 = true /\ error_on l e.
Proof.
  intros E Ht N Hp. change (bad_first l ns). apply past_run in Ht. apply RecoveryProps.parse_nodes in Hp as (p & Hp). rewrite E in Hp.
  destruct (block_one_outcome Root (line_of (ls1 ++ l :: ls2))) as (o & _ & U). pose proof (U _ Hp) as Uo.
  assert (F : forall open P, before open [] P -> open = [] /\ P = []).
  { intros [|f open] P H; [destruct H; auto|]. destruct H as (P0 & B & ns0 & M & t & T' & K & _). discriminate. }
  assert (G : forall n o', forallb node_clean n = true -> r_block Root (line_of (ls1 ++ l :: ls2)) (omap (app n) o') ->
    (forall ns' p', o' = Done ns' p' -> bad_first l ns') -> bad_first l ns).
  { intros n o' Hn K B. apply U in K. rewrite <- Uo in K. destruct o'; try discriminate. injection K as <- <-. apply bad_app; eauto. }
  destruct s as [open|open|open|open|open|]; cbn [past] in Ht.
  - apply F in Ht as (-> & ->). cbn [app line_of] in Hp. destruct l as [|t c]; [destruct (N _ (step_first_empty []))|].
    exact (bad_block _ _ _ _ _ _ N Hp).
  - destruct Ht as (P & B & nb & -> & Ht & HB). apply F in Ht as (-> & ->). cbn [app] in *.
    destruct l as [|t c]; [destruct (N _ step_end)|].
    assert (N' : forall s', ~ step (Fresh []) (t :: c) s').
    { intros s' H. inversion H; subst;
        try match goal with K : in_block (Fresh _) _ |- _ => inversion K; subst end;
        try match goal with K : before_case (Fresh _) _ |- _ => inversion K end;
        try match goal with K : before_mebbe (Fresh _) _ |- _ => inversion K end;
        try match goal with K : before_case (Fresh _) _ \/ _ |- _ => destruct K as [K|K]; [inversion K|discriminate] end;
        try match goal with K : before_mebbe (Fresh _) _ \/ _ |- _ => destruct K as [K|K]; [inversion K|discriminate] end.
      - exact (N _ (step_line _ _ _ _ (in_begun []) ltac:(eassumption))).
      - exact (N _ (step_hai _ _ _ _ (in_begun []) ltac:(eassumption))).
      - exact (N _ (step_loop _ _ _ _ _ _ _ _ (in_begun []) ltac:(eassumption) ltac:(eassumption) ltac:(eassumption) ltac:(eassumption))).
      - exact (N _ (step_function _ _ _ _ _ _ _ (in_begun []) ltac:(eassumption) ltac:(eassumption) ltac:(eassumption))).
      - exact (N _ (step_wtf _ _ _ _ (in_begun []) ltac:(eassumption) ltac:(eassumption))).
      - exact (N _ (step_o_rly _ _ _ _ (in_begun []) ltac:(eassumption) ltac:(eassumption))). }
    destruct (block_total Root (t :: c, ls2)) as (o' & K).
    apply (G nb o'); [exact (part_clean _ _ (or_intror HB))| |intros ns' p' ->; exact (bad_block _ _ _ _ _ _ N' K)].
    apply block_block; [exact HB|]. apply r_more_go; [intros []|exact K].
  - destruct Ht as (P & B & nb & M & n & -> & Ht & HB & Hn). apply F in Ht as (-> & ->). cbn [app] in *.
    destruct l as [|t c]; [destruct (N _ (step_needed_empty []))|].
    destruct (need_empty M n Hn) as (u & d & M' & -> & Hu & K). specialize (K ((t :: c) :: ls2)). cbn [line_of] in K.
    destruct (more_total Root ls2) as (o' & Ho). pose proof (r_block_done Root _ _ _ _ _ _ _ K Ho) as K1.
    pose proof (in_context _ _ _ _ _ _ _ HB Hu K1) as K2.
    apply (G nb (omap (app (n :: left_over (t :: c))) o')); [exact (part_clean _ _ HB)|rewrite <- app_assoc; exact K2|].
    intros ns' p' E'. destruct o'; try discriminate. injection E' as <- <-.
    exists [n], (TooManyTokens (t :: c)), a. split; [reflexivity|]. split; [cbn [forallb]; rewrite (proj1 clean_mut _ _ Hn); reflexivity|].
    exact (left_on [] t c).
  - destruct Ht as (P & B & nb & t & q & T' & K & _). discriminate.
  - destruct Ht as (P & B & nb & t & q & T' & K & _). discriminate.
  - destruct (N _ (step_ended l)).
Qed.

(** ** The checker and the one of C89 *)
Lemma tracked_ok s ls s' : steps s ls s' <-> exists T', tracks s [] ls s' T'.
Proof.
  split; [|intros (T' & H); induction H; econstructor; eassumption].
  intros H. generalize (@nil token). induction H as [s|s l s1 ls s2 H _ IH]; intros T; [exists T; constructor|].
  destruct (IH (opens_closes s s1 l T)) as (T' & HT). exists T'. econstructor; eassumption.
Qed.
Lemma tracked_length_ok ls s T : tracks (Fresh []) [] ls s T -> length T = depth s.
Proof.
  intros H. apply past_run in H.
  assert (F : forall open T P, before open T P -> length T = length open).
  { induction open as [|f open IH]; intros T' P K; [destruct K as (-> & ->); reflexivity|].
    destruct K as (P0 & B & ns & M & t & T2 & -> & -> & K & _). cbn [length]. f_equal. eauto. }
  destruct s; cbn [past depth] in *.
  - eauto.
  - destruct H as (P & B & ns & -> & H & _). eauto.
  - destruct H as (P & B & ns & M & n & -> & H & _). eauto.
  - destruct H as (P & B & ns & t & q & T' & -> & -> & H & _). cbn [length]. f_equal. eauto.
  - destruct H as (P & B & ns & t & q & T' & -> & -> & H & _). cbn [length]. f_equal. eauto.
  - destruct H as (-> & _). reflexivity.
Qed.

(** ** Sources *)
Lemma sources_ok code ts s T more b e : whole_lines code ts -> tracks (Fresh []) [] (logical_lines ts) s T ->
  tokenize_and_parse (code ++ more) = ApiOk b -> In e (block_errors b) ->
  Forall (fun t => (Z.of_nat (byte_len code) <= bytes (start_of t))%Z) (error_tokens e) \/ exists t, In t T /\ unclosed t e.
Proof.
  intros W S HP He. assert (EM : exists us, tokenize more = LexOk us).
  { unfold tokenize_and_parse in HP. destruct W as [(-> & _)|(s0 & -> & E & HF & _)].
    - cbn [app] in HP. destruct (tokenize more) as [us|[]| |]; try discriminate HP. eauto.
    - rewrite <- app_assoc in HP. cbn [app] in HP. rewrite (tokenize_compositional s0 newline more _ (or_intror eq_refl) E HF) in HP.
      destruct (tokenize more) as [us|[]| |]; cbn [shift_result] in HP; try discriminate HP. eauto. }
  destruct EM as (us & EM). destruct (whole_then code ts more us W EM) as (ET & _).
  unfold tokenize_and_parse in HP. rewrite ET in HP. set (p := pos_at ts code) in *.
  destruct (parse (ts ++ map (shift_token p) us)) as [b0| |] eqn:EP; try discriminate HP. injection HP as ->.
  assert (A : forall Z0, incl (error_tokens e) Z0 -> incl Z0 (map (shift_token p) us) ->
    Forall (fun t => (Z.of_nat (byte_len code) <= bytes (start_of t))%Z) (error_tokens e)).
  { intros Z0 H1 H2. rewrite Forall_forall. intros t Ht. specialize (H2 _ (H1 _ Ht)). apply in_map_iff in H2 as (u & <- & Hu).
    pose proof (tokenize_lossless _ _ EM) as (L & _). rewrite Forall_forall in L. destruct (L u Hu) as ((L1 & _) & _).
    unfold start_of in *. cbn. lia. }
  destruct ts as [|t ts].
  - inversion S; subst. cbn [app] in EP.
    destruct (no_false_alarms_ok [] (logical_lines (map (shift_token p) us)) (Fresh []) [] _ b e eq_refl (tracks_nil _ _) EP He) as [H|H]; [left|right; exact H].
    eapply A; [exact H|]. intros u. apply in_lines.
  - destruct (whole_after code (t :: ts) more us W ltac:(discriminate) EM) as (q & ET' & EL). rewrite ET in ET'. injection ET' as EQ.
    apply app_inv_head in EQ. rewrite <- EQ in EL.
    destruct (no_false_alarms_ok _ _ s T _ b e EL S EP He) as [H|H]; [left|right; exact H].
    eapply A; [exact H|]. intros u Hu. apply in_concat in Hu as (l & Hl & Hu). apply in_map_iff in Hl as (l' & <- & Hl').
    apply in_map_iff in Hu as (v & <- & Hv). rewrite EQ. apply in_map.
    eapply LineTrace.subseq_incl; [apply statements_subseq|]. apply in_concat. eauto.
Qed.
