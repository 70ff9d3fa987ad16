(** Proofs for C91, continued: what the parser does after lines that the checker has read. *)
From Coq Require Import String Lia.
From Verif Require Import Parser Lines LinesSim ParseFuel Free Relabel RelabelProofs ExprGrammar Grammar Clean LineGrammar ProgGrammar ProgComplete
  Failure Reads RecoveryProps RecoverySound ParserProps AppendProofs LineEffect LineEffectProofs StmtSubst NodeLines NodeLinesProofs CheckerProofs LineTrace ProgTrace FirstErrorProofs.
From Verif Require Import Recovery.
Local Open Scope list_scope.

(** ** Headers *)
Lemma begins_nil P : ~ begins P [].
Proof. intros (t & r & E & _). discriminate. Qed.
Lemma loop_header_of label its it cs cond : ident_tok label -> d_iteration its it -> d_condition cs cond ->
  loop_header (label :: its ++ cs) label it cond [].
Proof.
  intros Hl Hi Hc. exists its, cs. rewrite !app_nil_r. split; [reflexivity|]. repeat (split; [assumption|]).
  split; [|split; [|split]]; auto using begins_nil.
  - intros _ (t & r & E & Ht). destruct (d_condition_first _ _ Hc _ _ E) as [K|K], Ht as [X|X];
      pose proof (kw_fun _ _ _ K X); discriminate.
  - intros [_ X]. exact (begins_nil _ X).
Qed.
Lemma function_header_of ts i us ps : d_identifier ts i -> d_params us ps -> function_header (ts ++ us) i ps [].
Proof. intros Hi Hp. exists ts, us. rewrite app_nil_r. auto using begins_nil. Qed.

(** ** Sections that have been read *)
Definition errs (ns : list node) : list ast_error := flat_map node_error ns.
Lemma errs_app a b : errs (a ++ b) = errs a ++ errs b.
Proof. apply flat_map_app. Qed.
Lemma derived_errors :
  (forall L n, d_stmt L n -> errs (node_all n) = []) /\ (forall L ns, d_block L ns -> errs (ns_all ns) = []) /\
  (forall L ns, d_stmts L ns -> errs (ns_all ns) = []) /\
  (forall L os, d_omgs L os -> errs (flat_map (fun x => match x with WtfOmg _ _ b => block_all b end) os) = []) /\
  (forall L d, d_default L d -> errs (match d with Some (WtfOmgWtf _ b) => block_all b | None => [] end) = []) /\
  (forall L d, d_ya_rly L d -> errs (match d with Some (YaRly _ b) => block_all b | None => [] end) = []) /\
  (forall L ms, d_mebbes L ms -> errs (flat_map (fun x => match x with Mebbe _ _ b => block_all b end) ms) = []) /\
  (forall L d, d_no_wai L d -> errs (match d with Some (NoWai _ b) => block_all b | None => [] end) = []).
Proof.
  apply d_stmt_mut; intros; cbn [node_all ns_all flat_map block_all] in *; auto.
  - match goal with H : d_line _ _ |- _ => destruct H; reflexivity end.
  - change (errs (flat_map (fun x => match x with WtfOmg _ _ b => block_all b end) omgs ++
      match default with Some (WtfOmgWtf _ b) => block_all b | None => [] end) = []). rewrite errs_app, H, H0. reflexivity.
  - change (errs (match yes with Some (YaRly _ b) => block_all b | None => [] end ++
      flat_map (fun x => match x with Mebbe _ _ b => block_all b end) mebbes ++
      match no with Some (NoWai _ b) => block_all b | None => [] end) = []). rewrite !errs_app, H, H0, H1. reflexivity.
  - rewrite errs_app, H. exact H0.
  - rewrite errs_app. fold (ns_all ns). rewrite H. exact H0.
  - rewrite errs_app. fold (ns_all ns). rewrite H. exact H0.
Qed.
Lemma block_ends B ns k t c X : d_block B ns -> closes k t -> r_block k (line_of (B ++ (t :: c) :: X)) (Done ns (t :: c, X)).
Proof.
  intros H Ht. pose proof (block_block _ _ k _ _ H (r_more_close k t c X Ht)) as K. cbn [omap] in K. rewrite app_nil_r in K. exact K.
Qed.
Definition omg_of (x : token * expr * list node) : wtf_omg := match x with (a, e, ns) => WtfOmg a e (ASTBlock ns) end.
Definition mebbe_of (x : token * expr * list node) : mebbe := match x with (a, e, ns) => Mebbe a e (ASTBlock ns) end.
Lemma omgs_cases L x u c X o : d_omgs L x -> closes SwitchBody u -> r_cases OMG MissingToken SwitchBody (u :: c, X) o ->
  exists x', map omg_of x' = x /\ r_cases OMG MissingToken SwitchBody (line_of (L ++ (u :: c) :: X)) (omap (app x') o) /\
    exists u' c' X', L ++ (u :: c) :: X = (u' :: c') :: X' /\ closes SwitchBody u'.
Proof.
  intros H Hu Ho. induction H as [|t b ts e B ns M os Ht He HB _ (x' & E & IH & u' & c' & X' & EX & Hu')].
  - exists []. split; [reflexivity|]. cbn [app line_of]. rewrite omap_id by reflexivity. split; [exact Ho|eauto].
  - exists ((t, e, ns) :: x'). split; [cbn; now rewrite E|]. split.
    + change (r_cases OMG MissingToken SwitchBody (t :: ts, (B ++ M) ++ (u :: c) :: X) (omap (app ((t, e, ns) :: x')) o)).
      rewrite <- app_assoc, EX. rewrite EX in IH. cbn [line_of] in IH.
      pose proof (r_cases_cons OMG MissingToken SwitchBody t b ts e (B ++ (u' :: c') :: X') ns (u' :: c', X') _ Ht He
        (block_ends B ns SwitchBody u' c' X' HB Hu') IH) as K.
      destruct o; exact K.
    + exists t, ts, ((B ++ M) ++ (u :: c) :: X). split; [reflexivity|]. left. exact Ht.
Qed.
Notation mebbe_missing := (fun m => EORly (MissingMebbeExpression m)).
Lemma mebbes_cases L x u c X o : d_mebbes L x -> closes IfBody u -> r_cases MEBBE mebbe_missing IfBody (u :: c, X) o ->
  exists x', map mebbe_of x' = x /\ r_cases MEBBE mebbe_missing IfBody (line_of (L ++ (u :: c) :: X)) (omap (app x') o) /\
    exists u' c' X', L ++ (u :: c) :: X = (u' :: c') :: X' /\ closes IfBody u' /\ (kw MEBBE u' \/ u' = u).
Proof.
  intros H Hu Ho. induction H as [|t b ts e B ns M os Ht He HB _ (x' & E & IH & u' & c' & X' & EX & Hu' & _)].
  - exists []. split; [reflexivity|]. cbn [app line_of]. rewrite omap_id by reflexivity. split; [exact Ho|eauto 8].
  - exists ((t, e, ns) :: x'). split; [cbn; now rewrite E|]. split.
    + change (r_cases MEBBE mebbe_missing IfBody (t :: ts, (B ++ M) ++ (u :: c) :: X) (omap (app ((t, e, ns) :: x')) o)).
      rewrite <- app_assoc, EX. rewrite EX in IH. cbn [line_of] in IH.
      pose proof (r_cases_cons MEBBE mebbe_missing IfBody t b ts e (B ++ (u' :: c') :: X') ns (u' :: c', X') _ Ht He
        (block_ends B ns IfBody u' c' X' HB Hu') IH) as K.
      destruct o; exact K.
    + exists t, ts, ((B ++ M) ++ (u :: c) :: X). split; [reflexivity|]. split; [left; exact Ht|left; exact Ht].
Qed.
Lemma ya_section Y y u c X : d_ya_rly Y y -> closes IfBody u -> ~ kw YA_RLY u ->
  exists y', option_map (fun '(a, ns) => YaRly a (ASTBlock ns)) y' = y /\
    r_section YA_RLY IfBody (line_of (Y ++ (u :: c) :: X)) (Done y' (u :: c, X)).
Proof.
  intros H Hu Hn. destruct H as [|t B ns Ht HB].
  - exists None. split; [reflexivity|]. apply r_section_none. intros (t & r & E & Ht). injection E as <- <-. exact (Hn Ht).
  - exists (Some (t, ns)). split; [reflexivity|]. cbn [app line_of].
    apply (r_section_block YA_RLY IfBody t _ (Done ns (u :: c, X)) Ht). apply block_ends; assumption.
Qed.
Lemma not_begins w k u c : kw k u -> k <> w -> ~ begins (kw w) (u :: c).
Proof. intros H N (t & r & E & Ht). injection E as <- <-. apply N. exact (kw_fun _ _ _ H Ht). Qed.

(** ** At the end of the program *)
Definition kind_of (f : frame) : kind :=
  match f with FLoop => LoopBody | FFunction => FunctionBody | FSwitch | FDefault => SwitchBody | FIf | FElse => IfBody end.

Lemma nil_not w : ~ begins (kw w) [].
Proof. apply begins_nil. Qed.
Lemma pending_end f M t Z ns : opened f M t -> r_block (kind_of f) (line_of Z) (Done ns ([], [])) ->
  exists c M' e, M = (t :: c) :: M' /\ r_stmt (t :: c) (M' ++ Z) (Err e ([], [])) /\ unclosed t e.
Proof.
  intros H HB. destruct H; cbn [kind_of] in HB.
  - eexists _, [], _. split; [reflexivity|]. split; [|constructor; assumption].
    eapply r_loop_unclosed; [eassumption|apply loop_header_of; eassumption|exact HB].
  - eexists _, [], _. split; [reflexivity|]. split; [|apply unclosed_other; auto].
    eapply r_function_unclosed; [eassumption|apply function_header_of; eassumption|exact HB].
  - eexists [q], (L ++ [u :: ts]), (MissingBlockClosingToken t). split; [reflexivity|]. split; [|apply unclosed_other; auto].
    destruct (omgs_cases L x u ts Z _ H1 (or_introl H2) (r_cases_cons _ _ _ _ _ _ _ _ _ _ _ H2 H3 HB (r_cases_none _ _ _ [] [] (nil_not _))))
      as (x' & _ & K & _). cbn [omap] in K.
    rewrite <- app_assoc. cbn [app].
    eapply r_wtf_closing; [assumption|assumption|exact K|apply r_section_none, nil_not|constructor|constructor].
  - eexists [q], (L ++ [[u]]), (MissingBlockClosingToken t). split; [reflexivity|]. split; [|apply unclosed_other; auto].
    destruct (omgs_cases L x u [] Z _ H1 (or_intror (or_introl H2)) (r_cases_none _ _ _ [u] Z (not_begins OMG _ u [] H2 ltac:(discriminate))))
      as (x' & _ & K & _). cbn [omap] in K.
    rewrite <- app_assoc. cbn [app].
    eapply r_wtf_closing; [assumption|assumption|exact K|exact (r_section_block _ _ _ _ _ H2 HB)|constructor|constructor].
  - eexists [q], [[u]], (MissingBlockClosingToken t). split; [reflexivity|]. split; [|apply unclosed_other; auto].
    eapply r_o_rly_closing; [assumption|assumption|exact (r_section_block _ _ u Z _ H1 HB)|apply r_cases_none, nil_not|apply r_section_none, nil_not|constructor|constructor].
  - eexists [q], (Y ++ L ++ [u :: ts]), (MissingBlockClosingToken t). split; [reflexivity|]. split; [|apply unclosed_other; auto].
    destruct (mebbes_cases L x u ts Z _ H2 (or_introl H3) (r_cases_cons _ mebbe_missing _ _ _ _ _ _ _ _ _ H3 H4 HB (r_cases_none _ _ _ [] [] (nil_not _))))
      as (x' & _ & K & u' & c' & X' & E & Hu' & Hk). cbn [omap] in K.
    assert (N : ~ kw YA_RLY u') by (destruct Hk as [Hk| ->]; intros X; [pose proof (kw_fun _ _ _ Hk X)|pose proof (kw_fun _ _ _ H3 X)]; discriminate).
    destruct (ya_section Y y u' c' X' H1 Hu' N) as (y' & _ & KY).
    rewrite <- !app_assoc. cbn [app]. rewrite E in *.
    eapply r_o_rly_closing; [assumption|assumption|exact KY|exact K|apply r_section_none, nil_not|constructor|constructor].
  - eexists [q], (Y ++ L ++ [[u]]), (MissingBlockClosingToken t). split; [reflexivity|]. split; [|apply unclosed_other; auto].
    destruct (mebbes_cases L x u [] Z _ H2 (or_intror (or_introl H3)) (r_cases_none _ mebbe_missing _ [u] Z (not_begins MEBBE _ u [] H3 ltac:(discriminate))))
      as (x' & _ & K & u' & c' & X' & E & Hu' & Hk). cbn [omap] in K.
    assert (N : ~ kw YA_RLY u') by (destruct Hk as [Hk| ->]; intros X; [pose proof (kw_fun _ _ _ Hk X)|pose proof (kw_fun _ _ _ H3 X)]; discriminate).
    destruct (ya_section Y y u' c' X' H1 Hu' N) as (y' & _ & KY).
    rewrite <- !app_assoc. cbn [app]. rewrite E in *.
    eapply r_o_rly_closing; [assumption|assumption|exact KY|exact K|exact (r_section_block _ _ _ _ _ H3 HB)|constructor|constructor].
Qed.

(** ** Errors are about what comes later, or about statements that are open *)
Definition question_ : token := mkToken (TSymbol (lit "?")) (mkRange position_start position_start).
Lemma va_first ts v : d_va ts v -> exists t c, ts = t :: c /\ id_start t.
Proof.
  intros [ts' i us slots H _]. destruct H; eexists _, _; (split; [reflexivity|]); unfold id_start; auto.
Qed.
Lemma ident_not_kw k t : id_start t -> kw k t -> k = SRS.
Proof. intros [(s & E)|E] K; [unfold kw in K; congruence|]. exact (kw_fun _ _ _ K E). Qed.
Definition tokens_of (p : place) : list token := fst p ++ concat (snd p).
Lemma logical_panic_in L p : parse_logical L = ParsePanic p -> ok_panic L p.
Proof. unfold parse_logical. intros H. pose proof (root_ok L (lsum L + 4)) as R. rewrite H in R. exact R. Qed.
Lemma panic_in_line t c p : r_stmt (t :: c) [] (Crash p) -> incl (panic_tokens p) (t :: c).
Proof.
  intros H. assert (K : ok_panic [t :: c] p) by (apply logical_panic_in, logical_panics; exact (r_block_crash Root _ _ _ _ H)).
  destruct p as [u|v u]; cbn [ok_panic panic_tokens] in *.
  - destruct K as (_ & K). cbn [concat] in K. rewrite app_nil_r in K. intros x [<-|[]]. exact K.
  - destruct K as (ts & rest & [E|[]] & _). rewrite E. intros x [<-|[]]. apply in_or_app. right. left. reflexivity.
Qed.
Lemma panic_in_expr l p : x_expr l (FPanic p) -> incl (panic_tokens p) l.
Proof.
  intros H. set (w := word WTF). set (o := word OMG).
  assert (Hs : r_stmt [w; question_] [o :: l] (Crash p)).
  { eapply r_wtf_cases; [reflexivity|reflexivity| |apply aborts_crash].
    exact (r_cases_expr OMG MissingToken SwitchBody o l (FPanic p) [] eq_refl (x_expected_expr _ _ _ H)). }
  assert (K : ok_panic [[w; question_]; o :: l] p) by (apply logical_panic_in, logical_panics; exact (r_block_crash Root _ _ _ _ Hs)).
  destruct p as [u|v u]; cbn [ok_panic panic_tokens] in *.
  - destruct K as (Hu & K). cbn [concat app] in K. rewrite app_nil_r in K. intros x [<-|[]].
    destruct K as [<-|[<-|[<-|K]]]; [discriminate Hu..|exact K].
  - destruct K as (ts & rest & K & Hv & _). destruct (va_first _ _ Hv) as (t & c & -> & Hi). cbn [app] in K.
    destruct K as [K|[K|[]]]; injection K as <- _; destruct Hi as [(x & E)|E]; discriminate E.
Qed.
Lemma fails_nonempty f : fails_stmt [] f -> False.
Proof.
  intros H. remember [] as l eqn:E. destruct H; try discriminate E.
  all: try (destruct ts; discriminate E); subst.
  all: try (match goal with H : begins _ [] |- _ => destruct H as (? & ? & K & _); discriminate K end).
  match goal with H : x_expr [] _ |- _ => inversion H end.
  match goal with H : begins _ [] |- _ => destruct H as (? & ? & K & _); discriminate K end.
Qed.
Definition crashes {A} (o : out A) (Z : list token) : Prop := forall p, o = Crash p -> incl (panic_tokens p) Z.
Lemma crash_map {A B} (f : A -> B) o Z : crashes o Z -> crashes (omap f o) Z.
Proof. intros H p E. apply H. destruct o; cbn in E; congruence. Qed.
Lemma crash_aborts {A B} (o : out A) (o' : out B) Z : aborts o o' -> crashes o Z -> crashes o' Z.
Proof. intros H K p E. apply K. destruct H; congruence. Qed.
Lemma crash_incl {A} (o : out A) Z Z' : crashes o Z -> incl Z Z' -> crashes o Z'.
Proof. intros H K p E. exact (incl_tran (H p E) K). Qed.
Lemma crash_failed {A} f ls l : (forall ls', r_stmt l ls' (failed f ls')) -> l <> [] -> crashes (failed f ls : out A) (l ++ concat ls).
Proof.
  intros H Hl p E. destruct f as [e r|q]; [discriminate|]. injection E as ->. destruct l as [|t c]; [contradiction|].
  eapply incl_tran; [exact (panic_in_line t c p (H []))|]. apply incl_appl, incl_refl.
Qed.
Lemma runs_left_in a es b : runs a es b -> incl (concat b) (concat a).
Proof.
  induction 1 as [ls|l g ls es ls' Hl _ IH|es ls _ IH].
  - apply incl_refl.
  - cbn [concat]. apply incl_appr, IH.
  - exact IH.
Qed.
Lemma done_in {A} (g : A -> list node) ls a p : part_runs g ls (Done a p) -> incl (tokens_of p) (concat ls).
Proof. apply runs_left_in. Qed.
Lemma block_left k p ns p' : r_block k p (Done ns p') -> incl (tokens_of p') (tokens_of p).
Proof. intros H. exact (done_in _ (at_ p) _ _ (proj1 (proj2 r_runs) _ _ _ H)). Qed.
Lemma section_left w k p ns p' : r_section w k p (Done ns p') -> incl (tokens_of p') (tokens_of p).
Proof. intros H. exact (done_in _ (at_ p) _ _ (proj1 (proj2 (proj2 (proj2 r_runs))) _ _ _ _ H)). Qed.
Lemma omgs_left p x p' : r_cases OMG MissingToken SwitchBody p (Done x p') -> incl (tokens_of p') (tokens_of p).
Proof.
  intros H. refine (done_in _ (at_ p) _ _ (proj2 (proj2 (proj2 (proj2 r_runs))) _ _ _ _ _ H _)).
  intros t _. split; [reflexivity|exists []; reflexivity].
Qed.
Lemma mebbes_left p x p' : r_cases MEBBE mebbe_missing IfBody p (Done x p') -> incl (tokens_of p') (tokens_of p).
Proof. intros H. refine (done_in _ (at_ p) _ _ (proj2 (proj2 (proj2 (proj2 r_runs))) _ _ _ _ _ H _)). cbn. auto. Qed.
Lemma stmt_left l ls n r ls' : r_stmt l ls (Done n (r, ls')) -> incl (concat ls') (l ++ concat ls).
Proof. intros H. exact (runs_left_in _ _ _ (proj1 r_runs _ _ _ H)). Qed.
Lemma stmt_left_err l ls e r ls' : r_stmt l ls (Err e (r, ls')) -> incl (concat ls') (l ++ concat ls).
Proof. intros H. exact (runs_left_in _ _ _ (proj1 r_runs _ _ _ H)). Qed.
Lemma line_of_tokens ls : tokens_of (line_of ls) = concat ls.
Proof. destruct ls; reflexivity. Qed.
Lemma crash_mut :
  (forall l ls o, r_stmt l ls o -> crashes o (l ++ concat ls)) /\
  (forall k p o, r_block k p o -> crashes o (tokens_of p)) /\
  (forall k ls o, r_more k ls o -> crashes o (concat ls)) /\
  (forall w k p o, r_section w k p o -> crashes o (tokens_of p)) /\
  (forall w m k p o, r_cases w m k p o -> crashes o (tokens_of p)).
Proof.
  apply r_mut; intros; rewrite ?line_of_tokens in *; try (intros ? E; discriminate E).
  - apply crash_failed; [intros; now apply r_fails|]. intros ->. eapply fails_nonempty. eassumption.
  - apply (crash_failed f ls (t :: c)); [intros; now apply r_loop_header|discriminate].
  - eapply crash_incl; [|apply incl_appr, incl_refl]. intros q E. injection E as <-. apply H2. reflexivity.
  - apply (crash_failed f ls (t :: c)); [intros; now apply r_function_header|discriminate].
  - eapply crash_incl; [|apply incl_appr, incl_refl]. intros q E. injection E as <-. apply H2. reflexivity.
  - apply (crash_failed f ls (t :: c)); [intros; now apply r_wtf_question|discriminate].
  - eapply crash_incl; [|apply incl_appr, incl_refl]. eapply crash_aborts; eassumption.
  - eapply crash_incl; [|apply incl_appr, incl_refl]. eapply crash_aborts; [eassumption|]. eapply crash_incl; [eassumption|].
    rewrite <- line_of_tokens. eapply omgs_left; eassumption.
  - intros z E. subst o'. match goal with H : aborts _ (Crash _) |- _ => inversion H; subst end.
    match goal with H : Recovery.closing _ _ (Crash _) |- _ => inversion H end.
  - apply (crash_failed f ls (t :: c)); [intros; now apply r_o_rly_question|discriminate].
  - eapply crash_incl; [|apply incl_appr, incl_refl]. eapply crash_aborts; eassumption.
  - eapply crash_incl; [|apply incl_appr, incl_refl]. eapply crash_aborts; [eassumption|]. eapply crash_incl; [eassumption|].
    rewrite <- line_of_tokens. eapply section_left; eassumption.
  - eapply crash_incl; [|apply incl_appr, incl_refl]. eapply crash_aborts; [eassumption|]. eapply crash_incl; [eassumption|].
    rewrite <- line_of_tokens. eapply incl_tran; [eapply mebbes_left|eapply section_left]; eassumption.
  - intros z E. subst o'. match goal with H : aborts _ (Crash _) |- _ => inversion H; subst end.
    match goal with H : Recovery.closing _ _ (Crash _) |- _ => inversion H end.
  - assumption.
  - apply crash_map. eapply crash_incl; [eassumption|]. eapply stmt_left; eassumption.
  - apply crash_map. eapply crash_incl; [eassumption|]. eapply stmt_left_err; eassumption.
  - intros z E. injection E as <-. exact (H0 _ eq_refl).
  - assumption.
  - apply crash_map. eapply crash_incl; [eassumption|]. apply incl_appr, incl_refl.
  - intros p E. destruct f as [e r|q]; [discriminate|]. injection E as <-.
    match goal with H : x_expected _ _ _ |- _ => inversion H; subst end.
    eapply incl_tran; [apply panic_in_expr; eassumption|]. unfold tokens_of. cbn [fst snd app]. apply incl_tl, incl_appl, incl_refl.
  - eapply crash_aborts; [eassumption|]. eapply crash_incl; [eassumption|]. unfold tokens_of. cbn [fst snd]. apply incl_appr, incl_refl.
  - apply crash_map. eapply crash_incl; [eassumption|]. eapply incl_tran; [eapply block_left; eassumption|].
    rewrite line_of_tokens. unfold tokens_of. cbn [fst snd]. apply incl_appr, incl_refl.
Qed.
Definition ok_err (Z T : list token) (e : ast_error) : Prop := incl (error_tokens e) Z \/ exists t, In t T /\ unclosed t e.
Definition fine {A} (g : A -> list node) (Z T : list token) (o : out A) : Prop :=
  match o with
  | Done a p => Forall (ok_err Z T) (errs (g a)) /\ incl (tokens_of p) Z
  | Err e p => ok_err Z T e /\ incl (tokens_of p) Z
  | Crash c => incl (panic_tokens c) Z
  end.

Lemma runs_in a es b : runs a es b -> Forall (fun e => incl (error_tokens e) (concat a)) (errs es) /\ incl (concat b) (concat a).
Proof.
  induction 1 as [ls|l g ls es ls' Hl _ (IH1 & IH2)|es ls _ (IH1 & IH2)].
  - split; [constructor|apply incl_refl].
  - split.
    + rewrite errs_app. apply Forall_app. split.
      * destruct (errors_of_nodes l g Hl) as [_ K]. eapply Forall_impl; [|exact K]. intros e He. cbn [concat]. apply incl_appl.
        destruct e; cbn [error_on] in He; try (destruct He as (t0 & -> & Hi); intros y [<-|[]]; exact Hi).
        destruct He as (_ & p & ->). apply incl_appr, incl_refl.
      * eapply Forall_impl; [|exact IH1]. intros e He. cbn [concat]. apply incl_appr, He.
    + cbn [concat]. apply incl_appr, IH2.
  - split; [exact IH1|exact IH2].
Qed.
Lemma fine_runs {A} (g : A -> list node) ls o Z T : part_runs g ls o -> crashes o (concat ls) -> incl (concat ls) Z -> fine g Z T o.
Proof.
  intros H HC HZ. destruct o as [a p|e p|c]; cbn [part_runs fine] in *; [| |exact (incl_tran (HC c eq_refl) HZ)]; apply runs_in in H as (H1 & H2).
  - split; [|exact (incl_tran H2 HZ)]. eapply Forall_impl; [|exact H1]. intros e He. left. exact (incl_tran He HZ).
  - inversion H1 as [|x xs He Hr]; subst. split; [left; exact (incl_tran He HZ)|].
    apply incl_app; [|exact (incl_tran H2 HZ)].
    destruct (fst p) as [|x r]; [intros y []|]. cbn in Hr. inversion Hr; subst. eapply incl_tran; [|exact HZ]. assumption.
Qed.
Lemma concat_at p : concat (at_ p) = tokens_of p.
Proof. reflexivity. Qed.
Lemma fine_block k p o Z T : r_block k p o -> incl (tokens_of p) Z -> fine ns_all Z T o.
Proof. intros H. apply (fine_runs _ (at_ p)); [exact (proj1 (proj2 r_runs) _ _ _ H)|exact (proj1 (proj2 crash_mut) _ _ _ H)]. Qed.
Lemma fine_more k ls o Z T : r_more k ls o -> incl (concat ls) Z -> fine ns_all Z T o.
Proof. intros H. apply (fine_runs _ ls); [exact (proj1 (proj2 (proj2 r_runs)) _ _ _ H)|exact (proj1 (proj2 (proj2 crash_mut)) _ _ _ H)]. Qed.
Lemma fine_section w k p o Z T : r_section w k p o -> incl (tokens_of p) Z -> fine sec_all Z T o.
Proof. intros H. apply (fine_runs _ (at_ p)); [exact (proj1 (proj2 (proj2 (proj2 r_runs))) _ _ _ _ H)|exact (proj1 (proj2 (proj2 (proj2 crash_mut))) _ _ _ _ H)]. Qed.
Lemma fine_omgs p o Z T : r_cases OMG MissingToken SwitchBody p o -> incl (tokens_of p) Z -> fine cases_all Z T o.
Proof.
  intros H. apply (fine_runs _ (at_ p)); [|exact (proj2 (proj2 (proj2 (proj2 crash_mut))) _ _ _ _ _ H)]. apply (proj2 (proj2 (proj2 (proj2 r_runs))) _ _ _ _ _ H).
  intros t _. split; [reflexivity|exists []; reflexivity].
Qed.
Lemma fine_mebbes p o Z T : r_cases MEBBE mebbe_missing IfBody p o -> incl (tokens_of p) Z -> fine cases_all Z T o.
Proof.
  intros H. apply (fine_runs _ (at_ p)); [|exact (proj2 (proj2 (proj2 (proj2 crash_mut))) _ _ _ _ _ H)]. apply (proj2 (proj2 (proj2 (proj2 r_runs))) _ _ _ _ _ H). cbn. auto.
Qed.
Lemma line_of_incl ls Z : incl (concat ls) Z -> incl (tokens_of (line_of ls)) Z.
Proof. destruct ls; auto. Qed.
Lemma rest_incl r c ls Z : incl (tokens_of (c ++ r, ls)) Z -> incl (tokens_of (r, ls)) Z.
Proof.
  unfold tokens_of. cbn [fst snd]. intros H x Hx. apply H. apply in_app_or in Hx as [Hx|Hx]; apply in_or_app; [left; apply in_or_app|]; auto.
Qed.
Lemma fine_closing t p o Z T : Recovery.closing t p o -> kw WTF t \/ kw O_RLY t -> In t T -> incl (tokens_of p) Z -> fine (fun _ => []) Z T o.
Proof.
  intros H Ht Hi HZ. destruct H; cbn [fine].
  - split; [|exact HZ]. right. exists t. split; [exact Hi|]. apply unclosed_other. tauto.
  - split; [|exact (rest_incl r [u] _ _ HZ)]. left. intros x [<-|[]]. apply HZ. left. reflexivity.
  - split; [constructor|exact (rest_incl r [u] _ _ HZ)].
Qed.
Lemma fine_loop_end t p o Z T : loop_end t p o -> kw IM_IN_YR t -> In t T -> incl (tokens_of p) Z -> fine (fun _ => []) Z T o.
Proof.
  intros H Ht Hi HZ. destruct H; cbn [fine].
  - split; [|exact HZ]. right. exists t. split; [exact Hi|]. apply unclosed_loop. exact Ht.
  - split; [|exact (rest_incl [] [imo] _ _ HZ)]. left. intros x [<-|[]]. apply HZ. left. reflexivity.
  - split; [|exact (rest_incl r [imo; e] _ _ HZ)]. left. intros x [<-|[]]. apply HZ. right. left. reflexivity.
  - split; [constructor|exact (rest_incl r [imo; e] _ _ HZ)].
Qed.
Lemma junk_incl x r c ls Z : incl (tokens_of (c ++ x :: r, ls)) Z -> incl (x :: r) Z /\ incl (tokens_of (line_of ls)) Z.
Proof.
  intros H. split; [|apply line_of_incl]; intros y Hy; apply H; unfold tokens_of; cbn [fst snd]; apply in_or_app.
  - left. apply in_or_app. right. exact Hy.
  - right. exact Hy.
Qed.
Lemma fine_function_end t p o Z T : function_end t p o -> kw HOW_IZ_I t -> In t T -> incl (tokens_of p) Z -> fine (fun _ => []) Z T o.
Proof.
  intros H Ht Hi HZ. destruct H; cbn [fine].
  - split; [|exact HZ]. right. exists t. split; [exact Hi|]. apply unclosed_other. tauto.
  - destruct (junk_incl x r [e] ls Z HZ). split; [left|]; assumption.
  - split; [constructor|]. apply line_of_incl. exact (rest_incl [] [e] _ _ HZ).
Qed.
Lemma fine_line_end p o Z T : line_end p o -> incl (tokens_of p) Z -> fine (fun _ => []) Z T o.
Proof.
  intros H HZ. destruct H; cbn [fine].
  - destruct (junk_incl x r [] ls Z HZ). split; [left|]; assumption.
  - split; [constructor|]. apply line_of_incl. exact HZ.
Qed.

(** ** Every part has an outcome *)
Definition total {A} (J : place -> out A -> Prop) : Prop := forall p, exists o, J p o.
Lemma block_total k : total (r_block k).
Proof. intros p. destruct (blk_out k p) as (o & _ & H). eauto. Qed.
Lemma more_total k ls : exists o, r_more k ls o.
Proof.
  destruct ls as [|[|t c] ls]; [eexists; now apply r_more_empty..|].
  destruct (stop_of k t) eqn:E; [apply stop_of_iff in E; eexists; now apply r_more_close|]. apply stop_of_false in E.
  destruct (block_total k (t :: c, ls)) as (o & H). exists o. now apply r_more_go.
Qed.
Lemma kw_dec w t : {kw w t} + {~ kw w t}.
Proof. destruct (is_kw w t) eqn:E; [left; now apply is_kw_iff|right; intros K; apply is_kw_iff in K; congruence]. Qed.
Lemma section_total w k : total (r_section w k).
Proof.
  intros [[|t c] ls]; [eexists; apply r_section_none, nil_not|].
  destruct (kw_dec w t) as [Ht|Ht]; [|eexists; apply r_section_none; intros (u & r & E & Hu); injection E as <- <-; exact (Ht Hu)].
  destruct c as [|x r]; [|eexists; now apply r_section_junk].
  destruct (block_total k (line_of ls)) as (o & H). eexists. exact (r_section_block w k t ls o Ht H).
Qed.
Lemma closing_total t : total (Recovery.closing t).
Proof.
  intros [[|u r] ls]; [eexists; constructor|]. destruct (kw_dec OIC u); eexists; [now apply closing_oic|now apply closing_other].
Qed.
Lemma line_end_total : total line_end.
Proof. intros [[|x r] ls]; eexists; constructor. Qed.
Lemma function_end_total t : total (function_end t).
Proof. intros [[|e [|x r]] ls]; eexists; constructor. Qed.
Lemma loop_end_total t : total (loop_end t).
Proof.
  intros [[|imo [|e r]] ls]; [eexists; constructor..|].
  assert (D : ident_tok e \/ ~ ident_tok e) by (unfold ident_tok; destruct (tok_type e); try (right; intros (? & ?); discriminate); left; eauto).
  destruct D; eexists; [now apply le_ok|now apply le_bad].
Qed.

Lemma reads_reserved k t c n r : reads (t :: c) n r -> kw k t -> reserved k = true -> False.
Proof.
  intros H Ht Hr. destruct H as (p & E & Hd & _). destruct (d_line_not_closer _ _ Hd) as (u & d & -> & _). cbn [app] in E.
  injection E as <- _. exact (line_reserved k _ _ _ Hd Ht Hr).
Qed.
Lemma fails_reserved k t c f : fails_stmt (t :: c) f -> kw k t -> k = WTF \/ k = O_RLY -> False.
Proof.
  assert (X : forall l ts v u r, l = ts ++ u :: r -> d_va ts v -> l = t :: c -> kw k t -> k = WTF \/ k = O_RLY -> False).
  { intros l ts v u r -> H E Ht Hk. destruct (va_first _ _ H) as (t' & c' & -> & Hi). injection E as -> _.
    pose proof (ident_not_kw _ _ Hi Ht). destruct Hk; congruence. }
  intros H Ht Hk. assert (E : t :: c = t :: c) by reflexivity. revert H E. generalize (t :: c) at 1 2. intros l H E. destruct H;
    try (injection E as ? ?; subst; match goal with K : kw _ t |- _ => pose proof (kw_fun _ _ _ K Ht); destruct Hk; congruence end).
  - subst. destruct H as (t' & c' & E & Hi). injection E as <- _. pose proof (ident_not_kw _ _ Hi Ht). destruct Hk; congruence.
  - exact (X _ _ _ _ _ eq_refl H E Ht Hk).
  - exact (X _ _ _ _ _ eq_refl H E Ht Hk).
  - exact (X _ _ _ _ _ eq_refl H E Ht Hk).
  - subst. apply H. exists t, c. split; [reflexivity|]. unfold block_start. destruct Hk as [-> | ->]; tauto.
Qed.
Lemma question_no t q f : question_tok q -> x_question t [q] f -> False.
Proof. intros Hq H. inversion H; contradiction. Qed.
Ltac no_kw := match goal with K : kw ?a ?t, K' : kw ?b ?t |- _ => 
  assert (a = b) by exact (kw_fun _ _ _ K K'); discriminate end.
Lemma omgs_total : total (r_cases OMG MissingToken SwitchBody).
Proof.
  intros p. assert (Hw : kw WTF (word WTF)) by reflexivity. assert (Hq : question_tok question_) by reflexivity.
  destruct (stmt_one_outcome [word WTF; question_] (at_ p) ltac:(discriminate)) as (o & H & _).
  assert (G : forall o, r_cases OMG MissingToken SwitchBody (line_of (at_ p)) o -> exists o, r_cases OMG MissingToken SwitchBody p o).
  { intros o' K. exists o'. destruct p. exact K. }
  generalize dependent (word WTF). intros w Hw H.
  inversion H; subst; try no_kw; eauto; exfalso.
  - eapply reads_reserved; [eassumption|exact Hw|reflexivity].
  - eapply fails_reserved; [eassumption|exact Hw|auto].
  - eapply question_no; eassumption.
Qed.
Lemma mebbes_total : total (r_cases MEBBE mebbe_missing IfBody).
Proof.
  intros [[|t c] ls]; [eexists; apply r_cases_none, nil_not|].
  destruct (kw_dec MEBBE t) as [Ht|Ht]; [|eexists; apply r_cases_none; intros (u & r & E & Hu); injection E as <- <-; exact (Ht Hu)].
  assert (Hw : kw O_RLY (word O_RLY)) by reflexivity. assert (Hq : question_tok question_) by reflexivity.
  destruct (stmt_one_outcome [word O_RLY; question_] ((t :: c) :: ls) ltac:(discriminate)) as (o & H & _).
  assert (Y : forall o, r_section YA_RLY IfBody (t :: c, ls) o -> o = Done None (t :: c, ls)).
  { intros o' K. inversion K; subst; [reflexivity|exfalso; no_kw..]. }
  generalize dependent (word O_RLY). intros w Hw H.
  inversion H; subst; try no_kw; cbn [line_of] in *;
    try match goal with K : r_section YA_RLY _ _ _ |- _ => apply Y in K; first [injection K as -> ->|subst] end; eauto; exfalso.
  - eapply reads_reserved; [eassumption|exact Hw|reflexivity].
  - eapply fails_reserved; [eassumption|exact Hw|auto].
  - eapply question_no; eassumption.
  - match goal with K : aborts _ _ |- _ => inversion K end.
Qed.

(** ** Statements that are open *)
Lemma seq_from {A B} (J1 : place -> out A -> Prop) (J2 : place -> out B -> Prop) g1 g2 Z T p o1 :
  J1 p o1 -> fine g1 Z T o1 -> total J2 -> (forall q o, J2 q o -> incl (tokens_of q) Z -> fine g2 Z T o) ->
  exists o, LineEffectProofs.seq J1 J2 p o /\ fine (fun x => g1 (fst x) ++ g2 (snd x)) Z T o.
Proof.
  intros H1 F1 H2 F2. destruct o1 as [a q|e q|c].
  - destruct F1 as (F & FI). destruct (H2 q) as (o & Ho). specialize (F2 q o Ho FI).
    exists (omap (pair a) o). split; [econstructor; eassumption|]. destruct o; cbn [omap fine fst snd] in *; [|exact F2|exact F2].
    destruct F2 as (F3 & F4). split; [|exact F4]. rewrite errs_app. apply Forall_app. auto.
  - exists (Err e q). split; [eapply seq_abort; [exact H1|constructor]|exact F1].
  - exists (Crash c). split; [eapply seq_abort; [exact H1|constructor]|exact F1].
Qed.
Lemma fine_map {A B} (f : A -> B) (g : A -> list node) (h : B -> list node) Z T o :
  (forall a, errs (h (f a)) = errs (g a)) -> fine g Z T o -> fine h Z T (omap f o).
Proof. intros E. destruct o; cbn [omap fine]; auto. rewrite E. auto. Qed.

Lemma wtf_fine t q ls o Z T : kw WTF t -> question_tok q -> In t T ->
  r_cases OMG MissingToken SwitchBody (line_of ls) o -> fine cases_all Z T o -> exists o', r_stmt [t; q] ls o' /\ fine node_all Z T o'.
Proof.
  intros Ht Hq Hi H F.
  destruct (seq_from _ (r_section OMGWTF SwitchBody) _ sec_all Z T _ _ H F (section_total _ _)
    ltac:(intros; eapply fine_section; eassumption)) as (o1 & H1 & F1).
  destruct (seq_from _ (Recovery.closing t) _ (fun _ => []) Z T _ _ H1 F1 (closing_total t)
    ltac:(intros; eapply fine_closing; eauto)) as (o2 & H2 & F2).
  destruct (seq_from _ line_end _ (fun _ => []) Z T _ _ H2 F2 line_end_total
    ltac:(intros; eapply fine_line_end; eauto)) as (o3 & H3 & F3).
  eexists. split; [exact (wtf_seq t q ls o3 Ht Hq H3)|]. eapply fine_map; [|exact F3].
  intros x. rewrite node_all_eq. unfold mk_wtf. rewrite inside_wtf. rewrite !app_nil_r. reflexivity.
Qed.
Lemma o_rly_fine t q ls o Z T : kw O_RLY t -> question_tok q -> In t T ->
  LineEffectProofs.seq (r_section YA_RLY IfBody) (r_cases MEBBE mebbe_missing IfBody) (line_of ls) o ->
  fine (fun x => sec_all (fst x) ++ cases_all (snd x)) Z T o -> exists o', r_stmt [t; q] ls o' /\ fine node_all Z T o'.
Proof.
  intros Ht Hq Hi H F.
  destruct (seq_from _ (r_section NO_WAI IfBody) _ sec_all Z T _ _ H F (section_total _ _)
    ltac:(intros; eapply fine_section; eassumption)) as (o1 & H1 & F1).
  destruct (seq_from _ (Recovery.closing t) _ (fun _ => []) Z T _ _ H1 F1 (closing_total t)
    ltac:(intros; eapply fine_closing; eauto)) as (o2 & H2 & F2).
  eexists. split; [exact (o_rly_seq t q ls o2 Ht Hq H2)|]. eapply fine_map; [|exact F2].
  intros x. rewrite node_all_eq. unfold mk_o_rly. rewrite inside_o_rly. rewrite !app_nil_r, app_assoc. reflexivity.
Qed.
Lemma omgs_no_errors L x' : d_omgs L (map omg_of x') -> errs (cases_all x') = [].
Proof.
  intros H. apply (proj1 (proj2 (proj2 (proj2 derived_errors)))) in H. rewrite <- H. f_equal. symmetry. apply (all_cases WtfOmg). reflexivity.
Qed.
Lemma mebbes_no_errors L x' : d_mebbes L (map mebbe_of x') -> errs (cases_all x') = [].
Proof.
  intros H. apply (proj1 (proj2 (proj2 (proj2 (proj2 (proj2 (proj2 derived_errors))))))) in H. rewrite <- H. f_equal. symmetry. apply (all_cases Mebbe). reflexivity.
Qed.
Lemma ya_no_errors Y y' : d_ya_rly Y (option_map (fun '(a, ns) => YaRly a (ASTBlock ns)) y') -> errs (sec_all y') = [].
Proof.
  intros H. apply (proj1 (proj2 (proj2 (proj2 (proj2 (proj2 derived_errors)))))) in H. destruct y' as [[a ns]|]; exact H.
Qed.
Lemma fine_app_cases x' Z T o : errs (cases_all x') = [] -> fine cases_all Z T o -> fine cases_all Z T (omap (app x') o).
Proof. intros E. apply fine_map. intros a. unfold cases_all in *. rewrite flat_map_app, errs_app, E. reflexivity. Qed.

Lemma pending_fine f M t X o Z T : opened f M t -> r_block (kind_of f) (line_of X) o -> fine ns_all Z T o -> In t T ->
  exists c M' o', M = (t :: c) :: M' /\ r_stmt (t :: c) (M' ++ X) o' /\ fine node_all Z T o'.
Proof.
  intros H HB F Hi. destruct H; cbn [kind_of] in HB.
  - destruct (seq_from _ (loop_end t) _ (fun _ => []) Z T _ _ HB F (loop_end_total t) ltac:(intros; eapply fine_loop_end; eauto)) as (o1 & H3' & F3).
    eexists _, [], _. split; [reflexivity|].
    split; [exact (loop_seq _ _ _ _ _ _ _ H (loop_header_of _ _ _ _ _ H0 H1 H2) H3')|].
    eapply fine_map; [|exact F3]. intros x. cbn beta. rewrite app_nil_r, node_all_eq. reflexivity.
  - destruct (seq_from _ (function_end t) _ (fun _ => []) Z T _ _ HB F (function_end_total t) ltac:(intros; eapply fine_function_end; eauto)) as (o1 & H3' & F3).
    eexists _, [], _. split; [reflexivity|].
    split; [exact (function_seq _ _ _ _ _ _ H (function_header_of _ _ _ _ H0 H1) H3')|].
    eapply fine_map; [|exact F3]. intros x. cbn beta. rewrite app_nil_r, node_all_eq. reflexivity.
  - destruct (seq_from _ (r_cases OMG MissingToken SwitchBody) _ cases_all Z T _ _ HB F omgs_total ltac:(intros; eapply fine_omgs; eauto)) as (o1 & K1 & F1).
    pose proof (cases_seq _ _ _ _ _ _ _ _ _ H2 H3 K1) as K2.
    destruct (omgs_cases L x u ts X _ H1 (or_introl H2) K2) as (x' & <- & K & _).
    eexists [q], (L ++ [u :: ts]). rewrite <- app_assoc. cbn [app].
    destruct (wtf_fine t q _ _ Z T H H0 Hi K) as (o' & K' & F').
    { apply fine_app_cases; [eapply omgs_no_errors; eassumption|]. eapply fine_map; [|exact F1]. reflexivity. }
    exists o'. auto.
  - destruct (omgs_cases L x u [] X _ H1 (or_intror (or_introl H2)) (r_cases_none _ _ _ [u] X (not_begins OMG _ u [] H2 ltac:(discriminate))))
      as (x' & <- & K & _). cbn [omap] in K.
    eexists [q], (L ++ [[u]]). rewrite <- app_assoc. cbn [app]. rewrite app_nil_r in K.
    assert (S : LineEffectProofs.seq (r_cases OMG MissingToken SwitchBody) (r_section OMGWTF SwitchBody) (line_of (L ++ [u] :: X)) (omap (pair x') (omap (fun ns => Some (u, ns)) o)))
      by (eapply seq_done; [exact K|exact (r_section_block _ _ _ _ _ H2 HB)]).
    assert (FS : fine (fun x => cases_all (fst x) ++ sec_all (snd x)) Z T (omap (pair x') (omap (fun ns => Some (u, ns)) o))).
    { apply (fine_map (pair _) sec_all); [|eapply fine_map; [|exact F]]; [|intros a; reflexivity].
      intros a. cbn [fst snd]. rewrite errs_app, (omgs_no_errors L) by assumption. reflexivity. }
    destruct (seq_from _ (Recovery.closing t) _ (fun _ => []) Z T _ _ S FS (closing_total t)
      ltac:(intros; eapply fine_closing; eauto)) as (o2 & K2 & F2).
    destruct (seq_from _ line_end _ (fun _ => []) Z T _ _ K2 F2 line_end_total
      ltac:(intros; eapply fine_line_end; eauto)) as (o3 & K3 & F3).
    eexists. split; [reflexivity|]. split; [exact (wtf_seq t q _ o3 H H0 K3)|]. eapply fine_map; [|exact F3].
    intros y. rewrite node_all_eq. unfold mk_wtf. rewrite inside_wtf. rewrite !app_nil_r. reflexivity.
  - eexists [q], [[u]]. cbn [app].
    assert (FS : fine sec_all Z T (omap (fun ns => Some (u, ns)) o)) by (eapply fine_map; [|exact F]; reflexivity).
    destruct (seq_from _ (r_cases MEBBE mebbe_missing IfBody) _ cases_all Z T _ _ (r_section_block YA_RLY IfBody u X _ H1 HB) FS mebbes_total
      ltac:(intros; eapply fine_mebbes; eauto)) as (o1 & K1 & F1).
    destruct (o_rly_fine t q ([u] :: X) o1 Z T H H0 Hi K1 F1) as (o' & K' & F'). exists o'. auto.
  - destruct (seq_from _ (r_cases MEBBE mebbe_missing IfBody) _ cases_all Z T _ _ HB F mebbes_total ltac:(intros; eapply fine_mebbes; eauto)) as (o1 & K1 & F1).
    pose proof (cases_seq _ _ _ _ _ _ _ _ _ H3 H4 K1) as K2.
    destruct (mebbes_cases L x u ts X _ H2 (or_introl H3) K2) as (x' & <- & K & u' & c' & X' & E & Hu' & Hk).
    assert (N : ~ kw YA_RLY u') by (destruct Hk as [Hk| ->]; intros ?; no_kw).
    destruct (ya_section Y y u' c' X' H1 Hu' N) as (y' & <- & KY).
    eexists [q], (Y ++ L ++ [u :: ts]). rewrite <- !app_assoc. cbn [app]. rewrite E in *. cbn [line_of] in K.
    destruct (o_rly_fine t q _ _ Z T H H0 Hi (seq_done _ _ _ _ _ _ KY K)) as (o' & K' & F'); [|exists o'; auto].
    apply (fine_map (pair y') cases_all); [|apply fine_app_cases; [eapply mebbes_no_errors; eassumption|eapply fine_map; [|exact F1]; reflexivity]].
    intros a. cbn [fst snd]. rewrite errs_app, (ya_no_errors Y) by assumption. reflexivity.
  - destruct (mebbes_cases L x u [] X _ H2 (or_intror (or_introl H3)) (r_cases_none _ mebbe_missing _ [u] X (not_begins MEBBE _ u [] H3 ltac:(discriminate))))
      as (x' & <- & K & u' & c' & X' & E & Hu' & Hk). cbn [omap] in K. rewrite app_nil_r in K.
    assert (N : ~ kw YA_RLY u') by (destruct Hk as [Hk| ->]; intros ?; no_kw).
    destruct (ya_section Y y u' c' X' H1 Hu' N) as (y' & <- & KY).
    eexists [q], (Y ++ L ++ [[u]]). rewrite <- !app_assoc. cbn [app]. rewrite E in *. cbn [line_of] in K.
    pose proof (seq_done _ _ _ _ _ _ (seq_done _ (r_cases MEBBE mebbe_missing IfBody) _ _ _ _ KY K) (r_section_block _ _ _ _ _ H3 HB)) as S.
    assert (FS : fine (fun x => (sec_all (fst (fst x)) ++ cases_all (snd (fst x))) ++ sec_all (snd x)) Z T
      (omap (pair (y', x')) (omap (fun ns => Some (u, ns)) o))).
    { apply (fine_map (pair _) sec_all); [|eapply fine_map; [|exact F]]; [|intros a; reflexivity].
      intros a. cbn [fst snd]. rewrite !errs_app, (mebbes_no_errors L), (ya_no_errors Y) by assumption. reflexivity. }
    destruct (seq_from _ (Recovery.closing t) _ (fun _ => []) Z T _ _ S FS (closing_total t)
      ltac:(intros; eapply fine_closing; eauto)) as (o2 & K2 & F2).
    eexists. split; [reflexivity|]. split; [exact (o_rly_seq t q _ o2 H H0 K2)|]. eapply fine_map; [|exact F2].
    intros z. rewrite node_all_eq. unfold mk_o_rly. rewrite inside_o_rly. rewrite !app_nil_r, app_assoc. reflexivity.
Qed.
