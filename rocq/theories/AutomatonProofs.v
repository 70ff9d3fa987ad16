(** Proofs for C92. *)
From Coq Require Import String ZArith Lia List Bool.
From Verif Require Import Api Lines Clean ErrorShape CheckerProofs ExprGrammar ReaderProofs.
From Verif Require Export Automaton.
Import ListNotations.
Local Open Scope string_scope.
Local Open Scope list_scope.

(** ** One token *)
Lemma opens_f_iff k x t q : opens_f k x t = Some q <-> opens k x t q.
Proof.
  split.
  - unfold opens_f. destruct (tok_type t) as [i|w|s|v|s|s| | | | |] eqn:E; try discriminate;
      try (intros [= <-]; constructor; eexists; exact E).
    destruct w; try discriminate; intros [= <-];
      first [apply opens_noob; exact E | apply opens_srs; exact E | apply opens_not; exact E
            | eapply opens_binary; [constructor|exact E] | eapply opens_nary; [constructor|exact E]].
  - unfold opens_f. intros [u H|u H|u H|u H|w op u H1 H|u H|w op u H1 H]; unfold kw in H; try (destruct H as (y & H)); rewrite H; try reflexivity;
      destruct H1; reflexivity.
Qed.

(** The tokens at which expressions open are none of those that the reader looks
    for before them. *)
Ltac not_opener := intros O; unfold opener in O; destruct (tok_type _) as [i|w|s|v|s|s| | | | |]; try reflexivity; try discriminate O; destruct w; first [reflexivity|discriminate O].
Lemma not_an {A} t (a b : A) : opener t = true -> match tok_type t with TKeyword AN => a | _ => b end = b.
Proof. not_opener. Qed.
Lemma not_mkay {A} t (a b : A) : opener t = true -> match tok_type t with TKeyword MKAY => a | _ => b end = b.
Proof. not_opener. Qed.
Lemma not_slot {A} t (a b : A) : opener t = true -> match tok_type t with TBukkitSlotAccess => a | _ => b end = b.
Proof. not_opener. Qed.
Lemma not_bang {A} t (a b : A) : opener t = true -> match tok_type t with TExclamationMark => a | _ => b end = b.
Proof. not_opener. Qed.
Lemma not_type {A} t (a b : A) : opener t = true -> match tok_type t with TKeyword (NUMBR | NUMBAR | YARN | BUKKIT | TROOF) => a | _ => b end = b.
Proof. not_opener. Qed.

Lemma done_f_operand k x k' x' t q : expects k x (RDone k' x') -> opens k x t q -> done_f k' x' t = Some q.
Proof.
  intros E H. pose proof (opens_opener _ _ _ _ H) as O. apply opens_f_iff in H. inversion E as [| ? ? ? D | ? ? ? D | | ? D |]; subst; inversion D; subst; cbn [done_f]; unfold more_f;
    rewrite ?not_an, ?not_mkay, ?not_bang by exact O; exact H.
Qed.
Lemma expects_f k x q t q' : expects k x q -> opens k x t q' -> reader_f q t = Some q'.
Proof.
  intros E H. pose proof (opens_opener _ _ _ _ H) as O.
  assert (N : forall k' x', q = RNamed (AsOperand k' x') -> expects k x (RDone k' x')).
  { intros k' x' ->. inversion E as [| ? ? ? D | ? ? ? D | | ? D |]; subst; inversion D; subst; constructor; constructor. }
  destruct E as [k x|k x q D|k x q D|k x|q D|]; try destruct D; cbn [reader_f named_f]; unfold more_f;
    rewrite ?not_slot, ?not_mkay, ?not_type by exact O;
    try (apply opens_f_iff; exact H); eapply done_f_operand; try exact H; first [apply N; reflexivity | constructor; constructor].
Qed.

Definition starts (t : token) : bool :=
  match tok_type t with
  | TIdentifier _ | TKeyword (SRS | I_HAS_A | VISIBLE | GIMMEH | FOUND_YR | KTHXBYE | GTFO | I_IZ | HAI | IM_IN_YR | HOW_IZ_I | WTF | O_RLY) => true
  | _ => opener t
  end.
Lemma not_close f t : starts t = true -> close_f f t = None.
Proof.
  unfold starts, opener. destruct f; cbn [close_f]; unfold case_f, branch_f, oic_f; destruct (tok_type t) as [i|w|s|v|s|s| | | | |]; try reflexivity;
    destruct w; first [reflexivity|discriminate].
Qed.
Lemma starts_f s open t q : in_block s open -> starts t = true -> first_f t = Some q -> start_f s t = Some q.
Proof. intros [] S H; cbn [start_f]; [exact H|]. destruct open0 as [|f open0]; [exact H|]. rewrite (not_close _ _ S). exact H. Qed.
Lemma first_expression t q : opens [] AtEnd t q -> ~ ident_tok t -> ~ kw SRS t -> first_f t = Some q /\ starts t = true.
Proof.
  intros H N M. pose proof (opens_opener _ _ _ _ H) as O. apply opens_f_iff in H. unfold starts, first_f. rewrite O, H. unfold opener in O. clear H.
  destruct (tok_type t) as [i|w|s|v|s|s| | | | |] eqn:E; try discriminate O; try (split; reflexivity); [destruct N; exists i; exact E|].
  destruct w; try discriminate O; try (split; reflexivity). destruct (M E).
Qed.

Lemma reads_f q t q' : rstep q t q' -> reader_f q t = Some q'.
Proof.
  intros H. destruct H; try (eapply expects_f; eassumption);
    try match goal with H : opens _ _ ?t _, B : in_block _ _ |- _ => destruct (first_expression _ _ H) as (F & S); [assumption..|]; exact (starts_f _ _ _ _ B S F) end;
    repeat match goal with
    | H : is_type _ |- _ => destruct H as (? & H & ?); cbn [In] in H
    | H : before_case _ _ |- _ => destruct H
    | H : before_mebbe _ _ |- _ => destruct H
    | H : done _ _ _ |- _ => destruct H
    | H : _ \/ _ |- _ => destruct H
    | H : False |- _ => destruct H
    end; subst;
    unfold ident_tok, slot_tok, exclamation_tok, kw in *;
    repeat match goal with H : exists _, _ |- _ => destruct H end;
    try match goal with B : in_block _ _, H : tok_type ?t = _ |- _ => eapply starts_f; [exact B|unfold starts|unfold first_f]; rewrite H; reflexivity end;
    try match goal with H : question_tok ?t |- _ => apply is_question_iff in H; cbn [reader_f]; rewrite H; reflexivity end;
    try match goal with H : slots_allowed ?c |- _ => destruct c; cbn [slots_allowed] in H; try contradiction end;
    cbn [reader_f named_f done_f start_f close_f]; unfold more_f, case_f, branch_f, oic_f;
    try match goal with H : tok_type ?t = _ |- _ => rewrite H; reflexivity end; reflexivity.
Qed.
Lemma done_reads k x t q q' : done k x q -> done_f k x t = Some q' -> rstep q t q'.
Proof.
  intros D. destruct k as [|[] k]; cbn [done_f].
  - destruct x; [discriminate| |].
    + intros H. destruct (tok_type t) eqn:E; try (eapply rs_expr; [apply expects_argument; exact D|apply opens_f_iff; exact H]).
      injection H as <-. apply rs_bang; [exact D|exact E].
    + intros H. destruct (tok_type t) as [i|w|s|v|s|s| | | | |] eqn:E; try discriminate H. destruct w; try discriminate H; injection H as <-.
      all: first [apply rs_arg_an; [exact D|exact E] | apply rs_call_end; [right; right; exact D|exact E]].
  - assert (G : opens_f k x t = Some q' -> rstep q t q') by (intros H; eapply rs_expr; [apply expects_second; exact D|apply opens_f_iff; exact H]).
    intros H. destruct (tok_type t) as [i|w|s|v|s|s| | | | |] eqn:E; try exact (G H). destruct w; try exact (G H). injection H as <-. eapply rs_binary_an; [exact D|exact E].
  - assert (G : opens_f (PNary :: k) x t = Some q' -> rstep q t q') by (intros H; eapply rs_expr; [apply expects_operand; exact D|apply opens_f_iff; exact H]).
    unfold more_f. intros H. destruct (tok_type t) as [i|w|s|v|s|s| | | | |] eqn:E; try exact (G H). destruct w; try exact (G H); injection H as <-.
    all: first [eapply rs_nary_an; [exact D|exact E] | eapply rs_nary_mkay; [left; exact D|exact E]].
Qed.

Lemma first_reads s open t q : in_block s open -> first_f t = Some q -> rstep (RStart s) t q.
Proof.
  intros B H.
  assert (G : (forall i, tok_type t <> TIdentifier i) -> tok_type t <> TKeyword SRS -> opens_f [] AtEnd t = Some q -> rstep (RStart s) t q).
  { intros N M F. eapply rs_expression; [exact B|apply opens_f_iff; exact F|intros (i & E); exact (N i E)|exact M]. }
  unfold first_f in H. destruct (tok_type t) as [i|w|y|v|y|y| | | | |] eqn:E; try (apply G; [intros i; discriminate|discriminate|exact H]).
  - injection H as <-. eapply rs_first; [exact B|exists i; exact E].
  - destruct w; try (apply G; [intros i; discriminate|discriminate|exact H]); injection H as <-;
      solve [econstructor; first [exact B|exact E|left; exact E|right; exact E]
            |eapply rs_found_yr; [exact B|exact E] | eapply rs_kthxbye; [exact B|exact E] | eapply rs_gtfo; [exact B|exact E]
            |eapply rs_i_has_a; [exact B|exact E] | eapply rs_gimmeh; [exact B|exact E] | eapply rs_i_iz; [exact B|exact E] | eapply rs_function; [exact B|exact E]
            |eapply rs_visible; [exact B|exact E] | eapply rs_hai; [exact B|exact E] | eapply rs_loop; [exact B|exact E] | eapply rs_first_srs; [exact B|exact E]
            |eapply rs_wtf; [exact B|first [left; exact E|right; exact E]]].
Qed.
Lemma case_reads s open t q : before_case s open -> case_f t = Some q -> rstep (RStart s) t q.
Proof.
  intros B H. unfold case_f in H. destruct (tok_type t) as [i|w|y|v|y|y| | | | |] eqn:E; try discriminate H. destruct w; try discriminate H; injection H as <-;
    first [eapply rs_omg; [exact B|exact E] | eapply rs_omgwtf; [exact B|exact E] | eapply rs_switch_end; [left; exact B|exact E]].
Qed.
Lemma branch_reads s open t q : before_mebbe s open -> branch_f t = Some q -> rstep (RStart s) t q.
Proof.
  intros B H. unfold branch_f in H. destruct (tok_type t) as [i|w|y|v|y|y| | | | |] eqn:E; try discriminate H. destruct w; try discriminate H; injection H as <-;
    first [eapply rs_mebbe; [exact B|exact E] | eapply rs_no_wai; [exact B|exact E] | eapply rs_if_end; [left; exact B|exact E]].
Qed.
Lemma oic_is t q : oic_f t = Some q -> q = REnd /\ kw OIC t.
Proof. unfold oic_f, kw. destruct (tok_type t) as [i|w|y|v|y|y| | | | |]; try discriminate. destruct w; try discriminate. intros [= <-]. auto. Qed.
Lemma close_reads f open t q : close_f f t = Some q -> rstep (RStart (Begun (f :: open))) t q.
Proof.
  destruct f; cbn [close_f]; intros H.
  - destruct (tok_type t) as [i|w|y|v|y|y| | | | |] eqn:E; try discriminate H. destruct w; try discriminate H. injection H as <-. apply rs_loop_end. exact E.
  - destruct (tok_type t) as [i|w|y|v|y|y| | | | |] eqn:E; try discriminate H. destruct w; try discriminate H. injection H as <-. apply rs_function_end. exact E.
  - eapply case_reads; [constructor|exact H].
  - apply oic_is in H as (-> & K). eapply rs_switch_end; [right; reflexivity|exact K].
  - eapply branch_reads; [constructor|exact H].
  - apply oic_is in H as (-> & K). eapply rs_if_end; [right; reflexivity|exact K].
Qed.
Lemma start_reads s t q : start_f s t = Some q -> rstep (RStart s) t q.
Proof.
  destruct s as [open|open|open|open|open|]; cbn [start_f]; intros H.
  - eapply first_reads; [constructor|exact H].
  - destruct open as [|f open]; [eapply first_reads; [constructor|exact H]|]. destruct (close_f f t) eqn:C.
    + injection H as <-. apply close_reads. exact C.
    + eapply first_reads; [constructor|exact H].
  - discriminate.
  - eapply case_reads; [constructor|exact H].
  - destruct (tok_type t) as [i|w|y|v|y|y| | | | |] eqn:E; try (eapply branch_reads; [constructor|exact H]).
    destruct w; try (eapply branch_reads; [constructor|exact H]). injection H as <-. apply rs_ya_rly. exact E.
  - injection H as <-. apply rs_ended.
Qed.
Lemma more_reads k x t q : more_f k x t = Some q -> rstep (RMore k x) t q.
Proof.
  unfold more_f. intros H.
  assert (G : opens_f (PNary :: k) x t = Some q -> rstep (RMore k x) t q) by (intros F; eapply rs_expr; [apply expects_first_operand|apply opens_f_iff; exact F]).
  destruct (tok_type t) as [i|w|y|v|y|y| | | | |] eqn:E; try exact (G H). destruct w; try exact (G H). injection H as <-. apply rs_nary_mkay; [right; reflexivity|exact E].
Qed.
Lemma named_reads c t q : named_f c t = Some q -> rstep (RNamed c) t q.
Proof.
  destruct c as [k x| | | | | | | |]; cbn [named_f]; intros H.
  1: assert (G : done_f k x t = Some q -> rstep (RNamed (AsOperand k x)) t q) by (apply done_reads; constructor).
  all: destruct (tok_type t) as [i|w|y|v|y|y| | | | |] eqn:E; try discriminate H; try exact (G H);
    try (injection H as <-; apply rs_slot; [exact I|exact E]);
    destruct w; try discriminate H; injection H as <-;
    first [apply rs_itz; exact E | apply rs_yr; [left; reflexivity|exact E] | apply rs_call_end; [left; reflexivity|exact E] | apply rs_r; exact E
          | apply rs_has_a; exact E | apply rs_slot_itz; exact E | apply rs_until; [right; reflexivity|first [left; exact E|right; exact E]]
          | apply rs_param; [left; reflexivity|exact E] | apply rs_param_an; exact E].
Qed.
Lemma f_reads q t q' : reader_f q t = Some q' -> rstep q t q'.
Proof.
  destruct q as [s|c|c|c|k x|k x|k x| | | | | | | | | |]; cbn [reader_f]; intros H.
  1: apply start_reads, H.
  3: apply named_reads, H.
  3: eapply rs_expr; [apply expects_now|apply opens_f_iff; exact H].
  3: eapply done_reads; [constructor|exact H].
  3: apply more_reads, H.
  3: assert (G : opens_f [] AtEnd t = Some q' -> rstep RInit t q') by (intros F; eapply rs_expr; [apply expects_initial|apply opens_f_iff; exact F]).
  10: destruct (is_question_symbol t) eqn:Q; [|discriminate H]; injection H as <-; apply rs_question, is_question_iff, Q.
  10: injection H as <-; apply rs_rest.
  10: discriminate H.
  all: destruct (tok_type t) as [i|w|y|v|y|y| | | | |] eqn:E; try discriminate H; try exact (G H);
    try (injection H as <-; first [apply rs_name|apply rs_srs_name|apply rs_label|apply rs_end_label]; exists i; exact E);
    destruct w; try discriminate H; try exact (G H); injection H as <-;
    first [apply rs_srs; exact E | apply rs_type; eexists; split; [|exact E]; cbn [In]; tauto
          | apply rs_yr; [right; reflexivity|exact E] | apply rs_call_end; [right; left; reflexivity|exact E] | apply rs_param; [right; reflexivity|exact E]
          | apply rs_uppin; first [left; exact E|right; exact E] | apply rs_until; [left; reflexivity|first [left; exact E|right; exact E]] | apply rs_counter; exact E].
Qed.
Theorem reader_iff q t q' : reader_f q t = Some q' <-> rstep q t q'.
Proof. split; [apply f_reads|apply reads_f]. Qed.

(** ** Lines *)
Lemma may_end_iff k x : may_end_f k x = true <-> may_end k x.
Proof.
  unfold may_end_f, may_end. rewrite andb_true_iff, forallb_forall, Forall_forall. split; intros (A & B); split.
  - intros p P. specialize (A p P). destruct p; [discriminate A|reflexivity].
  - intros ->. discriminate B.
  - intros p P. rewrite <- (A p P). reflexivity.
  - destruct x; [reflexivity..|]. destruct B. reflexivity.
Qed.
Lemma final_iff q : final_f q = true <-> final q.
Proof.
  destruct q as [s|c|c|c|k x|k x|k x| | | | | | | | | |]; cbn [final_f final]; try apply may_end_iff; try (split; [discriminate|intros []]; fail); try (split; auto; fail).
  - destruct s as [open|open|open|open|open|]; try (split; [discriminate|intros []]; fail); try (split; auto; fail).
    destruct open; [split; auto|split; [discriminate|intros []]].
  - destruct c; try apply may_end_iff; try (split; [discriminate|intros []]; fail); split; auto.
Qed.

Fixpoint feed (q : reader) (l : list token) : option reader :=
  match l with [] => Some q | t :: l' => match reader_f q t with Some q' => feed q' l' | None => None end end.
Lemma feed_iff l : forall q q', feed q l = Some q' <-> reads_to q l q'.
Proof.
  induction l as [|t l IH]; intros q q'; cbn [feed].
  - split; [intros [= <-]; constructor|intros H; inversion H; reflexivity].
  - split.
    + destruct (reader_f q t) as [p|] eqn:E; [|discriminate]. intros H. econstructor; [apply reader_iff; exact E|apply IH; exact H].
    + intros H. inversion H as [|? ? p ? ? A B]; subst. apply reader_iff in A. rewrite A. apply IH. exact B.
Qed.

Lemma after_line t l n open : d_line (t :: l) n -> after_first open t = Begun open.
Proof.
  intros H. unfold after_first. destruct (tok_type t) as [i|w|y|v|y|y| | | | |] eqn:E; try reflexivity.
  destruct w; try reflexivity; exfalso; refine (line_reserved _ _ _ _ H E _); reflexivity.
Qed.
Lemma line_starts t l n : d_line (t :: l) n -> starts t = true.
Proof.
  intros H. assert (S : exists s', step (Fresh []) (t :: l) s') by (eexists; eapply step_line; [constructor|exact H]).
  apply line_iff in S as (q & R & _). inversion R as [|? ? p ? ? A B]; subst. apply reader_iff in A. cbn [reader_f start_f] in A. unfold first_f in A. unfold starts.
  assert (G : opens_f [] AtEnd t = Some p -> opener t = true) by (intros F; apply opens_f_iff in F; exact (opens_opener _ _ _ _ F)).
  destruct (tok_type t) as [i|w|y|v|y|y| | | | |]; try reflexivity; try exact (G A). destruct w; try reflexivity; exact (G A).
Qed.
Lemma after_in_block s open t : in_block s open -> starts t = true -> after_f s (Some t) = after_first open t.
Proof. intros [] S; cbn [after_f]; [reflexivity|]. destruct open0 as [|f open0]; [reflexivity|]. rewrite (not_close _ _ S). reflexivity. Qed.
Lemma after_ok s l s' : step s l s' -> after_f s (hd_error l) = s'.
Proof.
  intros H. destruct H;
    try match goal with H : d_line ?l _ |- _ => destruct l as [|t l]; [destruct (line_empty _ H)|]; cbn [hd_error];
      erewrite after_in_block by (try eassumption; eapply line_starts; eassumption); eapply after_line; eassumption end;
    cbn [hd_error]; unfold kw in *;
    try match goal with B : in_block _ _, H : tok_type ?t = _ |- _ => erewrite after_in_block; [|eassumption|unfold starts; rewrite H; reflexivity]; unfold after_first; rewrite H; reflexivity end;
    repeat match goal with
    | H : before_case _ _ |- _ => destruct H
    | H : before_mebbe _ _ |- _ => destruct H
    | H : _ \/ _ |- _ => destruct H
    end; subst; cbn [after_f close_f after_close]; unfold case_f, branch_f, oic_f, after_case, after_branch;
    try match goal with H : tok_type ?t = _ |- _ => rewrite H; reflexivity end; reflexivity.
Qed.
Definition line_f (s : state) (l : list token) : option state :=
  match feed (RStart s) l with Some q => end_line s (hd_error l) q | None => None end.
Lemma line_f_iff s l s' : line_f s l = Some s' <-> step s l s'.
Proof.
  unfold line_f, end_line. split.
  - destruct (feed (RStart s) l) as [q|] eqn:E; [|discriminate]. destruct (final_f q) eqn:F; [|discriminate]. intros [= <-].
    apply feed_iff in E. apply final_iff in F. destruct (proj2 (line_iff s l)) as (s2 & S); [eauto|]. rewrite (after_ok _ _ _ S). exact S.
  - intros S. destruct (proj1 (line_iff s l)) as (q & R & F); [eauto|]. apply feed_iff in R. apply final_iff in F. rewrite R, F, (after_ok _ _ _ S). reflexivity.
Qed.
Fixpoint lines_f (s : state) (ls : list (list token)) : option state :=
  match ls with [] => Some s | l :: ls' => match line_f s l with Some s' => lines_f s' ls' | None => None end end.
Lemma lines_f_iff ls : forall s s', lines_f s ls = Some s' <-> steps s ls s'.
Proof.
  induction ls as [|l ls IH]; intros s s'; cbn [lines_f].
  - split; [intros [= <-]; constructor|intros H; inversion H; reflexivity].
  - split.
    + destruct (line_f s l) as [p|] eqn:E; [|discriminate]. intros H. econstructor; [apply line_f_iff; exact E|apply IH; exact H].
    + intros H. inversion H as [|? ? p ? ? A B]; subst. apply line_f_iff in A. rewrite A. apply IH. exact B.
Qed.

(** ** Token vectors *)
Definition finish_run (c : config) (ts : list token) : option state :=
  match run c ts with Some c' => last_state c' | None => None end.
Lemma accepts_finish ts : accepts ts = match ts with
  | [] => true
  | t :: ts' => match start t with
                | Some c => match finish_run c ts' with Some s => complete_f s | None => false end
                | None => false
                end
  end.
Proof. destruct ts as [|t ts]; [reflexivity|]. cbn [accepts]. destruct (start t) as [c|]; [|reflexivity]. unfold finish_run. destruct (run c ts); reflexivity. Qed.

Definition visible (l : list token) : list token := filter (fun t => negb (is_ellipsis t)) l.
Definition lines_of (gs : list (list token)) : list (list token) := map visible (filter (fun g => negb (existsb is_comma g)) gs).
Definition rest_of_line (s : state) (first : option token) (q : reader) (l : list token) : option state :=
  match feed q l with Some q' => end_line s (match first with None => hd_error l | _ => first end) q' | None => None end.

Lemma same_line_joined t u : same_line t u = joined t u.
Proof. reflexivity. Qed.
Lemma joined_commas t u : joined t u = true -> is_comma t = false /\ is_comma u = false.
Proof. unfold joined. destruct (is_comma t), (is_comma u); try discriminate. auto. Qed.
Lemma chunks_shape ts : forall t, exists g gs, chunks (t :: ts) = (t :: g) :: gs /\ (is_comma t = true -> g = []) /\ existsb is_comma g = false.
Proof.
  induction ts as [|u ts IH]; intros t.
  - exists [], []. auto.
  - destruct (IH u) as (g & gs & E & A & B). change (chunks (t :: u :: ts)) with
      (match chunks (u :: ts) with (v :: g) :: gs => if joined t v then (t :: v :: g) :: gs else [t] :: (v :: g) :: gs | _ => [[t]] end).
    rewrite E. destruct (joined t u) eqn:J.
    + exists (u :: g), gs. apply joined_commas in J as (J1 & J2). split; [reflexivity|]. split; [congruence|]. cbn [existsb]. rewrite J2. exact B.
    + exists [], ((u :: g) :: gs). auto.
Qed.

Definition reads_chunks (u : token) (ts : list token) : Prop := forall s first q g gs, chunks (u :: ts) = (u :: g) :: gs ->
  finish_run (mkConfig s first q u) ts =
  if is_comma u then lines_f s (lines_of gs)
  else match rest_of_line s first q (visible g) with Some s' => lines_f s' (lines_of gs) | None => None end.
Lemma read_token_chunks t ts s first q g gs : reads_chunks t ts -> is_comma t = false -> chunks (t :: ts) = (t :: g) :: gs ->
  match read_token s first q t with Some c => finish_run c ts | None => None end =
  match rest_of_line s first q (visible (t :: g)) with Some s' => lines_f s' (lines_of gs) | None => None end.
Proof.
  intros IH C E. unfold read_token, visible. cbn [filter]. destruct (is_ellipsis t) eqn:L; cbn [negb].
  - rewrite (IH _ _ _ _ _ E), C. reflexivity.
  - unfold rest_of_line at 1. cbn [feed hd_error]. destruct (reader_f q t) as [q'|]; [|reflexivity]. rewrite (IH _ _ _ _ _ E), C. unfold rest_of_line.
    destruct first; reflexivity.
Qed.
Lemma new_line_chunks t ts s : reads_chunks t ts ->
  match new_line s t with Some c => finish_run c ts | None => None end = lines_f s (lines_of (chunks (t :: ts))).
Proof.
  intros IH. destruct (chunks_shape ts t) as (g & gs & E & A & B). rewrite E. unfold new_line, lines_of. cbn [filter existsb]. rewrite B.
  destruct (is_comma t) eqn:C; cbn [orb negb].
  - rewrite (IH _ _ _ _ _ E), C. reflexivity.
  - rewrite (read_token_chunks _ _ _ _ _ _ _ IH C E). reflexivity.
Qed.
Lemma run_chunks ts : forall u, reads_chunks u ts.
Proof.
  induction ts as [|t ts IH]; intros u s first q g gs E.
  - injection E as <- <-. unfold finish_run, last_state, rest_of_line. cbn. destruct (is_comma u); [reflexivity|].
    destruct first; destruct (end_line _ _ _); reflexivity.
  - destruct (chunks_shape ts t) as (g' & gs' & E' & A & B). unfold finish_run. cbn [run next_token].
    change (chunks (u :: t :: ts)) with
      (match chunks (t :: ts) with (v :: g) :: gs => if joined u v then (u :: v :: g) :: gs else [u] :: (v :: g) :: gs | _ => [[u]] end) in E.
    rewrite E' in E. rewrite same_line_joined. destruct (joined u t) eqn:J.
    + injection E as <- <-. destruct (joined_commas _ _ J) as (J1 & J2). rewrite J1.
      transitivity (match read_token s first q t with Some c => finish_run c ts | None => None end); [destruct (read_token s first q t); reflexivity|].
      apply read_token_chunks; [apply IH|exact J2|exact E'].
    + injection E as <- <-. rewrite <- E'. destruct (is_comma u).
      * rewrite <- (new_line_chunks _ _ _ (IH t)). destruct (new_line s t); reflexivity.
      * unfold rest_of_line. cbn [visible filter feed hd_error]. replace (match first with Some _ => first | None => None end) with first by (destruct first; reflexivity).
        destruct (end_line s first q) as [s'|]; [|reflexivity]. rewrite <- (new_line_chunks _ _ _ (IH t)). destruct (new_line s' t); reflexivity.
Qed.
Lemma accepts_lines ts : accepts ts = match lines_f (Fresh []) (logical_lines ts) with Some s => complete_f s | None => false end.
Proof.
  rewrite accepts_finish. destruct ts as [|t ts]; [reflexivity|]. unfold start, logical_lines.
  change (statements (t :: ts)) with (lines_of (chunks (t :: ts))). destruct (is_comma t).
  - change (lines_f (Fresh []) ([] :: lines_of (chunks (t :: ts)))) with (lines_f (Begun []) (lines_of (chunks (t :: ts)))).
    rewrite <- (new_line_chunks t ts (Begun []) (run_chunks ts t)). destruct (new_line _ t); reflexivity.
  - rewrite <- (new_line_chunks t ts (Fresh []) (run_chunks ts t)). destruct (new_line _ t); reflexivity.
Qed.
Lemma complete_iff s : complete_f s = true <-> complete s.
Proof. destruct s as [[|]|[|]|[|]| | |]; cbn; split; auto; try discriminate; intros []. Qed.
Theorem accepts_iff ts : accepts ts = true <-> exists ns, parse ts = ParseOk (ASTBlock ns) /\ forallb node_clean ns = true.
Proof.
  rewrite checked_tokens, accepts_lines. split.
  - destruct (lines_f _ _) as [s|] eqn:E; [|discriminate]. intros C. exists s. split; [apply lines_f_iff, E|apply complete_iff, C].
  - intros (s & S & C). apply lines_f_iff in S. rewrite S. apply complete_iff, C.
Qed.

Theorem accepts_source_iff code : accepts_source code = true <->
  exists ns, tokenize_and_parse code = ApiOk (ASTBlock ns) /\ forallb node_clean ns = true.
Proof.
  unfold accepts_source, tokenize_and_parse. destruct (tokenize code) as [ts|e| |]; [|split; [discriminate|intros (ns & H & _); discriminate H]..].
  rewrite accepts_iff. split; intros (ns & H & C); exists ns; (split; [|exact C]); [rewrite H; reflexivity|]. destruct (parse ts); congruence.
Qed.

(** ** Beginnings *)
Lemma run_app ts us : forall c, run c (ts ++ us) = match run c ts with Some c' => run c' us | None => None end.
Proof. induction ts as [|t ts IH]; intros c; cbn [app run]; [reflexivity|]. destruct (next_token c t); [apply IH|reflexivity]. Qed.

Definition sep : token := made TComma.
Definition dots : token := made TEllipsis.
Definition on_line_of (u t : token) : token := mkToken (tok_type t) (tok_range u).
Definition plain (t : token) : Prop := is_comma t = false /\ is_ellipsis t = false.
Lemma reader_types q t t' : tok_type t = tok_type t' -> reader_f q t = reader_f q t'.
Proof.
  intros E.
  assert (O : forall k x, opens_f k x t = opens_f k x t') by (intros; unfold opens_f; rewrite E; reflexivity).
  assert (M : forall k x, more_f k x t = more_f k x t') by (intros; unfold more_f; rewrite E, O; reflexivity).
  assert (D : forall k x, done_f k x t = done_f k x t') by (intros [|[] k] []; cbn [done_f]; rewrite ?E, ?O, ?M; reflexivity).
  assert (N : forall c, named_f c t = named_f c t') by (intros []; cbn [named_f]; rewrite ?E, ?D; reflexivity).
  assert (C : forall f, close_f f t = close_f f t') by (intros []; cbn [close_f]; unfold case_f, branch_f, oic_f; rewrite ?E; reflexivity).
  assert (F : first_f t = first_f t') by (unfold first_f; rewrite E, O; reflexivity).
  assert (X : case_f t = case_f t') by exact (C FSwitch).
  assert (B : branch_f t = branch_f t') by exact (C FIf).
  destruct q as [s|c|c|c|k x|k x|k x| | | | | | | | | |]; cbn [reader_f]; try (rewrite ?E; reflexivity); auto.
  - destruct s as [open|[|f open]|open|open|open|]; cbn [start_f]; rewrite ?C, ?F, ?E, ?B; auto.
  - rewrite E, O. reflexivity.
  - unfold is_question_symbol. rewrite E. reflexivity.
Qed.
Lemma reader_moved q u t : reader_f q (on_line_of u t) = reader_f q t.
Proof. apply reader_types. reflexivity. Qed.
Lemma feed_here u l : forall s first q u', Forall plain l -> is_comma u' = false -> is_ellipsis u' = true \/ tok_range u' = tok_range u ->
  forall q', feed q l = Some q' -> exists first' u2, run (mkConfig s first q u') (map (on_line_of u) l) = Some (mkConfig s first' q' u2) /\ is_comma u2 = false /\
    (l = [] \/ first' = match first with None => option_map (on_line_of u) (hd_error l) | _ => first end).
Proof.
  induction l as [|t l IH]; intros s first q u' P C J q' F; cbn [map run feed] in *.
  - injection F as <-. exists first, u'. auto.
  - inversion P as [|? ? (P1 & P2) P']; subst. destruct (reader_f q t) as [p|] eqn:E; [|discriminate F]. cbn [next_token].
    assert (S : same_line u' (on_line_of u t) = true).
    { unfold same_line. rewrite C. change (is_comma (on_line_of u t)) with (is_comma t). rewrite P1. destruct J as [-> | J]; [reflexivity|].
      unfold start_of. cbn [on_line_of tok_range]. rewrite J, Z.eqb_refl. apply orb_true_r. }
    rewrite S. unfold read_token. change (is_ellipsis (on_line_of u t)) with (is_ellipsis t). rewrite P2.
    rewrite reader_moved, E.
    destruct (IH s (match first with Some _ => first | None => Some (on_line_of u t) end) p (on_line_of u t)) with (q' := q') as (f' & u2 & R & K & L);
      [exact P'|exact P1|right; reflexivity|exact F|].
    exists f', u2. split; [exact R|]. split; [exact K|]. right. destruct L as [-> | ->]; cbn [map run] in *; [injection R as <- _|]; destruct first; reflexivity.
Qed.

Lemma next_sep c : next_token c sep = match last_state c with Some s => Some (mkConfig s None (RStart s) sep) | None => None end.
Proof.
  destruct c as [s first q u]. unfold next_token, last_state. cbn [c_last c_state c_first c_reader].
  replace (same_line u sep) with false by (unfold same_line; cbn; rewrite andb_false_r; reflexivity).
  destruct (is_comma u); [reflexivity|]. destruct (end_line s first q); reflexivity.
Qed.
Definition written (l : list token) : list token := sep :: match l with [] => [dots] | _ => map (on_line_of sep) l end.
Lemma after_moved s u first : after_f s (option_map (on_line_of u) first) = after_f s first.
Proof. destruct first as [t|]; reflexivity. Qed.
Lemma run_written c s l s' : Forall plain l -> last_state c = Some s -> line_f s l = Some s' ->
  exists c', run c (written l) = Some c' /\ last_state c' = Some s'.
Proof.
  intros P L F. unfold written. cbn [run]. rewrite next_sep, L. unfold line_f in F. destruct l as [|t l].
  - cbn [feed hd_error] in F. cbn. eexists. split; [reflexivity|]. exact F.
  - inversion P as [|? ? (P1 & P2) P']; subst. cbn [feed hd_error] in F. destruct (reader_f (RStart s) t) as [p|] eqn:E; [|discriminate F].
    destruct (feed p l) as [q|] eqn:G; [|discriminate F]. cbn [map run next_token].
    change (same_line sep (on_line_of sep t)) with false. change (is_comma sep) with true. cbn iota. unfold new_line, read_token.
    change (is_comma (on_line_of sep t)) with (is_comma t). rewrite P1. change (is_ellipsis (on_line_of sep t)) with (is_ellipsis t). rewrite P2.
    rewrite reader_moved, E.
    destruct (feed_here sep l s (Some (on_line_of sep t)) p (on_line_of sep t) P' P1 (or_intror eq_refl) q G) as (f & u & R & K & X).
    exists (mkConfig s f q u). split; [exact R|]. unfold last_state. cbn [c_last c_state c_first c_reader]. rewrite K, <- F. unfold end_line.
    assert (Y : f = Some (on_line_of sep t)) by (destruct X as [-> | ->]; [injection R; intros; subst; reflexivity|reflexivity]). rewrite Y.
    change (Some (on_line_of sep t)) with (option_map (on_line_of sep) (Some t)). rewrite after_moved. reflexivity.
Qed.
Lemma run_lines ls : forall c s s', Forall (Forall plain) ls -> last_state c = Some s -> lines_f s ls = Some s' ->
  exists c', run c (concat (map written ls)) = Some c' /\ last_state c' = Some s'.
Proof.
  induction ls as [|l ls IH]; intros c s s' P L F.
  - injection F as <-. exists c. auto.
  - inversion P as [|? ? P1 P2]; subst. cbn [lines_f] in F. destruct (line_f s l) as [s1|] eqn:E; [|discriminate F].
    destruct (run_written _ _ _ _ P1 L E) as (c1 & R1 & L1). destruct (IH c1 s1 s' P2 L1 F) as (c2 & R2 & L2).
    exists c2. cbn [map concat]. rewrite run_app, R1. auto.
Qed.
Lemma inner_plain l : Forall inner l -> Forall plain l.
Proof. apply Forall_impl. intros t. unfold inner, plain, is_comma, is_ellipsis. destruct (tok_type t); intuition congruence. Qed.
Lemma run_finish c : exists us c' s, run c us = Some c' /\ last_state c' = Some s /\ complete_f s = true.
Proof.
  assert (H : exists us c1 s, run c us = Some c1 /\ last_state c1 = Some s).
  { destruct c as [s first q u]. destruct (is_comma u) eqn:C.
    - exists [], (mkConfig s first q u), s. split; [reflexivity|]. unfold last_state. cbn [c_last]. rewrite C. reflexivity.
    - destruct (finish_line_ok q) as (q' & R & F). apply feed_iff in R. apply final_iff in F.
      destruct (feed_here u (finish_line q) s first q u) with (q' := q') as (f & u2 & R2 & K & _); [apply inner_plain, inner_finish_line|exact C|right; reflexivity|exact R|].
      eexists _, _, _. split; [exact R2|]. unfold last_state, end_line. cbn [c_last c_state c_first c_reader]. rewrite K, F. reflexivity. }
  destruct H as (us & c1 & s & R & L). destruct (closing_ok s) as (s' & S & D). apply lines_f_iff in S. apply complete_iff in D.
  destruct (run_lines (Checker.closing s) c1 s s') as (c2 & R2 & L2); [|exact L|exact S|].
  - eapply Forall_impl; [|apply inner_closing]. intros l. apply inner_plain.
  - exists (us ++ concat (map written (Checker.closing s))), c2, s'. rewrite run_app, R. auto.
Qed.
Theorem reads_iff ts : reads ts = true <-> exists us ns, parse (ts ++ us) = ParseOk (ASTBlock ns) /\ forallb node_clean ns = true.
Proof.
  split.
  - intros H. assert (G : exists us, accepts (ts ++ us) = true).
    { destruct ts as [|t ts]; [exists []; reflexivity|]. cbn [reads] in H. destruct (start t) as [c|] eqn:S; [|discriminate H].
      destruct (run c ts) as [c1|] eqn:R; [|discriminate H]. destruct (run_finish c1) as (us & c2 & s & R2 & L & D).
      exists us. cbn [app accepts]. rewrite S, run_app, R, R2, L. exact D. }
    destruct G as (us & G). exists us. apply accepts_iff, G.
  - intros (us & H). apply accepts_iff in H. destruct ts as [|t ts]; [reflexivity|]. cbn [app accepts reads] in *.
    destruct (start t) as [c|]; [|discriminate H]. rewrite run_app in H. destruct (run c ts); [reflexivity|discriminate H].
Qed.

(** ** Memory *)
Lemma rstep_size q t q' : rstep q t q' -> reader_size q' <= S (reader_size q).
Proof.
  intros H. destruct H;
    repeat match goal with
    | H : expects _ _ _ |- _ => destruct H
    | H : done _ _ _ |- _ => destruct H
    | H : _ \/ _ |- _ => destruct H
    | H : opens _ _ _ _ |- _ => destruct H
    end; subst; cbn; lia.
Qed.
Lemma after_size s first : state_size (after_f s first) <= S (state_size s).
Proof.
  assert (A : forall open t, state_size (after_first open t) <= S (length open)).
  { intros open t. unfold after_first. destruct (tok_type t) as [i|w|y|v|y|y| | | | |]; try (cbn; lia). destruct w; cbn; lia. }
  assert (B : forall open t, state_size (after_case open t) <= S (length open)).
  { intros open t. unfold after_case. destruct (tok_type t) as [i|w|y|v|y|y| | | | |]; try (cbn; lia). destruct w; cbn; lia. }
  assert (D : forall open t, state_size (after_branch open t) <= S (length open)).
  { intros open t. unfold after_branch. destruct (tok_type t) as [i|w|y|v|y|y| | | | |]; try (cbn; lia). destruct w; cbn; lia. }
  destruct s as [open|open|open|open|open|], first as [t|]; cbn [after_f state_size]; try lia; auto.
  - destruct open as [|f open]; [apply A|]. destruct (close_f f t); [|apply A]. cbn [length].
    destruct f; cbn [after_close]; first [specialize (B open t); lia | specialize (D open t); lia | cbn [state_size]; lia].
  - destruct open; cbn; lia.
Qed.
Lemma read_token_size s first q t c : read_token s first q t = Some c -> config_size c <= S (state_size s + reader_size q).
Proof.
  unfold read_token, config_size. destruct (is_ellipsis t); [intros [= <-]; cbn; lia|]. destruct (reader_f q t) as [q'|] eqn:E; [|discriminate].
  intros [= <-]. cbn [c_state c_reader]. apply reader_iff, rstep_size in E. lia.
Qed.
Lemma new_line_size s t c : new_line s t = Some c -> config_size c <= S (state_size s).
Proof.
  unfold new_line. destruct (is_comma t); [intros [= <-]; unfold config_size; cbn [c_state c_reader reader_size]; lia|]. intros H. apply read_token_size in H. cbn [reader_size] in H. lia.
Qed.
Lemma next_size c t c' : next_token c t = Some c' -> config_size c' <= 2 + config_size c.
Proof.
  destruct c as [s first q u]. cbn [next_token]. unfold config_size at 2. cbn [c_state c_reader]. destruct (same_line u t); [intros H; apply read_token_size in H; lia|].
  destruct (is_comma u); [intros H; apply new_line_size in H; lia|]. unfold end_line. destruct (final_f q); [|discriminate].
  intros H. apply new_line_size in H. pose proof (after_size s first). lia.
Qed.
Theorem run_size ts : forall c c', run c ts = Some c' -> config_size c' <= config_size c + 2 * length ts.
Proof.
  induction ts as [|t ts IH]; intros c c' H; cbn [run length] in *; [injection H as <-; lia|].
  destruct (next_token c t) as [c1|] eqn:E; [|discriminate H]. apply IH in H. apply next_size in E. lia.
Qed.
Theorem start_size t c : start t = Some c -> config_size c <= 1.
Proof. unfold start. intros H. apply new_line_size in H. destruct (is_comma t); exact H. Qed.
