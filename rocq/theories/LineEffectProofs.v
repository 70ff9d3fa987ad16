(** Lemmas behind the theorems of PropLineEffect.v. *)
From Coq Require Import Lia.
From Verif Require Import Lines LinesSim ParseFuel ExprGrammar LineGrammar ProgGrammar ProgComplete Recovery RecoverySound RecoveryComplete RecoveryProps.
From Verif Require Export LineEffect.

(** ** Plain lines *)
Lemma plain_cons l : plain l -> exists t c, l = t :: c /\ ~ block_start t /\ forall k, ~ closes k t.
Proof.
  intros (Hn & Hb & Hc). destruct l as [|t c]; [congruence|]. exists t, c. split; [reflexivity|].
  split; [intros H; apply Hb; exists t, c; auto|]. intros k H. apply (Hc k). exists t, c. auto.
Qed.
Definition part_word (w : keyword) : Prop := forall l, plain l -> ~ begins (kw w) l.
Lemma part_word_of k w : (forall t, kw w t -> closes k t) -> part_word w.
Proof. intros H l (_ & _ & Hc) (t & c & -> & Ht). apply (Hc k). exists t, c. auto. Qed.
Lemma part_omg : part_word OMG. Proof. apply (part_word_of SwitchBody). cbn. auto. Qed.
Lemma part_omgwtf : part_word OMGWTF. Proof. apply (part_word_of SwitchBody). cbn. auto. Qed.
Lemma part_ya_rly : part_word YA_RLY. Proof. apply (part_word_of IfBody). cbn. auto. Qed.
Lemma part_no_wai : part_word NO_WAI. Proof. apply (part_word_of IfBody). cbn. auto. Qed.
Lemma part_mebbe : part_word MEBBE. Proof. apply (part_word_of IfBody). cbn. auto. Qed.
Lemma part_oic : part_word OIC. Proof. apply (part_word_of IfBody). cbn. auto. Qed.

(** ** Clean parts *)
Definition ns_clean (ns : list node) : bool := forallb node_clean ns.
Definition sec_clean (d : option (token * list node)) : bool :=
  match d with Some (_, ns) => ns_clean ns | None => true end.
Definition cases_clean (d : list (token * expr * list node)) : bool := forallb (fun x => ns_clean (snd x)) d.
Definition no_ctx {A} (_ : list node -> A) : Prop := False.
Definition sec_ctx (f : list node -> option (token * list node)) : Prop :=
  exists t h, context h /\ forall ns, f ns = Some (t, h ns).
Definition cases_ctx (f : list node -> list (token * expr * list node)) : Prop :=
  exists a t e h b, context h /\ forall ns, f ns = a ++ (t, e, h ns) :: b.
Definition pair_ctx {A B} (c1 : (list node -> A) -> Prop) (c2 : (list node -> B) -> Prop) (f : list node -> A * B) : Prop :=
  (exists g b, c1 g /\ forall ns, f ns = (g ns, b)) \/ (exists a g, c2 g /\ forall ns, f ns = (a, g ns)).
Definition pair_clean {A B} (c1 : A -> bool) (c2 : B -> bool) (x : A * B) : bool := c1 (fst x) && c2 (snd x).

(** A result in which the nodes are kept, or that has an error and does not depend on them. *)
Definition K {A} (ctx : (list node -> A) -> Prop) (cl : A -> bool) (f : list node -> A) : Prop :=
  ctx f \/ exists a, (forall ns, f ns = a) /\ cl a = false.

Section Line.
Variable g : token.
Hypothesis Hg : kw GTFO g.
Variable ls2 : list (list token).

Inductive hole : Set := Far (c : list token) (ls1 : list (list token)) | At.
Definition fill (h : hole) (l : list token) : place :=
  match h with Far c ls1 => (c, ls1 ++ l :: ls2) | At => (l, ls2) end.
Definition start (ls1 : list (list token)) : hole :=
  match ls1 with [] => At | c :: ls1 => Far c ls1 end.
Lemma line_of_start ls1 l : line_of (ls1 ++ l :: ls2) = fill (start ls1) l.
Proof. destruct ls1; reflexivity. Qed.

Lemma plain_g : plain [g].
Proof.
  unfold kw in Hg. repeat split; [discriminate|..].
  - intros (t & c & E & H). injection E as <- <-. unfold block_start, kw in H. rewrite Hg in H. decompose [or] H; discriminate.
  - intros k (t & c & E & H). injection E as <- <-. destruct k; cbn in H; unfold kw in H; rewrite ?Hg in H;
      decompose [or] H; try discriminate; assumption.
Qed.
Lemma g_stmt ls o : r_stmt [g] ls o -> o = Done (NGtfo (mkGtfo g)) ([], ls).
Proof.
  intros H. destruct (stmt_one_outcome [g] ls) as (o' & _ & Hu); [discriminate|]. rewrite (Hu _ H). symmetry. apply Hu.
  apply r_reads. exists [g]. repeat split.
  - constructor. exact Hg.
  - intros (_ & t & c & E & _). discriminate.
Qed.

Definition used (u : use) (Q : list token -> list node + panic_cause -> Prop) : Prop :=
  forall l x, plain l -> gives u l x -> Q l x.
Definition opl {A} (o : out A) : option place :=
  match o with Done _ p | Err _ p => Some p | Crash _ => None end.
Definition put_place {A} (o : out A) (p : place) : out A :=
  match o with Done a _ => Done a p | Err e _ => Err e p | Crash c => Crash c end.
Definition is_done {A} (o : out A) : bool := match o with Done _ _ => true | _ => false end.

(** The outcomes for all lines, given the outcome [o] for the line [g]: the line
    is still to come, it is where OIC is wanted, or it has been used. *)
Definition keeps {A} (at_ok : bool) (o : out A) (run : list token -> out A -> Prop) : Prop :=
  exists h, (at_ok = false -> is_done o = true -> h <> At) /\ opl o = Some (fill h [g]) /\
    forall l, plain l -> run l (put_place o (fill h l)).
Definition instead {A} (o : out A) (run : list token -> out A -> Prop) : Prop :=
  o = Err (UnexpectedToken g) ([], ls2) /\
  forall u r, plain (u :: r) -> run (u :: r) (Err (UnexpectedToken u) (r, ls2)).
Definition uses {A} (KK : (list node -> A) -> Prop) (o : out A) (run : list token -> out A -> Prop) : Prop :=
  exists m,
    match o with
    | Done a p => exists f, KK f /\
        used m (fun l x => run l (match x with inl ns => Done (f ns) p | inr c => Crash c end))
    | Err e p => used m (fun l x => run l (match x with inl _ => Err e p | inr c => Crash c end))
    | Crash c => used m (fun l x => run l (match x with inl _ => Crash c | inr d => Crash d end))
    end.
Definition fam {A} (at_ok : bool) (KK : (list node -> A) -> Prop) (o : out A) (run : list token -> out A -> Prop) : Prop :=
  keeps at_ok o run \/ instead o run \/ uses KK o run.

Lemma fam_map {A B} b (K1 : (list node -> A) -> Prop) (K2 : (list node -> B) -> Prop) (F : A -> B) o (run : list token -> out A -> Prop) (run' : list token -> out B -> Prop) :
  fam b K1 o run -> (forall f, K1 f -> K2 (fun ns => F (f ns))) ->
  (forall l o', plain l -> run l o' -> run' l (omap F o')) -> fam b K2 (omap F o) run'.
Proof.
  intros H HK HR. destruct H as [(h & Hat & Ho & H)|[(-> & H)|(m & H)]].
  - left. exists h. destruct o; cbn in *; [| |discriminate];
      (split; [exact Hat|]); (split; [exact Ho|]); intros l Hl; exact (HR _ _ Hl (H l Hl)).
  - right; left. split; [reflexivity|]. intros u r Hl. exact (HR _ _ Hl (H u r Hl)).
  - right; right. exists m. destruct o; cbn in *.
    + destruct H as (f & Hf & H). exists (fun ns => F (f ns)). split; [auto|].
      intros l x Hl Hx. specialize (HR _ _ Hl (H l x Hl Hx)). destruct x; exact HR.
    + intros l x Hl Hx. specialize (HR _ _ Hl (H l x Hl Hx)). destruct x; exact HR.
    + intros l x Hl Hx. specialize (HR _ _ Hl (H l x Hl Hx)). destruct x; exact HR.
Qed.
Lemma fam_abort {A B} b b' (K1 : (list node -> A) -> Prop) (K2 : (list node -> B) -> Prop) o o' (run : list token -> out A -> Prop) (run' : list token -> out B -> Prop) :
  fam b K1 o run -> aborts o o' ->
  (forall l o1 o2, plain l -> run l o1 -> aborts o1 o2 -> run' l o2) -> fam b' K2 o' run'.
Proof.
  intros H Ha HR. destruct H as [(h & Hat & Ho & H)|[(-> & H)|(m & H)]].
  - left. exists h. destruct Ha; cbn in *; [|discriminate].
    split; [discriminate|]. split; [exact Ho|]. intros l Hl. apply (HR _ _ _ Hl (H l Hl)). constructor.
  - right; left. inversion Ha; subst. split; [reflexivity|]. intros u r Hl. apply (HR _ _ _ Hl (H u r Hl)). constructor.
  - right; right. exists m. destruct Ha; intros l x Hl Hx; apply (HR _ _ _ Hl (H l x Hl Hx)); destruct x; constructor.
Qed.
Lemma fam_weak {A} (KK : (list node -> A) -> Prop) o run : fam false KK o run -> fam true KK o run.
Proof.
  intros [(h & Hat & H)|H]; [left|right; exact H]. exists h. split; [discriminate|exact H].
Qed.
Lemma fam_run {A} b (KK : (list node -> A) -> Prop) o (run run' : list token -> out A -> Prop) :
  fam b KK o run -> (forall l o', plain l -> run l o' -> run' l o') -> fam b KK o run'.
Proof.
  intros [(h & Hat & Ho & H)|[(-> & H)|(m & H)]] HR.
  - left. exists h. repeat split; auto.
  - right; left. split; auto.
  - right; right. exists m. destruct o; [destruct H as (f & Hf & H); exists f; split; [exact Hf|]|..];
      intros l x Hl Hx; apply HR; auto.
Qed.

(** ** One judgement after the other *)
Inductive seq {A B} (J1 : place -> out A -> Prop) (J2 : place -> out B -> Prop) (p : place) : out (A * B) -> Prop :=
| seq_done a p' o : J1 p (Done a p') -> J2 p' o -> seq J1 J2 p (omap (pair a) o)
| seq_abort o1 o : J1 p o1 -> aborts o1 o -> seq J1 J2 p o.

Definition P {A} (at_in at_ok : bool) (KK : (list node -> A) -> Prop) (J : place -> out A -> Prop) (p : place) (o : out A) : Prop :=
  forall h, (at_in = false -> h <> At) -> p = fill h [g] -> fam at_ok KK o (fun l => J (fill h l)).

Lemma K_fst {A B} (c1 : (list node -> A) -> Prop) cl1 (c2 : (list node -> B) -> Prop) cl2 f b :
  K c1 cl1 f -> K (pair_ctx c1 c2) (pair_clean cl1 cl2) (fun ns => (f ns, b)).
Proof.
  intros [H|(a & H & E)]; [left; left; exists f, b; auto|].
  right. exists (a, b). split; [intros ns; now rewrite H|]. unfold pair_clean. cbn. now rewrite E.
Qed.
Lemma K_snd {A B} (c1 : (list node -> A) -> Prop) cl1 (c2 : (list node -> B) -> Prop) cl2 f a :
  K c2 cl2 f -> K (pair_ctx c1 c2) (pair_clean cl1 cl2) (fun ns => (a, f ns)).
Proof.
  intros [H|(b & H & E)]; [left; right; exists a, f; auto|].
  right. exists (a, b). split; [intros ns; now rewrite H|]. unfold pair_clean. cbn. rewrite E. apply andb_false_r.
Qed.
Lemma P_seq {A B} i b1 b2 c1 cl1 c2 cl2 (J1 : place -> out A -> Prop) (J2 : place -> out B -> Prop) p a p' o :
  P i b1 (K c1 cl1) J1 p (Done a p') -> P b1 b2 (K c2 cl2) J2 p' o -> J2 p' o ->
  P i b2 (K (pair_ctx c1 c2) (pair_clean cl1 cl2)) (seq J1 J2) p (omap (pair a) o).
Proof.
  intros H1 H2 HJ h Hi Hp. specialize (H1 h Hi Hp). destruct H1 as [(h' & Hat & Ho & H)|[(E & _)|(m & f & Hf & H)]].
  - injection Ho as ->. refine (fam_map _ _ _ (pair a) o _ _ (H2 h' _ eq_refl) _ _).
    + intros E. apply Hat; auto.
    + intros f. apply K_snd.
    + intros l o' Hl Ho. eapply seq_done; [exact (H l Hl)|exact Ho].
  - discriminate.
  - right; right. exists m. destruct o as [b q|e q|c]; cbn.
    + exists (fun ns => (f ns, b)). split; [apply K_fst, Hf|]. intros l x Hl Hx. specialize (H l x Hl Hx).
      destruct x as [ns|c]; [exact (seq_done _ _ _ _ _ _ H HJ)|]. eapply seq_abort; [exact H|constructor].
    + intros l x Hl Hx. specialize (H l x Hl Hx).
      destruct x as [ns|c]; [exact (seq_done _ _ _ _ _ _ H HJ)|]. eapply seq_abort; [exact H|constructor].
    + intros l x Hl Hx. specialize (H l x Hl Hx).
      destruct x as [ns|d]; [exact (seq_done _ _ _ _ _ _ H HJ)|]. eapply seq_abort; [exact H|constructor].
Qed.
Lemma P_abort {A B} i b1 b2 K1 K2 (J1 : place -> out A -> Prop) (J2 : place -> out B -> Prop) p o1 o :
  P i b1 K1 J1 p o1 -> aborts o1 o -> P i b2 K2 (seq J1 J2) p o.
Proof.
  intros H Ha h Hi Hp. refine (fam_abort _ _ _ _ _ _ _ _ (H h Hi Hp) Ha _).
  intros l x y _ Hx Hxy. exact (seq_abort _ _ _ _ _ Hx Hxy).
Qed.

(** ** The ends of statements *)
Lemma P_closing t p o : closing t p o -> P true false (K no_ctx (fun _ : unit => true)) (closing t) p o.
Proof.
  intros H h _ E. destruct h as [c ls1|]; cbn in E.
  - left. destruct H; injection E as <- ->; [exists (Far [] ls1)|exists (Far r ls1)|exists (Far r ls1)];
      (split; [discriminate|]); (split; [reflexivity|]); intros l Hl; constructor; auto.
  - destruct H; try discriminate; injection E as -> -> ->.
    + right; left. split; [reflexivity|]. intros u r Hl. constructor. intros Hu.
      apply (part_oic _ Hl). exists u, r. auto.
    + destruct (part_oic [g] plain_g). exists g, []. auto.
Qed.
Inductive loop_end (t : token) : place -> out token -> Prop :=
| le_none ls : loop_end t ([], ls) (Err (EImInYr (MissingImOuttaYr t)) ([], ls))
| le_no_label imo ls : loop_end t ([imo], ls) (Err (EImInYr (MissingEndLabel imo)) ([], ls))
| le_bad imo e r ls : ~ ident_tok e -> loop_end t (imo :: e :: r, ls) (Err (EImInYr (InvalidEndLabel e)) (r, ls))
| le_ok imo e r ls : ident_tok e -> loop_end t (imo :: e :: r, ls) (Done e (r, ls)).
Lemma P_loop_end t p o : loop_end t p o -> P false true (K no_ctx (fun _ : token => true)) (loop_end t) p o.
Proof.
  intros H h Hi E. destruct h as [c ls1|]; [|destruct (Hi eq_refl eq_refl)]. cbn in E.
  left. destruct H; injection E as <- ->; [exists (Far [] ls1)|exists (Far [] ls1)|exists (Far r ls1)|exists (Far r ls1)];
    (split; [discriminate|]); (split; [reflexivity|]); intros l Hl; constructor; auto.
Qed.
Inductive function_end (t : token) : place -> out unit -> Prop :=
| fe_none ls : function_end t ([], ls) (Err (MissingBlockClosingToken t) ([], ls))
| fe_junk e x r ls : function_end t (e :: x :: r, ls) (Err (TooManyTokens (x :: r)) (line_of ls))
| fe_ok e ls : function_end t ([e], ls) (Done tt (line_of ls)).
Lemma P_function_end t p o : function_end t p o -> P false true (K no_ctx (fun _ : unit => true)) (function_end t) p o.
Proof.
  intros H h Hi E. destruct h as [c ls1|]; [|destruct (Hi eq_refl eq_refl)]. cbn in E.
  left. destruct H; injection E as <- ->; [exists (Far [] ls1)|exists (start ls1)|exists (start ls1)];
    (split; [discriminate|]); (split; [cbn; rewrite ?line_of_start; reflexivity|]); intros l Hl; cbn;
    rewrite <- ?line_of_start; constructor.
Qed.
Inductive line_end : place -> out unit -> Prop :=
| li_junk x r ls : line_end (x :: r, ls) (Err (TooManyTokens (x :: r)) (line_of ls))
| li_ok ls : line_end ([], ls) (Done tt (line_of ls)).
Lemma P_line_end p o : line_end p o -> P false true (K no_ctx (fun _ : unit => true)) line_end p o.
Proof.
  intros H h Hi E. destruct h as [c ls1|]; [|destruct (Hi eq_refl eq_refl)]. cbn in E.
  left. destruct H; injection E as <- ->; exists (start ls1);
    (split; [discriminate|]); (split; [cbn; rewrite ?line_of_start; reflexivity|]); intros l Hl; cbn;
    rewrite <- ?line_of_start; constructor.
Qed.

(** ** Statements and blocks *)
Definition Kn := K node_context node_clean.
Definition Kb := K context ns_clean.
Definition Ks := K sec_ctx sec_clean.
Definition Kc := K cases_ctx cases_clean.

Lemma Kb_pre a f : Kb f -> Kb (fun ns => a ++ f ns).
Proof.
  intros [H|(b & H & E)].
  - left. destruct H as [h c b H|h c k b Hk H].
    + apply (here _ (a ++ c) b). intros ns. rewrite H. now rewrite app_assoc.
    + apply (inside _ (a ++ c) k b Hk). intros ns. rewrite H. now rewrite app_assoc.
  - right. exists (a ++ b). split; [intros ns; now rewrite H|]. unfold ns_clean in *. rewrite forallb_app, E. apply andb_false_r.
Qed.
Lemma Kb_post b f : Kb f -> Kb (fun ns => f ns ++ b).
Proof.
  intros [H|(a & H & E)].
  - left. destruct H as [h c d H|h c k d Hk H].
    + apply (here _ c (d ++ b)). intros ns. rewrite H. now rewrite !app_assoc.
    + apply (inside _ c k (d ++ b) Hk). intros ns. rewrite H. now rewrite <- app_assoc.
  - right. exists (a ++ b). split; [intros ns; now rewrite H|]. unfold ns_clean in *. rewrite forallb_app, E. reflexivity.
Qed.
Lemma Kb_id : Kb (fun ns => ns).
Proof. left. apply (here _ [] []). intros ns. now rewrite app_nil_r. Qed.
Lemma Kb_node a f : Kn f -> Kb (fun ns => f ns :: a).
Proof.
  intros [H|(n & H & E)].
  - left. apply (inside _ [] f a H). reflexivity.
  - right. exists (n :: a). split; [intros ns; now rewrite H|]. cbn. now rewrite E.
Qed.
Lemma Kb_error e a : Kb (fun _ => NASTError e :: a).
Proof. right. exists (NASTError e :: a). auto. Qed.
(** A block whose first nodes use the line. *)
Lemma uses_more m pre a o (run : list token -> out (list node) -> Prop) : Kb pre ->
  used m (fun l x => run l (match x with inl ns => omap (app (pre ns)) o | inr c => Crash c end)) ->
  fam false Kb (omap (app a) o) run.
Proof.
  intros HK H. right; right. exists m. destruct o as [b p|e p|c]; cbn in *; [|exact H|].
  - exists (fun ns => pre ns ++ b). split; [apply Kb_post, HK|exact H].
  - intros l x Hl Hx. specialize (H l x Hl Hx). destruct x; exact H.
Qed.

Definition Pstmt (l : list token) (ls : list (list token)) (o : out node) : Prop :=
  forall ls1, ls = ls1 ++ [g] :: ls2 -> fam true Kn o (fun l' => r_stmt l (ls1 ++ l' :: ls2)).
Definition Pblock k p o := P true false Kb (r_block k) p o.
Definition Pmore k (ls : list (list token)) o : Prop :=
  forall ls1, ls = ls1 ++ [g] :: ls2 -> fam false Kb o (fun l => r_more k (ls1 ++ l :: ls2)).
Definition Psection w k p o := part_word w -> P true true Ks (r_section w k) p o.
Definition Pcases w m k p o := part_word w -> P true true Kc (r_cases w m k) p o.

(** A statement that has been read before the line comes. *)
Lemma keep_far {A} b (KK : (list node -> A) -> Prop) (o : out A) (J : list (list token) -> out A -> Prop) (r : list token) ls ls1 :
  ls = ls1 ++ [g] :: ls2 -> opl o = Some (r, ls) -> (forall ls', J ls' (put_place o (r, ls'))) ->
  fam b KK o (fun l => J (ls1 ++ l :: ls2)).
Proof.
  intros -> Ho H. left. exists (Far r ls1). split; [discriminate|]. split; [exact Ho|]. intros l _. apply H.
Qed.
Lemma keep_next {A} (KK : (list node -> A) -> Prop) (o : out A) (J : list (list token) -> out A -> Prop) ls ls1 :
  ls = ls1 ++ [g] :: ls2 -> opl o = Some (line_of ls) -> (forall ls', J ls' (put_place o (line_of ls'))) ->
  fam true KK o (fun l => J (ls1 ++ l :: ls2)).
Proof.
  intros -> Ho H. left. exists (start ls1). split; [discriminate|]. split; [rewrite <- line_of_start; exact Ho|].
  intros l _. rewrite <- line_of_start. apply H.
Qed.
(** A failure on a line before. *)
Lemma keep_failed {A} (KK : (list node -> A) -> Prop) f (J : list (list token) -> out A -> Prop) ls ls1 :
  ls = ls1 ++ [g] :: ls2 -> (forall ls', J ls' (failed f ls')) ->
  fam true KK (failed f ls) (fun l => J (ls1 ++ l :: ls2)).
Proof.
  intros E H. destruct f as [e r|c].
  - eapply keep_far; [exact E|reflexivity|]. intros ls'. apply (H ls').
  - right; right. exists AsRest. intros l x _ ->. apply H.
Qed.


Lemma K_loop t label it cond f : K (pair_ctx context no_ctx) (pair_clean ns_clean (fun _ : token => true)) f ->
  Kn (fun ns => NImInYr (ImInYr t label it cond (ASTBlock (fst (f ns))) (snd (f ns)))).
Proof.
  intros [[(h & b & Hh & H)|(? & ? & [] & _)]|([b e'] & H & E)].
  - left. apply (in_loop _ t label it cond h b Hh). intros ns. now rewrite H.
  - right. eexists. split; [intros ns; rewrite H; reflexivity|]. unfold pair_clean in E. cbn in *. now rewrite andb_true_r in E.
Qed.
Lemma K_function t i ps f : K (pair_ctx context no_ctx) (pair_clean ns_clean (fun _ : unit => true)) f ->
  Kn (fun ns => NHowIzI (HowIzI t i ps (ASTBlock (fst (f ns))))).
Proof.
  intros [[(h & b & Hh & H)|(? & ? & [] & _)]|([b e'] & H & E)].
  - left. apply (in_function _ t i ps h Hh). intros ns. now rewrite H.
  - right. eexists. split; [intros ns; rewrite H; reflexivity|]. unfold pair_clean in E. cbn in *. now rewrite andb_true_r in E.
Qed.

Definition mk_wtf (t : token) (x : list (token * expr * list node) * option (token * list node) * unit * unit) : node :=
  NWtf (Wtf t (map (fun '(a, e, ns) => WtfOmg a e (ASTBlock ns)) (fst (fst (fst x))))
              (option_map (fun '(a, ns) => WtfOmgWtf a (ASTBlock ns)) (snd (fst (fst x))))).
Definition mk_o_rly (t : token)
  (x : option (token * list node) * list (token * expr * list node) * option (token * list node) * unit) : node :=
  NORly (ORly t (option_map (fun '(a, ns) => YaRly a (ASTBlock ns)) (fst (fst (fst x))))
                (option_map (fun '(a, ns) => NoWai a (ASTBlock ns)) (snd (fst x)))
                (map (fun '(a, e, ns) => Mebbe a e (ASTBlock ns)) (snd (fst (fst x))))).
Definition cl_unit (_ : unit) : bool := true.
Notation wtf_ctx := (pair_ctx (pair_ctx (pair_ctx cases_ctx sec_ctx) no_ctx) no_ctx).
Notation wtf_cl := (pair_clean (pair_clean (pair_clean cases_clean sec_clean) cl_unit) cl_unit).
Notation o_rly_ctx := (pair_ctx (pair_ctx (pair_ctx sec_ctx cases_ctx) sec_ctx) no_ctx).
Notation o_rly_cl := (pair_clean (pair_clean (pair_clean sec_clean cases_clean) sec_clean) cl_unit).

Lemma cases_clean_omg ms : forallb wtf_omg_clean (map (fun '(a, e, ns) => WtfOmg a e (ASTBlock ns)) ms) = cases_clean ms.
Proof. induction ms as [|[[a e] ns] ms IH]; [reflexivity|]. cbn [map forallb cases_clean]. rewrite IH. reflexivity. Qed.
Lemma cases_clean_mebbe ms : forallb mebbe_clean (map (fun '(a, e, ns) => Mebbe a e (ASTBlock ns)) ms) = cases_clean ms.
Proof. induction ms as [|[[a e] ns] ms IH]; [reflexivity|]. cbn [map forallb cases_clean]. rewrite IH. reflexivity. Qed.
Lemma wtf_clean_eq t x : node_clean (mk_wtf t x) = wtf_cl x.
Proof.
  destruct x as [[[omgs d] []] []]. unfold mk_wtf, pair_clean, cl_unit. cbn [fst snd].
  change (node_clean (NWtf ?x)) with (wtf_clean x). cbn [wtf_clean]. rewrite cases_clean_omg, !andb_true_r.
  destruct d as [[a ns]|]; reflexivity.
Qed.
Lemma o_rly_clean_eq t x : node_clean (mk_o_rly t x) = o_rly_cl x.
Proof.
  destruct x as [[[y ms] n] []]. unfold mk_o_rly, pair_clean, cl_unit. cbn [fst snd].
  change (node_clean (NORly ?x)) with (o_rly_clean x). cbn [o_rly_clean]. rewrite cases_clean_mebbe, !andb_true_r.
  destruct y as [[a ns]|], n as [[a' ns']|]; cbn [option_map sec_clean];
    change (ya_rly_clean (YaRly ?a (ASTBlock ?ns))) with (ns_clean ns);
    change (no_wai_clean (NoWai ?a (ASTBlock ?ns))) with (ns_clean ns);
    rewrite ?andb_true_r; repeat match goal with |- context [ns_clean ?x] => destruct (ns_clean x) end;
    destruct (cases_clean ms); reflexivity.
Qed.
Lemma K_wtf t f : K wtf_ctx wtf_cl f -> Kn (fun ns => mk_wtf t (f ns)).
Proof.
  intros [[(f1 & ? & [(f2 & ? & [(f3 & d & (a & w & e & h & b & Hh & H) & H3)|(omgs & f3 & (w & h & Hh & H) & H3)] & H2)|(? & ? & [] & _)] & H1)
          |(? & ? & [] & _)]|(x & H & E)].
  - left. eapply (in_omg _ t _ w e h); [exact Hh|]. intros ns. unfold mk_wtf. rewrite H1, H2, H3, H. cbn [fst snd].
    rewrite map_app. reflexivity.
  - left. eapply (in_omgwtf _ t _ w h); [exact Hh|]. intros ns. unfold mk_wtf. rewrite H1, H2, H3, H. cbn [fst snd option_map]. reflexivity.
  - right. exists (mk_wtf t x). split; [intros ns; now rewrite H|]. now rewrite wtf_clean_eq.
Qed.
Lemma K_o_rly t f : K o_rly_ctx o_rly_cl f -> Kn (fun ns => mk_o_rly t (f ns)).
Proof.
  intros [[(f1 & ? & [(f2 & n & [(f3 & ms & (w & h & Hh & H) & H3)|(y & f3 & (a & w & e & h & b & Hh & H) & H3)] & H2)
                     |(? & f2 & (w & h & Hh & H) & H2)] & H1)
          |(? & ? & [] & _)]|(x & H & E)].
  - left. eapply (in_ya_rly _ t w h); [exact Hh|]. intros ns. unfold mk_o_rly. rewrite H1, H2, H3, H. cbn [fst snd option_map]. reflexivity.
  - left. eapply (in_mebbe _ t _ _ _ w e h); [exact Hh|]. intros ns. unfold mk_o_rly. rewrite H1, H2, H3, H. cbn [fst snd].
    rewrite map_app. reflexivity.
  - left. eapply (in_no_wai _ t _ w h); [exact Hh|]. intros ns. unfold mk_o_rly. rewrite H1, H2, H. cbn [fst snd option_map]. reflexivity.
  - right. exists (mk_o_rly t x). split; [intros ns; now rewrite H|]. now rewrite o_rly_clean_eq.
Qed.

(** The rules of statements with blocks as sequences. *)
Lemma loop_seq t c label it cond ls o : kw IM_IN_YR t -> loop_header c label it cond [] ->
  seq (r_block LoopBody) (loop_end t) (line_of ls) o ->
  r_stmt (t :: c) ls (omap (fun x => NImInYr (ImInYr t label it cond (ASTBlock (fst x)) (snd x))) o).
Proof.
  intros Ht Hh [ns p o' H1 H2|o1 o' H1 Ha].
  - destruct H2; cbn.
    + eapply r_loop_unclosed; eassumption.
    + eapply r_loop_no_label; eassumption.
    + eapply r_loop_bad_label; eassumption.
    + eapply r_loop; eassumption.
  - destruct Ha; [destruct (block_no_error _ _ _ H1 _ _ eq_refl)|]. eapply r_loop_crash; eassumption.
Qed.
Lemma function_seq t c i ps ls o : kw HOW_IZ_I t -> function_header c i ps [] ->
  seq (r_block FunctionBody) (function_end t) (line_of ls) o ->
  r_stmt (t :: c) ls (omap (fun x => NHowIzI (HowIzI t i ps (ASTBlock (fst x)))) o).
Proof.
  intros Ht Hh [ns p o' H1 H2|o1 o' H1 Ha].
  - destruct H2; cbn.
    + eapply r_function_unclosed; eassumption.
    + eapply r_function_end_junk; eassumption.
    + eapply r_function; eassumption.
  - destruct Ha; [destruct (block_no_error _ _ _ H1 _ _ eq_refl)|]. eapply r_function_crash; eassumption.
Qed.
Notation wtf_rule t := (seq (seq (seq (r_cases OMG MissingToken SwitchBody) (r_section OMGWTF SwitchBody)) (closing t)) line_end).
Notation o_rly_rule t := (seq (seq (seq (r_section YA_RLY IfBody)
  (r_cases MEBBE (fun m => EORly (MissingMebbeExpression m)) IfBody)) (r_section NO_WAI IfBody)) (closing t)).
Lemma aborts_omap {A B C} (o : out A) (o' : out B) (f : B -> C) : aborts o o' -> aborts o (omap f o').
Proof. destruct 1; constructor. Qed.
Lemma aborts_trans {A B C} (o : out A) (o1 : out B) (o2 : out C) : aborts o o1 -> aborts o1 o2 -> aborts o o2.
Proof. destruct 1; inversion 1; constructor. Qed.
Lemma omap_done {A B} (f : A -> B) o b p : omap f o = Done b p -> exists a, o = Done a p /\ b = f a.
Proof. destruct o; cbn; intros E; try discriminate. injection E as <- ->. eauto. Qed.
Lemma omap_aborts {A B C} (f : A -> B) o (o' : out C) : aborts (omap f o) o' -> aborts o o'.
Proof. destruct o; cbn; inversion 1; constructor. Qed.
Lemma aborts_not_done {A B} (o : out A) (b : B) p : aborts o (Done b p) -> False.
Proof. inversion 1. Qed.
Lemma seq_Done {A B} (J1 : place -> out A -> Prop) (J2 : place -> out B -> Prop) p x p' :
  seq J1 J2 p (Done x p') -> exists q, J1 p (Done (fst x) q) /\ J2 q (Done (snd x) p').
Proof.
  intros H. inversion H as [a q o H1 H2 E|o1 o H1 Ha E]; subst.
  - apply omap_done in E as (b & -> & ->). eauto.
  - destruct (aborts_not_done _ _ _ Ha).
Qed.
Lemma seq_aborts {A B C} (J1 : place -> out A -> Prop) (J2 : place -> out B -> Prop) p o (o' : out C) :
  seq J1 J2 p o -> aborts o o' ->
  (exists a q o2, J1 p (Done a q) /\ J2 q o2 /\ aborts o2 o') \/ (exists o1, J1 p o1 /\ aborts o1 o').
Proof.
  intros [a q o2 H1 H2|o1 o2 H1 Ha] Hab.
  - left. apply omap_aborts in Hab. eauto 6.
  - right. eauto using aborts_trans.
Qed.
Lemma out_cases {A B} (f : A -> B) (o : out A) : (exists a p, o = Done a p) \/ aborts o (omap f o).
Proof. destruct o; [left; eauto|right; constructor..]. Qed.
Lemma wtf_seq t q ls o : kw WTF t -> question_tok q -> wtf_rule t (line_of ls) o ->
  r_stmt [t; q] ls (omap (mk_wtf t) o).
Proof.
  intros Ht Hq H. destruct (out_cases (mk_wtf t) o) as [([[[omgs d] []] []] & p & ->)|Ha].
  - apply seq_Done in H as (q1 & H & H4). apply seq_Done in H as (q2 & H & H3). apply seq_Done in H as (q3 & H1 & H2).
    cbn [fst snd] in *. inversion H4; subst. eapply r_wtf; eassumption.
  - revert Ha. generalize (omap (mk_wtf t) o). intros o' Ha.
    apply (seq_aborts _ _ _ _ _ H) in Ha as [([x []] & q1 & o1 & H' & H4 & Ha)|(o1 & H' & Ha)].
    + apply seq_Done in H' as (q2 & H' & H3). apply seq_Done in H' as (q3 & H1 & H2). cbn [fst snd] in *.
      inversion H4; subst; inversion Ha; subst. eapply r_wtf_end_junk; eassumption.
    + apply (seq_aborts _ _ _ _ _ H') in Ha as [(x & q1 & o2 & H'' & H3 & Ha)|(o2 & H'' & Ha)].
      * apply seq_Done in H'' as (q3 & H1 & H2). eapply r_wtf_closing; eassumption.
      * apply (seq_aborts _ _ _ _ _ H'') in Ha as [(y & q1 & o3 & H1 & H2 & Ha)|(o3 & H1 & Ha)].
        -- eapply r_wtf_default; eassumption.
        -- eapply r_wtf_cases; eassumption.
Qed.
Lemma o_rly_seq t q ls o : kw O_RLY t -> question_tok q -> o_rly_rule t (line_of ls) o ->
  r_stmt [t; q] ls (omap (mk_o_rly t) o).
Proof.
  intros Ht Hq H. destruct (out_cases (mk_o_rly t) o) as [([[[y ms] n] []] & p & ->)|Ha].
  - apply seq_Done in H as (q1 & H & H4). apply seq_Done in H as (q2 & H & H3). apply seq_Done in H as (q3 & H1 & H2).
    cbn [fst snd] in *. eapply r_o_rly; eassumption.
  - revert Ha. generalize (omap (mk_o_rly t) o). intros o' Ha.
    apply (seq_aborts _ _ _ _ _ H) in Ha as [(x & q1 & o1 & H' & H4 & Ha)|(o1 & H' & Ha)].
    + apply seq_Done in H' as (q2 & H' & H3). apply seq_Done in H' as (q3 & H1 & H2). eapply r_o_rly_closing; eassumption.
    + apply (seq_aborts _ _ _ _ _ H') in Ha as [(x & q1 & o2 & H'' & H3 & Ha)|(o2 & H'' & Ha)].
      * apply seq_Done in H'' as (q3 & H1 & H2). eapply r_o_rly_no; eassumption.
      * apply (seq_aborts _ _ _ _ _ H'') in Ha as [(y & q1 & o3 & H1 & H2 & Ha)|(o3 & H1 & Ha)].
        -- eapply r_o_rly_mebbes; eassumption.
        -- eapply r_o_rly_yes; eassumption.
Qed.

(** From the rule as a sequence to the statement. *)
Lemma P_stmt_of {A} i (ctx : (list node -> A) -> Prop) cl (J : place -> out A -> Prop) (F : A -> node) l ls o :
  (forall f, K ctx cl f -> Kn (fun ns => F (f ns))) ->
  (forall ls o, J (line_of ls) o -> r_stmt l ls (omap F o)) ->
  P true i (K ctx cl) J (line_of ls) o -> Pstmt l ls (omap F o).
Proof.
  intros HK HJ H ls1 ->. refine (fam_map _ _ _ F o _ _ _ HK _).
  - assert (fam i (K ctx cl) o (fun l => J (fill (start ls1) l))) as H'.
    { apply H; [discriminate|]. apply line_of_start. }
    destruct i; [exact H'|exact (fam_weak _ _ _ H')].
  - cbn. intros l' o' _ Ho. apply HJ. rewrite line_of_start. exact Ho.
Qed.

Lemma aborts_as {A B C} (F : C -> B) (o : out A) o' : aborts o o' -> exists x : out C, aborts o x /\ o' = omap F x.
Proof. destruct 1; [exists (Err e p)|exists (Crash c)]; split; constructor. Qed.

Lemma P_abort2 {A B C} i b1 b3 K1 K3 (J1 : place -> out A -> Prop) (J2 : place -> out B -> Prop) (J3 : place -> out C -> Prop) p o1 o :
  P i b1 K1 J1 p o1 -> aborts o1 o -> P i b3 K3 (seq (seq J1 J2) J3) p o.
Proof.
  intros H Ha. destruct Ha.
  - apply (P_abort i true b3 (fun _ => True) K3 _ _ _ (Err e p0)); [|constructor]. eapply P_abort; [exact H|constructor].
  - apply (P_abort i true b3 (fun _ => True) K3 _ _ _ (Crash c)); [|constructor]. eapply P_abort; [exact H|constructor].
Qed.
Lemma P_abort3 {A B C D} i b1 b4 K1 K4 (J1 : place -> out A -> Prop) (J2 : place -> out B -> Prop) (J3 : place -> out C -> Prop)
      (J4 : place -> out D -> Prop) p o1 o :
  P i b1 K1 J1 p o1 -> aborts o1 o -> P i b4 K4 (seq (seq (seq J1 J2) J3) J4) p o.
Proof.
  intros H Ha. destruct Ha.
  - apply (P_abort2 i true b4 (fun _ => True) K4 _ _ _ _ (Err e p0)); [|constructor]. eapply P_abort; [exact H|constructor].
  - apply (P_abort2 i true b4 (fun _ => True) K4 _ _ _ _ (Crash c)); [|constructor]. eapply P_abort; [exact H|constructor].
Qed.
Lemma aborts_pair {A B C} (a : A) (o : out B) (o' : out C) : aborts o o' -> aborts (omap (pair a) o) o'.
Proof. destruct 1; constructor. Qed.
Lemma K_sec t f : Kb f -> Ks (fun ns => Some (t, f ns)).
Proof.
  intros [H|(b & H & E)]; [left; exists t, f; auto|]. right. exists (Some (t, b)). split; [intros ns; now rewrite H|exact E].
Qed.
Lemma K_cases t e f : K (pair_ctx context cases_ctx) (pair_clean ns_clean cases_clean) f ->
  Kc (fun ns => (t, e, fst (f ns)) :: snd (f ns)).
Proof.
  intros [[(h & b & Hh & H)|(x & f' & (a & u & d & h & b & Hh & H') & H)]|([x b] & H & E)].
  - left. exists [], t, e, h, b. split; [exact Hh|]. intros ns. now rewrite H.
  - left. exists ((t, e, x) :: a), u, d, h, b. split; [exact Hh|]. intros ns. rewrite H. cbn. now rewrite H'.
  - right. exists ((t, e, x) :: b). split; [intros ns; now rewrite H|]. exact E.
Qed.
Lemma omap_omap {A B C} (f : A -> B) (h : B -> C) o : omap h (omap f o) = omap (fun a => h (f a)) o.
Proof. destruct o; reflexivity. Qed.
Lemma cases_seq w m k t b ts e ls o : kw w t -> d_expr b ts e -> seq (r_block k) (r_cases w m k) (line_of ls) o ->
  r_cases w m k (t :: ts, ls) (omap (fun x => (t, e, fst x) :: snd x) o).
Proof.
  intros Ht Hd [ns p o' H1 H2|o1 o' H1 Ha].
  - rewrite omap_omap. exact (r_cases_cons _ _ _ _ _ _ _ _ _ _ _ Ht Hd H1 H2).
  - eapply r_cases_block; [exact Ht|exact Hd|exact H1|]. apply aborts_omap, Ha.
Qed.
Lemma P_in {A} b (KK : (list node -> A) -> Prop) J p o : P true b KK J p o -> P false b KK J p o.
Proof. intros H h _. apply H. discriminate. Qed.

(** The line [g] and the lines that can be in its place. *)
Lemma block_here k o : r_more k ls2 o ->
  fam false Kb (omap (app (NGtfo (mkGtfo g) :: left_over [])) o) (fun l => r_block k (l, ls2)).
Proof.
  intros Hm. apply (uses_more AsStatement (fun ns => ns)); [apply Kb_id|].
  intros l x Hl Hx. destruct (plain_cons l Hl) as (t & c & -> & _). cbn in Hx.
  inversion Hx as [|l' n r Hr|l' e r Hf|l' c' Hf]; subst.
  - eapply r_block_done; [constructor; exact Hr|exact Hm].
  - eapply r_block_err; [|exact Hm]. exact (r_fails _ ls2 _ Hf).
  - apply r_block_crash. exact (r_fails _ ls2 _ Hf).
Qed.

Lemma line_mut :
  (forall l ls o, r_stmt l ls o -> Pstmt l ls o) /\
  (forall k p o, r_block k p o -> Pblock k p o) /\
  (forall k ls o, r_more k ls o -> Pmore k ls o) /\
  (forall w k p o, r_section w k p o -> Psection w k p o) /\
  (forall w m k p o, r_cases w m k p o -> Pcases w m k p o).
Proof.
  apply r_mut.
  (* statements *)
  - intros l ls n r Hr ls1 E. eapply (keep_far true Kn _ (r_stmt l) _ _ ls1 E); [reflexivity|]. intros ls'. now constructor.
  - intros l ls f Hf ls1 E. apply (keep_failed Kn f (r_stmt l) _ _ E). intros ls'. now constructor.
  - intros t v ls Ht ls1 E. eapply (keep_next Kn _ (r_stmt (t :: v)) _ _ E); [reflexivity|]. intros ls'. now constructor.
  - intros t c ls f Ht Hf ls1 E. apply (keep_failed Kn f (r_stmt (t :: c)) _ _ E). intros ls'. now apply r_loop_header.
  - intros t c ls label it cond x r Ht Hh ls1 E. eapply (keep_next Kn _ (r_stmt (t :: c)) _ _ E); [reflexivity|]. intros ls'.
    eapply r_loop_junk; eassumption.
  - intros t c ls label it cond p Ht Hh Hb IH.
    apply (P_stmt_of true _ _ _ (fun x => NImInYr (ImInYr t label it cond (ASTBlock (fst x)) (snd x))) _ _ (Crash p) (K_loop t label it cond)
             (fun ls o => loop_seq t c label it cond ls o Ht Hh)).
    eapply (P_abort _ _ true); [exact IH|constructor].
  - intros t c ls label it cond ns ls' Ht Hh Hb IH.
    apply (P_stmt_of true _ _ _ (fun x => NImInYr (ImInYr t label it cond (ASTBlock (fst x)) (snd x))) _ _ (omap (pair ns) (Err (EImInYr (MissingImOuttaYr t)) ([], ls'))) (K_loop t label it cond)
             (fun ls o => loop_seq t c label it cond ls o Ht Hh)).
    eapply P_seq; [exact IH|apply (P_loop_end t); constructor|constructor].
  - intros t c ls label it cond ns imo ls' Ht Hh Hb IH.
    apply (P_stmt_of true _ _ _ (fun x => NImInYr (ImInYr t label it cond (ASTBlock (fst x)) (snd x))) _ _ (omap (pair ns) (Err (EImInYr (MissingEndLabel imo)) ([], ls'))) (K_loop t label it cond)
             (fun ls o => loop_seq t c label it cond ls o Ht Hh)).
    eapply P_seq; [exact IH|apply (P_loop_end t); constructor|constructor].
  - intros t c ls label it cond ns imo e r ls' Ht Hh Hb IH He.
    apply (P_stmt_of true _ _ _ (fun x => NImInYr (ImInYr t label it cond (ASTBlock (fst x)) (snd x))) _ _ (omap (pair ns) (Err (EImInYr (InvalidEndLabel e)) (r, ls'))) (K_loop t label it cond)
             (fun ls o => loop_seq t c label it cond ls o Ht Hh)).
    eapply P_seq; [exact IH|apply (P_loop_end t); constructor; exact He|constructor; exact He].
  - intros t c ls label it cond ns imo e r ls' Ht Hh Hb IH He.
    apply (P_stmt_of true _ _ _ (fun x => NImInYr (ImInYr t label it cond (ASTBlock (fst x)) (snd x))) _ _ (omap (pair ns) (Done e (r, ls')))
             (K_loop t label it cond) (fun ls o => loop_seq t c label it cond ls o Ht Hh)).
    eapply P_seq; [exact IH|apply (P_loop_end t); constructor; exact He|constructor; exact He].
  - intros t c ls f Ht Hf ls1 E. apply (keep_failed Kn f (r_stmt (t :: c)) _ _ E). intros ls'. now apply r_function_header.
  - intros t c ls i ps x r Ht Hh ls1 E. eapply (keep_next Kn _ (r_stmt (t :: c)) _ _ E); [reflexivity|]. intros ls'.
    eapply r_function_junk; eassumption.
  - intros t c ls i ps p Ht Hh Hb IH.
    apply (P_stmt_of true _ _ _ (fun x => NHowIzI (HowIzI t i ps (ASTBlock (fst x)))) _ _ (Crash p) (K_function t i ps)
             (fun ls o => function_seq t c i ps ls o Ht Hh)).
    eapply (P_abort _ _ true); [exact IH|constructor].
  - intros t c ls i ps ns ls' Ht Hh Hb IH.
    apply (P_stmt_of true _ _ _ (fun x => NHowIzI (HowIzI t i ps (ASTBlock (fst x)))) _ _ (omap (pair ns) (Err (MissingBlockClosingToken t) ([], ls'))) (K_function t i ps)
             (fun ls o => function_seq t c i ps ls o Ht Hh)).
    eapply P_seq; [exact IH|apply (P_function_end t); constructor|constructor].
  - intros t c ls i ps ns e x r ls' Ht Hh Hb IH.
    apply (P_stmt_of true _ _ _ (fun x => NHowIzI (HowIzI t i ps (ASTBlock (fst x)))) _ _ (omap (pair ns) (Err (TooManyTokens (x :: r)) (line_of ls'))) (K_function t i ps)
             (fun ls o => function_seq t c i ps ls o Ht Hh)).
    eapply P_seq; [exact IH|apply (P_function_end t); constructor|constructor].
  - intros t c ls i ps ns e ls' Ht Hh Hb IH.
    apply (P_stmt_of true _ _ _ (fun x => NHowIzI (HowIzI t i ps (ASTBlock (fst x)))) _ _ (omap (pair ns) (Done tt (line_of ls'))) (K_function t i ps)
             (fun ls o => function_seq t c i ps ls o Ht Hh)).
    eapply P_seq; [exact IH|apply (P_function_end t); constructor|constructor].
  - intros t c ls f Ht Hf ls1 E. apply (keep_failed Kn f (r_stmt (t :: c)) _ _ E). intros ls'. now apply r_wtf_question.
  - intros t q x r ls Ht Hq ls1 E. eapply (keep_next Kn _ (r_stmt (t :: q :: x :: r)) _ _ E); [reflexivity|]. intros ls'.
    now apply r_wtf_junk.
  - intros t q ls o o' Ht Hq Hc IH Ha. specialize (IH part_omg). apply (aborts_as (mk_wtf t)) in Ha as (x & Ha & ->).
    apply (P_stmt_of true _ _ _ (mk_wtf t) _ _ _ (K_wtf t) (fun ls o => wtf_seq t q ls o Ht Hq)).
    eapply P_abort3; [exact IH|exact Ha].
  - intros t q ls omgs p o o' Ht Hq Hc IH Hs IH2 Ha. specialize (IH part_omg). specialize (IH2 part_omgwtf).
    apply (aborts_as (mk_wtf t)) in Ha as (x & Ha & ->).
    apply (P_stmt_of true _ _ _ (mk_wtf t) _ _ _ (K_wtf t) (fun ls o => wtf_seq t q ls o Ht Hq)).
    eapply P_abort2; [eapply P_seq; [exact IH|exact IH2|exact Hs]|apply aborts_pair; exact Ha].
  - intros t q ls omgs p d p' o o' Ht Hq Hc IH Hs IH2 Hcl Ha. specialize (IH part_omg). specialize (IH2 part_omgwtf).
    apply (aborts_as (mk_wtf t)) in Ha as (x & Ha & ->).
    apply (P_stmt_of true _ _ _ (mk_wtf t) _ _ _ (K_wtf t) (fun ls o => wtf_seq t q ls o Ht Hq)).
    pose proof (P_seq _ _ _ _ _ _ _ _ _ _ _ _ _ IH IH2 Hs) as H1. cbn [omap] in H1.
    pose proof (P_seq _ _ _ _ _ _ _ _ _ _ _ _ _ H1 (P_closing _ _ _ Hcl) Hcl) as H2. cbn [omap] in H2.
    eapply (P_abort _ false); [|apply (aborts_pair (omgs, d)); exact Ha].
    exact H2.
  - intros t q ls omgs p d p' x r ls' Ht Hq Hc IH Hs IH2 Hcl. specialize (IH part_omg). specialize (IH2 part_omgwtf).
    apply (P_stmt_of true _ _ _ (mk_wtf t) _ _ (omap (pair (omgs, d, tt)) (Err (TooManyTokens (x :: r)) (line_of ls')))
             (K_wtf t) (fun ls o => wtf_seq t q ls o Ht Hq)).
    pose proof (P_seq _ _ _ _ _ _ _ _ _ _ _ _ _ IH IH2 Hs) as H1. cbn [omap] in H1.
    pose proof (P_seq _ _ _ _ _ _ _ _ _ _ _ _ _ H1 (P_closing _ _ _ Hcl) Hcl) as H2. cbn [omap] in H2.
    eapply P_seq; [exact H2|apply P_line_end; constructor|constructor].
  - intros t q ls omgs p d p' ls' Ht Hq Hc IH Hs IH2 Hcl. specialize (IH part_omg). specialize (IH2 part_omgwtf).
    apply (P_stmt_of true _ _ _ (mk_wtf t) _ _ (omap (pair (omgs, d, tt)) (Done tt (line_of ls')))
             (K_wtf t) (fun ls o => wtf_seq t q ls o Ht Hq)).
    pose proof (P_seq _ _ _ _ _ _ _ _ _ _ _ _ _ IH IH2 Hs) as H1. cbn [omap] in H1.
    pose proof (P_seq _ _ _ _ _ _ _ _ _ _ _ _ _ H1 (P_closing _ _ _ Hcl) Hcl) as H2. cbn [omap] in H2.
    eapply P_seq; [exact H2|apply P_line_end; constructor|constructor].
  - intros t c ls f Ht Hf ls1 E. apply (keep_failed Kn f (r_stmt (t :: c)) _ _ E). intros ls'. now apply r_o_rly_question.
  - intros t q x r ls Ht Hq ls1 E. eapply (keep_next Kn _ (r_stmt (t :: q :: x :: r)) _ _ E); [reflexivity|]. intros ls'.
    now apply r_o_rly_junk.
  - intros t q ls o o' Ht Hq Hc IH Ha. specialize (IH part_ya_rly). apply (aborts_as (mk_o_rly t)) in Ha as (x & Ha & ->).
    apply (P_stmt_of true _ _ _ (mk_o_rly t) _ _ _ (K_o_rly t) (fun ls o => o_rly_seq t q ls o Ht Hq)).
    eapply P_abort3; [exact IH|exact Ha].
  - intros t q ls y p o o' Ht Hq Hc IH Hs IH2 Ha. specialize (IH part_ya_rly). specialize (IH2 part_mebbe).
    apply (aborts_as (mk_o_rly t)) in Ha as (x & Ha & ->).
    apply (P_stmt_of true _ _ _ (mk_o_rly t) _ _ _ (K_o_rly t) (fun ls o => o_rly_seq t q ls o Ht Hq)).
    eapply P_abort2; [eapply P_seq; [exact IH|exact IH2|exact Hs]|apply aborts_pair; exact Ha].
  - intros t q ls y p ms p' o o' Ht Hq Hc IH Hs IH2 Hn IH3 Ha.
    specialize (IH part_ya_rly). specialize (IH2 part_mebbe). specialize (IH3 part_no_wai).
    apply (aborts_as (mk_o_rly t)) in Ha as (x & Ha & ->).
    apply (P_stmt_of true _ _ _ (mk_o_rly t) _ _ _ (K_o_rly t) (fun ls o => o_rly_seq t q ls o Ht Hq)).
    pose proof (P_seq _ _ _ _ _ _ _ _ _ _ _ _ _ IH IH2 Hs) as H1. cbn [omap] in H1.
    pose proof (P_seq _ _ _ _ _ _ _ _ _ _ _ _ _ H1 IH3 Hn) as H2. cbn [omap] in H2.
    eapply (P_abort _ true); [exact H2|apply (aborts_pair (y, ms)); exact Ha].
  - intros t q ls y p ms p' n p'' o o' Ht Hq Hc IH Hs IH2 Hn IH3 Hcl Ha.
    specialize (IH part_ya_rly). specialize (IH2 part_mebbe). specialize (IH3 part_no_wai).
    apply (aborts_as (mk_o_rly t)) in Ha as (x & Ha & ->).
    assert (x = omap (pair (y, ms, n)) o) as -> by (inversion Ha; reflexivity).
    apply (P_stmt_of false _ _ _ (mk_o_rly t) _ _ _ (K_o_rly t) (fun ls o => o_rly_seq t q ls o Ht Hq)).
    pose proof (P_seq _ _ _ _ _ _ _ _ _ _ _ _ _ IH IH2 Hs) as H1. cbn [omap] in H1.
    pose proof (P_seq _ _ _ _ _ _ _ _ _ _ _ _ _ H1 IH3 Hn) as H2. cbn [omap] in H2.
    eapply P_seq; [exact H2|apply P_closing, Hcl|exact Hcl].
  - intros t q ls y p ms p' n p'' p3 Ht Hq Hc IH Hs IH2 Hn IH3 Hcl.
    specialize (IH part_ya_rly). specialize (IH2 part_mebbe). specialize (IH3 part_no_wai).
    apply (P_stmt_of false _ _ _ (mk_o_rly t) _ _ (omap (pair (y, ms, n)) (Done tt p3)) (K_o_rly t) (fun ls o => o_rly_seq t q ls o Ht Hq)).
    pose proof (P_seq _ _ _ _ _ _ _ _ _ _ _ _ _ IH IH2 Hs) as H1. cbn [omap] in H1.
    pose proof (P_seq _ _ _ _ _ _ _ _ _ _ _ _ _ H1 IH3 Hn) as H2. cbn [omap] in H2.
    eapply P_seq; [exact H2|apply P_closing, Hcl|exact Hcl].
  (* blocks *)
  - intros k ls o Hm IH h _ E. destruct h as [c ls1|]; [|discriminate]. injection E as <- E.
    refine (fam_run _ _ _ _ _ (IH ls1 E) _). intros l o' _ Ho. now constructor.
  - intros k t c ls n r ls' o Hs IHs Hm IHm h _ E. destruct h as [c' ls1|]; cbn in E.
    + injection E as <- E. destruct (IHs ls1 E) as [(h & _ & Ho & H)|[(Eo & _)|(m & f & Hf & H)]]; [..|].
      * destruct h as [c' ls1'|]; injection Ho as -> ->.
        -- refine (fam_map _ _ _ (app (n :: left_over c')) o _ _ (IHm ls1' eq_refl) _ _).
           ++ intros f. apply Kb_pre.
           ++ intros l o' Hl Ho. eapply r_block_done; [exact (H l Hl)|exact Ho].
        -- apply (uses_more AsRest (fun ns => n :: ns)); [apply (Kb_pre [n]), Kb_id|].
           intros l x Hl ->. destruct (plain_cons l Hl) as (u & d & -> & _).
           eapply r_block_done in Hm; [|exact (H _ Hl)]. exact Hm.
      * discriminate.
      * apply (uses_more m (fun ns => f ns :: left_over r)); [apply Kb_node, Hf|].
        intros l x Hl Hx. specialize (H l x Hl Hx). destruct x as [ns|d].
        -- eapply r_block_done in Hm; [|exact H]. exact Hm.
        -- apply r_block_crash, H.
    + injection E as -> -> ->. apply g_stmt in Hs. injection Hs as -> -> ->. apply block_here, Hm.
  - intros k t c ls e r ls' o Hs IHs Hm IHm h _ E. destruct h as [c' ls1|]; cbn in E.
    + injection E as <- E. destruct (IHs ls1 E) as [(h & _ & Ho & H)|[(Eo & H)|(m & H)]]; [..|].
      * destruct h as [c' ls1'|]; injection Ho as -> ->.
        -- refine (fam_map _ _ _ (app (NASTError e :: left_over c')) o _ _ (IHm ls1' eq_refl) _ _).
           ++ intros f. apply Kb_pre.
           ++ intros l o' Hl Ho. eapply r_block_err; [exact (H l Hl)|exact Ho].
        -- apply (uses_more AsRest (fun ns => NASTError e :: ns)); [apply (Kb_pre [NASTError e]), Kb_id|].
           intros l x Hl ->. destruct (plain_cons l Hl) as (u & d & -> & _).
           eapply r_block_err in Hm; [|exact (H _ Hl)]. exact Hm.
      * injection Eo as -> -> ->. apply (uses_more AsClosing (fun ns => ns)); [apply Kb_id|].
        intros l x Hl (u & d & -> & ->). eapply r_block_err in Hm; [|exact (H _ _ Hl)]. exact Hm.
      * apply (uses_more m (fun ns => NASTError e :: left_over r)); [apply Kb_error|].
        intros l x Hl Hx. specialize (H l x Hl Hx). destruct x as [ns|d].
        -- eapply r_block_err in Hm; [|exact H]. exact Hm.
        -- apply r_block_crash, H.
    + injection E as -> -> ->. apply g_stmt in Hs. discriminate.
  - intros k t c ls p Hs IHs h _ E. destruct h as [c' ls1|]; cbn in E.
    + injection E as <- E. destruct (IHs ls1 E) as [(h & _ & Ho & H)|[(Eo & H)|(m & H)]]; try discriminate.
      right; right. exists m. intros l x Hl Hx. specialize (H l x Hl Hx). destruct x; apply r_block_crash, H.
    + injection E as -> -> ->. apply g_stmt in Hs. discriminate.
  - intros k ls He ls1 E. destruct ls1 as [|c ls1]; subst ls; [discriminate|]. cbn in He. subst c.
    left. exists (Far [] ls1). split; [discriminate|]. split; [reflexivity|]. intros l _.
    apply (r_more_empty k ([] :: ls1 ++ l :: ls2)). reflexivity.
  - intros k t c ls Hc ls1 E. destruct ls1 as [|c' ls1].
    + injection E as -> -> ->. destruct plain_g as (_ & _ & H). destruct (H k). exists g, []. auto.
    + injection E as <- E. left. subst ls. exists (Far (t :: c) ls1). split; [discriminate|]. split; [reflexivity|]. intros l _. now apply r_more_close.
  - intros k t c ls o Hc Hb IH ls1 E. destruct ls1 as [|c' ls1].
    + injection E as -> -> ->. refine (fam_run _ _ _ _ _ (IH At _ eq_refl) _); [discriminate|].
      intros l o' Hl Ho. destruct (plain_cons l Hl) as (u & d & -> & _ & Hu). apply r_more_go; auto.
    + injection E as <- ->. refine (fam_run _ _ _ _ _ (IH (Far (t :: c) ls1) _ eq_refl) _); [discriminate|].
      intros l o' Hl Ho. apply r_more_go; auto.
  (* sections *)
  - intros w k c ls Hc Hw h _ E. left. exists h. split; [discriminate|]. split; [cbn; now rewrite E|]. intros l Hl.
    cbn [put_place]. destruct h as [c' ls1|]; cbn in *; constructor; [congruence|]. apply Hw, Hl.
  - intros w k t x r ls Ht Hw h _ E. destruct h as [c' ls1|]; [|discriminate]. injection E as <- E.
    eapply (keep_next Ks _ (fun ls => r_section w k (t :: x :: r, ls)) _ _ E); [reflexivity|]. intros ls'. now constructor.
  - intros w k t ls o Ht Hb IH Hw h _ E. destruct h as [c' ls1|].
    + injection E as <- E. subst ls. refine (fam_map _ _ _ (fun ns => Some (t, ns)) o _ _ (fam_weak _ _ _ (IH (start ls1) _ _)) _ _).
      * discriminate.
      * apply line_of_start.
      * intros f. apply K_sec.
      * intros l o' _ Ho. cbn. apply r_section_block; [exact Ht|]. rewrite line_of_start. exact Ho.
    + injection E as -> ->. destruct (Hw [g] plain_g). exists g, []. auto.
  (* cases *)
  - intros w m k c ls Hc Hw h _ E. left. exists h. split; [discriminate|]. split; [cbn; now rewrite E|]. intros l Hl.
    cbn [put_place]. destruct h as [c' ls1|]; cbn in *; constructor; [congruence|]. apply Hw, Hl.
  - intros w m k t l f ls Ht Hf Hw h _ E. destruct h as [c' ls1|].
    + injection E as <- E. apply (keep_failed Kc f (fun ls => r_cases w m k (t :: l, ls)) _ _ E). intros ls'. now constructor.
    + injection E as -> -> ->. destruct (Hw [g] plain_g). exists g, []. auto.
  - intros w m k t o ts e x r ls Ht Hd Hf Hw h _ E. destruct h as [c' ls1|].
    + injection E as <- E.
      eapply (keep_next Kc _ (fun ls => r_cases w m k (t :: ts ++ x :: r, ls)) _ _ E); [reflexivity|]. intros ls'. eapply r_cases_junk; eassumption.
    + injection E as -> E ->. destruct ts; discriminate.
  - intros w m k t b ts e ls o o' Ht Hd Hb IH Ha Hw h _ E. destruct h as [c' ls1|].
    + injection E as <- E. subst ls. refine (fam_abort _ _ _ _ _ _ _ _ (IH (start ls1) _ _) Ha _).
      * discriminate.
      * apply line_of_start.
      * intros l o1 o2 _ Ho Ha'. cbn. eapply r_cases_block; [exact Ht|exact Hd| |exact Ha']. rewrite line_of_start. exact Ho.
    + injection E as -> -> ->. destruct (Hw [g] plain_g). exists g, []. auto.
  - intros w m k t b ts e ls ns p o Ht Hd Hb IH Hc IHc Hw h _ E. destruct h as [c' ls1|].
    + injection E as <- E. subst ls. specialize (IHc Hw).
      pose proof (P_seq _ _ _ _ _ _ _ _ _ _ _ _ _ IH (P_in _ _ _ _ _ IHc) Hc (start ls1)) as H.
      replace (omap (cons (t, e, ns)) o) with (omap (fun x => (t, e, fst x) :: snd x) (omap (pair ns) o)) by (destruct o; reflexivity).
      refine (fam_map _ _ _ _ _ _ _ (H _ (line_of_start _ _)) _ _).
      * discriminate.
      * intros f. apply K_cases.
      * intros l o' _ Ho. cbn. eapply cases_seq; [exact Ht|exact Hd|]. rewrite line_of_start. exact Ho.
    + injection E as -> -> ->. destruct (Hw [g] plain_g). exists g, []. auto.
Qed.
End Line.

(** ** Errors in contexts *)
Scheme context_ind2 := Minimality for context Sort Prop
  with node_context_ind2 := Minimality for node_context Sort Prop.
Combined Scheme context_mut from context_ind2, node_context_ind2.
Lemma context_clean :
  (forall h, context h -> exists c, forall ns, ns_clean (h ns) = ns_clean ns && c) /\
  (forall k, node_context k -> exists c, forall ns, node_clean (k ns) = ns_clean ns && c).
Proof.
  apply context_mut.
  - intros h a b H. exists (ns_clean a && ns_clean b). intros ns. rewrite H. unfold ns_clean. rewrite !forallb_app.
    destruct (forallb node_clean a), (forallb node_clean ns), (forallb node_clean b); reflexivity.
  - intros h a k b Hk (c & IH) H. exists (ns_clean a && c && ns_clean b). intros ns. rewrite H. unfold ns_clean.
    rewrite forallb_app. cbn [forallb]. rewrite IH. unfold ns_clean.
    destruct (forallb node_clean a), (forallb node_clean ns), (forallb node_clean b), c; reflexivity.
  - intros k t label it cond h e Hh (c & IH) H. exists c. intros ns. rewrite H. exact (IH ns).
  - intros k t i ps h Hh (c & IH) H. exists c. intros ns. rewrite H. exact (IH ns).
  - intros k t xs a e h ys d Hh (c & IH) H.
    eexists. intros ns. rewrite H. cbn [node_clean wtf_clean]. rewrite forallb_app. cbn [forallb wtf_omg_clean block_clean].
    fold (ns_clean (h ns)). rewrite IH.
    rewrite (andb_comm (forallb wtf_omg_clean xs)), <- !andb_assoc. reflexivity.
  - intros k t xs a h Hh (c & IH) H. exists (c && forallb wtf_omg_clean xs). intros ns. rewrite H.
    cbn [node_clean wtf_clean wtf_omg_wtf_clean block_clean]. fold (ns_clean (h ns)). rewrite IH, andb_comm, andb_assoc. reflexivity.
  - intros k t a h n ms Hh (c & IH) H. eexists. intros ns. rewrite H.
    cbn [node_clean o_rly_clean ya_rly_clean block_clean]. fold (ns_clean (h ns)). rewrite IH, <- !andb_assoc. reflexivity.
  - intros k t y a h ms Hh (c & IH) H. eexists. intros ns. rewrite H.
    cbn [node_clean o_rly_clean no_wai_clean block_clean]. fold (ns_clean (h ns)). rewrite IH.
    rewrite (andb_comm _ (ns_clean ns && c)), <- !andb_assoc. reflexivity.
  - intros k t y n xs a e h ys Hh (c & IH) H. eexists. intros ns. rewrite H.
    cbn [node_clean o_rly_clean]. rewrite forallb_app. cbn [forallb mebbe_clean block_clean]. fold (ns_clean (h ns)). rewrite IH.
    rewrite andb_comm, (andb_comm (forallb mebbe_clean xs)), <- !andb_assoc. reflexivity.
Qed.

(** ** Programs *)
Definition any_gtfo : token :=
  mkToken (TKeyword GTFO) (mkRange (mkPos 1 1 0 0) (mkPos 1 1 0 0)).

Lemma line_effect_logical ls1 ls2 : exists u f, answer f /\
  forall l x, plain l -> gives u l x -> parse_logical (ls1 ++ l :: ls2) = f x.
Proof.
  set (g := any_gtfo). assert (kw GTFO g) as Hg by reflexivity.
  destruct (block_one_outcome Root (line_of (ls1 ++ [g] :: ls2))) as (o & Ho & _).
  pose proof (proj1 (proj2 (line_mut g Hg ls2)) _ _ _ Ho (start ls1)) as H.
  specialize (H (fun E => False_ind _ (Bool.diff_true_false E)) (line_of_start ls2 ls1 [g])).
  assert (HE : forall e p, o <> Err e p) by exact (block_no_error _ _ _ Ho).
  destruct H as [(h & _ & E & H)|[(E & H)|(m & H)]].
  - destruct o as [ns p|e p|c]; [|destruct (HE _ _ eq_refl)|discriminate].
    exists AsRest, (fun _ => ParseOk (ASTBlock ns)). split; [constructor|]. intros l x Hl _.
    apply logical_nodes. exists (fill ls2 h l). rewrite (line_of_start ls2). exact (H l Hl).
  - destruct (HE _ _ E).
  - destruct o as [ns p|e p|c]; [|destruct (HE _ _ eq_refl)|].
    + destruct H as (f & Hf & H).
      assert (G : forall l x, plain l -> gives m l x ->
                  parse_logical (ls1 ++ l :: ls2) = match x with inl ns => ParseOk (ASTBlock (f ns)) | inr c => ParsePanic c end).
      { intros l x Hl Hx. specialize (H l x Hl Hx). cbn beta in H. rewrite <- (line_of_start ls2) in H.
        destruct x as [ns'|c].
        - apply logical_nodes. exists p. exact H.
        - apply logical_panics. exact H. }
      destruct Hf as [Hc|(b & Hb & Eb)].
      * eexists m, _. split; [apply (kept f Hc)|]. exact G.
      * eexists m, _. split; [apply (lost (ASTBlock b) Eb)|]. intros l x Hl Hx. rewrite (G l x Hl Hx).
        destruct x; [now rewrite Hb|reflexivity].
    + eexists m, _. split; [apply (later_panic c)|]. intros l x Hl Hx. specialize (H l x Hl Hx). cbn beta in H.
      rewrite <- (line_of_start ls2) in H. destruct x; apply logical_panics; exact H.
Qed.
Lemma line_effect ls1 ls2 : exists u f, answer f /\
  forall ts l x, logical_lines ts = ls1 ++ l :: ls2 -> plain l -> gives u l x -> parse ts = f x.
Proof.
  destruct (line_effect_logical ls1 ls2) as (u & f & Hf & H). exists u, f. split; [exact Hf|].
  intros ts l x E. rewrite parse_logical_lines, E. apply H.
Qed.

Lemma d_line_plain l n : d_line l n -> plain l.
Proof.
  intros H. destruct (d_line_not_closer _ _ H) as (t & c & -> & Hc).
  split; [discriminate|]. split.
  - destruct (d_line_first _ _ H) as (u & us & E & Hu). injection E as <- <-. intros (u & us' & E & Hb). injection E as <- _.
    unfold block_start in Hb. destruct Hu as [Hu|Hu].
    + decompose [or] Hb; (eapply no_expr_kw_of; [|eassumption|exact Hu]; exact I).
    + unfold kw in *. decompose [or] Hb; decompose [or] Hu; congruence.
  - intros k (u & us & E & Hk). injection E as <- _. apply Hc. unfold closer. destruct k; cbn in Hk; tauto.
Qed.
Lemma line_result_of l n : d_line l n -> line_result l (inl [n]).
Proof.
  intros H. change [n] with (n :: left_over []). constructor. exists l. rewrite app_nil_r. repeat split; auto.
  intros (_ & t & c & E & _). discriminate.
Qed.
Lemma line_result_clean l ns : l <> [] -> line_result l (inl ns) -> ns_clean ns = true -> exists n, ns = [n] /\ d_line l n.
Proof.
  intros Hn H Hc. inversion H as [|l' n r Hr|l' e r Hf|]; subst; [congruence| |discriminate].
  destruct r as [|x r]; cbn in Hc.
  - exists n. split; [reflexivity|]. destruct Hr as (ts & -> & Hd & _). now rewrite app_nil_r.
  - destruct (node_clean n); discriminate.
Qed.
Lemma gives_total u l : plain l -> exists x, gives u l x.
Proof.
  intros Hl. destruct u; cbn.
  - apply line_result_total. apply Hl.
  - eauto.
  - destruct (plain_cons l Hl) as (t & c & -> & _). eauto 6.
Qed.

(** Editing one line of an error-free program. *)
Lemma edit_line_logical ls1 l ls2 b : parse_logical (ls1 ++ l :: ls2) = ParseOk b -> block_clean b = true -> plain l ->
  (exists h n, context h /\ d_line l n /\ b = ASTBlock (h [n]) /\
     forall l' n', d_line l' n' ->
       parse_logical (ls1 ++ l' :: ls2) = ParseOk (ASTBlock (h [n'])) /\ block_clean (ASTBlock (h [n'])) = true) \/
  (forall l', plain l' -> parse_logical (ls1 ++ l' :: ls2) = ParseOk b).
Proof.
  intros Hp Hc Hl. destruct (line_effect_logical ls1 ls2) as (u & f & Hf & H).
  destruct (gives_total u l Hl) as (x & Hx). pose proof (H l x Hl Hx) as E. rewrite Hp in E.
  destruct Hf as [r|h Hh|b' Eb|c].
  - right. intros l' Hl'. destruct (gives_total u l' Hl') as (x' & Hx'). rewrite (H l' x' Hl' Hx'). now symmetry.
  - destruct x as [ns|c]; [|discriminate]. injection E as ->. destruct (proj1 context_clean h Hh) as (c & Hcl).
    assert (Hns : ns_clean ns = true /\ c = true).
    { change (ns_clean (h ns) = true) in Hc. rewrite Hcl in Hc. now apply andb_true_iff. }
    destruct Hns as [Hns ->]. destruct u.
    + left. destruct (line_result_clean l ns (proj1 Hl) Hx Hns) as (n & -> & Hd). exists h, n.
      repeat split; auto.
      * exact (H l' (inl [n']) (d_line_plain _ _ H0) (line_result_of _ _ H0)).
      * change (ns_clean (h [n']) = true). rewrite Hcl, andb_true_r. cbn. destruct H0; reflexivity.
    + injection Hx as ->. discriminate.
    + destruct Hx as (t & r & _ & E). injection E as ->. discriminate.
  - destruct x; [|discriminate]. injection E as ->. congruence.
  - destruct x; discriminate.
Qed.
Lemma edit_line ls1 l ls2 ts b : parse ts = ParseOk b -> block_clean b = true ->
  logical_lines ts = ls1 ++ l :: ls2 -> plain l ->
  (exists h n, context h /\ d_line l n /\ b = ASTBlock (h [n]) /\
     forall ts' l' n', logical_lines ts' = ls1 ++ l' :: ls2 -> d_line l' n' ->
       parse ts' = ParseOk (ASTBlock (h [n'])) /\ block_clean (ASTBlock (h [n'])) = true) \/
  (forall ts' l', logical_lines ts' = ls1 ++ l' :: ls2 -> plain l' -> parse ts' = ParseOk b).
Proof.
  intros Hp Hc El Hl. rewrite parse_logical_lines, El in Hp.
  destruct (edit_line_logical ls1 l ls2 b Hp Hc Hl) as [(h & n & Hh & Hd & E & H)|H]; [left; exists h, n|right].
  - repeat split; auto; rewrite ?parse_logical_lines, ?H0; apply (H l' n'); assumption.
  - intros ts' l' E Hl'. rewrite parse_logical_lines, E. apply H, Hl'.
Qed.
