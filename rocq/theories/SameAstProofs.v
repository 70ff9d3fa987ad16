(** What the AST of a program without errors does not tell: proofs for
    PropSameAst.v. *)
From Coq Require Import Lia.
From Verif Require Import Lexer Parser Lines ParseFuel ExprGrammar EqFacts RelabelTokens RelabelProofs Clean ProgComplete RecoveryProps
  Failure Shape ShapeProofs SourceProofs Unparse UnparseProofs.
From Verif Require Export SameAst.

(** ** [trim] *)
Lemma kw_is k t : kw k t <-> is_kw k t = true.
Proof.
  unfold kw, is_kw. destruct (tok_type t); try (split; congruence). rewrite keyword_eqb_iff. split; congruence.
Qed.
Definition ends_an (l : list token) : Prop := exists m a, l = m ++ [a] /\ kw AN a.

Lemma trim_fun_an t m a : kw HOW_IZ_I t -> kw AN a -> trim (t :: m ++ [a]) = t :: m.
Proof.
  intros Ht Ha. unfold trim. apply kw_is in Ht as ->. apply kw_is in Ha.
  rewrite (app_comm_cons m [a] t), rev_app_distr. cbn [rev app]. rewrite Ha. rewrite rev_app_distr, rev_involutive. reflexivity.
Qed.
Lemma trim_fun_no t m : kw HOW_IZ_I t -> ~ ends_an (t :: m) -> trim (t :: m) = t :: m.
Proof.
  intros Ht Ha. unfold trim. apply kw_is in Ht as ->. destruct (rev (t :: m)) as [|a r] eqn:E; [reflexivity|].
  destruct (is_kw AN a) eqn:Ea; [|reflexivity]. destruct Ha. exists (rev r), a. split; [|apply kw_is, Ea].
  rewrite <- (rev_involutive (t :: m)), E. reflexivity.
Qed.
Lemma call_not_fun t : kw I_IZ t -> is_kw HOW_IZ_I t = false.
Proof. intros H. unfold is_kw. rewrite H. reflexivity. Qed.
Lemma trim_call_an t m a k : kw I_IZ t -> kw AN a -> trim (t :: m ++ [a; k]) = t :: m ++ [k].
Proof.
  intros Ht Ha. unfold trim. rewrite (call_not_fun t Ht). apply kw_is in Ht as ->. apply kw_is in Ha.
  rewrite (app_comm_cons m [a; k] t), rev_app_distr. cbn [rev app]. rewrite Ha. rewrite rev_app_distr, rev_involutive. reflexivity.
Qed.
Lemma trim_call_no t m k : kw I_IZ t -> ~ ends_an (t :: m) -> trim (t :: m ++ [k]) = t :: m ++ [k].
Proof.
  intros Ht Ha. unfold trim. rewrite (call_not_fun t Ht). apply kw_is in Ht as ->.
  rewrite (app_comm_cons m [k] t), rev_app_distr. cbn [rev app].
  destruct (rev m ++ [t]) as [|a r] eqn:E; [destruct (rev m); discriminate|].
  destruct (is_kw AN a) eqn:Ea; [|reflexivity]. destruct Ha. exists (rev r), a. split; [|apply kw_is, Ea].
  change (rev m ++ [t]) with (rev (t :: m)) in E. rewrite <- (rev_involutive (t :: m)), E. reflexivity.
Qed.
Lemma trim_other t m : ~ kw HOW_IZ_I t -> ~ kw I_IZ t -> trim (t :: m) = t :: m.
Proof.
  intros H1 H2. rewrite kw_is in H1, H2. unfold trim. destruct (is_kw HOW_IZ_I t); [contradiction|].
  destruct (is_kw I_IZ t); [contradiction|reflexivity].
Qed.
Lemma trim_map f l : (forall t, tok_type (f t) = tok_type t) -> trim (map f l) = map f (trim l).
Proof.
  intros Hf. assert (Hk : forall k t, is_kw k (f t) = is_kw k t) by (intros; unfold is_kw; rewrite Hf; reflexivity).
  destruct l as [|t m]; [reflexivity|]. unfold trim. cbn [map]. rewrite !Hk.
  change (f t :: map f m) with (map f (t :: m)). rewrite <- map_rev.
  destruct (is_kw HOW_IZ_I t).
  - destruct (rev (t :: m)) as [|a r]; [reflexivity|]. cbn [map]. rewrite Hk. destruct (is_kw AN a); [|reflexivity].
    symmetry. apply map_rev.
  - destruct (is_kw I_IZ t); [|reflexivity]. destruct (rev (t :: m)) as [|k [|a r]]; try reflexivity. cbn [map]. rewrite Hk.
    destruct (is_kw AN a); [|reflexivity]. rewrite map_app, map_rev. reflexivity.
Qed.
Lemma trim_types l l' : map tok_type l = map tok_type l' -> map tok_type (trim l) = map tok_type (trim l').
Proof.
  intros E. assert (H : map erase l = map erase l').
  { assert (X : forall m, map erase m = map bare (map tok_type m)) by (intros; rewrite map_map; reflexivity).
    rewrite !X, E. reflexivity. }
  assert (Y : forall m, map tok_type (trim m) = map tok_type (trim (map erase m))).
  { intros m. rewrite trim_map by reflexivity. rewrite map_map. reflexivity. }
  rewrite Y, H, <- Y. reflexivity.
Qed.

(** ** Lines that do not end in AN *)
Lemma not_an_app m l : l <> [] -> ~ ends_an l -> ~ ends_an (m ++ l).
Proof.
  intros Hl H (u & a & E & Ha). destruct (exists_last Hl) as (l' & b & ->). rewrite app_assoc in E.
  apply app_inj_tail in E as [_ ->]. apply H. exists l', a. auto.
Qed.
Lemma not_an_one t : ~ kw AN t -> ~ ends_an [t].
Proof. intros H (u & a & E & Ha). destruct u as [|x [|y u]]; try discriminate. injection E as ->. auto. Qed.
Lemma not_an_cons t l : l <> [] -> ~ ends_an l -> ~ ends_an (t :: l).
Proof. intros Hl H. exact (not_an_app [t] l Hl H). Qed.
Lemma ident_not_an t : ident_tok t -> ~ kw AN t.
Proof. intros [s H]. unfold kw. congruence. Qed.
Lemma identifier_ends ts i : d_identifier ts i -> ts <> [] /\ ~ ends_an ts.
Proof.
  intros H. destruct H as [t H|s t H1 H]; (split; [discriminate|]).
  - apply not_an_one, ident_not_an, H.
  - apply not_an_cons; [discriminate|]. apply not_an_one, ident_not_an, H.
Qed.
Lemma slots_ends us sl : d_slots us sl -> us = [] \/ us <> [] /\ ~ ends_an us.
Proof.
  induction 1 as [|a ts i us sl Ha Hi Hs IH]; [left; reflexivity|]. right. split; [discriminate|].
  destruct (identifier_ends _ _ Hi) as [N1 N2]. destruct IH as [->|[N3 N4]].
  - rewrite app_nil_r. apply not_an_cons; assumption.
  - apply not_an_cons; [|apply not_an_app; assumption]. destruct ts; [congruence|discriminate].
Qed.
Lemma va_ends ts v : d_va ts v -> ts <> [] /\ ~ ends_an ts.
Proof.
  intros [us i ws sl Hi Hs]. destruct (identifier_ends _ _ Hi) as [N1 N2].
  split; [destruct us; [congruence|discriminate]|]. destruct (slots_ends _ _ Hs) as [->|[N3 N4]].
  - rewrite app_nil_r. exact N2.
  - apply not_an_app; assumption.
Qed.
Lemma kw_not_an k t : kw k t -> k <> AN -> ~ kw AN t.
Proof. unfold kw. congruence. Qed.
Lemma expr_ends_mut : (forall o ts e, d_expr o ts e -> ts <> [] /\ (o = false -> ~ ends_an ts)) /\
  (forall ts es, d_operands ts es -> True).
Proof.
  apply d_expr_mut; try (intros; exact I).
  - intros t [v H]. split; [discriminate|]. intros _. apply not_an_one. unfold kw. congruence.
  - intros t H. split; [discriminate|]. intros _. apply not_an_one. apply (kw_not_an _ _ H). discriminate.
  - intros ts v H. destruct (va_ends _ _ H). auto.
  - intros k op t o ls l ans an rs r _ _ _ _ _ _ [N1 N2]. split; [discriminate|]. intros Ho.
    apply not_an_cons; [destruct ls; [destruct ans; [exact N1|discriminate]|discriminate]|].
    rewrite app_assoc. apply not_an_app; auto.
  - intros t o ts e _ _ [N1 N2]. split; [discriminate|]. intros Ho. apply not_an_cons; auto.
  - intros k op t ts es m _ _ _ _ Hm. split; [discriminate|]. intros _. apply not_an_cons; [destruct ts; discriminate|].
    apply not_an_app; [discriminate|]. apply not_an_one. apply (kw_not_an _ _ Hm). discriminate.
  - split; [discriminate|discriminate].
  - split; [discriminate|discriminate].
Qed.
Lemma expr_ends ts e : d_expr false ts e -> ts <> [] /\ ~ ends_an ts.
Proof. intros H. destruct (proj1 expr_ends_mut _ _ _ H). auto. Qed.

(** Arguments and parameters with and without the last AN. *)
Definition last_an (us us' : list token) : Prop := us = us' \/ exists a, us = us' ++ [a] /\ kw AN a.
Definition no_an (us : list token) : Prop := us = [] \/ us <> [] /\ ~ ends_an us.
Lemma args_trim us es : d_args us es -> exists us', d_args us' es /\ no_an us' /\ last_an us us' /\
  map tok_type us' = map tok_type (unparse_list (map expr_tokens es)).
Proof.
  induction 1 as [|yr ts e Hyr He|yr ts e an us es Hyr He Han Hus IH].
  - exists []. repeat split; try constructor; reflexivity.
  - destruct (expr_ends _ _ He) as [N1 N2]. exists (yr :: ts). split; [constructor; assumption|].
    split; [right; split; [discriminate|apply not_an_cons; assumption]|]. split; [left; reflexivity|].
    apply expr_iff in He as [-> _]. cbn. rewrite Hyr. reflexivity.
  - destruct (expr_ends _ _ He) as [N1 N2]. destruct IH as (us' & D & N & L & T). destruct us' as [|u us'].
    + inversion D; subst. exists (yr :: ts). split; [constructor; assumption|].
      split; [right; split; [discriminate|apply not_an_cons; assumption]|]. split.
      * destruct L as [->|(a & -> & Ha)]; [right; exists an; auto|]. cbn in Hus. inversion Hus; subst; exfalso; unfold kw in *; congruence.
      * apply expr_iff in He as [-> _]. cbn. rewrite Hyr. reflexivity.
    + exists (yr :: ts ++ an :: u :: us'). split; [constructor; assumption|]. split; [|split].
      * right. split; [discriminate|]. destruct N as [N|[N3 N4]]; [discriminate|].
        apply not_an_cons; [destruct ts; discriminate|]. apply not_an_app; [discriminate|]. apply not_an_cons; assumption.
      * destruct L as [->|(a & -> & Ha)]; [left; reflexivity|right]. exists a. split; [|exact Ha].
        cbn. rewrite <- app_assoc. reflexivity.
      * destruct es as [|e' es]; [inversion D|]. apply expr_iff in He as [-> _].
        change (unparse_list (map expr_tokens (e :: e' :: es)))
          with (word YR :: expr_tokens e ++ word AN :: unparse_list (map expr_tokens (e' :: es))).
        cbn [map]. rewrite !map_app. cbn [map]. cbn [map] in T. rewrite T, Hyr, Han. reflexivity.
Qed.
Lemma params_trim us is : d_params us is -> exists us', d_params us' is /\ no_an us' /\ last_an us us' /\
  map tok_type us' = map tok_type (unparse_list (map identifier_tokens is)).
Proof.
  induction 1 as [|yr ts e Hyr He|yr ts e an us es Hyr He Han Hus IH].
  - exists []. repeat split; try constructor; reflexivity.
  - destruct (identifier_ends _ _ He) as [N1 N2]. exists (yr :: ts). split; [constructor; assumption|].
    split; [right; split; [discriminate|apply not_an_cons; assumption]|]. split; [left; reflexivity|].
    apply identifier_iff in He as [-> _]. cbn. rewrite Hyr. reflexivity.
  - destruct (identifier_ends _ _ He) as [N1 N2]. destruct IH as (us' & D & N & L & T). destruct us' as [|u us'].
    + inversion D; subst. exists (yr :: ts). split; [constructor; assumption|].
      split; [right; split; [discriminate|apply not_an_cons; assumption]|]. split.
      * destruct L as [->|(a & -> & Ha)]; [right; exists an; auto|]. cbn in Hus. inversion Hus; subst; exfalso; unfold kw in *; congruence.
      * apply identifier_iff in He as [-> _]. cbn. rewrite Hyr. reflexivity.
    + exists (yr :: ts ++ an :: u :: us'). split; [constructor; assumption|]. split; [|split].
      * right. split; [discriminate|]. destruct N as [N|[N3 N4]]; [discriminate|].
        apply not_an_cons; [destruct ts; discriminate|]. apply not_an_app; [discriminate|]. apply not_an_cons; assumption.
      * destruct L as [->|(a & -> & Ha)]; [left; reflexivity|right]. exists a. split; [|exact Ha].
        cbn. rewrite <- app_assoc. reflexivity.
      * destruct es as [|e' es]; [inversion D|]. apply identifier_iff in He as [-> _].
        change (unparse_list (map identifier_tokens (e :: e' :: es)))
          with (word YR :: identifier_tokens e ++ word AN :: unparse_list (map identifier_tokens (e' :: es))).
        cbn [map]. rewrite !map_app. cbn [map]. cbn [map] in T. rewrite T, Hyr, Han. reflexivity.
Qed.

(** ** Lines *)
Lemma call_line t ts v us es m : kw I_IZ t -> d_va ts v -> d_args us es ->
  exists us', d_args us' es /\ trim (t :: ts ++ us ++ [m]) = t :: ts ++ us' ++ [m] /\
    trim (t :: ts ++ us' ++ [m]) = t :: ts ++ us' ++ [m] /\
    map tok_type us' = map tok_type (unparse_list (map expr_tokens es)).
Proof.
  intros Ht Hv Hus. destruct (args_trim _ _ Hus) as (us' & D & N & L & T). exists us'. split; [exact D|].
  assert (E : trim (t :: ts ++ us' ++ [m]) = t :: ts ++ us' ++ [m]).
  { rewrite (app_assoc ts). apply trim_call_no; [exact Ht|]. destruct (va_ends _ _ Hv) as [N1 N2].
    destruct N as [->|[N3 N4]]; [rewrite app_nil_r; apply not_an_cons; assumption|].
    apply not_an_cons; [destruct ts; [congruence|discriminate]|]. apply not_an_app; assumption. }
  split; [|split; [exact E|exact T]]. destruct L as [->|(a & -> & Ha)]; [exact E|].
  rewrite <- app_assoc. cbn [app]. rewrite !(app_assoc ts). apply trim_call_an; assumption.
Qed.
Lemma function_line t ts v us es : kw HOW_IZ_I t -> d_identifier ts v -> d_params us es ->
  exists us', d_params us' es /\ trim (t :: ts ++ us) = t :: ts ++ us' /\
    trim (t :: ts ++ us') = t :: ts ++ us' /\
    map tok_type us' = map tok_type (unparse_list (map identifier_tokens es)).
Proof.
  intros Ht Hv Hus. destruct (params_trim _ _ Hus) as (us' & D & N & L & T). exists us'. split; [exact D|].
  assert (E : trim (t :: ts ++ us') = t :: ts ++ us').
  { apply trim_fun_no; [exact Ht|]. destruct (identifier_ends _ _ Hv) as [N1 N2].
    destruct N as [->|[N3 N4]]; [rewrite app_nil_r; apply not_an_cons; assumption|].
    apply not_an_cons; [destruct ts; [congruence|discriminate]|]. apply not_an_app; assumption. }
  split; [|split; [exact E|exact T]]. destruct L as [->|(a & -> & Ha)]; [exact E|].
  rewrite !(app_assoc ts). apply trim_fun_an; assumption.
Qed.

(** What the first token of a line says about the lines around it. *)
Inductive mark : Set := Plain | Gap | Push (wtf : bool) | Pop.
Definition mark_of (t : token) : mark :=
  match tok_type t with
  | TKeyword HAI | TKeyword IM_IN_YR | TKeyword HOW_IZ_I | TKeyword OMG | TKeyword OMGWTF | TKeyword YA_RLY
  | TKeyword MEBBE | TKeyword NO_WAI | TKeyword IF_U_SAY_SO => Gap
  | TKeyword WTF => Push true
  | TKeyword O_RLY => Push false
  | TKeyword OIC => Pop
  | _ => Plain
  end.
(** All empty lines that can be. *)
Fixpoint restore (st : list bool) (ls : list (list token)) : list (list token) :=
  match ls with
  | [] => []
  | [] :: ls' => [] :: restore st ls'
  | (t :: c) :: ls' =>
    match mark_of t with
    | Plain => (t :: c) :: restore st ls'
    | Gap => (t :: c) :: [] :: restore st ls'
    | Push w => (t :: c) :: restore (w :: st) ls'
    | Pop => (t :: c) :: (if hd false st then [[]] else []) ++ restore (tl st) ls'
    end
  end.
Definition plain_head (l : list token) : Prop := exists t c, l = t :: c /\ mark_of t = Plain /\ ~ kw HOW_IZ_I t.
Lemma kw_plain k t c : kw k t -> mark_of (bare (TKeyword k)) = Plain -> k <> HOW_IZ_I -> plain_head (t :: c).
Proof. intros H M N. exists t, c. split; [reflexivity|]. unfold mark_of in *. rewrite H. split; [exact M|]. unfold kw. congruence. Qed.
Lemma plain_more l m : plain_head l -> plain_head (l ++ m).
Proof. intros (t & c & -> & H). exists t, (c ++ m). auto. Qed.
Lemma ident_plain t c : ident_tok t -> plain_head (t :: c).
Proof. intros [s H]. exists t, c. split; [reflexivity|]. unfold mark_of, kw. rewrite H. split; [reflexivity|discriminate]. Qed.
Lemma va_plain ts v : d_va ts v -> plain_head ts /\ ~ begins (kw I_IZ) ts.
Proof.
  intros [us i ws sl [t H|s t H1 H] Hs]; cbn [app].
  - split; [apply ident_plain, H|]. intros (u & c & E & K). injection E as <- _. destruct H. unfold kw in K. congruence.
  - split; [apply (kw_plain SRS); [assumption|reflexivity|discriminate]|].
    intros (u & c & E & K). injection E as <- _. unfold kw in *. congruence.
Qed.
Lemma expr_plain o ts e : d_expr o ts e -> plain_head ts /\ ~ begins (kw I_IZ) ts.
Proof.
  intros H.
  assert (X : forall k t c, kw k t -> mark_of (bare (TKeyword k)) = Plain -> k <> HOW_IZ_I -> k <> I_IZ ->
    plain_head (t :: c) /\ ~ begins (kw I_IZ) (t :: c)).
  { intros k t c Hk M N1 N2. split; [eapply kw_plain; eassumption|]. intros (u & d & E & K). injection E as <- _. unfold kw in *. congruence. }
  destruct H as [t [v H]|t H|ts v H|k op t o ls l ans an rs r B H|t o ts e H|k op t ts es m B H|k op t ts es B H|k op t ts es us e B H].
  - split.
    + exists t, []. split; [reflexivity|]. unfold mark_of, kw. rewrite H. split; [reflexivity|discriminate].
    + intros (u & d & E & K). injection E as <- _. unfold kw in K. congruence.
  - eapply X; [eassumption|reflexivity|discriminate|discriminate].
  - eapply va_plain, H.
  - destruct B; (eapply X; [eassumption|reflexivity|discriminate|discriminate]).
  - eapply X; [eassumption|reflexivity|discriminate|discriminate].
  - destruct B; (eapply X; [eassumption|reflexivity|discriminate|discriminate]).
  - destruct B; (eapply X; [eassumption|reflexivity|discriminate|discriminate]).
  - destruct B; (eapply X; [eassumption|reflexivity|discriminate|discriminate]).
Qed.
Lemma exprs_tokens o ts es : d_exprs o ts es -> ts = flat_map expr_tokens es.
Proof.
  induction 1 as [|o ts e H|o ts e us es H Hs IH N]; cbn [flat_map].
  - reflexivity.
  - rewrite app_nil_r. apply expr_iff in H. tauto.
  - apply expr_iff in H as [-> _]. rewrite IH. reflexivity.
Qed.
Lemma initial_types us i : d_initial us i -> map tok_type us = map tok_type (unparse_initial i).
Proof.
  intros [|itz t ty Hi Ht|itz o ts e Hi He _]; cbn; rewrite ?Hi; try reflexivity.
  - apply type_iff in Ht as [-> _]. reflexivity.
  - apply expr_iff in He as [-> _]. reflexivity.
Qed.
Lemma plain_trim l : plain_head l -> ~ begins (kw I_IZ) l -> trim l = l.
Proof. intros (t & c & -> & _ & H) N. apply trim_other; [exact H|]. intros K. apply N. exists t, c. auto. Qed.
Lemma line_canon l n : d_line l n -> plain_head l /\ plain_head (trim l) /\ d_line (trim l) n /\
  exists u, unparse n = [u] /\ u <> [] /\ map tok_type (trim l) = map tok_type (trim u).
Proof.
  intros H.
  assert (X : forall k t c, l = t :: c -> kw k t -> mark_of (bare (TKeyword k)) = Plain -> k <> HOW_IZ_I -> k <> I_IZ ->
    plain_head l /\ ~ begins (kw I_IZ) l).
  { intros k t c -> Hk M N1 N2. split; [eapply kw_plain; eassumption|]. intros (u & d & E & K). injection E as <- _. unfold kw in *. congruence. }
  assert (Y : (plain_head l /\ ~ begins (kw I_IZ) l) -> (exists u, unparse n = [u] /\ map tok_type l = map tok_type u) ->
    plain_head l /\ plain_head (trim l) /\ d_line (trim l) n /\
    exists u, unparse n = [u] /\ u <> [] /\ map tok_type (trim l) = map tok_type (trim u)).
  { intros [P N] (u & E & T). rewrite (plain_trim l P N). split; [exact P|]. split; [exact P|]. split; [exact H|].
    exists u. split; [exact E|]. split.
    - intros ->. destruct P as (t & c & -> & _). discriminate.
    - rewrite <- (plain_trim l P N). apply trim_types, T. }
  destruct H as [t ts i us init Ht Hi Hu|t o ts es Ht He|t ts es x Ht He Hx|t ts v Ht Hv|t o ts e Ht He|t Ht|t Ht
    |t ts v us es m Ht Hv Ha Hm|ts v r o us e Hv Hr He|ts v h us i itz o ws e Hv Hh Hi Hz He|o ts e He].
  - apply Y; [eapply X; [reflexivity|eassumption|reflexivity|discriminate|discriminate]|]. eexists. split; [reflexivity|].
    cbn [map ihasa_token ihasa_identifier ihasa_initial_value]. rewrite !map_app, (initial_types _ _ Hu).
    apply identifier_iff in Hi as [-> _]. reflexivity.
  - apply Y; [eapply X; [reflexivity|eassumption|reflexivity|discriminate|discriminate]|]. eexists. split; [reflexivity|].
    unfold visible_tokens. cbn. rewrite app_nil_r, (exprs_tokens _ _ _ He). reflexivity.
  - apply Y; [eapply X; [reflexivity|eassumption|reflexivity|discriminate|discriminate]|]. eexists. split; [reflexivity|].
    unfold visible_tokens. cbn. rewrite (exprs_tokens _ _ _ He). reflexivity.
  - apply Y; [eapply X; [reflexivity|eassumption|reflexivity|discriminate|discriminate]|]. eexists. split; [reflexivity|].
    apply va_iff in Hv as [-> _]. reflexivity.
  - apply Y; [eapply X; [reflexivity|eassumption|reflexivity|discriminate|discriminate]|]. eexists. split; [reflexivity|].
    apply expr_iff in He as [-> _]. reflexivity.
  - apply Y; [eapply X; [reflexivity|eassumption|reflexivity|discriminate|discriminate]|]. eexists. split; reflexivity.
  - apply Y; [eapply X; [reflexivity|eassumption|reflexivity|discriminate|discriminate]|]. eexists. split; reflexivity.
  - destruct (call_line t ts v us es m Ht Hv Ha) as (us' & D & E1 & E2 & T). rewrite E1.
    assert (P : forall c, plain_head (t :: c)) by (intros; eapply kw_plain; [eassumption|reflexivity|discriminate]).
    split; [apply P|]. split; [apply P|]. split; [constructor; assumption|]. eexists. split; [reflexivity|]. split; [discriminate|].
    rewrite <- E2. apply trim_types. cbn [map iiz_token iiz_name iiz_arguments]. rewrite !map_app, T. cbn [map]. rewrite Hm.
    apply va_iff in Hv as [-> _]. reflexivity.
  - destruct (va_plain _ _ Hv) as [P N]. apply Y.
    + split; [apply plain_more, P|]. intros (u & c & E & K). apply N. destruct P as (t & d & -> & _). injection E as <- _. exists t, d. auto.
    + eexists. split; [reflexivity|]. apply va_iff in Hv as [-> _]. apply expr_iff in He as [-> _]. reflexivity.
  - destruct (va_plain _ _ Hv) as [P N]. apply Y.
    + split; [apply plain_more, P|]. intros (u & c & E & K). apply N. destruct P as (t & d & -> & _). injection E as <- _. exists t, d. auto.
    + eexists. split; [reflexivity|]. apply va_iff in Hv as [-> _]. apply expr_iff in He as [-> _]. apply identifier_iff in Hi as [-> _].
      cbn [bss_bukkit bss_slot_name bss_value]. rewrite !map_app. cbn [map]. rewrite !map_app. cbn [map]. rewrite Hh, Hz. reflexivity.
  - apply Y; [eapply expr_plain, He|]. eexists. split; [reflexivity|]. apply expr_iff in He as [-> _]. reflexivity.
Qed.

(** ** Statements *)
Definition essential (ls : list (list token)) : list (list token) := map trim (filter not_empty ls).
Lemma essential_app a b : essential (a ++ b) = essential a ++ essential b.
Proof. unfold essential. rewrite filter_app, map_app. reflexivity. Qed.
Lemma essence_essential ls : essence ls = map (map tok_type) (essential ls).
Proof. unfold essence, essential. rewrite map_map. reflexivity. Qed.
Lemma essence_app a b : essence (a ++ b) = essence a ++ essence b.
Proof. rewrite !essence_essential, essential_app, map_app. reflexivity. Qed.
Lemma essence_cons l ls : l <> [] -> essence (l :: ls) = map tok_type (trim l) :: essence ls.
Proof. destruct l; [congruence|]. reflexivity. Qed.
Lemma essential_cons l ls : l <> [] -> essential (l :: ls) = trim l :: essential ls.
Proof. destruct l; [congruence|]. reflexivity. Qed.
Lemma essence_block ns : essence (unparse_block (ASTBlock ns)) = essence (flat_map unparse ns).
Proof. destruct ns; reflexivity. Qed.

Lemma restore_plain st l ls : plain_head l -> restore st (l :: ls) = l :: restore st ls.
Proof. intros (t & c & -> & M & _). cbn [restore]. rewrite M. reflexivity. Qed.
Lemma mark_kw k t : kw k t -> mark_of t = mark_of (bare (TKeyword k)).
Proof. intros H. unfold mark_of. rewrite H. reflexivity. Qed.
Lemma trim_kw k t c : kw k t -> k <> HOW_IZ_I -> k <> I_IZ -> trim (t :: c) = t :: c.
Proof. intros H N1 N2. apply trim_other; unfold kw in *; congruence. Qed.

(** [ls] is essentially [un], and with all empty lines it satisfies [D]. *)
Definition canonical (D : list (list token) -> Prop) (ls un : list (list token)) : Prop :=
  essence ls = essence un /\
  forall st rest, exists ls', D ls' /\ restore st (essential ls ++ rest) = ls' ++ restore st rest.

Ltac kwt := match goal with
  | H : kw ?k ?t |- context [trim (?t :: ?c)] => rewrite (trim_kw k t c H) by discriminate
  end.
Ltac mk := match goal with
  | H : kw ?k ?t |- context [mark_of ?t] => rewrite (mark_kw k t H); cbn [mark_of bare tok_type]
  end.

Lemma canonical_all :
  (forall ls n, d_stmt ls n -> canonical (fun ls' => d_stmt ls' n) ls (unparse n)) /\
  (forall ls ns, d_block ls ns -> canonical (fun ls' => d_stmts ls' ns) ls (unparse_block (ASTBlock ns))) /\
  (forall ls ns, d_stmts ls ns -> canonical (fun ls' => d_stmts ls' ns) ls (flat_map unparse ns)) /\
  (forall ls omgs, d_omgs ls omgs -> canonical (fun ls' => d_omgs ls' omgs) ls (flat_map unparse_omg omgs)) /\
  (forall ls d, d_default ls d -> canonical (fun ls' => d_default ls' d) ls
    match d with Some d => unparse_omg_wtf d | None => [] end) /\
  (forall ls d, d_ya_rly ls d -> canonical (fun ls' => d_ya_rly ls' d) ls
    match d with Some d => unparse_ya_rly d | None => [] end) /\
  (forall ls ms, d_mebbes ls ms -> canonical (fun ls' => d_mebbes ls' ms) ls (flat_map unparse_mebbe ms)) /\
  (forall ls d, d_no_wai ls d -> canonical (fun ls' => d_no_wai ls' d) ls
    match d with Some d => unparse_no_wai d | None => [] end).
Proof.
  apply d_stmt_mut.
  - (* line *)
    intros l n H. destruct (line_canon l n H) as (P1 & P2 & D & u & E & N & T). split.
    + rewrite E. destruct P1 as (t & c & -> & _). rewrite !essence_cons by (assumption || discriminate). rewrite T. reflexivity.
    + intros st rest. exists [trim l]. split; [apply d_single, D|]. destruct P1 as (t & c & -> & _).
      cbn [essential filter not_empty map app]. apply restore_plain, P2.
  - (* HAI *)
    intros t version H. split; [reflexivity|]. intros st rest. exists [t :: version; []]. split; [constructor; exact H|].
    cbn [essential filter not_empty map app]. kwt. cbn [restore]. mk. reflexivity.
  - (* loop *)
    intros t label its it cs cond ls ns imo el H1 H2 H3 H4 HB [IE IR] H5 H6. split.
    + cbn [unparse unparse_im_in_yr]. rewrite !essence_cons by discriminate. rewrite !essence_app, IE. f_equal.
      * apply trim_types. cbn [map]. rewrite !map_app. f_equal. f_equal. f_equal.
        -- destruct H3 as [|a b us v A B C|a b us v A B C]; [reflexivity| |]; apply va_iff in C as [-> _]; cbn; rewrite B; reflexivity.
        -- destruct H4 as [|a o us e A B|a o us e A B]; [reflexivity| |]; apply expr_iff in B as [-> _]; cbn; rewrite A; reflexivity.
      * f_equal. rewrite !essence_cons by discriminate. f_equal. apply trim_types. cbn. rewrite H5. reflexivity.
    + intros st rest. destruct (IR st ([imo; el] :: rest)) as (ls' & D & R).
      exists ((t :: label :: its ++ cs) :: ([] :: ls') ++ [[imo; el]]). split.
      * apply d_loop; auto. apply d_block_empty_line, D.
      * rewrite essential_cons by discriminate. rewrite essential_app. kwt. cbn [app]. rewrite <- app_assoc.
        cbn [restore]. mk. cbn [essential filter not_empty map app]. kwt. rewrite R. cbn [restore]. mk.
        rewrite <- app_assoc. reflexivity.
  - (* function *)
    intros t ts i us params ls ns e H1 H2 H3 HB [IE IR] H4.
    destruct (function_line t ts i us params H1 H2 H3) as (us' & D & E1 & E2 & T). split.
    + cbn [unparse unparse_how_iz_i]. rewrite !essence_cons by discriminate. rewrite !essence_app, IE. f_equal.
      * rewrite E1, <- E2. apply trim_types. cbn [map]. rewrite !map_app, T. apply identifier_iff in H2 as [-> _]. reflexivity.
      * f_equal. cbn [essence filter not_empty map]. f_equal. apply trim_types. cbn. rewrite H4. reflexivity.
    + intros st rest. destruct (IR st ([e] :: rest)) as (ls' & DL & R).
      exists ((t :: ts ++ us') :: ([] :: ls') ++ [[e]; []]). split.
      * apply d_function; auto. apply d_block_empty_line, DL.
      * rewrite essential_cons by discriminate. rewrite essential_app, E1. cbn [app]. rewrite <- app_assoc.
        cbn [restore]. mk. cbn [essential filter not_empty map app]. kwt. rewrite R. cbn [restore]. mk.
        rewrite <- app_assoc. reflexivity.
  - (* WTF *)
    intros t q ls omgs ms d e H1 H2 HO [OE OR] HD [DE DR] H3. split.
    + cbn [unparse unparse_wtf]. rewrite !essence_cons by discriminate. rewrite !essence_app, OE, DE. f_equal.
      * apply trim_types. cbn. rewrite H2. reflexivity.
      * f_equal. f_equal. cbn [essence filter not_empty map]. f_equal. apply trim_types. cbn. rewrite H3. reflexivity.
    + intros st rest. destruct (DR (true :: st) ([e] :: rest)) as (ms' & DM & RM).
      destruct (OR (true :: st) (essential ms ++ [e] :: rest)) as (ls' & DL & RL).
      exists ([t; q] :: ls' ++ ms' ++ [[e]; []]). split; [constructor; assumption|].
      rewrite essential_cons by discriminate. rewrite !essential_app. kwt. cbn [app]. rewrite <- !app_assoc.
      cbn [restore]. mk. cbn [essential filter not_empty map app]. kwt. fold (essential ls). fold (essential ms).
      rewrite RL, RM. cbn [restore]. mk. cbn [hd tl app]. reflexivity.
  - (* O RLY *)
    intros t q ls yes ms mebbes ks no e H1 H2 HY [YE YR'] HM [ME MR] HN [NE NR] H3. split.
    + cbn [unparse unparse_o_rly]. rewrite !essence_cons by discriminate. rewrite !essence_app, YE, ME, NE. f_equal.
      * apply trim_types. cbn. rewrite H2. reflexivity.
      * f_equal. f_equal. f_equal. cbn [essence filter not_empty map]. f_equal. apply trim_types. cbn. rewrite H3. reflexivity.
    + intros st rest. destruct (NR (false :: st) ([e] :: rest)) as (ks' & DK & RK).
      destruct (MR (false :: st) (essential ks ++ [e] :: rest)) as (ms' & DM & RM).
      destruct (YR' (false :: st) (essential ms ++ essential ks ++ [e] :: rest)) as (ls' & DL & RL).
      exists ([t; q] :: ls' ++ ms' ++ ks' ++ [[e]]). split; [constructor; assumption|].
      rewrite essential_cons by discriminate. rewrite !essential_app. kwt. cbn [app]. rewrite <- !app_assoc.
      cbn [restore]. mk. cbn [essential filter not_empty map app]. kwt.
      fold (essential ls). fold (essential ms). fold (essential ks).
      rewrite RL, RM, RK. cbn [restore]. mk. cbn [hd tl app]. reflexivity.
  - (* blocks *)
    intros ls ns HS [IE IR] N. split; [rewrite essence_block; exact IE|exact IR].
  - intros ls ns HS [IE IR]. split; [rewrite essence_block; exact IE|exact IR].
  - split; [reflexivity|]. intros st rest. exists []. split; [constructor|reflexivity].
  - intros ls n ms ns H1 [E1 R1] H2 [E2 R2]. split.
    + cbn [flat_map]. rewrite !essence_app, E1, E2. reflexivity.
    + intros st rest. destruct (R2 st rest) as (ms' & DM & RM). destruct (R1 st (essential ms ++ rest)) as (ls' & DL & RL).
      exists (ls' ++ ms'). split; [constructor; assumption|]. rewrite essential_app, <- !app_assoc, RL, RM. reflexivity.
  - (* OMG *)
    split; [reflexivity|]. intros st rest. exists []. split; [constructor|reflexivity].
  - intros t o ts e ls ns ms omgs H1 H2 HB [BE BR] HO [OE OR]. split.
    + cbn [flat_map unparse_omg]. rewrite <- app_comm_cons. rewrite !essence_cons by discriminate.
      rewrite !essence_app, BE, OE. apply expr_iff in H2 as [-> _]. reflexivity.
    + intros st rest. destruct (OR st rest) as (ms' & DM & RM). destruct (BR st (essential ms ++ rest)) as (ls' & DL & RL).
      exists ((t :: ts) :: ([] :: ls') ++ ms'). split; [econstructor; eauto; apply d_block_empty_line, DL|].
      rewrite essential_cons by discriminate. rewrite essential_app. kwt. cbn [app]. rewrite <- app_assoc.
      cbn [restore]. mk. rewrite RL, RM, <- app_assoc. reflexivity.
  - (* OMGWTF *)
    split; [reflexivity|]. intros st rest. exists []. split; [constructor|reflexivity].
  - intros t ls ns H1 HB [BE BR]. split.
    + cbn [unparse_omg_wtf]. rewrite !essence_cons by discriminate. rewrite BE. reflexivity.
    + intros st rest. destruct (BR st rest) as (ls' & DL & RL).
      exists ([t] :: [] :: ls'). split; [constructor; [exact H1|apply d_block_empty_line, DL]|].
      rewrite essential_cons by discriminate. kwt. cbn [app restore]. mk. rewrite RL. reflexivity.
  - (* YA RLY *)
    split; [reflexivity|]. intros st rest. exists []. split; [constructor|reflexivity].
  - intros t ls ns H1 HB [BE BR]. split.
    + cbn [unparse_ya_rly]. rewrite !essence_cons by discriminate. rewrite BE. reflexivity.
    + intros st rest. destruct (BR st rest) as (ls' & DL & RL).
      exists ([t] :: [] :: ls'). split; [constructor; [exact H1|apply d_block_empty_line, DL]|].
      rewrite essential_cons by discriminate. kwt. cbn [app restore]. mk. rewrite RL. reflexivity.
  - (* MEBBE *)
    split; [reflexivity|]. intros st rest. exists []. split; [constructor|reflexivity].
  - intros t o ts e ls ns ms omgs H1 H2 HB [BE BR] HO [OE OR]. split.
    + cbn [flat_map unparse_mebbe]. rewrite <- app_comm_cons. rewrite !essence_cons by discriminate.
      rewrite !essence_app, BE, OE. apply expr_iff in H2 as [-> _]. reflexivity.
    + intros st rest. destruct (OR st rest) as (ms' & DM & RM). destruct (BR st (essential ms ++ rest)) as (ls' & DL & RL).
      exists ((t :: ts) :: ([] :: ls') ++ ms'). split; [econstructor; eauto; apply d_block_empty_line, DL|].
      rewrite essential_cons by discriminate. rewrite essential_app. kwt. cbn [app]. rewrite <- app_assoc.
      cbn [restore]. mk. rewrite RL, RM, <- app_assoc. reflexivity.
  - (* NO WAI *)
    split; [reflexivity|]. intros st rest. exists []. split; [constructor|reflexivity].
  - intros t ls ns H1 HB [BE BR]. split.
    + cbn [unparse_no_wai]. rewrite !essence_cons by discriminate. rewrite BE. reflexivity.
    + intros st rest. destruct (BR st rest) as (ls' & DL & RL).
      exists ([t] :: [] :: ls'). split; [constructor; [exact H1|apply d_block_empty_line, DL]|].
      rewrite essential_cons by discriminate. kwt. cbn [app restore]. mk. rewrite RL. reflexivity.
Qed.

(** ** Programs *)
Lemma restore_erase ls : forall st, restore st (map (map erase) ls) = map (map erase) (restore st ls).
Proof.
  induction ls as [|[|t c] ls IH]; intros st; [reflexivity| |]; cbn [map restore].
  - rewrite IH. reflexivity.
  - change (mark_of (erase t)) with (mark_of t). destruct (mark_of t); cbn [map]; rewrite ?map_app, IH; try reflexivity.
    destruct (hd false st); reflexivity.
Qed.
Lemma essential_erase ls : essential (map (map erase) ls) = map (map erase) (essential ls).
Proof.
  unfold essential. induction ls as [|[|t c] ls IH]; [reflexivity|exact IH|]. cbn [map filter not_empty].
  change (erase t :: map erase c) with (map erase (t :: c)). rewrite trim_map by reflexivity. rewrite IH. reflexivity.
Qed.
Lemma essence_erase ls : essence (map (map erase) ls) = essence ls.
Proof.
  rewrite !essence_essential, essential_erase, map_map. apply map_ext. intros l. rewrite map_map. reflexivity.
Qed.

Lemma block_canonical bl ns : d_block bl ns -> d_block ([] :: restore [] (essential bl)) ns.
Proof.
  intros H. destruct (proj1 (proj2 canonical_all) _ _ H) as [_ R]. destruct (R [] []) as (ls' & D & E).
  cbn [restore] in E. rewrite !app_nil_r in E. rewrite E. apply d_block_empty_line, D.
Qed.
Lemma block_parses bl ns : d_block bl ns -> parse_logical bl = ParseOk (ASTBlock ns).
Proof. intros H. assert (D : d_program bl ns) by (exists 1, bl, []; split; [reflexivity|exact H]). apply program_iff in D. tauto. Qed.

Theorem same_ast bl ns bl' ns' : d_block bl ns -> d_block bl' ns' ->
  map (map_node erase) ns = map (map_node erase) ns' <-> essence bl = essence bl'.
Proof.
  intros H H'. split; intros E.
  - destruct (proj1 (proj2 canonical_all) _ _ H) as [-> _]. destruct (proj1 (proj2 canonical_all) _ _ H') as [-> _].
    rewrite <- (essence_erase (unparse_block (ASTBlock ns))), <- (essence_erase (unparse_block (ASTBlock ns'))).
    change (essence (map (map erase) (unparse_nodes ns)) = essence (map (map erase) (unparse_nodes ns'))).
    rewrite <- !nodes_commute by reflexivity. rewrite E. reflexivity.
  - rewrite !essence_essential in E.
    assert (T : map (map erase) (essential bl) = map (map erase) (essential bl')) by (rewrite !erase_lines, E; reflexivity).
    pose proof (block_parses _ _ (block_canonical _ _ H)) as P. pose proof (block_parses _ _ (block_canonical _ _ H')) as P'.
    assert (S : map (map erase) ([] :: restore [] (essential bl)) = map (map erase) ([] :: restore [] (essential bl'))).
    { cbn [map]. rewrite <- !restore_erase, T. reflexivity. }
    apply (f_equal (map_result erase)) in P, P'. rewrite <- parse_logical_map in P, P' by reflexivity. rewrite S in P.
    rewrite P in P'. cbn [map_result] in P'. rewrite !map_block_eq in P'. injection P' as P'. exact P'.
Qed.

Lemma all_read ls k bl rest : Forall (fun l => l <> []) ls -> ls ++ repeat [] k = bl ++ [] :: rest -> filter not_empty bl = ls.
Proof.
  intros H. revert bl. induction H as [|l ls Hl H IH]; intros bl E.
  - cbn in E. revert k E. induction bl as [|b bl IH]; intros k E; [reflexivity|]. destruct k; [discriminate|].
    injection E as <- E. exact (IH k E).
  - destruct bl as [|b bl]; [injection E as -> _; congruence|]. injection E as <- E. cbn [filter].
    destruct l; [congruence|]. cbn [not_empty]. rewrite (IH bl E). reflexivity.
Qed.
Theorem same_ast_parse ts ts' ns ns' :
  parse ts = ParseOk (ASTBlock ns) -> forallb node_clean ns = true -> Forall (fun l => l <> []) (logical_lines ts) ->
  parse ts' = ParseOk (ASTBlock ns') -> forallb node_clean ns' = true -> Forall (fun l => l <> []) (logical_lines ts') ->
  map (map_node erase) ns = map (map_node erase) ns' <->
  map (fun l => map tok_type (trim l)) (logical_lines ts) = map (fun l => map tok_type (trim l)) (logical_lines ts').
Proof.
  rewrite !parse_logical_lines. intros E C N E' C' N'.
  destruct (proj1 (program_iff _ _) (conj E C)) as (k & bl & rest & EL & D).
  destruct (proj1 (program_iff _ _) (conj E' C')) as (k' & bl' & rest' & EL' & D').
  rewrite (same_ast bl ns bl' ns' D D'). unfold essence.
  rewrite (all_read _ _ _ _ N EL), (all_read _ _ _ _ N' EL'). reflexivity.
Qed.
