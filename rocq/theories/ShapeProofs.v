(** The grammar against the shape of ASTs, and the shape of every AST of the parser. *)
From Coq Require Import Lia.
From Verif Require Import Parser ExprGrammar EqFacts Failure Recovery RecoveryProps Lines Shape.

(** ** Identifiers and accesses *)
Lemma identifier_iff ts i : d_identifier ts i <-> ts = identifier_tokens i /\ identifier_shape i.
Proof.
  split.
  - intros H. split; [apply d_identifier_shape, H|]. destruct H; split; cbn; auto.
  - destruct i as [t [s|]]; intros [-> [H1 H2]]; cbn in *; constructor; assumption.
Qed.
Lemma slots_iff ts sl : d_slots ts sl <-> ts = flat_map slot_tokens sl /\ Forall slot_shape sl.
Proof.
  split.
  - intros H. split; [apply d_slots_shape, H|]. induction H; constructor; auto. split; [assumption|].
    apply (identifier_iff ts), H0.
  - intros [-> H]. induction H as [|[a i] sl [Ha Hi] _ IH]; [constructor|]. cbn [flat_map].
    unfold slot_tokens at 1. cbn. apply d_slot; [exact Ha| |exact IH]. apply identifier_iff. auto.
Qed.
Lemma va_iff ts v : d_va ts v <-> ts = va_tokens v /\ va_shape v.
Proof.
  split.
  - intros H. split; [apply d_va_shape, H|]. destruct H as [ts i us sl Hi Hs]. split.
    + apply (identifier_iff ts), Hi.
    + apply (slots_iff us), Hs.
  - destruct v as [i sl]. intros [-> [Hi Hs]]. constructor; [apply identifier_iff|apply slots_iff]; auto.
Qed.

(** ** Expressions *)
Definition operands_shape (mkay : option token) : list operand -> Prop :=
  fix operands (es : list operand) : Prop :=
    match es with
    | [] => True
    | Operand x an :: es' =>
      expr_shape x /\ opt_kw AN an /\ (unclosed x = true -> mkay = None /\ an = None /\ es' = []) /\ operands es'
    end.
Lemma nary_shape_eq o es mkay :
  expr_shape (NaryOperation o es mkay) = (nary_shape o /\ opt_kw MKAY mkay /\ operands_shape mkay es).
Proof. reflexivity. Qed.

Definition closed_operand (x : operand) : Prop :=
  match x with Operand e an => expr_shape e /\ unclosed e = false /\ opt_kw AN an end.
Lemma closed_operands m es : Forall closed_operand es -> operands_shape m es.
Proof.
  induction 1 as [|[e an] es (H1 & H2 & H3) _ IH]; cbn; [exact I|]. splits; auto. congruence.
Qed.
Lemma closed_then_open es e : Forall closed_operand es -> expr_shape e ->
  operands_shape None (es ++ [Operand e None]).
Proof.
  induction 1 as [|[x an] es (H1 & H2 & H3) _ IH]; intros He; cbn.
  - splits; auto.
  - splits; auto; congruence.
Qed.
Lemma operands_cases m es : operands_shape m es ->
  Forall closed_operand es \/
  exists es' e, es = es' ++ [Operand e None] /\ m = None /\ Forall closed_operand es' /\ expr_shape e /\ unclosed e = true.
Proof.
  induction es as [|[e an] es IH]; [left; constructor|]. cbn. intros (H1 & H2 & H3 & H4).
  destruct (unclosed e) eqn:E.
  - destruct (H3 eq_refl) as (-> & -> & ->). right. exists [], e. splits; auto.
  - destruct (IH H4) as [HF|(es' & x & -> & -> & HF & Hx & Ex)].
    + left. constructor; [|exact HF]. cbn. auto.
    + right. exists (Operand e an :: es'), x. splits; auto. constructor; [|exact HF]. cbn. auto.
Qed.
Lemma opt_iff k ts o : d_opt k ts o <-> ts = opt_token o /\ opt_kw k o.
Proof.
  split.
  - intros H. destruct H; cbn; auto.
  - destruct o as [t|]; intros [-> H]; constructor; exact H.
Qed.
Lemma binary_iff o : binary_shape o <-> exists k op t, binary_operator k op /\ kw k t /\ o = op t.
Proof.
  split.
  - destruct o as [t|t|t|t|t|t|t|t|t|t|t|t]; cbn; intros H; eexists _, _, t; (split; [constructor|split; [exact H|reflexivity]]).
  - intros (k & op & t & H & Hk & ->). destruct H; exact Hk.
Qed.
Lemma nary_iff o : nary_shape o <-> exists k op t, nary_operator k op /\ kw k t /\ o = op t.
Proof.
  split.
  - destruct o as [t|t|t]; cbn; intros H; eexists _, _, t; (split; [constructor|split; [exact H|reflexivity]]).
  - intros (k & op & t & H & Hk & ->). destruct H; exact Hk.
Qed.

Lemma d_expr_has_shape :
  (forall o ts e, d_expr o ts e -> expr_shape e /\ unclosed e = o) /\
  (forall ts es, d_operands ts es -> Forall closed_operand es).
Proof.
  apply d_expr_mut.
  - intros t H. cbn. auto.
  - intros t H. cbn. auto.
  - intros ts v H. split; [|reflexivity]. apply (va_iff ts), H.
  - intros k op t o ls l ans an rs r Hop Hk Hl [IHl El] Han Hr [IHr Er]. split; [|exact Er].
    cbn. splits; auto.
    + apply binary_iff. eauto 6.
    + apply (opt_iff AN ans), Han.
  - intros t o ts e Hk He [IH E]. cbn. auto.
  - intros k op t ts es m Hop Hk Hes IH Hm. split; [|reflexivity]. rewrite nary_shape_eq. splits.
    + apply nary_iff. eauto 6.
    + exact Hm.
    + apply closed_operands, IH.
  - intros k op t ts es Hop Hk Hes IH. split; [|reflexivity]. rewrite nary_shape_eq. splits.
    + apply nary_iff. eauto 6.
    + apply closed_operands, IH.
  - intros k op t ts es us e Hop Hk Hes IH He [IHe Ee]. split; [|reflexivity]. rewrite nary_shape_eq. splits.
    + apply nary_iff. eauto 6.
    + apply closed_then_open; assumption.
  - constructor.
  - intros ts e ans an us es He [IHe Ee] Han Hes IH. constructor; [|exact IH]. cbn. splits; auto.
    apply (opt_iff AN ans), Han.
Qed.

Definition derives (e : expr) : Prop := expr_shape e -> d_expr (unclosed e) (expr_tokens e) e.
Lemma d_closed_operands es : Forall (fun x => derives (operand_expr x)) es -> Forall closed_operand es ->
  d_operands (flat_map operand_tokens es) es.
Proof.
  intros HD HC. induction HC as [|[e an] es (H1 & H2 & H3) _ IH]; [constructor|].
  apply Forall_cons_iff in HD as [Hd HD]. cbn [flat_map operand_tokens]. rewrite <- app_assoc. apply d_operand.
  - rewrite <- H2. apply Hd, H1.
  - apply opt_iff. auto.
  - apply IH, HD.
Qed.
Lemma shape_derives e : derives e.
Proof.
  induction e as [l o r an IHl IHr|o e IH|o es mkay IH|v] using expr_ind'; intros H.
  - cbn in H. destruct H as (Ho & Hl & El & Han & Hr). apply binary_iff in Ho as (k & op & t & Hop & Hk & ->).
    cbn [expr_tokens]. erewrite d_binary_token by eassumption. apply (d_binary k op t); [exact Hop|exact Hk| | |].
    + rewrite <- El. apply IHl, Hl.
    + apply opt_iff. auto.
    + apply IHr, Hr.
  - destruct o as [t]. destruct H as [Hk He]. cbn. apply d_not; auto.
  - rewrite nary_shape_eq in H. destruct H as (Ho & Hm & Hes). apply nary_iff in Ho as (k & op & t & Hop & Hk & ->).
    cbn [expr_tokens]. erewrite d_nary_token by eassumption.
    destruct (operands_cases _ _ Hes) as [HC|(es' & e & -> & -> & HC & He & Ee)].
    + pose proof (d_closed_operands es IH HC) as HD. destruct mkay as [m|].
      * exact (d_nary_closed k op t _ es m Hop Hk HD Hm).
      * cbn [opt_token]. rewrite app_nil_r. exact (d_nary_open k op t _ es Hop Hk HD).
    + apply Forall_app in IH as [IH IHe]. apply Forall_inv in IHe. specialize (IHe He). cbn [operand_expr] in IHe.
      rewrite Ee in IHe. rewrite flat_map_app. cbn [flat_map opt_token]. rewrite !app_nil_r.
      exact (d_nary_open_last k op t _ es' _ e Hop Hk (d_closed_operands es' IH HC) IHe).
  - destruct v as [v|t]; cbn in *.
    + apply d_variable, va_iff. auto.
    + destruct H as [H|H]; constructor; exact H.
Qed.
Theorem expr_iff o ts e : d_expr o ts e <-> ts = expr_tokens e /\ expr_shape e /\ unclosed e = o.
Proof.
  split.
  - intros H. split; [eapply d_expr_shape, H|]. exact (proj1 d_expr_has_shape _ _ _ H).
  - intros (-> & H & <-). apply shape_derives, H.
Qed.

(** ** Lines *)
Lemma type_iff t ty : d_type t ty <-> ast_type_token ty = t /\ type_shape ty.
Proof.
  split.
  - intros H; destruct H; cbn; auto.
  - destruct ty; cbn; intros [-> H]; constructor; exact H.
Qed.
Lemma d_initial_has_shape us i : d_initial us i -> initial_shape i.
Proof.
  intros H; destruct H as [|itz t ty Hi Ht|itz o ts e Hi He Hn]; cbn; [exact I|apply (type_iff t), Ht|].
  apply expr_iff in He as (-> & He & _). split; [exact He|]. intros t -> Hk. apply (Hn t); [reflexivity|exact Hk].
Qed.
Lemma d_exprs_shape o ts es : d_exprs o ts es -> exprs_shape es /\ (o = false -> closed_exprs es).
Proof.
  induction 1 as [|o ts e He|o ts e us es He Hes [IH1 IH2] Hn].
  - split; [exact I|constructor].
  - apply expr_iff in He as (_ & He & <-). cbn. splits; auto. intros E. constructor; [auto|constructor].
  - apply expr_iff in He as (_ & He & E). cbn. splits; auto.
    + congruence.
    + intros Eo. constructor; auto. apply IH2, Eo.
Qed.
Lemma d_args_shape ts es : d_args ts es -> closed_exprs es.
Proof.
  induction 1 as [|yr ts e Hy He|yr ts e an us es Hy He Ha Hes IH]; [constructor| |];
    apply expr_iff in He as (_ & He & E); constructor; auto.
Qed.
Lemma d_params_shape ts is : d_params ts is -> Forall identifier_shape is.
Proof.
  induction 1 as [|yr ts e Hy He|yr ts e an us es Hy He Ha Hes IH]; [constructor| |];
    apply identifier_iff in He as [_ He]; constructor; auto.
Qed.
Ltac shapes :=
  repeat match goal with
  | H : d_expr _ _ _ |- _ => apply expr_iff in H as (_ & H & _)
  | H : d_va _ _ |- _ => apply va_iff in H as [_ H]
  | H : d_identifier _ _ |- _ => apply identifier_iff in H as [_ H]
  end.
Lemma d_line_shape l n : d_line l n -> node_shape n.
Proof.
  intros H; destruct H; cbn; shapes; auto.
  - splits; auto. eapply d_initial_has_shape; eassumption.
  - split; auto. eapply d_exprs_shape; eassumption.
  - splits; auto. eapply d_exprs_shape; [eassumption|reflexivity].
  - splits; auto. eapply d_args_shape; eassumption.
Qed.

(** ** Headers *)
Lemma d_iteration_shape ts it : d_iteration ts it -> iteration_shape it.
Proof. intros H; destruct H; cbn; shapes; auto. Qed.
Lemma d_condition_shape ts c : d_condition ts c -> condition_shape c.
Proof. intros H; destruct H; cbn; shapes; auto. Qed.
Lemma loop_header_shape c label it cond r : loop_header c label it cond r ->
  ident_tok label /\ iteration_shape it /\ condition_shape cond.
Proof. intros (its & cs & _ & Hl & Hi & Hc & _). splits; [exact Hl|eapply d_iteration_shape, Hi|eapply d_condition_shape, Hc]. Qed.
Lemma function_header_shape c i ps r : function_header c i ps r -> identifier_shape i /\ Forall identifier_shape ps.
Proof. intros (ts & us & _ & Hi & Hp & _). shapes. split; [exact Hi|eapply d_params_shape, Hp]. Qed.

(** ** Blocks *)
Lemma block_shape_eq ns : block_shape (ASTBlock ns) <-> Forall node_shape ns.
Proof.
  cbn [block_shape]. induction ns as [|n ns IH]; [split; auto|]. rewrite Forall_cons_iff, <- IH. reflexivity.
Qed.
Lemma omgs_shape_eq xs :
  (fix all xs := match xs with [] => True | x :: xs' => wtf_omg_shape x /\ all xs' end) xs <-> Forall wtf_omg_shape xs.
Proof. induction xs as [|x xs IH]; [split; auto|]. rewrite Forall_cons_iff, <- IH. reflexivity. Qed.
Lemma mebbes_shape_eq xs :
  (fix all xs := match xs with [] => True | x :: xs' => mebbe_shape x /\ all xs' end) xs <-> Forall mebbe_shape xs.
Proof. induction xs as [|x xs IH]; [split; auto|]. rewrite Forall_cons_iff, <- IH. reflexivity. Qed.

Definition done_ok {A} (P : A -> Prop) (o : out A) : Prop := match o with Done a _ => P a | _ => True end.
Lemma done_omap {A B} (f : A -> B) (P : A -> Prop) (Q : B -> Prop) o :
  (forall a, P a -> Q (f a)) -> done_ok P o -> done_ok Q (omap f o).
Proof. destruct o; cbn; auto. Qed.
Lemma failed_ok {A} (P : A -> Prop) f ls : done_ok P (failed f ls).
Proof. destruct f; exact I. Qed.
Lemma aborts_ok {A B} (o : out A) (o' : out B) (P : B -> Prop) : aborts o o' -> done_ok P o'.
Proof. intros H; destruct H; exact I. Qed.
Definition section_shape (w : keyword) (d : option (token * list node)) : Prop :=
  match d with Some (t, ns) => kw w t /\ Forall node_shape ns | None => True end.
Definition case_shape (w : keyword) (x : token * expr * list node) : Prop :=
  let '(t, e, ns) := x in kw w t /\ expr_shape e /\ Forall node_shape ns.
Lemma left_over_shape r : Forall node_shape (left_over r).
Proof. destruct r; constructor; [exact I|constructor]. Qed.

Lemma r_shape :
  (forall l ls o, r_stmt l ls o -> done_ok node_shape o) /\
  (forall k p o, r_block k p o -> done_ok (Forall node_shape) o) /\
  (forall k ls o, r_more k ls o -> done_ok (Forall node_shape) o) /\
  (forall w k p o, r_section w k p o -> done_ok (section_shape w) o) /\
  (forall w m k p o, r_cases w m k p o -> done_ok (Forall (case_shape w)) o).
Proof.
  apply r_mut; intros; cbn [done_ok] in *; auto using failed_ok; try (eapply aborts_ok; eassumption).
  - destruct H as (ts & _ & H & _). eapply d_line_shape, H.
  - apply loop_header_shape in H0 as (H0 & H0' & H0''). cbn [node_shape im_in_yr_shape].
    rewrite block_shape_eq. splits; auto.
  - apply function_header_shape in H0 as (H0 & H0'). cbn [node_shape how_iz_i_shape].
    rewrite block_shape_eq. splits; auto.
  - cbn [node_shape wtf_shape]. rewrite omgs_shape_eq. splits; auto.
    + apply Forall_map. revert H2. apply Forall_impl. intros [[a e] ns] (H2 & H2' & H2'').
      cbn [wtf_omg_shape]. rewrite block_shape_eq. auto.
    + destruct d as [[a ns]|]; cbn [option_map]; [|exact I]. destruct H4 as [H4 H4'].
      cbn [wtf_omg_wtf_shape]. rewrite block_shape_eq. auto.
  - cbn [node_shape o_rly_shape]. rewrite mebbes_shape_eq. splits; auto.
    + destruct y as [[a ns]|]; cbn [option_map]; [|exact I]. destruct H2 as [H2 H2'].
      cbn [ya_rly_shape]. rewrite block_shape_eq. auto.
    + destruct n as [[a ns]|]; cbn [option_map]; [|exact I]. destruct H6 as [H6 H6'].
      cbn [no_wai_shape]. rewrite block_shape_eq. auto.
    + apply Forall_map. revert H4. apply Forall_impl. intros [[a e] ns] (H2' & H2'' & H2''').
      cbn [mebbe_shape]. rewrite block_shape_eq. auto.
  - eapply done_omap; [|eassumption]. intros ns Hns. constructor; auto. apply Forall_app. split; [apply left_over_shape|exact Hns].
  - eapply done_omap; [|eassumption]. intros ns Hns. constructor; [exact I|]. apply Forall_app. split; [apply left_over_shape|exact Hns].
  - exact I.
  - eapply done_omap; [|eassumption]. intros ns Hns. cbn. auto.
  - shapes. eapply done_omap; [|eassumption]. intros xs Hxs. constructor; [|exact Hxs]. cbn. auto.
Qed.

Theorem parse_shape ts b : parse ts = ParseOk b -> block_shape b.
Proof.
  destruct b as [ns]. intros H. apply parse_nodes in H as [p H]. apply block_shape_eq.
  exact (proj1 (proj2 r_shape) _ _ _ H).
Qed.
