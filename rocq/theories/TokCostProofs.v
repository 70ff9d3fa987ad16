(** How many calls of [next] a call of [next] takes. *)
From Coq Require Import Lia.
From Verif Require Import Ast AstTokens TokIter TokIterFacts Depth TokCost.

(** ** The counter changes nothing *)
Lemma more_answer {A} n (r : with_calls A) : answer (more n r) = answer r.
Proof. destruct r as [[a k]|]; reflexivity. Qed.

Lemma va_counted f : forall it, answer (va_next_counted f it) = va_next f it.
Proof.
  induction f as [|f IH]; intros [v st]; [reflexivity|].
  cbn [va_next_counted va_next vai_access vai_state].
  destruct st as [|i|k o|].
  - rewrite more_answer. apply IH.
  - destruct (id_next i) as [[t|] i']; [reflexivity|]. rewrite more_answer. apply IH.
  - destruct o as [si|]; [destruct (slot_next si) as [[t|] si']; [reflexivity|]|];
      rewrite more_answer; (destruct (nth_error (va_accesses v) k); [apply IH|reflexivity]).
  - reflexivity.
Qed.

Lemma value_counted f : forall it, answer (value_next_counted f it) = value_next f it.
Proof.
  induction f as [|f IH]; intros [x st]; [reflexivity|].
  cbn [value_next_counted value_next vali_value vali_state].
  destruct st as [|i|].
  - destruct x; [rewrite more_answer; apply IH|reflexivity].
  - rewrite <- va_counted. destruct (va_next_counted f i) as [[[[t|] i'] k]|]; cbn [answer];
      [reflexivity| |reflexivity]. rewrite more_answer. apply IH.
  - reflexivity.
Qed.

Lemma expr_counted f :
  (forall it, answer (expr_next_counted f it) = expr_next f it) /\
  (forall it, answer (binary_next_counted f it) = binary_next f it) /\
  (forall it, answer (unary_next_counted f it) = unary_next f it) /\
  (forall it, answer (nary_next_counted f it) = nary_next f it) /\
  (forall it, answer (operand_next_counted f it) = operand_next f it).
Proof.
  induction f as [|f (IHe & IHb & IHu & IHn & IHo)].
  { repeat split; reflexivity. }
  repeat split.
  - intros [e []]; cbn [expr_next_counted expr_next].
    + rewrite more_answer. destruct e; apply IHe.
    + rewrite <- IHb. destruct (binary_next_counted f it) as [[[[t|] i'] k]|]; reflexivity.
    + rewrite <- IHu. destruct (unary_next_counted f it) as [[[[t|] i'] k]|]; reflexivity.
    + rewrite <- IHn. destruct (nary_next_counted f it) as [[[[t|] i'] k]|]; reflexivity.
    + rewrite <- value_counted. destruct (value_next_counted f it) as [[[[t|] i'] k]|]; reflexivity.
    + reflexivity.
  - intros [l o r an []]; cbn [binary_next_counted binary_next].
    + reflexivity.
    + rewrite <- IHe. destruct (expr_next_counted f it) as [[[[t|] i'] k]|]; cbn [answer];
        [reflexivity| |reflexivity]. rewrite more_answer. apply IHb.
    + destruct an; [reflexivity|]. rewrite more_answer. apply IHb.
    + rewrite <- IHe. destruct (expr_next_counted f it) as [[[[t|] i'] k]|]; cbn [answer];
        [reflexivity| |reflexivity]. rewrite more_answer. apply IHb.
    + reflexivity.
  - intros [o e []]; cbn [unary_next_counted unary_next]; try reflexivity.
    rewrite <- IHe. destruct (expr_next_counted f it) as [[[[t|] i'] k]|]; reflexivity.
  - intros [o es mkay []]; cbn [nary_next_counted nary_next]; try reflexivity.
    destruct it as [i|].
    + rewrite <- IHo. destruct (operand_next_counted f i) as [[[[t|] i'] k]|]; cbn [answer];
        [reflexivity| |reflexivity].
      rewrite more_answer. destruct (nth_error es index); apply IHn.
    + rewrite more_answer. destruct (nth_error es index); apply IHn.
  - intros [x []]; cbn [operand_next_counted operand_next]; try reflexivity.
    rewrite <- IHe. destruct (expr_next_counted f it) as [[[[t|] i'] k]|]; cbn [answer];
      [reflexivity| |reflexivity]. rewrite more_answer. apply IHo.
Qed.

Lemma assignment_counted f : forall it,
  answer (assignment_next_counted f it) = assignment_next f it.
Proof.
  induction f as [|f IH]; intros [a st]; [reflexivity|].
  cbn [assignment_next_counted assignment_next asi_assignment asi_state].
  destruct st as [|i| |i|]; try reflexivity.
  - rewrite more_answer. apply IH.
  - rewrite <- va_counted. destruct (va_next_counted f i) as [[[[t|] i'] k]|]; cbn [answer];
      [reflexivity| |reflexivity]. rewrite more_answer. apply IH.
  - rewrite <- (proj1 (expr_counted f)).
    destruct (expr_next_counted f i) as [[[[t|] i'] k]|]; reflexivity.
Qed.

(** ** Fuel for as many calls is enough *)
Definition enough {I} (next : nat -> I -> with_calls (option token * I)) (f : nat) : Prop :=
  forall it r k, next f it = Some (r, k) -> 1 <= k /\ forall g, k <= g -> next g it = Some (r, k).

Lemma more_some {A} n (r : with_calls A) a k :
  more n r = Some (a, k) -> exists j, r = Some (a, j) /\ k = n + j.
Proof. destruct r as [[a' j]|]; cbn; [|discriminate]. intros E; injection E as -> <-. eauto. Qed.

Ltac start g Hg := destruct g as [|g]; [exfalso; lia|].

Lemma va_enough f : enough va_next_counted f.
Proof.
  induction f as [|f IH]; intros [v st] r k H; [discriminate|].
  cbn [va_next_counted vai_access vai_state] in H.
  destruct st as [|i|n o|].
  - apply more_some in H as (j & H & ->). apply IH in H as [H1 H2]. split; [lia|].
    intros g Hg; start g Hg. cbn [va_next_counted vai_access vai_state].
    rewrite H2 by lia. reflexivity.
  - destruct (id_next i) as [[t|] i'] eqn:E.
    + injection H as <- <-. split; [lia|]. intros g Hg; start g Hg.
      cbn [va_next_counted vai_access vai_state]. rewrite E. reflexivity.
    + apply more_some in H as (j & H & ->). apply IH in H as [H1 H2]. split; [lia|].
      intros g Hg; start g Hg. cbn [va_next_counted vai_access vai_state].
      rewrite E, H2 by lia. reflexivity.
  - assert (Hadv : forall c j,
      match nth_error (va_accesses v) n with
      | Some s => va_next_counted f (mkVaIter v (VaAccess (n + 1) (Some (va_slot_iter s))))
      | None => Some ((None, mkVaIter v VaDone), 0)
      end = Some (r, j) -> forall g, c + j <= g -> 1 <= c ->
      match nth_error (va_accesses v) n with
      | Some s => va_next_counted (pred g) (mkVaIter v (VaAccess (n + 1) (Some (va_slot_iter s))))
      | None => Some ((None, mkVaIter v VaDone), 0)
      end = Some (r, j)).
    { intros c j Hj g Hg Hc. destruct (nth_error (va_accesses v) n) as [s|]; [|exact Hj].
      apply IH in Hj as [H1 H2]. apply H2. lia. }
    destruct o as [si|].
    + destruct (slot_next si) as [[t|] si'] eqn:E.
      * injection H as <- <-. split; [lia|]. intros g Hg; start g Hg.
        cbn [va_next_counted vai_access vai_state]. rewrite E. reflexivity.
      * apply more_some in H as (j & H & ->). split; [lia|]. intros g Hg.
        pose proof (Hadv _ _ H g Hg ltac:(lia)) as Ha. start g Hg. cbn [pred] in Ha.
        cbn [va_next_counted vai_access vai_state]. rewrite E, Ha. reflexivity.
    + apply more_some in H as (j & H & ->). split; [lia|]. intros g Hg.
      pose proof (Hadv _ _ H g Hg ltac:(lia)) as Ha. start g Hg. cbn [pred] in Ha.
      cbn [va_next_counted vai_access vai_state]. rewrite Ha. reflexivity.
  - injection H as <- <-. split; [lia|]. intros g Hg; start g Hg. reflexivity.
Qed.

Lemma value_enough f : enough value_next_counted f.
Proof.
  induction f as [|f IH]; intros [x st] r k H; [discriminate|].
  cbn [value_next_counted vali_value vali_state] in H.
  destruct st as [|i|].
  - destruct x as [v|t].
    + apply more_some in H as (j & H & ->). apply IH in H as [H1 H2]. split; [lia|].
      intros g Hg; start g Hg. cbn [value_next_counted vali_value vali_state].
      rewrite H2 by lia. reflexivity.
    + injection H as <- <-. split; [lia|]. intros g Hg; start g Hg. reflexivity.
  - destruct (va_next_counted f i) as [[[[t|] i'] c]|] eqn:E; [| |discriminate];
      apply va_enough in E as [E1 E2].
    + injection H as <- <-. split; [lia|]. intros g Hg; start g Hg.
      cbn [value_next_counted vali_value vali_state]. rewrite E2 by lia. reflexivity.
    + apply more_some in H as (j & H & ->). apply IH in H as [H1 H2]. split; [lia|].
      intros g Hg; start g Hg. cbn [value_next_counted vali_value vali_state].
      rewrite E2, H2 by lia. reflexivity.
  - injection H as <- <-. split; [lia|]. intros g Hg; start g Hg. reflexivity.
Qed.

(** A state that returns what the inner iterator [sub] returns. *)
Ltac via H sub next :=
  let E := fresh "E" in
  match type of H with
  | context [match ?m with _ => _ end] =>
    destruct m as [[[[?t|] ?i'] ?c]|] eqn:E; [| |discriminate H];
    apply sub in E as [? E]; injection H as <- <-; (split; [lia|]);
    intros g Hg; start g Hg; cbn [next]; rewrite E by lia; reflexivity
  end.
(** A state that returns a token itself. *)
Ltac at_once H := injection H as <- <-; split; [lia|]; intros g Hg; start g Hg; reflexivity.

Lemma expr_enough f :
  enough expr_next_counted f /\ enough binary_next_counted f /\ enough unary_next_counted f /\
  enough nary_next_counted f /\ enough operand_next_counted f.
Proof.
  induction f as [|f (IHe & IHb & IHu & IHn & IHo)].
  { repeat split; discriminate. }
  refine (conj _ (conj _ (conj _ (conj _ _)))).
  - intros [e st] r k H. cbn [expr_next_counted] in H. destruct st as [|i|i|i|i|].
    + apply more_some in H as (j & H & ->).
      destruct e; apply IHe in H as [H1 H2]; (split; [lia|]); intros g Hg; start g Hg;
        cbn [expr_next_counted]; rewrite H2 by lia; reflexivity.
    + via H IHb expr_next_counted.
    + via H IHu expr_next_counted.
    + via H IHn expr_next_counted.
    + via H value_enough expr_next_counted.
    + at_once H.
  - intros [l o rr an st] r k H. cbn [binary_next_counted] in H. destruct st as [|i| |i|].
    + at_once H.
    + destruct (expr_next_counted f i) as [[[[t|] i'] c]|] eqn:E; [| |discriminate];
        apply IHe in E as [E1 E2].
      * injection H as <- <-. split; [lia|]. intros g Hg; start g Hg.
        cbn [binary_next_counted]. rewrite E2 by lia. reflexivity.
      * apply more_some in H as (j & H & ->). apply IHb in H as [H1 H2]. split; [lia|].
        intros g Hg; start g Hg. cbn [binary_next_counted]. rewrite E2, H2 by lia. reflexivity.
    + destruct an as [t|]; [at_once H|].
      apply more_some in H as (j & H & ->). apply IHb in H as [H1 H2]. split; [lia|].
      intros g Hg; start g Hg. cbn [binary_next_counted]. rewrite H2 by lia. reflexivity.
    + destruct (expr_next_counted f i) as [[[[t|] i'] c]|] eqn:E; [| |discriminate];
        apply IHe in E as [E1 E2].
      * injection H as <- <-. split; [lia|]. intros g Hg; start g Hg.
        cbn [binary_next_counted]. rewrite E2 by lia. reflexivity.
      * apply more_some in H as (j & H & ->). apply IHb in H as [H1 H2]. split; [lia|].
        intros g Hg; start g Hg. cbn [binary_next_counted]. rewrite E2, H2 by lia. reflexivity.
    + at_once H.
  - intros [o e st] r k H. cbn [unary_next_counted] in H. destruct st as [|i|].
    + at_once H.
    + via H IHe unary_next_counted.
    + at_once H.
  - intros [o es mkay st] r k H. cbn [nary_next_counted] in H. destruct st as [|n oi| |].
    + at_once H.
    + destruct oi as [i|].
      * destruct (operand_next_counted f i) as [[[[t|] i'] c]|] eqn:E; [| |discriminate];
          apply IHo in E as [E1 E2].
        -- injection H as <- <-. split; [lia|]. intros g Hg; start g Hg.
           cbn [nary_next_counted]. rewrite E2 by lia. reflexivity.
        -- apply more_some in H as (j & H & ->).
           destruct (nth_error es n) eqn:En; apply IHn in H as [H1 H2]; (split; [lia|]);
             intros g Hg; start g Hg; cbn [nary_next_counted]; rewrite E2, En, H2 by lia;
             reflexivity.
      * apply more_some in H as (j & H & ->).
        destruct (nth_error es n) eqn:En; apply IHn in H as [H1 H2]; (split; [lia|]);
          intros g Hg; start g Hg; cbn [nary_next_counted]; rewrite En, H2 by lia; reflexivity.
    + at_once H.
    + at_once H.
  - intros [x st] r k H. cbn [operand_next_counted] in H. destruct st as [i| |].
    + destruct (expr_next_counted f i) as [[[[t|] i'] c]|] eqn:E; [| |discriminate];
        apply IHe in E as [E1 E2].
      * injection H as <- <-. split; [lia|]. intros g Hg; start g Hg.
        cbn [operand_next_counted]. rewrite E2 by lia. reflexivity.
      * apply more_some in H as (j & H & ->). apply IHo in H as [H1 H2]. split; [lia|].
        intros g Hg; start g Hg. cbn [operand_next_counted]. rewrite E2, H2 by lia. reflexivity.
    + at_once H.
    + at_once H.
Qed.

Lemma assignment_enough f : enough assignment_next_counted f.
Proof.
  induction f as [|f IH]; intros [a st] r k H; [discriminate|].
  cbn [assignment_next_counted asi_assignment asi_state] in H.
  destruct st as [|i| |i|].
  - apply more_some in H as (j & H & ->). apply IH in H as [H1 H2]. split; [lia|].
    intros g Hg; start g Hg. cbn [assignment_next_counted asi_assignment asi_state].
    rewrite H2 by lia. reflexivity.
  - destruct (va_next_counted f i) as [[[[t|] i'] c]|] eqn:E; [| |discriminate];
      apply va_enough in E as [E1 E2].
    + injection H as <- <-. split; [lia|]. intros g Hg; start g Hg.
      cbn [assignment_next_counted asi_assignment asi_state]. rewrite E2 by lia. reflexivity.
    + apply more_some in H as (j & H & ->). apply IH in H as [H1 H2]. split; [lia|].
      intros g Hg; start g Hg. cbn [assignment_next_counted asi_assignment asi_state].
      rewrite E2, H2 by lia. reflexivity.
  - at_once H.
  - destruct (expr_next_counted f i) as [[[[t|] i'] c]|] eqn:E; [| |discriminate];
      apply (proj1 (expr_enough f)) in E as [E1 E2];
      injection H as <- <-; (split; [lia|]); intros g Hg; start g Hg;
      cbn [assignment_next_counted asi_assignment asi_state]; rewrite E2 by lia; reflexivity.
  - at_once H.
Qed.

(** ** The number of calls *)
Lemma va_fresh f v r k : va_next_counted f (variable_access_iter v) = Some (r, k) ->
  k <= 3 /\ exists t, fst r = Some t.
Proof.
  destruct v as [[n [s|]] acc], f as [|[|f]]; cbn; try discriminate;
    intros E; injection E as <- <-; cbn; eauto.
Qed.

Lemma va_cost f it r k : va_next_counted f it = Some (r, k) -> k <= 5.
Proof.
  destruct it as [v st]. destruct f as [|f]; [discriminate|].
  cbn [va_next_counted vai_access vai_state].
  assert (Hadv : forall n j,
    match nth_error (va_accesses v) n with
    | Some s => va_next_counted f (mkVaIter v (VaAccess (n + 1) (Some (va_slot_iter s))))
    | None => Some ((None, mkVaIter v VaDone), 0)
    end = Some (r, j) -> j <= 2).
  { intros n j. destruct (nth_error (va_accesses v) n) as [s|].
    - destruct f as [|f]; cbn; [discriminate|]. intros E; injection E as <- <-. lia.
    - intros E; injection E as <- <-. lia. }
  destruct st as [|i|n o|].
  - intros H. apply more_some in H as (j & H & ->).
    assert (va_next_counted (S f) (variable_access_iter v) = Some (r, 1 + j)) as H'.
    { cbn [va_next_counted vai_access vai_state variable_access_iter]. rewrite H. reflexivity. }
    apply va_fresh in H' as [H' _]. lia.
  - destruct (id_next i) as [[t|] i'].
    + intros E; injection E as <- <-. lia.
    + intros H. apply more_some in H as (j & H & ->).
      destruct f as [|f]; [discriminate|]. cbn [va_next_counted vai_access vai_state] in H.
      apply more_some in H as (j' & H & ->).
      assert (j' <= 2); [|lia].
      destruct (nth_error (va_accesses v) 0) as [s|].
      * destruct f as [|f]; cbn in H; [discriminate|]. injection H as <- <-. lia.
      * injection H as <- <-. lia.
  - destruct o as [si|].
    + assert (slot_next_calls si <= 2) by (unfold slot_next_calls; destruct (sli_state si); lia).
      destruct (slot_next si) as [[t|] si'].
      * intros E; injection E as <- <-. lia.
      * intros H'. apply more_some in H' as (j & H' & ->). apply Hadv in H'. lia.
    + intros H'. apply more_some in H' as (j & H' & ->). apply Hadv in H'. lia.
  - intros E; injection E as <- <-. lia.
Qed.

Lemma value_fresh f x r k : value_next_counted f (expr_value_iter x) = Some (r, k) ->
  k <= 5 /\ exists t, fst r = Some t.
Proof.
  destruct f as [|f]; [discriminate|].
  cbn [value_next_counted vali_value vali_state expr_value_iter]. destruct x as [v|t].
  - intros H. apply more_some in H as (j & H & ->). destruct f as [|f]; [discriminate|].
    cbn [value_next_counted vali_value vali_state] in H.
    destruct (va_next_counted f (variable_access_iter v)) as [[[[t|] i'] c]|] eqn:E;
      [| |discriminate]; apply va_fresh in E as [E1 (t' & E2)]; [|discriminate].
    injection H as <- <-. cbn. split; [lia|eauto].
  - intros E; injection E as <- <-. cbn. split; [lia|eauto].
Qed.

Lemma value_cost f it r k : value_next_counted f it = Some (r, k) -> k <= 7.
Proof.
  destruct it as [x []].
  - intros H. apply value_fresh in H as [H _]. lia.
  - destruct f as [|f]; [discriminate|]. cbn [value_next_counted vali_value vali_state].
    destruct (va_next_counted f it) as [[[[t|] i'] c]|] eqn:E; [| |discriminate];
      apply va_cost in E; intros H.
    + injection H as <- <-. lia.
    + apply more_some in H as (j & H & ->). destruct f as [|f]; cbn in H; [discriminate|].
      injection H as <- <-. lia.
  - destruct f as [|f]; cbn; [discriminate|]. intros E; injection E as <- <-. lia.
Qed.

(** Iterators over expressions of depth at most [d]. *)
Fixpoint expr_in (d : nat) (it : expr_iter) : Prop :=
  match it with
  | ExprIter e st =>
    expr_depth e <= d /\
    match st with
    | ExBinary i => binary_in d i
    | ExUnary i => unary_in d i
    | ExNary i => nary_in d i
    | _ => True
    end
  end
with binary_in (d : nat) (it : binary_iter) : Prop :=
  match it with
  | BinaryIter l o r an st =>
    expr_depth l < d /\ expr_depth r < d /\
    match st with
    | BiLeft i | BiRight i => expr_in (pred d) i
    | _ => True
    end
  end
with unary_in (d : nat) (it : unary_iter) : Prop :=
  match it with
  | UnaryIter o e st =>
    expr_depth e < d /\
    match st with
    | UnOperand i => expr_in (pred d) i
    | _ => True
    end
  end
with nary_in (d : nat) (it : nary_iter) : Prop :=
  match it with
  | NaryIter o es mkay st =>
    deepest operand_depth es < d /\
    match st with
    | NaOperand _ (Some i) => operand_in (pred d) i
    | _ => True
    end
  end
with operand_in (d : nat) (it : operand_iter) : Prop :=
  match it with
  | OperandIter x st =>
    operand_depth x <= d /\
    match st with
    | OpExpression i => expr_in d i
    | _ => True
    end
  end.

Lemma expr_depth_pos e : 1 <= expr_depth e.
Proof. destruct e; cbn; lia. Qed.

Lemma deepest_nth {A} (h : A -> nat) l n x : nth_error l n = Some x -> h x <= deepest h l.
Proof.
  revert n; induction l as [|y l IH]; intros [|n]; cbn; try discriminate.
  - intros E; injection E as ->. lia.
  - intros E. apply IH in E. lia.
Qed.

Lemma expr_fresh f d e o it k :
  expr_next_counted f (expression_iter e) = Some ((o, it), k) -> expr_depth e <= d ->
  k <= 7 /\ (exists t, o = Some t) /\ expr_in d it.
Proof.
  intros H Hd. destruct f as [|f]; [discriminate|]. cbn [expr_next_counted expression_iter] in H.
  apply more_some in H as (j & H & ->). destruct f as [|f]; [destruct e; discriminate|].
  destruct e as [l b r an|u x|n es mkay|v]; cbn [expr_next_counted] in H.
  - destruct f as [|f]; cbn in H; [discriminate|]. injection H as <- <- <-.
    cbn in *. repeat split; eauto; try lia.
  - destruct f as [|f]; cbn in H; [discriminate|]. injection H as <- <- <-.
    cbn in *. repeat split; eauto; try lia.
  - destruct f as [|f]; cbn in H; [discriminate|]. injection H as <- <- <-.
    cbn in *. repeat split; eauto; try lia.
  - destruct (value_next_counted f (expr_value_iter v)) as [[[[t|] i'] c]|] eqn:E;
      [| |discriminate]; apply value_fresh in E as [E1 (t' & E2)]; [|discriminate].
    injection H as <- <- <-. cbn in *. repeat split; eauto; try lia.
Qed.

Lemma expr_cost f :
  (forall d it o it' k, expr_in d it -> expr_next_counted f it = Some ((o, it'), k) ->
     k <= 13 * d /\ expr_in d it') /\
  (forall d it o it' k, binary_in d it -> binary_next_counted f it = Some ((o, it'), k) ->
     k + 3 <= 13 * d /\ binary_in d it') /\
  (forall d it o it' k, unary_in d it -> unary_next_counted f it = Some ((o, it'), k) ->
     k + 12 <= 13 * d /\ unary_in d it') /\
  (forall d it o it' k, nary_in d it -> nary_next_counted f it = Some ((o, it'), k) ->
     k + 1 <= 13 * d /\ nary_in d it') /\
  (forall d it o it' k, operand_in d it -> operand_next_counted f it = Some ((o, it'), k) ->
     k <= 13 * d + 2 /\ operand_in d it').
Proof.
  induction f as [|f (IHe & IHb & IHu & IHn & IHo)].
  { repeat split; discriminate. }
  refine (conj _ (conj _ (conj _ (conj _ _)))).
  - intros d [e st] o it' k [Hd Hin] H. pose proof (expr_depth_pos e) as Pe.
    destruct st as [|i|i|i|i|].
    + apply (expr_fresh _ d) in H as (H1 & _ & H3); [|exact Hd]. split; [lia|exact H3].
    + cbn [expr_next_counted] in H.
      destruct (binary_next_counted f i) as [[[[t|] i'] c]|] eqn:E; [| |discriminate];
        apply (IHb d) in E as [E1 E2]; trivial; injection H as <- <- <-;
        (split; [lia|]); cbn; auto.
    + cbn [expr_next_counted] in H.
      destruct (unary_next_counted f i) as [[[[t|] i'] c]|] eqn:E; [| |discriminate];
        apply (IHu d) in E as [E1 E2]; trivial; injection H as <- <- <-;
        (split; [lia|]); cbn; auto.
    + cbn [expr_next_counted] in H.
      destruct (nary_next_counted f i) as [[[[t|] i'] c]|] eqn:E; [| |discriminate];
        apply (IHn d) in E as [E1 E2]; trivial; injection H as <- <- <-;
        (split; [lia|]); cbn; auto.
    + cbn [expr_next_counted] in H.
      destruct (value_next_counted f i) as [[[[t|] i'] c]|] eqn:E; [| |discriminate];
        apply value_cost in E; injection H as <- <- <-;
        (split; [lia|]); cbn; auto.
    + injection H as <- <- <-. split; [lia|]. cbn; auto.
  - intros d [l b r an st] o it' k (Hl & Hr & Hin) H.
    pose proof (expr_depth_pos l) as Pl. pose proof (expr_depth_pos r) as Pr.
    assert (Hright : forall f' o it' k,
      binary_next_counted f' (BinaryIter l b r an (BiRight (expression_iter r)))
      = Some ((o, it'), k) -> k <= 8 /\ binary_in d it').
    { intros f' o' i2 k' H'. destruct f' as [|f']; [discriminate|].
      cbn [binary_next_counted] in H'.
      destruct (expr_next_counted f' (expression_iter r)) as [[[[t|] i'] c]|] eqn:E;
        [| |discriminate];
        apply (expr_fresh _ (pred d)) in E as (E1 & (t' & E2) & E3); try lia; [|discriminate].
      injection H' as <- <- <-. split; [lia|]. cbn; auto. }
    assert (Han : forall f' o it' k,
      binary_next_counted f' (BinaryIter l b r an BiAnToken)
      = Some ((o, it'), k) -> k <= 9 /\ binary_in d it').
    { intros f' o' i2 k' H'. destruct f' as [|f']; [discriminate|].
      cbn [binary_next_counted] in H'. destruct an as [t|].
      - injection H' as <- <- <-. split; [lia|]. cbn. repeat split; trivial; lia.
      - apply more_some in H' as (j & H' & ->). apply Hright in H' as [H1 H2].
        split; [lia|exact H2]. }
    destruct st as [|i| |i|]; cbn [binary_next_counted] in H.
    + injection H as <- <- <-. split; [lia|]. cbn. repeat split; trivial; lia.
    + destruct (expr_next_counted f i) as [[[[t|] i'] c]|] eqn:E; [| |discriminate];
        apply (IHe (pred d)) in E as [E1 E2]; trivial.
      * injection H as <- <- <-. split; [lia|]. cbn; auto.
      * apply more_some in H as (j & H & ->). apply Han in H as [H1 H2].
        split; [lia|exact H2].
    + pose proof (Han (S f) o it' k) as Ha. cbn [binary_next_counted] in Ha.
      apply Ha in H as [H1 H2]. split; [lia|exact H2].
    + destruct (expr_next_counted f i) as [[[[t|] i'] c]|] eqn:E; [| |discriminate];
        apply (IHe (pred d)) in E as [E1 E2]; trivial.
      * injection H as <- <- <-. split; [lia|]. cbn; auto.
      * apply more_some in H as (j & H & ->). destruct f as [|f]; [discriminate|].
        cbn in H. injection H as <- <- <-. split; [lia|]. cbn; auto.
    + injection H as <- <- <-. split; [lia|]. cbn; auto.
  - intros d [u e st] o it' k (He & Hin) H. pose proof (expr_depth_pos e) as Pe.
    destruct st as [|i|]; cbn [unary_next_counted] in H.
    + injection H as <- <- <-. split; [lia|]. cbn. repeat split; trivial; lia.
    + destruct (expr_next_counted f i) as [[[[t|] i'] c]|] eqn:E; [| |discriminate];
        apply (IHe (pred d)) in E as [E1 E2]; trivial; injection H as <- <- <-;
        (split; [lia|]); cbn; auto.
    + injection H as <- <- <-. split; [lia|]. cbn; auto.
  - intros d [n es mkay st] o it' k (Hes & Hin) H.
    assert (Hmkay : forall f' o it' k,
      nary_next_counted f' (NaryIter n es mkay NaMkay) = Some ((o, it'), k) ->
      k <= 9 /\ nary_in d it').
    { intros f' o' i2 k' H'. destruct f' as [|f']; [discriminate|]. cbn in H'.
      injection H' as <- <- <-. split; [lia|]. cbn; auto. }
    assert (Hadv : forall m f' o it' k,
      match nth_error es m with
      | Some x =>
        nary_next_counted f' (NaryIter n es mkay (NaOperand (m + 1) (Some (nary_operand_iter x))))
      | None => nary_next_counted f' (NaryIter n es mkay NaMkay)
      end = Some ((o, it'), k) -> k <= 9 /\ nary_in d it').
    { intros m f' o' i2 k' H'. destruct (nth_error es m) as [x|] eqn:En; [|eapply Hmkay, H'].
      apply (deepest_nth operand_depth) in En.
      destruct f' as [|[|f']]; [discriminate|discriminate|].
      destruct x as [e an]. cbn [nary_next_counted operand_next_counted nary_operand_iter] in H'.
      cbn [operand_depth] in En.
      destruct (expr_next_counted f' (expression_iter e)) as [[[[t|] i'] c]|] eqn:E;
        [| |discriminate];
        apply (expr_fresh _ (pred d)) in E as (E1 & (t' & E2) & E3); try lia; [|discriminate].
      injection H' as <- <- <-. split; [lia|]. cbn. repeat split; trivial; lia. }
    destruct st as [|m oi| |]; cbn [nary_next_counted] in H.
    + injection H as <- <- <-. split; [lia|]. cbn; auto.
    + destruct oi as [i|].
      * destruct (operand_next_counted f i) as [[[[t|] i'] c]|] eqn:E; [| |discriminate];
          apply (IHo (pred d)) in E as [E1 E2]; trivial.
        -- injection H as <- <- <-. split; [lia|]. cbn; auto.
        -- apply more_some in H as (j & H & ->). apply Hadv in H as [H1 H2].
           split; [lia|exact H2].
      * apply more_some in H as (j & H & ->). apply Hadv in H as [H1 H2].
        split; [lia|exact H2].
    + injection H as <- <- <-. split; [lia|]. cbn; auto.
    + injection H as <- <- <-. split; [lia|]. cbn; auto.
  - intros d [x st] o it' k (Hx & Hin) H.
    destruct st as [i| |]; cbn [operand_next_counted] in H.
    + destruct (expr_next_counted f i) as [[[[t|] i'] c]|] eqn:E; [| |discriminate];
        apply (IHe d) in E as [E1 E2]; trivial.
      * injection H as <- <- <-. split; [lia|]. cbn; auto.
      * apply more_some in H as (j & H & ->). destruct f as [|f]; [discriminate|].
        cbn in H. injection H as <- <- <-. split; [lia|]. cbn; auto.
    + injection H as <- <- <-. split; [lia|]. cbn; auto.
    + injection H as <- <- <-. split; [lia|]. cbn; auto.
Qed.

Definition assignment_in (d : nat) (it : assignment_iter) : Prop :=
  expr_depth (asg_expression (asi_assignment it)) <= d /\
  match asi_state it with
  | AsExpression i => expr_in d i
  | _ => True
  end.

Lemma assignment_cost f : forall d it o it' k,
  assignment_in d it -> assignment_next_counted f it = Some ((o, it'), k) ->
  k <= 13 * d + 1 /\ assignment_in d it'.
Proof.
  intros d [a st] o it' k [Hd Hin] H. cbn [asi_assignment asi_state] in *.
  pose proof (expr_depth_pos (asg_expression a)).
  destruct f as [|f]; [discriminate|].
  cbn [assignment_next_counted asi_assignment asi_state] in H.
  destruct st as [|i| |i|].
  - apply more_some in H as (j & H & ->). destruct f as [|f]; [discriminate|].
    cbn [assignment_next_counted asi_assignment asi_state] in H.
    destruct (va_next_counted f (variable_access_iter (asg_variable_access a)))
      as [[[[t|] i'] c]|] eqn:E; [| |discriminate];
      apply va_fresh in E as [E1 (t' & E2)]; [|discriminate].
    injection H as <- <- <-. split; [lia|]. split; cbn; auto.
  - destruct (va_next_counted f i) as [[[[t|] i'] c]|] eqn:E; [| |discriminate];
      apply va_cost in E.
    + injection H as <- <- <-. split; [lia|]. split; cbn; auto.
    + apply more_some in H as (j & H & ->). destruct f as [|f]; [discriminate|].
      cbn in H. injection H as <- <- <-. split; [lia|]. split; cbn; auto.
  - injection H as <- <- <-. split; [lia|]. split; cbn; auto.
  - destruct (expr_next_counted f i) as [[[[t|] i'] c]|] eqn:E; [| |discriminate];
      apply (proj1 (expr_cost f) d) in E as [E1 E2]; trivial; injection H as <- <- <-;
      (split; [lia|]); split; cbn; auto.
  - injection H as <- <- <-. split; [lia|]. split; cbn; auto.
Qed.

(** ** Many calls *)
Section Calls.
Context {I : Type} (next : nat -> I -> option (option token * I))
        (counted : nat -> I -> with_calls (option token * I))
        (inside : I -> Prop) (bound : nat).
Hypothesis Hcounted : forall f it, answer (counted f it) = next f it.
Hypothesis Henough : forall f, enough counted f.
Hypothesis Hcost : forall f it o it' k,
  inside it -> counted f it = Some ((o, it'), k) -> k <= bound /\ inside it'.

Lemma counted_calls_bound f n : forall it os, inside it ->
  calls (next f) n it = Some os -> forall g, bound <= g ->
  exists ks, counted_calls (counted g) n it = Some ks /\ map fst ks = os /\
             Forall (fun x => 1 <= snd x <= bound) ks.
Proof.
  induction n as [|n IH]; intros it os Hin H g Hg.
  { injection H as <-. exists []. cbn. auto. }
  cbn [calls] in H. rewrite <- Hcounted in H.
  destruct (counted f it) as [[[o it'] k]|] eqn:E; cbn [answer] in H; [|discriminate].
  destruct (calls (next f) n it') as [os'|] eqn:E'; [|discriminate]. injection H as <-.
  destruct (Hcost _ _ _ _ _ Hin E) as [Hk Hin'].
  destruct (Henough _ _ _ _ E) as [H1 H2].
  destruct (IH it' os' Hin' E' g Hg) as (ks & H3 & H4 & H5).
  exists ((o, k) :: ks). cbn [counted_calls]. rewrite H2 by lia. rewrite H3.
  split; [reflexivity|]. split; [cbn; rewrite H4; reflexivity|].
  constructor; [cbn; lia|exact H5].
Qed.

Lemma counted_calls_calls f n : forall it ks,
  counted_calls (counted f) n it = Some ks -> calls (next f) n it = Some (map fst ks).
Proof.
  induction n as [|n IH]; intros it ks H.
  { injection H as <-. reflexivity. }
  cbn [counted_calls calls] in *. rewrite <- Hcounted.
  destruct (counted f it) as [[[o it'] k]|]; [|discriminate]. cbn [answer].
  destruct (counted_calls (counted f) n it') as [ks'|] eqn:E; [|discriminate].
  injection H as <-. rewrite (IH _ _ E). reflexivity.
Qed.
End Calls.

Lemma va_counted_calls n v f : 5 <= f -> exists ks,
  counted_calls (va_next_counted f) n (variable_access_iter v) = Some ks /\
  map fst ks = map (nth_error (va_tokens v)) (seq 0 n) /\
  Forall (fun x => 1 <= snd x <= 5) ks.
Proof.
  intros Hf. destruct (va_calls n v) as (F & HF).
  apply (counted_calls_bound va_next va_next_counted (fun _ => True) 5 va_counted va_enough)
    with (f := F); trivial.
  - intros f' it o it' k _ H. split; [exact (va_cost _ _ _ _ H)|exact I].
  - exact (HF F (le_n F)).
Qed.

Lemma expr_counted_calls n e f : 13 * expr_depth e <= f -> exists ks,
  counted_calls (expr_next_counted f) n (expression_iter e) = Some ks /\
  map fst ks = map (nth_error (expr_tokens e)) (seq 0 n) /\
  Forall (fun x => 1 <= snd x <= 13 * expr_depth e) ks.
Proof.
  intros Hf. destruct (expr_calls n e) as (F & HF).
  apply (counted_calls_bound expr_next expr_next_counted (expr_in (expr_depth e))
           (13 * expr_depth e) (fun f => proj1 (expr_counted f)) (fun f => proj1 (expr_enough f)))
    with (f := F); trivial.
  - intros f' it o it' k Hin H. exact (proj1 (expr_cost f') _ _ _ _ _ Hin H).
  - cbn. auto.
  - exact (HF F (le_n F)).
Qed.

Lemma assignment_counted_calls n a f : 13 * expr_depth (asg_expression a) + 1 <= f -> exists ks,
  counted_calls (assignment_next_counted f) n (variable_assignment_iter a) = Some ks /\
  map fst ks = map (nth_error (assignment_tokens a)) (seq 0 n) /\
  Forall (fun x => 1 <= snd x <= 13 * expr_depth (asg_expression a) + 1) ks.
Proof.
  intros Hf. destruct (assignment_calls n a) as (F & HF).
  apply (counted_calls_bound assignment_next assignment_next_counted
           (assignment_in (expr_depth (asg_expression a)))
           (13 * expr_depth (asg_expression a) + 1) assignment_counted assignment_enough)
    with (f := F); trivial.
  - intros f' it o it' k Hin H. exact (assignment_cost f' _ _ _ _ _ Hin H).
  - split; cbn; auto.
  - exact (HF F (le_n F)).
Qed.

Lemma va_stack n v f : 5 <= f ->
  calls (va_next f) n (variable_access_iter v) = Some (map (nth_error (va_tokens v)) (seq 0 n)).
Proof.
  intros Hf. destruct (va_counted_calls n v f Hf) as (ks & H & <- & _).
  exact (counted_calls_calls _ _ va_counted _ _ _ _ H).
Qed.
Lemma expr_stack n e f : 13 * expr_depth e <= f ->
  calls (expr_next f) n (expression_iter e) = Some (map (nth_error (expr_tokens e)) (seq 0 n)).
Proof.
  intros Hf. destruct (expr_counted_calls n e f Hf) as (ks & H & <- & _).
  exact (counted_calls_calls _ _ (fun f => proj1 (expr_counted f)) _ _ _ _ H).
Qed.
Lemma assignment_stack n a f : 13 * expr_depth (asg_expression a) + 1 <= f ->
  calls (assignment_next f) n (variable_assignment_iter a)
  = Some (map (nth_error (assignment_tokens a)) (seq 0 n)).
Proof.
  intros Hf. destruct (assignment_counted_calls n a f Hf) as (ks & H & <- & _).
  exact (counted_calls_calls _ _ assignment_counted _ _ _ _ H).
Qed.

Lemma total_bound b ks : Forall (fun x : option token * nat => 1 <= snd x <= b) ks ->
  total_calls ks <= length ks * b.
Proof.
  unfold total_calls. induction 1 as [|x ks H _ IH]; cbn [map list_sum fold_right length] in *;
    change (fold_right Nat.add 0) with list_sum in *; lia.
Qed.

Lemma expr_total n e f : 13 * expr_depth e <= f -> exists ks,
  counted_calls (expr_next_counted f) n (expression_iter e) = Some ks /\
  map fst ks = map (nth_error (expr_tokens e)) (seq 0 n) /\
  total_calls ks <= n * (13 * expr_depth e).
Proof.
  intros Hf. destruct (expr_counted_calls n e f Hf) as (ks & H & H2 & H3).
  exists ks. split; [exact H|]. split; [exact H2|].
  apply total_bound in H3. pose proof (f_equal (@length _) H2) as Hl.
  rewrite !map_length, seq_length in Hl. rewrite <- Hl. exact H3.
Qed.

(** ** Deep expressions *)

(** The iterator of [nots t n x] after [m] tokens: [m] unary iterators around a
    fresh one. *)
Fixpoint inside_nots (t : token) (m n : nat) (x : expr) : expr_iter :=
  match m with
  | O => expression_iter (nots t n x)
  | S m' =>
    ExprIter (nots t n x)
      (ExUnary (UnaryIter (UNot t) (nots t (pred n) x) (UnOperand (inside_nots t m' (pred n) x))))
  end.

Lemma inside_step t x : forall m n f, m < n -> 2 * m + 3 <= f ->
  expr_next_counted f (inside_nots t m n x)
  = Some ((Some t, inside_nots t (S m) n x), 2 * m + 3).
Proof.
  induction m as [|m IH]; intros n f Hn Hf.
  - destruct n as [|n]; [lia|]. destruct f as [|[|[|f]]]; try lia. reflexivity.
  - destruct n as [|n]; [lia|]. destruct f as [|[|f]]; try lia.
    change (inside_nots t (S m) (S n) x) with
      (ExprIter (nots t (S n) x)
        (ExUnary (UnaryIter (UNot t) (nots t n x) (UnOperand (inside_nots t m n x))))).
    cbn [expr_next_counted unary_next_counted]. rewrite IH by lia.
    cbn [inside_nots pred]. f_equal. f_equal. lia.
Qed.

Lemma inside_calls t x n f : forall j m, m + j <= n -> 2 * n + 3 <= f -> exists ks,
  counted_calls (expr_next_counted f) j (inside_nots t m n x) = Some ks /\
  j * (2 * m + j) <= total_calls ks.
Proof.
  induction j as [|j IH]; intros m Hm Hf.
  - exists []. split; [reflexivity|]. cbn. lia.
  - destruct (IH (S m)) as (ks & H & H2); [lia|lia|].
    exists ((Some t, 2 * m + 3) :: ks). cbn [counted_calls].
    rewrite inside_step by lia. rewrite H. split; [reflexivity|].
    unfold total_calls in *. cbn [map list_sum fold_right snd]. 
    change (fold_right Nat.add 0) with list_sum in *. nia.
Qed.

Lemma nots_total t x n f : 13 * expr_depth (nots t n x) <= f -> exists ks,
  counted_calls (expr_next_counted f) n (expression_iter (nots t n x)) = Some ks /\
  n * n <= total_calls ks.
Proof.
  intros Hf.
  assert (Hd : n + 1 <= expr_depth (nots t n x)).
  { clear Hf. induction n; cbn [nots expr_depth]; [pose proof (expr_depth_pos x)|]; lia. }
  destruct (inside_calls t x n f n 0) as (ks & H & H2); [lia|lia|].
  exists ks. split; [exact H|]. lia.
Qed.

Lemma nots_tokens t x n : expr_tokens (nots t n x) = repeat t n ++ expr_tokens x.
Proof. induction n; cbn; congruence. Qed.

Lemma linear_refuted : ~ exists c, forall e f ks, 13 * expr_depth e <= f ->
  counted_calls (expr_next_counted f) (length (expr_tokens e)) (expression_iter e) = Some ks ->
  total_calls ks <= c * length (expr_tokens e).
Proof.
  intros (c & Hc).
  pose (t := mkToken TComma (mkRange position_start position_start)).
  pose (x := Value (LiteralValue t)). pose (n := 2 * c + 1).
  destruct (nots_total t x n _ (le_n _)) as (ks & H & H2).
  pose proof (expr_counted_calls (n + 1) (nots t n x) _ (le_n _)) as (ks' & H' & _ & _).
  assert (Hlen : length (expr_tokens (nots t n x)) = n + 1).
  { rewrite nots_tokens, app_length, repeat_length. reflexivity. }
  specialize (Hc (nots t n x) _ ks' (le_n _)). rewrite Hlen in Hc. specialize (Hc H').
  assert (total_calls ks <= total_calls ks').
  { clear - H H'. revert H H'. generalize (expression_iter (nots t n x)).
    generalize (expr_next_counted (13 * expr_depth (nots t n x))). intros next.
    revert ks ks'. induction n as [|m IH]; intros ks ks' it H H'.
    - injection H as <-. cbn. lia.
    - cbn [counted_calls Nat.add] in H, H'. destruct (next it) as [[[o it'] k]|]; [|discriminate].
      destruct (counted_calls next m it') as [os|] eqn:E; [|discriminate].
      destruct (counted_calls next (m + 1) it') as [os'|] eqn:E'; [|discriminate].
      injection H as <-. injection H' as <-. specialize (IH _ _ _ E E').
      unfold total_calls in *. cbn [map list_sum fold_right snd] in *.
      change (fold_right Nat.add 0) with list_sum in *. lia. }
  unfold n in *. nia.
Qed.

(** No fixed stack is enough for all expressions. *)
Lemma stack_refuted : ~ exists f, forall n e,
  calls (expr_next f) n (expression_iter e) = Some (map (nth_error (expr_tokens e)) (seq 0 n)).
Proof.
  intros (f & Hf).
  pose (t := mkToken TComma (mkRange position_start position_start)).
  pose (x := Value (LiteralValue t)).
  assert (Hs : forall m n g, m <= n -> g < 2 * m -> expr_next g (inside_nots t m n x) = None).
  { induction m as [|m IH]; intros n g Hn Hg; [lia|].
    destruct g as [|[|g]]; try reflexivity. destruct n as [|n]; [lia|].
    change (inside_nots t (S m) (S n) x) with
      (ExprIter (nots t (S n) x)
        (ExUnary (UnaryIter (UNot t) (nots t n x) (UnOperand (inside_nots t m n x))))).
    cbn [expr_next unary_next]. rewrite IH by lia. reflexivity. }
  pose (n := f + 1). specialize (Hf (n + 1) (nots t n x)).
  assert (Hc : forall j m, m + j = n + 1 -> m <= n ->
     calls (expr_next f) j (inside_nots t m n x) = None).
  { induction j as [|j IH]; intros m Hm Hmn; [lia|]. cbn [calls].
    destruct (Nat.eq_dec m n) as [->|Hne].
    - rewrite Hs by (unfold n; lia). reflexivity.
    - destruct (Nat.le_gt_cases (2 * m + 3) f) as [Hle|Hgt].
      + rewrite <- (proj1 (expr_counted f)), inside_step by lia. cbn [answer].
        rewrite IH by lia. reflexivity.
      + destruct (expr_next f (inside_nots t m n x)) as [[o it']|] eqn:E; [|reflexivity].
        rewrite <- (proj1 (expr_counted f)) in E.
        destruct (expr_next_counted f (inside_nots t m n x)) as [[r k]|] eqn:E2; [|discriminate].
        cbn in E. injection E as ->.
        pose proof (proj2 (proj1 (expr_enough f) _ _ _ E2) (k + 2 * m + 3) ltac:(lia)) as E3.
        rewrite inside_step in E3 by lia.
        assert (it' = inside_nots t (S m) n x) as -> by congruence.
        rewrite IH by lia. reflexivity. }
  change (expression_iter (nots t n x)) with (inside_nots t 0 n x) in Hf.
  rewrite Hc in Hf by lia. discriminate.
Qed.
