(** The [tokens()] iterators enumerate the tokens of AstTokens.v, then [None]
    forever; the ranges are those of the first and last tokens. *)
From Coq Require Import Lia.
From Verif Require Import Ast AstTokens TokIter.

(** ** What an iterator has not yet returned, and a bound on the recursion depth
    of its [next]. *)
Definition id_rem (it : id_iter) : list token :=
  match idi_state it with
  | IdStart => identifier_tokens (idi_identifier it)
  | IdHasUsedSrs => [id_name (idi_identifier it)]
  | IdDone => []
  end.

Lemma id_next_rem it :
  fst (id_next it) = hd_error (id_rem it) /\ id_rem (snd (id_next it)) = tl (id_rem it).
Proof.
  destruct it as [[n [s|]] []]; cbn; auto.
Qed.

Definition slot_rem (it : slot_iter) : list token :=
  match sli_state it with
  | SlSlot => slot_tokens (sli_slot it)
  | SlIdentifier i => id_rem i
  | SlEnd => []
  end.

Lemma slot_next_rem it :
  fst (slot_next it) = hd_error (slot_rem it)
  /\ slot_rem (snd (slot_next it)) = tl (slot_rem it).
Proof.
  destruct it as [s [|i|]]; cbn; auto.
  pose proof (id_next_rem i) as [H1 H2]. unfold slot_next; cbn.
  destruct (id_next i) as [[t|] i'] eqn:E; cbn in *; auto.
  split; auto. unfold slot_rem; cbn. destruct (id_rem i); [auto|discriminate].
Qed.

Definition va_rem (it : va_iter) : list token :=
  let v := vai_access it in
  match vai_state it with
  | VaStart => va_tokens v
  | VaIdentifier i => id_rem i ++ flat_map slot_tokens (va_accesses v)
  | VaAccess k o =>
    match o with Some i => slot_rem i | None => [] end
    ++ flat_map slot_tokens (skipn k (va_accesses v))
  | VaDone => []
  end.

Definition va_w (it : va_iter) : nat :=
  let n := length (va_accesses (vai_access it)) in
  match vai_state it with
  | VaStart => n + 3
  | VaIdentifier _ => n + 2
  | VaAccess k _ => n - k + 1
  | VaDone => 1
  end.

(** [next] with fuel [f] returns the first remaining token. *)
Definition good {I} (next : nat -> I -> option (option token * I)) (rem : I -> list token)
           (w : I -> nat) (f : nat) (it : I) : Prop :=
  exists it', next f it = Some (hd_error (rem it), it')
              /\ rem it' = tl (rem it) /\ w it' <= w it.

Lemma hd_error_none {A} (l : list A) : None = hd_error l -> l = [].
Proof. destruct l; [auto|discriminate]. Qed.

Lemma skipn_nth {A} (l : list A) k x :
  nth_error l k = Some x -> skipn k l = x :: skipn (k + 1) l.
Proof.
  revert k; induction l as [|y l IH]; intros [|k]; cbn; try discriminate.
  - intros E; injection E as <-. reflexivity.
  - apply IH.
Qed.
Lemma skipn_nth_none {A} (l : list A) k : nth_error l k = None -> skipn k l = [].
Proof. intros H. apply skipn_all2. apply nth_error_None. exact H. Qed.

Lemma va_next_rem f it : va_w it <= f -> good va_next va_rem va_w f it.
Proof.
  revert it; induction f as [|f IH]; intros [v st] Hw.
  { exfalso. destruct st; unfold va_w in Hw; cbn in Hw; lia. }
  unfold good. cbn [va_next vai_access vai_state].
  assert (Hadv : forall k (o : option slot_iter),
    st = VaAccess k o -> match o with Some i => slot_rem i | None => [] end = [] ->
    exists it',
      match nth_error (va_accesses v) k with
      | Some s => va_next f (mkVaIter v (VaAccess (k + 1) (Some (va_slot_iter s))))
      | None => Some (None, mkVaIter v VaDone)
      end = Some (hd_error (va_rem (mkVaIter v st)), it')
      /\ va_rem it' = tl (va_rem (mkVaIter v st)) /\ va_w it' <= va_w (mkVaIter v st)).
  { intros k o -> Ho. unfold va_rem at 1 3; cbn [vai_access vai_state]. rewrite Ho.
    destruct (nth_error (va_accesses v) k) as [s|] eqn:E.
    - assert (k < length (va_accesses v)) by (apply nth_error_Some; congruence).
      rewrite (skipn_nth _ _ _ E).
      destruct (IH (mkVaIter v (VaAccess (k + 1) (Some (va_slot_iter s)))))
        as (it' & -> & H1 & H2).
      { unfold va_w in *; cbn in *; lia. }
      exists it'. split; [reflexivity|]. split; [exact H1|].
      unfold va_w in *; cbn in *; lia.
    - rewrite (skipn_nth_none _ _ E). eexists; split; [reflexivity|].
      split; [reflexivity|]. unfold va_w; cbn; lia. }
  destruct st as [|i|k o|].
  - destruct (IH (mkVaIter v (VaIdentifier (identifier_iter (va_identifier v)))))
      as (it' & -> & H1 & H2).
    { unfold va_w in *; cbn in *; lia. }
    exists it'. split; [reflexivity|]. split; [exact H1|]. unfold va_w in *; cbn in *; lia.
  - pose proof (id_next_rem i) as [H1 H2].
    destruct (id_next i) as [[t|] i']; cbn [fst snd] in *.
    + eexists; split; [|split].
      * unfold va_rem; cbn. destruct (id_rem i); cbn in *; [discriminate|].
        injection H1 as ->. reflexivity.
      * unfold va_rem; cbn. rewrite H2. destruct (id_rem i); [discriminate|reflexivity].
      * unfold va_w; cbn; lia.
    + apply hd_error_none in H1.
      destruct (IH (mkVaIter v (VaAccess 0 None))) as (it' & -> & H3 & H4).
      { unfold va_w in *; cbn in *; lia. }
      exists it'. unfold va_rem in H3 |- *; cbn in *. rewrite H1. cbn.
      split; [reflexivity|]. split; [exact H3|]. unfold va_w in *; cbn in *; lia.
  - destruct o as [si|]; [|eapply Hadv; reflexivity].
    pose proof (slot_next_rem si) as [H1 H2].
    destruct (slot_next si) as [[t|] si'] eqn:E; cbn [fst snd] in *.
    + eexists; split; [|split].
      * unfold va_rem; cbn. destruct (slot_rem si); cbn in *; [discriminate|].
        injection H1 as ->. reflexivity.
      * unfold va_rem; cbn. rewrite H2. destruct (slot_rem si); [discriminate|reflexivity].
      * unfold va_w; cbn; lia.
    + apply hd_error_none in H1. eapply Hadv; [reflexivity|exact H1].
  - eexists; split; [reflexivity|]. split; [reflexivity|]. lia.
Qed.

Definition value_rem (it : value_iter) : list token :=
  match vali_state it with
  | ValStart => value_tokens (vali_value it)
  | ValVariableAccess i => va_rem i
  | ValEnd => []
  end.
Definition value_w (it : value_iter) : nat :=
  match vali_state it with
  | ValStart => match vali_value it with
                | VariableAccess v => length (va_accesses v) + 6
                | LiteralValue _ => 1
                end
  | ValVariableAccess i => va_w i + 2
  | ValEnd => 1
  end.

Lemma value_next_rem f it : value_w it <= f -> good value_next value_rem value_w f it.
Proof.
  revert it; induction f as [|f IH]; intros [v st] Hw.
  { exfalso. destruct st; destruct v; unfold value_w in Hw; cbn in Hw; lia. }
  unfold good. cbn [value_next vali_value vali_state].
  destruct st as [|i|].
  - destruct v as [v|t].
    + destruct (IH (mkValueIter (VariableAccess v)
                                (ValVariableAccess (variable_access_iter v))))
        as (it' & -> & H1 & H2).
      { unfold value_w, va_w in *; cbn in *; lia. }
      exists it'. split; [reflexivity|]. split; [exact H1|].
      unfold value_w, va_w in *; cbn in *; lia.
    + eexists; split; [reflexivity|]. split; [reflexivity|]. unfold value_w; cbn; lia.
  - destruct (va_next_rem f i) as (i' & Hn & H1 & H2).
    { unfold value_w in Hw; cbn in Hw; lia. }
    rewrite Hn. destruct (va_rem i) as [|t ts] eqn:E; cbn [hd_error].
    + destruct (IH (mkValueIter v ValEnd)) as (it' & -> & H3 & H4).
      { unfold value_w in *; cbn in *; lia. }
      exists it'. unfold value_rem at 1 3; cbn. rewrite E.
      split; [reflexivity|]. split; [exact H3|]. unfold value_w in *; cbn in *; lia.
    + eexists; split; [|split].
      * unfold value_rem; cbn. rewrite E. reflexivity.
      * unfold value_rem; cbn. rewrite E, H1. reflexivity.
      * unfold value_w in *; cbn in *; lia.
  - eexists; split; [reflexivity|]. split; [reflexivity|]. lia.
Qed.

(** ** Expressions *)
Fixpoint ew (e : expr) : nat :=
  match e with
  | BinaryOperation l _ r _ => ew l + ew r + 6
  | UnaryOperation _ e => ew e + 3
  | NaryOperation _ es _ =>
    list_sum (map (fun x => match x with Operand e _ => ew e + 3 end) es) + 5
  | Value v => value_w (expr_value_iter v) + 2
  end.
Definition opw (x : operand) : nat := match x with Operand e _ => ew e + 3 end.

Fixpoint expr_rem (it : expr_iter) : list token :=
  match it with
  | ExprIter e st =>
    match st with
    | ExStart => expr_tokens e
    | ExBinary i => binary_rem i
    | ExUnary i => unary_rem i
    | ExNary i => nary_rem i
    | ExValue i => value_rem i
    | ExEnd => []
    end
  end
with binary_rem (it : binary_iter) : list token :=
  match it with
  | BinaryIter l o r an st =>
    match st with
    | BiStart => binary_opt_token o :: expr_tokens l ++ opt_token an ++ expr_tokens r
    | BiLeft i => expr_rem i ++ opt_token an ++ expr_tokens r
    | BiAnToken => opt_token an ++ expr_tokens r
    | BiRight i => expr_rem i
    | BiEnd => []
    end
  end
with unary_rem (it : unary_iter) : list token :=
  match it with
  | UnaryIter o e st =>
    match st with
    | UnStart => unary_opt_token o :: expr_tokens e
    | UnOperand i => expr_rem i
    | UnEnd => []
    end
  end
with nary_rem (it : nary_iter) : list token :=
  match it with
  | NaryIter o es mkay st =>
    match st with
    | NaStart => nary_opt_token o :: flat_map operand_tokens es ++ opt_token mkay
    | NaOperand k oi =>
      match oi with Some i => operand_rem i | None => [] end
      ++ flat_map operand_tokens (skipn k es) ++ opt_token mkay
    | NaMkay => opt_token mkay
    | NaEnd => []
    end
  end
with operand_rem (it : operand_iter) : list token :=
  match it with
  | OperandIter x st =>
    match st with
    | OpExpression i => expr_rem i ++ opt_token (match x with Operand _ an => an end)
    | OpAnToken => opt_token (match x with Operand _ an => an end)
    | OpEnd => []
    end
  end.

Fixpoint expr_w (it : expr_iter) : nat :=
  match it with
  | ExprIter e st =>
    match st with
    | ExStart => ew e
    | ExBinary i => binary_w i + 1
    | ExUnary i => unary_w i + 1
    | ExNary i => nary_w i + 1
    | ExValue i => value_w i + 1
    | ExEnd => 1
    end
  end
with binary_w (it : binary_iter) : nat :=
  match it with
  | BinaryIter l o r an st =>
    match st with
    | BiStart => ew l + ew r + 4
    | BiLeft i => expr_w i + ew r + 4
    | BiAnToken => ew r + 3
    | BiRight i => expr_w i + 2
    | BiEnd => 1
    end
  end
with unary_w (it : unary_iter) : nat :=
  match it with
  | UnaryIter o e st =>
    match st with
    | UnStart => ew e + 1
    | UnOperand i => expr_w i + 1
    | UnEnd => 1
    end
  end
with nary_w (it : nary_iter) : nat :=
  match it with
  | NaryIter o es mkay st =>
    match st with
    | NaStart => list_sum (map opw es) + 3
    | NaOperand k oi =>
      match oi with Some i => operand_w i | None => 0 end
      + list_sum (map opw (skipn k es)) + 3
    | NaMkay => 2
    | NaEnd => 1
    end
  end
with operand_w (it : operand_iter) : nat :=
  match it with
  | OperandIter x st =>
    match st with
    | OpExpression i => expr_w i + 2
    | OpAnToken => 1
    | OpEnd => 1
    end
  end.

Lemma value_w_pos i : 1 <= value_w i.
Proof. destruct i as [[v|] []]; unfold value_w; cbn; lia. Qed.
Lemma ew_pos e : 1 <= ew e.
Proof. destruct e; cbn [ew]; try lia. Qed.
Lemma expr_w_pos i : 1 <= expr_w i.
Proof. destruct i as [e []]; cbn [expr_w]; try lia. apply ew_pos. Qed.
Lemma binary_w_pos i : 1 <= binary_w i.
Proof. destruct i as [? ? ? ? []]; cbn [binary_w]; lia. Qed.
Lemma unary_w_pos i : 1 <= unary_w i.
Proof. destruct i as [? ? []]; cbn [unary_w]; lia. Qed.
Lemma nary_w_pos i : 1 <= nary_w i.
Proof. destruct i as [? ? ? []]; cbn [nary_w]; lia. Qed.
Lemma operand_w_pos i : 1 <= operand_w i.
Proof. destruct i as [? []]; cbn [operand_w]; lia. Qed.

(** A state that only forwards to an inner iterator. *)
Ltac forward Hn E :=
  rewrite Hn;
  match type of Hn with
  | context [hd_error (?rem ?i)] => destruct (rem i) as [|? ?] eqn:E; cbn [hd_error tl] in *
  end.
Ltac done_with := eexists; split; [reflexivity|]; split; [reflexivity|].

Lemma next_rem f :
  (forall it, expr_w it <= f -> good expr_next expr_rem expr_w f it) /\
  (forall it, binary_w it <= f -> good binary_next binary_rem binary_w f it) /\
  (forall it, unary_w it <= f -> good unary_next unary_rem unary_w f it) /\
  (forall it, nary_w it <= f -> good nary_next nary_rem nary_w f it) /\
  (forall it, operand_w it <= f -> good operand_next operand_rem operand_w f it).
Proof.
  induction f as [|f (IHe & IHb & IHu & IHn & IHo)].
  { repeat split; intros it Hw; exfalso;
      [pose proof (expr_w_pos it)|pose proof (binary_w_pos it)|pose proof (unary_w_pos it)
      |pose proof (nary_w_pos it)|pose proof (operand_w_pos it)]; lia. }
  repeat split.
  - intros [e st] Hw. unfold good. destruct st as [|i|i|i|i|].
    + destruct e as [l o r an|o x|o es mkay|v]; cbn [expr_next].
      * destruct (IHe (ExprIter (BinaryOperation l o r an)
                                (ExBinary (binary_operation_iter l o r an))))
          as (it' & -> & H1 & H2).
        { cbn in *; lia. }
        exists it'. split; [reflexivity|]. split; [exact H1|]. cbn in *; lia.
      * destruct (IHe (ExprIter (UnaryOperation o x) (ExUnary (unary_operation_iter o x))))
          as (it' & -> & H1 & H2).
        { cbn in *; lia. }
        exists it'. split; [reflexivity|]. split; [exact H1|]. cbn in *; lia.
      * destruct (IHe (ExprIter (NaryOperation o es mkay)
                                (ExNary (nary_operation_iter o es mkay))))
          as (it' & -> & H1 & H2).
        { cbn in *. fold opw in *. lia. }
        exists it'. split; [reflexivity|]. split; [exact H1|].
        cbn in *. fold opw in *. lia.
      * destruct (IHe (ExprIter (Value v) (ExValue (expr_value_iter v))))
          as (it' & -> & H1 & H2).
        { cbn [expr_w ew] in *; lia. }
        exists it'. split; [reflexivity|]. split; [exact H1|]. cbn [expr_w ew] in *; lia.
    + cbn [expr_next expr_rem expr_w] in *.
      destruct (IHb i) as (i' & Hn & H1 & H2); [lia|]. forward Hn E.
      * done_with. cbn; lia.
      * eexists; split; [reflexivity|]. split; [exact H1|]. cbn; lia.
    + cbn [expr_next expr_rem expr_w] in *.
      destruct (IHu i) as (i' & Hn & H1 & H2); [lia|]. forward Hn E.
      * done_with. cbn; lia.
      * eexists; split; [reflexivity|]. split; [exact H1|]. cbn; lia.
    + cbn [expr_next expr_rem expr_w] in *.
      destruct (IHn i) as (i' & Hn & H1 & H2); [lia|]. forward Hn E.
      * done_with. cbn; lia.
      * eexists; split; [reflexivity|]. split; [exact H1|]. cbn; lia.
    + cbn [expr_next expr_rem expr_w] in *.
      destruct (value_next_rem f i) as (i' & Hn & H1 & H2); [lia|]. forward Hn E.
      * done_with. cbn; lia.
      * eexists; split; [reflexivity|]. split; [exact H1|]. cbn [expr_w]; lia.
    + done_with. lia.
  - intros [l o r an st] Hw. unfold good.
    destruct st as [|i| |i|]; cbn [binary_next binary_rem binary_w] in *.
    + done_with. cbn; lia.
    + destruct (IHe i) as (i' & Hn & H1 & H2); [lia|]. forward Hn E.
      * destruct (IHb (BinaryIter l o r an BiAnToken)) as (it' & -> & H3 & H4);
          [cbn; lia|].
        eexists; split; [reflexivity|]. split; [exact H3|]. cbn in *; lia.
      * eexists; split; [reflexivity|]. split; [cbn; rewrite H1; reflexivity|]. cbn; lia.
    + destruct an as [t|].
      * done_with. cbn; lia.
      * destruct (IHb (BinaryIter l o r None (BiRight (expression_iter r))))
          as (it' & -> & H3 & H4); [cbn; lia|].
        eexists; split; [reflexivity|]. split; [exact H3|]. cbn in *; lia.
    + destruct (IHe i) as (i' & Hn & H1 & H2); [lia|]. forward Hn E.
      * destruct (IHb (BinaryIter l o r an BiEnd)) as (it' & -> & H3 & H4);
          [cbn; lia|].
        eexists; split; [reflexivity|]. split; [exact H3|]. cbn in *; lia.
      * eexists; split; [reflexivity|]. split; [exact H1|]. cbn; lia.
    + done_with. cbn; lia.
  - intros [o e st] Hw. unfold good.
    destruct st as [|i|]; cbn [unary_next unary_rem unary_w] in *.
    + done_with. cbn; lia.
    + destruct (IHe i) as (i' & Hn & H1 & H2); [lia|]. forward Hn E.
      * done_with. cbn; lia.
      * eexists; split; [reflexivity|]. split; [exact H1|]. cbn; lia.
    + done_with. cbn; lia.
  - intros [o es mkay st] Hw. unfold good.
    assert (Hadv : forall k,
      list_sum (map opw (skipn k es)) + 3 <= Datatypes.S f ->
      exists it',
        match nth_error es k with
        | Some x =>
          nary_next f (NaryIter o es mkay (NaOperand (k + 1) (Some (nary_operand_iter x))))
        | None => nary_next f (NaryIter o es mkay NaMkay)
        end = Some (hd_error (flat_map operand_tokens (skipn k es) ++ opt_token mkay), it')
        /\ nary_rem it' = tl (flat_map operand_tokens (skipn k es) ++ opt_token mkay)
        /\ nary_w it' <= list_sum (map opw (skipn k es)) + 3).
    { intros k Hk. destruct (nth_error es k) as [x|] eqn:E.
      - rewrite (skipn_nth _ _ _ E) in *. cbn [map list_sum fold_right flat_map] in *.
        change (fold_right Nat.add 0) with list_sum in *.
        destruct (IHn (NaryIter o es mkay (NaOperand (k + 1) (Some (nary_operand_iter x)))))
          as (it' & -> & H1 & H2).
        { destruct x; cbn in *; lia. }
        exists it'. destruct x as [e an].
        split; [cbn; rewrite <- !app_assoc; reflexivity|].
        split; [rewrite H1; cbn; rewrite <- !app_assoc; reflexivity|].
        cbn in *; lia.
      - rewrite (skipn_nth_none _ _ E) in *. cbn [map list_sum fold_right flat_map] in *.
        destruct (IHn (NaryIter o es mkay NaMkay)) as (it' & -> & H1 & H2).
        { cbn; lia. }
        exists it'. split; [reflexivity|]. split; [exact H1|]. cbn in *; lia. }
    destruct st as [|k oi| |]; cbn [nary_next nary_rem nary_w] in *.
    + done_with. cbn [nary_w skipn]; lia.
    + destruct oi as [i|].
      * destruct (IHo i) as (i' & Hn & H1 & H2); [lia|].
        pose proof (operand_w_pos i). forward Hn E.
        -- destruct (Hadv k) as (it' & -> & H3 & H4); [lia|].
           exists it'. split; [reflexivity|]. split; [exact H3|]. lia.
        -- eexists; split; [reflexivity|]. split; [cbn; rewrite H1; reflexivity|].
           cbn; lia.
      * destruct (Hadv k) as (it' & -> & H3 & H4); [lia|].
        exists it'. split; [reflexivity|]. split; [exact H3|]. lia.
    + destruct mkay; done_with; cbn; lia.
    + done_with. cbn; lia.
  - intros [x st] Hw. unfold good.
    destruct st as [i| |]; cbn [operand_next operand_rem operand_w] in *.
    + destruct (IHe i) as (i' & Hn & H1 & H2); [lia|]. forward Hn E.
      * destruct (IHo (OperandIter x OpAnToken)) as (it' & -> & H3 & H4); [cbn; lia|].
        eexists; split; [reflexivity|]. split; [exact H3|]. cbn in *; lia.
      * eexists; split; [reflexivity|]. split; [cbn; rewrite H1; reflexivity|]. cbn; lia.
    + destruct x as [e [an|]]; done_with; cbn; lia.
    + done_with. cbn; lia.
Qed.

Definition asg_rem (it : assignment_iter) : list token :=
  let a := asi_assignment it in
  match asi_state it with
  | AsStart => assignment_tokens a
  | AsVariableAccess i => va_rem i ++ asg_r_token a :: expr_tokens (asg_expression a)
  | AsRToken => asg_r_token a :: expr_tokens (asg_expression a)
  | AsExpression i => expr_rem i
  | AsEnd => []
  end.
Definition asg_w (it : assignment_iter) : nat :=
  let a := asi_assignment it in
  match asi_state it with
  | AsStart => va_w (variable_access_iter (asg_variable_access a)) + ew (asg_expression a) + 4
  | AsVariableAccess i => va_w i + ew (asg_expression a) + 3
  | AsRToken => ew (asg_expression a) + 2
  | AsExpression i => expr_w i + 1
  | AsEnd => 1
  end.

Lemma assignment_next_rem f it :
  asg_w it <= f -> good assignment_next asg_rem asg_w f it.
Proof.
  revert it; induction f as [|f IH]; intros [a st] Hw.
  { exfalso. destruct st; unfold asg_w in Hw; cbn in Hw; lia. }
  unfold good. unfold asg_w, asg_rem in Hw |- *.
  destruct st as [|i| |i|]; cbn [assignment_next asi_assignment asi_state] in *.
  - destruct (IH (mkAssignmentIter a
                 (AsVariableAccess (variable_access_iter (asg_variable_access a)))))
      as (it' & -> & H1 & H2).
    { unfold asg_w; cbn [asi_assignment asi_state]; lia. }
    exists it'. split; [reflexivity|]. split; [exact H1|].
    unfold asg_w in H2; cbn [asi_assignment asi_state] in H2. lia.
  - destruct (va_next_rem f i) as (i' & Hn & H1 & H2); [lia|]. forward Hn E.
    + destruct (IH (mkAssignmentIter a AsRToken)) as (it' & -> & H3 & H4).
      { unfold asg_w; cbn [asi_assignment asi_state]; lia. }
      exists it'. split; [reflexivity|]. split; [exact H3|].
      unfold asg_w in H4; cbn [asi_assignment asi_state] in H4. lia.
    + eexists; split; [reflexivity|]. cbn [asi_assignment asi_state].
      split; [rewrite H1; reflexivity|]. lia.
  - done_with. cbn; lia.
  - destruct (proj1 (next_rem f) i) as (i' & Hn & H1 & H2); [lia|]. forward Hn E.
    + done_with. cbn; lia.
    + eexists; split; [reflexivity|]. split; [exact H1|]. cbn [asi_assignment asi_state]; lia.
  - done_with. cbn; lia.
Qed.

(** ** Calling [next] [n] times *)
Fixpoint calls {I} (next : I -> option (option token * I)) (n : nat) (it : I)
  : option (list (option token)) :=
  match n with
  | O => Some []
  | S n' =>
    match next it with
    | Some (o, it') => match calls next n' it' with
                       | Some os => Some (o :: os)
                       | None => None
                       end
    | None => None
    end
  end.

Lemma calls_good {I} (next : nat -> I -> option (option token * I)) rem w :
  (forall f it, w it <= f -> good next rem w f it) ->
  forall n f it, w it <= f ->
  calls (next f) n it = Some (map (fun k => nth_error (rem it) k) (seq 0 n)).
Proof.
  intros Hg n. induction n as [|n IH]; intros f it Hw; [reflexivity|].
  cbn [calls seq map].
  destruct (Hg f it Hw) as (it' & -> & H1 & H2).
  rewrite IH by lia. rewrite H1. apply (f_equal Some). f_equal.
  rewrite <- seq_shift, map_map. apply map_ext. intros k.
  destruct (rem it); [destruct k; reflexivity|reflexivity].
Qed.

Lemma identifier_calls n i :
  calls (fun it => Some (id_next it)) n (identifier_iter i)
  = Some (map (fun k => nth_error (identifier_tokens i) k) (seq 0 n)).
Proof.
  apply (calls_good (fun _ it => Some (id_next it)) id_rem (fun _ => 0)) with (f := 0);
    [|lia].
  intros f it _. pose proof (id_next_rem it) as [H1 H2].
  exists (snd (id_next it)). rewrite <- H1. split; [destruct (id_next it); reflexivity|].
  split; [exact H2|lia].
Qed.

Lemma va_calls n v : exists F, forall f, F <= f ->
  calls (va_next f) n (variable_access_iter v)
  = Some (map (fun k => nth_error (va_tokens v) k) (seq 0 n)).
Proof.
  eexists. intros f Hf. apply (calls_good va_next va_rem va_w va_next_rem). exact Hf.
Qed.

Lemma expr_calls n e : exists F, forall f, F <= f ->
  calls (expr_next f) n (expression_iter e)
  = Some (map (fun k => nth_error (expr_tokens e) k) (seq 0 n)).
Proof.
  eexists. intros f Hf.
  apply (calls_good expr_next expr_rem expr_w (fun f => proj1 (next_rem f))). exact Hf.
Qed.

Lemma assignment_calls n a : exists F, forall f, F <= f ->
  calls (assignment_next f) n (variable_assignment_iter a)
  = Some (map (fun k => nth_error (assignment_tokens a) k) (seq 0 n)).
Proof.
  eexists. intros f Hf.
  apply (calls_good assignment_next asg_rem asg_w assignment_next_rem). exact Hf.
Qed.

(** ** Ranges *)

(** Start of the first and end of the last token. *)
Definition spans (ts : list token) (r : position * position) : Prop :=
  (exists t rest, ts = t :: rest /\ fst r = r_start (tok_range t)) /\
  (exists t rest, ts = rest ++ [t] /\ snd r = r_end (tok_range t)).

Lemma identifier_spans i : spans (identifier_tokens i) (identifier_range i).
Proof.
  destruct i as [n [s|]]; split; cbn.
  - exists s, [n]. auto.
  - exists n, [s]. auto.
  - exists n, []. auto.
  - exists n, []. auto.
Qed.

Lemma va_spans v : spans (va_tokens v) (va_range v).
Proof.
  destruct v as [i acc]. unfold va_tokens, va_range; cbn [va_identifier va_accesses].
  destruct (identifier_spans i) as [(t & r & E & H1) (u & r' & E' & H2)].
  split; cbn [fst snd].
  - exists t, (r ++ flat_map slot_tokens acc). rewrite E. auto.
  - destruct acc as [|x acc _] using rev_ind.
    + cbn. exists u, r'. rewrite app_nil_r. auto.
    + rewrite rev_app_distr. cbn.
      destruct (identifier_spans (slot_identifier x)) as [_ (y & ry & Ey & H3)].
      exists y, (identifier_tokens i ++ flat_map slot_tokens acc ++ slot_access_token x :: ry).
      split; [|exact H3].
      rewrite flat_map_app. cbn. unfold slot_tokens at 2. rewrite Ey, app_nil_r.
      rewrite <- !app_assoc. reflexivity.
Qed.

Lemma spans_app_r (ts us : list token) p r :
  spans us r -> (exists t rest, ts = t :: rest /\ p = r_start (tok_range t)) ->
  spans (ts ++ us) (p, snd r).
Proof.
  intros [_ (u & ru & -> & H2)] (t & rest & -> & H1). split; cbn [fst snd].
  - exists t, (rest ++ ru ++ [u]). auto.
  - exists u, ((t :: rest) ++ ru). rewrite app_assoc. auto.
Qed.

Lemma expr_spans e : spans (expr_tokens e) (expr_range e).
Proof.
  induction e as [l o r an IHl IHr|o e IH|o es mkay IH|v] using expr_ind'.
  - cbn [expr_tokens expr_range].
    replace (binary_opt_token o :: expr_tokens l ++ opt_token an ++ expr_tokens r)
      with ((binary_opt_token o :: expr_tokens l ++ opt_token an) ++ expr_tokens r)
      by (cbn; rewrite <- app_assoc; reflexivity).
    apply spans_app_r; [exact IHr|]. eexists _, _; split; reflexivity.
  - cbn [expr_tokens expr_range].
    apply (spans_app_r [_]); [exact IH|]. eexists _, _; split; reflexivity.
  - cbn [expr_tokens expr_range]. destruct mkay as [m|].
    + rewrite app_comm_cons. cbn [opt_token].
      apply (spans_app_r (_ :: _) [m] _ (r_start (tok_range m), r_end (tok_range m))).
      * split; [exists m, []|exists m, []]; auto.
      * eexists _, _; split; reflexivity.
    + cbn [opt_token]. rewrite app_nil_r. split; cbn [fst snd].
      * eexists _, _; split; reflexivity.
      * destruct es as [|x es _] using rev_ind.
        -- exists (nary_opt_token o), []. auto.
        -- apply Forall_app in IH as [_ IH]. apply Forall_inv in IH.
           destruct x as [e an]. cbn [operand_expr] in IH.
           set (g := fix last_end (es : list operand) : position :=
             match es with
             | [] => r_end (tok_range (nary_opt_token o))
             | [Operand x an] =>
               match an with
               | Some t => r_end (tok_range t)
               | None => snd (expr_range x)
               end
             | _ :: es' => last_end es'
             end).
           assert (Hg : g (es ++ [Operand e an]) = g [Operand e an]).
           { induction es as [|y es IHes]; [reflexivity|]. cbn [app].
             rewrite <- IHes. destruct y, es; reflexivity. }
           rewrite Hg. rewrite flat_map_app. cbn [flat_map g]. rewrite app_nil_r.
           destruct an as [t|]; cbn [opt_token].
           ++ eexists t, _. split; [|reflexivity]. rewrite app_assoc, app_comm_cons. reflexivity.
           ++ rewrite app_nil_r. destruct IH as [_ (u & ru & -> & H2)].
              eexists u, _. split; [|exact H2]. rewrite app_assoc, app_comm_cons. reflexivity.
  - destruct v as [v|t]; cbn [expr_tokens expr_range value_tokens value_range].
    + apply va_spans.
    + split; [exists t, []|exists t, []]; auto.
Qed.

Lemma assignment_spans a : spans (assignment_tokens a) (assignment_range a).
Proof.
  destruct a as [v e r]. unfold assignment_tokens, assignment_range; cbn.
  replace (va_tokens v ++ r :: expr_tokens e) with ((va_tokens v ++ [r]) ++ expr_tokens e)
    by (rewrite <- app_assoc; reflexivity).
  apply spans_app_r; [apply expr_spans|].
  destruct (va_spans v) as [(t & rest & -> & H1) _].
  exists t, (rest ++ [r]). auto.
Qed.
