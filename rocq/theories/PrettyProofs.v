(** The texts written by [{:#?}] identify what they are written for. *)
From Coq Require Import String.
From Verif Require Import EqSpec EqFacts LexSpec DisplayProofs AstTokens DebugProofs DebugAst.
From Verif Require Export Pretty DebugSpec.
Local Open Scope list_scope.

(** ** Indented texts *)

(** Empty, or ending with a line feed. *)
Definition whole (s : str) : Prop := s = [] \/ exists q, s = q ++ [10%N].
Lemma whole_tail c s : whole (c :: s) -> s <> [] -> whole s.
Proof.
  intros [H|[[|d q] H]] N; [discriminate H| |].
  - injection H as -> ->. contradiction.
  - injection H as -> ->. right. eauto.
Qed.
Lemma whole_end c s : whole (c :: s) -> s = [] -> c = 10%N.
Proof. intros [H|[[|d q] H]] ->; try discriminate H; [injection H as ->; reflexivity|]. injection H as _ H. destruct q; discriminate H. Qed.
Lemma whole_app a b : whole a -> whole b -> whole (a ++ b).
Proof.
  intros [->|[q ->]] [->|[q' ->]]; [left; reflexivity|right; exists q'; reflexivity|right; exists q; apply app_nil_r|].
  right. exists ((q ++ [10%N]) ++ q'). rewrite !app_assoc. reflexivity.
Qed.
Lemma pad_app a : forall b f, a <> [] \/ f = true -> whole a -> pad f (a ++ b) = pad f a ++ pad true b.
Proof.
  induction a as [|c a IH]; intros b f N H.
  - destruct N as [N| ->]; [contradiction|reflexivity].
  - cbn [app pad]. rewrite <- app_assoc. cbn [app]. f_equal. f_equal. destruct a as [|d a].
    + rewrite (whole_end _ _ H eq_refl). reflexivity.
    + apply IH; [left; discriminate|]. eapply whole_tail; [exact H|discriminate].
Qed.
(** An indented text ends before the first line that is not indented. *)
Definition flush (r : str) : Prop := match r with [] => True | c :: _ => c <> 32%N end.
Lemma pad_split s : forall s' f r r', whole s -> whole s' -> (f = true \/ s <> [] /\ s' <> []) -> flush r -> flush r' ->
  pad f s ++ r = pad f s' ++ r' -> s = s' /\ r = r'.
Proof.
  induction s as [|c s IH]; intros [|c' s'] f r r' H H' Hf Hr Hr' E; cbn [pad app] in E.
  - auto.
  - exfalso. destruct Hf as [->|[F _]]; [|contradiction]. subst r. cbn in Hr. congruence.
  - exfalso. destruct Hf as [->|[_ F]]; [|contradiction]. subst r'. cbn in Hr'. congruence.
  - rewrite <- !app_assoc in E. apply app_inv_head in E. cbn [app] in E. injection E as <- E.
    destruct (list_eq_dec N.eq_dec s []) as [S|S], (list_eq_dec N.eq_dec s' []) as [S'|S'].
    + subst. cbn [pad app] in E. auto.
    + exfalso. rewrite (whole_end _ _ H S), S in E. subst s. destruct s' as [|d s']; [contradiction|]. cbn in E. subst r. cbn in Hr. congruence.
    + exfalso. rewrite (whole_end _ _ H' S'), S' in E. subst s'. destruct s as [|d s]; [contradiction|]. cbn in E. subst r'. cbn in Hr'. congruence.
    + apply IH in E as [-> ->]; auto; eapply whole_tail; eassumption.
Qed.
Lemma entries_pad {T} (f : T -> str) l :
  flat_map (fun x => entry (f x)) l = pad true (flat_map (fun x => f x ++ lit "," ++ [10%N]) l).
Proof.
  induction l as [|x l IH]; [reflexivity|]. cbn [flat_map]. rewrite IH. unfold entry.
  rewrite (pad_app (f x ++ lit "," ++ [10%N])); [reflexivity|auto|]. right. exists (f x ++ lit ","). rewrite app_assoc. reflexivity.
Qed.
Lemma entries_whole {T} (f : T -> str) l : whole (flat_map (fun x => f x ++ lit "," ++ [10%N]) l).
Proof.
  induction l as [|x l IH]; [left; reflexivity|]. cbn [flat_map]. apply whole_app; [|exact IH].
  right. exists (f x ++ lit ","). rewrite app_assoc. reflexivity.
Qed.

Section Texts.
  Variable shown : char -> bool.
  Notation pretty := (Pretty.pretty shown).
  (** What follows a value: the end of the text or a comma. *)
  Definition ends (r : str) : Prop := match r with [] => True | c :: _ => c = 44%N end.
  Lemma ends_stops r : ends r -> stops r.
  Proof. destruct r; [trivial|]. cbn. auto. Qed.
  Notation field := (fun fx : string * dbg => lit (fst fx) ++ lit ": " ++ pretty (snd fx)).
  Definition unique (x : dbg) : Prop :=
    wf x -> forall y r r', wf y -> ends r -> ends r' -> pretty x ++ r = pretty y ++ r' -> x = y /\ r = r'.

  Lemma pretty_first x : wf x -> exists c r, pretty x = c :: r /\ first_ok x c.
  Proof.
    intros H. destruct H as [s H|n x H _|n fs H _|xs _|s|t H|t x H _]; cbn [Pretty.pretty first_ok].
    - apply plain_first. assumption.
    - destruct (plain_first _ H) as (c & r & -> & Hc). cbn [app]. eauto.
    - destruct (plain_first _ H) as (c & r & -> & Hc). cbn [app]. eauto.
    - destruct xs; eexists _, _; split; reflexivity.
    - eexists _, _. split; reflexivity.
    - destruct (range_first t H) as [r ->]. eauto.
    - destruct (range_first t H) as [r ->]. cbn [app]. eauto.
  Qed.
  Lemma first_not_end x c r : first_ok x c -> ~ ends (c :: r).
  Proof. intros H E. cbn in E. subst c; destruct x; cbn in H; discriminate H. Qed.
  Lemma kinds x y r r' : wf x -> wf y -> pretty x ++ r = pretty y ++ r' -> exists c, first_ok x c /\ first_ok y c.
  Proof.
    intros Hx Hy E. destruct (pretty_first x Hx) as (c & q & E1 & H1), (pretty_first y Hy) as (d & q' & E2 & H2).
    rewrite E1, E2 in E. injection E as -> _. eauto.
  Qed.
  Lemma elements_split {T} (w : T -> Prop) (f : T -> str) : (forall x, w x -> f x <> []) ->
    forall xs, Forall (fun x => w x -> forall y r r', w y -> ends r -> ends r' -> f x ++ r = f y ++ r' -> x = y /\ r = r') xs ->
    Forall w xs -> forall ys, Forall w ys ->
    flat_map (fun x => f x ++ lit "," ++ [10%N]) xs = flat_map (fun x => f x ++ lit "," ++ [10%N]) ys -> xs = ys.
  Proof.
    intros Hf xs HU. induction HU as [|x xs Hx _ IH]; intros Hw ys Hw' E.
    - destruct ys as [|y ys]; [reflexivity|]. cbn [flat_map] in E. destruct (f y); discriminate E.
    - destruct ys as [|y ys]; cbn [flat_map] in E; [destruct (f x); discriminate E|].
      rewrite <- !app_assoc in E. inversion Hw; inversion Hw'; subst.
      apply Hx in E as [-> E]; auto; [|reflexivity|reflexivity]. injection E as E. f_equal. auto.
  Qed.
  (** A body of entries up to its closing character. *)
  Lemma body_split {T} (w : T -> Prop) (f : T -> str) (e : char) : e <> 32%N -> (forall x, w x -> f x <> []) ->
    forall xs, Forall (fun x => w x -> forall y r r', w y -> ends r -> ends r' -> f x ++ r = f y ++ r' -> x = y /\ r = r') xs ->
    Forall w xs -> forall ys r r', Forall w ys ->
    flat_map (fun x => entry (f x)) xs ++ e :: r = flat_map (fun x => entry (f x)) ys ++ e :: r' -> xs = ys /\ r = r'.
  Proof.
    intros He Hf xs HU Hw ys r r' Hw' E. rewrite !entries_pad in E.
    apply pad_split in E as [E1 E2]; auto using entries_whole. injection E2 as ->. split; [|reflexivity].
    eapply (elements_split w f); eassumption.
  Qed.
  Lemma field_split fx : unique (snd fx) -> DebugProofs.plain (lit (fst fx)) /\ wf (snd fx) ->
    forall fy r r', DebugProofs.plain (lit (fst fy)) /\ wf (snd fy) -> ends r -> ends r' -> field fx ++ r = field fy ++ r' -> fx = fy /\ r = r'.
  Proof.
    destruct fx as [f x]. cbn [fst snd]. intros U [[_ H1] H2] [g y] r r' [[_ H3] H4] Hr Hr' E. cbn [fst snd] in *.
    rewrite <- !app_assoc in E. apply name_split in E as [E1 E]; auto; try reflexivity.
    apply lit_inj in E1. subst g. injection E as E. apply U in E as [-> ->]; auto.
  Qed.
  Definition rest_text (x : dbg) : str :=
    match x with
    | DTuple _ x => lit "(" ++ [10%N] ++ entry (pretty x) ++ lit ")"
    | DStruct _ fs => lit " {" ++ [10%N] ++ flat_map (fun fx => entry (field fx)) fs ++ lit "}"
    | _ => []
    end.
  Lemma named_split x y r r' : named x -> named y -> wf x -> wf y -> ends r -> ends r' ->
    pretty x ++ r = pretty y ++ r' -> name_text x = name_text y /\ rest_text x ++ r = rest_text y ++ r'.
  Proof.
    intros Nx Ny Hx Hy Hr Hr' E.
    assert (P : forall x, named x -> pretty x = name_text x ++ rest_text x).
    { clear. intros [s|n x|n fs|xs|s|t|t x] H; try contradiction; cbn [Pretty.pretty name_text rest_text]; rewrite ?app_nil_r; reflexivity. }
    rewrite !P, <- !app_assoc in E by assumption.
    assert (Q : forall x, named x -> wf x -> forallb plainb (name_text x) = true).
    { clear. intros x N H. destruct H as [s H|n x H _|n fs H _|xs _|s|t H|t x H _]; try contradiction; apply H. }
    assert (F : forall x r, named x -> ends r -> ends_name (rest_text x ++ r)).
    { clear. intros [s|n x|n fs|xs|s|t|t x] r N H; try contradiction; cbn; [apply stops_ends, ends_stops; exact H|reflexivity|reflexivity]. }
    apply name_split in E; auto.
  Qed.
  Lemma pretty_list xs : pretty (DList xs) =
    lit "[" ++ match xs with [] => [] | _ => [10%N] ++ flat_map (fun x => entry (pretty x)) xs end ++ lit "]".
  Proof. destruct xs; reflexivity. Qed.
  Lemma pretty_nonempty x : wf x -> pretty x <> [].
  Proof. intros H. destruct (pretty_first x H) as (c & r & -> & _). discriminate. Qed.

  Theorem pretty_unique x : unique x.
  Proof.
    induction x as [s|n x IH|n fs IH|xs IH|s|t|t x IH] using dbg_ind'; intros Hx y r r' Hy Hr Hr' E;
      pose proof (kinds _ _ _ _ Hx Hy E) as (c & K1 & K2); cbn in K1.
    - assert (N : named y) by (destruct y; cbn in K2; try exact I; subst; discriminate K1).
      apply named_split in E as [E1 E2]; auto; [|exact I].
      destruct y as [s'|n' y|n' fs'|xs'|s'|t'|t' y]; try contradiction; cbn [name_text rest_text app] in *.
      + subst. auto.
      + exfalso. rewrite E2 in Hr. discriminate Hr.
      + exfalso. rewrite E2 in Hr. discriminate Hr.
    - assert (N : named y) by (destruct y; cbn in K2; try exact I; subst; discriminate K1).
      apply named_split in E as [E1 E2]; auto; [|exact I].
      destruct y as [s'|n' y|n' fs'|xs'|s'|t'|t' y]; try contradiction; cbn [name_text rest_text app] in *.
      + exfalso. rewrite <- E2 in Hr'. discriminate Hr'.
      + apply lit_inj in E1. subst n'. rewrite <- !app_assoc in E2. injection E2 as E2.
        inversion Hx; inversion Hy; subst.
        destruct (body_split wf pretty 41%N ltac:(discriminate) pretty_nonempty [x] (Forall_cons _ IH (Forall_nil _))
                    (Forall_cons _ H2 (Forall_nil _)) [y] r r' (Forall_cons _ H6 (Forall_nil _))) as [F ->].
        { cbn [flat_map]. rewrite !app_nil_r. rewrite <- !app_assoc in E2. exact E2. }
        injection F as ->. auto.
      + discriminate E2.
    - assert (N : named y) by (destruct y; cbn in K2; try exact I; subst; discriminate K1).
      apply named_split in E as [E1 E2]; auto; [|exact I].
      destruct y as [s'|n' y|n' fs'|xs'|s'|t'|t' y]; try contradiction; cbn [name_text rest_text app] in *.
      + exfalso. rewrite <- E2 in Hr'. discriminate Hr'.
      + discriminate E2.
      + apply lit_inj in E1. subst n'. rewrite <- !app_assoc in E2. injection E2 as E2. rewrite <- !app_assoc in E2.
        inversion Hx; inversion Hy; subst.
        apply (body_split (fun fx => DebugProofs.plain (lit (fst fx)) /\ wf (snd fx)) field 125%N) in E2 as [-> ->]; auto.
        * discriminate.
        * intros fx [H _]. destruct (plain_first _ H) as (d & q & F & Hd). rewrite F. discriminate.
        * eapply Forall_impl; [|exact IH]. intros fx U. apply field_split. exact U.
    - destruct y as [s'|n' y|n' fs'|xs'|s'|t'|t' y]; cbn in K2; subst c; try discriminate.
      rewrite !pretty_list, <- !app_assoc in E. injection E as E. inversion Hx; inversion Hy; subst.
      destruct xs as [|x xs], xs' as [|x' xs']; try discriminate E.
      + injection E as ->. auto.
      + cbn [app] in E. injection E as E.
        assert (F : flat_map (fun x => entry (pretty x)) (x :: xs) ++ 93%N :: r = flat_map (fun x => entry (pretty x)) (x' :: xs') ++ 93%N :: r').
        { cbn [flat_map]. rewrite <- ?app_assoc in *. exact E. }
        apply (body_split wf pretty 93%N ltac:(discriminate) pretty_nonempty) in F as [F ->]; auto. rewrite F. auto.
    - destruct y as [s'|n' y|n' fs'|xs'|s'|t'|t' y]; cbn in K2; subst c; try discriminate.
      cbn [Pretty.pretty] in E. apply string_split in E as [-> ->]. auto.
    - destruct y as [s'|n' y|n' fs'|xs'|s'|t'|t' y]; cbn in K2; subst c; try discriminate; cbn [Pretty.pretty] in E;
        inversion Hx; inversion Hy; subst; rewrite <- ?app_assoc in E; apply range_split in E as [-> E]; auto.
      exfalso. destruct (print_first shown y) as (d & q & F & Hd); [assumption|]. rewrite F in E. subst r.
        revert Hr. eapply first_not_end. exact Hd.
    - destruct y as [s'|n' y|n' fs'|xs'|s'|t'|t' y]; cbn in K2; subst c; try discriminate; cbn [Pretty.pretty] in E;
        inversion Hx; inversion Hy; subst; rewrite <- ?app_assoc in E; apply range_split in E as [-> E]; auto.
      + exfalso. destruct (print_first shown x) as (d & q & F & Hd); [assumption|]. rewrite F in E. subst r'.
        revert Hr'. eapply first_not_end. exact Hd.
      + apply (print_unique shown) in E as [-> E]; auto; [|cbn; auto|cbn; auto]. injection E as ->. auto.
  Qed.
  Corollary pretty_inj x y : wf x -> wf y -> pretty x = pretty y -> x = y.
  Proof.
    intros Hx Hy E. apply (pretty_unique x Hx y [] []); try exact I; [assumption|]. rewrite E. reflexivity.
  Qed.
  (** Both formats identify the same. *)
  Corollary formats x y : wf x -> wf y -> pretty x = pretty y <-> Debug.print shown x = Debug.print shown y.
  Proof.
    intros Hx Hy. split; intros E.
    - apply pretty_inj in E; auto. congruence.
    - apply print_inj in E; auto. congruence.
  Qed.
End Texts.

Section Trees.
  Variable float_text : spec_float -> str.
  Hypothesis FT : float_texts float_text.
  Variable shown : char -> bool.
  Notation f := drop_offsets.
  Lemma pretties_iff {T} (d : T -> dbg) g : (forall x, good d g x) ->
    forall x y, pretty shown (d x) = pretty shown (d y) <-> g x = g y.
  Proof.
    intros G x y. destruct (G x) as [W H]. rewrite <- (H y). split; [|congruence].
    apply pretty_inj; [exact W|apply G].
  Qed.
  Theorem token_pretty_iff t u : token_pretty shown float_text t = token_pretty shown float_text u <-> f t = f u.
  Proof. apply (pretties_iff _ f (tok_good float_text FT)). Qed.
  Theorem tokens_pretty_iff l l' : tokens_pretty shown float_text l = tokens_pretty shown float_text l' <-> map f l = map f l'.
  Proof. apply (pretties_iff _ _ (fun l => list_good' _ f l (tok_good float_text FT))). Qed.
  Theorem node_pretty_iff n n' : node_pretty shown float_text n = node_pretty shown float_text n' <-> map_node f n = map_node f n'.
  Proof. apply (pretties_iff _ _ (node_good float_text FT)). Qed.
  Theorem block_pretty_iff b b' : block_pretty shown float_text b = block_pretty shown float_text b' <-> map_block f b = map_block f b'.
  Proof. apply (pretties_iff _ _ (block_good float_text FT)). Qed.
  Theorem result_pretty_iff r r' : result_pretty shown float_text r = result_pretty shown float_text r' <->
    result_debug shown float_text r = result_debug shown float_text r'.
  Proof.
    apply formats.
    - destruct r as [b|[x]]; cbn [Debug.d_token_error]; wfs; [apply block_good; exact FT|apply wf_range; eexists; reflexivity].
    - destruct r' as [b|[x]]; cbn [Debug.d_token_error]; wfs; [apply block_good; exact FT|apply wf_range; eexists; reflexivity].
  Qed.
End Trees.
