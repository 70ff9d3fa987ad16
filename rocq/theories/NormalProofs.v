(** Proofs for C88. *)
From Coq Require Import String Lia ZArith.
From Verif Require Import LexProofs LexProps LexProps2 LexProps3 Lexer Parser StrFacts Relabel RelabelProofs Api Lines LinesSim ParseFuel
  SourceProofs Format FormatProofs ImageSpec ImageProofs PrintAstProofs.
From Verif Require Export Normal.
Local Open Scope Z_scope.
Local Open Scope list_scope.

(** ** After a single-line comment comes a new line *)
Definition single (ty : token_type) : bool := match ty with TCommentSingleLine _ => true | _ => false end.
Fixpoint apart (xs : list (token_type * Z)) : Prop :=
  match xs with
  | x :: ((y :: _) as r) => (single (fst x) = true -> snd x < snd y) /\ apart r
  | _ => True
  end.
Lemma apart_cons ty l xs : (single ty = true -> forall x, In x xs -> l < snd x) -> apart xs -> apart ((ty, l) :: xs).
Proof. intros H A. destruct xs as [|y xs]; [exact I|]. split; [|exact A]. intros E. apply (H E). left. reflexivity. Qed.
Lemma lexed_apart ps : forall code l, LexesTo code ps [] -> apart (plines l ps).
Proof.
  induction ps as [|x ps IH]; intros code l HL; [exact I|]. inversion HL as [|c code0 ps' rest Hw HL'|raw code0 ty ps' rest HT HL']; subst; cbn [plines].
  - eapply IH, HL'.
  - apply apart_cons; [|eapply IH, HL']. destruct ty; try discriminate. intros _ x Hx.
    rename HL' into HL0. inversion HT as [| |s0 r1 Hs Hr| | | | | | | | | | | |]; subst.
    inversion HL0 as [|c code1 ps' rest' Hw HL1|raw code1 ty1 ps' rest' HT1 HL1 E]; subst.
    + contradiction.
    + destruct Hr as [Hr|(c' & r & E & <-)]; [discriminate Hr|]. injection E as -> ->.
      cbn [plines] in Hx. apply plines_ge in Hx. change (N.eqb newline newline) with true in Hx. cbv iota in Hx. lia.
    + exfalso. destruct Hr as [Hr|(c' & r & E & <-)].
      * apply app_eq_nil in Hr as [-> _]. apply TokText_nonempty in HT1. contradiction.
      * destruct raw as [|z raw]; [apply TokText_nonempty in HT1; contradiction|].
        apply TokText_not_ws in HT1. apply HT1. rewrite E. exists newline, r. unfold ws, newline. auto.
Qed.
Lemma tokens_apart code ts : tokenize code = LexOk ts -> apart (map with_line ts).
Proof.
  intros E. apply tokenize_ok_iff in E as (ps & HL & ->). rewrite plines_spec. eapply lexed_apart, HL.
Qed.

(** ** So it is the last token of its line *)
Fixpoint last_only (l : list token) : Prop :=
  match l with
  | [] => True
  | t :: l' => (l' = [] \/ single (tok_type t) = false) /\ last_only l'
  end.
Lemma last_only_filter p l : last_only l -> last_only (filter p l).
Proof.
  induction l as [|t l IH]; intros H; [exact I|]. destruct H as [H1 H2]. cbn [filter]. destruct (p t); [|exact (IH H2)].
  split; [|exact (IH H2)]. destruct H1 as [->|H1]; [left; reflexivity|right; exact H1].
Qed.
Lemma chunks_last_only ts : apart (map with_line ts) -> Forall last_only (chunks ts).
Proof.
  induction ts as [|t ts IH]; intros A; [constructor|]. destruct ts as [|u ts].
  { constructor; [|constructor]. split; [left; reflexivity|exact I]. }
  destruct A as [A1 A2]. specialize (IH A2). destruct (chunks_cons t u ts) as (g & gs & Eg & Hg & ->).
  rewrite Eg in IH. destruct (joined t u) eqn:J.
  - apply Forall_cons_iff in IH as [I1 I2]. constructor; [|exact I2]. split; [|exact I1]. right.
    destruct (single (tok_type t)) eqn:S; [|reflexivity]. exfalso. specialize (A1 S). cbn [with_line snd] in A1.
    unfold joined, is_ellipsis in J. apply andb_prop in J as [_ J]. destruct (tok_type t); try discriminate S.
    cbn [orb] in J. apply Z.eqb_eq in J. unfold tok_line, start_of in *. lia.
  - constructor; [|exact IH]. split; [left; reflexivity|exact I].
Qed.
Lemma lines_last_only ts : apart (map with_line ts) -> Forall last_only (logical_lines ts).
Proof.
  intros A. assert (S : Forall last_only (statements ts)).
  { unfold statements. apply Forall_map. apply chunks_last_only in A. induction A as [|g gs Hg _ IH]; [constructor|].
    cbn [filter]. destruct (negb _); [constructor; [apply last_only_filter, Hg|exact IH]|exact IH]. }
  unfold logical_lines. destruct ts as [|t ts]; [constructor|]. destruct (is_comma t); [|exact S]. constructor; [exact I|exact S].
Qed.

(** ** Printing lines that end in single-line comments *)
Definition fits (w : token -> str) (t : token) : Prop :=
  Writes (tok_type t) (w t) /\ tok_type t <> TComma /\ tok_type t <> TEllipsis.

Section Print.
Variable w : token -> str.
Lemma fits_types t : fits w t -> comma_type (tok_type t) = false /\ ellipsis_type (tok_type t) = false.
Proof. intros (_ & H1 & H2). destruct (tok_type t); try congruence; auto. Qed.
Lemma cut_print' l : l <> [] -> Forall (fits w) l -> forall xs,
  exists g, cut (print_tokens w l ++ xs) = g :: cut xs /\ map printed_type g = map tok_type l.
Proof.
  induction l as [|t l IH]; intros Hl Hw xs; [congruence|]. clear Hl. apply Forall_cons_iff in Hw as [Ht Hw].
  pose proof (fits_types t Ht) as (Hc & He).
  destruct l as [|u l].
  - cbn [print_tokens app]. exists [(tok_type t, w t, eol)]. split; [|reflexivity].
    destruct xs as [|y xs]; [reflexivity|]. rewrite cut_cons.
    unfold same_statement. cbn [printed_type printed_sep fst snd]. rewrite He, andb_false_r. reflexivity.
  - destruct (IH ltac:(discriminate) Hw xs) as (g & Eg & Hg).
    exists ((tok_type t, w t, tab) :: g). split; [|cbn [map]; rewrite Hg; reflexivity].
    change (print_tokens w (t :: u :: l)) with ((tok_type t, w t, tab) :: print_tokens w (u :: l)).
    destruct (print_tokens_head w u l) as (sep & ys & E). rewrite E in *. cbn [app] in *.
    rewrite cut_cons, Eg. unfold same_statement. cbn [printed_type printed_sep fst snd].
    apply Forall_cons_iff in Hw as [Hu _]. pose proof (fits_types u Hu) as (Hcu & _).
    rewrite Hc, Hcu, orb_true_r. reflexivity.
Qed.
Lemma plain_line' l : Forall (fits w) l ->
  filter (fun ty => negb (ellipsis_type ty)) (map tok_type l) = map tok_type l /\
  existsb comma_type (map tok_type l) = false.
Proof.
  induction 1 as [|t l Ht _ (I1 & I2)]; [auto|]. destruct (fits_types t Ht) as (Hc & He). cbn. rewrite Hc, He, I1, I2. auto.
Qed.
Lemma cut_print_line' l xs : Forall (fits w) l -> cut_lines (print_line w l ++ xs) = map tok_type l :: cut_lines xs.
Proof.
  intros Hw. unfold cut_lines. destruct l as [|t l].
  - cbn [print_line app]. rewrite cut_cons. unfold same_statement at 1. cbn [printed_type fst comma_type negb andb].
    rewrite cut_comma by reflexivity. reflexivity.
  - destruct (cut_print' (t :: l) ltac:(discriminate) Hw xs) as (g & Eg & Hg).
    destruct (plain_line' _ Hw) as (H1 & H2). cbn [print_line]. rewrite Eg. cbn [filter].
    rewrite <- (existsb_map comma_type printed_type g), Hg, H2. cbn [negb map]. rewrite Hg, H1. reflexivity.
Qed.
Lemma printed_lines' ls : Forall (Forall (fits w)) ls -> printed_lines (flat_map (print_line w) ls) = map (map tok_type) ls.
Proof.
  intros H.
  assert (E : cut_lines (flat_map (print_line w) ls) = map (map tok_type) ls).
  { induction H as [|l ls H1 H IH]; [reflexivity|]. cbn [flat_map map]. rewrite cut_print_line' by assumption. rewrite IH. reflexivity. }
  unfold printed_lines. fold (cut_lines (flat_map (print_line w) ls)). rewrite E.
  destruct H as [|l ls H1 H]; [reflexivity|]. cbn [flat_map].
  assert (X : exists x xs, print_line w l = x :: xs /\ comma_type (printed_type x) = false).
  { destruct l as [|t l]; [cbn; eauto|]. destruct (print_tokens_head w t l) as (sep & xs & E'). cbn [print_line]. rewrite E'.
    do 2 eexists. split; [reflexivity|]. apply Forall_cons_iff in H1 as [Ht _]. apply fits_types, Ht. }
  destruct X as (x & xs & -> & Hx). cbn [app]. rewrite Hx. reflexivity.
Qed.
Lemma fits_ok t sep : fits w t -> sep = tab /\ single (tok_type t) = false \/ sep = eol -> printed_ok (tok_type t, w t, sep).
Proof.
  intros (HW & _) Hsep. split; [assumption|].
  split; [destruct Hsep as [[-> _]| ->]; discriminate|].
  split; [destruct Hsep as [[-> _]| ->]; [exact ws_tab|exact ws_eol]|].
  destruct (tok_type t); try exact I.
  - intros _. destruct Hsep as [[-> _]| ->]; (eexists _, _; split; [reflexivity|discriminate]).
  - destruct Hsep as [[_ X]| ->]; [discriminate X|]. eexists _, _. split; reflexivity.
Qed.
Lemma print_tokens_ok' l : Forall (fits w) l -> last_only l -> Forall printed_ok (print_tokens w l).
Proof.
  intros H. induction H as [|t l Ht H IH]; intros L; [constructor|]. destruct L as [L1 L2]. destruct l as [|u l].
  - constructor; [|constructor]. apply fits_ok; auto.
  - change (print_tokens w (t :: u :: l)) with ((tok_type t, w t, tab) :: print_tokens w (u :: l)).
    constructor; [|exact (IH L2)]. apply fits_ok; [assumption|]. left. split; [reflexivity|]. destruct L1 as [L1|L1]; [discriminate L1|exact L1].
Qed.
Lemma print_lines_ok ls : Forall (Forall (fits w)) ls -> Forall last_only ls -> Forall printed_ok (flat_map (print_line w) ls).
Proof.
  intros H. induction H as [|l ls H1 H IH]; intros L; [constructor|]. apply Forall_cons_iff in L as [L1 L2]. cbn [flat_map].
  apply Forall_app. split; [|exact (IH L2)]. destruct l as [|t l]; [|apply print_tokens_ok'; assumption].
  exact (print_line_ok w [] (Forall_nil _)).
Qed.
End Print.

(** ** The texts of the tokens of any source *)
Lemma ordinary_writes code ts t : tokenize code = LexOk ts -> In t ts -> ordinary (tok_type t) -> Writes (tok_type t) (type_text (tok_type t)).
Proof.
  intros E Hin HO. unfold ordinary in HO.
  destruct (tok_type t) as [s|k|s|[n|s|[|]|]|s|s| | | | |] eqn:Et; cbn [type_text]; try (constructor; fail).
  - destruct (LexProps2.identifier_tokens _ _ _ _ E Hin Et) as (a & b & _ & Hne & Hl & _ & Hk). constructor; auto.
    intros k (u & ->). apply (Hk k). exists (u ++ b). rewrite app_assoc. reflexivity.
  - constructor. intros Hk. exact (keywords_never_produced _ _ _ _ E Hin Hk Et).
  - destruct (token_tok_text _ _ _ E Hin) as (ps & a & raw & b & _ & _ & Hat & HT). rewrite Et in HT.
    inversion HT as [| | | | | | | | | | | | | |c rest H1 H2 H3 H4 H5 H6 H7 H8 H9 H10]; subst. constructor; auto.
  - destruct (number_tokens _ _ _ _ E Hin Et) as (a & raw & b & Hat & HN). change (Writes (TValue (VNumber n)) (type_text (TValue (VNumber n)))); apply (type_writes _ raw). destruct HN; constructor; assumption.
  - constructor; apply HO.
  - destruct (single_comment_tokens _ _ _ _ E Hin Et) as (a & b & _ & H & _). constructor. exact H.
  - destruct (multi_comment_tokens _ _ _ _ E Hin Et) as (a & b & _ & H). constructor. intros x y Ex.
    pose proof (H _ _ Ex). subst. apply app_inv_head in Ex. destruct y; [reflexivity|].
    apply (f_equal (@length _)) in Ex. rewrite app_length in Ex. cbn in Ex. lia.
  - destruct (no_question_mark _ _ _ E Hin Et).
Qed.
Lemma lines_fit code ts : tokenize code = LexOk ts -> Forall ordinary (map tok_type ts) -> Forall (Forall (fits w0)) (logical_lines ts).
Proof.
  intros E HO. apply Forall_forall. intros l Hl. apply Forall_forall. intros t Ht.
  assert (Hin : In t (concat (logical_lines ts))) by (apply in_concat; eauto).
  rewrite lines_tokens in Hin. apply filter_In in Hin as [Hts Hon]. rewrite Forall_forall in HO.
  split; [apply (ordinary_writes code ts); auto; apply HO, in_map, Hts|].
  split; intros X; unfold on_line, is_comma, is_ellipsis in Hon; rewrite X in Hon; discriminate.
Qed.

Lemma normal_types ts ts' : map (map tok_type) (logical_lines ts) = map (map tok_type) (logical_lines ts') -> normal ts = normal ts'.
Proof.
  intros E. assert (H : forall us, normal us = print_program w0 (map (map bare) (map (map tok_type) (logical_lines us)))).
  { intros us. unfold normal. fold w0. rewrite map_map. erewrite (map_ext _ (map erase)).
    - apply same_print; [reflexivity|]. apply Forall_forall. intros l _. apply Forall_forall. reflexivity.
    - intros l. rewrite map_map. reflexivity. }
  rewrite (H ts), (H ts'), E. reflexivity.
Qed.
Theorem normal_form code ts : tokenize code = LexOk ts -> Forall ordinary (map tok_type ts) ->
  exists ts', tokenize (normal ts) = LexOk ts' /\
    map (map tok_type) (logical_lines ts') = map (map tok_type) (logical_lines ts) /\
    map_api erase (tokenize_and_parse (normal ts)) = map_api erase (tokenize_and_parse code) /\
    normal ts' = normal ts.
Proof.
  intros E HO. pose proof (lines_fit code ts E HO) as HF. pose proof (lines_last_only ts (tokens_apart _ _ E)) as HL.
  destruct (print_lines [] (flat_map (print_line w0) (logical_lines ts)) (Forall_nil _) (print_lines_ok w0 _ HF HL)) as (ts' & E' & El).
  rewrite (printed_lines' w0 _ HF) in El. exists ts'. split; [exact E'|]. split; [exact El|]. split; [|apply normal_types, El].
  change ([] ++ print (flat_map (print_line w0) (logical_lines ts))) with (normal ts) in E'.
  pose proof (same_types _ _ El) as P. rewrite <- !parse_logical_lines in P. unfold tokenize_and_parse. rewrite E, E'.
  destruct (parse ts) as [b|c|], (parse ts') as [b'|c'|]; cbn [map_result] in P; try discriminate P; try reflexivity; cbn [map_api]; congruence.
Qed.
Theorem normal_iff code code' ts ts' : tokenize code = LexOk ts -> Forall ordinary (map tok_type ts) ->
  tokenize code' = LexOk ts' -> Forall ordinary (map tok_type ts') ->
  normal ts = normal ts' <-> map (map tok_type) (logical_lines ts) = map (map tok_type) (logical_lines ts').
Proof.
  intros E HO E' HO'. split; [|apply normal_types]. intros En.
  destruct (normal_form _ _ E HO) as (us & Eu & Lu & _), (normal_form _ _ E' HO') as (us' & Eu' & Lu' & _).
  rewrite En, Eu' in Eu. injection Eu as ->. congruence.
Qed.
Theorem ascii_ordinary code ts : ascii_str code -> ~ ends_with_colon code -> tokenize code = LexOk ts ->
  (forall t d, In t ts -> tok_type t = TSymbol [d] -> ~ digit d) -> Forall ordinary (map tok_type ts).
Proof.
  intros Ha Hc E HD. apply Forall_map, Forall_forall. intros t Hin. unfold ordinary. destruct (tok_type t) as [s|k|s|[n|s|[|]|]|s|s| | | | |] eqn:Et; try exact I.
  - destruct (token_tok_text _ _ _ E Hin) as (ps & a & raw & b & _ & _ & Hat & HT). rewrite Et in HT.
    inversion HT; subst. intros X. inversion X as [? ? Y|? ? Y]; subst; [exact (HD _ _ Hin Et Y)|inversion Y].
  - assert (W : Writes (tok_type t) (source_text code t)) by (apply (source_writes code ts); auto; unfold plain_version; rewrite Et; exact I).
    rewrite Et in W. inversion W; subst. auto.
Qed.
