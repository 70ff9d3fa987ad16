(** One line of a source: proofs for C66. *)
From Coq Require Import Lia.
From Verif Require Import Lines LinesSim ParseFuel ParserProps LexSpec LexProofs LexPropSpec LexProps LexProps2 Relabel RelabelProofs Api SourceJoin
  SourceProofs LineEffectProofs ProgGrammar Grammar Clean Recovery.
From Verif Require Export SourceEdit.
Local Open Scope Z_scope.

Lemma drop_kind t : tok_kind (drop_offsets t) = tok_kind t.
Proof. reflexivity. Qed.
Lemma placed_kind b t : tok_kind (drop_offsets (shift_token b t)) = tok_kind t.
Proof. reflexivity. Qed.

Lemma shift_start t : shift_token position_start t = t.
Proof.
  destruct t as [ty [p q]]. unfold shift_token, shift_range, LexPropSpec.shift. cbn [tok_type tok_range r_start r_end].
  assert (H : forall p, {| line := line position_start + (line p - 1);
     column := if line p =? 1 then column position_start + (column p - 1) else column p;
     bytes := bytes position_start + bytes p; chars := chars position_start + chars p |} = p).
  { intros [l c b h]. unfold position_start. cbn [line column bytes chars]. destruct (l =? 1); f_equal; lia. }
  rewrite !H. reflexivity.
Qed.
Lemma pos_at_nil : pos_at [] [] = position_start.
Proof. reflexivity. Qed.

(** The position after whole lines is the start of a line. *)
Lemma whole_column s ts : whole_lines s ts -> column (pos_at ts s) = 1.
Proof.
  intros [[-> ->]|(s0 & -> & E & HF & _)]; [reflexivity|].
  apply tokenize_ok_iff in E as (ps & HL & ->).
  pose proof (LexesTo_wf _ _ _ HL) as Hwf. pose proof (LexesTo_text _ _ _ HL) as Ht.
  rewrite app_nil_r in Ht. symmetry in Ht.
  assert (Hws : ws newline) by (unfold ws, newline; lia).
  destruct (last_gap_split _ _ _ Hwf Ht Hws HF) as (ps0 & -> & Ht0).
  rewrite <- Ht. pose proof (pos_after_at (ps0 ++ [Gap newline]) []) as HB. rewrite app_nil_r in HB.
  rewrite <- HB by exact Hwf. rewrite pos_after_gap by assumption. reflexivity.
Qed.

(** Whole lines before any source. *)
Lemma whole_then s ts more us : whole_lines s ts -> tokenize more = LexOk us ->
  tokenize (s ++ more) = LexOk (ts ++ map (shift_token (pos_at ts s)) us) /\
  statements (ts ++ map (shift_token (pos_at ts s)) us) =
  statements ts ++ map (map (shift_token (pos_at ts s))) (statements us).
Proof.
  intros [[-> ->]|(s0 & -> & E & HF & HE)] EM.
  - rewrite pos_at_nil. cbn [app].
    rewrite (map_ext _ (fun t => t) shift_start), map_id.
    rewrite (map_ext _ (fun l => l)), map_id; [auto|].
    intros l. rewrite (map_ext _ (fun t => t) shift_start). apply map_id.
  - pose proof (tokenize_compositional s0 newline more ts (or_intror eq_refl) E HF) as ET.
    pose proof (prefix_lines s0 ts E HF) as HPL.
    set (b := pos_at ts (s0 ++ [newline])) in *. rewrite EM in ET.
    rewrite <- app_assoc. cbn [app]. split; [exact ET|].
    rewrite <- statements_shift. apply statements_app.
    intros ts0 t u us0 E1 E2. destruct us as [|v us]; [discriminate|]. cbn [map] in E2. injection E2 as <- _.
    unfold joined. rewrite (HE _ _ E1).
    assert (Hlt : (tok_line t < line b)%Z).
    { rewrite Forall_forall in HPL. apply HPL. rewrite E1. apply in_or_app. right. left. reflexivity. }
    pose proof (first_lines _ _ EM) as HV. inversion HV as [|? ? HV1 _]; subst.
    assert (Hne : (tok_line t =? tok_line (shift_token b v))%Z = false).
    { apply Z.eqb_neq. unfold tok_line in *. unfold shift_token, shift_range, LexPropSpec.shift.
      cbn [tok_range r_start line]. lia. }
    rewrite Hne. cbn [orb]. apply Bool.andb_false_r.
Qed.

Lemma one_nonempty s l : one_line s l -> l <> [].
Proof. intros (_ & H & _) ->. discriminate. Qed.
Lemma one_no_comma s l : one_line s l -> Forall (fun t => is_comma t = false) l.
Proof.
  intros (_ & H & _). unfold statements in H.
  destruct (filter (fun g => negb (existsb is_comma g)) (chunks l)) as [|g gs] eqn:E; [discriminate|].
  cbn [map] in H. injection H as H _. rewrite <- H.
  assert (HI : In g (filter (fun g => negb (existsb is_comma g)) (chunks l))) by (rewrite E; left; reflexivity).
  apply filter_In in HI as [_ HI]. apply Bool.negb_true_iff in HI.
  apply Forall_forall. intros t Ht. apply filter_In in Ht as [Ht _].
  destruct (is_comma t) eqn:Et; [|reflexivity].
  assert (existsb is_comma g = true) by (apply existsb_exists; eauto). congruence.
Qed.

(** The lines before the edited line. *)
Definition before (tp : list token) : list (list token) :=
  match tp with t :: _ => if is_comma t then [[]] else [] | [] => [] end ++ statements tp.

(** The lines of a source around one of its lines. *)
Lemma source_lines p tp m l s us : whole_lines p tp -> one_line m l -> tokenize s = LexOk us ->
  exists ts, tokenize (p ++ m ++ s) = LexOk ts /\
    logical_lines ts = before tp ++ map (shift_token (pos_at tp p)) l ::
                       map (map (fun t => shift_token (pos_at tp p) (shift_token (pos_at l m) t))) (statements us).
Proof.
  intros Hp Hm Es.
  destruct (whole_then m l s us (proj1 Hm) Es) as (E1 & E2).
  destruct (whole_then p tp (m ++ s) _ Hp E1) as (E3 & E4).
  eexists. split; [exact E3|].
  set (b := pos_at tp p) in *. set (c := pos_at l m) in *.
  assert (E5 : statements (tp ++ map (shift_token b) (l ++ map (shift_token c) us)) =
    statements tp ++ map (shift_token b) l :: map (map (fun t => shift_token b (shift_token c t))) (statements us)).
  { rewrite E4, E2, (proj1 (proj2 Hm)). cbn [app map]. rewrite map_map. do 2 f_equal. apply map_ext. intros g. apply map_map. }
  unfold logical_lines, before. destruct tp as [|t tp].
  - cbn [app] in *. pose proof (one_nonempty _ _ Hm) as Hn. pose proof (one_no_comma _ _ Hm) as Hc.
    destruct l as [|v l]; [contradiction|]. inversion Hc as [|? ? Hv _]; subst. cbn [app map] in *.
    change (is_comma (shift_token b v)) with (is_comma v). rewrite Hv. exact E5.
  - cbn [app] in *. destruct (is_comma t); rewrite E5; reflexivity.
Qed.

(** Up to offsets, the lines after the edited line do not depend on it. *)
Lemma after_line m l b t : one_line m l ->
  drop_offsets (shift_token b (shift_token (pos_at l m) t)) =
  drop_offsets (shift_token b (shift_token (mkPos 2 1 0 0) t)).
Proof.
  intros (Hw & _ & Hl). pose proof (whole_column _ _ Hw) as Hc.
  unfold drop_offsets, no_offsets, shift_token, shift_range, LexPropSpec.shift. cbn [tok_type tok_range r_start r_end line column].
  rewrite Hl, Hc. reflexivity.
Qed.

Lemma api_map code ts : tokenize code = LexOk ts ->
  map_api drop_offsets (tokenize_and_parse code) = api_of (parse_logical (map (map drop_offsets) (logical_lines ts))).
Proof.
  intros E. rewrite (parse_logical_map _ drop_kind), <- parse_logical_lines. unfold tokenize_and_parse. rewrite E.
  destruct (parse ts); reflexivity.
Qed.

Definition after (b : position) (us : list token) : list (list token) :=
  map (placed b) (map (map (shift_token (mkPos 2 1 0 0))) (statements us)).

Lemma source_result p tp m l s us : whole_lines p tp -> one_line m l -> tokenize s = LexOk us ->
  map_api drop_offsets (tokenize_and_parse (p ++ m ++ s)) =
  api_of (parse_logical (map (map drop_offsets) (before tp) ++ placed (pos_at tp p) l :: after (pos_at tp p) us)).
Proof.
  intros Hp Hm Es. destruct (source_lines _ _ _ _ _ _ Hp Hm Es) as (ts & E1 & E2).
  rewrite (api_map _ _ E1), E2, map_app. cbn [map]. do 3 f_equal. f_equal.
  - unfold placed. apply map_map.
  - unfold after, placed. rewrite !map_map. apply map_ext. intros g. rewrite !map_map. apply map_ext. intros t.
    apply (after_line _ _ _ _ Hm).
Qed.

Lemma begins_map (P : token -> Prop) f l : (forall t, P (f t) <-> P t) -> begins P (map f l) <-> begins P l.
Proof.
  intros H. unfold begins. destruct l as [|t l]; cbn [map].
  - split; intros (? & ? & ? & _); discriminate.
  - split; intros (u & c & E & Hu); injection E as <- <-; do 2 eexists; (split; [reflexivity|]); apply H; exact Hu.
Qed.
Lemma plain_placed b l : plain (placed b l) <-> plain l.
Proof.
  unfold plain, placed. split; intros (H1 & H2 & H3); (split; [|split]).
  - intros ->. apply H1. reflexivity.
  - intros H. apply H2. apply begins_map; [reflexivity|exact H].
  - intros k H. apply (H3 k). apply begins_map; [destruct k; reflexivity|exact H].
  - destruct l; [contradiction|discriminate].
  - intros H. apply H2. apply begins_map in H; [exact H|reflexivity].
  - intros k H. apply (H3 k). apply begins_map in H; [exact H|destruct k; reflexivity].
Qed.

Theorem source_line_effect p tp s us : whole_lines p tp -> tokenize s = LexOk us ->
  exists u f, answer f /\
  forall m l x, one_line m l -> plain l -> gives u (placed (pos_at tp p) l) x ->
    map_api drop_offsets (tokenize_and_parse (p ++ m ++ s)) = api_of (f x).
Proof.
  intros Hp Es.
  destruct (line_effect_logical (map (map drop_offsets) (before tp)) (after (pos_at tp p) us)) as (u & f & Hf & H).
  exists u, f. split; [exact Hf|]. intros m l x Hm Hl Hx.
  rewrite (source_result _ _ _ _ _ _ Hp Hm Es), (H _ x); [reflexivity|now apply plain_placed|exact Hx].
Qed.

Theorem edit_source_line p tp s us m l b : whole_lines p tp -> tokenize s = LexOk us ->
  one_line m l -> plain l ->
  tokenize_and_parse (p ++ m ++ s) = ApiOk b -> block_clean b = true ->
  (exists h n, context h /\ d_line (placed (pos_at tp p) l) n /\ map_block drop_offsets b = ASTBlock (h [n]) /\
     forall m' l' n', one_line m' l' -> d_line (placed (pos_at tp p) l') n' ->
       map_api drop_offsets (tokenize_and_parse (p ++ m' ++ s)) = ApiOk (ASTBlock (h [n'])) /\
       block_clean (ASTBlock (h [n'])) = true) \/
  (forall m' l', one_line m' l' -> plain l' ->
     map_api drop_offsets (tokenize_and_parse (p ++ m' ++ s)) = ApiOk (map_block drop_offsets b)).
Proof.
  intros Hp Es Hm Hl Hb Hc. pose proof (source_result _ _ _ _ _ _ Hp Hm Es) as E. rewrite Hb in E.
  cbn [map_api] in E.
  destruct (parse_logical _) as [b'|c|] eqn:EP in E; try discriminate. injection E as <-.
  assert (Hc' : block_clean (map_block drop_offsets b) = true) by (destruct b as [ns]; change (forallb node_clean (map (map_node drop_offsets) ns) = true); rewrite clean_map_all; exact Hc).
  destruct (edit_line_logical _ _ _ _ EP Hc' (proj2 (plain_placed _ _) Hl)) as [(h & n & Hh & Hd & E & H)|H]; [left; exists h, n|right].
  - repeat split; auto; intros; [|eapply (H _ _ H1)].
    rewrite (source_result _ _ _ _ _ _ Hp H0 Es). rewrite (proj1 (H _ _ H1)). reflexivity.
  - intros m' l' Hm' Hl'. rewrite (source_result _ _ _ _ _ _ Hp Hm' Es), (H _ (proj2 (plain_placed _ _) Hl')). reflexivity.
Qed.

(** A way to show that a text is whole lines. *)
Lemma whole_check s0 ts : tokenize (s0 ++ [newline]) = LexOk ts ->
  forallb (fun t => bytes (end_of t) <=? Z.of_nat (byte_len s0)) ts = true ->
  match rev ts with t :: _ => is_ellipsis t | [] => false end = false ->
  whole_lines (s0 ++ [newline]) ts.
Proof.
  intros E HF HE. right. exists s0. repeat split; auto.
  - apply Forall_forall. intros t Ht. rewrite forallb_forall in HF. specialize (HF t Ht). cbv beta in HF. lia.
  - intros ts0 t ->. rewrite rev_app_distr in HE. exact HE.
Qed.
