(** Printed sources: their logical lines, and what [tokenize_and_parse] makes of
    them. *)
From Coq Require Import String Lia.
From Verif Require Import Lines LinesSim ParseFuel Grammar Clean ProgGrammar ProgComplete Api
  LexBasics LexProofs LexProps LexProps2.
From Verif Require Export SourceSpec.
From Verif Require Import RelabelProofs.

(** ** Lines of the tokens of a printed source *)

(** [ts] are tokens for [xs]: the types agree, and the lines of two neighbours
    differ exactly when the separator has a newline. *)
Fixpoint agree (ts : list token) (xs : list printed) : Prop :=
  match ts, xs with
  | [], [] => True
  | t :: ts', x :: xs' =>
    tok_type t = printed_type x /\
    match ts' with u :: _ => (tok_line t =? tok_line u)%Z = negb (breaks (printed_sep x)) | [] => True end /\
    agree ts' xs'
  | _, _ => False
  end.

Lemma is_comma_type t : is_comma t = comma_type (tok_type t).
Proof. unfold is_comma. destruct (tok_type t); reflexivity. Qed.
Lemma is_ellipsis_type t : is_ellipsis t = ellipsis_type (tok_type t).
Proof. unfold is_ellipsis. destruct (tok_type t); reflexivity. Qed.

Lemma cut_head x xs : exists g gs, cut (x :: xs) = (x :: g) :: gs.
Proof. cbn [cut]. destruct (cut xs) as [|[|y g] gs]; [eauto..|]. destruct (same_statement x y); eauto. Qed.

Lemma cut_cons x y xs : cut (x :: y :: xs) =
  if same_statement x y then match cut (y :: xs) with g :: gs => (x :: g) :: gs | [] => [] end
  else [x] :: cut (y :: xs).
Proof.
  destruct (cut_head y xs) as (g & gs & E).
  change (cut (x :: y :: xs)) with
    (match cut (y :: xs) with
     | (y :: g) :: gs => if same_statement x y then (x :: y :: g) :: gs else [x] :: (y :: g) :: gs | _ => [[x]] end).
  rewrite E. destruct (same_statement x y); reflexivity.
Qed.

Lemma agree_cut ts : forall xs, agree ts xs ->
  Forall2 (Forall2 (fun t x => tok_type t = printed_type x)) (chunks ts) (cut xs).
Proof.
  induction ts as [|t ts IH]; intros [|x xs] H; cbn [agree] in H; try contradiction; [constructor|].
  destruct H as (Et & El & H). specialize (IH xs H).
  destruct ts as [|u ts].
  - destruct xs; [|contradiction H]. repeat constructor; assumption.
  - destruct xs as [|y xs]; [contradiction H|]. destruct H as (Eu & _ & _).
    assert (J : joined t u = same_statement x y).
    { unfold joined, same_statement. rewrite !is_comma_type, is_ellipsis_type, Et, Eu, El. reflexivity. }
    destruct (chunks_cons t u ts) as (g & gs & Eg & _ & ->). rewrite cut_cons, J. rewrite Eg in IH.
    destruct (cut (y :: xs)) as [|c cs]; [inversion IH|].
    inversion IH as [|? ? ? ? H1 H2]; subst.
    destruct (same_statement x y); repeat constructor; auto.
Qed.

Lemma Forall2_types ts xs : Forall2 (fun t x => tok_type t = printed_type x) ts xs ->
  map tok_type ts = map printed_type xs.
Proof. intros H. induction H; cbn; congruence. Qed.

Lemma filter_types ts : map tok_type (filter (fun t => negb (is_ellipsis t)) ts) =
  filter (fun ty => negb (ellipsis_type ty)) (map tok_type ts).
Proof.
  induction ts as [|t ts IH]; [reflexivity|]. cbn. rewrite is_ellipsis_type.
  destruct (negb (ellipsis_type (tok_type t))); cbn; congruence.
Qed.
Lemma commas_types ts xs : map tok_type ts = map printed_type xs ->
  existsb is_comma ts = existsb (fun x => comma_type (printed_type x)) xs.
Proof.
  revert xs. induction ts as [|t ts IH]; intros [|x xs] H; cbn in *; try discriminate; [reflexivity|].
  injection H as H1 H2. rewrite is_comma_type, H1, (IH xs H2). reflexivity.
Qed.

Lemma agree_lines ts xs : agree ts xs -> map (map tok_type) (logical_lines ts) = printed_lines xs.
Proof.
  intros H. pose proof (agree_cut _ _ H) as HC.
  assert (E : map (map tok_type) (statements ts) =
    map (fun g => filter (fun ty => negb (ellipsis_type ty)) (map printed_type g))
      (filter (fun g => negb (existsb (fun x => comma_type (printed_type x)) g)) (cut xs))).
  { unfold statements. induction HC as [|g h gs hs H1 H2 IH]; [reflexivity|].
    apply Forall2_types in H1. cbn [filter]. rewrite (commas_types _ _ H1).
    destruct (negb _); cbn [map]; [|exact IH]. rewrite filter_types, H1, IH. reflexivity. }
  unfold logical_lines, printed_lines. destruct ts as [|t ts], xs as [|x xs]; try contradiction; [reflexivity|].
  destruct H as (Et & _). rewrite is_comma_type, Et.
  destruct (comma_type (printed_type x)); cbn [map app]; rewrite E; reflexivity.
Qed.

Lemma breaks_count before sep : length (filter is_break (before ++ map Gap sep)) =
  length (filter is_break before) + length (filter (N.eqb newline) sep).
Proof.
  rewrite filter_app, app_length. f_equal. induction sep as [|c sep IH]; [reflexivity|].
  cbn [map filter is_break]. rewrite (N.eqb_sym newline c). destruct (N.eqb c newline); cbn [length]; congruence.
Qed.
Lemma breaks_zero sep : breaks sep = false <-> length (filter (N.eqb newline) sep) = 0.
Proof.
  unfold breaks. induction sep as [|c sep IH]; [tauto|]. cbn [existsb filter].
  destruct (N.eqb newline c); cbn [orb length]; [split; discriminate|exact IH].
Qed.

Lemma agree_printed xs : forall before, agree (tokens_after before (printed_pieces xs)) xs.
Proof.
  induction xs as [|[[ty raw] sep] xs IH]; intros before; [exact I|].
  unfold printed_pieces. cbn [map concat]. fold (printed_pieces xs). cbn [app tokens_after].
  rewrite tokens_after_gaps. cbn [agree]. split; [reflexivity|]. split; [|apply IH].
  destruct xs as [|[[ty' raw'] sep'] xs]; [exact I|].
  unfold printed_pieces. cbn [map concat]. fold (printed_pieces xs). cbn [app tokens_after].
  unfold tok_line. cbn [tok_range r_start pos_after line printed_sep snd].
  rewrite breaks_count. rewrite (filter_app is_break before). cbn [filter is_break]. rewrite app_nil_r.
  pose proof (breaks_zero sep) as HB. destruct (breaks sep); cbn [negb].
  - apply Z.eqb_neq. destruct (length (filter (N.eqb newline) sep)); [|lia].
    discriminate (proj2 HB eq_refl).
  - rewrite (proj1 HB eq_refl). apply Z.eqb_eq. lia.
Qed.

Theorem print_lines gap xs : Forall ws gap -> Forall printed_ok xs ->
  exists ts, tokenize (gap ++ print xs) = LexOk ts /\ map (map tok_type) (logical_lines ts) = printed_lines xs.
Proof.
  intros Hg H. eexists. split.
  - apply tokenize_ok_iff. exists (map Gap gap ++ printed_pieces xs). split; [|reflexivity].
    apply LexesTo_gaps; [assumption|]. apply print_lexes, H.
  - apply agree_lines. rewrite tokens_after_gaps. apply agree_printed.
Qed.

(** ** Parsing them *)

Lemma erase_bare t : erase t = bare (tok_type t).
Proof. reflexivity. Qed.
Lemma erase_lines ls : map (map erase) ls = map (map bare) (map (map tok_type) ls).
Proof. rewrite map_map. apply map_ext. intros l. rewrite map_map. reflexivity. Qed.
Lemma parse_erase ls : map_result erase (parse_logical ls) = parse_logical (map (map bare) (map (map tok_type) ls)).
Proof. rewrite <- erase_lines. symmetry. apply parse_logical_map. reflexivity. Qed.

Theorem same_types ls ls' : map (map tok_type) ls = map (map tok_type) ls' ->
  map_result erase (parse_logical ls) = map_result erase (parse_logical ls').
Proof. intros E. rewrite !parse_erase, E. reflexivity. Qed.

Lemma plain_kind t : tok_kind (plain t) = tok_kind t.
Proof. unfold plain. destruct (tok_kind t) eqn:E; reflexivity. Qed.
Definition plain_of (k : kind) : token :=
  plain (bare (match k with
    | KIdentifier => TIdentifier [] | KKeyword k => TKeyword k | KValue => TValue VNoob | KQuestion => TSymbol [63%N]
    | KSlot => TBukkitSlotAccess | KExclamation => TExclamationMark | KOther => TComma end)).
Lemma plain_lines ls : map (map plain) ls = map (map plain_of) (map (map tok_kind) ls).
Proof.
  rewrite map_map. apply map_ext. intros l. rewrite map_map. apply map_ext. intros t.
  unfold plain. destruct (tok_kind t); reflexivity.
Qed.
Theorem same_kinds ls ls' : map (map tok_kind) ls = map (map tok_kind) ls' ->
  map_result plain (parse_logical ls) = map_result plain (parse_logical ls').
Proof.
  intros E. rewrite <- !(parse_logical_map plain plain_kind), !plain_lines, E. reflexivity.
Qed.

Definition api_of (r : parse_result) : api_result :=
  match r with ParseOk b => ApiOk b | ParsePanic _ => ApiPanic | ParseFuel => ApiFuel end.

Theorem print_parse gap xs : Forall ws gap -> Forall printed_ok xs ->
  map_api erase (tokenize_and_parse (gap ++ print xs)) = api_of (parse_logical (map (map bare) (printed_lines xs))).
Proof.
  intros Hg H. destruct (print_lines gap xs Hg H) as (ts & Et & El).
  unfold tokenize_and_parse. rewrite Et, parse_logical_lines, <- El, <- parse_erase.
  destruct (parse_logical (logical_lines ts)); reflexivity.
Qed.

(** [node_clean] does not look at tokens. *)
Lemma clean_map f : forall n, node_clean (map_node f n) = node_clean n.
Proof.
  fix IH 1.
  assert (HB : forall ns, forallb node_clean (map (map_node f) ns) = forallb node_clean ns).
  { induction ns as [|n ns IHn]; [reflexivity|]. cbn [map forallb]. rewrite IH, IHn. reflexivity. }
  intros [x|x|x|x|x|x|x|x|x|x|x|x|x|x|x|x]; try reflexivity.
  - destruct x as [t l it c [ns] e]. exact (HB ns).
  - destruct x as [t omgs d]. cbn [map_node map_wtf node_clean wtf_clean]. f_equal.
    + induction omgs as [|[t' e [ns]] omgs IHo]; [reflexivity|]. cbn [map forallb]. rewrite IHo. f_equal. exact (HB ns).
    + destruct d as [[t' [ns]]|]; [exact (HB ns)|reflexivity].
  - destruct x as [t yes no mebbes]. cbn [map_node map_o_rly node_clean o_rly_clean]. f_equal; [f_equal|].
    + destruct yes as [[t' [ns]]|]; [exact (HB ns)|reflexivity].
    + destruct no as [[t' [ns]]|]; [exact (HB ns)|reflexivity].
    + induction mebbes as [|[t' e [ns]] mebbes IHo]; [reflexivity|]. cbn [map forallb]. rewrite IHo. f_equal. exact (HB ns).
  - destruct x as [t i ps [ns]]. exact (HB ns).
Qed.
Lemma clean_map_all f ns : forallb node_clean (map (map_node f) ns) = forallb node_clean ns.
Proof. induction ns as [|n ns IH]; [reflexivity|]. cbn [map forallb]. rewrite clean_map, IH. reflexivity. Qed.

Theorem print_grammatical gap xs ns : Forall ws gap -> Forall printed_ok xs ->
  d_program (map (map bare) (printed_lines xs)) ns <->
  exists ns', tokenize_and_parse (gap ++ print xs) = ApiOk (ASTBlock ns') /\
              map (map_node erase) ns' = ns /\ forallb node_clean ns' = true.
Proof.
  intros Hg H. rewrite <- program_iff. pose proof (print_parse gap xs Hg H) as E. split.
  - intros (HP & HC). rewrite HP in E. cbn [api_of] in E.
    destruct (tokenize_and_parse (gap ++ print xs)) as [[ns']| | |]; try discriminate E.
    exists ns'. assert (En : map (map_node erase) ns' = ns) by (injection E as E; exact E).
    split; [reflexivity|]. split; [assumption|].
    rewrite <- (clean_map_all erase), En. assumption.
  - intros (ns' & ET & En & HC). rewrite ET in E. change (ApiOk (ASTBlock (map (map_node erase) ns')) = api_of (parse_logical (map (map bare) (printed_lines xs)))) in E.
    rewrite En in E.
    destruct (parse_logical (map (map bare) (printed_lines xs))); try discriminate E.
    injection E as <-. split; [reflexivity|]. rewrite <- En, clean_map_all. assumption.
Qed.

(** ** The printer *)

Section Print.
Variable w : token -> str.

Lemma print_tokens_head t l : exists sep xs, print_tokens w (t :: l) = (tok_type t, w t, sep) :: xs.
Proof. destruct l; cbn; eauto. Qed.

Lemma plain_types t : writable w t ->
  comma_type (tok_type t) = false /\ ellipsis_type (tok_type t) = false.
Proof. intros (_ & H1 & H2 & _). destruct (tok_type t); try congruence; auto. Qed.

Lemma cut_print l : l <> [] -> (forall t, In t l -> writable w t) -> forall xs,
  exists g, cut (print_tokens w l ++ xs) = g :: cut xs /\
    map printed_type g = map tok_type l.
Proof.
  induction l as [|t l IH]; intros Hl Hw xs; [congruence|]. clear Hl.
  pose proof (plain_types t (Hw t (or_introl eq_refl))) as (Hc & He).
  destruct l as [|u l].
  - cbn [print_tokens app]. exists [(tok_type t, w t, eol)]. split; [|reflexivity].
    destruct xs as [|y xs]; [reflexivity|]. rewrite cut_cons.
    unfold same_statement. cbn [printed_type printed_sep fst snd]. rewrite He, andb_false_r. reflexivity.
  - destruct (IH ltac:(discriminate) (fun x Hx => Hw x (or_intror Hx)) xs) as (g & Eg & Hg).
    exists ((tok_type t, w t, tab) :: g). split; [|cbn [map]; rewrite Hg; reflexivity].
    change (print_tokens w (t :: u :: l)) with ((tok_type t, w t, tab) :: print_tokens w (u :: l)).
    destruct (print_tokens_head u l) as (sep & ys & E). rewrite E in *. cbn [app] in *.
    rewrite cut_cons, Eg. unfold same_statement. cbn [printed_type printed_sep fst snd].
    pose proof (plain_types u (Hw u (or_intror (or_introl eq_refl)))) as (Hcu & _).
    rewrite Hc, Hcu, orb_true_r. reflexivity.
Qed.

Definition cut_lines (xs : list printed) : list (list token_type) :=
  map (fun g => filter (fun ty => negb (ellipsis_type ty)) (map printed_type g))
      (filter (fun g => negb (existsb (fun x => comma_type (printed_type x)) g)) (cut xs)).

Lemma plain_line l : (forall t, In t l -> writable w t) ->
  filter (fun ty => negb (ellipsis_type ty)) (map tok_type l) = map tok_type l /\
  existsb comma_type (map tok_type l) = false.
Proof.
  induction l as [|t l IH]; intros Hw; [auto|].
  destruct (plain_types t (Hw t (or_introl eq_refl))) as (Hc & He).
  destruct (IH (fun x Hx => Hw x (or_intror Hx))) as (I1 & I2).
  cbn. rewrite Hc, He, I1, I2. auto.
Qed.
Lemma existsb_map {A B} (p : B -> bool) (g : A -> B) l : existsb p (map g l) = existsb (fun x => p (g x)) l.
Proof. induction l as [|x l IH]; [reflexivity|]. cbn. rewrite IH. reflexivity. Qed.

Lemma cut_comma x xs : comma_type (printed_type x) = true -> cut (x :: xs) = [x] :: cut xs.
Proof.
  intros H. destruct xs as [|y xs]; [reflexivity|]. rewrite cut_cons. unfold same_statement. rewrite H. reflexivity.
Qed.

Lemma cut_print_line l xs : (forall t, In t l -> writable w t) ->
  cut_lines (print_line w l ++ xs) = map tok_type l :: cut_lines xs.
Proof.
  intros Hw. unfold cut_lines. destruct l as [|t l].
  - cbn [print_line app]. rewrite cut_cons. unfold same_statement at 1. cbn [printed_type fst comma_type negb andb].
    rewrite cut_comma by reflexivity. reflexivity.
  - destruct (cut_print (t :: l) ltac:(discriminate) Hw xs) as (g & Eg & Hg).
    destruct (plain_line _ Hw) as (H1 & H2). cbn [print_line]. rewrite Eg. cbn [filter].
    rewrite <- (existsb_map comma_type printed_type g), Hg, H2. cbn [negb map]. rewrite Hg, H1. reflexivity.
Qed.

Lemma print_line_head l : (forall t, In t l -> writable w t) ->
  exists x xs, print_line w l = x :: xs /\ comma_type (printed_type x) = false.
Proof.
  intros Hw. destruct l as [|t l]; [cbn; eauto|].
  destruct (print_tokens_head t l) as (sep & xs & E). cbn [print_line]. rewrite E.
  do 2 eexists. split; [reflexivity|]. apply plain_types, Hw. left. reflexivity.
Qed.

Lemma printed_program_lines ls : Forall (Forall (writable w)) ls ->
  printed_lines (flat_map (print_line w) ls) = map (map tok_type) ls.
Proof.
  intros H.
  assert (E : cut_lines (flat_map (print_line w) ls) = map (map tok_type) ls).
  { induction H as [|l ls H1 H IH]; [reflexivity|]. cbn [flat_map map].
    rewrite cut_print_line by (apply Forall_forall; assumption). rewrite IH. reflexivity. }
  unfold printed_lines. fold (cut_lines (flat_map (print_line w) ls)). rewrite E.
  destruct H as [|l ls H1 H]; [reflexivity|]. cbn [flat_map].
  destruct (print_line_head l (proj1 (Forall_forall _ _) H1)) as (x & xs & -> & Hx). cbn [app].
  rewrite Hx. reflexivity.
Qed.

Lemma ws_tab : Forall ws tab.
Proof. constructor; [right; left; reflexivity|constructor]. Qed.
Lemma ws_eol : Forall ws eol.
Proof. constructor; [right; right; reflexivity|constructor]. Qed.

Lemma writable_ok t sep : writable w t -> sep = tab \/ sep = eol -> printed_ok (tok_type t, w t, sep).
Proof.
  intros (HW & _ & _ & Hs) Hsep. split; [assumption|].
  split; [destruct Hsep; subst; discriminate|].
  split; [destruct Hsep; subst; [exact ws_tab|exact ws_eol]|].
  destruct (tok_type t); try exact I.
  - intros _. destruct Hsep; subst; (eexists _, _; split; [reflexivity|discriminate]).
  - exfalso. eapply Hs. reflexivity.
Qed.

Lemma print_tokens_ok l : Forall (writable w) l -> Forall printed_ok (print_tokens w l).
Proof.
  intros H. induction H as [|t l Ht H IH]; [constructor|]. destruct l as [|u l].
  - constructor; [|constructor]. apply writable_ok; auto.
  - change (print_tokens w (t :: u :: l)) with ((tok_type t, w t, tab) :: print_tokens w (u :: l)).
    constructor; [|assumption]. apply writable_ok; auto.
Qed.
Lemma print_line_ok l : Forall (writable w) l -> Forall printed_ok (print_line w l).
Proof.
  intros H. destruct l as [|t l]; [|apply print_tokens_ok, H].
  constructor; [|constructor; [|constructor]].
  - split; [constructor|]. split; [discriminate|]. split; [exact ws_tab|exact I].
  - split; [constructor|]. split; [discriminate|]. split; [exact ws_eol|exact I].
Qed.

Theorem program_round_trip ls ns : Forall (Forall (writable w)) ls -> d_program ls ns ->
  exists ns', tokenize_and_parse (print_program w ls) = ApiOk (ASTBlock ns') /\
              map (map_node erase) ns' = map (map_node erase) ns /\ forallb node_clean ns' = true.
Proof.
  intros Hw HD.
  assert (Hok : Forall printed_ok (flat_map (print_line w) ls)).
  { clear HD. induction Hw as [|l ls H1 H IH]; [constructor|]. cbn [flat_map]. apply Forall_app.
    split; [apply print_line_ok, H1|exact IH]. }
  pose proof (proj1 (print_grammatical [] _ (map (map_node erase) ns) (Forall_nil _) Hok)) as HG. apply HG.
  rewrite (printed_program_lines ls Hw). apply program_iff. apply program_iff in HD as (HP & HC).
  rewrite <- parse_erase, HP, clean_map_all. auto.
Qed.
End Print.
