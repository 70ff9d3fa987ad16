(** Proofs for C94. *)
From Coq Require Import String List Lia PeanoNat.
From Verif Require Import Parser Lines LexSpec LexPropSpec SourceSpec ParseFuel SourceProofs Checker Reader AutomatonProofs.
From Verif Require Export Memory.
Import ListNotations.
Local Open Scope string_scope.
Local Open Scope list_scope.

(** ** Tokens on one line *)
Definition win : token := made (TValue (VBoolean true)).
Definition simple (t : token) : Prop := t = win \/ exists k, In k [FOUND_YR; SUM_OF; ALL_OF; MKAY] /\ t = word k.
Fixpoint go (q : reader) (l : list token) : option reader :=
  match l with [] => Some q | t :: l' => match reader_f q t with Some q' => go q' l' | None => None end end.
Lemma go_app a b : forall q, go q (a ++ b) = match go q a with Some q' => go q' b | None => None end.
Proof. induction a as [|t a IH]; intros q; [reflexivity|]. cbn [go app]. destruct (reader_f q t); [apply IH|reflexivity]. Qed.
Lemma simple_facts t : simple t -> is_comma t = false /\ is_ellipsis t = false /\ tok_range t = mkRange position_start position_start.
Proof. intros [-> | (k & _ & ->)]; repeat split. Qed.
Lemma simple_same t u : simple t -> simple u -> same_line u t = true.
Proof.
  intros T U. destruct (simple_facts t T) as (T1 & _ & T3). destruct (simple_facts u U) as (U1 & U2 & U3).
  unfold same_line. rewrite T1, U1, U2. unfold start_of. rewrite T3, U3. reflexivity.
Qed.
Lemma run_simple l : forall s f q u, simple u -> Forall simple l ->
  match run (mkConfig s (Some f) q u) l with
  | Some c => exists u', simple u' /\ go q l = Some (c_reader c) /\ c = mkConfig s (Some f) (c_reader c) u'
  | None => go q l = None
  end.
Proof.
  induction l as [|t l IH]; intros s f q u U L; [exists u; auto|].
  inversion L as [|? ? T L']; subst. cbn [run go]. unfold next_token. rewrite (simple_same t u T U).
  unfold read_token. rewrite (proj1 (proj2 (simple_facts t T))). destruct (reader_f q t) as [q'|]; [|reflexivity].
  exact (IH s f q' t T L').
Qed.
Lemma accepts_simple l : Forall simple l ->
  accepts (word FOUND_YR :: l) = match go (RExpr [] AtEnd) l with Some q => final_f q | None => false end.
Proof.
  intros L. unfold accepts. change (start (word FOUND_YR)) with (Some (mkConfig (Fresh []) (Some (word FOUND_YR)) (RExpr [] AtEnd) (word FOUND_YR))).
  cbv beta iota.
  assert (R := run_simple l (Fresh []) (word FOUND_YR) (RExpr [] AtEnd) (word FOUND_YR) (or_intror (ex_intro _ FOUND_YR (conj (or_introl eq_refl) eq_refl))) L).
  destruct (run _ l) as [c|]; [|now rewrite R]. destruct R as (u & U & G & E). rewrite G, E.
  unfold last_state, end_line. cbn [c_last c_state c_first c_reader]. rewrite (proj1 (simple_facts u U)).
  destruct (final_f (c_reader c)); reflexivity.
Qed.

(** ** Chains and what closes them *)
Definition entry (b : bool) : pending := if b then PBinary else PNary.
Definition closer (b : bool) : token := if b then win else word MKAY.
Definition ops (l : list bool) : list token := map (fun b : bool => word (if b then SUM_OF else ALL_OF)) l.
Definition enters (k : list pending) (x : context) (q : reader) : Prop := q = RExpr k x \/ exists k', k = PNary :: k' /\ q = RMore k' x.
Lemma go_ops l : forall k x q, enters k x q -> go q (ops l ++ [win]) = Some (RDone (map entry (rev l) ++ k) x).
Proof.
  induction l as [|b l IH]; intros k x q E.
  - destruct E as [-> | (k' & -> & ->)]; reflexivity.
  - assert (S : exists q', reader_f q (word (if b then SUM_OF else ALL_OF)) = Some q' /\ enters (entry b :: k) x q').
    { destruct E as [-> | (k' & -> & ->)]; destruct b; eexists; (split; [reflexivity|]); (now left) || (right; eexists; split; reflexivity). }
    destruct S as (q' & S & E'). cbn [ops map app go]. rewrite S. fold (ops l). rewrite (IH _ _ _ E').
    cbn [rev]. rewrite map_app, <- app_assoc. reflexivity.
Qed.
Lemma go_close l : go (RDone (map entry l) AtEnd) (map closer l) = Some (RDone [] AtEnd).
Proof. induction l as [|[] l IH]; [reflexivity| |]; exact IH. Qed.
Lemma go_differ a : forall b, length a = length b -> a <> b ->
  go (RDone (map entry a) AtEnd) (map closer b) = None \/ go (RDone (map entry b) AtEnd) (map closer a) = None.
Proof.
  induction a as [|x a IH]; intros [|y b] L N; try discriminate L; [now destruct N|].
  destruct x, y.
  - apply (IH b); [now injection L|]. intros ->. now apply N.
  - left. reflexivity.
  - right. reflexivity.
  - apply (IH b); [now injection L|]. intros ->. now apply N.
Qed.
Lemma simple_ops l : Forall simple (ops l).
Proof. induction l as [|b l IH]; constructor; [right; destruct b; eexists; (split; [|reflexivity]); cbn; auto|exact IH]. Qed.
Lemma simple_close l : Forall simple (map closer l).
Proof. apply Forall_forall. intros t H. apply in_map_iff in H. destruct H as ([] & <- & _); [now left|right; exists MKAY; cbn; auto 10]. Qed.
Definition ending (l : list bool) : list token := win :: map closer (rev l).
Lemma chain_accepts a b : accepts (chain a ++ ending b) =
  match go (RDone (map entry (rev a)) AtEnd) (map closer (rev b)) with Some q => final_f q | None => false end.
Proof.
  unfold chain, ending. change (map (fun b : bool => word (if b then SUM_OF else ALL_OF)) a) with (ops a). cbn [app].
  change (ops a ++ win :: map closer (rev b)) with (ops a ++ [win] ++ map closer (rev b)).
  rewrite accepts_simple by (apply Forall_app; split; [apply simple_ops|constructor; [now left|apply simple_close]]).
  rewrite app_assoc, go_app, (go_ops a [] AtEnd) by now left. rewrite app_nil_r. reflexivity.
Qed.

(** ** Machines *)
Lemma after_app {A} (m : machine A) ts us : after m (ts ++ us) = fold_left (m_step m) us (after m ts).
Proof. unfold after. apply fold_left_app. Qed.
Lemma decides_accepts (m : machine token) : decides m -> forall ts, m_accept m (after m ts) = accepts ts.
Proof.
  intros D ts. assert (H := D ts). rewrite <- accepts_iff in H.
  destruct (m_accept m (after m ts)), (accepts ts); try reflexivity; [symmetry|]; now apply H.
Qed.
Lemma distinct_endings a b : length a = length b -> rev a <> rev b ->
  accepts (chain a ++ ending a) = accepts (chain b ++ ending a) -> accepts (chain a ++ ending b) = accepts (chain b ++ ending b) -> False.
Proof.
  intros L N Sa Sb. rewrite !chain_accepts in Sa, Sb.
  rewrite go_close in Sa, Sb. assert (L' : length (rev a) = length (rev b)) by now rewrite !rev_length.
  destruct (go_differ _ _ L' N) as [G|G]; rewrite G in *; discriminate.
Qed.
Theorem chains_distinct m a b : decides m -> length a = length b -> after m (chain a) = after m (chain b) -> a = b.
Proof.
  intros D L E. destruct (list_eq_dec Bool.bool_dec (rev a) (rev b)) as [Q|N].
  { rewrite <- (rev_involutive a), Q, rev_involutive. reflexivity. }
  exfalso.
  assert (S : forall u, accepts (chain a ++ u) = accepts (chain b ++ u)).
  { intros u. rewrite <- !(decides_accepts m D), !after_app, E. reflexivity. }
  exact (distinct_endings a b L N (S (ending a)) (S (ending b))).
Qed.

Fixpoint bits (n : nat) : list (list bool) :=
  match n with O => [[]] | S n' => map (cons true) (bits n') ++ map (cons false) (bits n') end.
Lemma bits_length n : length (bits n) = 2 ^ n.
Proof. induction n as [|n IH]; [reflexivity|]. cbn [bits]. rewrite app_length, !map_length, IH. cbn. lia. Qed.
Lemma bits_in n : forall l, In l (bits n) -> length l = n.
Proof.
  induction n as [|n IH]; intros l H; cbn [bits] in H; [destruct H as [<- | []]; reflexivity|].
  apply in_app_or in H. destruct H as [H|H]; apply in_map_iff in H; destruct H as (l' & <- & H); cbn [length]; f_equal; now apply IH.
Qed.
Lemma map_nodup {A B} (f : A -> B) l : (forall a b, In a l -> In b l -> f a = f b -> a = b) -> NoDup l -> NoDup (map f l).
Proof.
  induction l as [|x l IH]; intros I N; [constructor|]. inversion N; subst. cbn [map]. constructor.
  - intros H. apply in_map_iff in H. destruct H as (y & E & H). assert (y = x) by (apply I; [now right|now left|exact E]). now subst.
  - apply IH; [|assumption]. intros a b A1 B1. apply I; now right.
Qed.
Lemma bits_nodup n : NoDup (bits n).
Proof.
  induction n as [|n IH]; cbn [bits]; [constructor; [intros []|constructor]|].
  assert (N : forall b, NoDup (map (cons b) (bits n))) by (intros b; apply map_nodup; [intros ? ? _ _ E; now injection E|exact IH]).
  assert (G : forall l : list (list bool), NoDup l -> forall l', NoDup l' -> (forall x, In x l -> In x l' -> False) -> NoDup (l ++ l')).
  { clear. induction l as [|x l IHl]; intros N l' N' X; [exact N'|]. inversion N; subst. cbn [app]. constructor.
    - intros H. apply in_app_or in H. destruct H as [H|H]; [now auto|]. apply (X x); [now left|exact H].
    - apply IHl; [assumption..|]. intros y Y Y'. apply (X y); [now right|exact Y']. }
  apply G; [apply N..|]. intros x H1 H2. apply in_map_iff in H1, H2. destruct H1 as (y & <- & _). destruct H2 as (z & E & _). discriminate E.
Qed.
Lemma count_states {A} (m : machine A) (f : list bool -> list A) n qs :
  (forall a b, length a = length b -> after m (f a) = after m (f b) -> a = b) ->
  (forall l, length l = n -> In (after m (f l)) qs) -> 2 ^ n <= length qs.
Proof.
  intros D I. rewrite <- bits_length, <- (map_length (fun l => after m (f l))). apply NoDup_incl_length.
  - apply map_nodup; [|apply bits_nodup]. intros a b A1 B1 E. apply D; [|exact E].
    now rewrite (bits_in n a A1), (bits_in n b B1).
  - intros q H. apply in_map_iff in H. destruct H as (l & <- & H). apply I, (bits_in n l H).
Qed.
Theorem many_states m n qs : decides m -> (forall ts, length ts <= S n -> In (after m ts) qs) -> 2 ^ n <= length qs.
Proof.
  intros D I. apply (count_states m chain n qs); [intros a b; apply (chains_distinct m a b D)|].
  intros l L. apply I. unfold chain. cbn [length]. rewrite map_length, L. reflexivity.
Qed.
Theorem not_finite m (qs : list (m_state m)) : decides m -> ~ forall q, In q qs.
Proof.
  intros D I. assert (H := many_states m (length qs) qs D (fun ts _ => I _)).
  assert (G := Nat.pow_gt_lin_r 2 (length qs)). lia.
Qed.

(** ** Sources *)
Definition text_of (t : token) : str := match tok_type t with TKeyword k => spelling k | _ => lit "WIN" end.
Definition pr (t : token) : printed := (tok_type t, text_of t, lit " ").
Lemma pr_ok t : simple t -> printed_ok (pr t).
Proof.
  intros H. split.
  - destruct H as [-> | (k & K & ->)]; [apply writes_win|]. cbn. apply writes_keyword.
    intros N. cbn in K, N. decompose [or] K; subst; decompose [or] N; try discriminate; assumption.
  - split; [discriminate|]. split; [constructor; [now left|constructor]|]. destruct H as [-> | (k & K & ->)]; exact I.
Qed.
Lemma pr_agree ts : Forall simple ts -> agree ts (map pr ts).
Proof.
  induction ts as [|t ts IH]; intros H; [exact I|]. inversion H as [|? ? T H']; subst. cbn [map agree].
  split; [reflexivity|]. split; [|exact (IH H')]. destruct ts as [|u ts]; [exact I|]. inversion H' as [|? ? U _]; subst.
  unfold tok_line. rewrite (proj2 (proj2 (simple_facts t T))), (proj2 (proj2 (simple_facts u U))). reflexivity.
Qed.
Lemma printed_clean ts : Forall simple ts ->
  (exists ns, tokenize_and_parse (print (map pr ts)) = ApiOk (ASTBlock ns) /\ forallb node_clean ns = true) <-> accepts ts = true.
Proof.
  intros H. assert (P := print_parse [] (map pr ts) (Forall_nil _)). cbn [app] in P.
  rewrite <- (agree_lines ts (map pr ts) (pr_agree ts H)), <- parse_erase, <- parse_logical_lines in P.
  assert (O : Forall printed_ok (map pr ts)) by (apply Forall_map; revert H; apply Forall_impl; exact pr_ok). specialize (P O).
  rewrite accepts_iff. split; intros (ns & E & C); rewrite E in P.
  - destruct (parse ts) as [[ns']|c|]; try discriminate P. exists ns'. split; [reflexivity|].
    change (ApiOk (ASTBlock (map (map_node erase) ns)) = ApiOk (ASTBlock (map (map_node erase) ns'))) in P. injection P as P. rewrite <- (clean_map_all erase), <- P, clean_map_all. exact C.
  - destruct (tokenize_and_parse _) as [[ns']| | |]; try discriminate P. exists ns'. split; [reflexivity|].
    change (ApiOk (ASTBlock (map (map_node erase) ns')) = ApiOk (ASTBlock (map (map_node erase) ns))) in P. injection P as P. rewrite <- (clean_map_all erase), P, clean_map_all. exact C.
Qed.
Lemma print_app xs ys : print (xs ++ ys) = print xs ++ print ys.
Proof. unfold print. rewrite map_app, concat_app. reflexivity. Qed.
Lemma simple_chain l : Forall simple (chain l).
Proof. constructor; [right; exists FOUND_YR; cbn; auto 10|apply simple_ops]. Qed.
Lemma simple_ending l : Forall simple (ending l).
Proof. constructor; [now left|apply simple_close]. Qed.
Lemma chain_print l : print (map pr (chain l)) = chain_text l.
Proof.
  unfold chain, chain_text. cbn [map]. unfold print. cbn [map concat]. f_equal. induction l as [|[] l IH]; [reflexivity| |]; cbn [map concat]; rewrite IH; reflexivity.
Qed.
Theorem texts_distinct m a b : decides_sources m -> length a = length b -> after m (chain_text a) = after m (chain_text b) -> a = b.
Proof.
  intros D L E. destruct (list_eq_dec Bool.bool_dec (rev a) (rev b)) as [Q|N].
  { rewrite <- (rev_involutive a), Q, rev_involutive. reflexivity. }
  exfalso.
  assert (S : forall l, accepts (chain a ++ ending l) = accepts (chain b ++ ending l)).
  { intros l. assert (K : forall c, m_accept m (after m (chain_text c ++ print (map pr (ending l)))) = true <-> accepts (chain c ++ ending l) = true).
    { intros c. rewrite <- chain_print, <- print_app, <- map_app, <- printed_clean; [apply D|]. apply Forall_app. split; [apply simple_chain|apply simple_ending]. }
    assert (Ka := K a). assert (Kb := K b). rewrite after_app in Ka, Kb. rewrite E in Ka.
    destruct (accepts (chain a ++ ending l)), (accepts (chain b ++ ending l)); try reflexivity; [symmetry; apply Kb, Ka|apply Ka, Kb]; reflexivity. }
  exact (distinct_endings a b L N (S a) (S b)).
Qed.
Theorem many_source_states m n qs : decides_sources m ->
  (forall code, length code <= 9 + 7 * n -> In (after m code) qs) -> 2 ^ n <= length qs.
Proof.
  intros D I. apply (count_states m chain_text n qs); [intros a b; apply (texts_distinct m a b D)|].
  intros l L. apply I. subst n. unfold chain_text. rewrite app_length. apply Nat.add_le_mono; [reflexivity|].
  clear. induction l as [|b l IH]; [reflexivity|]. cbn [map concat]. rewrite app_length. cbn [length]. rewrite Nat.mul_succ_r, Nat.add_comm.
  apply Nat.add_le_mono; [exact IH|destruct b; reflexivity].
Qed.
Theorem sources_not_finite m (qs : list (m_state m)) : decides_sources m -> ~ forall q, In q qs.
Proof.
  intros D I. assert (H := many_source_states m (length qs) qs D (fun ts _ => I _)).
  assert (G := Nat.pow_gt_lin_r 2 (length qs)). lia.
Qed.

Lemma automaton_run ts : forall c, fold_left (m_step automaton) ts (Some c) =
  Some (match c with Some c' => run c' ts | None => None end).
Proof.
  induction ts as [|t ts IH]; intros [c|]; try reflexivity.
  - exact (IH (next_token c t)).
  - exact (IH None).
Qed.
Theorem automaton_decides : decides automaton.
Proof.
  intros ts. rewrite <- accepts_iff. unfold after. destruct ts as [|t ts]; [reflexivity|].
  cbn [fold_left]. change (m_step automaton (m_start automaton) t) with (Some (start t)). rewrite automaton_run.
  unfold accepts. destruct (start t) as [c|]; [|reflexivity]. destruct (run c ts) as [c'|]; reflexivity.
Qed.
