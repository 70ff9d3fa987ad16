(** Every list of lines is the list of logical lines of a token vector: proofs
    for PropErrors.v. *)
From Coq Require Import Lia.
From Verif Require Import Lines ParserProps.
From Verif Require Export ErrorShape.

Lemma inner_iff t : inner t <-> is_comma t = false /\ is_ellipsis t = false.
Proof.
  unfold inner, is_comma, is_ellipsis. destruct (tok_type t); split; intros [H1 H2]; split; congruence.
Qed.

Lemma chunks_filled ts : Forall (fun g => g <> []) (chunks ts).
Proof.
  induction ts as [|t ts IH]; cbn [chunks]; [constructor|].
  destruct (chunks ts) as [|[|u g] gs]; [repeat constructor; discriminate|repeat constructor; discriminate|].
  apply Forall_cons_iff in IH as [_ IH].
  destruct (joined t u); repeat (constructor; try discriminate); assumption.
Qed.
Lemma chunks_comma t ts : is_comma t = true -> chunks (t :: ts) = [t] :: chunks ts.
Proof.
  intros H. cbn [chunks]. pose proof (chunks_filled ts) as F. destruct (chunks ts) as [|[|u g] gs]; [reflexivity| |].
  - apply Forall_cons_iff in F as [F _]. congruence.
  - unfold joined. rewrite H. reflexivity.
Qed.
Lemma chunks_app g t ts : is_comma t = true -> chunks (g ++ t :: ts) = chunks g ++ [t] :: chunks ts.
Proof.
  intros H. induction g as [|u g IH]; [apply chunks_comma; exact H|].
  cbn [app chunks]. rewrite IH. pose proof (chunks_filled g) as F. destruct (chunks g) as [|[|v h] gs]; cbn [app].
  - unfold joined. rewrite H, andb_false_r. reflexivity.
  - apply Forall_cons_iff in F as [F _]. congruence.
  - destruct (joined u v); reflexivity.
Qed.

(** ** The vector *)
Definition dots (r : range) : token := mkToken TEllipsis r.
Definition comma : token := mkToken TComma (mkRange position_start position_start).
Definition chunk (l : list token) : list token :=
  dots (mkRange position_start position_start) :: flat_map (fun t => [t; dots (tok_range t)]) l.
Fixpoint vector (ls : list (list token)) : list token :=
  match ls with
  | [] => []
  | [l] => chunk l
  | l :: ls' => chunk l ++ comma :: vector ls'
  end.

Lemma chunks_dots r l : Forall inner l ->
  chunks (dots r :: flat_map (fun t => [t; dots (tok_range t)]) l) =
  [dots r :: flat_map (fun t => [t; dots (tok_range t)]) l].
Proof.
  intros H. revert r. induction H as [|t l Ht _ IH]; intros r; [reflexivity|].
  cbn [flat_map app]. cbn [chunks]. specialize (IH (tok_range t)). cbn [chunks] in IH. rewrite IH.
  apply inner_iff in Ht as [Hc He].
  assert (E : joined t (dots (tok_range t)) = true).
  { unfold joined. rewrite Hc. change (is_comma (dots (tok_range t))) with false. unfold tok_line, dots. cbn.
    rewrite Z.eqb_refl. apply orb_true_r. }
  rewrite E. assert (E' : joined (dots r) t = true) by (unfold joined; rewrite Hc; reflexivity).
  rewrite E'. reflexivity.
Qed.
Lemma chunk_one l : Forall inner l -> chunks (chunk l) = [chunk l].
Proof. apply chunks_dots. Qed.
Lemma chunk_line l : Forall inner l ->
  existsb is_comma (chunk l) = false /\ filter (fun t => negb (is_ellipsis t)) (chunk l) = l.
Proof.
  unfold chunk. cbn [existsb filter]. change (is_comma (dots _)) with false. change (negb (is_ellipsis (dots _))) with false.
  cbn [orb]. induction 1 as [|t l Ht _ [IH1 IH2]]; [split; reflexivity|].
  apply inner_iff in Ht as [Hc He]. cbn [flat_map app existsb filter]. rewrite Hc, He.
  change (is_comma (dots _)) with false. change (negb (is_ellipsis (dots _))) with false. cbn [orb negb].
  rewrite IH1, IH2. split; reflexivity.
Qed.

Lemma statements_vector ls : Forall (Forall inner) ls -> statements (vector ls) = ls.
Proof.
  unfold statements. induction 1 as [|l ls Hl _ IH]; [reflexivity|].
  destruct (chunk_line l Hl) as [H1 H2]. destruct ls as [|m ls].
  - cbn [vector]. rewrite chunk_one by exact Hl. cbn [filter]. rewrite H1. cbn [negb map]. rewrite H2. reflexivity.
  - change (vector (l :: m :: ls)) with (chunk l ++ comma :: vector (m :: ls)).
    rewrite chunks_app, chunk_one by (exact Hl || reflexivity). cbn [app].
    cbn [filter]. rewrite H1. change (existsb is_comma [comma]) with true. cbn [negb map]. rewrite H2, IH. reflexivity.
Qed.

Theorem lines_image ls : (exists ts, logical_lines ts = ls) <-> Forall (Forall inner) ls.
Proof.
  split.
  - intros (ts & <-).
    assert (H : Forall (Forall inner) (statements ts)).
    { unfold statements. rewrite Forall_map. apply Forall_forall. intros g Hg. apply filter_In in Hg as [_ Hg].
      apply Forall_forall. intros t Ht. apply filter_In in Ht as [Ht He]. apply inner_iff. split.
      - apply negb_true_iff in Hg. destruct (is_comma t) eqn:E; [|reflexivity].
        assert (existsb is_comma g = true) by (apply existsb_exists; eauto). congruence.
      - apply negb_true_iff. exact He. }
    unfold logical_lines. destruct ts as [|t ts]; [constructor|]. destruct (is_comma t); [constructor; [constructor|]|]; exact H.
  - intros H. exists (vector ls). rewrite <- (statements_vector ls H) at 2.
    destruct ls as [|l [|m ls]]; reflexivity.
Qed.
