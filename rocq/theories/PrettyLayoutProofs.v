(** The lines of a [{:#?}] text. *)
From Coq Require Import String Lia.
From Verif Require Import DebugProofs DebugAst DebugLines PrettyProofs.
From Verif Require Export Pretty PrettyLayout.
Local Open Scope list_scope.

(** Every line with a line feed. *)
Definition ended (ls : list (nat * str)) : str := flat_map (fun l => indent (fst l) ++ snd l ++ [10%N]) ls.
Definition one_line (s : str) : Prop := ~ In 10%N s.
Definition lines_ok (ls : list (nat * str)) : Prop :=
  Forall (fun l => one_line (snd l)) ls /\ exists s ls', ls = (0, s) :: ls'.

Lemma written_ended ls : ls <> [] -> written_lines ls ++ [10%N] = ended ls.
Proof.
  induction ls as [|[k s] ls IH]; intros H; [contradiction|]. destruct ls as [|l ls].
  - cbn. rewrite app_nil_r, <- app_assoc. reflexivity.
  - change (written_lines ((k, s) :: l :: ls)) with (indent k ++ s ++ [10%N] ++ written_lines (l :: ls)).
    change (ended ((k, s) :: l :: ls)) with ((indent k ++ s ++ [10%N]) ++ ended (l :: ls)).
    rewrite <- IH by discriminate. rewrite <- !app_assoc. reflexivity.
Qed.
Lemma ended_app a b : ended (a ++ b) = ended a ++ ended b.
Proof. apply flat_map_app. Qed.
Lemma written_app a b : a <> [] -> b <> [] -> written_lines (a ++ b) = ended a ++ written_lines b.
Proof.
  intros Ha Hb. assert (H : written_lines (a ++ b) ++ [10%N] = (ended a ++ written_lines b) ++ [10%N]).
  { rewrite written_ended by (destruct a; [contradiction|discriminate]).
    rewrite <- app_assoc, written_ended by exact Hb. apply ended_app. }
  apply app_inj_tail in H. apply H.
Qed.

Lemma pad_line s r : one_line s -> pad true (s ++ 10%N :: r) = lit "    " ++ s ++ 10%N :: pad true r.
Proof.
  assert (H : forall s, one_line s -> pad false (s ++ 10%N :: r) = s ++ 10%N :: pad true r).
  { induction s0 as [|c s0 IH]; intros H; [reflexivity|]. cbn [app pad]. f_equal.
    destruct (N.eqb_spec c 10) as [->|N]; [exfalso; apply H; left; reflexivity|].
    apply IH. intros I. apply H. right. exact I. }
  intros Hs. destruct s as [|c s]; [reflexivity|]. cbn [app pad]. do 5 f_equal.
  destruct (N.eqb_spec c 10) as [->|N]; [exfalso; apply Hs; left; reflexivity|].
  apply H. intros I. apply Hs. right. exact I.
Qed.
Lemma indent_line k s : one_line s -> one_line (indent k ++ s).
Proof.
  intros H I. apply in_app_or in I as [I|I]; [|auto]. apply repeat_spec in I. discriminate I.
Qed.
Lemma indent_S k : indent (S k) = lit "    " ++ indent k.
Proof. unfold indent. replace (4 * S k) with (4 + 4 * k) by lia. reflexivity. Qed.
Lemma pad_ended ls : Forall (fun l => one_line (snd l)) ls -> pad true (ended ls) = ended (deeper ls).
Proof.
  induction 1 as [|[k s] ls H _ IH]; [reflexivity|]. cbn [ended flat_map deeper map fst snd] in *.
  rewrite <- !app_assoc. rewrite app_assoc. change ([10%N] ++ ?x) with (10%N :: x).
  rewrite pad_line by (apply indent_line; exact H).
  change (flat_map _ ls) with (ended ls). rewrite IH, indent_S, <- !app_assoc. reflexivity.
Qed.

Lemma with_last_ended ls x : ls <> [] -> ended (with_last ls x) = written_lines ls ++ x ++ [10%N].
Proof.
  induction ls as [|[k s] ls IH]; intros H; [contradiction|]. destruct ls as [|l ls].
  - cbn. rewrite app_nil_r, <- !app_assoc. reflexivity.
  - change (with_last ((k, s) :: l :: ls) x) with ((k, s) :: with_last (l :: ls) x).
    cbn [ended flat_map fst snd]. change (flat_map _ (with_last ?a ?b)) with (ended (with_last a b)).
    rewrite IH by discriminate.
    change (written_lines ((k, s) :: l :: ls)) with (indent k ++ s ++ [10%N] ++ written_lines (l :: ls)).
    rewrite <- !app_assoc. reflexivity.
Qed.
Lemma with_last_ok ls x : one_line x -> Forall (fun l => one_line (snd l)) ls ->
  Forall (fun l => one_line (snd l)) (with_last ls x).
Proof.
  intros Hx. induction 1 as [|[k s] ls H F IH]; [constructor|]. destruct ls as [|l ls].
  - constructor; [|constructor]. cbn in *. intros I. apply in_app_or in I as [I|I]; auto.
  - change (with_last ((k, s) :: l :: ls) x) with ((k, s) :: with_last (l :: ls) x). constructor; auto.
Qed.
Lemma deeper_ok ls : Forall (fun l => one_line (snd l)) ls -> Forall (fun l => one_line (snd l)) (deeper ls).
Proof. unfold deeper. induction 1; cbn [map]; constructor; auto. Qed.
Lemma with_first_ok x ls : one_line x -> lines_ok ls -> lines_ok (with_first x ls) /\ written_lines (with_first x ls) = x ++ written_lines ls.
Proof.
  intros Hx (F & s & ls' & ->). inversion F as [|? ? H F']; subst. cbn [with_first snd] in *. split; [split|].
  - constructor; [|exact F']. cbn. intros I. apply in_app_or in I as [I|I]; auto.
  - eauto.
  - destruct ls' as [|l ls']; [reflexivity|].
    change (written_lines ((0, ?y) :: l :: ls')) with (y ++ [10%N] ++ written_lines (l :: ls')).
    symmetry. apply app_assoc.
Qed.
Lemma plain_line s : DebugProofs.plain s -> one_line s.
Proof. intros H I. apply plain_feeds in H. unfold feeds in H. apply (count_occ_In N.eq_dec) in I. lia. Qed.
Lemma comma_line : one_line (lit ",").
Proof. intros [E|[]]. discriminate E. Qed.
Lemma one_line_app a b : one_line a -> one_line b -> one_line (a ++ b).
Proof. intros Ha Hb I. apply in_app_or in I as [I|I]; auto. Qed.

Lemma entry_layout s ls : lines_ok ls -> s = written_lines ls -> entry s = ended (deeper (with_last ls (lit ","))).
Proof.
  intros (F & x & ls' & E) ->. unfold entry. rewrite <- pad_ended by (apply with_last_ok; [exact comma_line|exact F]).
  rewrite with_last_ended by (rewrite E; discriminate). reflexivity.
Qed.

Lemma split_ok s : Forall one_line (split_lines s) /\ split_lines s <> [] /\ written_lines (as_written s) = s.
Proof.
  induction s as [|c s (F & N & W)]; [split; [|split; [discriminate|reflexivity]]; constructor; [intros []|constructor]|].
  unfold as_written in *. cbn [split_lines]. destruct (N.eqb_spec c 10) as [->|H].
  - split; [constructor; [intros []|exact F]|]. split; [discriminate|].
    destruct (split_lines s) as [|l ls]; [contradiction|].
    change (written_lines (map (pair 0) ([] :: l :: ls))) with ([10%N] ++ written_lines (map (pair 0) (l :: ls))).
    rewrite W. reflexivity.
  - destruct (split_lines s) as [|l ls]; [contradiction|]. inversion F as [|? ? Hl Hls]; subst.
    split; [constructor; [intros [E|I]; auto|exact Hls]|]. split; [discriminate|].
    destruct ls as [|l' ls]; reflexivity.
Qed.
Lemma as_written_ok s : lines_ok (as_written s) /\ written_lines (as_written s) = s.
Proof.
  destruct (split_ok s) as (F & N & W). split; [|exact W]. unfold as_written. split.
  - clear N W. induction F; cbn; constructor; auto.
  - destruct (split_lines s); [contradiction|]. cbn. eauto.
Qed.

Section Layout.
  Variable shown : char -> bool.
  Lemma string_line s : one_line (string_debug shown s).
  Proof. intros I. pose proof (string_feeds shown s) as H. apply (count_occ_In N.eq_dec) in I. unfold feeds in H. lia. Qed.
  Definition laid (d : dbg) : Prop := lines_ok (layout shown d) /\ pretty shown d = written_lines (layout shown d).

  (** A value with parts. *)
  Lemma parts_laid {T} (text : T -> str) (ls : T -> list (nat * str)) open close (l : list T) :
    one_line open -> one_line close -> Forall (fun x => lines_ok (ls x) /\ text x = written_lines (ls x)) l ->
    let all := (0, open) :: flat_map (fun x => deeper (with_last (ls x) (lit ","))) l ++ [(0, close)] in
    lines_ok all /\ open ++ [10%N] ++ flat_map (fun x => entry (text x)) l ++ close = written_lines all.
  Proof.
    intros Ho Hc F all.
    assert (Fe : Forall (fun l => one_line (snd l)) (flat_map (fun x => deeper (with_last (ls x) (lit ","))) l)).
    { induction F as [|x l [[H _] _] _ IH]; [constructor|]. cbn [flat_map]. apply Forall_app. split; [|exact IH].
      apply deeper_ok, with_last_ok; [exact comma_line|exact H]. }
    assert (Ee : flat_map (fun x => entry (text x)) l
                 = ended (flat_map (fun x => deeper (with_last (ls x) (lit ","))) l)).
    { clear Fe all. induction F as [|x l [H E] _ IH]; [reflexivity|]. cbn [flat_map].
      rewrite ended_app, <- IH. f_equal. apply entry_layout; assumption. }
    split; [split; [|unfold all; eauto]|].
    - unfold all. constructor; [exact Ho|]. apply Forall_app. split; [exact Fe|]. constructor; [exact Hc|constructor].
    - unfold all. rewrite app_comm_cons. rewrite written_app; [|discriminate|discriminate]. rewrite Ee.
      cbn [ended flat_map fst snd written_lines]. change (indent 0) with (@nil char). cbn [app].
      rewrite <- !app_assoc. reflexivity.
  Qed.

  Lemma wf_laid d : wf d -> laid d.
  Proof.
    induction d as [s|n x IH|n fs IH|xs IH|s|t|t x IH] using dbg_ind'; intros H; inversion H; subst; unfold laid; cbn [layout pretty].
    - split; [|reflexivity]. split; [|eauto]. constructor; [|constructor]. apply plain_line. assumption.
    - destruct (IH ltac:(assumption)) as [L E].
      destruct (parts_laid (fun _ : unit => pretty shown x) (fun _ => layout shown x) (lit n ++ lit "(") (lit ")") [tt]) as [L' E'].
      + apply one_line_app; [apply plain_line; assumption|]. intros [F|[]]; discriminate F.
      + intros [F|[]]; discriminate F.
      + constructor; [auto|constructor].
      + cbn [flat_map] in L', E'. rewrite !app_nil_r in *. split; [exact L'|]. etransitivity; [|exact E']. rewrite <- !app_assoc. reflexivity.
    - destruct (parts_laid (fun fx => lit (fst fx) ++ lit ": " ++ pretty shown (snd fx))
                  (fun fx => with_first (lit (fst fx) ++ lit ": ") (layout shown (snd fx))) (lit n ++ lit " {") (lit "}") fs) as [L' E'].
      + apply one_line_app; [apply plain_line; assumption|]. intros [F|[F|[]]]; discriminate F.
      + intros [F|[]]; discriminate F.
      + rewrite Forall_forall in *. intros [fl y] I.
        destruct (H3 _ I) as [P W]. destruct (IH _ I W) as [L E]. cbn [fst snd] in *.
        destruct (with_first_ok (lit fl ++ lit ": ") (layout shown y)) as [L1 E1]; [|exact L|].
        * apply one_line_app; [apply plain_line; exact P|]. intros [F|[F|[]]]; discriminate F.
        * split; [exact L1|]. rewrite E1, E, <- app_assoc. reflexivity.
      + split; [exact L'|]. etransitivity; [|exact E']. rewrite <- !app_assoc. reflexivity.
    - destruct xs as [|x xs].
      + split; [|reflexivity]. split; [|eauto]. constructor; [|constructor]. intros [F|[F|[]]]; discriminate F.
      + apply (parts_laid (pretty shown) (layout shown) (lit "[") (lit "]") (x :: xs)).
        * intros [F|[]]; discriminate F.
        * intros [F|[]]; discriminate F.
        * rewrite Forall_forall in *. intros y I. apply IH; auto.
    - split; [|reflexivity]. split; [|eauto]. constructor; [|constructor]. apply string_line.
    - destruct (as_written_ok t) as [L E]. split; [exact L|symmetry; exact E].
    - destruct (as_written_ok (t ++ print shown x ++ [10%N])) as [L E]. split; [exact L|symmetry; exact E].
  Qed.
End Layout.

Section Trees.
  Variable float_text : spec_float -> str.
  Hypothesis FT : float_texts float_text.
  Variable shown : char -> bool.
  Lemma tokens_layout ts :
    tokens_pretty shown float_text ts = written_lines (layout shown (DList (map (d_tok float_text) ts))).
  Proof. apply wf_laid. apply (list_good' _ drop_offsets ts (tok_good float_text FT)). Qed.
  Lemma node_layout n : node_pretty shown float_text n = written_lines (layout shown (d_node float_text n)).
  Proof. apply wf_laid. apply (node_good float_text FT). Qed.
  Lemma block_layout b : block_pretty shown float_text b = written_lines (layout shown (d_ast_block float_text b)).
  Proof. apply wf_laid. apply (block_good float_text FT). Qed.
End Trees.
