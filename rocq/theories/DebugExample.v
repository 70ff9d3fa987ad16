(** A way to write floats that meets [float_texts]. *)
From Coq Require Import String.
From Verif Require Import LexSpec EqSpec DisplayProofs.
From Verif Require Export DebugSpec.
Local Open Scope string_scope.
Local Open Scope list_scope.

Definition sign_text (s : bool) : str := if s then lit "-" else [].
Definition example_float (x : spec_float) : str :=
  match x with
  | S754_zero s => sign_text s ++ lit "z"
  | S754_infinity s => sign_text s ++ lit "i"
  | S754_nan => lit "n"
  | S754_finite s m e => sign_text s ++ i32_text (Zpos m) ++ lit "e" ++ i32_text e
  end.

Lemma pos_text m : exists c r, i32_text (Zpos m) = c :: r /\ digit c.
Proof.
  destruct (i32_text_spells (Zpos m)) as (neg & ds & E & Hn & Hd & _ & Hneg & _). destruct neg.
  - specialize (Hneg eq_refl). lia.
  - rewrite E. destruct ds as [|c ds]; [contradiction|]. inversion Hd; subst. eexists _, _. split; [reflexivity|assumption].
Qed.
Lemma texts_inj z z' : i32_text z = i32_text z' -> z = z'.
Proof. intros E. eapply spells_value; [apply i32_text_spells|]. rewrite E. apply i32_text_spells. Qed.
Lemma sign_split s s' a b c d : a <> 45%N -> c <> 45%N -> sign_text s ++ a :: b = sign_text s' ++ c :: d -> s = s' /\ a :: b = c :: d.
Proof. destruct s, s'; intros H1 H2 E; cbn in E; try injection E; intros; subst; try congruence; auto. Qed.
Lemma example_shape x : exists s c r, example_float x = sign_text s ++ c :: r /\ c <> 45%N /\
  match x with
  | S754_zero s' => s = s' /\ c = 122%N /\ r = []
  | S754_infinity s' => s = s' /\ c = 105%N /\ r = []
  | S754_nan => s = false /\ c = 110%N /\ r = []
  | S754_finite s' m e => s = s' /\ digit c /\ c :: r = i32_text (Zpos m) ++ lit "e" ++ i32_text e
  end.
Proof.
  destruct x as [s|s| |s m e]; cbn [example_float].
  - exists s, 122%N, []. repeat split; discriminate.
  - exists s, 105%N, []. repeat split; discriminate.
  - exists false, 110%N, []. repeat split; discriminate.
  - destruct (pos_text m) as (c & r & E & H). exists s, c, (r ++ lit "e" ++ i32_text e). rewrite E. cbn [app].
    repeat split; [|exact (proj1 H)|exact (proj2 H)]. unfold digit in H. lia.
Qed.
Theorem example_float_ok : float_texts example_float.
Proof.
  split.
  - intros x y E. destruct (example_shape x) as (s & c & r & E1 & H1 & M1), (example_shape y) as (s' & c' & r' & E2 & H2 & M2).
    rewrite E1, E2 in E. apply sign_split in E as [-> E]; auto. injection E as -> ->.
    destruct x as [a|a| |a m e], y as [a'|a'| |a' m' e']; destruct M1 as (-> & M1 & M1'), M2 as (Q & M2 & M2'); try congruence;
      try (subst; unfold digit in *; lia).
    rewrite M1' in M2'. apply (split_stop (fun c => digit c \/ c = 45%N)) in M2' as [F1 F2];
      [|apply (spells_chars _ (Zpos m)), i32_text_spells|apply (spells_chars _ (Zpos m')), i32_text_spells|unfold digit; cbn; lia|unfold digit; cbn; lia].
    apply texts_inj in F1. injection F2 as F2. apply texts_inj in F2. congruence.
  - intros x. split.
    + destruct (example_shape x) as (s & c & r & -> & _). destruct s; discriminate.
    + assert (T : forall z, Forall float_char (i32_text z)).
      { intros z. eapply Forall_impl; [|apply (spells_chars _ z), i32_text_spells]. unfold digit, float_char. intros. cbv beta in *. lia. }
      assert (S : forall s, Forall float_char (sign_text s)).
      { intros []; [apply Forall_cons; [unfold float_char; cbn; lia|]|]; apply Forall_nil. }
      assert (L : forall c, (97 <= c <= 122)%N -> Forall float_char [c]).
      { intros c H. apply Forall_cons; [unfold float_char; lia|apply Forall_nil]. }
      destruct x as [s|s| |s m e]; cbn [example_float]; rewrite ?Forall_app; repeat split; auto; apply L; cbn; lia.
Qed.
