(** Proofs about the lexer with 32-bit arithmetic. *)
From Coq Require Import String.
From Verif Require Import LexSpec LexBasics LexProofs StrFacts Lines ParseFuel RelabelProofs.
From Verif Require Export MachineSpec.
Local Open Scope Z_scope.

(** ** Arithmetic *)

Lemma as_i32_range z : - 2 ^ 31 <= as_i32 z < 2 ^ 31.
Proof. unfold as_i32. pose proof (Z.mod_pos_bound (z + 2 ^ 31) (2 ^ 32) eq_refl). lia. Qed.

Lemma as_i32_mod z : exists k, z = as_i32 z + k * 2 ^ 32.
Proof.
  unfold as_i32. exists ((z + 2 ^ 31) / 2 ^ 32).
  pose proof (Z.div_mod (z + 2 ^ 31) (2 ^ 32) ltac:(discriminate)). lia.
Qed.

Lemma held_unique z w w' : held z w -> held z w' -> w = w'.
Proof. intros [R [k E]] [R' [k' E']]. assert (k = k') by lia. lia. Qed.
Lemma as_i32_held z : held z (as_i32 z).
Proof. split; [apply as_i32_range|apply as_i32_mod]. Qed.
Lemma as_i32_iff z w : as_i32 z = w <-> held z w.
Proof. split; [intros <-; apply as_i32_held|apply held_unique, as_i32_held]. Qed.

Lemma as_i32_id z : - 2 ^ 31 <= z < 2 ^ 31 -> as_i32 z = z.
Proof. intro H. apply as_i32_iff. split; [exact H|]. exists 0. lia. Qed.

Lemma as_i32_add x y : as_i32 (as_i32 x + as_i32 y) = as_i32 (x + y).
Proof.
  apply as_i32_iff. destruct (as_i32_held (x + y)) as [R [k E]].
  destruct (as_i32_mod x) as [kx Ex], (as_i32_mod y) as [ky Ey].
  split; [exact R|]. exists (k - kx - ky). lia.
Qed.

Lemma add_fits b x y : - 2 ^ 31 <= x + y < 2 ^ 31 -> add_i32 b x y = Ret (x + y).
Proof.
  intro H. unfold add_i32, i32_min, i32_max.
  replace (-2147483648 <=? x + y) with true by (symmetry; apply Z.leb_le; lia).
  replace (x + y <=? 2147483647) with true by (symmetry; apply Z.leb_le; lia). reflexivity.
Qed.
Lemma add_checked x y : ~ - 2 ^ 31 <= x + y < 2 ^ 31 -> add_i32 Checked x y = Panic.
Proof.
  intro H. unfold add_i32, i32_min, i32_max.
  destruct (Z.leb_spec (-2147483648) (x + y)), (Z.leb_spec (x + y) 2147483647); cbn; try reflexivity. lia.
Qed.
Lemma add_wrapping x y : add_i32 Wrapping (as_i32 x) (as_i32 y) = Ret (as_i32 (x + y)).
Proof.
  unfold add_i32, i32_min, i32_max.
  destruct (Z.leb_spec (-2147483648) (as_i32 x + as_i32 y)), (Z.leb_spec (as_i32 x + as_i32 y) 2147483647);
    cbn [andb]; rewrite <- (as_i32_add x y); try reflexivity.
  rewrite (as_i32_id (as_i32 x + as_i32 y)) by lia. reflexivity.
Qed.

(** ** Number literals *)

Lemma number_position_short code : forall i d,
  Z.of_nat (i + length code) < 2 ^ 32 -> number_position_m i d code = number_position i d code.
Proof.
  induction code as [|c code IH]; intros i d H; [reflexivity|]. cbn [number_position_m number_position].
  cbn [length] in H.
  replace (as_i32 (Z.of_nat i) =? 0) with (Nat.eqb i 0).
  2: { destruct (Nat.eqb_spec i 0) as [->|N]; [reflexivity|]. symmetry. apply Z.eqb_neq. intro E.
       apply as_i32_iff in E. destruct E as [_ [k E]]. assert (0 < k < 1) by lia. lia. }
  rewrite !IH by lia. reflexivity.
Qed.

Lemma parse_number_short code : Z.of_nat (length code) < 2 ^ 32 -> parse_number_m code = parse_number code.
Proof. intro H. unfold parse_number_m, parse_number. rewrite number_position_short by exact H. reflexivity. Qed.

(** ** One step *)

Definition meets (b : build) (code : str) (p : position) (r rm : step_result) : Prop :=
  match r with
  | SSkip _ _ => True
  | SToken t code' _ => exists raw, code = raw ++ code' /\
      rm = match position_add_m b p raw with
           | Ret p' => SToken {| tok_type := tok_type t; tok_range := {| r_start := p; r_end := p' |} |} code' p'
           | Panic => SPanic
           end
  | SError _ =>
      rm = match position_add_m b p code with
           | Ret e => SError (UnclosedMultilineComment {| r_start := p; r_end := e |})
           | Panic => SPanic
           end
  | SPanic => rm = SPanic
  end.

Lemma meets_make b code p q raw ty rest : code = raw ++ rest ->
  meets b code p (of_make (make_token code q raw ty)) (of_make (make_token_m b code p raw ty)).
Proof.
  intros ->. unfold make_token, make_token_m. rewrite (slice_from_app raw rest) by reflexivity. cbn.
  exists raw. split; [reflexivity|]. destruct (position_add_m b p raw); reflexivity.
Qed.

Lemma meets_try {A} b code p q (m : outcome (option A)) raw ty k km :
  (forall a, m = Ret (Some a) -> exists rest, code = raw a ++ rest) ->
  meets b code p k km ->
  meets b code p (try_token code q m raw ty k) (try_token_m b code p m raw ty km).
Proof.
  intros H Hk. unfold try_token, try_token_m. destruct m as [[a|]|]; [|exact Hk|reflexivity].
  destruct (H a eq_refl) as [rest E]. exact (meets_make b code p q _ _ rest E).
Qed.

Lemma slice_to_prefix code n raw : slice_to code n = Ret raw -> exists rest, code = raw ++ rest.
Proof. intro H. destruct (slice_to_inv _ _ _ H) as (b & E & _). now exists b. Qed.
Lemma slice_prefix code n raw : slice code 0 n = Ret raw -> exists rest, code = raw ++ rest.
Proof. rewrite slice_0. apply slice_to_prefix. Qed.

Ltac pre := repeat match goal with
  | |- (if ?b then _ else _) = _ -> _ => destruct b
  | |- (match ?x with _ => _ end) = _ -> _ => destruct x eqn:?
  | |- obind ?x _ = _ -> _ => destruct x eqn:?; cbn [obind]
  end; try discriminate;
  let H := fresh in intro H; inversion H; subst; cbn [fst];
  solve [eapply slice_to_prefix; eassumption | eapply slice_prefix; eassumption | now exists []; rewrite app_nil_r].

Lemma one_char_prefix c code a : one_char c code = Ret (Some a) -> exists rest, code = a ++ rest.
Proof. unfold one_char. pre. Qed.
Lemma slot_prefix code a : parse_bukkit_slot_access code = Ret (Some a) -> exists rest, code = a ++ rest.
Proof. unfold parse_bukkit_slot_access. pre. Qed.
Lemma ellipsis_prefix code a : parse_ellipsis code = Ret (Some a) -> exists rest, code = a ++ rest.
Proof. unfold parse_ellipsis. pre. Qed.
Lemma boolean_prefix code a : parse_boolean code = Ret (Some a) -> exists rest, code = fst a ++ rest.
Proof. unfold parse_boolean. pre. Qed.
Lemma noob_prefix code a : parse_noob code = Ret (Some a) -> exists rest, code = a ++ rest.
Proof. unfold parse_noob. pre. Qed.
Lemma keyword_prefix code a : parse_keyword code = Ret (Some a) -> exists rest, code = fst a ++ rest.
Proof. unfold parse_keyword. pre. Qed.
Lemma number_prefix code a : parse_number code = Ret (Some a) -> exists rest, code = fst a ++ rest.
Proof. unfold parse_number. pre. Qed.
Lemma string_prefix code a : parse_string code = Ret (Some a) -> exists rest, code = fst a ++ rest.
Proof. unfold parse_string. pre. Qed.
Lemma identifier_prefix code a : parse_identifier code = Ret (Some a) -> exists rest, code = a ++ rest.
Proof. unfold parse_identifier. pre. Qed.
Lemma single_prefix code a : parse_single_line_comment code = Ret (Some a) -> exists rest, code = fst a ++ rest.
Proof. unfold parse_single_line_comment. pre. Qed.
Lemma multi_prefix code raw s : parse_multi_line_comment code = Ret (MlSome raw s) -> exists rest, code = raw ++ rest.
Proof. unfold parse_multi_line_comment. pre. Qed.

Lemma ws_stop_m b code p : ~ starts ws code -> parse_whitespace_m b code p = Ret (O, p).
Proof.
  intro H. destruct code as [|c s]; [reflexivity|]. cbn [parse_whitespace_m].
  assert (Hc : ~ ws c) by (intros Hc; apply H; exists c, s; auto).
  rewrite is_ws_char in Hc. destruct (N.eqb c c_nl); [cbn in Hc; congruence|].
  destruct (N.eqb c c_space || N.eqb c c_tab); [cbn in Hc; congruence|reflexivity].
Qed.

Lemma step_meets b code p q : ~ starts ws code -> Z.of_nat (length code) < 2 ^ 32 ->
  meets b code p (lex_step code q) (lex_step_m b code p).
Proof.
  intros Hw Hl. unfold lex_step, lex_step_m.
  rewrite parse_whitespace_stop, ws_stop_m by exact Hw. cbn [Nat.ltb Nat.leb].
  rewrite parse_number_short by exact Hl.
  apply meets_try; [intro; apply one_char_prefix|].
  apply meets_try; [intro; apply one_char_prefix|].
  apply meets_try; [intro; apply one_char_prefix|].
  apply meets_try; [intro; apply single_prefix|].
  destruct (parse_multi_line_comment code) as [[| |raw s]|] eqn:M; [reflexivity| | |reflexivity].
  2: { destruct (multi_prefix _ _ _ M) as [rest E]. exact (meets_make b code p q _ _ rest E). }
  apply meets_try; [intro; apply slot_prefix|].
  apply meets_try; [intro; apply ellipsis_prefix|].
  apply meets_try; [intro; apply boolean_prefix|].
  apply meets_try; [intro; apply noob_prefix|].
  apply meets_try; [intro; apply keyword_prefix|].
  apply meets_try; [intro; apply number_prefix|].
  apply meets_try; [intro; apply string_prefix|].
  apply meets_try; [intro; apply identifier_prefix|].
  destruct (slice_to code 1) as [raw|] eqn:S; [|reflexivity].
  destruct (slice_to_prefix _ _ _ S) as [rest E]. exact (meets_make b code p q _ _ rest E).
Qed.

Theorem step_token_m b raw rest ty p : TokText raw rest ty -> Z.of_nat (length (raw ++ rest)) < 2 ^ 32 ->
  lex_step_m b (raw ++ rest) p =
  match position_add_m b p raw with
  | Ret p' => SToken {| tok_type := ty; tok_range := {| r_start := p; r_end := p' |} |} rest p'
  | Panic => SPanic
  end.
Proof.
  intros Ht Hl. pose proof (step_meets b (raw ++ rest) p p (TokText_not_ws _ _ _ Ht) Hl) as H.
  rewrite (step_token _ _ _ _ Ht) in H. unfold stoken in H. cbn [meets] in H.
  destruct H as (raw' & E & ->). apply app_inv_tail in E. subst raw'. reflexivity.
Qed.

Theorem step_error_m b code p : UnclosedComment code -> Z.of_nat (length code) < 2 ^ 32 ->
  lex_step_m b code p =
  match position_add_m b p code with
  | Ret e => SError (UnclosedMultilineComment {| r_start := p; r_end := e |})
  | Panic => SPanic
  end.
Proof.
  intros He Hl. assert (~ starts ws code) as Hw by (apply stuck_not_ws; unfold Stuck; tauto).
  pose proof (step_meets b code p p Hw Hl) as H.
  rewrite (step_error _ _ He) in H. exact H.
Qed.

Theorem step_panic_m b code p : PanicsAt code -> Z.of_nat (length code) < 2 ^ 32 ->
  lex_step_m b code p = SPanic.
Proof.
  intros He Hl. assert (~ starts ws code) as Hw by (apply stuck_not_ws; unfold Stuck; tauto).
  pose proof (step_meets b code p p Hw Hl) as H.
  rewrite (step_panic _ _ He) in H. exact H.
Qed.

(** ** Whitespace *)

Definition ws1_m (b : build) (p : position) (c : char) : outcome position :=
  if N.eqb c c_nl then
    obind (add_i32 b (line p) 1) (fun l =>
    obind (add_i32 b (bytes p) 1) (fun bs =>
    obind (add_i32 b (chars p) 1) (fun cs =>
    Ret {| line := l; column := 1; bytes := bs; chars := cs |})))
  else
    obind (add_i32 b (column p) 1) (fun col =>
    obind (add_i32 b (bytes p) 1) (fun bs =>
    obind (add_i32 b (chars p) 1) (fun cs =>
    Ret {| line := line p; column := col; bytes := bs; chars := cs |}))).
Fixpoint ws_m (b : build) (p : position) (gs : str) : outcome position :=
  match gs with
  | [] => Ret p
  | c :: gs' => obind (ws1_m b p c) (fun p' => ws_m b p' gs')
  end.

Lemma ws_cons_m b c s p : ws c ->
  parse_whitespace_m b (c :: s) p =
  obind (ws1_m b p c) (fun p' => obind (parse_whitespace_m b s p') (fun r => Ret (S (fst r), snd r))).
Proof.
  intro Hc. cbn [parse_whitespace_m]. unfold ws1_m. rewrite (utf8_len_lt c (ws_ascii c Hc)).
  change (as_i32 (Z.of_nat 1)) with 1. rewrite is_ws_char in Hc.
  destruct (N.eqb c c_nl).
  - destruct (add_i32 b (line p) 1); [|reflexivity]. cbn [obind].
    destruct (add_i32 b (bytes p) 1); [|reflexivity]. cbn [obind].
    destruct (add_i32 b (chars p) 1); reflexivity.
  - cbn [orb] in Hc. rewrite Hc.
    destruct (add_i32 b (column p) 1); [|reflexivity]. cbn [obind].
    destruct (add_i32 b (bytes p) 1); [|reflexivity]. cbn [obind].
    destruct (add_i32 b (chars p) 1); reflexivity.
Qed.

Lemma ws_run_m b gs s : forall p, Forall ws gs -> ~ starts ws s ->
  parse_whitespace_m b (gs ++ s) p = obind (ws_m b p gs) (fun p' => Ret (length gs, p')).
Proof.
  induction gs as [|c gs IH]; intros p Hg Hs; cbn [app ws_m length].
  - rewrite ws_stop_m by assumption. reflexivity.
  - inversion Hg; subst. rewrite ws_cons_m by assumption.
    destruct (ws1_m b p c) as [p'|]; [|reflexivity]. cbn [obind]. rewrite IH by assumption.
    destruct (ws_m b p' gs); reflexivity.
Qed.

Lemma step_ws_m b gs s p : gs <> [] -> Forall ws gs -> ~ starts ws s ->
  lex_step_m b (gs ++ s) p =
  match ws_m b p gs with Ret p' => SSkip s p' | Panic => SPanic end.
Proof.
  intros Hne Hg Hs. unfold lex_step_m. rewrite ws_run_m by assumption.
  destruct (ws_m b p gs) as [p'|]; [|reflexivity]. cbn [obind].
  destruct gs as [|c gs]; [contradiction|]. cbn [length Nat.ltb Nat.leb].
  rewrite slice_from_app; [reflexivity|]. symmetry. apply (byte_len_ascii (c :: gs)).
  apply (forallb_Forall is_ascii (fun c => (c < 128)%N)); [apply is_ascii_iff|].
  eapply Forall_impl; [|exact Hg]. apply ws_ascii.
Qed.

(** ** Short sources: the arithmetic makes no difference *)

Local Notation len s := (Z.of_nat (length s)).
Local Notation blen s := (Z.of_nat (byte_len s)).

(** Enough room for the rest of the source. *)
Definition room (p : position) (code : str) : Prop :=
  0 <= line p /\ 0 <= column p /\ 0 <= bytes p /\ 0 <= chars p /\
  line p + len code < 2 ^ 31 /\ column p + blen code < 2 ^ 31 /\
  bytes p + blen code < 2 ^ 31 /\ chars p + len code < 2 ^ 31 /\ 1 + blen code < 2 ^ 31.

Lemma len_blen s : len s <= blen s.
Proof. pose proof (byte_len_ge s). lia. Qed.

Lemma add_room b p raw rest : room p (raw ++ rest) ->
  position_add_m b p raw = Ret (position_add p raw) /\ room (position_add p raw) rest.
Proof.
  intros (H1 & H2 & H3 & H4 & H5 & H6 & H7 & H8 & H9).
  rewrite app_length in *. rewrite byte_len_app in *.
  pose proof (len_blen raw). pose proof (len_blen rest).
  split.
  - unfold position_add_m. rewrite !as_i32_id by lia.
    rewrite !add_fits by lia. reflexivity.
  - unfold room, position_add. cbn [line column bytes chars]. repeat split; lia.
Qed.

Lemma ws1_room b p c rest : ws c -> room p (c :: rest) ->
  ws1_m b p c = Ret (ws_pos1 p c) /\ room (ws_pos1 p c) rest.
Proof.
  intros Hc (H1 & H2 & H3 & H4 & H5 & H6 & H7 & H8 & H9).
  cbn [length byte_len] in *. rewrite (utf8_len_lt c (ws_ascii c Hc)) in *.
  pose proof (len_blen rest). unfold ws1_m, ws_pos1, newline, c_nl.
  destruct (N.eqb c 10).
  - rewrite !add_fits by lia. split; [reflexivity|].
    unfold room. cbn [line column bytes chars]. repeat split; lia.
  - rewrite !add_fits by lia. unfold position_add. cbn [byte_len length].
    rewrite (utf8_len_lt c (ws_ascii c Hc)). split; [reflexivity|].
    unfold room. cbn [line column bytes chars]. repeat split; lia.
Qed.

Lemma ws_room b gs rest : Forall ws gs -> forall p, room p (gs ++ rest) ->
  ws_m b p gs = Ret (ws_pos p gs) /\ room (ws_pos p gs) rest.
Proof.
  induction 1 as [|c gs Hc _ IH]; intros p H; cbn [ws_m app] in *; [split; [reflexivity|exact H]|].
  destruct (ws1_room b p c (gs ++ rest) Hc H) as [-> H']. exact (IH _ H').
Qed.

Lemma room_length p code : room p code -> Z.of_nat (length code) < 2 ^ 32.
Proof. intros (_ & _ & _ & _ & _ & _ & _ & _ & H). pose proof (len_blen code). lia. Qed.

Theorem loop_same b fuel : forall code p, room p code ->
  tokenize_loop_m b fuel code p = tokenize_loop fuel code p.
Proof.
  induction fuel as [|fuel IH]; intros code p H; [reflexivity|]. cbn [tokenize_loop_m tokenize_loop].
  destruct code as [|c s] eqn:Ec; [reflexivity|]. rewrite <- Ec in *.
  pose proof (room_length _ _ H) as Hl.
  destruct (step_exhaustive code) as [E|[Hw|[(raw & rest & ty & E & Ht)|[He|Hp]]]].
  - congruence.
  - destruct (ws_split code) as (gs & r & E & Hg & Hr).
    assert (Hne : gs <> []) by (intros ->; apply Hr; cbn in E; rewrite <- E; exact Hw).
    rewrite E in *. rewrite step_ws, step_ws_m by assumption.
    destruct (ws_room b gs r Hg p H) as [-> H']. exact (IH _ _ H').
  - rewrite E in *. rewrite (step_token _ _ _ _ Ht), (step_token_m b _ _ _ _ Ht Hl). unfold stoken.
    destruct (add_room b p raw rest H) as [-> H']. rewrite (IH _ _ H'). reflexivity.
  - rewrite step_error, step_error_m by assumption.
    destruct (add_room b p code []) as [-> _]; [now rewrite app_nil_r|]. reflexivity.
  - rewrite step_panic, step_panic_m by assumption. reflexivity.
Qed.

Theorem tokenize_same b code : blen code < 2 ^ 31 - 1 -> tokenize_m b code = tokenize code.
Proof.
  intro H. apply loop_same. pose proof (len_blen code).
  unfold room, position_start. cbn [line column bytes chars]. repeat split; lia.
Qed.

Theorem api_same b code : blen code < 2 ^ 31 - 1 -> tokenize_and_parse_m b code = tokenize_and_parse code.
Proof. intro H. unfold tokenize_and_parse_m, tokenize_and_parse. rewrite tokenize_same by exact H. reflexivity. Qed.

(** ** Wrapping builds *)

Lemma add_cut p raw : position_add_m Wrapping (cut_position p) raw = Ret (cut_position (position_add p raw)).
Proof.
  unfold position_add_m, cut_position, position_add. cbn [line column bytes chars].
  rewrite !add_wrapping. reflexivity.
Qed.

Lemma add_wrapping_1 x : add_i32 Wrapping (as_i32 x) 1 = Ret (as_i32 (x + 1)).
Proof. exact (add_wrapping x 1). Qed.

Lemma ws1_cut p c : ws c -> ws1_m Wrapping (cut_position p) c = Ret (cut_position (ws_pos1 p c)).
Proof.
  intro Hc. unfold ws1_m, ws_pos1, cut_position, newline, c_nl. cbn [line column bytes chars].
  destruct (N.eqb c 10); rewrite !add_wrapping_1; [reflexivity|].
  unfold position_add. cbn [line column bytes chars byte_len length].
  rewrite (utf8_len_lt c (ws_ascii c Hc)). reflexivity.
Qed.

Lemma ws_cut gs : Forall ws gs -> forall p, ws_m Wrapping (cut_position p) gs = Ret (cut_position (ws_pos p gs)).
Proof.
  induction 1 as [|c gs Hc _ IH]; intro p; [reflexivity|]. cbn [ws_m]. rewrite ws1_cut by exact Hc. exact (IH _).
Qed.

Theorem loop_cut fuel : forall code p, len code < 2 ^ 32 ->
  tokenize_loop_m Wrapping fuel code (cut_position p) = cut_lex (tokenize_loop fuel code p).
Proof.
  induction fuel as [|fuel IH]; intros code p Hl; [reflexivity|]. cbn [tokenize_loop_m tokenize_loop].
  destruct code as [|c s] eqn:Ec; [reflexivity|]. rewrite <- Ec in *.
  destruct (step_exhaustive code) as [E|[Hw|[(raw & rest & ty & E & Ht)|[He|Hp]]]].
  - congruence.
  - destruct (ws_split code) as (gs & r & E & Hg & Hr).
    assert (Hne : gs <> []) by (intros ->; apply Hr; cbn in E; rewrite <- E; exact Hw).
    rewrite E in *. rewrite step_ws, step_ws_m by assumption. rewrite ws_cut by exact Hg.
    apply IH. rewrite app_length in Hl. lia.
  - rewrite E in *. rewrite (step_token _ _ _ _ Ht), (step_token_m _ _ _ _ _ Ht Hl). unfold stoken.
    rewrite add_cut. rewrite IH by (rewrite app_length in Hl; lia).
    destruct (tokenize_loop fuel rest (position_add p raw)); reflexivity.
  - rewrite step_error, step_error_m by assumption. rewrite add_cut. reflexivity.
  - rewrite step_panic, step_panic_m by assumption. reflexivity.
Qed.

Theorem tokenize_cut code : len code < 2 ^ 32 ->
  tokenize_m Wrapping code = cut_lex (tokenize code).
Proof. intro H. exact (loop_cut (S (length code)) code position_start H). Qed.

(** ** Wrapping builds: the AST *)

Lemma ws_lines gs : forall p, line p <= line (ws_pos p gs) <= line p + len gs.
Proof.
  induction gs as [|c gs IH]; intro p; cbn [length]; [cbn; lia|].
  change (ws_pos p (c :: gs)) with (ws_pos (ws_pos1 p c) gs).
  specialize (IH (ws_pos1 p c)).
  assert (line p <= line (ws_pos1 p c) <= line p + 1)
    by (unfold ws_pos1; destruct (N.eqb c newline); cbn; lia). lia.
Qed.

Lemma loop_lines fuel : forall code p ts, tokenize_loop fuel code p = LexOk ts ->
  Forall (fun t => line p <= tok_line t <= line p + len code) ts.
Proof.
  induction fuel as [|fuel IH]; intros code p ts; [discriminate|]. cbn [tokenize_loop].
  destruct code as [|c s] eqn:Ec; [intro H; inversion H; constructor|]. rewrite <- Ec in *.
  destruct (step_exhaustive code) as [E|[Hw|[(raw & rest & ty & E & Ht)|[He|Hp]]]].
  - congruence.
  - destruct (ws_split code) as (gs & r & E & Hg & Hr).
    assert (Hne : gs <> []) by (intros ->; apply Hr; cbn in E; rewrite <- E; exact Hw).
    rewrite E in *. rewrite step_ws by assumption. intro H. apply IH in H.
    pose proof (ws_lines gs p). rewrite app_length. eapply Forall_impl; [|exact H]. cbn. intros t Ht. lia.
  - rewrite E in *. rewrite (step_token _ _ _ _ Ht). unfold stoken.
    destruct (tokenize_loop fuel rest (position_add p raw)) as [ts'| | |] eqn:E'; try discriminate.
    cbn [lex_cons]. intro H. inversion H; subst ts. apply IH in E'. rewrite app_length. constructor.
    + unfold tok_line. cbn. lia.
    + eapply Forall_impl; [|exact E']. cbn. intros t Hx. lia.
  - rewrite step_error by assumption. discriminate.
  - rewrite step_panic by assumption. discriminate.
Qed.

Definition window (lo : Z) (t : token) : Prop := lo <= tok_line t < lo + 2 ^ 32.

Lemma cut_line_eq lo t u : window lo t -> window lo u ->
  (tok_line (cut_token t) =? tok_line (cut_token u)) = (tok_line t =? tok_line u).
Proof.
  unfold window. intros Ht Hu.
  change (tok_line (cut_token t)) with (as_i32 (tok_line t)).
  change (tok_line (cut_token u)) with (as_i32 (tok_line u)).
  destruct (Z.eqb_spec (tok_line t) (tok_line u)) as [->|N]; [apply Z.eqb_refl|].
  apply Z.eqb_neq. intro E. apply N.
  destruct (as_i32_mod (tok_line t)) as [k Ek], (as_i32_mod (tok_line u)) as [k' Ek'].
  rewrite E in Ek. assert (k = k') by lia. lia.
Qed.

Lemma chunks_cut lo ts : Forall (window lo) ts ->
  chunks (map cut_token ts) = map (map cut_token) (chunks ts) /\ Forall (Forall (window lo)) (chunks ts).
Proof.
  induction 1 as [|t ts Ht _ [E F]]; [split; [reflexivity|constructor]|]. cbn [map chunks]. rewrite E.
  destruct (chunks ts) as [|[|u g] gs]; cbn [map].
  - split; [reflexivity|]. apply Forall_cons; [apply Forall_cons; [exact Ht|constructor]|constructor].
  - split; [reflexivity|]. apply Forall_cons; [apply Forall_cons; [exact Ht|constructor]|]. constructor.
  - inversion F as [|? ? Fg Fgs]; subst. inversion Fg as [|? ? Hu Fg']; subst.
    assert (J : joined (cut_token t) (cut_token u) = joined t u)
      by (unfold joined; rewrite (cut_line_eq lo t u Ht Hu); reflexivity).
    rewrite J. destruct (joined t u); split; try reflexivity.
    + constructor; [constructor; assumption|exact Fgs].
    + constructor; [apply Forall_cons; [exact Ht|constructor]|constructor; assumption].
Qed.

Lemma filter_map_comm {A} (f : A -> A) (p : A -> bool) l :
  (forall x, p (f x) = p x) -> filter p (map f l) = map f (filter p l).
Proof. intro H. induction l as [|x l IH]; cbn; [reflexivity|]. rewrite H. destruct (p x); cbn; now rewrite IH. Qed.

Lemma statements_cut lo ts : Forall (window lo) ts ->
  statements (map cut_token ts) = map (map cut_token) (statements ts).
Proof.
  intro H. unfold statements. rewrite (proj1 (chunks_cut lo ts H)).
  assert (E : forall g : list token, existsb is_comma (map cut_token g) = existsb is_comma g)
    by (induction g as [|x g IH]; cbn; [reflexivity|]; now rewrite IH).
  rewrite (filter_map_comm (map cut_token)) by (intro g; now rewrite E).
  rewrite !map_map. apply map_ext. intro g.
  apply filter_map_comm. reflexivity.
Qed.

Lemma lines_cut lo ts : Forall (window lo) ts ->
  logical_lines (map cut_token ts) = map (map cut_token) (logical_lines ts).
Proof.
  intro H. pose proof (statements_cut lo ts H) as E. destruct ts as [|t ts]; [reflexivity|].
  unfold logical_lines. cbn [map] in E |- *. rewrite E.
  change (is_comma (cut_token t)) with (is_comma t). destruct (is_comma t); reflexivity.
Qed.

Theorem parse_cut lo ts : Forall (window lo) ts ->
  parse (map cut_token ts) = map_result cut_token (parse ts).
Proof.
  intro H. rewrite !parse_logical_lines, (lines_cut lo ts H).
  apply parse_logical_map. reflexivity.
Qed.

Theorem api_cut code : len code < 2 ^ 32 ->
  tokenize_and_parse_m Wrapping code = cut_api (tokenize_and_parse code).
Proof.
  intro H. unfold tokenize_and_parse_m, tokenize_and_parse. rewrite tokenize_cut by exact H.
  destruct (tokenize code) as [ts| | |] eqn:E; cbn [cut_lex]; try reflexivity.
  assert (W : Forall (window 1) ts).
  { unfold tokenize in E. apply loop_lines in E. eapply Forall_impl; [|exact E].
    intros t Ht. cbn beta in Ht. change (line position_start) with 1 in Ht. unfold window. unfold str, char in *. lia. }
  rewrite (parse_cut 1 ts W). destruct (parse ts); reflexivity.
Qed.

(** ** Checked builds *)

Definition fits (p : position) : Prop :=
  0 <= line p < 2 ^ 31 /\ 0 <= column p < 2 ^ 31 /\ 0 <= bytes p < 2 ^ 31 /\ 0 <= chars p < 2 ^ 31.

Lemma add_cases x y : 0 <= x -> 0 <= y ->
  (add_i32 Checked x y = Ret (x + y) /\ x + y < 2 ^ 31) \/ add_i32 Checked x y = Panic.
Proof.
  intros Hx Hy. destruct (Z_lt_ge_dec (x + y) (2 ^ 31)).
  - left. split; [apply add_fits; lia|assumption].
  - right. apply add_checked. lia.
Qed.

Lemma position_add_checked p raw : fits p -> blen raw < 2 ^ 31 ->
  (position_add_m Checked p raw = Ret (position_add p raw) /\ fits (position_add p raw)) \/
  position_add_m Checked p raw = Panic.
Proof.
  intros (H1 & H2 & H3 & H4) Hr. pose proof (len_blen raw). unfold position_add_m.
  rewrite !as_i32_id by lia.
  destruct (add_cases (column p) (blen raw)) as [[-> A]| ->]; [lia|lia| |now right]. cbn [obind].
  destruct (add_cases (chars p) (len raw)) as [[-> B]| ->]; [lia|lia| |now right]. cbn [obind].
  destruct (add_cases (bytes p) (blen raw)) as [[-> C]| ->]; [lia|lia| |now right]. cbn [obind].
  left. split; [reflexivity|]. unfold fits, position_add. cbn [line column bytes chars]. repeat split; lia.
Qed.

Lemma ws1_checked p c : ws c -> fits p ->
  (ws1_m Checked p c = Ret (ws_pos1 p c) /\ fits (ws_pos1 p c)) \/ ws1_m Checked p c = Panic.
Proof.
  intros Hc (H1 & H2 & H3 & H4). unfold ws1_m, ws_pos1, newline, c_nl, position_add.
  cbn [byte_len length]. rewrite (utf8_len_lt c (ws_ascii c Hc)).
  destruct (N.eqb c 10).
  - destruct (add_cases (line p) 1) as [[-> A]| ->]; [lia|lia| |now right]. cbn [obind].
    destruct (add_cases (bytes p) 1) as [[-> B]| ->]; [lia|lia| |now right]. cbn [obind].
    destruct (add_cases (chars p) 1) as [[-> C]| ->]; [lia|lia| |now right]. cbn [obind].
    left. split; [reflexivity|]. unfold fits. cbn [line column bytes chars]. repeat split; lia.
  - destruct (add_cases (column p) 1) as [[-> A]| ->]; [lia|lia| |now right]. cbn [obind].
    destruct (add_cases (bytes p) 1) as [[-> B]| ->]; [lia|lia| |now right]. cbn [obind].
    destruct (add_cases (chars p) 1) as [[-> C]| ->]; [lia|lia| |now right]. cbn [obind].
    left. split; [reflexivity|]. unfold fits. cbn [line column bytes chars]. repeat split; lia.
Qed.

Lemma ws_checked gs : Forall ws gs -> forall p, fits p ->
  (ws_m Checked p gs = Ret (ws_pos p gs) /\ fits (ws_pos p gs)) \/ ws_m Checked p gs = Panic.
Proof.
  induction 1 as [|c gs Hc _ IH]; intros p Hp; [left; split; [reflexivity|exact Hp]|]. cbn [ws_m].
  destruct (ws1_checked p c Hc Hp) as [[-> F]| ->]; [exact (IH _ F)|now right].
Qed.

Lemma ws_bytes gs : Forall ws gs -> forall p, bytes (ws_pos p gs) = bytes p + blen gs.
Proof.
  induction 1 as [|c gs Hc _ IH]; intro p; [cbn; lia|].
  change (ws_pos p (c :: gs)) with (ws_pos (ws_pos1 p c) gs). rewrite IH.
  cbn [byte_len]. unfold ws_pos1, position_add. cbn [byte_len]. rewrite (utf8_len_lt c (ws_ascii c Hc)).
  destruct (N.eqb c newline); cbn [bytes]; lia.
Qed.

Theorem loop_checked fuel : forall code p ts, tokenize_loop fuel code p = LexOk ts ->
  Forall (fun t => token_bytes t < 2 ^ 31) ts -> len code < 2 ^ 32 -> fits p ->
  (tokenize_loop_m Checked fuel code p = LexOk ts /\ bytes p + blen code < 2 ^ 31) \/
  tokenize_loop_m Checked fuel code p = LexPanic.
Proof.
  induction fuel as [|fuel IH]; intros code p ts; [discriminate|]. cbn [tokenize_loop tokenize_loop_m].
  destruct code as [|c s] eqn:Ec.
  { intros H _ _ (_ & _ & F & _). left. split; [exact H|]. cbn. lia. }
  rewrite <- Ec in *. intros H Hs Hl Hp.
  destruct (step_exhaustive code) as [E|[Hw|[(raw & rest & ty & E & Ht)|[He|He]]]].
  - congruence.
  - destruct (ws_split code) as (gs & r & E & Hg & Hr).
    assert (Hne : gs <> []) by (intros ->; apply Hr; cbn in E; rewrite <- E; exact Hw).
    rewrite E in *. rewrite step_ws in H by assumption. rewrite step_ws_m by assumption.
    destruct (ws_checked gs Hg p Hp) as [[-> F]| ->]; [|now right].
    pose proof (ws_bytes gs Hg p) as B. rewrite byte_len_app. rewrite app_length in Hl.
    destruct (IH r (ws_pos p gs) ts H Hs ltac:(lia) F) as [[-> G]|G]; [left; split; [reflexivity|lia]|now right].
  - rewrite E in *. rewrite (step_token _ _ _ _ Ht) in H. rewrite (step_token_m _ _ _ _ _ Ht Hl). unfold stoken in H.
    destruct (tokenize_loop fuel rest (position_add p raw)) as [ts'| | |] eqn:E'; try discriminate.
    cbn [lex_cons] in H. inversion H; subst ts; clear H. inversion Hs as [|? ? Hb Hs']; subst.
    unfold token_bytes in Hb. cbn [tok_range r_end r_start position_add bytes] in Hb.
    destruct (position_add_checked p raw Hp ltac:(lia)) as [[-> F]| ->]; [|now right].
    rewrite app_length in Hl.
    destruct (IH rest (position_add p raw) ts' E' Hs' ltac:(lia) F) as [[-> G]| ->]; [|now right].
    left. split; [reflexivity|]. rewrite byte_len_app. cbn [position_add bytes] in G. lia.
  - rewrite step_error in H by assumption. discriminate.
  - rewrite step_panic in H by assumption. discriminate.
Qed.

Theorem tokenize_checked code ts : tokenize code = LexOk ts ->
  Forall (fun t => token_bytes t < 2 ^ 31) ts -> len code < 2 ^ 32 ->
  (tokenize_m Checked code = LexOk ts /\ blen code < 2 ^ 31) \/ tokenize_m Checked code = LexPanic.
Proof.
  intros H Hs Hl. apply (loop_checked _ code position_start ts H Hs Hl).
  unfold fits, position_start. cbn [line column bytes chars]. lia.
Qed.

(** ** The bound is sharp *)

Lemma comment_m b s : ~ In newline s -> len (lit "BTW" ++ s) < 2 ^ 32 ->
  tokenize_m b (lit "BTW" ++ s) =
  match position_add_m b position_start (lit "BTW" ++ s) with
  | Ret p => LexOk [{| tok_type := TCommentSingleLine s; tok_range := {| r_start := position_start; r_end := p |} |}]
  | Panic => LexPanic
  end.
Proof.
  intros Hn Hl. unfold tokenize_m.
  assert (Ht : TokText (lit "BTW" ++ s) [] (TCommentSingleLine s)) by (apply tt_single_comment; [exact Hn|now left]).
  pose proof (step_token_m b _ _ _ position_start Ht) as E. rewrite app_nil_r in E. specialize (E Hl).
  cbn [lit app length] in E |- *. cbn [tokenize_loop_m]. rewrite E.
  destruct (position_add_m b position_start _); reflexivity.
Qed.

Lemma repeat_plain n : ~ In newline (repeat 65%N n).
Proof. intro H. apply repeat_spec in H. discriminate. Qed.
Lemma byte_len_repeat c n : (c < 128)%N -> byte_len (repeat c n) = n.
Proof. intro H. induction n as [|n IH]; cbn [repeat byte_len]; [reflexivity|]. rewrite utf8_len_lt, IH by exact H. reflexivity. Qed.

(** A comment that fills [2^31 - 1] bytes. *)
Theorem sharp : exists code ts, blen code = 2 ^ 31 - 1 /\ tokenize code = LexOk ts /\
  tokenize_m Checked code = LexPanic /\
  exists t, tokenize_m Wrapping code = LexOk [t] /\ column (r_end (tok_range t)) = - 2 ^ 31.
Proof.
  set (n := Z.to_nat (2 ^ 31 - 4)).
  assert (Hn : Z.of_nat n = 2 ^ 31 - 4) by (unfold n; apply Z2Nat.id; lia).
  clearbody n.
  set (s := repeat 65%N n : str). exists (lit "BTW" ++ s).
  assert (Hs : ~ In newline s) by apply repeat_plain.
  assert (Hb : blen (lit "BTW" ++ s) = 2 ^ 31 - 1).
  { rewrite byte_len_app. unfold s. rewrite byte_len_repeat by reflexivity. 
    change (byte_len (lit "BTW")) with 3%nat. rewrite Nat2Z.inj_add, Hn. reflexivity. }
  assert (Hl : len (lit "BTW" ++ s) = 2 ^ 31 - 1).
  { rewrite app_length. unfold s. rewrite repeat_length. change (length (lit "BTW")) with 3%nat. rewrite Nat2Z.inj_add, Hn. reflexivity. }
  assert (Ht : TokText (lit "BTW" ++ s) [] (TCommentSingleLine s)) by (apply tt_single_comment; [exact Hs|now left]).
  assert (Hl' : len (lit "BTW" ++ s) < 2 ^ 32) by (rewrite Hl; reflexivity).
  pose proof (comment_m Checked s Hs Hl') as Ec. pose proof (comment_m Wrapping s Hs Hl') as Ew.
  assert (Eo : exists ts, tokenize (lit "BTW" ++ s) = LexOk ts).
  { pose proof (step_token _ _ _ position_start Ht) as E. rewrite app_nil_r in E.
    unfold tokenize. cbn [lit app length] in E |- *. cbn [tokenize_loop]. rewrite E. unfold stoken. eexists. reflexivity. }
  destruct Eo as [ts Eo]. exists ts. split; [exact Hb|]. split; [exact Eo|].
  generalize dependent (lit "BTW" ++ s). intros code Hb Hl _ _ Ec Ew _.
  unfold position_add_m in Ec, Ew. rewrite Hb, Hl in Ec, Ew. split.
  - rewrite Ec. reflexivity.
  - eexists. split; [rewrite Ew; reflexivity|]. reflexivity.
Qed.

(** ** Numbers of [2^32] digits *)

Lemma digits_m n : forall i d r, number_position_m i d (repeat 48%N n ++ r) = number_position_m (i + n) d r.
Proof.
  induction n as [|n IH]; intros i d r; [now rewrite Nat.add_0_r|]. cbn [repeat app number_position_m].
  change (is_sign 48%N) with false. change (is_digit 48%N) with true. rewrite Bool.andb_false_r, IH.
  now rewrite Nat.add_succ_r.
Qed.
Lemma digits_pos n : forall i d r, number_position i d (repeat 48%N n ++ r) = number_position (i + n) d r.
Proof.
  induction n as [|n IH]; intros i d r; [now rewrite Nat.add_0_r|]. cbn [repeat app number_position].
  change (is_sign 48%N) with false. change (is_digit 48%N) with true. rewrite Bool.andb_false_r, IH.
  now rewrite Nat.add_succ_r.
Qed.

Lemma zero_step_m b rest p : parse_number_m (48%N :: rest) = Ret None ->
  lex_step_m b (48%N :: rest) p = of_make (make_token_m b (48%N :: rest) p [48%N] (TSymbol [48%N])).
Proof.
  intro H. unfold lex_step_m. rewrite H.
  rewrite (slice_to_app [48%N] rest 1 eq_refl : slice_to (48%N :: rest) 1 = Ret [48%N]). reflexivity.
Qed.
Lemma zero_step rest p raw n : parse_number (48%N :: rest) = Ret (Some (raw, n)) ->
  lex_step (48%N :: rest) p = of_make (make_token (48%N :: rest) p raw (TValue (VNumber n))).
Proof. intro H. unfold lex_step. rewrite H. reflexivity. Qed.

Lemma zeros_digits n : forallb is_digit (repeat 48%N n) = true.
Proof. induction n; [reflexivity|assumption]. Qed.
Lemma zeros_value n : digits_value 0 (repeat 48%N n) = 0.
Proof. induction n; [reflexivity|assumption]. Qed.

Lemma zeros_i32 n : parse_i32 (repeat 48%N (S n)) = Some 0.
Proof.
  transitivity (if forallb is_digit (repeat 48%N n) then
      let v := digits_value 0 (repeat 48%N n) in if (i32_min <=? v) && (v <=? i32_max) then Some v else None
    else None); [reflexivity|]. rewrite zeros_digits, zeros_value. reflexivity.
Qed.
Lemma zeros_minus n : parse_i32 (repeat 48%N (S n) ++ [45%N]) = None.
Proof.
  transitivity (if forallb is_digit (repeat 48%N n ++ [45%N]) then
      let v := digits_value 0 (repeat 48%N n ++ [45%N]) in if (i32_min <=? v) && (v <=? i32_max) then Some v else None
    else None); [reflexivity|]. rewrite forallb_app, zeros_digits. reflexivity.
Qed.

(** [2^32] zeros and a minus sign. *)
Lemma long_number_of n : Z.of_nat n = 2 ^ 32 - 1 -> exists code, len code = 2 ^ 32 + 2 /\
  (exists t ts, tokenize code = LexOk (t :: ts) /\ tok_type t = TValue (VNumber (Int 0))) /\
  (forall ts, tokenize_m Wrapping code = LexOk ts -> exists t ts', ts = t :: ts' /\ tok_type t = TSymbol [48%N]).
Proof.
  intro Hn.
  exists (repeat 48%N (S n) ++ [45%N; 44%N]). split; [|split].
  - rewrite app_length, repeat_length. cbn [length]. lia.
  - assert (Hp : parse_number (48%N :: repeat 48%N n ++ [45%N; 44%N]) = Ret (Some (repeat 48%N (S n), Int 0))).
    { change (48%N :: repeat 48%N n ++ [45%N; 44%N]) with (repeat 48%N (S n) ++ [45%N; 44%N] : str).
      unfold parse_number. rewrite digits_pos. cbn [Nat.add number_position Nat.eqb andb].
      change (is_digit 45%N) with false. change (negb false && N.eqb 45%N c_dot)%bool with false. cbn iota.
      rewrite slice_0, slice_to_app by (symmetry; apply byte_len_repeat; reflexivity). cbn [obind].
      rewrite zeros_i32. reflexivity. }
    unfold tokenize. cbn [repeat app length tokenize_loop]. rewrite (zero_step _ _ _ _ Hp).
    unfold make_token. change (48%N :: repeat 48%N n ++ [45%N; 44%N]) with (repeat 48%N (S n) ++ [45%N; 44%N] : str).
    rewrite slice_from_app by reflexivity. cbn [obind of_make].
    set (q := position_add position_start _). clearbody q.
    match goal with |- context [tokenize_loop ?L] => assert (El : exists f, L = S (S (S f))) end.
    { change (exists f, @length N (repeat 48%N n ++ [45%N; 44%N]) = S (S (S f))). rewrite app_length, repeat_length.
      cbn [length]. exists (n - 1)%nat. lia. }
    destruct El as [f ->]. eexists _, _. split; reflexivity.
  - assert (Hp : parse_number_m (48%N :: repeat 48%N n ++ [45%N; 44%N]) = Ret None).
    { change (48%N :: repeat 48%N n ++ [45%N; 44%N]) with (repeat 48%N (S n) ++ [45%N; 44%N] : str).
      unfold parse_number_m. rewrite digits_m. cbn [number_position_m].
      replace (as_i32 (Z.of_nat (0 + S n))) with 0 by (rewrite Nat2Z.inj_add, Nat2Z.inj_succ, Hn; reflexivity).
      change ((0 =? 0) && is_sign 45%N)%bool with true. cbn iota. 
      change (is_sign 44%N) with false. rewrite Bool.andb_false_r. change (is_digit 44%N) with false.
      change (negb false && N.eqb 44%N c_dot)%bool with false. cbn iota.
      change (repeat 48%N (S n) ++ [45%N; 44%N]) with (repeat 48%N (S n) ++ [45%N] ++ [44%N]). rewrite app_assoc.
      rewrite slice_0, slice_to_app. 2: { rewrite byte_len_app, byte_len_repeat by reflexivity. cbn. lia. }
      cbn [obind]. rewrite zeros_minus. reflexivity. }
    intro ts. unfold tokenize_m. cbn [repeat app length tokenize_loop_m]. rewrite (zero_step_m _ _ _ Hp).
    unfold make_token_m. destruct (position_add_m Wrapping position_start [48%N]) as [q|]; [|discriminate].
    cbn [obind]. destruct (slice_from _ _) as [c'|]; [|discriminate]. cbn [obind of_make].
    match goal with |- lex_cons _ ?m = _ -> _ => destruct m; try discriminate end. cbn [lex_cons]. intro H. inversion H.
    eexists _, _. split; reflexivity.
Qed.
Lemma long_nat : exists n, Z.of_nat n = 2 ^ 32 - 1.
Proof. exists (Z.to_nat (2 ^ 32 - 1)). apply Z2Nat.id. lia. Qed.
Theorem long_number : exists code, len code = 2 ^ 32 + 2 /\
  (exists t ts, tokenize code = LexOk (t :: ts) /\ tok_type t = TValue (VNumber (Int 0))) /\
  (forall ts, tokenize_m Wrapping code = LexOk ts -> exists t ts', ts = t :: ts' /\ tok_type t = TSymbol [48%N]).
Proof. destruct long_nat as [n Hn]. exact (long_number_of n Hn). Qed.
