(** Proofs about the characters that the lexer reads. *)
From Coq Require Import String.
From Verif Require Import StrFacts LexSpec LexPropSpec LexProofs.
From Verif Require Export LexCost.

Local Arguments cbind : simpl never.

Lemma fst_cbind {A B} (m : counted A) (f : A -> counted B) : fst (cbind m f) = fst (f (fst m)).
Proof. reflexivity. Qed.

Lemma snd_cbind {A B} (m : counted A) (f : A -> counted B) :
  snd (cbind m f) = snd m + snd (f (fst m)).
Proof. reflexivity. Qed.

Lemma fst_cread {A} n (m : counted A) : fst (cread n m) = fst m.
Proof. reflexivity. Qed.

Lemma snd_cread {A} n (m : counted A) : snd (cread n m) = n + snd m.
Proof. reflexivity. Qed.

Lemma fst_cret {A} (a : A) : fst (cret a) = a.
Proof. reflexivity. Qed.

Lemma snd_cret {A} (a : A) : snd (cret a) = 0.
Proof. reflexivity. Qed.

Create HintDb cnt.
#[local] Hint Rewrite @fst_cbind @snd_cbind @fst_cread @snd_cread @fst_cret @snd_cret : cnt.

(** ** The counted functions compute what the originals compute *)

Lemma starts_with_fst p : forall s, fst (starts_with_c p s) = starts_with p s.
Proof.
  induction p as [|a p IH]; intros [|b s]; cbn [starts_with_c starts_with]; autorewrite with cnt;
    try reflexivity.
  destruct (N.eqb a b); cbn [andb]; [apply IH|reflexivity].
Qed.
#[local] Hint Rewrite starts_with_fst : cnt.

Lemma find_fst p : forall s, fst (find_c p s) = find p s.
Proof.
  induction s as [|c s IH]; cbn [find_c find]; destruct (starts_with p _); try reflexivity.
  autorewrite with cnt. rewrite IH. reflexivity.
Qed.
#[local] Hint Rewrite find_fst : cnt.

Lemma count_while_fst p : forall s, fst (count_while_c p s) = count_while p s.
Proof.
  induction s as [|c s IH]; cbn [count_while_c count_while]; autorewrite with cnt; [reflexivity|].
  destruct (p c); autorewrite with cnt; [rewrite IH|]; reflexivity.
Qed.
#[local] Hint Rewrite count_while_fst : cnt.

Lemma number_position_fst : forall code i d,
  fst (number_position_c i d code) = number_position i d code.
Proof.
  induction code as [|c code IH]; intros i d; cbn [number_position_c number_position];
    autorewrite with cnt; [reflexivity|].
  destruct (_ && _); [apply IH|]. destruct (is_digit c); [apply IH|].
  destruct (_ && _); [apply IH|reflexivity].
Qed.
#[local] Hint Rewrite number_position_fst : cnt.

Lemma parse_number_fst code : fst (parse_number_c code) = parse_number code.
Proof.
  unfold parse_number_c, parse_number. autorewrite with cnt.
  destruct (number_position 0 false code) as [[n d]|]; [|reflexivity].
  destruct (slice code 0 n); reflexivity.
Qed.
#[local] Hint Rewrite parse_number_fst : cnt.

Lemma find_keyword_fst code : forall l,
  fst (find_keyword_c l code) = List.find (fun k => starts_with (to_string_slice k) code) l.
Proof.
  induction l as [|k l IH]; cbn [find_keyword_c List.find]; autorewrite with cnt; [reflexivity|].
  destruct (starts_with (to_string_slice k) code); [reflexivity|apply IH].
Qed.
#[local] Hint Rewrite find_keyword_fst : cnt.

Lemma parse_keyword_fst code : fst (parse_keyword_c code) = parse_keyword code.
Proof.
  unfold parse_keyword_c, parse_keyword. autorewrite with cnt.
  destruct (List.find _ all_symbols); reflexivity.
Qed.
#[local] Hint Rewrite parse_keyword_fst : cnt.

Lemma parse_identifier_fst code : fst (parse_identifier_c code) = parse_identifier code.
Proof. unfold parse_identifier_c, parse_identifier. autorewrite with cnt. reflexivity. Qed.
#[local] Hint Rewrite parse_identifier_fst : cnt.

Lemma string_end_fst : forall n s i, length s <= n -> fst (string_end_c i s) = string_end i s.
Proof.
  induction n as [|n IH]; intros s i Hn; destruct s as [|c s]; cbn [length] in Hn; try lia;
    try reflexivity.
  cbn [string_end_c string_end]. autorewrite with cnt.
  destruct (N.eqb c c_colon).
  - destruct s as [|c' s']; [reflexivity|]. cbn [length] in Hn.
    destruct (N.eqb c' c_quote); autorewrite with cnt; apply IH; cbn [length]; lia.
  - destruct (N.eqb c c_quote); [reflexivity|]. apply IH. lia.
Qed.

Lemma parse_string_fst code : fst (parse_string_c code) = parse_string code.
Proof.
  unfold parse_string_c, parse_string. destruct code as [|c s]; autorewrite with cnt.
  - reflexivity.
  - destruct (negb _); [reflexivity|]. autorewrite with cnt.
    rewrite (string_end_fst (length s)) by lia. reflexivity.
Qed.
#[local] Hint Rewrite parse_string_fst : cnt.

Lemma parse_bukkit_fst code : fst (parse_bukkit_slot_access_c code) = parse_bukkit_slot_access code.
Proof. unfold parse_bukkit_slot_access_c, parse_bukkit_slot_access. autorewrite with cnt. reflexivity. Qed.
#[local] Hint Rewrite parse_bukkit_fst : cnt.

Lemma parse_whitespace_fst : forall code p, fst (parse_whitespace_c code p) = parse_whitespace code p.
Proof.
  induction code as [|c code IH]; intros p; cbn [parse_whitespace_c parse_whitespace];
    autorewrite with cnt; [reflexivity|].
  destruct (N.eqb c c_nl); [|destruct (_ || _); [|reflexivity]];
    autorewrite with cnt; rewrite IH; destruct (parse_whitespace code _); reflexivity.
Qed.
#[local] Hint Rewrite parse_whitespace_fst : cnt.

Lemma parse_ellipsis_fst code : fst (parse_ellipsis_c code) = parse_ellipsis code.
Proof.
  unfold parse_ellipsis_c, parse_ellipsis. autorewrite with cnt.
  destruct (starts_with (lit "...") code); autorewrite with cnt; [reflexivity|].
  destruct (starts_with [c_ellipsis] code); reflexivity.
Qed.
#[local] Hint Rewrite parse_ellipsis_fst : cnt.

Lemma parse_boolean_fst code : fst (parse_boolean_c code) = parse_boolean code.
Proof.
  unfold parse_boolean_c, parse_boolean. autorewrite with cnt.
  destruct (starts_with (to_string_slice WIN) code); autorewrite with cnt; [reflexivity|].
  destruct (starts_with (to_string_slice FAIL) code); reflexivity.
Qed.
#[local] Hint Rewrite parse_boolean_fst : cnt.

Lemma parse_noob_fst code : fst (parse_noob_c code) = parse_noob code.
Proof. unfold parse_noob_c, parse_noob. autorewrite with cnt. reflexivity. Qed.
#[local] Hint Rewrite parse_noob_fst : cnt.

Lemma parse_single_fst code : fst (parse_single_line_comment_c code) = parse_single_line_comment code.
Proof.
  unfold parse_single_line_comment_c, parse_single_line_comment. autorewrite with cnt.
  destruct (starts_with (to_string_slice BTW) code); [|reflexivity]. autorewrite with cnt.
  destruct (slice _ _ _); reflexivity.
Qed.
#[local] Hint Rewrite parse_single_fst : cnt.

Lemma parse_multi_fst code : fst (parse_multi_line_comment_c code) = parse_multi_line_comment code.
Proof.
  unfold parse_multi_line_comment_c, parse_multi_line_comment. autorewrite with cnt.
  destruct (starts_with (to_string_slice OBTW) code); [|reflexivity]. autorewrite with cnt.
  destruct (find _ code); [|reflexivity]. destruct (slice _ _ _); reflexivity.
Qed.
#[local] Hint Rewrite parse_multi_fst : cnt.

Lemma one_char_fst c code : fst (one_char_c c code) = one_char c code.
Proof. unfold one_char_c, one_char. autorewrite with cnt. reflexivity. Qed.
#[local] Hint Rewrite one_char_fst : cnt.

Lemma try_token_fst {A} code p (m : counted (outcome (option A))) m' raw copied ty k k' :
  fst m = m' -> fst k = k' ->
  fst (try_token_c code p m raw copied ty k) = try_token code p m' raw ty k'.
Proof.
  intros <- <-. unfold try_token_c, try_token. autorewrite with cnt.
  destruct (fst m) as [[a|]|]; reflexivity.
Qed.

Lemma lex_step_fst code p : fst (lex_step_c code p) = lex_step code p.
Proof.
  unfold lex_step_c, lex_step. autorewrite with cnt.
  destruct (parse_whitespace code p) as [nws p']. destruct (Nat.ltb 0 nws); [reflexivity|].
  do 4 (apply try_token_fst; [autorewrite with cnt; reflexivity|]).
  autorewrite with cnt.
  destruct (parse_multi_line_comment code) as [[| |raw contents]|]; try reflexivity.
  do 8 (apply try_token_fst; [autorewrite with cnt; reflexivity|]).
  destruct (slice_to code 1); reflexivity.
Qed.

Lemma tokenize_loop_fst : forall fuel code p,
  fst (tokenize_loop_c fuel code p) = tokenize_loop fuel code p.
Proof.
  induction fuel as [|fuel IH]; intros code p; [reflexivity|].
  destruct code as [|c code]; [reflexivity|].
  cbn [tokenize_loop_c tokenize_loop]. autorewrite with cnt. rewrite lex_step_fst.
  destruct (lex_step (c :: code) p); autorewrite with cnt; try reflexivity; rewrite IH; reflexivity.
Qed.

Theorem tokenize_fst code : fst (tokenize_c code) = tokenize code.
Proof. apply tokenize_loop_fst. Qed.

(** ** What each step reads *)

Lemma starts_with_reads p : forall s, snd (starts_with_c p s) <= length p.
Proof.
  induction p as [|a p IH]; intros [|b s]; cbn [starts_with_c length]; autorewrite with cnt; try lia.
  destruct (N.eqb a b); autorewrite with cnt; [specialize (IH s)|]; lia.
Qed.

Lemma find_reads p : forall s,
  snd (find_c p s) <= match find p s with Some n => n + length p | None => length s end.
Proof.
  induction s as [|c s IH]; cbn [find_c find]; destruct (starts_with p _); autorewrite with cnt;
    cbn [snd length]; try lia.
  pose proof (utf8_len_pos c). destruct (find p s); lia.
Qed.

Lemma find_reads_all p : forall s, snd (find_c p s) <= length s.
Proof.
  induction s as [|c s IH]; cbn [find_c]; destruct (starts_with p _) eqn:E; autorewrite with cnt;
    cbn [snd length]; try lia; apply starts_with_inv in E; destruct E as [t E];
    apply (f_equal (@length _)) in E; rewrite app_length in E; cbn [length] in E; lia.
Qed.

Lemma count_while_reads p : forall s, snd (count_while_c p s) <= S (count_while p s).
Proof.
  induction s as [|c s IH]; cbn [count_while_c count_while]; autorewrite with cnt; [lia|].
  destruct (p c); autorewrite with cnt; lia.
Qed.

Lemma number_reads_position : forall code i d,
  match number_position i d code with
  | Some (n, _) => i + snd (number_position_c i d code) = S n
  | None => True
  end.
Proof.
  induction code as [|c code IH]; intros i d; cbn [number_position_c number_position];
    autorewrite with cnt; [exact I|].
  destruct (_ && _); [specialize (IH (S i) d); destruct (number_position (S i) d code) as [[? ?]|]; lia|].
  destruct (is_digit c); [specialize (IH (S i) d); destruct (number_position (S i) d code) as [[? ?]|]; lia|].
  destruct (_ && _).
  - specialize (IH (S i) true); destruct (number_position (S i) true code) as [[? ?]|]; lia.
  - autorewrite with cnt. lia.
Qed.

(** The characters that [parse_number] looks at. *)
Definition number_reads (code : str) : nat := snd (number_position_c 0 false code).

Lemma string_end_reads : forall n s i, length s <= n ->
  match string_end i s with
  | Some j => i + snd (string_end_c i s) = S j
  | None => snd (string_end_c i s) <= length s
  end.
Proof.
  induction n as [|n IH]; intros s i Hn; destruct s as [|c s]; cbn [length] in Hn; try lia;
    try (cbn; lia).
  cbn [string_end_c string_end]. autorewrite with cnt.
  destruct (N.eqb c c_colon).
  - destruct s as [|c' s']; [cbn; lia|]. cbn [length] in Hn.
    destruct (N.eqb c' c_quote); autorewrite with cnt.
    + specialize (IH s' (S (S i)) ltac:(lia)).
      destruct (string_end (S (S i)) s'); cbn [length]; lia.
    + specialize (IH (c' :: s') (S i) ltac:(cbn [length]; lia)).
      destruct (string_end (S i) (c' :: s')); cbn [length] in *; lia.
  - destruct (N.eqb c c_quote); [autorewrite with cnt; lia|].
    specialize (IH s (S i) ltac:(lia)). destruct (string_end (S i) s); cbn [length]; lia.
Qed.

Lemma string_end_reads_all : forall n s i, length s <= n -> snd (string_end_c i s) <= length s.
Proof.
  induction n as [|n IH]; intros s i Hn; destruct s as [|c s]; cbn [length] in Hn; try lia;
    try (cbn; lia).
  cbn [string_end_c]. autorewrite with cnt.
  destruct (N.eqb c c_colon).
  - destruct s as [|c' s']; [cbn; lia|]. cbn [length] in Hn.
    destruct (N.eqb c' c_quote); autorewrite with cnt.
    + specialize (IH s' (S (S i)) ltac:(lia)). cbn [length]; lia.
    + specialize (IH (c' :: s') (S i) ltac:(cbn [length]; lia)). cbn [length] in *; lia.
  - destruct (N.eqb c c_quote); [autorewrite with cnt; cbn [length]; lia|].
    specialize (IH s (S i) ltac:(lia)). cbn [length]; lia.
Qed.

Lemma whitespace_reads : forall code p,
  snd (parse_whitespace_c code p) <= S (fst (parse_whitespace code p)).
Proof.
  induction code as [|c code IH]; intros p; cbn [parse_whitespace_c parse_whitespace];
    autorewrite with cnt; [lia|].
  destruct (N.eqb c c_nl); [|destruct (_ || _); [|autorewrite with cnt; cbn; lia]];
    autorewrite with cnt; match goal with |- context [parse_whitespace code ?q] =>
      specialize (IH q); destruct (parse_whitespace code q) end; cbn [fst] in *; lia.
Qed.

(** What a sub-parser may read: a constant, and the text of the token twice; or,
    if it panics, the source twice. *)
Definition sub_ok {A} (code : str) (raw : A -> str) (K : nat) (m : counted (outcome (option A))) : Prop :=
  snd m <= K + match fst m with
               | Ret (Some a) => 2 * byte_len (raw a)
               | Ret None => 0
               | Panic => 2 * byte_len code
               end.

(** What a step may read: a constant, and four times the bytes it consumes; or,
    if it ends the run, four times the rest of the source. *)
Definition step_ok (code : str) (K : nat) (r : counted step_result) : Prop :=
  match fst r with
  | SSkip code' _ | SToken _ code' _ => snd r + 4 * byte_len code' <= K + 4 * byte_len code
  | SError _ | SPanic => snd r <= K + 4 * byte_len code
  end.

Lemma make_token_ok' code p raw copied ty n K : n <= K + 2 * byte_len raw -> byte_len raw <= byte_len code ->
  length copied <= byte_len raw ->
  step_ok code K (cread n (make_token_c code p raw copied ty)).
Proof.
  intros Hn Hr Hc. unfold step_ok, make_token_c. autorewrite with cnt.
  pose proof (byte_len_ge raw) as Hl. unfold make_token.
  destruct (slice_from code (byte_len raw)) as [code'|] eqn:E; cbn [obind of_make].
  - apply slice_from_inv in E. destruct E as (a & Ea & Hb). rewrite Ea, byte_len_app. lia.
  - lia.
Qed.

Lemma try_token_ok {A} code p (m : counted (outcome (option A))) raw copied ty k K1 K2 :
  sub_ok code raw K1 m ->
  (forall a, fst m = Ret (Some a) -> byte_len (raw a) <= byte_len code /\ length (copied a) <= byte_len (raw a)) ->
  step_ok code K2 k ->
  step_ok code (K1 + K2) (try_token_c code p m raw copied ty k).
Proof.
  unfold sub_ok, try_token_c, cbind. intros Hm Ha Hk.
  destruct (fst m) as [[a|]|].
  - destruct (Ha a eq_refl) as [H1 H2]. apply make_token_ok'; [lia|assumption|assumption].
  - unfold step_ok in *. autorewrite with cnt.
    destruct (fst k); lia.
  - unfold step_ok. autorewrite with cnt. lia.
Qed.

Lemma slice_to_le s n a : slice_to s n = Ret a -> byte_len a = n /\ byte_len a <= byte_len s.
Proof.
  intros H. apply slice_to_inv in H. destruct H as (b & -> & <-). rewrite byte_len_app. lia.
Qed.

Lemma slice_le s m n b : slice s m n = Ret b -> byte_len b = n - m /\ n <= byte_len s.
Proof.
  unfold slice. destruct (Nat.leb m n) eqn:E; [|discriminate]. apply Nat.leb_le in E.
  destruct (slice_from s m) as [t|] eqn:E1; [|discriminate]. cbn [obind]. intros E2.
  apply slice_from_inv in E1. destruct E1 as (a & -> & Ha).
  apply slice_to_le in E2. rewrite byte_len_app. lia.
Qed.

Ltac raws :=
  repeat match goal with
  | H : slice_to _ _ = Ret _ |- _ => apply slice_to_le in H; destruct H
  | H : slice _ _ _ = Ret _ |- _ => apply slice_le in H; destruct H
  end.

Lemma one_char_ok c code : sub_ok code (fun raw => raw) 1 (one_char_c c code).
Proof.
  unfold sub_ok. rewrite one_char_fst. unfold one_char_c. autorewrite with cnt.
  pose proof (starts_with_reads [c] code) as H. cbn [length] in H. lia.
Qed.

Lemma one_char_raw c code a : fst (one_char_c c code) = Ret (Some a) ->
  byte_len a <= byte_len code /\ length (@nil char) <= byte_len a.
Proof.
  rewrite one_char_fst. unfold one_char. destruct (starts_with [c] code); [|discriminate].
  destruct (slice_to code 1) as [r|] eqn:E; [|discriminate]. cbn [obind]. intros H; injection H as <-.
  raws. cbn [length]. lia.
Qed.

Lemma single_ok code : sub_ok code fst 4 (parse_single_line_comment_c code).
Proof.
  unfold sub_ok, parse_single_line_comment_c. autorewrite with cnt.
  pose proof (starts_with_reads (to_string_slice BTW) code) as H.
  change (length (to_string_slice BTW)) with 3 in H.
  destruct (starts_with (to_string_slice BTW) code); autorewrite with cnt; [|lia].
  pose proof (find_reads [c_nl] code) as Hf. cbn [length] in Hf.
  pose proof (find_reads_all [c_nl] code) as Ha. pose proof (byte_len_ge code) as Hc.
  set (e := match find [c_nl] code with Some n => n | None => byte_len code end).
  assert (He : snd (find_c [c_nl] code) <= e + 1).
  { unfold e. destruct (find [c_nl] code); lia. }
  clearbody e. 
  destruct (slice code (byte_len (to_string_slice BTW)) e) as [x|] eqn:E1; autorewrite with cnt.
  - destruct (slice_to code e) as [raw|] eqn:E2; cbn [obind fst];
      pose proof (byte_len_ge x); raws; lia.
  - lia.
Qed.

Lemma single_raw code a : fst (parse_single_line_comment_c code) = Ret (Some a) ->
  byte_len (fst a) <= byte_len code /\ length (@nil char) <= byte_len (fst a).
Proof.
  rewrite parse_single_fst. unfold parse_single_line_comment.
  destruct (starts_with _ code); [|discriminate].
  destruct (slice _ _ _) as [x|]; [|discriminate]. cbn [obind].
  destruct (slice_to _ _) as [r|] eqn:E; [|discriminate]. cbn [obind]. intros H; injection H as <-.
  raws. cbn [length fst]. lia.
Qed.

Lemma bukkit_ok code : sub_ok code (fun raw => raw) 2 (parse_bukkit_slot_access_c code).
Proof.
  unfold sub_ok. rewrite parse_bukkit_fst. unfold parse_bukkit_slot_access_c. autorewrite with cnt.
  pose proof (starts_with_reads (lit "'Z") code) as H. change (length (lit "'Z")) with 2 in H. lia.
Qed.

Lemma bukkit_raw code a : fst (parse_bukkit_slot_access_c code) = Ret (Some a) ->
  byte_len a <= byte_len code /\ length (@nil char) <= byte_len a.
Proof.
  rewrite parse_bukkit_fst. unfold parse_bukkit_slot_access. destruct (starts_with _ code); [|discriminate].
  destruct (slice_to _ _) as [r|] eqn:E; [|discriminate]. cbn [obind]. intros H; injection H as <-.
  raws. cbn [length]. lia.
Qed.

Lemma ellipsis_ok code : sub_ok code (fun raw => raw) 4 (parse_ellipsis_c code).
Proof.
  unfold sub_ok. rewrite parse_ellipsis_fst. unfold parse_ellipsis_c. autorewrite with cnt.
  pose proof (starts_with_reads (lit "...") code) as H. change (length (lit "...")) with 3 in H.
  pose proof (starts_with_reads [c_ellipsis] code) as H'. cbn [length] in H'.
  destruct (starts_with (lit "...") code); autorewrite with cnt; [lia|].
  destruct (starts_with [c_ellipsis] code); autorewrite with cnt; lia.
Qed.

Lemma ellipsis_raw code a : fst (parse_ellipsis_c code) = Ret (Some a) ->
  byte_len a <= byte_len code /\ length (@nil char) <= byte_len a.
Proof.
  rewrite parse_ellipsis_fst. unfold parse_ellipsis. cbn [length]. intros H.
  destruct (starts_with _ code); [|destruct (starts_with _ code); [|discriminate]];
  (destruct (slice_to _ _) as [r|] eqn:E; [|discriminate]); cbn [obind] in H; injection H as <-; raws; lia.
Qed.

Lemma boolean_ok code : sub_ok code fst 7 (parse_boolean_c code).
Proof.
  unfold sub_ok. rewrite parse_boolean_fst. unfold parse_boolean_c. autorewrite with cnt.
  pose proof (starts_with_reads (to_string_slice WIN) code) as H.
  change (length (to_string_slice WIN)) with 3 in H.
  pose proof (starts_with_reads (to_string_slice FAIL) code) as H'.
  change (length (to_string_slice FAIL)) with 4 in H'.
  destruct (starts_with (to_string_slice WIN) code); autorewrite with cnt; [lia|].
  destruct (starts_with (to_string_slice FAIL) code); autorewrite with cnt; lia.
Qed.

Lemma boolean_raw code a : fst (parse_boolean_c code) = Ret (Some a) ->
  byte_len (fst a) <= byte_len code /\ length (@nil char) <= byte_len (fst a).
Proof.
  rewrite parse_boolean_fst. unfold parse_boolean. cbn [length]. intros H.
  destruct (starts_with _ code); [|destruct (starts_with _ code); [|discriminate]];
  (destruct (slice_to _ _) as [r|] eqn:E; [|discriminate]); cbn [obind] in H; injection H as <-;
    raws; cbn [fst]; lia.
Qed.

Lemma noob_ok code : sub_ok code (fun raw => raw) 4 (parse_noob_c code).
Proof.
  unfold sub_ok. rewrite parse_noob_fst. unfold parse_noob_c. autorewrite with cnt.
  pose proof (starts_with_reads (to_string_slice NOOB) code) as H.
  change (length (to_string_slice NOOB)) with 4 in H. lia.
Qed.

Lemma noob_raw code a : fst (parse_noob_c code) = Ret (Some a) ->
  byte_len a <= byte_len code /\ length (@nil char) <= byte_len a.
Proof.
  rewrite parse_noob_fst. unfold parse_noob. destruct (starts_with _ code); [|discriminate].
  destruct (slice_to _ _) as [r|] eqn:E; [|discriminate]. cbn [obind]. intros H; injection H as <-.
  raws. cbn [length]. lia.
Qed.

(** All keyword spellings together. *)
Definition spellings : nat := list_sum (map (fun k => length (to_string_slice k)) all_symbols).

Lemma find_keyword_reads code : forall l,
  snd (find_keyword_c l code) <= list_sum (map (fun k => length (to_string_slice k)) l).
Proof.
  induction l as [|k l IH]; cbn [find_keyword_c map list_sum fold_right]; autorewrite with cnt; [lia|].
  pose proof (starts_with_reads (to_string_slice k) code). unfold list_sum in IH.
  destruct (starts_with (to_string_slice k) code); autorewrite with cnt; lia.
Qed.

Lemma keyword_ok code : sub_ok code fst spellings (parse_keyword_c code).
Proof.
  unfold sub_ok. rewrite parse_keyword_fst. unfold parse_keyword_c. autorewrite with cnt.
  pose proof (find_keyword_reads code all_symbols) as H. fold spellings in H.
  destruct (List.find _ all_symbols); autorewrite with cnt; lia.
Qed.

Lemma keyword_raw code a : fst (parse_keyword_c code) = Ret (Some a) ->
  byte_len (fst a) <= byte_len code /\ length (@nil char) <= byte_len (fst a).
Proof.
  rewrite parse_keyword_fst. unfold parse_keyword. destruct (List.find _ all_symbols); [|discriminate].
  destruct (slice _ _ _) as [r|] eqn:E; [|discriminate]. cbn [obind]. intros H; injection H as <-.
  raws. cbn [length fst]. lia.
Qed.

Lemma number_ok code : sub_ok code fst (2 * number_reads code) (parse_number_c code).
Proof.
  unfold sub_ok, number_reads. rewrite parse_number_fst. unfold parse_number_c. autorewrite with cnt.
  pose proof (number_reads_position code 0 false) as H.
  destruct (number_position 0 false code) as [[n d]|]; autorewrite with cnt; [|lia].
  destruct (slice code 0 n) as [x|] eqn:E; autorewrite with cnt; [|lia].
  pose proof (byte_len_ge x). raws. lia.
Qed.

Lemma number_raw code a : fst (parse_number_c code) = Ret (Some a) ->
  byte_len (fst a) <= byte_len code /\ length (@nil char) <= byte_len (fst a).
Proof.
  rewrite parse_number_fst. unfold parse_number. destruct (number_position _ _ _) as [[n d]|]; [|discriminate].
  destruct (slice _ _ _) as [r|] eqn:E; [|discriminate]. cbn [obind length]. intros H. raws.
  destruct d; [destruct (parse_f32 r)|destruct (parse_i32 r)]; try discriminate; injection H as <-;
    cbn [fst]; lia.
Qed.

Lemma string_ok code : sub_ok code fst 1 (parse_string_c code).
Proof.
  unfold sub_ok. rewrite parse_string_fst. unfold parse_string_c, parse_string.
  destruct code as [|c s]; autorewrite with cnt.
  - cbn [string_end_c string_end snd cret fst]. cbn. lia.
  - destruct (negb _); autorewrite with cnt; [lia|].
    pose proof (string_end_reads (length s) s 1 ltac:(lia)) as H.
    destruct (string_end 1 s) as [i|].
    + pose proof (byte_len_ge (c :: s)) as Hl. cbn [length] in Hl.
      destruct (slice_to (c :: s) (i + 1)) as [raw|] eqn:E; cbn [obind].
      * destruct (slice (c :: s) 1 i) as [x|] eqn:E2; cbn [obind fst]; raws; lia.
      * pose proof (string_end_reads_all (length s) s 1 ltac:(lia)). lia.
    + pose proof (byte_len_ge (c :: s)) as Hl. cbn [length] in Hl.
      destruct (slice_from (c :: s) 1); cbn [obind fst]; lia.
Qed.

Lemma string_raw code a : fst (parse_string_c code) = Ret (Some a) ->
  byte_len (fst a) <= byte_len code /\ length (snd a) <= byte_len (fst a).
Proof.
  rewrite parse_string_fst. unfold parse_string. destruct code as [|c s].
  - cbn. discriminate.
  - destruct (negb _); [discriminate|]. destruct (string_end 1 s) as [i|].
    + destruct (slice_to _ _) as [r|] eqn:E; [|discriminate]. cbn [obind].
      destruct (slice _ _ _) as [x|] eqn:E2; [|discriminate]. cbn [obind].
      intros H; injection H as <-. cbn [fst snd]. pose proof (byte_len_ge x). raws. lia.
    + destruct (slice_from _ _) as [x|] eqn:E2; [|discriminate]. cbn [obind].
      intros H; injection H as <-. cbn [fst snd]. pose proof (byte_len_ge x).
      apply slice_from_inv in E2. destruct E2 as (b & E & _). rewrite E, byte_len_app. lia.
Qed.

Lemma identifier_ok code : sub_ok code (fun raw => raw) 1 (parse_identifier_c code).
Proof.
  unfold sub_ok. rewrite parse_identifier_fst. unfold parse_identifier_c, parse_identifier.
  autorewrite with cnt. pose proof (count_while_reads is_ident_char code) as H.
  destruct (Nat.eqb (count_while is_ident_char code) 0) eqn:E; [apply Nat.eqb_eq in E; lia|].
  destruct (slice_to code _) as [r|] eqn:E2; cbn [obind].
  - raws. lia.
  - pose proof (byte_len_ge code).
    assert (count_while is_ident_char code <= length code).
    { clear. induction code as [|c s IH]; cbn [count_while length]; [lia|].
      destruct (is_ident_char c); lia. }
    lia.
Qed.

Lemma identifier_raw code a : fst (parse_identifier_c code) = Ret (Some a) ->
  byte_len a <= byte_len code /\ length a <= byte_len a.
Proof.
  rewrite parse_identifier_fst. unfold parse_identifier. destruct (Nat.eqb _ 0); [discriminate|].
  destruct (slice_to _ _) as [r|] eqn:E; [|discriminate]. cbn [obind]. intros H; injection H as <-.
  pose proof (byte_len_ge r). raws. lia.
Qed.

Lemma multi_ok code k K :
  step_ok code K k ->
  forall p, step_ok code (4 + K) (cbind (parse_multi_line_comment_c code) (fun r =>
  match r with
  | Panic => cret SPanic
  | Ret MlErr =>
    cread (length code) (cret (SError (UnclosedMultilineComment
              {| r_start := p; r_end := position_add p code |})))
  | Ret (MlSome raw contents) => make_token_c code p raw [] (TCommentMultiLine contents)
  | Ret MlNone => k
  end)).
Proof.
  intros Hk p. unfold parse_multi_line_comment_c.
  pose proof (starts_with_reads (to_string_slice OBTW) code) as H.
  change (length (to_string_slice OBTW)) with 4 in H.
  pose proof (byte_len_ge code) as Hl.
  unfold cbind at 1. autorewrite with cnt.
  destruct (starts_with (to_string_slice OBTW) code); autorewrite with cnt.
  - pose proof (find_reads (to_string_slice TLDR) code) as Hf.
    pose proof (find_reads_all (to_string_slice TLDR) code) as Ha.
    change (byte_len (to_string_slice TLDR)) with 4 in *.
    change (length (to_string_slice TLDR)) with 4 in *.
    destruct (find (to_string_slice TLDR) code) as [n|]; autorewrite with cnt.
    + destruct (slice code (byte_len (to_string_slice OBTW)) n) as [x|] eqn:E1; autorewrite with cnt.
      * destruct (slice_to code (n + 4)) as [raw|] eqn:E2; cbn [obind].
        -- pose proof (byte_len_ge x). raws. apply make_token_ok'; cbn [length]; lia.
        -- unfold step_ok. autorewrite with cnt. pose proof (byte_len_ge x). raws. lia.
      * unfold step_ok. autorewrite with cnt. lia.
    + unfold step_ok. autorewrite with cnt. lia.
  - unfold step_ok in *. autorewrite with cnt. destruct (fst k); lia.
Qed.

Theorem step_reads code p : code <> [] -> step_ok code (31 + spellings + 2 * number_reads code) (lex_step_c code p).
Proof.
  intros Hne. unfold lex_step_c.
  pose proof (whitespace_reads code p) as Hw.
  unfold cbind at 1. rewrite parse_whitespace_fst.
  destruct (parse_whitespace code p) as [nws p'] eqn:Ew. cbn [fst] in Hw.
  destruct (Nat.ltb 0 nws) eqn:E.
  - unfold step_ok. autorewrite with cnt. destruct (slice_from code nws) as [code'|] eqn:Es.
    + apply slice_from_inv in Es. destruct Es as (a & -> & Ha). rewrite byte_len_app. lia.
    + assert (nws <= length code).
      { clear - Ew. revert p nws p' Ew. induction code as [|c s IH]; intros p nws p';
          cbn [parse_whitespace length].
        - intros H; injection H as <- <-. lia.
        - destruct (N.eqb c c_nl); [|destruct (_ || _)].
          + destruct (parse_whitespace s _) as [n q] eqn:E. intros H; injection H as <- <-.
            apply IH in E. lia.
          + destruct (parse_whitespace s _) as [n q] eqn:E. intros H; injection H as <- <-.
            apply IH in E. lia.
          + intros H; injection H as <- <-. lia. }
      pose proof (byte_len_ge code). lia.
  - apply Nat.ltb_ge in E. assert (Hw1 : snd (parse_whitespace_c code p) <= 1) by lia.
    match goal with |- step_ok _ _ (cread ?n ?r) =>
      enough (Hr : step_ok code (30 + spellings + 2 * number_reads code) r);
      [unfold step_ok in *; autorewrite with cnt; destruct (fst r); lia|] end.
    replace (30 + spellings + 2 * number_reads code)
      with (1 + (1 + (1 + (4 + (4 + (2 + (4 + (7 + (4 + (spellings + (2 * number_reads code
             + (1 + (1 + 0))))))))))))) by lia.
    apply try_token_ok; [apply one_char_ok|apply one_char_raw|].
    apply try_token_ok; [apply one_char_ok|apply one_char_raw|].
    apply try_token_ok; [apply one_char_ok|apply one_char_raw|].
    apply try_token_ok; [apply single_ok|apply single_raw|].
    apply multi_ok.
    apply try_token_ok; [apply bukkit_ok|apply bukkit_raw|].
    apply try_token_ok; [apply ellipsis_ok|apply ellipsis_raw|].
    apply try_token_ok; [apply boolean_ok|apply boolean_raw|].
    apply try_token_ok; [apply noob_ok|apply noob_raw|].
    apply try_token_ok; [apply keyword_ok|apply keyword_raw|].
    apply try_token_ok; [apply number_ok|apply number_raw|].
    apply try_token_ok; [apply string_ok|apply string_raw|].
    apply try_token_ok; [apply identifier_ok|apply identifier_raw|].
    destruct (slice_to code 1) as [raw|] eqn:E1.
    + pose proof (make_token_ok' code p raw raw (TSymbol raw) 0 0) as Hm.
      unfold cread in Hm at 1. cbn [Nat.add] in Hm. rewrite <- surjective_pairing in Hm.
      pose proof (byte_len_ge raw). raws. apply Hm; lia.
    + unfold step_ok. autorewrite with cnt. lia.
Qed.

Lemma step_shorter code p : code <> [] ->
  match lex_step code p with
  | SSkip code' _ | SToken _ code' _ => exists a, code = a ++ code' /\ a <> []
  | _ => True
  end.
Proof.
  intros Hne. destruct (step_exhaustive code) as [E|[Hw|[(raw & rest & ty & E & Ht)|[He|Hp]]]].
  - contradiction.
  - destruct (ws_split code) as (gs & r & E & Hg & Hr).
    assert (Hn : gs <> []) by (intros ->; apply Hr; cbn in E; rewrite <- E; exact Hw).
    rewrite E, step_ws by assumption. exists gs. auto.
  - rewrite E, (step_token _ _ _ _ Ht). unfold stoken. exists raw. split; [reflexivity|].
    exact (TokText_nonempty _ _ _ Ht).
  - rewrite step_error by assumption. exact I.
  - rewrite step_panic by assumption. exact I.
Qed.

(** ** The whole run *)

(** What one step costs apart from numbers and the text it consumes. *)
Definition step_constant : nat := 31 + spellings.

Fixpoint sum_to (h : nat -> nat) (n : nat) : nat :=
  match n with
  | O => O
  | S n' => h n + sum_to h n'
  end.

Lemma sum_to_mono h m n : m <= n -> sum_to h m <= sum_to h n.
Proof. induction 1; cbn [sum_to]; lia. Qed.

Section Loop.
Variable P : str -> Prop.
Variable h : nat -> nat.
Hypothesis P_suffix : forall a b, P (a ++ b) -> P b.
Hypothesis P_number : forall code, P code -> number_reads code <= h (length code).

Lemma loop_reads : forall fuel code p, P code ->
  snd (tokenize_loop_c fuel code p) <=
  step_constant * length code + 4 * byte_len code + 2 * sum_to h (length code).
Proof.
  induction fuel as [|fuel IH]; intros code p HP; [cbn; lia|].
  destruct code as [|c s] eqn:Ec; [cbn; lia|]. cbn [tokenize_loop_c]. rewrite <- Ec in *.
  assert (Hne : code <> []) by congruence.
  pose proof (step_reads code p Hne) as Hs. pose proof (step_shorter code p Hne) as Hsh.
  pose proof (P_number code HP) as Hn.
  unfold step_ok in Hs. rewrite lex_step_fst in Hs. fold step_constant in Hs.
  autorewrite with cnt. rewrite lex_step_fst.
  assert (Hl : exists n, length code = S n) by (rewrite Ec; cbn [length]; eauto).
  destruct Hl as [n Hl]. rewrite Hl in *. cbn [sum_to].
  destruct (lex_step code p) as [code' p'|t code' p'|e|]; autorewrite with cnt.
  - destruct Hsh as (a & E & Ha).
    assert (HP' : P code') by (apply (P_suffix a); rewrite <- E; exact HP).
    specialize (IH code' p' HP').
    assert (Hl' : length code' <= n).
    { apply (f_equal (@length _)) in E. rewrite app_length in E. destruct a; [contradiction|].
      cbn [length] in E. lia. }
    pose proof (sum_to_mono h _ _ Hl').
    assert (step_constant * length code' <= step_constant * n) by (apply Nat.mul_le_mono_l; exact Hl').
    lia.
  - destruct Hsh as (a & E & Ha).
    assert (HP' : P code') by (apply (P_suffix a); rewrite <- E; exact HP).
    specialize (IH code' p' HP').
    assert (Hl' : length code' <= n).
    { apply (f_equal (@length _)) in E. rewrite app_length in E. destruct a; [contradiction|].
      cbn [length] in E. lia. }
    pose proof (sum_to_mono h _ _ Hl').
    assert (step_constant * length code' <= step_constant * n) by (apply Nat.mul_le_mono_l; exact Hl').
    lia.
  - lia.
  - lia.
Qed.
End Loop.

Lemma number_position_reads_all : forall code i d, snd (number_position_c i d code) <= length code.
Proof.
  induction code as [|c code IH]; intros i d; cbn [number_position_c length]; autorewrite with cnt; [lia|].
  destruct (_ && _); [specialize (IH (S i) d); lia|].
  destruct (is_digit c); [specialize (IH (S i) d); lia|].
  destruct (_ && _); [specialize (IH (S i) true)|autorewrite with cnt]; lia.
Qed.

Lemma sum_to_id n : 2 * sum_to (fun i => i) n = n * S n.
Proof. induction n as [|n IH]; cbn [sum_to]; lia. Qed.

Theorem reads_quadratic code :
  lexer_reads code <= step_constant * length code + 4 * byte_len code + length code * S (length code).
Proof.
  unfold lexer_reads, tokenize_c. rewrite <- sum_to_id.
  apply (loop_reads (fun _ => True)); [auto| |exact I].
  intros c _. apply number_position_reads_all.
Qed.

Lemma number_run : forall code i d, exists a b, code = a ++ b /\ Forall numeric a /\
  snd (number_position_c i d code) <= S (length a).
Proof.
  induction code as [|c code IH]; intros i d; cbn [number_position_c]; autorewrite with cnt.
  - exists [], []. repeat split; [constructor|cbn; lia].
  - assert (Hc : forall i' d', numeric c -> exists a b, c :: code = a ++ b /\ Forall numeric a /\
              1 + snd (number_position_c i' d' code) <= S (length a)).
    { intros i' d' Hn. destruct (IH i' d') as (a & b & E & Ha & Hl).
      exists (c :: a), b. repeat split; [rewrite E; reflexivity|constructor; assumption|cbn [length]; lia]. }
    destruct (Nat.eqb i 0 && is_sign c) eqn:E1.
    + apply Hc. apply andb_prop in E1. destruct E1 as [_ E1]. unfold is_sign in E1.
      apply orb_prop in E1. destruct E1 as [E1|E1]; apply N.eqb_eq in E1; rewrite E1;
        [right; right; left|right; left]; reflexivity.
    + destruct (is_digit c) eqn:E2.
      * apply Hc. apply andb_prop in E2. destruct E2 as [E2 E3].
        apply N.leb_le in E2, E3. left. split; assumption.
      * destruct (negb d && N.eqb c c_dot) eqn:E3.
        -- apply Hc. apply andb_prop in E3. destruct E3 as [_ E3]. apply N.eqb_eq in E3. rewrite E3.
           right; right; right; reflexivity.
        -- exists [], (c :: code). autorewrite with cnt. repeat split; [constructor|cbn; lia].
Qed.

Lemma sum_to_const k n : sum_to (fun _ => k) n = k * n.
Proof. induction n as [|n IH]; cbn [sum_to]; lia. Qed.

Theorem reads_linear L code : numeric_runs_within L code ->
  lexer_reads code <= (step_constant + 2 * S L) * length code + 4 * byte_len code.
Proof.
  intros HL. unfold lexer_reads, tokenize_c.
  pose proof (loop_reads (numeric_runs_within L) (fun _ => S L)) as H.
  specialize (H ltac:(intros a b Hab a' b' c' E; apply (Hab (a ++ a') b' c');
                      rewrite <- app_assoc, E; reflexivity)).
  assert (Hn : forall c, numeric_runs_within L c -> number_reads c <= S L).
  { intros c Hc. destruct (number_run c 0 false) as (a & b & E & Ha & Hl).
    specialize (Hc [] a b E Ha). unfold number_reads. lia. }
  specialize (H Hn (S (length code)) code position_start HL). rewrite sum_to_const in H. lia.
Qed.

(** ** Runs of digits *)

Definition symbol_step (r : step_result) : Prop :=
  match r with
  | SToken t _ _ => exists s, tok_type t = TSymbol s
  | _ => False
  end.

Lemma make_symbol code p raw ty : symbol_step (of_make (make_token code p raw ty)) ->
  exists s, ty = TSymbol s.
Proof.
  unfold make_token. destruct (slice_from code (byte_len raw)); cbn [obind of_make symbol_step];
    [auto|contradiction].
Qed.

Lemma try_lower {A} code p (m : counted (outcome (option A))) raw copied ty k :
  symbol_step (fst (try_token_c code p m raw copied ty k)) -> (forall a s, ty a <> TSymbol s) ->
  symbol_step (fst k) /\ snd (try_token_c code p m raw copied ty k) = snd m + snd k.
Proof.
  unfold try_token_c. autorewrite with cnt. destruct (fst m) as [[a|]|]; intros H Ht.
  - apply make_symbol in H. destruct H as [s H]. destruct (Ht a s H).
  - auto.
  - contradiction.
Qed.

Lemma symbol_reads code p : symbol_step (lex_step code p) ->
  number_reads code <= snd (lex_step_c code p).
Proof.
  rewrite <- lex_step_fst. unfold lex_step_c. autorewrite with cnt.
  destruct (parse_whitespace code p) as [nws p']. destruct (Nat.ltb 0 nws).
  { autorewrite with cnt. destruct (slice_from code nws); contradiction. }
  intros H.
  do 4 (apply try_lower in H; [|discriminate]; let E := fresh "E" in destruct H as [H E];
        rewrite E; clear E).
  autorewrite with cnt in *.
  destruct (parse_multi_line_comment code) as [[| |r x]|]; try contradiction.
  2:{ apply make_symbol in H. destruct H as [s H]. discriminate. }
  do 6 (apply try_lower in H; [|discriminate]; let E := fresh "E" in destruct H as [H E];
        rewrite E; clear E).
  assert (Hn : number_reads code <= snd (parse_number_c code))
    by (unfold parse_number_c, number_reads; autorewrite with cnt; lia).
  lia.
Qed.

Lemma digit_step (d : char) (s : str) p : (48 <= d <= 57)%N -> parse_number (d :: s) = Ret None ->
  exists t p', lex_step (d :: s) p = SToken t s p' /\ number_reads (d :: s) <= snd (lex_step_c (d :: s) p).
Proof.
  intros Hd Hn.
  assert (E : exists t p', lex_step (d :: s) p = SToken t s p' /\ tok_type t = TSymbol [d]).
  { rewrite step_nonletter.
    - rewrite Hn. cbn [try_token].
      assert (Hq : parse_string (d :: s) = Ret None).
      { unfold parse_string. replace (N.eqb d c_quote) with false; [reflexivity|].
        symmetry. apply N.eqb_neq. unfold c_quote. lia. }
      rewrite Hq. cbn [try_token].
      assert (Hu : utf8_len d = 1) by (apply utf8_len_ascii; unfold is_ascii; apply N.ltb_lt; lia).
      change (d :: s) with ([d] ++ s).
      rewrite (slice_to_app [d] s 1) by (cbn [byte_len]; lia).
      unfold make_token. rewrite (slice_from_app [d] s) by reflexivity. cbn [obind of_make].
      eexists _, _. split; reflexivity.
    - intros H. unfold ws, newline in H. lia.
    - intros H. unfold letter in H. lia.
    - unfold c_comma. lia.
    - unfold c_bang. lia.
    - lia.
    - intros [t E]. injection E as E _. lia.
    - intros [t E]. injection E as E _. lia. }
  destruct E as (t & p' & E & Ht). exists t, p'. split; [exact E|].
  apply symbol_reads. rewrite E. exists [d]. exact Ht.
Qed.

Lemma digits_to_end : forall (s : str) i d, Forall (fun c => 48 <= c <= 57)%N s ->
  number_position i d s = None /\ snd (number_position_c i d s) = length s.
Proof.
  induction s as [|c s IH]; intros i d H; [cbn; auto|]. apply Forall_cons_iff in H. destruct H as [Hc Hs].
  cbn [number_position number_position_c length]. autorewrite with cnt.
  assert (Hd : is_digit c = true).
  { unfold is_digit, c_zero, c_nine. apply andb_true_intro. split; apply N.leb_le; lia. }
  assert (Hg : is_sign c = false).
  { unfold is_sign, c_minus, c_plus. apply orb_false_intro; apply N.eqb_neq; lia. }
  rewrite Hd, Hg, andb_false_r. destruct (IH (S i) d Hs) as [H1 H2]. rewrite H1, H2. auto.
Qed.

Lemma digits_loop : forall (s : str) fuel p, Forall (fun c => 48 <= c <= 57)%N s -> length s < fuel ->
  length s * S (length s) <= 2 * snd (tokenize_loop_c fuel s p).
Proof.
  induction s as [|c s IH]; intros fuel p H Hf; [cbn; lia|].
  destruct fuel as [|fuel]; [lia|].
  pose proof (digits_to_end (c :: s) 0 false H) as [H1 H2].
  apply Forall_cons_iff in H as H'. destruct H' as [Hc Hs].
  assert (Hn : parse_number (c :: s) = Ret None) by (unfold parse_number; rewrite H1; reflexivity).
  destruct (digit_step c s p Hc Hn) as (t & p' & E & Hr).
  cbn [tokenize_loop_c]. autorewrite with cnt. rewrite lex_step_fst, E. autorewrite with cnt.
  unfold number_reads in Hr. rewrite H2 in Hr. cbn [length] in *.
  specialize (IH fuel p' Hs ltac:(lia)). lia.
Qed.

(** A source of digits. *)
Theorem digits_reads (s : str) : Forall (fun c => 48 <= c <= 57)%N s ->
  length s * S (length s) <= 2 * lexer_reads s.
Proof. intros H. apply digits_loop; [exact H|lia]. Qed.

(** A run of digits, none zero, that a character other than a digit or a dot
    ends: too large for an [i32] until ten are left. *)
Lemma digits_value_ge : forall s acc, (0 <= acc)%Z -> Forall (fun c => 48 <= c <= 57)%N s ->
  (acc * 10 ^ Z.of_nat (length s) <= digits_value acc s)%Z.
Proof.
  induction s as [|c s IH]; intros acc Ha H.
  - cbn [digits_value length]. change (Z.of_nat 0) with 0%Z. lia.
  - apply Forall_cons_iff in H. destruct H as [Hc Hs].
    cbn [digits_value length]. rewrite Nat2Z.inj_succ, Z.pow_succ_r by lia.
    assert (H0 : (0 <= 10 * acc + (Z.of_N c - Z.of_N c_zero))%Z) by (unfold c_zero; lia).
    specialize (IH _ H0 Hs).
    assert (Hp : (0 <= 10 ^ Z.of_nat (length s))%Z) by (apply Z.pow_nonneg; lia).
    assert (Hm : (10 * acc * 10 ^ Z.of_nat (length s) <=
             (10 * acc + (Z.of_N c - Z.of_N c_zero)) * 10 ^ Z.of_nat (length s))%Z).
    { apply Z.mul_le_mono_nonneg_r; [exact Hp|]. unfold c_zero. lia. }
    lia.
Qed.

Lemma run_position (c : char) (r : str) : is_digit c = false -> c <> c_dot -> forall (s : str) i, 0 < i ->
  Forall (fun c => 48 <= c <= 57)%N s ->
  number_position i false (s ++ c :: r) = Some (i + length s, false).
Proof.
  intros Hc Hd. induction s as [|x s IH]; intros i Hi H.
  - cbn [app number_position length]. destruct i as [|i]; [lia|]. cbn [Nat.eqb andb].
    rewrite Hc. apply N.eqb_neq in Hd. rewrite Hd. cbn [negb andb]. rewrite Nat.add_0_r. reflexivity.
  - apply Forall_cons_iff in H. destruct H as [Hx Hs]. cbn [app number_position length].
    destruct i as [|i]; [lia|]. cbn [Nat.eqb andb].
    assert (Hg : is_digit x = true).
    { unfold is_digit, c_zero, c_nine. apply andb_true_intro. split; apply N.leb_le; lia. }
    rewrite Hg, IH by (assumption || lia). f_equal. f_equal. lia.
Qed.

Lemma long_run (d : char) (s : str) (c : char) (r : str) : (49 <= d <= 57)%N -> Forall (fun c => 48 <= c <= 57)%N s -> 10 <= length s ->
  is_digit c = false -> c <> c_dot ->
  parse_number (d :: s ++ c :: r) = Ret None /\ number_reads (d :: s ++ c :: r) = S (S (length s)).
Proof.
  intros Hd Hs Hl Hc Hc'.
  assert (Hg : is_digit d = true).
  { unfold is_digit, c_zero, c_nine. apply andb_true_intro. split; apply N.leb_le; lia. }
  assert (Hp : number_position 0 false (d :: s ++ c :: r) = Some (S (length s), false)).
  { cbn [number_position]. rewrite Hg.
    assert (E : is_sign d = false).
    { unfold is_sign, c_minus, c_plus. apply orb_false_intro; apply N.eqb_neq; lia. }
    rewrite E. cbn [Nat.eqb andb]. rewrite run_position by (assumption || lia). reflexivity. }
  split.
  - unfold parse_number. rewrite Hp.
    assert (Hf : Forall (fun c => 48 <= c <= 57)%N (d :: s)) by (constructor; [lia|exact Hs]).
    assert (Hb : byte_len (d :: s) = S (length s)).
    { change (S (length s)) with (length (d :: s)). apply byte_len_ascii. unfold ascii_str.
      apply forallb_forall. intros x Hx. rewrite Forall_forall in Hf. specialize (Hf x Hx).
      unfold is_ascii. apply N.ltb_lt. lia. }
    assert (Hsl : slice (d :: s ++ c :: r) 0 (S (length s)) = Ret (d :: s)).
    { rewrite slice_0. change (d :: s ++ c :: r) with ((d :: s) ++ c :: r).
      apply slice_to_app. symmetry. exact Hb. }
    rewrite Hsl. cbn [obind].
    assert (Hz : split_sign (d :: s) = (false, d :: s)).
    { unfold split_sign. replace (N.eqb d c_minus) with false by (symmetry; apply N.eqb_neq; unfold c_minus; lia).
      replace (N.eqb d c_plus) with false by (symmetry; apply N.eqb_neq; unfold c_plus; lia). reflexivity. }
    unfold parse_i32. rewrite Hz.
    assert (Hv : (10 ^ 10 <= digits_value 0 (d :: s))%Z).
    { cbn [digits_value].
      assert (H0 : (1 <= 10 * 0 + (Z.of_N d - Z.of_N c_zero))%Z) by (unfold c_zero; lia).
      pose proof (digits_value_ge s (10 * 0 + (Z.of_N d - Z.of_N c_zero))%Z ltac:(lia) Hs) as Hge.
      assert (Hpw : (10 ^ 10 <= 10 ^ Z.of_nat (length s))%Z) by (apply Z.pow_le_mono_r; lia).
      assert (Hmul : (1 * 10 ^ Z.of_nat (length s) <=
        (10 * 0 + (Z.of_N d - Z.of_N c_zero)) * 10 ^ Z.of_nat (length s))%Z).
      { apply Z.mul_le_mono_nonneg_r; [apply Z.pow_nonneg; lia|exact H0]. }
      rewrite Z.mul_1_l in Hmul. exact (Z.le_trans _ _ _ Hpw (Z.le_trans _ _ _ Hmul Hge)). }
    destruct (forallb is_digit (d :: s)); [|reflexivity].
    replace (digits_value 0 (d :: s) <=? i32_max)%Z with false.
    + rewrite andb_false_r. reflexivity.
    + symmetry. apply Z.leb_gt. unfold i32_max.
      assert (2147483647 < 10 ^ 10)%Z by reflexivity. lia.
  - unfold number_reads. pose proof (number_reads_position (d :: s ++ c :: r) 0 false) as H.
    rewrite Hp in H. lia.
Qed.

Lemma run_loop (c : char) (r : str) : is_digit c = false -> c <> c_dot -> forall (s : str) fuel p,
  Forall (fun c => 49 <= c <= 57)%N s -> length s < fuel ->
  length s * S (length s) <= 2 * snd (tokenize_loop_c fuel (s ++ c :: r) p) + 110.
Proof.
  intros Hc Hc'. induction s as [|d s IH]; intros fuel p H Hf; [cbn [length]; lia|].
  destruct fuel as [|fuel]; [lia|]. cbn [length] in Hf.
  destruct (Nat.le_gt_cases 10 (length s)) as [Hl|Hl].
  - apply Forall_cons_iff in H. destruct H as [Hd Hs].
    assert (Hs' : Forall (fun c => 48 <= c <= 57)%N s)
      by (eapply Forall_impl; [|exact Hs]; cbn beta; intros; lia).
    destruct (long_run d s c r Hd Hs' Hl Hc Hc') as [Hn Hr].
    destruct (digit_step d (s ++ c :: r) p ltac:(lia) Hn) as (t & p' & E & Hrd).
    rewrite Hr in Hrd. cbn [app tokenize_loop_c]. autorewrite with cnt. rewrite lex_step_fst, E.
    autorewrite with cnt. specialize (IH fuel p' Hs ltac:(lia)). cbn [length]. lia.
  - assert (H1 : length (d :: s) <= 10) by (cbn [length]; lia).
    pose proof (Nat.mul_le_mono _ _ _ _ H1 (le_n_S _ _ H1)) as H2.
    change (10 * 11) with 110 in H2. lia.
Qed.

Theorem run_reads (s : str) (c : char) (r : str) : Forall (fun c => 49 <= c <= 57)%N s -> ~ numeric c ->
  length s * S (length s) <= 2 * lexer_reads (s ++ c :: r) + 110.
Proof.
  intros H Hc. apply run_loop.
  - unfold is_digit, c_zero, c_nine. destruct (N.leb 48 c) eqn:E1; [|reflexivity].
    cbn [andb]. destruct (N.leb c 57) eqn:E2; [|reflexivity].
    apply N.leb_le in E1, E2. destruct Hc. left. lia.
  - intros ->. apply Hc. right; right; right; reflexivity.
  - exact H.
  - rewrite app_length. lia.
Qed.

Theorem reads_not_linear : ~ exists k b, forall code, ascii_str code -> lexer_reads code <= k * length code + b.
Proof.
  intros (k & b & H).
  set (n := 2 * k + 2 * b + 1). set (s := repeat 48%N n : str).
  assert (Hs : Forall (fun c => 48 <= c <= 57)%N s).
  { apply Forall_forall. intros c Hc. apply repeat_spec in Hc. lia. }
  assert (Hl : length s = n) by apply repeat_length.
  assert (Ha : ascii_str s).
  { unfold ascii_str. apply forallb_forall. intros c Hc. apply repeat_spec in Hc. subst c. reflexivity. }
  pose proof (digits_reads s Hs) as H1. specialize (H s Ha). rewrite Hl in *. clearbody s.
  assert (n * S n <= n * (2 * k) + 2 * b) by lia.
  assert (n * S n = n * (2 * k) + n * (2 * b + 2)) by (unfold n; lia).
  assert (n * (2 * b + 2) >= 1 * (2 * b + 2)) by (apply Nat.mul_le_mono_r; unfold n; lia).
  lia.
Qed.

(** ** Checking the length of runs *)

Definition numericb (c : char) : bool :=
  is_digit c || N.eqb c 43 || N.eqb c 45 || N.eqb c 46.

Fixpoint runs_check (L : nat) (code : str) : bool :=
  Nat.leb (count_while numericb code) L &&
  match code with
  | [] => true
  | _ :: s => runs_check L s
  end.

Lemma numericb_complete c : numeric c -> numericb c = true.
Proof.
  unfold numericb, is_digit, c_zero, c_nine. intros [[H1 H2] | [ -> | [ -> | -> ] ] ]; try reflexivity.
  apply N.leb_le in H1, H2. rewrite H1, H2. reflexivity.
Qed.

Lemma runs_check_ok L : forall code, runs_check L code = true -> numeric_runs_within L code.
Proof.
  induction code as [|x s IH]; intros H a b c E Hb.
  - apply (f_equal (@length _)) in E. rewrite !app_length in E. cbn [length] in E. lia.
  - cbn [runs_check] in H. apply andb_prop in H. destruct H as [H1 H2]. apply Nat.leb_le in H1.
    destruct a as [|y a].
    + cbn [app] in E. rewrite E in H1.
      assert (Hl : length b <= count_while numericb (b ++ c)).
      { clear - Hb. induction Hb as [|d b Hd Hb IH]; cbn [length app count_while]; [lia|].
        rewrite (numericb_complete d Hd). lia. }
      lia.
    + cbn [app] in E. injection E as _ E. exact (IH H2 a b c E Hb).
Qed.

Lemma step_constant_value : step_constant = 366.
Proof. vm_compute. reflexivity. Qed.
