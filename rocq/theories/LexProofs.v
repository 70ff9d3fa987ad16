(** One step of the lexer and the whole run, against [LexSpec]. *)
From Coq Require Import String ZifyBool ZifyNat ZifyN.
From Verif Require Import StrFacts Lexer LexSpec LexBasics.
Local Open Scope N_scope.
Local Notation "c ;; s" := (@cons char c s) (at level 60, right associativity).

Lemma starts_with_none p s : ~ prefix_of p s -> starts_with p s = false.
Proof. intros H. apply starts_with_false. exact H. Qed.

Lemma is_ws_char c : ws c <-> (c =? c_nl) || ((c =? c_space) || (c =? c_tab)) = true.
Proof. unfold ws, c_nl, c_space, c_tab. lia. Qed.

(** ** Whitespace *)

(** The position after a run of whitespace. *)
Definition ws_pos1 (p : position) (c : char) : position :=
  if c =? newline
  then {| line := line p + 1; column := 1; bytes := bytes p + 1; chars := chars p + 1 |}%Z
  else position_add p [c].

Definition ws_pos (p : position) (gs : str) : position := fold_left ws_pos1 gs p.

Lemma ws_ascii c : ws c -> c < 128.
Proof. unfold ws; lia. Qed.

Lemma parse_whitespace_cons c s p : ws c ->
  parse_whitespace (c :: s) p =
  let (n, p') := parse_whitespace s (ws_pos1 p c) in (S n, p').
Proof.
  intros Hc. cbn [parse_whitespace]. unfold ws_pos1, newline, c_nl, c_space, c_tab.
  rewrite (utf8_len_lt c (ws_ascii c Hc)).
  destruct (N.eqb_spec c 10) as [->|Hn]; [reflexivity|].
  replace ((c =? 32) || (c =? 9)) with true by (unfold ws in Hc; lia).
  unfold position_add. cbn [byte_len length].
  rewrite (utf8_len_lt c (ws_ascii c Hc)). reflexivity.
Qed.

Lemma parse_whitespace_stop s p : ~ starts ws s -> parse_whitespace s p = (O, p).
Proof.
  intros H. destruct s as [|c s]; [reflexivity|]. cbn [parse_whitespace].
  assert (Hc : ~ ws c) by (intros Hc; apply H; exists c, s; auto).
  unfold ws in Hc. unfold c_nl, c_space, c_tab.
  replace (c =? 10) with false by lia. replace ((c =? 32) || (c =? 9)) with false by lia.
  reflexivity.
Qed.

Lemma parse_whitespace_run gs s : forall p,
  Forall ws gs -> ~ starts ws s ->
  parse_whitespace (gs ++ s) p = (length gs, ws_pos p gs).
Proof.
  induction gs as [|c gs IH]; intros p Hg Hs; cbn [app].
  - apply parse_whitespace_stop; assumption.
  - inversion Hg; subst. rewrite parse_whitespace_cons by assumption.
    rewrite IH by assumption. reflexivity.
Qed.

Lemma ws_dec c : {ws c} + {~ ws c}.
Proof.
  destruct ((c =? c_nl) || ((c =? c_space) || (c =? c_tab))) eqn:E.
  - left. apply is_ws_char, E.
  - right. rewrite is_ws_char. congruence.
Qed.

Lemma ws_split s : exists gs r, s = gs ++ r /\ Forall ws gs /\ ~ starts ws r.
Proof.
  induction s as [|c s (gs & r & -> & Hg & Hr)].
  - exists [], []. repeat split; auto. intros (c & r & H & _); discriminate.
  - destruct (ws_dec c) as [Hc|Hc].
    + exists (c :: gs), r. repeat split; auto.
    + exists [], (c :: gs ++ r). repeat split; auto.
      intros (c' & r' & H & Hw). injection H as <- _. contradiction.
Qed.

Lemma not_starts_cons P c s : ~ P c <-> ~ starts P (c :: s).
Proof.
  split; intros H.
  - intros (c' & r & E & Hc). injection E as <- _. contradiction.
  - intros Hc. apply H. exists c, s; auto.
Qed.

(** ** The sub-parsers that do not apply *)

Lemma one_char_none d c s : c <> d -> one_char d (c :: s) = Ret None.
Proof.
  intros H. unfold one_char. cbn [starts_with].
  replace (d =? c) with false; [reflexivity|]. symmetry; apply N.eqb_neq; congruence.
Qed.

Lemma one_char_some d s : d < 128 -> one_char d (d :: s) = Ret (Some [d]).
Proof.
  intros H. unfold one_char. cbn [starts_with]. rewrite N.eqb_refl. cbn [andb].
  rewrite (slice_to_app [d] s); [reflexivity|]. cbn [byte_len]. rewrite utf8_len_lt by assumption. reflexivity.
Qed.

Lemma single_none code : ~ prefix_of (spelling BTW) code -> parse_single_line_comment code = Ret None.
Proof.
  intros H. unfold parse_single_line_comment. cbv zeta. rewrite (spelling_ok BTW).
  rewrite starts_with_none by assumption. reflexivity.
Qed.

Lemma multi_none code : ~ prefix_of (spelling OBTW) code -> parse_multi_line_comment code = Ret MlNone.
Proof.
  intros H. unfold parse_multi_line_comment. cbv zeta. rewrite (spelling_ok OBTW).
  rewrite starts_with_none by assumption. reflexivity.
Qed.

Lemma slot_none code : ~ prefix_of (lit "'Z") code -> parse_bukkit_slot_access code = Ret None.
Proof. intros H. unfold parse_bukkit_slot_access. rewrite starts_with_none by assumption. reflexivity. Qed.

Lemma ellipsis_none c s :
  ~ prefix_of (lit "...") (c :: s) -> c < 128 -> parse_ellipsis (c :: s) = Ret None.
Proof.
  intros H Hc. unfold parse_ellipsis. rewrite starts_with_none by assumption.
  cbn [starts_with]. replace (c_ellipsis =? c) with false by (unfold c_ellipsis; lia). reflexivity.
Qed.

Lemma boolean_none code :
  ~ prefix_of (spelling WIN) code -> ~ prefix_of (spelling FAIL) code ->
  parse_boolean code = Ret None.
Proof.
  intros H1 H2. unfold parse_boolean. cbv zeta. rewrite (spelling_ok WIN), (spelling_ok FAIL).
  rewrite !starts_with_none by assumption. reflexivity.
Qed.

Lemma noob_none code : ~ prefix_of (spelling NOOB) code -> parse_noob code = Ret None.
Proof.
  intros H. unfold parse_noob. cbv zeta. rewrite (spelling_ok NOOB).
  rewrite starts_with_none by assumption. reflexivity.
Qed.

Lemma keyword_none code : (forall k, ~ prefix_of (spelling k) code) -> parse_keyword code = Ret None.
Proof. intros H. rewrite parse_keyword_ok. apply find_keyword_none in H as ->. reflexivity. Qed.

Lemma make_token_ok raw rest p ty :
  make_token (raw ++ rest) p raw ty =
  Ret ({| tok_type := ty; tok_range := {| r_start := p; r_end := position_add p raw |} |},
       rest, position_add p raw).
Proof. unfold make_token. cbv zeta. rewrite slice_from_app by reflexivity. reflexivity. Qed.

(** The outcome of a step that produces a token. *)
Definition stoken (p : position) (raw rest : str) (ty : token_type) : step_result :=
  SToken {| tok_type := ty; tok_range := {| r_start := p; r_end := position_add p raw |} |}
         rest (position_add p raw).

Lemma try_token_some {A} code p (a : A) raw ty k rest :
  code = raw a ++ rest ->
  try_token code p (Ret (Some a)) raw ty k = stoken p (raw a) rest (ty a).
Proof. intros ->. unfold try_token. rewrite make_token_ok. reflexivity. Qed.

(** The steps from the slot-access test on. *)
Definition step_tail (code : str) (p : position) : step_result :=
  try_token code p (parse_bukkit_slot_access code) (fun raw => raw)
            (fun _ => TBukkitSlotAccess) (
  try_token code p (parse_ellipsis code) (fun raw => raw) (fun _ => TEllipsis) (
  try_token code p (parse_boolean code) fst
            (fun a => TValue (VBoolean (snd a))) (
  try_token code p (parse_noob code) (fun raw => raw) (fun _ => TValue VNoob) (
  try_token code p (parse_keyword code) fst (fun a => TKeyword (snd a)) (
  try_token code p (parse_number code) fst
            (fun a => TValue (VNumber (snd a))) (
  try_token code p (parse_string code) fst
            (fun a => TValue (VString (snd a))) (
  try_token code p (parse_identifier code) (fun raw => raw)
            (fun raw => TIdentifier raw) (
  match slice_to code 1 with
  | Panic => SPanic
  | Ret raw_symbol => of_make (make_token code p raw_symbol (TSymbol raw_symbol))
  end)))))))).

Lemma lex_step_nows c s p : ~ ws c ->
  lex_step (c :: s) p =
  (let code := c :: s in
  try_token code p (one_char c_comma code) (fun raw => raw) (fun _ => TComma) (
  try_token code p (one_char c_bang code) (fun raw => raw) (fun _ => TExclamationMark) (
  try_token code p (one_char c_comma code) (fun raw => raw) (fun _ => TQuestionMark) (
  try_token code p (parse_single_line_comment code) fst
            (fun a => TCommentSingleLine (snd a)) (
  match parse_multi_line_comment code with
  | Panic => SPanic
  | Ret MlErr =>
    SError (UnclosedMultilineComment
              {| r_start := p; r_end := position_add p code |})
  | Ret (MlSome raw contents) =>
    of_make (make_token code p raw (TCommentMultiLine contents))
  | Ret MlNone => step_tail code p
  end))))).
Proof.
  intros Hc. unfold lex_step. rewrite parse_whitespace_stop by (apply not_starts_cons, Hc).
  reflexivity.
Qed.

Lemma step_tail_ok c s p : ~ ws c -> c <> c_comma -> c <> c_bang ->
  ~ prefix_of (spelling BTW) (c :: s) -> ~ prefix_of (spelling OBTW) (c :: s) ->
  lex_step (c :: s) p = step_tail (c :: s) p.
Proof.
  intros H1 H2 H3 H4 H5. rewrite lex_step_nows by assumption. cbv zeta.
  rewrite !one_char_none by assumption. rewrite single_none, multi_none by assumption. reflexivity.
Qed.

(** ** Completeness: the specification determines the step *)

Lemma step_ws gs s p : gs <> [] -> Forall ws gs -> ~ starts ws s ->
  lex_step (gs ++ s) p = SSkip s (ws_pos p gs).
Proof.
  intros Hne Hg Hs. unfold lex_step. rewrite parse_whitespace_run by assumption.
  destruct gs as [|c gs]; [contradiction|]. cbn [length Nat.ltb Nat.leb].
  rewrite slice_from_app; [reflexivity|]. symmetry. apply (byte_len_ascii (c :: gs)).
  apply (forallb_Forall is_ascii (fun c => c < 128)); [apply is_ascii_iff|].
  eapply Forall_impl; [|exact Hg]. apply ws_ascii.
Qed.

Lemma not_ws_letter c : letter c -> ~ ws c.
Proof. unfold letter, ws; lia. Qed.

Lemma special_prefix k k' rest :
  In k' [BTW; OBTW; WIN; FAIL; NOOB] ->
  prefix_of (spelling k') (spelling k ++ rest) -> k = k' \/ k = A \/ k = R \/ False.
Proof.
  intros Hin H. apply starts_with_iff in H. cbn [In] in Hin.
  destruct Hin as [<-|[<-|[<-|[<-|[<-|[]]]]]]; destruct k; auto; vm_compute in H; discriminate.
Qed.

Lemma special_none k k' rest :
  In k' [BTW; OBTW; WIN; FAIL; NOOB] -> k <> k' -> ~ prefix_of (spelling k') (spelling k ++ rest).
Proof.
  intros Hin Hn H. destruct (special_prefix k k' rest Hin H) as [->|[->|[->|[]]]]; [contradiction| |];
  apply starts_with_iff in H; cbn [In] in Hin;
  destruct Hin as [<-|[<-|[<-|[<-|[<-|[]]]]]]; discriminate.
Qed.

Lemma number_head raw rest n : NumberText raw rest n ->
  exists c r, raw = c :: r /\ (c = 43 \/ c = 45 \/ digit c \/ c = dot).
Proof.
  intros [sg neg ds rest' Hs Hne Hd _ _|sg neg ip fp rest' Hs Hne Hi Hf _].
  - destruct Hs; cbn [app]; try (eexists; eexists; split; [reflexivity|tauto]).
    destruct Hd; [contradiction|]. eexists; eexists; split; [reflexivity|tauto].
  - destruct Hs; cbn [app]; try (eexists; eexists; split; [reflexivity|tauto]).
    destruct Hi; cbn [app]; eexists; eexists; (split; [reflexivity|tauto]).
Qed.

Lemma number_not_ellipsis raw rest n : NumberText raw rest n -> ~ prefix_of (lit "...") (raw ++ rest).
Proof.
  intros H [t Ht]. destruct H as [sg neg ds rest' Hs Hne Hd _ _|sg neg ip fp rest' Hs Hne Hi Hf _].
  - destruct Hs; try discriminate. cbn [app] in Ht. destruct Hd as [|d ds Hd _]; [contradiction|].
    injection Ht as -> _. unfold digit in Hd; lia.
  - destruct Hs; try discriminate. cbn [app] in Ht. destruct Hi as [|d ds Hd _].
    + cbn [app] in *. destruct Hf as [|d ds Hd _]; [contradiction|]. injection Ht as -> _.
      unfold digit in Hd; lia.
    + injection Ht as -> _. unfold digit in Hd; lia.
Qed.

Lemma not_slot c s : c <> 39 -> ~ prefix_of (lit "'Z") (c :: s).
Proof. intros H [t E]. injection E as -> _. apply H; reflexivity. Qed.

Lemma not_dots c s : c <> dot -> ~ prefix_of (lit "...") (c :: s).
Proof. intros H [t E]. injection E as -> _. apply H; reflexivity. Qed.

Lemma not_number c s :
  ~ (c = 43 \/ c = 45 \/ digit c \/ c = dot) -> parse_number (c :: s) = Ret None.
Proof.
  intros H. apply parse_number_none. intros raw rest n E Hn.
  destruct (number_head _ _ _ Hn) as (d & r & -> & Hd). injection E as -> _. contradiction.
Qed.

Lemma parse_identifier_none c s : ~ letter c -> parse_identifier (c :: s) = Ret None.
Proof.
  intros H. pose proof (parse_identifier_sound (c :: s)) as Hs.
  destruct (parse_identifier (c :: s)) as [[raw|]|]; [|reflexivity|contradiction].
  destruct Hs as (rest & E & Hne & Hl & _). destruct Hl as [|d l Hd _]; [contradiction|].
  injection E as -> _. contradiction.
Qed.

(** Non-letter characters reach the ellipsis test unless they are special. *)
Lemma step_nonletter c s p : ~ ws c -> ~ letter c -> c <> c_comma -> c <> c_bang -> c < 128 ->
  ~ prefix_of (lit "'Z") (c :: s) -> ~ prefix_of (lit "...") (c :: s) ->
  lex_step (c :: s) p =
  try_token (c :: s) p (parse_number (c :: s)) fst
            (fun a => TValue (VNumber (snd a))) (
  try_token (c :: s) p (parse_string (c :: s)) fst
            (fun a => TValue (VString (snd a))) (
  match slice_to (c :: s) 1 with
  | Panic => SPanic
  | Ret raw_symbol => of_make (make_token (c :: s) p raw_symbol (TSymbol raw_symbol))
  end)).
Proof.
  intros H1 H2 H3 H4 H5 H6 H7.
  assert (Hk : forall k, ~ prefix_of (spelling k) (c :: s)) by (intros k; apply no_keyword, H2).
  rewrite step_tail_ok by auto. unfold step_tail.
  rewrite slot_none by assumption. rewrite ellipsis_none by assumption.
  rewrite boolean_none, noob_none, keyword_none by auto.
  rewrite parse_identifier_none by assumption. reflexivity.
Qed.

Lemma find_newline_some s rest : ~ In newline s ->
  find [c_nl] (s ++ newline :: rest) = Some (byte_len s).
Proof.
  intros H. apply find_first. split.
  - exists rest. reflexivity.
  - intros a' b' E. destruct (Nat.le_gt_cases (length s) (length a')) as [|Hlt]; [assumption|].
    exfalso. apply H. symmetry in E. cbn [app] in E.
    destruct (app_cons_inv_lt _ _ _ _ _ _ E Hlt) as [m ->].
    apply in_or_app; right; left; reflexivity.
Qed.

Lemma find_newline_none s : ~ In newline s -> find [c_nl] s = None.
Proof.
  intros H. destruct (find [c_nl] s) as [n|] eqn:E; [|reflexivity].
  apply StrFacts.find_some in E as (a & [[b ->] _] & _). exfalso. apply H.
  apply in_or_app; right; left; reflexivity.
Qed.

Lemma single_comment_ok s rest :
  ~ In newline s -> (rest = [] \/ starts (eq newline) rest) ->
  parse_single_line_comment (lit "BTW" ++ s ++ rest) = Ret (Some (lit "BTW" ++ s, s)).
Proof.
  intros Hs Hr. unfold parse_single_line_comment. cbv zeta.
  change (to_string_slice BTW) with (lit "BTW"). rewrite starts_with_app.
  assert (Hs' : ~ In newline (lit "BTW" ++ s)).
  { intros H. apply in_app_or in H as [H|H]; [|contradiction].
    cbn in H. unfold newline in H. destruct H as [H|[H|[H|[]]]]; discriminate. }
  set (e := match find [c_nl] (lit "BTW" ++ s ++ rest) with Some n => n | None => byte_len (lit "BTW" ++ s ++ rest) end).
  assert (e = byte_len (lit "BTW" ++ s)) as ->.
  { unfold e. destruct Hr as [->|(c & r & -> & <-)].
    - rewrite app_nil_r, find_newline_none by assumption. reflexivity.
    - rewrite app_assoc, find_newline_some by assumption. reflexivity. }
  rewrite slice_app; [|reflexivity|apply byte_len_app]. cbn [obind].
  rewrite app_assoc, slice_to_app by reflexivity. reflexivity.
Qed.

Lemma multi_comment_ok s rest :
  (forall a b, lit "OBTW" ++ s ++ lit "TLDR" ++ rest = a ++ lit "TLDR" ++ b ->
               (4 + length s <= length a)%nat) ->
  parse_multi_line_comment (lit "OBTW" ++ s ++ lit "TLDR" ++ rest) =
  Ret (MlSome (lit "OBTW" ++ s ++ lit "TLDR") s).
Proof.
  intros Hf. unfold parse_multi_line_comment. cbv zeta.
  change (to_string_slice OBTW) with (lit "OBTW"). change (to_string_slice TLDR) with (lit "TLDR").
  rewrite starts_with_app.
  assert (first_at (lit "TLDR") (lit "OBTW" ++ s) (lit "OBTW" ++ s ++ lit "TLDR" ++ rest)) as H.
  { split.
    - exists rest. rewrite <- !app_assoc. reflexivity.
    - intros a' b' E. rewrite app_length. apply (Hf a' b' E). }
  rewrite (find_first _ _ _ H).
  rewrite slice_app; [|reflexivity|apply byte_len_app]. cbn [obind].
  replace (lit "OBTW" ++ s ++ lit "TLDR" ++ rest) with ((lit "OBTW" ++ s ++ lit "TLDR") ++ rest)
    by (rewrite <- !app_assoc; reflexivity).
  rewrite slice_to_app; [reflexivity|]. rewrite !byte_len_app. lia.
Qed.

Lemma lit_app_cons a s r : exists c t, lit (String.String a s) ++ r = c :: t /\ c = Ascii.N_of_ascii a.
Proof. eexists; eexists; split; reflexivity. Qed.

Ltac ws_concrete := unfold ws; intros [?|[?|?]]; discriminate.

Theorem step_token raw rest ty p :
  TokText raw rest ty -> lex_step (raw ++ rest) p = stoken p raw rest ty.
Proof.
  intros H. destruct H as [rest|rest|s rest Hs Hr|s rest Hf|rest|rest|rest|rest|rest
    |k rest Hk Hmax|raw rest n Hn|body after s c rest Hb E Hl Hc|s Ho|raw rest Hne Hl Hr Hk
    |c rest Hc Hw Hl Hin Hz Hd Hn].
  - (* comma *)
    change (lit "," ++ rest) with (44 ;; rest). rewrite lex_step_nows by ws_concrete. cbv zeta.
    change c_comma with 44. rewrite one_char_some by lia.
    rewrite (try_token_some _ _ _ _ _ _ rest) by reflexivity. reflexivity.
  - change (lit "!" ++ rest) with (33 ;; rest). rewrite lex_step_nows by ws_concrete. cbv zeta.
    rewrite (one_char_none c_comma) by discriminate. cbn [try_token].
    change c_bang with 33. rewrite one_char_some by lia.
    rewrite (try_token_some _ _ _ _ _ _ rest) by reflexivity. reflexivity.
  - (* BTW *)
    rewrite <- app_assoc.
    replace (lex_step (lit "BTW" ++ s ++ rest) p) with
      (try_token (lit "BTW" ++ s ++ rest) p (parse_single_line_comment (lit "BTW" ++ s ++ rest)) fst
            (fun a => TCommentSingleLine (snd a)) SPanic).
    + rewrite single_comment_ok by assumption.
      rewrite (try_token_some _ _ _ _ _ _ rest); [reflexivity|]. cbn [fst]. rewrite <- app_assoc; reflexivity.
    + change (lit "BTW" ++ s ++ rest) with (66 ;; (lit "TW" ++ s ++ rest)).
      rewrite lex_step_nows by ws_concrete. cbv zeta. rewrite !one_char_none by discriminate. cbn [try_token].
      change (66 ;; (lit "TW" ++ s ++ rest)) with (lit "BTW" ++ s ++ rest).
      rewrite single_comment_ok by assumption. reflexivity.
  - (* OBTW *)
    replace ((lit "OBTW" ++ s ++ lit "TLDR") ++ rest) with (lit "OBTW" ++ s ++ lit "TLDR" ++ rest)
      by (rewrite <- !app_assoc; reflexivity).
    pose proof (multi_comment_ok s rest Hf) as Hm.
    remember (lit "OBTW" ++ s ++ lit "TLDR" ++ rest) as code eqn:Ec.
    assert (Hcode : exists t, code = 79 ;; 66 ;; t) by (rewrite Ec; eexists; reflexivity).
    destruct Hcode as [t Ht]. rewrite Ht. rewrite lex_step_nows by ws_concrete. cbv zeta.
    rewrite !one_char_none by discriminate. cbn [try_token].
    rewrite single_none by (intros [u Hu]; discriminate). cbn [try_token].
    rewrite <- Ht, Hm, Ec.
    replace (lit "OBTW" ++ s ++ lit "TLDR" ++ rest) with ((lit "OBTW" ++ s ++ lit "TLDR") ++ rest)
      by (rewrite <- !app_assoc; reflexivity).
    rewrite make_token_ok. reflexivity.
  - (* 'Z *)
    change (lit "'Z" ++ rest) with (39 ;; 90 ;; rest).
    rewrite step_tail_ok; try discriminate; try ws_concrete; try (intros [u Hu]; discriminate).
    unfold step_tail.
    replace (parse_bukkit_slot_access (39 ;; 90 ;; rest)) with (Ret (Some (lit "'Z"))).
    2:{ unfold parse_bukkit_slot_access. cbn [lit starts_with].
        change (39 ;; 90 ;; rest) with (lit "'Z" ++ rest). rewrite slice_to_app; reflexivity. }
    rewrite (try_token_some _ _ _ _ _ _ rest) by reflexivity. reflexivity.
  - (* ... *)
    change (lit "..." ++ rest) with (46 ;; 46 ;; 46 ;; rest).
    rewrite step_tail_ok; try discriminate; try ws_concrete; try (intros [u Hu]; discriminate).
    unfold step_tail. rewrite slot_none by (intros [u Hu]; discriminate). cbn [try_token].
    replace (parse_ellipsis (46 ;; 46 ;; 46 ;; rest)) with (Ret (Some (lit "..."))).
    2:{ unfold parse_ellipsis. change (46 ;; 46 ;; 46 ;; rest) with (lit "..." ++ rest).
        rewrite starts_with_app, slice_to_app; reflexivity. }
    rewrite (try_token_some _ _ _ _ _ _ rest) by reflexivity. reflexivity.
  - (* WIN *)
    change (lit "WIN" ++ rest) with (87 ;; 73 ;; 78 ;; rest).
    rewrite step_tail_ok; try discriminate; try ws_concrete; try (intros [u Hu]; discriminate).
    unfold step_tail. rewrite slot_none, ellipsis_none by first [lia|intros [u Hu]; discriminate]. cbn [try_token].
    replace (parse_boolean (87 ;; 73 ;; 78 ;; rest)) with (Ret (Some (lit "WIN", true))).
    2:{ unfold parse_boolean. change (87 ;; 73 ;; 78 ;; rest) with (lit "WIN" ++ rest).
        change (to_string_slice WIN) with (lit "WIN"). cbv zeta.
        rewrite starts_with_app, slice_to_app; reflexivity. }
    rewrite (try_token_some _ _ _ _ _ _ rest) by reflexivity. reflexivity.
  - (* FAIL *)
    change (lit "FAIL" ++ rest) with (70 ;; 65 ;; 73 ;; 76 ;; rest).
    rewrite step_tail_ok; try discriminate; try ws_concrete; try (intros [u Hu]; discriminate).
    unfold step_tail. rewrite slot_none, ellipsis_none by first [lia|intros [u Hu]; discriminate]. cbn [try_token].
    replace (parse_boolean (70 ;; 65 ;; 73 ;; 76 ;; rest)) with (Ret (Some (lit "FAIL", false))).
    2:{ unfold parse_boolean. change (70 ;; 65 ;; 73 ;; 76 ;; rest) with (lit "FAIL" ++ rest).
        change (to_string_slice FAIL) with (lit "FAIL"). cbv zeta.
        change (starts_with (to_string_slice WIN) (lit "FAIL" ++ rest)) with false.
        rewrite starts_with_app, slice_to_app; reflexivity. }
    rewrite (try_token_some _ _ _ _ _ _ rest) by reflexivity. reflexivity.
  - (* NOOB *)
    change (lit "NOOB" ++ rest) with (78 ;; 79 ;; 79 ;; 66 ;; rest).
    rewrite step_tail_ok; try discriminate; try ws_concrete; try (intros [u Hu]; discriminate).
    unfold step_tail. rewrite slot_none, ellipsis_none, boolean_none
      by first [lia|intros [u Hu]; discriminate]. cbn [try_token].
    replace (parse_noob (78 ;; 79 ;; 79 ;; 66 ;; rest)) with (Ret (Some (lit "NOOB"))).
    2:{ unfold parse_noob. change (78 ;; 79 ;; 79 ;; 66 ;; rest) with (lit "NOOB" ++ rest).
        change (to_string_slice NOOB) with (lit "NOOB"). cbv zeta.
        rewrite starts_with_app, slice_to_app; reflexivity. }
    rewrite (try_token_some _ _ _ _ _ _ rest) by reflexivity. reflexivity.
  - (* keyword *)
    assert (Hsp : forall k', In k' [BTW; OBTW; WIN; FAIL; NOOB] -> ~ prefix_of (spelling k') (spelling k ++ rest)).
    { intros k' Hin. apply special_none; [assumption|]. intros ->. apply Hk. cbn in *. tauto. }
    assert (Hfind : List.find (kw_at (spelling k ++ rest)) all_symbols = Some k).
    { apply find_keyword_iff. split; [exists rest; reflexivity|]. split; [|assumption].
      intros ->. apply Hk. cbn; tauto. }
    destruct (spelling_letter k) as (c & t & Ec & Hc). apply is_ident_char_iff in Hc.
    rewrite Ec in *. cbn [app] in *.
    assert (c < 128) by (unfold letter in Hc; lia).
    rewrite step_tail_ok.
    2: apply not_ws_letter, Hc.
    2,3: unfold letter, c_comma, c_bang in *; lia.
    2,3: apply Hsp; cbn; tauto.
    unfold step_tail.
    rewrite slot_none by (apply not_slot; unfold letter in Hc; lia).
    rewrite ellipsis_none by (try apply not_dots; unfold letter, dot in *; lia).
    rewrite boolean_none, noob_none by (apply Hsp; cbn; tauto). cbn [try_token].
    rewrite parse_keyword_ok, Hfind.
    rewrite (try_token_some _ _ _ _ _ _ rest); cbn [fst snd]; rewrite Ec; reflexivity.
  - (* number *)
    pose proof (number_not_ellipsis _ _ _ Hn) as He.
    pose proof (parse_number_complete _ _ _ Hn) as Hp.
    destruct (number_head _ _ _ Hn) as (c & r & Er & Hc). rewrite Er in *. cbn [app] in *.
    unfold digit, dot in Hc.
    rewrite step_nonletter; try assumption; unfold ws, letter, c_comma, c_bang; try lia.
    2:{ apply not_slot; lia. }
    rewrite Hp, (try_token_some _ _ _ _ _ _ rest) by reflexivity. reflexivity.
  - (* closed string *)
    pose proof (parse_string_complete _ _ _ _ _ Hb E Hl Hc) as Hp.
    change ((quote :: s ++ [c]) ++ rest) with (quote :: (s ++ [c]) ++ rest).
    rewrite <- app_assoc. cbn [app].
    rewrite step_nonletter; unfold ws, letter, c_comma, c_bang, quote; try lia.
    2,3: intros [u Hu]; discriminate.
    fold quote. rewrite not_number by (unfold quote, digit, dot; lia). cbn [try_token].
    rewrite Hp, (try_token_some _ _ _ _ _ _ rest); [reflexivity|].
    cbn [fst app]. rewrite <- app_assoc. reflexivity.
  - (* open string *)
    rewrite app_nil_r. rewrite step_nonletter; unfold ws, letter, c_comma, c_bang, quote; try lia.
    2,3: intros [u Hu]; discriminate.
    fold quote. rewrite not_number by (unfold quote, digit, dot; lia). cbn [try_token].
    rewrite parse_string_open by assumption.
    rewrite (try_token_some _ _ _ _ _ _ []); [reflexivity|]. cbn [fst]. rewrite app_nil_r; reflexivity.
  - (* identifier *)
    pose proof (parse_identifier_complete raw rest Hne Hl Hr) as Hp.
    destruct Hl as [|c t Hc Ht]; [contradiction|]. cbn [app] in *.
    rewrite step_tail_ok.
    2: apply not_ws_letter, Hc.
    2,3: unfold letter, c_comma, c_bang in *; lia.
    2,3: apply Hk.
    unfold step_tail.
    rewrite slot_none by (apply not_slot; unfold letter in Hc; lia).
    rewrite ellipsis_none by (try apply not_dots; unfold letter, dot in *; lia).
    rewrite boolean_none, noob_none, keyword_none by auto. cbn [try_token].
    rewrite not_number by (unfold digit, dot, letter in *; lia).
    rewrite parse_string_other by (unfold quote, letter in *; lia). cbn [try_token].
    rewrite Hp, (try_token_some _ _ _ _ _ _ rest) by reflexivity. reflexivity.
  - (* symbol *)
    cbn [app]. rewrite step_nonletter; try assumption.
    2,3: intros ->; apply Hin; cbn; tauto.
    replace (parse_number (c :: rest)) with (@Ret (option (str * number_token)) None)
      by (symmetry; apply parse_number_none; assumption).
    rewrite parse_string_other by (intros ->; apply Hin; cbn; tauto). cbn [try_token].
    rewrite (slice_to_app [c] rest) by (cbn [byte_len]; rewrite utf8_len_lt by assumption; reflexivity).
    change (c :: rest) with ([c] ++ rest). rewrite make_token_ok. reflexivity.
Qed.

Theorem step_error code p :
  UnclosedComment code ->
  lex_step code p = SError (UnclosedMultilineComment {| r_start := p; r_end := position_add p code |}).
Proof.
  intros [[t ->] Hno].
  assert (Hm : parse_multi_line_comment (lit "OBTW" ++ t) = Ret MlErr).
  { unfold parse_multi_line_comment. change (to_string_slice OBTW) with (lit "OBTW").
    change (to_string_slice TLDR) with (lit "TLDR"). cbv zeta. rewrite starts_with_app.
    destruct (find (lit "TLDR") (lit "OBTW" ++ t)) as [n|] eqn:E; [|reflexivity].
    apply StrFacts.find_some in E as (a & [[b Hb] _] & _). exfalso. apply Hno. exists a, b. exact Hb. }
  change (lit "OBTW" ++ t) with (79 ;; 66 ;; 84 ;; 87 ;; t) in *.
  rewrite lex_step_nows by ws_concrete. cbv zeta.
  rewrite !one_char_none by discriminate. cbn [try_token].
  rewrite single_none by (intros [u Hu]; discriminate). cbn [try_token].
  rewrite Hm. reflexivity.
Qed.

Lemma nonascii_slice c s : 128 <= c -> slice_to (c :: s) 1 = Panic.
Proof.
  intros H. unfold slice_to. cbn [split_bytes].
  replace (Nat.leb (utf8_len c) 1) with false; [reflexivity|].
  symmetry. apply Nat.leb_gt. unfold utf8_len.
  replace (c <? 128) with false by lia. destruct (c <? 2048), (c <? 65536); lia.
Qed.

Theorem step_panic code p : PanicsAt code -> lex_step code p = SPanic.
Proof.
  intros [(c & s & -> & Hc)|(body & after & -> & Hb & Hno)].
  - assert (Hk : forall k, ~ prefix_of (spelling k) (c :: s))
      by (intros k; apply no_keyword; unfold letter; lia).
    rewrite step_tail_ok; unfold ws, c_comma, c_bang; try lia; auto.
    unfold step_tail. rewrite slot_none by (apply not_slot; lia).
    destruct (N.eqb_spec c c_ellipsis) as [->|He].
    { unfold parse_ellipsis. rewrite starts_with_none by (apply not_dots; unfold dot; lia).
      cbn [starts_with]. rewrite N.eqb_refl. cbn [andb]. rewrite nonascii_slice by assumption. reflexivity. }
    replace (parse_ellipsis (c :: s)) with (@Ret (option str) None).
    2:{ unfold parse_ellipsis. rewrite starts_with_none by (apply not_dots; unfold dot; lia).
        cbn [starts_with]. replace (c_ellipsis =? c) with false by (symmetry; apply N.eqb_neq; congruence).
        reflexivity. }
    rewrite boolean_none, noob_none, keyword_none by auto.
    rewrite not_number by (unfold digit, dot; lia).
    rewrite parse_string_other by (unfold quote; lia).
    rewrite parse_identifier_none by (unfold letter; lia). cbn [try_token].
    rewrite nonascii_slice by assumption. reflexivity.
  - rewrite step_nonletter; unfold ws, letter, c_comma, c_bang, quote; try lia.
    2,3: intros [u Hu]; discriminate.
    fold quote. rewrite not_number by (unfold quote, digit, dot; lia). cbn [try_token].
    destruct (parse_string (quote :: body ++ quote :: after)) as [[[raw contents]|]|] eqn:E; [| |reflexivity].
    + exfalso. apply parse_string_sound in E as (c & rest & -> & Hc & E & Hl); [|assumption].
      apply Hno. exists contents, c, rest. auto.
    + exfalso. rewrite parse_string_closed in E by assumption.
      destruct (slice_to _ _); [|discriminate]. destruct (slice _ _ _); discriminate.
Qed.

(** ** Every text is one of the four cases *)

Definition letter_dec c : {letter c} + {~ letter c}.
Proof.
  destruct (is_ident_char c) eqn:E; [left; apply is_ident_char_iff, E|right; apply is_ident_char_false, E].
Defined.

Lemma letters_split s : exists a r, s = a ++ r /\ Forall letter a /\ ~ starts letter r.
Proof.
  destruct (count_while_spec is_ident_char s) as (a & r & -> & _ & Ha & Hr).
  exists a, r. repeat split; [apply letters_iff, Ha|].
  intros (c & t & -> & Hc). apply is_ident_char_iff in Hc. congruence.
Qed.

Lemma newline_split s : exists a r, s = a ++ r /\ ~ In newline a /\ (r = [] \/ starts (eq newline) r).
Proof.
  induction s as [|c s (a & r & -> & Ha & Hr)].
  - exists [], []. auto.
  - destruct (N.eq_dec c newline) as [->|Hn].
    + exists [], (newline :: a ++ r). repeat split; auto. right. exists newline, (a ++ r). auto.
    + exists (c :: a), r. repeat split; auto. intros [?|?]; [congruence|contradiction].
Qed.

Theorem step_exhaustive code :
  code = [] \/ starts ws code \/ (exists raw rest ty, code = raw ++ rest /\ TokText raw rest ty) \/
  UnclosedComment code \/ PanicsAt code.
Proof.
  destruct code as [|c s]; [auto|right].
  destruct (ws_dec c) as [Hw|Hw]; [left; exists c, s; auto|right].
  destruct (N.lt_ge_cases c 128) as [Ha|Ha].
  2:{ right; right. left. exists c, s; auto. }
  destruct (letter_dec c) as [Hl|Hl].
  - (* a letter: a keyword or an identifier *)
    destruct (List.find (kw_at (c :: s)) all_symbols) as [k|] eqn:Ek.
    + apply find_keyword_iff in Ek as (Hk & Hn & Hmax).
      destruct Hk as [t Ht].
      destruct (in_dec keyword_eq_dec k [BTW; OBTW; WIN; FAIL; NOOB]) as [Hin|Hin].
      * cbn [In] in Hin. destruct Hin as [<-|[<-|[<-|[<-|[<-|[]]]]]].
        -- destruct (newline_split t) as (a & r & -> & H1 & H2). left.
           exists (lit "BTW" ++ a), r, (TCommentSingleLine a). split.
           ++ rewrite Ht, <- app_assoc. reflexivity.
           ++ constructor; assumption.
        -- destruct (find (lit "TLDR") (c :: s)) as [n|] eqn:Ef.
           ++ left. apply StrFacts.find_some in Ef as (a & [[b Hb] Hmin] & _).
              assert (exists u, a = lit "OBTW" ++ u) as [u ->].
              { rewrite Ht in Hb. clear - Hb. change (spelling OBTW) with (lit "OBTW") in Hb.
                cbn in Hb. cbn.
                destruct a as [|a0 a]; [discriminate|]. cbn [app] in Hb. injection Hb as <- Hb.
                destruct a as [|a1 a]; [discriminate|]. cbn [app] in Hb. injection Hb as <- Hb.
                destruct a as [|a2 a]; [discriminate|]. cbn [app] in Hb. injection Hb as <- Hb.
                destruct a as [|a3 a]; [discriminate|]. cbn [app] in Hb. injection Hb as <- Hb.
                exists a; reflexivity. }
              exists (lit "OBTW" ++ u ++ lit "TLDR"), b, (TCommentMultiLine u). split.
              ** rewrite Hb, <- !app_assoc. reflexivity.
              ** constructor. intros a' b' E.
                 pose proof (Hmin a' b') as Hm. rewrite app_length in Hm. apply Hm.
                 rewrite Hb, <- E, <- !app_assoc. reflexivity.
           ++ right; left. split; [exists t; exact Ht|].
              intros (a & b & Hab). exact (StrFacts.find_none _ _ Ef a b Hab).
        -- left. exists (lit "WIN"), t, (TValue (VBoolean true)). split; [exact Ht|constructor].
        -- left. exists (lit "FAIL"), t, (TValue (VBoolean false)). split; [exact Ht|constructor].
        -- left. exists (lit "NOOB"), t, (TValue VNoob). split; [exact Ht|constructor].
      * left. exists (spelling k), t, (TKeyword k). split; [exact Ht|]. constructor.
        -- cbn [In] in *. intuition congruence.
        -- rewrite <- Ht. exact Hmax.
    + left. destruct (letters_split (c :: s)) as (a & r & E & Hla & Hr).
      exists a, r, (TIdentifier a). split; [exact E|]. constructor; auto.
      * intros ->. cbn [app] in E. apply Hr. rewrite <- E. exists c, s; auto.
      * rewrite <- E. apply find_keyword_none, Ek.
  - destruct (N.eq_dec c c_comma) as [->|Hcomma].
    { left. exists (lit ","), s, TComma. split; [reflexivity|constructor]. }
    destruct (N.eq_dec c c_bang) as [->|Hbang].
    { left. exists (lit "!"), s, TExclamationMark. split; [reflexivity|constructor]. }
    destruct (starts_with (lit "'Z") (c :: s)) eqn:Ez.
    { apply starts_with_iff in Ez as [t Ht]. left. exists (lit "'Z"), t, TBukkitSlotAccess.
      split; [exact Ht|constructor]. }
    destruct (starts_with (lit "...") (c :: s)) eqn:Ed.
    { apply starts_with_iff in Ed as [t Ht]. left. exists (lit "..."), t, TEllipsis.
      split; [exact Ht|constructor]. }
    apply starts_with_false in Ez, Ed.
    destruct (N.eq_dec c quote) as [->|Hq].
    { destruct (string_cases s) as [(body & after & -> & Hb)|Ho].
      - destruct (parse_string (quote :: body ++ quote :: after)) as [[[raw contents]|]|] eqn:E.
        + left. apply parse_string_sound in E as (c & rest & -> & Hc & E & Hlen); [|assumption].
          exists (quote :: contents ++ [c]), rest, (TValue (VString contents)). split.
          * rewrite E. cbn [app]. rewrite <- app_assoc. reflexivity.
          * econstructor; eassumption.
        + exfalso. rewrite parse_string_closed in E by assumption.
          destruct (slice_to _ _); [|discriminate]. destruct (slice _ _ _); discriminate.
        + right; right. right. exists body, after. repeat split; try apply Hb.
          intros (s & c & r & E' & Hlen & Hc).
          pose proof (parse_string_complete _ _ _ _ _ Hb E' Hlen Hc) as Hp. rewrite <- E', E in Hp.
          discriminate.
      - left. exists (quote :: s), [], (TValue (VString s)). rewrite app_nil_r.
        split; [reflexivity|constructor; assumption]. }
    left. pose proof (parse_number_sound (c :: s)) as Hs.
    destruct (parse_number (c :: s)) as [[[raw n]|]|] eqn:En; [| |contradiction].
    + destruct Hs as (rest & E & Hn). exists raw, rest, (TValue (VNumber n)).
      split; [exact E|constructor; exact Hn].
    + exists [c], s, (TSymbol [c]). split; [reflexivity|]. constructor; auto.
      * change (lit ",!" ++ [quote]) with [c_comma; c_bang; quote]. cbn [In]. intuition congruence.
      * apply parse_number_none, En.
Qed.

(** ** Consequences for the specification *)

Lemma TokText_nonempty raw rest ty : TokText raw rest ty -> raw <> [].
Proof.
  intros []; try discriminate; auto.
  - apply spelling_nonempty.
  - destruct (number_head _ _ _ H) as (c & r & -> & _). discriminate.
Qed.

Lemma TokText_deterministic raw rest ty raw' rest' ty' :
  TokText raw rest ty -> TokText raw' rest' ty' -> raw ++ rest = raw' ++ rest' ->
  raw = raw' /\ rest = rest' /\ ty = ty'.
Proof.
  intros H H' E. pose proof (step_token _ _ _ position_start H) as S1.
  pose proof (step_token _ _ _ position_start H') as S2. rewrite E, S2 in S1.
  injection S1 as -> _ _ _ ->. split; [|auto].
  apply app_inv_tail in E. exact E.
Qed.

Lemma TokText_not_ws raw rest ty : TokText raw rest ty -> ~ starts ws (raw ++ rest).
Proof.
  intros H. destruct (ws_split (raw ++ rest)) as (gs & r & E & Hg & Hr).
  destruct gs as [|c gs]; [cbn in E; rewrite E; exact Hr|]. exfalso.
  pose proof (step_token _ _ _ position_start H) as S1.
  rewrite E, step_ws in S1 by (assumption || discriminate). discriminate.
Qed.

(** The places where lexing stops. *)
Definition Stuck (rest : str) : Prop := rest = [] \/ UnclosedComment rest \/ PanicsAt rest.

Lemma stuck_not_ws rest : Stuck rest -> ~ starts ws rest.
Proof.
  intros H. destruct (ws_split rest) as (gs & r & E & Hg & Hr).
  destruct gs as [|c gs]; [cbn in E; rewrite E; exact Hr|]. exfalso.
  assert (S1 : lex_step rest position_start = SSkip r (ws_pos position_start (c :: gs)))
    by (rewrite E; apply step_ws; assumption || discriminate).
  destruct H as [->|[H|H]]; [discriminate|rewrite step_error in S1 by assumption; discriminate|].
  rewrite step_panic in S1 by assumption; discriminate.
Qed.

Lemma stuck_not_token raw rest ty : TokText raw rest ty -> ~ Stuck (raw ++ rest).
Proof.
  intros H HS. pose proof (step_token _ _ _ position_start H) as S1.
  destruct HS as [HS|[HS|HS]].
  - apply app_eq_nil in HS as [HS _]. exact (TokText_nonempty _ _ _ H HS).
  - rewrite step_error in S1 by assumption; discriminate.
  - rewrite step_panic in S1 by assumption; discriminate.
Qed.

Lemma LexesTo_deterministic code ps rest : LexesTo code ps rest -> Stuck rest ->
  forall ps' rest', LexesTo code ps' rest' -> Stuck rest' -> ps = ps' /\ rest = rest'.
Proof.
  intros H HS. induction H as [rest|c code ps rest Hc H IH|raw code ty ps rest Ht H IH];
    intros ps' rest' H' HS'.
  - inversion H' as [|c code ps1 rest1 Hc H1|raw code ty ps1 rest1 Ht H1]; subst.
    + auto.
    + exfalso. apply (stuck_not_ws _ HS). exists c, code; auto.
    + exfalso. exact (stuck_not_token _ _ _ Ht HS).
  - inversion H' as [|c' code' ps1 rest1 Hc' H1|raw' code' ty' ps1 rest1 Ht' H1 Hr]; subst.
    + exfalso. apply (stuck_not_ws _ HS'). exists c, code; auto.
    + destruct (IH HS _ _ H1 HS') as [-> ->]. auto.
    + exfalso. apply (TokText_not_ws _ _ _ Ht'). rewrite Hr. exists c, code; auto.
  - inversion H' as [rest1 Hx|c' code' ps1 rest1 Hc' H1 Hx|raw' code' ty' ps1 rest1 Ht' H1 Hx]; subst.
    + exfalso. exact (stuck_not_token _ _ _ Ht HS').
    + exfalso. apply (TokText_not_ws _ _ _ Ht). rewrite <- Hx. exists c', code'; auto.
    + destruct (TokText_deterministic _ _ _ _ _ _ Ht' Ht Hx) as (-> & -> & ->).
      destruct (IH HS _ _ H1 HS') as [-> ->]. auto.
Qed.

(** ** Positions *)

Lemma text_of_app a b : text_of (a ++ b) = text_of a ++ text_of b.
Proof. unfold text_of. rewrite map_app, concat_app. reflexivity. Qed.

Lemma since_break_snoc ps x :
  since_break (ps ++ [x]) = if is_break x then [] else since_break ps ++ [x].
Proof.
  induction ps as [|y ps IH]; cbn [app since_break existsb].
  - destruct (is_break x); reflexivity.
  - rewrite existsb_app. cbn [existsb]. rewrite orb_false_r.
    destruct (is_break x) eqn:Ex.
    + rewrite orb_true_r. rewrite IH. reflexivity.
    + rewrite orb_false_r. rewrite IH.
      destruct (existsb is_break ps); [reflexivity|]. destruct (is_break y); reflexivity.
Qed.

Lemma pos_after_tok before raw ty :
  pos_after (before ++ [Tok raw ty]) = position_add (pos_after before) raw.
Proof.
  unfold pos_after, position_add. cbn [line column bytes chars].
  rewrite since_break_snoc. cbn [is_break]. rewrite !text_of_app, filter_app.
  change (text_of [Tok raw ty]) with (raw ++ []). rewrite app_nil_r.
  cbn [filter is_break]. rewrite app_nil_r, !byte_len_app, !app_length.
  f_equal; lia.
Qed.

Lemma pos_after_gap before c : ws c ->
  pos_after (before ++ [Gap c]) = ws_pos1 (pos_after before) c.
Proof.
  intros Hc. pose proof (utf8_len_lt c (ws_ascii c Hc)) as Hl.
  unfold pos_after, ws_pos1, position_add. cbn [line column bytes chars].
  rewrite since_break_snoc. cbn [is_break]. rewrite !text_of_app, filter_app.
  change (text_of [Gap c]) with [c].
  cbn [filter is_break]. rewrite !byte_len_app, !app_length. cbn [byte_len length].
  rewrite Hl.
  destruct (c =? newline); cbn [length].
  - cbn [length text_of map concat byte_len]. f_equal; lia.
  - rewrite text_of_app, byte_len_app. change (text_of [Gap c]) with [c].
    cbn [byte_len length]. rewrite Hl. f_equal; lia.
Qed.

Lemma pos_after_gaps gs : forall before, Forall ws gs ->
  pos_after (before ++ map Gap gs) = ws_pos (pos_after before) gs.
Proof.
  induction gs as [|c gs IH]; intros before H; cbn [map].
  - rewrite app_nil_r. reflexivity.
  - inversion H; subst. change (Gap c :: map Gap gs) with ([Gap c] ++ map Gap gs).
    rewrite app_assoc, IH, pos_after_gap by assumption. reflexivity.
Qed.

Lemma LexesTo_gaps gs : forall code ps rest, Forall ws gs ->
  LexesTo code ps rest -> LexesTo (gs ++ code) (map Gap gs ++ ps) rest.
Proof.
  induction gs as [|c gs IH]; intros code ps rest H HL; cbn [app map]; [assumption|].
  inversion H; subst. constructor; auto.
Qed.

Lemma tokens_after_gaps gs : forall before ps,
  tokens_after before (map Gap gs ++ ps) = tokens_after (before ++ map Gap gs) ps.
Proof.
  induction gs as [|c gs IH]; intros before ps; cbn [map app tokens_after].
  - rewrite app_nil_r; reflexivity.
  - rewrite IH, <- app_assoc. reflexivity.
Qed.

(** ** The whole run *)

Definition lex_meets (before : list piece) (code : str) (r : lex_result) : Prop :=
  match r with
  | LexOk ts => exists ps, LexesTo code ps [] /\ ts = tokens_after before ps
  | LexErr e => exists ps rem, LexesTo code ps rem /\ UnclosedComment rem /\
      e = UnclosedMultilineComment
            {| r_start := pos_after (before ++ ps);
               r_end := position_add (pos_after (before ++ ps)) rem |}
  | LexPanic => exists ps rem, LexesTo code ps rem /\ PanicsAt rem
  | LexFuel => False
  end.

Lemma tokenize_loop_meets fuel : forall code before, (length code < fuel)%nat ->
  lex_meets before code (tokenize_loop fuel code (pos_after before)).
Proof.
  induction fuel as [|fuel IH]; intros code before Hl; [lia|]. cbn [tokenize_loop].
  destruct code as [|c s] eqn:Ec.
  { exists []. split; constructor. }
  rewrite <- Ec in *. destruct (step_exhaustive code) as [E|[Hw|[(raw & rest & ty & E & Ht)|[He|Hp]]]].
  - congruence.
  - destruct (ws_split code) as (gs & r & E & Hg & Hr).
    assert (Hne : gs <> []) by (intros ->; apply Hr; cbn in E; rewrite <- E; exact Hw).
    rewrite E, step_ws by assumption. rewrite <- pos_after_gaps by assumption.
    specialize (IH r (before ++ map Gap gs)).
    assert (length r < fuel)%nat as Hlr.
    { rewrite E, app_length in Hl. destruct gs; [contradiction|]. cbn [length] in Hl. lia. }
    specialize (IH Hlr).
    destruct (tokenize_loop fuel r (pos_after (before ++ map Gap gs))); cbn [lex_meets] in *.
    + destruct IH as (ps & H1 & ->). exists (map Gap gs ++ ps). split.
      * apply LexesTo_gaps; assumption.
      * rewrite tokens_after_gaps; reflexivity.
    + destruct IH as (ps & rem & H1 & H2 & ->). exists (map Gap gs ++ ps), rem.
      rewrite app_assoc. repeat split; try apply H2; try reflexivity. apply LexesTo_gaps; assumption.
    + destruct IH as (ps & rem & H1 & H2). exists (map Gap gs ++ ps), rem.
      split; [apply LexesTo_gaps; assumption|assumption].
    + assumption.
  - rewrite E, (step_token _ _ _ _ Ht). unfold stoken. rewrite <- (pos_after_tok before raw ty).
    specialize (IH rest (before ++ [Tok raw ty])).
    assert (length rest < fuel)%nat as Hlr.
    { rewrite E, app_length in Hl. pose proof (TokText_nonempty _ _ _ Ht).
      destruct raw; [contradiction|]. cbn [length] in Hl. lia. }
    specialize (IH Hlr).
    destruct (tokenize_loop fuel rest (pos_after (before ++ [Tok raw ty]))); cbn [lex_meets lex_cons] in *.
    + destruct IH as (ps & H1 & ->). exists (Tok raw ty :: ps). split.
      * constructor; assumption.
      * reflexivity.
    + destruct IH as (ps & rem & H1 & H2 & ->). exists (Tok raw ty :: ps), rem.
      rewrite <- app_assoc. repeat split; try apply H2; try reflexivity. constructor; assumption.
    + destruct IH as (ps & rem & H1 & H2). exists (Tok raw ty :: ps), rem.
      split; [constructor; assumption|assumption].
    + assumption.
  - rewrite step_error by assumption. exists [], code. rewrite app_nil_r.
    repeat split; try apply He. constructor.
  - rewrite step_panic by assumption. exists [], code. split; [constructor|assumption].
Qed.

Theorem tokenize_meets code : lex_meets [] code (tokenize code).
Proof.
  unfold tokenize. change position_start with (pos_after []).
  apply tokenize_loop_meets. lia.
Qed.

(** The complete specification of [tokenize]. *)
Theorem tokenize_ok_iff code ts :
  tokenize code = LexOk ts <-> exists ps, LexesTo code ps [] /\ ts = tokens_after [] ps.
Proof.
  pose proof (tokenize_meets code) as H. split.
  - intros E. rewrite E in H. exact H.
  - intros (ps & HL & ->). destruct (tokenize code) as [ts|e| |]; cbn [lex_meets] in H.
    + destruct H as (ps' & HL' & ->).
      destruct (LexesTo_deterministic _ _ _ HL (or_introl eq_refl) _ _ HL' (or_introl eq_refl)) as [-> _].
      reflexivity.
    + destruct H as (ps' & rem & HL' & HU & _).
      destruct (LexesTo_deterministic _ _ _ HL (or_introl eq_refl) _ _ HL' (or_intror (or_introl HU))) as [_ <-].
      destruct HU as [[t Ht] _]. discriminate.
    + destruct H as (ps' & rem & HL' & HP).
      destruct (LexesTo_deterministic _ _ _ HL (or_introl eq_refl) _ _ HL' (or_intror (or_intror HP))) as [_ <-].
      destruct HP as [(c & s & Hx & _)|(b & a & Hx & _)]; discriminate.
    + destruct H.
Qed.

Lemma unclosed_not_panic rem : UnclosedComment rem -> ~ PanicsAt rem.
Proof.
  intros H1 H2. pose proof (step_error rem position_start H1) as S1.
  rewrite step_panic in S1 by assumption. discriminate.
Qed.

Theorem tokenize_err_iff code e :
  tokenize code = LexErr e <->
  exists ps rem, LexesTo code ps rem /\ UnclosedComment rem /\
    e = UnclosedMultilineComment
          {| r_start := pos_after ps; r_end := position_add (pos_after ps) rem |}.
Proof.
  pose proof (tokenize_meets code) as H. split.
  - intros E. rewrite E in H. exact H.
  - intros (ps & rem & HL & HU & ->). destruct (tokenize code) as [ts|e| |]; cbn [lex_meets] in H.
    + destruct H as (ps' & HL' & ->).
      destruct (LexesTo_deterministic _ _ _ HL (or_intror (or_introl HU)) _ _ HL' (or_introl eq_refl)) as [_ ->].
      destruct HU as [[t Ht] _]. discriminate.
    + destruct H as (ps' & rem' & HL' & HU' & ->).
      destruct (LexesTo_deterministic _ _ _ HL (or_intror (or_introl HU)) _ _ HL' (or_intror (or_introl HU'))) as [-> ->].
      reflexivity.
    + destruct H as (ps' & rem' & HL' & HP).
      destruct (LexesTo_deterministic _ _ _ HL (or_intror (or_introl HU)) _ _ HL' (or_intror (or_intror HP))) as [_ ->].
      exfalso. exact (unclosed_not_panic _ HU HP).
    + destruct H.
Qed.

Theorem tokenize_panic_iff code :
  tokenize code = LexPanic <-> exists ps rem, LexesTo code ps rem /\ PanicsAt rem.
Proof.
  pose proof (tokenize_meets code) as H. split.
  - intros E. rewrite E in H. exact H.
  - intros (ps & rem & HL & HP). destruct (tokenize code) as [ts|e| |]; cbn [lex_meets] in H.
    + destruct H as (ps' & HL' & ->).
      destruct (LexesTo_deterministic _ _ _ HL (or_intror (or_intror HP)) _ _ HL' (or_introl eq_refl)) as [_ ->].
      destruct HP as [(c & s & Hx & _)|(b & a & Hx & _)]; discriminate.
    + destruct H as (ps' & rem' & HL' & HU' & ->).
      destruct (LexesTo_deterministic _ _ _ HL (or_intror (or_intror HP)) _ _ HL' (or_intror (or_introl HU'))) as [_ ->].
      exfalso. exact (unclosed_not_panic _ HU' HP).
    + reflexivity.
    + destruct H.
Qed.

Theorem tokenize_not_fuel code : tokenize code <> LexFuel.
Proof. intros E. pose proof (tokenize_meets code) as H. rewrite E in H. exact H. Qed.
