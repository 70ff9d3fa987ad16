(** The sub-parsers of the lexer against the specification [LexSpec]. *)
From Coq Require Import String ZifyBool ZifyNat ZifyN.
From Verif Require Import StrFacts Lexer LexSpec.
Local Open Scope N_scope.

(** ** Characters *)

Lemma spelling_ok k : to_string_slice k = spelling k.
Proof. destruct k; reflexivity. Qed.

Lemma is_digit_iff c : is_digit c = true <-> digit c.
Proof. unfold is_digit, digit, c_zero, c_nine. lia. Qed.

Lemma is_digit_false c : is_digit c = false <-> ~ digit c.
Proof. rewrite <- is_digit_iff. destruct (is_digit c); split; congruence. Qed.

Lemma is_ident_char_iff c : is_ident_char c = true <-> letter c.
Proof. unfold is_ident_char, letter, c_underscore, c_a, c_z, c_A, c_Z. lia. Qed.

Lemma is_ident_char_false c : is_ident_char c = false <-> ~ letter c.
Proof. rewrite <- is_ident_char_iff. destruct (is_ident_char c); split; congruence. Qed.

Lemma forallb_Forall {A} (f : A -> bool) (P : A -> Prop) l :
  (forall x, f x = true <-> P x) -> forallb f l = true <-> Forall P l.
Proof.
  intros H. induction l as [|x l IH]; cbn [forallb].
  - split; [constructor|reflexivity].
  - rewrite andb_true_iff, IH, H. split; [intros []; constructor; assumption|].
    intros HF; inversion HF; auto.
Qed.

Lemma digits_iff l : forallb is_digit l = true <-> Forall digit l.
Proof. apply forallb_Forall, is_digit_iff. Qed.

Lemma letters_iff l : forallb is_ident_char l = true <-> Forall letter l.
Proof. apply forallb_Forall, is_ident_char_iff. Qed.

Lemma is_ascii_iff c : is_ascii c = true <-> c < 128.
Proof. unfold is_ascii. lia. Qed.

Lemma utf8_len_lt c : c < 128 -> utf8_len c = 1%nat.
Proof. intros H. apply utf8_len_ascii, is_ascii_iff, H. Qed.

Lemma digits_ascii l : Forall digit l -> ascii_str l.
Proof.
  intros H. apply (forallb_Forall is_ascii (fun c => c < 128)); [apply is_ascii_iff|].
  eapply Forall_impl; [|exact H]. unfold digit; intros; lia.
Qed.

Lemma letters_ascii l : Forall letter l -> ascii_str l.
Proof.
  intros H. apply (forallb_Forall is_ascii (fun c => c < 128)); [apply is_ascii_iff|].
  eapply Forall_impl; [|exact H]. unfold letter; intros; lia.
Qed.

Lemma sign_ascii sg neg : SignText sg neg -> ascii_str sg.
Proof. intros []; reflexivity. Qed.

Lemma spelling_ascii k : ascii_str (spelling k).
Proof. destruct k; reflexivity. Qed.

Lemma spelling_nonempty k : spelling k <> [].
Proof. destruct k; discriminate. Qed.

Lemma spelling_letter k : exists c s, spelling k = c :: s /\ is_ident_char c = true.
Proof. destruct k; eexists; eexists; split; reflexivity. Qed.

(** ** Numbers *)

Lemma np_dot code : forall n m d,
  number_position (S n) true code = Some (m, d) ->
  d = true /\ exists fp rest,
    code = fp ++ rest /\ Forall digit fp /\ m = (S n + length fp)%nat /\
    starts (fun c => ~ digit c) rest.
Proof.
  induction code as [|c code IH]; intros n m d H; [discriminate|].
  cbn [number_position] in H. cbn [Nat.eqb andb] in H.
  destruct (is_digit c) eqn:Ed.
  - apply IH in H as (-> & fp & rest & -> & Hf & -> & Hr). split; [reflexivity|].
    exists (c :: fp), rest. cbn [app length]. repeat split; auto; try lia;
    constructor; [apply is_digit_iff; assumption|assumption].
  - cbn [negb andb] in H. injection H as <- <-. split; [reflexivity|].
    exists [], (c :: code). cbn. repeat split; auto; try lia.
    exists c, code. split; [reflexivity|]. apply is_digit_false; assumption.
Qed.

Lemma np_nodot code : forall n m d,
  (n = O -> match code with c :: _ => is_sign c = false | [] => True end) ->
  number_position n false code = Some (m, d) ->
  (d = false /\ exists ds rest,
    code = ds ++ rest /\ Forall digit ds /\ m = (n + length ds)%nat /\
    starts (fun c => ~ digit c /\ c <> dot) rest) \/
  (d = true /\ exists ip fp rest,
    code = ip ++ dot :: fp ++ rest /\ Forall digit ip /\ Forall digit fp /\
    m = (n + length ip + 1 + length fp)%nat /\
    starts (fun c => ~ digit c) rest).
Proof.
  induction code as [|c code IH]; intros n m d Hn H; [discriminate|].
  cbn [number_position] in H.
  replace (Nat.eqb n 0 && is_sign c) with false in H.
  2:{ destruct (Nat.eqb_spec n 0); [rewrite Hn by assumption|]; reflexivity. }
  destruct (is_digit c) eqn:Ed.
  - apply IH in H; [|discriminate].
    destruct H as [(-> & ds & rest & -> & Hf & -> & Hr)
                  |(-> & ip & fp & rest & -> & Hi & Hf & -> & Hr)].
    + left; split; [reflexivity|]. exists (c :: ds), rest. cbn [app length].
      repeat split; auto; try lia; constructor; [apply is_digit_iff; assumption|assumption].
    + right; split; [reflexivity|]. exists (c :: ip), fp, rest. cbn [app length].
      repeat split; auto; try lia; constructor; [apply is_digit_iff; assumption|assumption].
  - cbn [negb andb] in H. destruct (N.eqb_spec c c_dot) as [->|Hd].
    + apply np_dot in H as (-> & fp & rest & -> & Hf & -> & Hr).
      right; split; [reflexivity|]. exists [], fp, rest. cbn [app length].
      repeat split; auto; lia.
    + injection H as <- <-. left; split; [reflexivity|]. exists [], (c :: code).
      cbn. repeat split; auto; try lia. exists c, code. split; [reflexivity|].
      split; [apply is_digit_false|]; assumption.
Qed.

Lemma is_sign_inv c : is_sign c = true -> exists neg, SignText [c] neg.
Proof.
  unfold is_sign, c_minus, c_plus. intros H.
  apply orb_true_iff in H as [H|H]; apply N.eqb_eq in H as ->; eexists; constructor.
Qed.

Lemma number_position_spec code m d :
  number_position 0 false code = Some (m, d) ->
  exists sg neg, SignText sg neg /\
  ((d = false /\ exists ds rest,
    code = (sg ++ ds) ++ rest /\ Forall digit ds /\ m = length (sg ++ ds) /\
    starts (fun c => ~ digit c /\ c <> dot) rest) \/
  (d = true /\ exists ip fp rest,
    code = (sg ++ ip ++ dot :: fp) ++ rest /\ Forall digit ip /\ Forall digit fp /\
    m = length (sg ++ ip ++ dot :: fp) /\
    starts (fun c => ~ digit c) rest)).
Proof.
  intros H. destruct code as [|c code]; [discriminate|].
  destruct (is_sign c) eqn:Es.
  - cbn [number_position Nat.eqb] in H. rewrite Es in H. cbn [andb] in H.
    destruct (is_sign_inv c Es) as [neg Hs]. exists [c], neg. split; [assumption|].
    apply np_nodot in H; [|discriminate].
    destruct H as [(-> & ds & rest & -> & Hf & -> & Hr)
                  |(-> & ip & fp & rest & -> & Hi & Hf & -> & Hr)].
    + left; split; [reflexivity|]. exists ds, rest. repeat split; auto.
    + right; split; [reflexivity|]. exists ip, fp, rest.
      repeat split; auto.
      * cbn [app]. rewrite <- app_assoc. reflexivity.
      * cbn [app length]. rewrite app_length. cbn [length]. lia.
  - apply np_nodot in H; [|intros _; exact Es].
    exists [], false. split; [constructor|].
    destruct H as [(-> & ds & rest & -> & Hf & -> & Hr)
                  |(-> & ip & fp & rest & -> & Hi & Hf & -> & Hr)].
    + left; split; [reflexivity|]. exists ds, rest. repeat split; auto.
    + right; split; [reflexivity|]. exists ip, fp, rest.
      repeat split; auto.
      * cbn [app]. rewrite <- app_assoc. reflexivity.
      * cbn [app length]. rewrite app_length. cbn [length]. lia.
Qed.

Lemma digit_not_sign c : digit c -> is_sign c = false.
Proof. unfold digit, is_sign, c_minus, c_plus. lia. Qed.

Lemma np_digits ds : forall n d rest, Forall digit ds ->
  number_position n d (ds ++ rest) =
  match ds with [] => number_position n d rest | _ => number_position (n + length ds) d rest end.
Proof.
  induction ds as [|c ds IH]; intros n d rest H; [reflexivity|].
  inversion H as [|? ? Hc Hds]; subst. cbn [app number_position].
  rewrite (digit_not_sign c Hc), andb_false_r.
  rewrite (proj2 (is_digit_iff c) Hc). rewrite IH by assumption.
  destruct ds; cbn [length]; f_equal; lia.
Qed.

Lemma np_digits' ds n d rest : Forall digit ds ->
  number_position n d (ds ++ rest) = number_position (n + length ds) d rest.
Proof.
  intros H. rewrite np_digits by assumption. destruct ds; [|reflexivity].
  cbn [length]. rewrite Nat.add_0_r. reflexivity.
Qed.

Lemma np_stop n d rest :
  (n <> O \/ starts (fun c => is_sign c = false) rest) ->
  starts (fun c => ~ digit c /\ (d = true \/ c <> dot)) rest ->
  number_position n d rest = Some (n, d).
Proof.
  intros Hn (c & r & -> & Hd & Hdot). cbn [number_position].
  replace (Nat.eqb n 0 && is_sign c) with false.
  2:{ destruct Hn as [Hn|(c' & r' & E & Hs)].
      - destruct (Nat.eqb_spec n 0); [contradiction|reflexivity].
      - injection E as <- <-. rewrite Hs, andb_false_r; reflexivity. }
  rewrite (proj2 (is_digit_false c) Hd).
  replace (negb d && N.eqb c c_dot) with false; [reflexivity|].
  destruct d; [reflexivity|]. cbn [negb andb]. symmetry. apply N.eqb_neq.
  destruct Hdot as [?|Hdot]; [discriminate|exact Hdot].
Qed.

Lemma np_sign sg neg rest : SignText sg neg ->
  match rest with c :: _ => is_sign c = false | [] => True end ->
  number_position 0 false (sg ++ rest) = number_position (length sg) false rest.
Proof. intros [] _; reflexivity. Qed.

Lemma digits_value_acc ds : forall acc,
  digits_value acc ds = (acc * 10 ^ Z.of_nat (length ds) + dec ds)%Z.
Proof.
  induction ds as [|d ds IH]; intros acc; cbn [digits_value dec length].
  - cbn. lia.
  - rewrite IH. rewrite Nat2Z.inj_succ, Z.pow_succ_r by lia.
    unfold c_zero. change (Z.of_N 48) with 48%Z. lia.
Qed.

Lemma digits_value_dec ds : digits_value 0 ds = dec ds.
Proof. rewrite digits_value_acc. lia. Qed.

Lemma split_sign_ok sg neg ds :
  SignText sg neg -> match ds with c :: _ => is_sign c = false | [] => True end ->
  split_sign (sg ++ ds) = (neg, ds).
Proof.
  intros [] H; cbn; try reflexivity. destruct ds as [|c ds]; [reflexivity|]. cbn.
  unfold is_sign in H. apply orb_false_iff in H as [-> ->]. reflexivity.
Qed.

Lemma head_digit_not_sign ds : Forall digit ds ->
  match ds with c :: _ => is_sign c = false | [] => True end.
Proof. intros H; destruct H; [exact I|]. apply digit_not_sign; assumption. Qed.

Lemma parse_i32_ok sg neg ds :
  SignText sg neg -> Forall digit ds ->
  parse_i32 (sg ++ ds) =
  match ds with
  | [] => None
  | _ => if ((- 2 ^ 31 <=? signed neg (dec ds)) && (signed neg (dec ds) <? 2 ^ 31))%Z
         then Some (signed neg (dec ds)) else None
  end.
Proof.
  intros Hs Hd. unfold parse_i32.
  rewrite (split_sign_ok sg neg ds Hs (head_digit_not_sign ds Hd)).
  destruct ds as [|c ds]; [reflexivity|].
  rewrite (proj2 (digits_iff (c :: ds)) Hd), digits_value_dec.
  unfold i32_min, i32_max, signed.
  change (- 2 ^ 31)%Z with (-2147483648)%Z. change (2 ^ 31)%Z with 2147483648%Z.
  set (v := if neg then _ else _).
  replace (v <=? 2147483647)%Z with (v <? 2147483648)%Z by lia. reflexivity.
Qed.

Lemma split_dot_ok ip fp : Forall digit ip -> split_dot (ip ++ dot :: fp) = (ip, Some fp).
Proof.
  induction ip as [|c ip IH]; intros H; cbn [app split_dot]; [reflexivity|].
  inversion H as [|? ? Hc Hi]; subst.
  replace (N.eqb c c_dot) with false by (unfold digit, c_dot in *; lia).
  rewrite (IH Hi); reflexivity.
Qed.

Lemma parse_f32_ok sg neg ip fp :
  SignText sg neg -> Forall digit ip -> Forall digit fp ->
  parse_f32 (sg ++ ip ++ dot :: fp) =
  match ip ++ fp with
  | [] => None
  | _ => Some (f32_of_decimal neg (dec (ip ++ fp)) (length fp))
  end.
Proof.
  intros Hs Hi Hf. unfold parse_f32.
  rewrite (split_sign_ok sg neg); [|assumption|destruct Hi; [reflexivity|apply digit_not_sign; assumption]].
  rewrite split_dot_ok by assumption.
  rewrite (proj2 (digits_iff ip) Hi), (proj2 (digits_iff fp) Hf). cbn [andb].
  destruct (ip ++ fp) eqn:E; [reflexivity|]. rewrite digits_value_dec. reflexivity.
Qed.

Lemma number_slice a b n : ascii_str a -> n = length a -> slice (a ++ b) 0 n = Ret a.
Proof. intros Ha ->. rewrite slice_0. apply slice_to_app. symmetry; apply byte_len_ascii, Ha. Qed.

Lemma num_ascii_int sg neg ds : SignText sg neg -> Forall digit ds -> ascii_str (sg ++ ds).
Proof. intros Hs Hd. apply ascii_app; split; [eapply sign_ascii; eassumption|apply digits_ascii; assumption]. Qed.

Lemma num_ascii_float sg neg ip fp :
  SignText sg neg -> Forall digit ip -> Forall digit fp -> ascii_str (sg ++ ip ++ dot :: fp).
Proof.
  intros Hs Hi Hf. apply ascii_app; split; [eapply sign_ascii; eassumption|].
  apply ascii_app; split; [apply digits_ascii; assumption|].
  apply ascii_cons; split; [reflexivity|apply digits_ascii; assumption].
Qed.

Lemma parse_number_sound code :
  match parse_number code with
  | Panic => False
  | Ret None => True
  | Ret (Some (raw, n)) => exists rest, code = raw ++ rest /\ NumberText raw rest n
  end.
Proof.
  unfold parse_number. destruct (number_position 0 false code) as [[m d]|] eqn:E; [|exact I].
  apply number_position_spec in E as (sg & neg & Hs & E).
  destruct E as [(-> & ds & rest & -> & Hd & -> & Hr)|(-> & ip & fp & rest & -> & Hi & Hf & -> & Hr)].
  - rewrite number_slice; [|eapply num_ascii_int; eassumption|reflexivity]. cbn [obind].
    rewrite (parse_i32_ok sg neg ds Hs Hd).
    destruct ds as [|c ds0] eqn:Eds; [exact I|]. rewrite <- Eds in *.
    destruct (_ && _) eqn:Er; [|exact I].
    exists rest. split; [reflexivity|]. constructor; auto; [congruence|lia].
  - rewrite number_slice; [|eapply num_ascii_float; eassumption|reflexivity]. cbn [obind].
    rewrite (parse_f32_ok sg neg ip fp Hs Hi Hf).
    destruct (ip ++ fp) eqn:Eds; [exact I|]. rewrite <- Eds in *.
    exists rest. split; [reflexivity|]. constructor; auto. rewrite Eds; discriminate.
Qed.

Lemma parse_number_complete raw rest n :
  NumberText raw rest n -> parse_number (raw ++ rest) = Ret (Some (raw, n)).
Proof.
  intros [sg neg ds rest' Hs Hne Hd Hr Hrest|sg neg ip fp rest' Hs Hne Hi Hf Hrest]; unfold parse_number.
  - replace (number_position 0 false ((sg ++ ds) ++ rest')) with (Some (length (sg ++ ds), false)).
    2:{ symmetry. rewrite <- app_assoc, (np_sign sg neg); [|assumption|destruct Hd; [contradiction|apply digit_not_sign; assumption]].
        rewrite np_digits' by assumption. rewrite np_stop.
        - rewrite app_length; reflexivity.
        - left. destruct ds; [contradiction|cbn [length]; lia].
        - destruct Hrest as (c & r & -> & H1 & H2). exists c, r; auto. }
    rewrite number_slice; [|eapply num_ascii_int; eassumption|reflexivity]. cbn [obind].
    rewrite (parse_i32_ok sg neg ds Hs Hd). destruct ds as [|c ds0] eqn:Eds; [contradiction|].
    rewrite <- Eds in *.
    replace (_ && _) with true by lia. reflexivity.
  - replace (number_position 0 false ((sg ++ ip ++ dot :: fp) ++ rest'))
      with (Some (length (sg ++ ip ++ dot :: fp), true)).
    2:{ symmetry. rewrite <- app_assoc. rewrite (np_sign sg neg).
        2: assumption. 2:{ destruct Hi; cbn; [reflexivity|apply digit_not_sign; assumption]. }
        rewrite <- app_assoc, np_digits' by assumption.
        cbn [app number_position]. change (is_sign dot) with false. rewrite andb_false_r.
        change (is_digit dot) with false. change (N.eqb dot c_dot) with true. cbn [negb andb].
        rewrite np_digits' by assumption. rewrite np_stop.
        - f_equal. f_equal. rewrite !app_length. cbn [length]. lia.
        - left; lia.
        - destruct Hrest as (c & r & -> & H1). exists c, r; auto. }
    rewrite number_slice; [|eapply num_ascii_float; eassumption|reflexivity]. cbn [obind].
    rewrite (parse_f32_ok sg neg ip fp Hs Hi Hf). destruct (ip ++ fp) eqn:E; [contradiction|reflexivity].
Qed.

Lemma parse_number_none code :
  parse_number code = Ret None <->
  forall raw rest n, code = raw ++ rest -> ~ NumberText raw rest n.
Proof.
  split.
  - intros H raw rest n -> Hn. rewrite (parse_number_complete _ _ _ Hn) in H. discriminate.
  - intros H. pose proof (parse_number_sound code) as Hs.
    destruct (parse_number code) as [[[raw n]|]|]; [|reflexivity|contradiction].
    destruct Hs as (rest & -> & Hn). exfalso. exact (H raw rest n eq_refl Hn).
Qed.

(** ** Strings *)

Fixpoint qesc (prev_colon : bool) (s : str) : bool :=
  match s with
  | [] => true
  | c :: s' => (negb (N.eqb c quote) || prev_colon) && qesc (N.eqb c colon) s'
  end.

Fixpoint endc (prev_colon : bool) (s : str) : bool :=
  match s with
  | [] => prev_colon
  | c :: s' => endc (N.eqb c colon) s'
  end.

Lemma qesc_iff s : forall p,
  qesc p s = true <->
  forall a b, s = a ++ quote :: b -> (a = [] /\ p = true) \/ exists a', a = a' ++ [colon].
Proof.
  induction s as [|c s IH]; intros p; cbn [qesc].
  - split; [|reflexivity]. intros _ a b H. destruct a; discriminate.
  - rewrite andb_true_iff, IH. split.
    + intros [Hc Hs] [|d a] b H; cbn [app] in H; injection H as H1 H2.
      * left. split; [reflexivity|]. rewrite H1, N.eqb_refl in Hc. exact Hc.
      * right. destruct (Hs a b H2) as [[-> Hp]|[a' ->]].
        -- exists []. cbn. apply N.eqb_eq in Hp. subst. reflexivity.
        -- exists (d :: a'); reflexivity.
    + intros H. split.
      * destruct (N.eqb_spec c quote) as [->|Hn]; [|reflexivity]. cbn.
        destruct (H [] s eq_refl) as [[_ Hp]|[a' Ha]]; [exact Hp|].
        destruct a'; discriminate.
      * intros a b Hs. destruct (H (c :: a) b) as [[Hx _]|[a' Ha]];
          [rewrite Hs; reflexivity|discriminate|].
        destruct a' as [|d a']; cbn [app] in Ha; injection Ha as H1 H2.
        -- left. subst; split; reflexivity.
        -- right. exists a'; exact H2.
Qed.

Lemma quotes_escaped_iff s : quotes_escaped s <-> qesc false s = true.
Proof.
  rewrite qesc_iff. unfold quotes_escaped. split; intros H a b E.
  - right; eauto.
  - destruct (H a b E) as [[_ ?]|?]; [discriminate|assumption].
Qed.

Lemma endc_iff s : forall p, endc p s = true <-> (s = [] /\ p = true) \/ ends_with_colon s.
Proof.
  induction s as [|c s IH]; intros p; cbn [endc].
  - split; [auto|]. intros [[_ ?]|[a H]]; [assumption|destruct a; discriminate].
  - rewrite IH. unfold ends_with_colon. split.
    + intros [[-> Hc]|[a ->]]; right.
      * apply N.eqb_eq in Hc as ->. exists []; reflexivity.
      * exists (c :: a); reflexivity.
    + intros [[? _]|[a Ha]]; [discriminate|].
      destruct a as [|d a]; cbn [app] in Ha; injection Ha as H1 H2.
      * left. subst; split; reflexivity.
      * right. exists a; exact H2.
Qed.

Lemma ends_with_colon_iff s : ends_with_colon s <-> endc false s = true.
Proof. rewrite endc_iff. split; [auto|]. intros [[_ ?]|?]; [discriminate|assumption]. Qed.

Lemma StringBody_iff s : StringBody s <-> qesc false s = true /\ endc false s = false.
Proof.
  unfold StringBody. rewrite quotes_escaped_iff, ends_with_colon_iff.
  destruct (endc false s); split; intros [? ?]; split; congruence.
Qed.

Lemma string_end_spec : forall n s index, (length s <= n)%nat ->
  match string_end index s with
  | Some i => exists body after,
      s = body ++ quote :: after /\ qesc false body = true /\ endc false body = false /\
      i = (index + length body)%nat
  | None => qesc false s = true
  end.
Proof.
  induction n as [|n IH]; intros s index Hl.
  - destruct s; [reflexivity|cbn in Hl; lia].
  - destruct s as [|c s]; [reflexivity|]. cbn [length] in Hl. cbn [string_end].
    destruct (N.eqb_spec c c_colon) as [->|Hc].
    + destruct s as [|c' s]; [reflexivity|]. cbn [length] in Hl.
      destruct (N.eqb_spec c' c_quote) as [->|Hq].
      * specialize (IH s (S (S index))). destruct (string_end (S (S index)) s) as [i|].
        -- destruct IH as (body & after & -> & Hq & He & ->); [lia|].
           exists (c_colon :: c_quote :: body), after. cbn. repeat split; auto; lia.
        -- cbn. apply IH; lia.
      * specialize (IH (c' :: s) (S index)). destruct (string_end (S index) (c' :: s)) as [i|].
        -- destruct IH as (body & after & Hb & Hq' & He & ->); [cbn [length]; lia|].
           exists (c_colon :: body), after. rewrite Hb. cbn [app length].
           repeat split; [| |lia].
           ++ destruct body as [|d body]; [reflexivity|]. cbn [app] in Hb.
              injection Hb as <- _. cbn [qesc] in *. change (c_colon =? colon) with true.
              replace (c' =? quote) with false in * by (symmetry; apply N.eqb_neq; exact Hq).
              cbn in *. exact Hq'.
           ++ destruct body as [|d body]; cbn [app] in Hb.
              ** injection Hb as -> _. contradiction.
              ** exact He.
        -- cbn [qesc]. change (c_colon =? quote) with false. cbn [negb orb andb].
           change (c_colon =? colon) with true. cbn [qesc] in IH.
           replace (c' =? quote) with false in * by (symmetry; apply N.eqb_neq; exact Hq).
           cbn in *. apply IH; lia.
    + destruct (N.eqb_spec c c_quote) as [->|Hq].
      * exists [], s. cbn. repeat split; auto; lia.
      * specialize (IH s (S index)). destruct (string_end (S index) s) as [i|].
        -- destruct IH as (body & after & -> & Hq' & He & ->); [lia|].
           exists (c :: body), after. cbn [app qesc endc length].
           replace (c =? quote) with false by (symmetry; apply N.eqb_neq; exact Hq).
           replace (c =? colon) with false by (symmetry; apply N.eqb_neq; exact Hc).
           cbn. repeat split; auto; lia.
        -- cbn [qesc].
           replace (c =? quote) with false by (symmetry; apply N.eqb_neq; exact Hq).
           replace (c =? colon) with false by (symmetry; apply N.eqb_neq; exact Hc).
           cbn. apply IH; lia.
Qed.

Lemma app_cons_inv_lt {A} (a b a' b' : list A) x y :
  a ++ x :: b = a' ++ y :: b' -> (length a < length a')%nat ->
  exists m, a' = a ++ x :: m.
Proof.
  revert a'. induction a as [|u a IH]; intros [|v a'] H Hl; cbn in *; try lia.
  - injection H as -> H. exists a'; reflexivity.
  - injection H as -> H. destruct (IH a' H) as [m ->]; [lia|]. exists m; reflexivity.
Qed.

Lemma string_body_unique body after body' after' :
  StringBody body -> StringBody body' ->
  body ++ quote :: after = body' ++ quote :: after' -> body = body' /\ after = after'.
Proof.
  intros [Hq He] [Hq' He'] H.
  destruct (Nat.lt_trichotomy (length body) (length body')) as [Hl|[Hl|Hl]].
  - destruct (app_cons_inv_lt _ _ _ _ _ _ H Hl) as [m ->].
    exfalso. apply He. destruct (Hq' body m eq_refl) as [a ->]. exists a; reflexivity.
  - destruct (app_length_inv _ _ _ _ H Hl) as [-> E]. injection E as ->. auto.
  - symmetry in H. destruct (app_cons_inv_lt _ _ _ _ _ _ H Hl) as [m ->].
    exfalso. apply He'. destruct (Hq body' m eq_refl) as [a ->]. exists a; reflexivity.
Qed.

Lemma string_body_not_open body after : StringBody body -> ~ quotes_escaped (body ++ quote :: after).
Proof. intros [_ He] H. apply He. destruct (H body after eq_refl) as [a ->]. exists a; reflexivity. Qed.

Lemma string_end_closed index body after :
  StringBody body -> string_end index (body ++ quote :: after) = Some (index + length body)%nat.
Proof.
  intros Hb. pose proof (string_end_spec _ (body ++ quote :: after) index (le_n _)) as H.
  destruct (string_end index (body ++ quote :: after)) as [i|].
  - destruct H as (body' & after' & E & Hq & He & ->).
    assert (Hb' : StringBody body') by (apply StringBody_iff; auto).
    destruct (string_body_unique _ _ _ _ Hb Hb' E) as [-> _]. reflexivity.
  - exfalso. apply (string_body_not_open body after Hb), quotes_escaped_iff, H.
Qed.

Lemma string_end_open index s : quotes_escaped s -> string_end index s = None.
Proof.
  intros Ho. pose proof (string_end_spec _ s index (le_n _)) as H.
  destruct (string_end index s) as [i|]; [|reflexivity].
  destruct H as (body & after & -> & Hq & He & _).
  exfalso. apply (string_body_not_open body after); [apply StringBody_iff; auto|exact Ho].
Qed.

(** [parse_string] on code that starts with a quote. *)
Lemma parse_string_closed body after :
  StringBody body ->
  parse_string (quote :: body ++ quote :: after) =
  obind (slice_to (quote :: body ++ quote :: after) (length body + 2)) (fun raw =>
  obind (slice (quote :: body ++ quote :: after) 1 (length body + 1)) (fun contents =>
  Ret (Some (raw, contents)))).
Proof.
  intros Hb. unfold parse_string. change (negb (quote =? c_quote)) with false. cbv beta iota zeta.
  rewrite string_end_closed by assumption.
  replace (1 + length body + 1)%nat with (length body + 2)%nat by lia.
  replace (1 + length body)%nat with (length body + 1)%nat by lia. reflexivity.
Qed.

Lemma parse_string_open s :
  quotes_escaped s -> parse_string (quote :: s) = Ret (Some (quote :: s, s)).
Proof.
  intros Ho. unfold parse_string. change (negb (quote =? c_quote)) with false. cbv beta iota zeta.
  rewrite string_end_open by assumption.
  rewrite (slice_from_app [quote] s) by reflexivity. reflexivity.
Qed.

Lemma string_cases s :
  (exists body after, s = body ++ quote :: after /\ StringBody body) \/ quotes_escaped s.
Proof.
  pose proof (string_end_spec _ s 0 (le_n _)) as H. destruct (string_end 0 s).
  - destruct H as (body & after & -> & Hq & He & _). left. exists body, after.
    split; [reflexivity|]. apply StringBody_iff; auto.
  - right. apply quotes_escaped_iff, H.
Qed.

Lemma parse_string_other c s : c <> quote -> parse_string (c :: s) = Ret None.
Proof. intros H. unfold parse_string. replace (c =? c_quote) with false; [reflexivity|]. symmetry; apply N.eqb_neq, H. Qed.

Lemma snoc_of_byte_len raw n :
  byte_len raw = S n -> exists s c, raw = s ++ [c].
Proof.
  intros H. destruct raw as [|x raw]; [discriminate|].
  destruct (exists_last (l := x :: raw)) as (s & c & E); [discriminate|]. eauto.
Qed.

(** When both slices of a closed string succeed. *)
Lemma parse_string_sound body after raw contents :
  StringBody body ->
  parse_string (quote :: body ++ quote :: after) = Ret (Some (raw, contents)) ->
  exists c rest, raw = quote :: contents ++ [c] /\ c < 128 /\
    quote :: body ++ quote :: after = quote :: contents ++ c :: rest /\
    byte_len contents = length body.
Proof.
  intros Hb H. rewrite parse_string_closed in H by assumption.
  set (code := quote :: body ++ quote :: after) in *.
  destruct (slice_to code _) as [raw'|] eqn:E1; [|discriminate]. cbn [obind] in H.
  destruct (slice code 1 _) as [contents'|] eqn:E2; [|discriminate]. cbn [obind] in H.
  injection H as -> ->.
  apply slice_to_inv in E1 as (r1 & H1 & Hl1).
  apply slice_inv in E2 as (a & r2 & H2 & Ha & Hl2).
  assert (a = [quote]) as ->.
  { unfold code in H2. destruct a as [|x a]; [discriminate|]. cbn [app] in H2. injection H2 as <- _.
    cbn [byte_len] in Ha. change (utf8_len quote) with 1%nat in Ha.
    assert (byte_len a = 0)%nat as Hz by lia. apply byte_len_0 in Hz as ->. reflexivity. }
  change (byte_len [quote]) with 1%nat in Hl2.
  (* raw = quote :: contents ++ one byte *)
  cbn [app] in H2.
  assert (exists c, r2 = c :: r1 /\ raw = quote :: contents ++ [c] /\ utf8_len c = 1%nat)
    as (c & -> & -> & Hc).
  { rewrite H2 in H1.
    destruct (snoc_of_byte_len raw (length body + 1)) as (s & c & ->); [lia|].
    rewrite byte_len_app in Hl1. cbn [byte_len] in Hl1.
    pose proof (utf8_len_pos c).
    rewrite <- app_assoc in H1. cbn [app] in H1.
    destruct s as [|q s].
    { cbn [app] in H1. injection H1 as <- _. change (utf8_len quote) with 1%nat in Hl1. cbn in Hl1. lia. }
    cbn [app] in H1. injection H1 as <- H1.
    cbn [byte_len] in Hl1. change (utf8_len quote) with 1%nat in Hl1.
    assert (contents = s /\ r2 = c :: r1) as [-> ->].
    { destruct (Nat.eq_dec (byte_len contents) (byte_len s)) as [He|Hne].
      - apply app_byte_len_inv; assumption.
      - exfalso. assert (Hlt : (length s < length contents)%nat).
        { destruct (Nat.lt_ge_cases (length s) (length contents)) as [|Hge]; [assumption|].
          exfalso.
          assert (exists m, s = contents ++ m) as [m ->].
          { clear - H1 Hge. revert s H1 Hge. induction contents as [|x l IH]; intros s H1 Hge.
            - exists s; reflexivity.
            - destruct s as [|y s]; cbn in Hge; [lia|]. cbn in H1. injection H1 as -> H1.
              destruct (IH s H1) as [m ->]; [lia|]. exists m; reflexivity. }
          rewrite byte_len_app in Hl1, Hne. lia. }
        symmetry in H1. destruct r2 as [|y r2].
        { rewrite app_nil_r in H1. subst contents. rewrite byte_len_app in Hl2. cbn [byte_len] in Hl2.
          pose proof (byte_len_ge r1). lia. }
        destruct (app_cons_inv_lt _ _ _ _ _ _ H1 Hlt) as [m ->].
        rewrite byte_len_app in Hl2. cbn [byte_len] in Hl2. lia. }
    exists c. repeat split. lia. }
  exists c, r1. repeat split.
  - apply is_ascii_iff, utf8_len_1, Hc.
  - rewrite H2. reflexivity.
  - lia.
Qed.

Lemma parse_string_complete body after s c rest :
  StringBody body ->
  quote :: body ++ quote :: after = quote :: s ++ c :: rest ->
  byte_len s = length body -> c < 128 ->
  parse_string (quote :: s ++ c :: rest) = Ret (Some (quote :: s ++ [c], s)).
Proof.
  intros Hb E Hl Hc. rewrite <- E, parse_string_closed by assumption. rewrite E.
  replace (quote :: s ++ c :: rest) with ((quote :: s ++ [c]) ++ rest)
    by (cbn [app]; rewrite <- app_assoc; reflexivity).
  rewrite slice_to_app.
  2:{ cbn [byte_len]. rewrite byte_len_app. cbn [byte_len]. rewrite (utf8_len_lt c Hc).
      change (utf8_len quote) with 1%nat. lia. }
  cbn [obind].
  replace ((quote :: s ++ [c]) ++ rest) with ([quote] ++ s ++ (c :: rest))
    by (cbn [app]; rewrite <- app_assoc; reflexivity).
  rewrite slice_app; [reflexivity|reflexivity|].
  change (byte_len [quote]) with 1%nat. lia.
Qed.

(** ** Keywords *)

Definition kw_at (code : str) (k : keyword) : bool := starts_with (to_string_slice k) code.

Lemma kw_at_iff code k : kw_at code k = true <-> prefix_of (spelling k) code.
Proof. unfold kw_at. rewrite spelling_ok. apply starts_with_iff. Qed.

Lemma all_symbols_complete k : In k all_symbols.
Proof. destruct k; cbn; tauto. Qed.

Lemma prefix_nested p q s : prefix_of p s -> prefix_of q s ->
  (length p <= length q)%nat -> prefix_of p q.
Proof.
  intros [t ->] [u H]. revert q H. induction p as [|c p IH]; intros q H Hl.
  - exists q; reflexivity.
  - destruct q as [|d q]; cbn in *; [lia|]. injection H as -> H.
    destruct (IH q H) as [m ->]; [lia|]. exists m; reflexivity.
Qed.

(** The pairs of keywords one of which is a proper prefix of the other. *)
Lemma prefix_pairs k k' :
  prefix_of (spelling k) (spelling k') -> k = k' \/
  In (k, k') [(AN, ANY_OF); (OMG, OMGWTF); (A, AN); (A, ALL_OF); (A, ANY_OF)].
Proof.
  intros H. apply starts_with_iff in H.
  assert (forallb (fun a => forallb (fun b =>
            implb (starts_with (spelling a) (spelling b))
                  (keyword_eqb a b ||
                   existsb (fun p => keyword_eqb a (fst p) && keyword_eqb b (snd p))
                     [(AN, ANY_OF); (OMG, OMGWTF); (A, AN); (A, ALL_OF); (A, ANY_OF)]))
            all_symbols) all_symbols = true) as Hf by (vm_compute; reflexivity).
  rewrite forallb_forall in Hf. specialize (Hf k (all_symbols_complete k)).
  rewrite forallb_forall in Hf. specialize (Hf k' (all_symbols_complete k')).
  rewrite H in Hf. cbn [implb] in Hf. apply orb_true_iff in Hf as [Hf|Hf].
  - left. unfold keyword_eqb in Hf. destruct (keyword_eq_dec k k'); [assumption|discriminate].
  - right. apply existsb_exists in Hf as ([a b] & Hin & Hab). cbn [fst snd] in Hab.
    apply andb_true_iff in Hab as [Ha Hb]. unfold keyword_eqb in *.
    destruct (keyword_eq_dec k a); [|discriminate]. destruct (keyword_eq_dec k' b); [|discriminate].
    subst. exact Hin.
Qed.

Lemma kw_comparable code k k' :
  prefix_of (spelling k) code -> prefix_of (spelling k') code ->
  prefix_of (spelling k) (spelling k') \/ prefix_of (spelling k') (spelling k).
Proof.
  intros H H'. destruct (Nat.le_ge_cases (length (spelling k)) (length (spelling k'))).
  - left. eapply prefix_nested; eassumption.
  - right. eapply prefix_nested; eassumption.
Qed.

(** [k'] comes before [k] in [l]. *)
Fixpoint before (k' k : keyword) (l : list keyword) : bool :=
  match l with
  | [] => false
  | x :: l' => if keyword_eqb x k' then true
               else if keyword_eqb x k then false else before k' k l'
  end.

Lemma find_before f k' k l :
  before k' k l = true -> k' <> k -> f k' = true -> List.find f l <> Some k.
Proof.
  intros Hb Hn Hf. induction l as [|x l IH]; cbn [before List.find] in *; [discriminate|].
  unfold keyword_eqb in *. destruct (keyword_eq_dec x k') as [->|].
  - rewrite Hf. congruence.
  - destruct (keyword_eq_dec x k) as [|Hx]; [discriminate|].
    destruct (f x); [congruence|auto].
Qed.

(** The keyword that the lexer finds: the longest one, except that [ANY OF]
    always loses to [AN]. *)
Lemma find_keyword_iff code k :
  List.find (kw_at code) all_symbols = Some k <->
  prefix_of (spelling k) code /\ k <> ANY_OF /\
  forall k', k' <> ANY_OF -> prefix_of (spelling k') code ->
             (length (spelling k') <= length (spelling k))%nat.
Proof.
  assert (Hsound : forall k, List.find (kw_at code) all_symbols = Some k ->
    prefix_of (spelling k) code /\ k <> ANY_OF /\
    forall k', k' <> ANY_OF -> prefix_of (spelling k') code ->
             (length (spelling k') <= length (spelling k))%nat).
  { clear k. intros k H. pose proof H as H0.
    apply find_some in H as [_ Hk]. apply kw_at_iff in Hk.
    assert (Hbefore : forall k', prefix_of (spelling k') code ->
              In (k', k) [(AN, ANY_OF); (OMGWTF, OMG); (AN, A); (ALL_OF, A); (ANY_OF, A)] -> False).
    { intros k' Hk' Hin. apply kw_at_iff in Hk'.
      apply (find_before (kw_at code) k' k all_symbols); [| |assumption|assumption].
      - cbn [In] in Hin. destruct Hin as [E|[E|[E|[E|[E|[]]]]]]; injection E as <- <-; vm_compute; reflexivity.
      - cbn [In] in Hin. destruct Hin as [E|[E|[E|[E|[E|[]]]]]]; injection E as <- <-; discriminate. }
    split; [exact Hk|]. split.
    - intros ->. apply (Hbefore AN); [|cbn; tauto].
      destruct Hk as [t ->]. exists (lit "Y OF" ++ t). reflexivity.
    - intros k' Hn Hk'.
      destruct (kw_comparable _ _ _ Hk Hk') as [Hp|Hp].
      + apply prefix_pairs in Hp as [->|Hin]; [lia|].
        exfalso. cbn [In] in Hin.
        destruct Hin as [E|[E|[E|[E|[E|[]]]]]]; injection E as <- <-; try congruence;
          eapply Hbefore; try eassumption; cbn; tauto.
      + destruct Hp as [t ->]. rewrite app_length; lia. }
  split; [apply Hsound|].
  intros (Hk & Hn & Hmax).
  destruct (List.find (kw_at code) all_symbols) as [k0|] eqn:E.
  - f_equal. destruct (Hsound k0 eq_refl) as (Hk0 & Hn0 & Hmax0).
    pose proof (Hmax k0 Hn0 Hk0). pose proof (Hmax0 k Hn Hk).
    destruct (kw_comparable _ _ _ Hk Hk0) as [Hp|Hp]; apply prefix_pairs in Hp as [->|Hin]; auto;
      exfalso; cbn [In] in Hin;
      destruct Hin as [E'|[E'|[E'|[E'|[E'|[]]]]]]; injection E' as <- <-; try congruence;
      cbn in *; lia.
  - exfalso. pose proof (find_none _ _ E k (all_symbols_complete k)) as Hf.
    apply kw_at_iff in Hk. congruence.
Qed.

Lemma find_keyword_none code :
  List.find (kw_at code) all_symbols = None <-> forall k, ~ prefix_of (spelling k) code.
Proof.
  split.
  - intros H k Hk. apply kw_at_iff in Hk.
    pose proof (find_none _ _ H k (all_symbols_complete k)). congruence.
  - intros H. destruct (List.find (kw_at code) all_symbols) as [k|] eqn:E; [|reflexivity].
    apply find_some in E as [_ Hk]. apply kw_at_iff in Hk. exfalso. exact (H k Hk).
Qed.

Lemma parse_keyword_ok code :
  parse_keyword code =
  match List.find (kw_at code) all_symbols with
  | Some k => Ret (Some (spelling k, k))
  | None => Ret None
  end.
Proof.
  unfold parse_keyword. fold (kw_at code).
  change (fun k => kw_at code k) with (kw_at code).
  destruct (List.find (kw_at code) all_symbols) as [k|] eqn:E; [|reflexivity].
  apply find_some in E as [_ Hk]. apply kw_at_iff in Hk as [t ->].
  rewrite spelling_ok, slice_0, slice_to_app by reflexivity. reflexivity.
Qed.

(** Code that starts with something else than a letter starts with no keyword. *)
Lemma no_keyword c s k : ~ letter c -> ~ prefix_of (spelling k) (c :: s).
Proof.
  intros Hc [t Ht]. destruct (spelling_letter k) as (d & r & E & Hd). rewrite E in Ht.
  injection Ht as -> _. apply is_ident_char_iff in Hd. contradiction.
Qed.

(** ** Identifiers *)

Lemma parse_identifier_sound code :
  match parse_identifier code with
  | Panic => False
  | Ret (Some raw) => exists rest, code = raw ++ rest /\ raw <> [] /\ Forall letter raw /\
                                   ~ starts letter rest
  | Ret None => ~ starts letter code
  end.
Proof.
  unfold parse_identifier.
  destruct (count_while_spec is_ident_char code) as (a & b & -> & Hl & Ha & Hb).
  rewrite <- Hl.
  assert (Hb' : ~ starts letter b).
  { intros (c & r & -> & Hc). apply is_ident_char_iff in Hc. congruence. }
  destruct (Nat.eqb_spec (length a) 0) as [E|E].
  - apply length_zero_iff_nil in E as ->. exact Hb'.
  - apply letters_iff in Ha. rewrite slice_to_app.
    2:{ symmetry; apply byte_len_ascii, letters_ascii, Ha. }
    cbn [obind]. exists b. repeat split; auto. intros ->. apply E; reflexivity.
Qed.

Lemma parse_identifier_complete raw rest :
  raw <> [] -> Forall letter raw -> ~ starts letter rest ->
  parse_identifier (raw ++ rest) = Ret (Some raw).
Proof.
  intros Hne Hl Hr. unfold parse_identifier.
  rewrite count_while_app.
  - destruct (Nat.eqb_spec (length raw) 0) as [E|E].
    + apply length_zero_iff_nil in E. contradiction.
    + rewrite slice_to_app; [reflexivity|]. symmetry; apply byte_len_ascii, letters_ascii, Hl.
  - apply letters_iff, Hl.
  - destruct rest as [|c r]; [exact I|]. apply is_ident_char_false. intros Hc. apply Hr. exists c, r; auto.
Qed.
