(** The texts written by [Debug] identify what they are written for. *)
From Coq Require Import String.
From Verif Require Import EqSpec EqFacts LexSpec DisplayProofs AstTokens.
From Verif Require Export DebugSpec.
Local Open Scope list_scope.

(** ** Characters *)
Definition delimiters : str := [32; 40; 41; 91; 93; 123; 125; 44; 58; 34; 10]%N.
Definition plainb (c : char) : bool := negb (existsb (N.eqb c) delimiters).
Definition plain (s : str) : Prop := s <> [] /\ forallb plainb s = true.

(** What can follow a value. *)
Definition stops (r : str) : Prop :=
  match r with
  | [] => True
  | c :: r' => c = 41%N \/ c = 44%N \/ c = 93%N \/ c = 10%N \/ c = 32%N /\ exists r'', r' = 125%N :: r''
  end.
(** What can follow a name. *)
Definition ends_name (r : str) : Prop := match r with [] => True | c :: _ => plainb c = false end.
Lemma stops_ends r : stops r -> ends_name r.
Proof. destruct r as [|c r]; [trivial|]. cbn [stops ends_name]. intuition (subst; reflexivity). Qed.

Lemma name_split s : forall s' r r', forallb plainb s = true -> forallb plainb s' = true -> ends_name r -> ends_name r' ->
  s ++ r = s' ++ r' -> s = s' /\ r = r'.
Proof.
  induction s as [|c s IH]; intros [|c' s'] r r' H H' Hr Hr' E; cbn [app forallb] in *.
  - auto.
  - subst r. apply andb_true_iff in H' as [H' _]. cbn in Hr. congruence.
  - subst r'. apply andb_true_iff in H as [H _]. cbn in Hr'. congruence.
  - injection E as -> E. apply andb_true_iff in H as [_ H], H' as [_ H'].
    destruct (IH s' r r') as [-> ->]; auto.
Qed.

(** ** Strings *)
Definition hex_value (c : char) : N := if (c <? 58)%N then c - 48 else c - 87.
Lemma hex_digit_value n : (n < 16)%N -> hex_value (hex_digit n) = n.
Proof.
  intros H. unfold hex_value, hex_digit. destruct (N.ltb_spec n 10).
  - destruct (N.ltb_spec (48 + n) 58); lia.
  - destruct (N.ltb_spec (87 + n) 58); lia.
Qed.
Lemma hex_digit_brace n : (n < 16)%N -> hex_digit n <> 125%N.
Proof. unfold hex_digit. destruct (N.ltb_spec n 10); lia. Qed.
Definition hex_read (s : str) : N := fold_left (fun a c => 16 * a + hex_value c)%N s 0%N.
Lemma hex_digits_read f : forall n, (n < 2 ^ N.of_nat f)%N -> (0 < f)%nat ->
  hex_read (hex_digits f n) = n /\ ~ In 125%N (hex_digits f n).
Proof.
  induction f as [|f IH]; intros n H Hf; [lia|]. cbn [hex_digits].
  assert (Hm : (n mod 16 < 16)%N) by (apply N.mod_lt; lia).
  destruct (N.ltb_spec n 16) as [Hn|Hn].
  - cbn [app]. unfold hex_read. cbn [fold_left]. rewrite hex_digit_value by assumption.
    rewrite N.mod_small by assumption. split; [lia|]. intros [E|[]].
    revert E. apply hex_digit_brace. assumption.
  - assert (Hf' : (0 < f)%nat).
    { destruct f; [|lia]. change (2 ^ N.of_nat 1)%N with 2%N in H. lia. }
    assert (Hd : (n / 16 < 2 ^ N.of_nat f)%N).
    { apply N.div_lt_upper_bound; [lia|]. rewrite Nnat.Nat2N.inj_succ, N.pow_succ_r' in H. lia. }
    destruct (IH (n / 16)%N Hd Hf') as [E1 E2]. unfold hex_read in *. rewrite fold_left_app. cbn [fold_left].
    rewrite E1, hex_digit_value by assumption. split; [pose proof (N.div_mod' n 16); lia|].
    intros E. apply in_app_or in E as [E|[E|[]]]; [auto|]. revert E. apply hex_digit_brace. assumption.
Qed.
Lemma hex_text_read n : hex_read (hex_text n) = n /\ ~ In 125%N (hex_text n).
Proof.
  unfold hex_text. apply hex_digits_read; [|lia].
  assert (H : (n < 2 ^ N.of_nat (N.size_nat n))%N).
  { replace (N.of_nat (N.size_nat n)) with (N.size n); [apply N.size_gt|].
    destruct n as [|p]; [reflexivity|]. cbn [N.size N.size_nat]. symmetry.
    induction p as [p IH|p IH|]; cbn [Pos.size Pos.size_nat]; rewrite ?Nnat.Nat2N.inj_succ, ?IH; reflexivity. }
  rewrite Nnat.Nat2N.inj_succ, N.pow_succ_r'. lia.
Qed.

Section Texts.
  Variable shown : char -> bool.
  Variable float_text : spec_float -> str.
  Notation escape := (Debug.escape shown).
  Notation print := (Debug.print shown).

  Lemma escape_cases c :
    (exists x, escape c = [92%N; x] /\ x <> 117%N /\
       (c = 0 /\ x = 48 \/ c = 9 /\ x = 116 \/ c = 13 /\ x = 114 \/ c = 10 /\ x = 110 \/ c = 34 /\ x = 34 \/ c = 92 /\ x = 92)%N) \/
    (escape c = [c] /\ c <> 92%N /\ c <> 34%N) \/
    escape c = [92%N; 117%N; 123%N] ++ hex_text c ++ [125%N].
  Proof.
    unfold Debug.escape.
    destruct (N.eqb_spec c 0); [left; eexists; split; [reflexivity|split; [discriminate|auto]]|].
    destruct (N.eqb_spec c 9); [left; eexists; split; [reflexivity|split; [discriminate|auto]]|].
    destruct (N.eqb_spec c 13); [left; eexists; split; [reflexivity|split; [discriminate|auto]]|].
    destruct (N.eqb_spec c 10); [left; eexists; split; [reflexivity|split; [discriminate|auto 8]]|].
    destruct (N.eqb_spec c 34); [left; eexists; split; [reflexivity|split; [discriminate|auto 10]]|].
    destruct (N.eqb_spec c 92); [left; eexists; split; [reflexivity|split; [discriminate|auto 10]]|].
    destruct (shown c); [right; left; auto|]. right. right. reflexivity.
  Qed.
  Lemma escape_inj c c' r r' : escape c ++ r = escape c' ++ r' -> c = c' /\ r = r'.
  Proof.
    destruct (escape_cases c) as [(x & -> & Hx & H)|[(-> & H1 & H2)| ->]];
    destruct (escape_cases c') as [(x' & -> & Hx' & H')|[(-> & H1' & H2')| ->]];
      rewrite <- ?app_assoc; cbn [app]; intros E.
    - injection E as <- <-. split; [|reflexivity]. intuition (subst; congruence).
    - injection E as E _. congruence.
    - injection E as E _. congruence.
    - injection E as E _. congruence.
    - injection E as -> ->. auto.
    - injection E as E _. congruence.
    - injection E as E _. congruence.
    - injection E as E _. congruence.
    - injection E as E. apply (split_stop (fun c => c <> 125%N)) in E as [E1 E2].
      + injection E2 as ->. split; [|reflexivity]. rewrite <- (proj1 (hex_text_read c)), E1. apply hex_text_read.
      + apply Forall_forall. intros y Hy ->. revert Hy. apply hex_text_read.
      + apply Forall_forall. intros y Hy ->. revert Hy. apply hex_text_read.
      + tauto.
      + tauto.
  Qed.
  Lemma escape_quote c r r' : escape c ++ r <> 34%N :: r'.
  Proof.
    destruct (escape_cases c) as [(x & -> & Hx & H)|[(-> & H1 & H2)| ->]]; cbn [app]; congruence.
  Qed.
  Lemma string_split s : forall s' r r', string_debug shown s ++ r = string_debug shown s' ++ r' -> s = s' /\ r = r'.
  Proof.
    unfold string_debug. intros s' r r'. rewrite <- !app_assoc. cbn [app]. intros E. injection E as E. revert s' E.
    induction s as [|c s IH]; intros [|c' s'] E; cbn [flat_map app] in E; rewrite <- ?app_assoc in E.
    - injection E as ->. auto.
    - symmetry in E. destruct (escape_quote _ _ _ E).
    - destruct (escape_quote _ _ _ E).
    - apply escape_inj in E as [-> E]. destruct (IH s' E) as [-> ->]. auto.
  Qed.

  (** ** Texts of trees *)
  Section DbgInd.
    Variable P : dbg -> Prop.
    Hypothesis HLeaf : forall s, P (DLeaf s).
    Hypothesis HTuple : forall n x, P x -> P (DTuple n x).
    Hypothesis HStruct : forall n fs, Forall (fun fx => P (snd fx)) fs -> P (DStruct n fs).
    Hypothesis HList : forall xs, Forall P xs -> P (DList xs).
    Hypothesis HString : forall s, P (DString s).
    Hypothesis HRange : forall t, P (DRange t).
    Hypothesis HToken : forall t x, P x -> P (DToken t x).
    Fixpoint dbg_ind' (d : dbg) : P d :=
      match d with
      | DLeaf s => HLeaf s
      | DTuple n x => HTuple n x (dbg_ind' x)
      | DStruct n fs => HStruct n fs
          ((fix go (fs : list (string * dbg)) : Forall (fun fx => P (snd fx)) fs :=
              match fs with [] => Forall_nil _ | fx :: fs' => Forall_cons fx (dbg_ind' (snd fx)) (go fs') end) fs)
      | DList xs => HList xs
          ((fix go (xs : list dbg) : Forall P xs :=
              match xs with [] => Forall_nil _ | x :: xs' => Forall_cons x (dbg_ind' x) (go xs') end) xs)
      | DString s => HString s
      | DRange t => HRange t
      | DToken t x => HToken t x (dbg_ind' x)
      end.
  End DbgInd.

  Definition range_text (t : str) : Prop := exists r, t = range_debug r.
  Inductive wf : dbg -> Prop :=
  | wf_leaf s : plain s -> wf (DLeaf s)
  | wf_tuple n x : plain (lit n) -> wf x -> wf (DTuple n x)
  | wf_struct n fs : plain (lit n) -> Forall (fun fx => plain (lit (fst fx)) /\ wf (snd fx)) fs -> wf (DStruct n fs)
  | wf_list xs : Forall wf xs -> wf (DList xs)
  | wf_string s : wf (DString s)
  | wf_range t : range_text t -> wf (DRange t)
  | wf_token t x : range_text t -> wf x -> wf (DToken t x).

  Lemma range_split t t' r r' : range_text t -> range_text t' -> t ++ r = t' ++ r' -> t = t' /\ r = r'.
  Proof.
    intros [x ->] [y ->]. unfold range_debug. rewrite <- !app_assoc. intros E.
    apply debug_inj in E as (E1 & E2 & E). apply app_inv_head in E. apply debug_inj in E as (E3 & E4 & E).
    injection E as ->. split; [|reflexivity]. unfold position_debug. rewrite E1, E2, E3, E4. reflexivity.
  Qed.
  Lemma range_first t : range_text t -> exists r, t = 40%N :: r.
  Proof. intros [x ->]. eexists. reflexivity. Qed.
  Lemma lit_inj a : forall b, lit a = lit b -> a = b.
  Proof.
    induction a as [|c a IH]; intros [|d b] E; try discriminate E; [reflexivity|].
    change (Ascii.N_of_ascii c :: lit a = Ascii.N_of_ascii d :: lit b) in E. injection E as E1 E2.
    rewrite (IH b E2). f_equal. rewrite <- (Ascii.ascii_N_embedding c), E1. apply Ascii.ascii_N_embedding.
  Qed.

  (** The first character. *)
  Definition first_ok (x : dbg) (c : char) : Prop :=
    match x with
    | DLeaf _ | DTuple _ _ | DStruct _ _ => plainb c = true
    | DList _ => c = 91%N
    | DString _ => c = 34%N
    | DRange _ | DToken _ _ => c = 40%N
    end.
  Lemma plain_first s : plain s -> exists c r, s = c :: r /\ plainb c = true.
  Proof.
    intros [H1 H2]. destruct s as [|c s]; [contradiction|]. cbn in H2. apply andb_true_iff in H2 as [H2 _]. eauto.
  Qed.
  Lemma print_first x : wf x -> exists c r, print x = c :: r /\ first_ok x c.
  Proof.
    intros H. destruct H as [s H|n x H _|n fs H _|xs _|s|t H|t x H _]; cbn [Debug.print first_ok].
    - apply plain_first. assumption.
    - destruct (plain_first _ H) as (c & r & -> & Hc). cbn [app]. eauto.
    - destruct (plain_first _ H) as (c & r & -> & Hc). cbn [app]. eauto.
    - eexists _, _. split; reflexivity.
    - eexists _, _. split; reflexivity.
    - destruct (range_first t H) as [r ->]. eauto.
    - destruct (range_first t H) as [r ->]. cbn [app]. eauto.
  Qed.
  Lemma first_not_stop x c r : first_ok x c -> ~ stops (c :: r).
  Proof.
    intros H [E|[E|[E|[E|[E _]]]]]; subst c; destruct x; cbn in H; discriminate H.
  Qed.

  Definition unique (x : dbg) : Prop :=
    wf x -> forall y r r', wf y -> stops r -> stops r' -> print x ++ r = print y ++ r' -> x = y /\ r = r'.

  Notation field := (fun fx : string * dbg => lit (fst fx) ++ lit ": " ++ print (snd fx)).

  Lemma separated_cons a l : separated (a :: l) = a ++ flat_map (fun x => lit ", " ++ x) l.
  Proof.
    revert a. induction l as [|b l IH]; intros a.
    - cbn. rewrite app_nil_r. reflexivity.
    - change (separated (a :: b :: l)) with (a ++ lit ", " ++ separated (b :: l)). rewrite IH. cbn [flat_map].
      rewrite <- app_assoc. reflexivity.
  Qed.
  (** Elements that end with the closing text [e :: _]. *)
  Lemma elements_split {T} (w : T -> Prop) (f : T -> str) (e : char) (q : str) :
    (forall r, stops (e :: q ++ r)) -> e <> 44%N ->
    forall xs, Forall (fun x => w x -> forall y r r', w y -> stops r -> stops r' -> f x ++ r = f y ++ r' -> x = y /\ r = r') xs ->
    Forall w xs -> forall ys r r', Forall w ys ->
    flat_map (fun x => lit ", " ++ x) (map f xs) ++ (e :: q) ++ r = flat_map (fun x => lit ", " ++ x) (map f ys) ++ (e :: q) ++ r' ->
    xs = ys /\ r = r'.
  Proof.
    intros He Hc xs HU. induction HU as [|x xs Hx _ IH]; intros Hw ys r r' Hw' E.
    - destruct ys as [|y ys]; cbn [map flat_map app] in E.
      + injection E as E. apply app_inv_head in E. auto.
      + exfalso. injection E as E _. congruence.
    - destruct ys as [|y ys]; cbn [map flat_map app] in E.
      + exfalso. injection E as E _. congruence.
      + rewrite <- !app_assoc in E. injection E as E. inversion Hw; inversion Hw'; subst.
        apply Hx in E as [-> E]; auto.
        * destruct (IH H2 ys r r' H6 E) as [-> ->]. auto.
        * destruct xs; cbn [map flat_map app]; [apply He|]. cbn. auto.
        * destruct ys; cbn [map flat_map app]; [apply He|]. cbn. auto.
  Qed.
  Lemma separated_split {T} (w : T -> Prop) (f : T -> str) (e : char) (q : str) :
    (forall r, stops (e :: q ++ r)) -> e <> 44%N -> (forall x, w x -> exists c r, f x = c :: r /\ c <> e) ->
    forall xs, Forall (fun x => w x -> forall y r r', w y -> stops r -> stops r' -> f x ++ r = f y ++ r' -> x = y /\ r = r') xs ->
    Forall w xs -> forall ys r r', Forall w ys ->
    separated (map f xs) ++ (e :: q) ++ r = separated (map f ys) ++ (e :: q) ++ r' -> xs = ys /\ r = r'.
  Proof.
    intros He Hc Hf xs HU Hw ys r r' Hw' E.
    destruct xs as [|x xs], ys as [|y ys]; cbn [map] in E; rewrite ?separated_cons, <- ?app_assoc in E.
    - cbn [separated app] in E. injection E as E. apply app_inv_head in E. auto.
    - exfalso. inversion Hw' as [|? ? Hy _]; subst. destruct (Hf y Hy) as (c & z & F & Hne). rewrite F in E.
      cbn [separated app] in E. injection E as E _. congruence.
    - exfalso. inversion Hw as [|? ? Hy _]; subst. destruct (Hf x Hy) as (c & z & F & Hne). rewrite F in E.
      cbn [separated app] in E. injection E as E _. congruence.
    - inversion Hw; inversion Hw'; inversion HU; subst. apply H9 in E as [-> E]; auto.
      + eapply (elements_split w f e q) in E as [-> ->]; auto.
      + destruct xs; cbn [map flat_map app]; [apply He|]. cbn. auto.
      + destruct ys; cbn [map flat_map app]; [apply He|]. cbn. auto.
  Qed.

  Lemma field_split fx : unique (snd fx) -> plain (lit (fst fx)) /\ wf (snd fx) ->
    forall fy r r', plain (lit (fst fy)) /\ wf (snd fy) -> stops r -> stops r' -> field fx ++ r = field fy ++ r' -> fx = fy /\ r = r'.
  Proof.
    destruct fx as [f x]. cbn [fst snd]. intros U [[_ H1] H2] [g y] r r' [[_ H3] H4] Hr Hr' E. cbn [fst snd] in *.
    rewrite <- !app_assoc in E. apply name_split in E as [E1 E]; auto; try reflexivity.
    apply lit_inj in E1. subst g. injection E as E. apply U in E as [-> ->]; auto.
  Qed.
  Lemma name_first n s c r : plain n -> n ++ s = c :: r -> plainb c = true.
  Proof.
    intros H E. destruct (plain_first n H) as (d & q & -> & Hd). injection E as -> _. exact Hd.
  Qed.
  (** Values of different kinds. *)
  Lemma kinds x y r r' : wf x -> wf y -> print x ++ r = print y ++ r' -> exists c, first_ok x c /\ first_ok y c.
  Proof.
    intros Hx Hy E. destruct (print_first x Hx) as (c & q & E1 & H1), (print_first y Hy) as (d & q' & E2 & H2).
    rewrite E1, E2 in E. injection E as -> _. eauto.
  Qed.
  Definition rest_text (x : dbg) : str :=
    match x with
    | DTuple _ x => lit "(" ++ print x ++ lit ")"
    | DStruct _ fs => lit " { " ++ separated (map field fs) ++ lit " }"
    | _ => []
    end.
  Definition name_text (x : dbg) : str :=
    match x with DLeaf s => s | DTuple n _ | DStruct n _ => lit n | _ => [] end.
  Definition named (x : dbg) : Prop := match x with DLeaf _ | DTuple _ _ | DStruct _ _ => True | _ => False end.
  Lemma named_split x y r r' : named x -> named y -> wf x -> wf y -> stops r -> stops r' ->
    print x ++ r = print y ++ r' -> name_text x = name_text y /\ rest_text x ++ r = rest_text y ++ r'.
  Proof.
    intros Nx Ny Hx Hy Hr Hr' E.
    assert (P : forall x, named x -> print x = name_text x ++ rest_text x).
    { clear. intros [s|n x|n fs|xs|s|t|t x] H; try contradiction; cbn; rewrite ?app_nil_r; reflexivity. }
    rewrite !P, <- !app_assoc in E by assumption.
    assert (Q : forall x, named x -> wf x -> forallb plainb (name_text x) = true).
    { clear. intros x N H. destruct H as [s H|n x H _|n fs H _|xs _|s|t H|t x H _]; try contradiction; apply H. }
    assert (F : forall x r, named x -> stops r -> ends_name (rest_text x ++ r)).
    { clear. intros [s|n x|n fs|xs|s|t|t x] r N H; try contradiction; cbn; [apply stops_ends; exact H|reflexivity|reflexivity]. }
    apply name_split in E; auto.
  Qed.

  Theorem print_unique x : unique x.
  Proof.
    induction x as [s|n x IH|n fs IH|xs IH|s|t|t x IH] using dbg_ind'; intros Hx y r r' Hy Hr Hr' E;
      pose proof (kinds _ _ _ _ Hx Hy E) as (c & K1 & K2); cbn in K1.
    - assert (N : named y) by (destruct y; cbn in K2; try exact I; subst; discriminate K1).
      apply named_split in E as [E1 E2]; auto; [|exact I].
      destruct y as [s'|n' y|n' fs'|xs'|s'|t'|t' y]; try contradiction; cbn [name_text rest_text app] in *.
      + subst. auto.
      + exfalso. rewrite E2 in Hr. cbn in Hr. destruct Hr as [H|[H|[H|[H|[H _]]]]]; discriminate H.
      + exfalso. rewrite E2 in Hr. cbn in Hr. destruct Hr as [H|[H|[H|[H|[_ [q H]]]]]]; discriminate H.
    - assert (N : named y) by (destruct y; cbn in K2; try exact I; subst; discriminate K1).
      apply named_split in E as [E1 E2]; auto; [|exact I].
      destruct y as [s'|n' y|n' fs'|xs'|s'|t'|t' y]; try contradiction; cbn [name_text rest_text app] in *.
      + exfalso. rewrite <- E2 in Hr'. cbn in Hr'. destruct Hr' as [H|[H|[H|[H|[H _]]]]]; discriminate H.
      + apply lit_inj in E1. subst n'. injection E2 as E2. rewrite <- !app_assoc in E2.
        inversion Hx; inversion Hy; subst. apply IH in E2 as [-> E2]; auto; [|cbn; auto|cbn; auto].
        injection E2 as ->. auto.
      + discriminate E2.
    - assert (N : named y) by (destruct y; cbn in K2; try exact I; subst; discriminate K1).
      apply named_split in E as [E1 E2]; auto; [|exact I].
      destruct y as [s'|n' y|n' fs'|xs'|s'|t'|t' y]; try contradiction; cbn [name_text rest_text app] in *.
      + exfalso. rewrite <- E2 in Hr'. cbn in Hr'. destruct Hr' as [H|[H|[H|[H|[_ [q H]]]]]]; discriminate H.
      + discriminate E2.
      + apply lit_inj in E1. subst n'. injection E2 as E2. rewrite <- !app_assoc in E2.
        inversion Hx; inversion Hy; subst.
        apply (separated_split (fun fx => plain (lit (fst fx)) /\ wf (snd fx)) field 32%N [125%N]) in E2 as [-> ->]; auto.
        * intros q. cbn. eauto 8.
        * discriminate.
        * intros fx [H _]. destruct (plain_first _ H) as (d & q & F & Hd). rewrite F. cbn [app]. eexists _, _.
          split; [reflexivity|]. intros ->. discriminate Hd.
        * eapply Forall_impl; [|exact IH]. intros fx U. apply field_split. exact U.
    - destruct y as [s'|n' y|n' fs'|xs'|s'|t'|t' y]; cbn in K2; subst c; try discriminate.
      cbn [Debug.print] in E. rewrite <- !app_assoc in E. injection E as E. inversion Hx; inversion Hy; subst.
      apply (separated_split wf print 93%N []) in E as [-> ->]; auto.
      + intros q. cbn. auto.
      + discriminate.
      + intros x H. destruct (print_first x H) as (d & q & F & Hd). rewrite F. eexists _, _. split; [reflexivity|].
        intros ->. destruct x; discriminate Hd.
    - destruct y as [s'|n' y|n' fs'|xs'|s'|t'|t' y]; cbn in K2; subst c; try discriminate.
      cbn [Debug.print] in E. apply string_split in E as [-> ->]. auto.
    - destruct y as [s'|n' y|n' fs'|xs'|s'|t'|t' y]; cbn in K2; subst c; try discriminate; cbn [Debug.print] in E;
        inversion Hx; inversion Hy; subst; rewrite <- ?app_assoc in E; apply range_split in E as [-> E]; auto.
      exfalso. destruct (print_first y) as (d & q & F & Hd); [assumption|]. rewrite F in E. subst r.
        revert Hr. eapply first_not_stop. exact Hd.
    - destruct y as [s'|n' y|n' fs'|xs'|s'|t'|t' y]; cbn in K2; subst c; try discriminate; cbn [Debug.print] in E;
        inversion Hx; inversion Hy; subst; rewrite <- ?app_assoc in E; apply range_split in E as [-> E]; auto.
      + exfalso. destruct (print_first x) as (d & q & F & Hd); [assumption|]. rewrite F in E. subst r'.
        revert Hr'. eapply first_not_stop. exact Hd.
      + apply IH in E as [-> E]; auto; [|cbn; auto|cbn; auto]. injection E as ->. auto.
  Qed.
  Corollary print_inj x y : wf x -> wf y -> print x = print y -> x = y.
  Proof.
    intros Hx Hy E. apply (print_unique x Hx y [] []); try exact I; [assumption|]. rewrite E. reflexivity.
  Qed.
End Texts.

Theorem string_debug_iff shown s s' : string_debug shown s = string_debug shown s' <-> s = s'.
Proof.
  split; [|intros ->; reflexivity]. intros E. apply (string_split shown s s' [] []). rewrite E. reflexivity.
Qed.
