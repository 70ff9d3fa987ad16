(** What the first lines of a program decide about its result. *)
From Coq Require Import Lia.
From Verif Require Import Lines ParseFuel Grammar Failure Recovery.

(** The place, outcome of reading only the first lines, with the lines [m] after them. *)
Definition extp (m : list (list token)) (p : place) : place := (fst p, snd p ++ m).
Definition ext {A} (m : list (list token)) (o : out A) : out A :=
  match o with
  | Done a p => Done a (extp m p)
  | Err e p => Err e (extp m p)
  | Crash c => Crash c
  end.

(** The first of the lines [m] has been reached. *)
Definition past (m : list (list token)) (p : place) : Prop :=
  (m = [] /\ p = ([], [])) \/ length (snd p) < length m.
Definition passed {A} (m : list (list token)) (o : out A) : Prop :=
  match o with
  | Done _ p | Err _ p => past m p
  | Crash _ => m <> []
  end.

(** Reading does not depend on [m], or it reaches [m]. *)
Definition local {A} (J : place -> out A -> Prop) (p : place) (o : out A) : Prop :=
  forall p0 m, p = extp m p0 ->
    (exists o', o = ext m o' /\ forall m', J (extp m' p0) (ext m' o')) \/ passed m o.

Lemma past_line m : past m (line_of m).
Proof. destruct m as [|l m]; [left; auto|right; cbn; lia]. Qed.
Lemma line_of_le ls : length (snd (line_of ls)) <= length ls.
Proof. destruct ls; cbn; lia. Qed.
Lemma past_le m p p' : past m p -> length (snd p') <= length (snd p) -> (m = [] -> p' = ([], [])) -> past m p'.
Proof.
  intros [(-> & ->)|H] Hl Hm; [left; auto|]. right. lia.
Qed.

(** *** Lines are read in order *)
Definition shrinks {A} (n : nat) (o : out A) : Prop :=
  match o with
  | Done _ p | Err _ p => length (snd p) <= n
  | Crash _ => True
  end.
Lemma shrinks_le {A} n n' (o : out A) : n <= n' -> shrinks n o -> shrinks n' o.
Proof. destruct o; cbn; intros; try lia; auto. Qed.
Lemma shrinks_map {A B} n (f : A -> B) o : shrinks n o -> shrinks n (omap f o).
Proof. destruct o; auto. Qed.
Lemma shrinks_aborts {A B} n (o : out A) (o' : out B) : aborts o o' -> shrinks n o -> shrinks n o'.
Proof. intros []; auto. Qed.
Lemma shrinks_failed {A} f ls : shrinks (A := A) (length ls) (failed f ls).
Proof. destruct f; cbn; auto. Qed.
Lemma shrinks_closing t p o : closing t p o -> shrinks (length (snd p)) o.
Proof. intros []; cbn; auto. Qed.

Ltac lines := repeat match goal with
  | |- context [length (snd (line_of ?l))] => lazymatch goal with
      | _ : length (snd (line_of l)) <= length l |- _ => fail
      | _ => pose proof (line_of_le l) end
  | _ : context [length (snd (line_of ?l))] |- _ => lazymatch goal with
      | _ : length (snd (line_of l)) <= length l |- _ => fail
      | _ => pose proof (line_of_le l) end
  end.

Lemma shrinks_mut :
  (forall l ls o, r_stmt l ls o -> shrinks (length ls) o) /\
  (forall k p o, r_block k p o -> shrinks (length (snd p)) o) /\
  (forall k ls o, r_more k ls o -> shrinks (length ls) o) /\
  (forall w k p o, r_section w k p o -> shrinks (length (snd p)) o) /\
  (forall w m k p o, r_cases w m k p o -> shrinks (length (snd p)) o).
Proof.
  apply r_mut; intros;
    repeat match goal with H : closing _ _ _ |- _ => apply shrinks_closing in H end;
    try apply shrinks_failed; try apply shrinks_map;
    try match goal with Ha : aborts _ _ |- _ => apply (shrinks_aborts _ _ _ Ha) end;
    try match goal with H : shrinks _ ?o |- shrinks _ ?o => revert H; apply shrinks_le end;
    cbn [shrinks fst snd length] in *; lines; try lia; auto.
Qed.

(** *** Nothing comes after the end *)
Lemma end_block k o : r_block k ([], []) o -> o = Done [] ([], []).
Proof.
  intros H. inversion H; subst. match goal with H : r_more _ _ _ |- _ => inversion H; subst end. reflexivity.
Qed.
Lemma end_section w k o : r_section w k ([], []) o -> o = Done None ([], []).
Proof. intros H. inversion H; subst. reflexivity. Qed.
Lemma end_cases w f k o : r_cases w f k ([], []) o -> o = Done [] ([], []).
Proof. intros H. inversion H; subst. reflexivity. Qed.
Lemma end_closing t o : closing t ([], []) o -> o = Err (MissingBlockClosingToken t) ([], []).
Proof. intros H. inversion H; subst. reflexivity. Qed.

Lemma passed_of {A} m p (o : out A) : past m p -> shrinks (length (snd p)) o ->
  (p = ([], []) -> match o with Done _ q | Err _ q => q = ([], []) | Crash _ => False end) -> passed m o.
Proof.
  intros [(-> & ->)|H] Hs He.
  - specialize (He eq_refl). destruct o; cbn; [left; auto..|contradiction].
  - destruct o; cbn in *; try (right; lia). intros ->. cbn in H. lia.
Qed.
Lemma passed_block m k p o : past m p -> r_block k p o -> passed m o.
Proof.
  intros Hp H. apply (passed_of m p); [exact Hp|apply shrinks_mut in H; exact H|].
  intros ->. apply end_block in H. subst. reflexivity.
Qed.
Lemma passed_section m w k p o : past m p -> r_section w k p o -> passed m o.
Proof.
  intros Hp H. apply (passed_of m p); [exact Hp|apply shrinks_mut in H; exact H|].
  intros ->. apply end_section in H. subst. reflexivity.
Qed.
Lemma passed_cases m w f k p o : past m p -> r_cases w f k p o -> passed m o.
Proof.
  intros Hp H. apply (passed_of m p); [exact Hp|apply shrinks_mut in H; exact H|].
  intros ->. apply end_cases in H. subst. reflexivity.
Qed.
Lemma passed_closing m t p o : past m p -> closing t p o -> passed m o.
Proof.
  intros Hp H. apply (passed_of m p); [exact Hp|apply shrinks_closing in H; exact H|].
  intros ->. apply end_closing in H. subst. reflexivity.
Qed.
Lemma passed_map {A B} m (f : A -> B) o : passed m o -> passed m (omap f o).
Proof. destruct o; auto. Qed.
Lemma passed_aborts {A B} m (o : out A) (o' : out B) : aborts o o' -> passed m o -> passed m o'.
Proof. intros []; auto. Qed.
(** After a line that is past [m]. *)
Lemma past_next m r ls : past m (r, ls) -> past m (line_of ls).
Proof.
  intros [(-> & E)|H]; [injection E as -> ->; left; auto|]. right. cbn in H. pose proof (line_of_le ls). lia.
Qed.
Lemma past_same m c r ls : past m (c, ls) -> (c = [] -> r = []) -> past m (r, ls).
Proof.
  intros [(-> & E)|H] Hr; [injection E as -> ->; left; rewrite (Hr eq_refl); auto|]. right. exact H.
Qed.

Lemma passed_more m k r ls o : past m (r, ls) -> r_more k ls o -> passed m o.
Proof.
  intros Hp H. apply (passed_of m ([], ls)).
  - apply (past_le _ _ _ Hp); [reflexivity|]. intros ->. destruct Hp as [(_ & E)|Hp]; [injection E as _ ->; reflexivity|].
    cbn in Hp. lia.
  - apply shrinks_mut in H. exact H.
  - intros E. injection E as ->. inversion H; subst. reflexivity.
Qed.

(** *** Inversion of [ext] *)
Lemma ext_Done {A} m (a : A) p o : Done a p = ext m o -> exists q, o = Done a q /\ p = extp m q.
Proof. destruct o; cbn; intros E; try discriminate. injection E as -> ->. eauto. Qed.
Lemma ext_Err {A} m e p (o : out A) : Err e p = ext m o -> exists q, o = Err e q /\ p = extp m q.
Proof. destruct o; cbn; intros E; try discriminate. injection E as -> ->. eauto. Qed.
Lemma ext_Crash {A} m c (o : out A) : Crash c = ext m o -> o = Crash c.
Proof. destruct o; cbn; intros E; try discriminate. injection E as ->. reflexivity. Qed.
Lemma ext_map {A B} m (f : A -> B) o : ext m (omap f o) = omap f (ext m o).
Proof. destruct o; reflexivity. Qed.
Lemma ext_aborts {A B} m (o : out A) (o' : out B) : aborts (ext m o) o' ->
  exists o1, o' = ext m o1 /\ forall m', aborts (ext m' o) (ext m' o1).
Proof.
  destruct o as [a p|e p|c]; cbn; intros H; inversion H; subst.
  - exists (Err e p). split; [reflexivity|]. intros m'. constructor.
  - exists (Crash c). split; [reflexivity|]. intros m'. constructor.
Qed.
Lemma ext_failed {A} m f ls : ext (A := A) m (failed f ls) = failed f (ls ++ m).
Proof. destruct f; reflexivity. Qed.

(** Going to the next line. *)
Lemma next_line ls m : (exists q, line_of (ls ++ m) = extp m q /\ forall m', line_of (ls ++ m') = extp m' q) \/
  past m (line_of (ls ++ m)).
Proof. destruct ls as [|l ls]; [right; apply past_line|]. left. exists (l, ls). split; reflexivity. Qed.

(** *** The main induction *)
Ltac flow := repeat match goal with
  | B : past ?m ?p, H : r_block _ ?p _ |- _ => apply (passed_block m _ p _ B) in H; cbn [passed] in H
  | B : past ?m ?p, H : r_section _ _ ?p _ |- _ => apply (passed_section m _ _ p _ B) in H; cbn [passed] in H
  | B : past ?m ?p, H : r_cases _ _ _ ?p _ |- _ => apply (passed_cases m _ _ _ p _ B) in H; cbn [passed] in H
  | B : past ?m (_, ?p), H : r_more _ ?p _ |- _ => apply (passed_more m _ _ p _ B) in H; cbn [passed] in H
  | B : past ?m ?p, H : closing _ ?p _ |- _ => apply (passed_closing m _ p _ B) in H; cbn [passed] in H
  end.
Ltac done_passed := right; flow; cbn [passed] in *;
  first [ assumption
        | apply passed_map; assumption
        | match goal with Ha : aborts _ _ |- _ => apply (passed_aborts _ _ _ Ha); assumption end
        | eapply past_next; eassumption
        | eapply past_same; [eassumption|first [discriminate|reflexivity]] ].
Ltac inv_ext := repeat match goal with
  | E : Done _ _ = ext _ _ |- _ => apply ext_Done in E as (? & -> & ?)
  | E : Err _ _ = ext _ _ |- _ => apply ext_Err in E as (? & -> & ?)
  | E : Crash _ = ext _ _ |- _ => apply ext_Crash in E as ->
  | E : (_, _) = extp _ ?q |- _ => destruct q; unfold extp in E; cbn [fst snd] in E; injection E as ? ?; subst
  end.
(* the next line *)
Ltac go_line ls m := let q := fresh "q" in let E := fresh "E" in let F := fresh "F" in let B := fresh "B" in
  destruct (next_line ls m) as [(q & E & F)|B];
  [ rewrite E in *; clear E | ].
(* a part of the statement *)
Ltac go_part IH q m := let o := fresh "o1" in let E := fresh "E" in let H := fresh "I" in let B := fresh "P" in
  destruct (IH q m eq_refl) as [(o & E & H)|B]; [ | cbn [passed] in B ].

Lemma local_closing t p o : closing t p o -> local (closing t) p o.
Proof.
  intros H [c ls] m E. left. destruct H; unfold extp in E; cbn [fst snd] in E; injection E as ? ?; subst.
  - exists (Err (MissingBlockClosingToken t) ([], ls)). split; [reflexivity|]. intros m'. constructor.
  - exists (Err (UnexpectedToken u) (r, ls)). split; [reflexivity|]. intros m'. constructor. assumption.
  - exists (Done tt (r, ls)). split; [reflexivity|]. intros m'. constructor. assumption.
Qed.

Definition local_lines {A} (J : list (list token) -> out A -> Prop) ls o : Prop :=
  forall ls0 m, ls = ls0 ++ m -> (exists o', o = ext m o' /\ forall m', J (ls0 ++ m') (ext m' o')) \/ passed m o.

Ltac here o := left; exists o; split; [reflexivity|]; intros m'; cbn [ext].
Ltac fail_here f ls := left; exists (failed f ls); split; [symmetry; apply ext_failed|]; intros m'; rewrite ext_failed.
Ltac use_next F := first [rewrite <- F | change (extp ?m (?c, ?l)) with (c, l ++ m)].

Lemma local_mut :
  (forall l ls o, r_stmt l ls o -> local_lines (r_stmt l) ls o) /\
  (forall k p o, r_block k p o -> local (r_block k) p o) /\
  (forall k ls o, r_more k ls o -> local_lines (r_more k) ls o) /\
  (forall w k p o, r_section w k p o -> local (r_section w k) p o) /\
  (forall w m k p o, r_cases w m k p o -> local (r_cases w m k) p o).
Proof.
  apply r_mut.
  - intros l ls n r H ls0 m ->. here (Done n (r, ls0)). constructor. exact H.
  - intros l ls f H ls0 m ->. fail_here f ls0. constructor. exact H.
  - intros t v ls H ls0 m ->. go_line ls0 m; [|done_passed]. here (Done (NHai (mkHai t v)) q).
    rewrite <- F. constructor. exact H.
  (* IM IN YR *)
  - intros t c ls f H H0 ls0 m ->. fail_here f ls0. apply r_loop_header; assumption.
  - intros t c ls label it cond x r H H0 ls0 m ->. go_line ls0 m; [|done_passed].
    here (@Err node (TooManyTokens (x :: r)) q). rewrite <- F. eapply r_loop_junk; eassumption.
  - intros t c ls label it cond p H H0 HB IH ls0 m ->. go_line ls0 m; [|done_passed]. go_part IH q m; [|done_passed].
    inv_ext. here (@Crash node p). eapply r_loop_crash; [eassumption..|]. rewrite F. apply (I m').
  - intros t c ls label it cond ns ls' H H0 HB IH ls0 m ->. go_line ls0 m; [|done_passed]. go_part IH q m; [|done_passed].
    inv_ext. here (@Err node (EImInYr (MissingImOuttaYr t)) ([], l0)).
    eapply r_loop_unclosed; [eassumption..|]. rewrite F. apply (I m').
  - intros t c ls label it cond ns imo ls' H H0 HB IH ls0 m ->. go_line ls0 m; [|done_passed]. go_part IH q m; [|done_passed].
    inv_ext. here (@Err node (EImInYr (MissingEndLabel imo)) ([], l0)).
    eapply r_loop_no_label; [eassumption..|]. rewrite F. apply (I m').
  - intros t c ls label it cond ns imo e r ls' H H0 HB IH He ls0 m ->. go_line ls0 m; [|done_passed]. go_part IH q m; [|done_passed].
    inv_ext. here (@Err node (EImInYr (InvalidEndLabel e)) (r, l0)).
    eapply r_loop_bad_label; [eassumption..| |assumption]. rewrite F. apply (I m').
  - intros t c ls label it cond ns imo e r ls' H H0 HB IH He ls0 m ->. go_line ls0 m; [|done_passed]. go_part IH q m; [|done_passed].
    inv_ext. here (Done (NImInYr (ImInYr t label it cond (ASTBlock ns) e)) (r, l0)).
    eapply r_loop; [eassumption..| |assumption]. rewrite F. apply (I m').
  (* HOW IZ I *)
  - intros t c ls f H H0 ls0 m ->. fail_here f ls0. apply r_function_header; assumption.
  - intros t c ls i ps x r H H0 ls0 m ->. go_line ls0 m; [|done_passed].
    here (@Err node (TooManyTokens (x :: r)) q). rewrite <- F. eapply r_function_junk; eassumption.
  - intros t c ls i ps p H H0 HB IH ls0 m ->. go_line ls0 m; [|done_passed]. go_part IH q m; [|done_passed].
    inv_ext. here (@Crash node p). eapply r_function_crash; [eassumption..|]. rewrite F. apply (I m').
  - intros t c ls i ps ns ls' H H0 HB IH ls0 m ->. go_line ls0 m; [|done_passed]. go_part IH q m; [|done_passed].
    inv_ext. here (@Err node (MissingBlockClosingToken t) ([], l0)).
    eapply r_function_unclosed; [eassumption..|]. rewrite F. apply (I m').
  - intros t c ls i ps ns e x r ls' H H0 HB IH ls0 m ->. go_line ls0 m; [|done_passed]. go_part IH q m; [|done_passed].
    inv_ext. go_line l0 m; [|done_passed]. here (@Err node (TooManyTokens (x :: r)) q0). rewrite <- F0.
    eapply r_function_end_junk; [eassumption..|]. rewrite F. apply (I m').
  - intros t c ls i ps ns e ls' H H0 HB IH ls0 m ->. go_line ls0 m; [|done_passed]. go_part IH q m; [|done_passed].
    inv_ext. go_line l0 m; [|done_passed]. here (Done (NHowIzI (HowIzI t i ps (ASTBlock ns))) q0). rewrite <- F0.
    eapply r_function; [eassumption..|]. rewrite F. apply (I m').
  (* WTF? *)
  - intros t c ls f H H0 ls0 m ->. fail_here f ls0. apply r_wtf_question; assumption.
  - intros t q x r ls H H0 ls0 m ->. go_line ls0 m; [|done_passed].
    here (@Err node (TooManyTokens (x :: r)) q0). rewrite <- F. eapply r_wtf_junk; eassumption.
  - intros t q ls o o' H H0 HC IH Ha ls0 m ->. go_line ls0 m; [|done_passed]. go_part IH q0 m; [|done_passed].
    subst o. apply ext_aborts in Ha as (o2 & -> & Ha). here o2. eapply r_wtf_cases; [eassumption..| |apply Ha]. rewrite F. apply (I m').
  - intros t q ls omgs p o o' H H0 HC IH HS IHS Ha ls0 m ->. go_line ls0 m; [|done_passed]. go_part IH q0 m; [|done_passed].
    inv_ext. subst p. go_part IHS x m; [|done_passed]. subst o. apply ext_aborts in Ha as (o2 & -> & Ha). here o2.
    eapply r_wtf_default; [eassumption..| | |apply Ha]; [rewrite F; apply (I m')|apply (I0 m')].
  - intros t q ls omgs p d p' o o' H H0 HC IH HS IHS Hc Ha ls0 m ->. go_line ls0 m; [|done_passed]. go_part IH q0 m; [|done_passed].
    inv_ext. subst p. go_part IHS x m; [|done_passed]. inv_ext. subst p'. pose proof (local_closing _ _ _ Hc) as Hl.
    go_part Hl x0 m; [|done_passed]. subst o.
    apply ext_aborts in Ha as (o2 & -> & Ha). here o2.
    eapply r_wtf_closing; [eassumption..| | | |apply Ha]; [rewrite F; apply (I m')|apply (I0 m')|apply (I1 m')].
  - intros t q ls omgs p d p' y r ls' H H0 HC IH HS IHS Hc ls0 m ->. go_line ls0 m; [|done_passed]. go_part IH q0 m; [|done_passed].
    inv_ext. subst p. go_part IHS x m; [|done_passed]. inv_ext. subst p'. pose proof (local_closing _ _ _ Hc) as Hl.
    go_part Hl x0 m; [|done_passed]. inv_ext. go_line l0 m; [|done_passed]. here (@Err node (TooManyTokens (y :: r)) q1). rewrite <- F0.
    eapply r_wtf_end_junk; [eassumption..| | |]; [rewrite F; apply (I m')|apply (I0 m')|apply (I1 m')].
  - intros t q ls omgs p d p' ls' H H0 HC IH HS IHS Hc ls0 m ->. go_line ls0 m; [|done_passed]. go_part IH q0 m; [|done_passed].
    inv_ext. subst p. go_part IHS x m; [|done_passed]. inv_ext. subst p'. pose proof (local_closing _ _ _ Hc) as Hl.
    go_part Hl x0 m; [|done_passed]. inv_ext. go_line l0 m; [|done_passed].
    match goal with |- context [Done ?n (extp m q1)] => here (Done n q1) end. rewrite <- F0.
    eapply r_wtf; [eassumption..| | |]; [rewrite F; apply (I m')|apply (I0 m')|apply (I1 m')].
  (* O RLY? *)
  - intros t c ls f H H0 ls0 m ->. fail_here f ls0. apply r_o_rly_question; assumption.
  - intros t q x r ls H H0 ls0 m ->. go_line ls0 m; [|done_passed].
    here (@Err node (TooManyTokens (x :: r)) q0). rewrite <- F. eapply r_o_rly_junk; eassumption.
  - intros t q ls o o' H H0 HC IH Ha ls0 m ->. go_line ls0 m; [|done_passed]. go_part IH q0 m; [|done_passed].
    subst o. apply ext_aborts in Ha as (o2 & -> & Ha). here o2. eapply r_o_rly_yes; [eassumption..| |apply Ha]. rewrite F. apply (I m').
  - intros t q ls y p o o' H H0 HC IH HS IHS Ha ls0 m ->. go_line ls0 m; [|done_passed]. go_part IH q0 m; [|done_passed].
    inv_ext. subst p. go_part IHS x m; [|done_passed]. subst o. apply ext_aborts in Ha as (o2 & -> & Ha). here o2.
    eapply r_o_rly_mebbes; [eassumption..| | |apply Ha]; [rewrite F; apply (I m')|apply (I0 m')].
  - intros t q ls y p ms p' o o' H H0 HC IH HS IHS HN IHN Ha ls0 m ->. go_line ls0 m; [|done_passed]. go_part IH q0 m; [|done_passed].
    inv_ext. subst p. go_part IHS x m; [|done_passed]. inv_ext. subst p'. go_part IHN x0 m; [|done_passed]. subst o.
    apply ext_aborts in Ha as (o2 & -> & Ha). here o2.
    eapply r_o_rly_no; [eassumption..| | | |apply Ha]; [rewrite F; apply (I m')|apply (I0 m')|apply (I1 m')].
  - intros t q ls y p ms p' n p'' o o' H H0 HC IH HS IHS HN IHN Hc Ha ls0 m ->. go_line ls0 m; [|done_passed]. go_part IH q0 m; [|done_passed].
    inv_ext. subst p. go_part IHS x m; [|done_passed]. inv_ext. subst p'. go_part IHN x0 m; [|done_passed]. inv_ext. subst p''.
    pose proof (local_closing _ _ _ Hc) as Hl. go_part Hl x1 m; [|done_passed]. subst o.
    apply ext_aborts in Ha as (o2 & -> & Ha). here o2.
    eapply r_o_rly_closing; [eassumption..| | | | |apply Ha]; [rewrite F; apply (I m')|apply (I0 m')|apply (I1 m')|apply (I2 m')].
  - intros t q ls y p ms p' n p'' p3 H H0 HC IH HS IHS HN IHN Hc ls0 m ->. go_line ls0 m; [|done_passed]. go_part IH q0 m; [|done_passed].
    inv_ext. subst p. go_part IHS x m; [|done_passed]. inv_ext. subst p'. go_part IHN x0 m; [|done_passed]. inv_ext. subst p''.
    pose proof (local_closing _ _ _ Hc) as Hl. go_part Hl x1 m; [|done_passed]. inv_ext. subst p3.
    match goal with |- context [Done ?n (extp m ?q)] => here (Done n q) end.
    eapply r_o_rly; [eassumption..| | | |]; [rewrite F; apply (I m')|apply (I0 m')|apply (I1 m')|apply (I2 m')].
  (* blocks *)
  - intros k ls o H IH [c ls0] m E. unfold extp in E. cbn [fst snd] in E. injection E as <- ->.
    go_part IH ls0 m; [|done_passed]. subst o. here o1. constructor. apply (I m').
  - intros k t c ls n r ls' o H IH HM IHM [c0 ls0] m E. unfold extp in E. cbn [fst snd] in E. injection E as <- ->.
    go_part IH ls0 m; [|done_passed]. inv_ext. go_part IHM l0 m; [|done_passed]. subst o. left.
    match goal with |- context [omap ?f _] => exists (omap f o1) end. split; [symmetry; apply ext_map|].
    intros m'. rewrite ext_map. eapply r_block_done; [apply (I m')|apply (I0 m')].
  - intros k t c ls e r ls' o H IH HM IHM [c0 ls0] m E. unfold extp in E. cbn [fst snd] in E. injection E as <- ->.
    go_part IH ls0 m; [|done_passed]. inv_ext. go_part IHM l0 m; [|done_passed]. subst o. left.
    match goal with |- context [omap ?f _] => exists (omap f o1) end. split; [symmetry; apply ext_map|].
    intros m'. rewrite ext_map. eapply r_block_err; [apply (I m')|apply (I0 m')].
  - intros k t c ls p H IH [c0 ls0] m E. unfold extp in E. cbn [fst snd] in E. injection E as <- ->.
    go_part IH ls0 m; [|done_passed]. inv_ext. here (@Crash (list node) p). eapply r_block_crash. apply (I m').
  (* the rest of a block *)
  - intros k ls H ls0 m ->. destruct ls0 as [|[|t l] ls0]; cbn [app line_of fst] in *.
    + right. apply past_line.
    + here (Done (@nil node) ([], ls0)). apply (r_more_empty k ([] :: ls0 ++ m')). reflexivity.
    + discriminate.
  - intros k t c ls H ls0 m E. destruct ls0 as [|l ls0]; cbn [app] in E.
    + subst m. right. right. cbn. lia.
    + injection E as <- ->. here (Done (@nil node) (t :: c, ls0)). apply r_more_close. exact H.
  - intros k t c ls o H HB IH ls0 m E. destruct ls0 as [|l ls0]; cbn [app] in E.
    + subst m. right. apply (passed_block _ k (t :: c, ls)); [right; cbn; lia|exact HB].
    + injection E as <- ->. go_part IH (t :: c, ls0) m; [|done_passed]. subst o. here o1. apply r_more_go; [exact H|apply (I m')].
  (* sections *)
  - intros w k c ls H [c0 ls0] m E. unfold extp in E. cbn [fst snd] in E. injection E as <- ->.
    here (Done (@None (token * list node)) (c, ls0)). apply r_section_none. exact H.
  - intros w k t x r ls H [c0 ls0] m E. unfold extp in E. cbn [fst snd] in E. injection E as <- ->.
    go_line ls0 m; [|done_passed]. here (@Err (option (token * list node)) (TooManyTokens (x :: r)) q). rewrite <- F. apply r_section_junk. exact H.
  - intros w k t ls o H HB IH [c0 ls0] m E. unfold extp in E. cbn [fst snd] in E. injection E as <- ->.
    go_line ls0 m; [|done_passed]. go_part IH q m; [|done_passed]. subst o. left. exists (omap (fun ns => Some (t, ns)) o1).
    split; [symmetry; apply ext_map|]. intros m'. rewrite ext_map. apply r_section_block; [exact H|]. cbn [snd]. rewrite F. apply (I m').
  (* cases *)
  - intros w f k c ls H [c0 ls0] m E. unfold extp in E. cbn [fst snd] in E. injection E as <- ->.
    here (Done (@nil (token * expr * list node)) (c, ls0)). apply r_cases_none. exact H.
  - intros w f k t l x ls H H0 [c0 ls0] m E. unfold extp in E. cbn [fst snd] in E. injection E as <- ->.
    fail_here x ls0. apply r_cases_expr; assumption.
  - intros w f k t o ts e x r ls H H0 H1 [c0 ls0] m E. unfold extp in E. cbn [fst snd] in E. injection E as <- ->.
    go_line ls0 m; [|done_passed]. here (@Err (list (token * expr * list node)) (TooManyTokens (x :: r)) q). rewrite <- F.
    eapply r_cases_junk; eassumption.
  - intros w f k t b ts e ls o o' H H0 HB IH Ha [c0 ls0] m E. unfold extp in E. cbn [fst snd] in E. injection E as <- ->.
    go_line ls0 m; [|done_passed]. go_part IH q m; [|done_passed]. subst o. apply ext_aborts in Ha as (o2 & -> & Ha). here o2.
    eapply r_cases_block; [eassumption..| |apply Ha]. cbn [snd]. rewrite F. apply (I m').
  - intros w f k t b ts e ls ns p o H H0 HB IH HC IHC [c0 ls0] m E. unfold extp in E. cbn [fst snd] in E. injection E as <- ->.
    go_line ls0 m; [|done_passed]. go_part IH q m; [|done_passed]. inv_ext. subst p. go_part IHC x m; [|done_passed]. subst o. left.
    exists (omap (cons (t, e, ns)) o1). split; [symmetry; apply ext_map|]. intros m'. rewrite ext_map.
    eapply r_cases_cons; [eassumption..| |apply (I0 m')]. cbn [snd]. rewrite F. apply (I m').
Qed.
