(** The parser on lines without fuel: with enough fuel for the tokens that are
    left, every function has its unfolding equation. *)
From Coq Require Import Lia.
From Verif Require Import Lines LinesSim ParseFuel.

Definition stmt (t : token) (s : lstate) : res lstate node :=
  parse_statement l_next l_peek l_next_statement (sz s + 3) t s.
Definition blk (stop : token -> bool) (s : lstate) : res lstate (list node) :=
  parse_block l_next l_peek l_next_statement
    (parse_statement l_next l_peek l_next_statement (sz s + 3)) stop (sz s + 3) s.

Lemma stmt_fin t s : fin (sz s) (stmt t s).
Proof. apply fin_parse_statement. lia. Qed.
Lemma blk_fin stop s : fin (sz s) (blk stop s).
Proof.
  apply fin_block with (n := sz s); [|lia|destruct (fst s); lia].
  intros. apply fin_parse_statement. lia.
Qed.

Lemma stmt_le f t : le_fuel (parse_statement l_next l_peek l_next_statement f t) (stmt t).
Proof.
  intros s. set (g := Nat.max f (sz s + 3)).
  pose proof (fuel_irrelevant _ _ s (le_statement l_next l_peek l_next_statement (sz s + 3) g t ltac:(lia))
    (fin_not_fuel _ _ (stmt_fin t s))) as E. fold (stmt t s) in E. rewrite <- E.
  apply le_statement. lia.
Qed.
Lemma stmt_eq f t s : sz s + 3 <= f -> parse_statement l_next l_peek l_next_statement f t s = stmt t s.
Proof.
  intros H. exact (fuel_irrelevant _ _ s (le_statement l_next l_peek l_next_statement (sz s + 3) f t H)
    (fin_not_fuel _ _ (stmt_fin t s))).
Qed.

Lemma blk_le f g stop :
  le_fuel (parse_block l_next l_peek l_next_statement (parse_statement l_next l_peek l_next_statement f) stop g)
          (blk stop).
Proof.
  intros s. set (h := Nat.max (Nat.max f g) (sz s + 3)).
  pose proof (fuel_irrelevant _ _ s (le_block l_next l_peek l_next_statement _ _ stop (sz s + 3)
     (fun t => le_statement l_next l_peek l_next_statement (sz s + 3) h t ltac:(lia)) h ltac:(lia))
    (fin_not_fuel _ _ (blk_fin stop s))) as E. fold (blk stop s) in E. rewrite <- E.
  apply le_block; [|lia]. intros t. apply le_statement. lia.
Qed.
Lemma blk_eq f g stop s : sz s + 3 <= f -> sz s + 3 <= g ->
  parse_block l_next l_peek l_next_statement (parse_statement l_next l_peek l_next_statement f) stop g s = blk stop s.
Proof.
  intros H1 H2. exact (fuel_irrelevant _ _ s (le_block l_next l_peek l_next_statement _ _ stop (sz s + 3)
     (fun t => le_statement l_next l_peek l_next_statement (sz s + 3) f t H1) g H2)
    (fin_not_fuel _ _ (blk_fin stop s))).
Qed.

(** The error pushed for the tokens left on a line. *)
Definition too_many (c : list token) : list node :=
  match c with [] => [] | _ => [NASTError (TooManyTokens c)] end.

Lemma end_eq (s : lstate) : end_of_statement l_next_statement s = ROk (too_many (fst s)) (l_start (snd s)).
Proof. destruct s as [[|t c] ls]; reflexivity. Qed.

Definition prepend (ns : list node) (r : res lstate (list node)) : res lstate (list node) :=
  match r with
  | ROk l s => ROk (ns ++ l) s
  | RErr e s => RErr e s
  | RPanic c => RPanic c
  | RFuel => RFuel
  end.

(** The loop after a statement that left the state [s]. *)
Definition continue (stop : token -> bool) (ns : list node) (s : lstate) : res lstate (list node) :=
  let s' := l_start (snd s) in
  match fst s' with
  | [] => ROk (ns ++ too_many (fst s)) s'
  | t :: _ => if stop t then ROk (ns ++ too_many (fst s)) s'
              else prepend (ns ++ too_many (fst s)) (blk stop s')
  end.

Lemma sz_start_le s : sz (l_start (snd s)) <= sz s.
Proof. destruct s as [c ls]. pose proof (sz_statement c ls). cbn [snd]. lia. Qed.

Theorem blk_unfold stop s : blk stop s =
  match fst s with
  | [] => continue stop [] s
  | t :: c =>
    match stmt t (c, snd s) with
    | ROk n s' => continue stop [n] s'
    | RErr e s' => continue stop [NASTError e] s'
    | RPanic k => RPanic k
    | RFuel => RFuel
    end
  end.
Proof.
  rewrite <- (blk_eq (sz s + 4) (S (sz s + 3)) stop s) by lia. cbn [parse_block].
  assert (HC : forall ns s', sz s' <= sz s ->
    (errs <- end_of_statement l_next_statement;; p <- peek l_peek;;
     match p with
     | Some t => if stop t then ret (ns ++ errs)
                 else rest <- parse_block l_next l_peek l_next_statement
                                (parse_statement l_next l_peek l_next_statement (sz s + 4)) stop (sz s + 3);;
                      ret (ns ++ errs ++ rest)
     | None => ret (ns ++ errs)
     end)%parser s' = continue stop ns s').
  { intros ns s' Hs'. unfold bind at 1. rewrite end_eq. unfold continue.
    pose proof (sz_start_le s') as Hle.
    destruct (l_start (snd s')) as [c2 ls2] eqn:E2. unfold bind at 1, peek, l_peek.
    destruct c2 as [|t2 c2]; cbn [fst]; [reflexivity|].
    destruct (stop t2); [reflexivity|]. unfold bind. rewrite blk_eq by lia.
    unfold prepend. destruct (blk stop (t2 :: c2, ls2)); try reflexivity.
    unfold ret. rewrite app_assoc. reflexivity. }
  destruct s as [c ls]. unfold bind at 1, next, l_next. destruct c as [|t c]; cbn [fst snd].
  - unfold bind at 1, ret at 1. apply HC. lia.
  - assert (Hsz : sz (c, ls) + 1 = sz (t :: c, ls)) by (unfold sz; cbn; lia).
    unfold bind at 1, bind at 1, catch. rewrite stmt_eq by lia.
    pose proof (stmt_fin t (c, ls)) as Hf.
    destruct (stmt t (c, ls)) as [n s'|e s'|k|]; cbn [fin] in Hf;
      try reflexivity; [apply (HC [n] s')|apply (HC [NASTError e] s')]; lia.
Qed.

(** [parse] without fuel. *)
Definition block_result (r : res lstate (list node)) : parse_result :=
  match r with
  | ROk ns _ => ParseOk (ASTBlock ns)
  | RPanic c => ParsePanic c
  | _ => ParseFuel
  end.
Theorem parse_logical_blk ls : parse_logical ls = block_result (blk stop_root (l_start ls)).
Proof.
  unfold parse_logical, parse_lines, parse_block_root, block_of, bind, result_of, block_result.
  rewrite blk_eq by (rewrite sz_start; lia).
  destruct (blk stop_root (l_start ls)); reflexivity.
Qed.
Lemma blk_no_err stop s e s' : blk stop s <> RErr e s'.
Proof.
  intros E. pose proof (block_no_err l_next l_peek l_next_statement
    (parse_statement l_next l_peek l_next_statement (sz s + 3)) stop (sz s + 3) s) as H.
  unfold blk in E. rewrite E in H. exact H.
Qed.
Lemma blk_no_fuel stop s : blk stop s <> RFuel.
Proof. eapply fin_not_fuel, blk_fin. Qed.
Lemma stmt_no_fuel t s : stmt t s <> RFuel.
Proof. eapply fin_not_fuel, stmt_fin. Qed.

(** ** The unfolding of statements; [f] is any large enough fuel *)
Theorem stmt_unfold f t s : sz s + 2 <= f -> stmt t s =
  if va_is_valid t then va_statement l_next l_peek f t s
  else
  match tok_type t with
  | TKeyword I_HAS_A => as_node NIHasA (i_has_a_parse l_next l_peek f t) s
  | TKeyword VISIBLE => as_node NVisible (visible_parse l_next l_peek f t) s
  | TKeyword GIMMEH => as_node NGimmeh (gimmeh_parse l_next l_peek f t) s
  | TKeyword FOUND_YR => as_node NFoundYr (found_yr_parse l_next l_peek f t) s
  | TKeyword HAI => as_node NHai (hai_parse l_next_statement t) s
  | TKeyword KTHXBYE => ROk (NKThxBye {| kthxbye_token := t |}) s
  | TKeyword GTFO => ROk (NGtfo {| gtfo_token := t |}) s
  | TKeyword I_IZ => as_node NIIz (i_iz_parse l_next l_peek f t) s
  | TKeyword IM_IN_YR => as_node NImInYr (im_in_yr_parse l_next l_peek l_next_statement blk f t) s
  | TKeyword HOW_IZ_I => as_node NHowIzI (how_iz_i_parse l_next l_peek l_next_statement blk f t) s
  | TKeyword WTF => as_node NWtf (wtf_parse l_next l_peek l_next_statement blk f t) s
  | TKeyword O_RLY => as_node NORly (o_rly_parse l_next l_peek l_next_statement blk f t) s
  | _ => as_node NExpression (expr_parse l_next l_peek f t) s
  end.
Proof.
  intros Hf. pose proof (stmt_eq (S f) t s ltac:(lia)) as E. pose proof (stmt_no_fuel t s) as HN.
  rewrite <- E in *. clear E. cbn [parse_statement] in *.
  destruct (va_is_valid t); [reflexivity|].
  assert (HB : forall stop, le_fuel (parse_block l_next l_peek l_next_statement
      (parse_statement l_next l_peek l_next_statement f) stop f) (blk stop)) by (intro; apply blk_le).
  assert (HX : forall A (g : A -> node) m m', le_fuel m m' -> as_node g m s <> RFuel -> as_node g m s = as_node g m' s).
  { intros A g m m' Hm Hn. unfold as_node, bind in *. destruct (Hm s) as [Em|Em]; rewrite Em in *; [|reflexivity].
    exfalso. apply Hn. reflexivity. }
  destruct (tok_type t) as [|k| | | | | | | | |]; try reflexivity.
  destruct k; try reflexivity; apply HX; try assumption.
  all: first [apply le_im_in_yr; [assumption|lia]|apply le_how_iz_i; [assumption|lia]
             |apply le_wtf; [assumption|lia]|apply le_o_rly; [assumption|lia]].
Qed.
