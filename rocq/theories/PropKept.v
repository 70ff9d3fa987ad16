(** Theorems about what an AST keeps of its source, by property number.
    Vocabulary: Kept.v, NodeTokens.v. *)
From Coq Require Import String.
From Verif Require Import Lexer Parser Api Lines Clean Kept KeptProofs PropLexer PropParser.
Local Open Scope string_scope.
Local Open Scope list_scope.

(** ** C76 *)

(** An AST without errors contains all kept tokens, in order. *)
Theorem C76_nothing_is_lost ts ns : parse ts = ParseOk (ASTBlock ns) -> forallb node_clean ns = true ->
  Forall (fun l => l <> []) (logical_lines ts) -> filter kept (block_tokens (ASTBlock ns)) = filter kept ts.
Proof. intros H1 H2 H3. symmetry. exact (clean_keeps ts ns H1 H2 H3). Qed.
Print Assumptions C76_nothing_is_lost.

(** In particular no identifier and no literal is lost or made up. *)
Theorem C76_identifiers_and_literals ts ns : parse ts = ParseOk (ASTBlock ns) -> forallb node_clean ns = true ->
  Forall (fun l => l <> []) (logical_lines ts) ->
  let data t := match tok_type t with TIdentifier _ | TValue _ => true | _ => false end in
  filter data (block_tokens (ASTBlock ns)) = filter data ts.
Proof.
  intros H1 H2 H3 data. pose proof (C76_nothing_is_lost ts ns H1 H2 H3) as H. apply (f_equal (filter data)) in H.
  assert (E : forall l, filter data (filter kept l) = filter data l).
  { intros l. induction l as [|t l IH]; [reflexivity|]. cbn [filter].
    assert (Hd : data t = true -> kept t = true) by (unfold data, kept; destruct (tok_type t); congruence).
    destruct (data t) eqn:Ed; [rewrite (Hd eq_refl)|destruct (kept t)]; cbn [filter]; rewrite ?Ed, IH; reflexivity. }
  rewrite !E in H. exact H.
Qed.
Print Assumptions C76_identifiers_and_literals.

(** Every token of another type is missing from some AST without errors. *)
Definition c76_tokens := toks
  ["I HAS A x, x HAS A z ITZ ..."; "4"; "I IZ f YR 1 AN YR 2 MKAY";
   "IM IN YR l UPPIN YR i TIL x"; "VISIBLE i"; "IM OUTTA YR l";
   "IM IN YR m UPPIN YR i WILE x"; "VISIBLE i"; "IM OUTTA YR m";
   "O RLY?"; "YA RLY"; "VISIBLE 5"; "OIC";
   "HOW IZ I f YR a AN YR b"; "GTFO"; "IF U SAY SO"].
Definition c76_nodes := nodes_of (parse c76_tokens).
Definition lost (ts us : list token) : list token :=
  filter (fun u => forallb (fun v => negb (bytes (r_start (tok_range v)) =? bytes (r_start (tok_range u)))%Z) us) ts.
Lemma lost_in ts us ty : In ty (map tok_type (lost ts us)) -> exists u, In u ts /\ tok_type u = ty /\ ~ In u us.
Proof.
  intros H. apply in_map_iff in H as (u & Eu & Hu). exists u. apply filter_In in Hu as [Hu Hn]. repeat split; [exact Hu|exact Eu|].
  intros Hi. rewrite forallb_forall in Hn. specialize (Hn u Hi). rewrite Z.eqb_refl in Hn. discriminate Hn.
Qed.
Lemma no_empty (ls : list (list token)) : forallb (fun l => match l with [] => false | _ => true end) ls = true -> Forall (fun l => l <> []) ls.
Proof.
  intros H. apply Forall_forall. intros l Hl. rewrite forallb_forall in H. specialize (H l Hl). destruct l; [discriminate H|congruence].
Qed.
Ltac find_it := solve [repeat ((left; reflexivity) || right)].
Theorem C76_the_other_types_can_be_lost ty : (forall r, kept {| tok_type := ty; tok_range := r |} = false) ->
  parse c76_tokens = ParseOk (ASTBlock c76_nodes) /\ forallb node_clean c76_nodes = true /\
  Forall (fun l => l <> []) (logical_lines c76_tokens) /\
  exists u, In u c76_tokens /\ tok_type u = ty /\ ~ In u (block_tokens (ASTBlock c76_nodes)).
Proof.
  intros Hk. split; [vm_compute; reflexivity|]. split; [vm_compute; reflexivity|]. split.
  { apply no_empty. vm_compute. reflexivity. }
  assert (Hty : In ty (map tok_type (lost c76_tokens (block_tokens (ASTBlock c76_nodes))))).
  { specialize (Hk {| r_start := position_start; r_end := position_start |}). unfold kept in Hk. cbn [tok_type] in Hk.
    set (l := map tok_type (lost c76_tokens (block_tokens (ASTBlock c76_nodes)))). vm_compute in l. subst l.
    destruct ty as [|k|x| | | | | | | |]; try discriminate Hk; [destruct k; try discriminate Hk| | |]; try find_it.
    destruct (list_eq_dec N.eq_dec x (lit "?")) as [->|]; [find_it|discriminate Hk]. }
  exact (lost_in _ _ _ Hty).
Qed.
Print Assumptions C76_the_other_types_can_be_lost.

(** An AST with errors can lose operands, and whole lines. *)
Definition loses (ts : list token) (ty : token_type) : Prop := exists ns e, parse ts = ParseOk (ASTBlock ns) /\
  block_errors (ASTBlock ns) = [e] /\ Forall (fun l => l <> []) (logical_lines ts) /\
  (forall r, kept {| tok_type := ty; tok_range := r |} = true) /\
  exists u, In u ts /\ tok_type u = ty /\ ~ In u (block_tokens (ASTBlock ns)).
Theorem C76_with_errors_refuted :
  loses (toks ["SUM OF 1 AN"]) (TValue (VNumber (Int 1))) /\
  loses (toks ["IM IN YR loop"; "VISIBLE 5"; "GIMMEH x"]) (TIdentifier (lit "x")).
Proof.
  split; (do 2 eexists; split; [vm_compute; reflexivity|]; split; [vm_compute; reflexivity|]; split;
    [apply no_empty; vm_compute; reflexivity|]; split; [reflexivity|]; apply lost_in; vm_compute; tauto).
Qed.
Print Assumptions C76_with_errors_refuted.

Example C76_case : length (block_tokens (ASTBlock c76_nodes)) = 34 /\ length c76_tokens = 54 /\
  map tok_type (firstn 9 (filter kept (block_tokens (ASTBlock c76_nodes)))) =
    [TKeyword I_HAS_A; TIdentifier (lit "x"); TIdentifier (lit "x"); TIdentifier (lit "z"); TValue (VNumber (Int 4));
     TKeyword I_IZ; TIdentifier (lit "f"); TValue (VNumber (Int 1)); TValue (VNumber (Int 2))].
Proof. vm_compute. repeat split. Qed.
