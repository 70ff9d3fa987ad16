(** From [ProgTrace] to [parse], the converse of the panics, and the inner
    blocks of nodes. *)
From Coq Require Import Lia.
From Verif Require Import Lines LinesSim ParseFuel Grammar ExprGrammar LineGrammar NodeKind LineTrace ProgTrace
  Free ParserProps.

Lemma subseq_filter {A} (f : A -> bool) l : Subseq (filter f l) l.
Proof. induction l as [|x l IH]; cbn; [constructor|]. destruct (f x); constructor; assumption. Qed.
Lemma subseq_concat {A} (f g : list A -> list A) ls : (forall l, Subseq (f l) (g l)) ->
  Subseq (concat (map f ls)) (concat (map g ls)).
Proof. intros H. induction ls as [|l ls IH]; cbn; [constructor|]. apply subseq_app; auto. Qed.
Lemma subseq_drop {A} (f : list A -> bool) ls : Subseq (concat (filter f ls)) (concat ls).
Proof.
  induction ls as [|l ls IH]; cbn; [constructor|]. destruct (f l); cbn.
  - apply subseq_app_same. exact IH.
  - apply subseq_skip_app. exact IH.
Qed.
Lemma statements_subseq ts : Subseq (concat (statements ts)) ts.
Proof.
  rewrite <- (chunks_concat ts) at 2. unfold statements. eapply subseq_trans; [|apply subseq_drop].
  rewrite <- (map_id (filter _ (chunks ts))) at 2. apply subseq_concat. apply subseq_filter.
Qed.
Lemma lines_subseq ts : Subseq (concat (logical_lines ts)) ts.
Proof.
  pose proof (statements_subseq ts) as H. unfold logical_lines. destruct ts as [|t ts]; [constructor|].
  destruct (is_comma t); exact H.
Qed.

Theorem parse_subseq ts b : parse ts = ParseOk b -> Subseq (block_tokens b) ts.
Proof.
  rewrite parse_logical_lines. unfold parse_logical. intros H.
  pose proof (root_ok (logical_lines ts) (lsum (logical_lines ts) + 4)) as R. rewrite H in R.
  eapply subseq_trans; [apply R|apply lines_subseq].
Qed.
Theorem parse_nodes ts b : parse ts = ParseOk b -> Forall (ok_one (logical_lines ts)) (block_all b).
Proof.
  rewrite parse_logical_lines. unfold parse_logical. intros H.
  pose proof (root_ok (logical_lines ts) (lsum (logical_lines ts) + 4)) as R. rewrite H in R. apply R.
Qed.
Lemma in_lines ts t : In t (concat (logical_lines ts)) -> In t ts.
Proof. apply (subseq_incl _ _ (lines_subseq ts)). Qed.
Theorem parse_panics ts c : parse ts = ParsePanic c ->
  match c with
  | PanicMaek t => kw MAEK t /\ In t ts
  | PanicUnreachable v u =>
    exists vs rest, In (vs ++ u :: rest) (logical_lines ts) /\ d_va vs v /\ ~ kw R u /\ ~ kw HAS_A u
  end.
Proof.
  rewrite parse_logical_lines. unfold parse_logical. intros H.
  pose proof (root_ok (logical_lines ts) (lsum (logical_lines ts) + 4)) as P. rewrite H in P.
  destruct c; [|exact P]. destruct P as [P1 P2]. split; [exact P1|apply in_lines; exact P2].
Qed.

Theorem parse_errors ts b l : parse ts = ParseOk b -> In (TooManyTokens l) (block_errors b) ->
  l <> [] /\ exists p, In (p ++ l) (logical_lines ts).
Proof.
  intros H Hin. apply parse_nodes in H. unfold block_errors in Hin. apply in_flat_map in Hin as (n & Hn & He).
  rewrite Forall_forall in H. specialize (H n Hn). destruct n; cbn in He; try contradiction; destruct He as [He|[]]; subst. exact H.
Qed.
Theorem parse_announced ts b n : parse ts = ParseOk b -> In n (block_all b) ->
  (exists e, n = NASTError e) \/ exists t c, In (t :: c) (logical_lines ts) /\ announced (logical_lines ts) t n.
Proof.
  intros H Hin. apply parse_nodes in H. rewrite Forall_forall in H. specialize (H n Hin).
  destruct n; try (right; exact H). left. eauto.
Qed.

(** ** Vectors that do not panic, and vectors that do *)
Theorem no_panic ts :
  (forall t, In t ts -> ~ kw MAEK t /\ ~ ident_tok t /\ ~ kw SRS t) -> exists b, parse ts = ParseOk b.
Proof.
  intros H. pose proof (parse_terminates ts) as HT. destruct (parse ts) as [b|c|] eqn:E; [eauto| |contradiction].
  exfalso. apply parse_panics in E. destruct c as [t|v u].
  - destruct E as [E1 E2]. exact (proj1 (H t E2) E1).
  - destruct E as (vs & rest & E1 & E2 & _). destruct (d_va_first _ _ E2) as (t & us & -> & Ht).
    assert (Hin : In t ts). { apply in_lines, in_concat. eexists. split; [exact E1|left; reflexivity]. }
    destruct (H t Hin) as (_ & H1 & H2). tauto.
Qed.

Theorem line_panics vs v u rest ls : d_va vs v -> ~ slot_tok u -> ~ kw R u -> ~ kw HAS_A u ->
  parse_logical ((vs ++ u :: rest) :: ls) = ParsePanic (PanicUnreachable v u).
Proof.
  intros Hd Hs HR HA. destruct (d_va_first _ _ Hd) as (t & us & -> & Ht). cbn [app].
  rewrite parse_logical_unfold. rewrite (stmt_unfold (sz (us ++ u :: rest, ls) + 2)) by lia.
  rewrite (proj2 (va_valid_iff t) Ht). unfold va_statement. unfold bind at 1.
  rewrite (va_complete _ _ Hd t us _ (u :: rest) ls eq_refl).
  - unfold bind, peek, l_peek. rewrite (proj2 (is_kw_false R u) HR), (proj2 (is_kw_false HAS_A u) HA). reflexivity.
  - unfold sz, lsum. cbn [fst snd length]. rewrite app_length. cbn [length]. lia.
  - apply cons_no_slot. exact Hs.
Qed.
Theorem maek_panics t c ls : kw MAEK t -> parse_logical ((t :: c) :: ls) = ParsePanic (PanicMaek t).
Proof.
  intros Hk. rewrite parse_logical_unfold. rewrite (stmt_unfold (S (sz (c, ls) + 2))) by lia.
  rewrite (not_valid_kw MAEK t Hk) by discriminate. rewrite Hk. unfold as_node, bind. cbn [expr_parse]. rewrite Hk.
  reflexivity.
Qed.

(** ** Inner blocks *)
From Verif Require Import Blocks.
Theorem inner_blocks n :
  flat_map block_all (match get_inner_block n with Some bs => bs | None => [] end) = tl (node_all n).
Proof.
  assert (HM : forall A (f : A -> block) l, flat_map block_all (map f l) = flat_map (fun x => block_all (f x)) l).
  { intros A f l. induction l as [|x l IH]; cbn; congruence. }
  destruct n; try reflexivity; destruct x; cbn [get_inner_block node_all tl].
  - cbn [flat_map]. apply app_nil_r.
  - rewrite flat_map_app, HM. f_equal.
    + apply flat_map_ext. intros []. reflexivity.
    + destruct omg_wtf as [[]|]; [cbn [flat_map]; apply app_nil_r|reflexivity].
  - rewrite !flat_map_app, HM. f_equal; [|f_equal].
    + destruct if_true as [[]|]; [cbn [flat_map]; apply app_nil_r|reflexivity].
    + apply flat_map_ext. intros []. reflexivity.
    + destruct if_false as [[]|]; [cbn [flat_map]; apply app_nil_r|reflexivity].
  - cbn [flat_map]. apply app_nil_r.
Qed.

(** What the enumeration of errors looks for: errors, and statements with blocks. *)
Inductive descends : node -> error_or_block -> Prop :=
| descends_error e : descends (NASTError e) (EBError e)
| descends_wtf t omg omg_wtf bs : get_inner_block (NWtf (Wtf t omg omg_wtf)) = Some bs -> descends (NWtf (Wtf t omg omg_wtf)) (EBBlock bs)
| descends_orly t a b c bs : get_inner_block (NORly (ORly t a b c)) = Some bs -> descends (NORly (ORly t a b c)) (EBBlock bs)
| descends_loop t l i c b e : descends (NImInYr (ImInYr t l i c b e)) (EBBlock [b])
| descends_function t n a b : descends (NHowIzI (HowIzI t n a b)) (EBBlock [b]).
Lemma descends_iff n x : descends n x <-> error_or_block_of n = Some x.
Proof.
  split.
  - intros []; try reflexivity; unfold error_or_block_of; rewrite H; reflexivity.
  - unfold error_or_block_of. destruct n; cbn [get_inner_block]; try discriminate.
    all: try (intros E; injection E as <-; constructor; reflexivity).
    all: match goal with |- context [descends (_ ?y) _] => destruct y end; intros E; injection E as <-; constructor; reflexivity.
Qed.
Lemma find_in_nodes_spec ns : forall k,
  (exists pre n post x, ns = pre ++ n :: post /\ Forall (fun m => ~ exists y, descends m y) pre /\ descends n x /\
     find_in_nodes ns k = (Some x, S (k + length pre))) \/
  (Forall (fun m => ~ exists y, descends m y) ns /\ find_in_nodes ns k = (None, k + length ns)).
Proof.
  induction ns as [|n ns IH]; intros k; cbn [find_in_nodes].
  - right. split; [constructor|]. rewrite Nat.add_0_r. reflexivity.
  - destruct (error_or_block_of n) as [x|] eqn:E.
    + left. exists [], n, ns, x. split; [reflexivity|]. split; [constructor|]. split; [apply descends_iff, E|]. cbn. rewrite Nat.add_0_r. reflexivity.
    + assert (N : ~ exists y, descends n y) by (intros (y & Y); apply descends_iff in Y; congruence).
      destruct (IH (S k)) as [(pre & m & post & x & -> & H1 & H2 & H3)|[H1 H2]].
      * left. exists (n :: pre), m, post, x. split; [reflexivity|]. split; [constructor; assumption|]. split; [exact H2|].
        rewrite H3. cbn [length]. do 2 f_equal. lia.
      * right. split; [constructor; assumption|]. rewrite H2. cbn [length]. f_equal. lia.
Qed.
Theorem search_spec ns :
  (exists pre n post x, ns = pre ++ n :: post /\ Forall (fun m => ~ exists y, descends m y) pre /\ descends n x /\
     error_iter_search (iter_errors (ASTBlock ns)) = (Some x, mkErrorIter [ASTBlock ns] 0 (S (length pre)))) \/
  (Forall (fun m => ~ exists y, descends m y) ns /\
     error_iter_search (iter_errors (ASTBlock ns)) = (None, mkErrorIter [ASTBlock ns] 1 (length ns))).
Proof.
  unfold error_iter_search. cbn [iter_errors ei_blocks ei_block_index ei_statement_index skipn find_in_blocks].
  destruct (find_in_nodes_spec ns 0) as [(pre & n & post & x & E & H1 & H2 & H3)|[H1 H2]].
  - left. exists pre, n, post, x. rewrite H3. auto.
  - right. rewrite H2. auto.
Qed.
