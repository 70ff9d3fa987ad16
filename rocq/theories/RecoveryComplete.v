(** Every result of the specification [Recovery] is the result of the parser. *)
From Coq Require Import Lia.
From Verif Require Import Lines ParseFuel Free Grammar ExprGrammar LineGrammar ProgGrammar ProgComplete Failure
  FailureSound FailureComplete Reads Recovery RecoverySound.

(** The parser's result for an outcome. *)
Definition as_res {A} (o : out A) : res lstate A :=
  match o with
  | Done a p => ROk a p
  | Err e p => RErr e p
  | Crash c => RPanic c
  end.

Lemma as_failed {A} x ls : as_res (A := A) (failed x ls) = fres x ls.
Proof. destruct x; reflexivity. Qed.
Lemma bind_aborts {A B} (m : lstate -> res lstate A) (k : A -> lstate -> res lstate B) s o o' :
  m s = as_res o -> aborts o o' -> bind m k s = as_res o'.
Proof. unfold bind. intros -> H. destruct H; reflexivity. Qed.
Lemma as_node_aborts {A} (g : A -> node) (m : lstate -> res lstate A) s o o' :
  m s = as_res o -> aborts o o' -> as_node g m s = as_res o'.
Proof. apply bind_aborts. Qed.
Lemma as_node_failed {A} (g : A -> node) (m : lstate -> res lstate A) s x ls :
  m s = fres x ls -> as_node g m s = as_res (failed x ls).
Proof. intros H. rewrite as_failed. apply bind_fres. exact H. Qed.
Lemma as_node_done {A} (g : A -> node) (m : lstate -> res lstate A) s a s1 :
  m s = ROk a s1 -> as_node g m s = ROk (g a) s1.
Proof. intros H. unfold as_node, bind. rewrite H. reflexivity. Qed.
Lemma as_node_err {A} (g : A -> node) (m : lstate -> res lstate A) s e s1 :
  m s = RErr e s1 -> as_node g m s = RErr e s1.
Proof. intros H. unfold as_node, bind. rewrite H. reflexivity. Qed.
Lemma as_node_crash {A} (g : A -> node) (m : lstate -> res lstate A) s c :
  m s = RPanic c -> as_node g m s = RPanic c.
Proof. intros H. unfold as_node, bind. rewrite H. reflexivity. Qed.
Lemma bind_err {A B} (m : lstate -> res lstate A) (k : A -> lstate -> res lstate B) s e s1 :
  m s = RErr e s1 -> bind m k s = RErr e s1.
Proof. unfold bind. intros ->. reflexivity. Qed.
Lemma bind_crash {A B} (m : lstate -> res lstate A) (k : A -> lstate -> res lstate B) s c :
  m s = RPanic c -> bind m k s = RPanic c.
Proof. unfold bind. intros ->. reflexivity. Qed.

Lemma junk_step {B} (k : unit -> lstate -> res lstate B) x r ls :
  bind (next_statement_should_be_empty l_next_statement) k (x :: r, ls) = RErr (TooManyTokens (x :: r)) (line_of ls).
Proof. reflexivity. Qed.

Lemma next_if_none_at p f c ls : (forall t, f t = true <-> p t) -> ~ begins p c ->
  next_if l_next l_peek f (c, ls) = ROk None (c, ls).
Proof.
  intros Hf Hn. apply next_if_no. intros t c' ->. destruct (f t) eqn:E; [|reflexivity].
  destruct Hn. exists t, c'. split; [reflexivity|]. apply Hf. exact E.
Qed.
Lemma next_if_kw_none w c ls : ~ begins (kw w) c -> next_if l_next l_peek (is_kw w) (c, ls) = ROk None (c, ls).
Proof. apply next_if_none_at. intros t. apply is_kw_iff. Qed.

(** ** Headers of loops *)
Lemma step_token t : loop_operation_token (if is_kw UPPIN t then LUppin t else LNerfin t) = t.
Proof. destruct (is_kw UPPIN t); reflexivity. Qed.

Lemma iteration_x l x : x_iteration l x -> forall f ls, length l <= f ->
  iteration_operation_parse l_next l_peek f (l, ls) = fres x ls.
Proof.
  intros H f ls Hf. unfold iteration_operation_parse. destruct H as [t Ht|t u r Ht Hu|t yr Ht Hy|t yr l x Ht Hy Hx];
    erewrite bind_eq by (apply next_if_yes; apply is_step_iff; exact Ht); cbv beta iota zeta; rewrite ?step_token.
  - bnone. reflexivity.
  - bnext. rewrite (proj2 (is_kw_false YR u) Hu). reflexivity.
  - bnext. rewrite (kw_eval _ _ Hy). bnone. reflexivity.
  - bnext. rewrite (kw_eval _ _ Hy). destruct (x_va_nonnil _ _ Hx) as (w & c & ->). bnext.
    apply bind_fres. eapply va_x; [exact Hx|reflexivity|cbn [length] in *; lia].
Qed.
Lemma iteration_c its it f r ls : d_iteration its it -> length its < f ->
  (its = [] -> ~ begins is_step r) -> ~ (ends_with_identifier its /\ begins slot_tok r) ->
  iteration_operation_parse l_next l_peek f (its ++ r, ls) = ROk it (r, ls).
Proof.
  intros H Hf Hn Hs.
  assert (Hva : forall w u ts v, its = w :: u :: ts -> d_va ts v -> ~ starts_with_slot r).
  { intros w u ts v -> Hv Hr. apply Hs. split; [|apply begins_slot; exact Hr].
    pose proof (d_va_ends _ _ Hv) as He. apply (ends_app [w; u]); [apply ends_nonnil|]; exact He. }
  unfold iteration_operation_parse. destruct H as [|t yr ts v Hk Hyr Hv|t yr ts v Hk Hyr Hv]; cbn [app].
  - erewrite bind_eq by (apply (next_if_none_at is_step); [apply is_step_iff|apply Hn; reflexivity]). reflexivity.
  - specialize (Hva _ _ _ _ eq_refl Hv).
    erewrite bind_eq by (apply next_if_yes; rewrite (kw_eval _ _ Hk); reflexivity). cbv beta iota.
    rewrite (kw_eval _ _ Hk). bnext. rewrite (kw_eval _ _ Hyr).
    destruct (d_va_first _ _ Hv) as (x & xs & -> & _). cbn [app]. bnext.
    erewrite bind_eq by (eapply va_complete; [exact Hv|reflexivity|cbn [length] in *; lia|exact Hva]). reflexivity.
  - specialize (Hva _ _ _ _ eq_refl Hv).
    erewrite bind_eq by (apply next_if_yes; rewrite (kw_eval _ _ Hk); apply Bool.orb_true_r). cbv beta iota.
    rewrite (proj2 (is_kw_false UPPIN t)) by (apply (kw_not _ _ _ Hk); discriminate).
    bnext. rewrite (kw_eval _ _ Hyr).
    destruct (d_va_first _ _ Hv) as (x & xs & -> & _). cbn [app]. bnext.
    erewrite bind_eq by (eapply va_complete; [exact Hv|reflexivity|cbn [length] in *; lia|exact Hva]). reflexivity.
Qed.
Lemma condition_x l x : x_condition l x -> forall f ls, length l <= f ->
  conditional_parse l_next l_peek f (l, ls) = fres x ls.
Proof.
  intros H f ls Hf. unfold conditional_parse. destruct H as [t l x Ht Hx].
  erewrite bind_eq by (apply next_if_yes; apply is_until_iff; exact Ht); cbv beta iota zeta.
  eapply expected_x; [exact Hx|cbn [length] in Hf; lia].
Qed.
Lemma condition_c cs cond f r ls : d_condition cs cond -> length cs < f ->
  (cs = [] -> ~ begins is_until r) -> (open_condition cond -> r = []) ->
  ~ (ends_with_identifier cs /\ begins slot_tok r) ->
  conditional_parse l_next l_peek f (cs ++ r, ls) = ROk cond (r, ls).
Proof.
  intros H Hf Hn Ho Hs.
  assert (Hfit : forall w o ts e, cs = w :: ts -> d_expr o ts e -> (o = true -> r = []) -> fits o ts r).
  { intros w o ts e -> He Hor. split; [exact Hor|]. intros [H1 H2]. apply Hs. split; [|apply begins_slot; exact H2].
    apply ends_cons; [eapply d_expr_nonnil; exact He|exact H1]. }
  unfold conditional_parse. destruct H as [|t o ts e Hk He|t o ts e Hk He]; cbn [app].
  - erewrite bind_eq by (apply (next_if_none_at is_until); [apply is_until_iff|apply Hn; reflexivity]). reflexivity.
  - specialize (Hfit _ _ _ _ eq_refl He). rewrite (d_expr_open _ _ _ He) in Hfit at 1. specialize (Hfit Ho).
    erewrite bind_eq by (apply next_if_yes; rewrite (kw_eval _ _ Hk); reflexivity). cbv beta iota.
    destruct (d_expr_first _ _ _ He) as (x & xs & E & _). subst ts. cbn [app]. bnext.
    erewrite bind_eq by (eapply expr_complete; [exact He|reflexivity|cbn [length] in *; lia|exact Hfit]).
    rewrite (kw_eval _ _ Hk). reflexivity.
  - specialize (Hfit _ _ _ _ eq_refl He). rewrite (d_expr_open _ _ _ He) in Hfit at 1. specialize (Hfit Ho).
    erewrite bind_eq by (apply next_if_yes; rewrite (kw_eval _ _ Hk); apply Bool.orb_true_r). cbv beta iota.
    destruct (d_expr_first _ _ _ He) as (x & xs & E & _). subst ts. cbn [app]. bnext.
    erewrite bind_eq by (eapply expr_complete; [exact He|reflexivity|cbn [length] in *; lia|exact Hfit]).
    rewrite (proj2 (is_kw_false TIL t)) by (apply (kw_not _ _ _ Hk); discriminate). reflexivity.
Qed.

(** The rest of [im_in_yr_parse] after its first line. *)
Definition loop_rest pb (first_token label : token) on_iteration condition : lstate -> res lstate im_in_yr :=
  (code_block <- block_of (pb stop_loop) ;;
   o2 <- next l_next ;;
   match o2 with
   | None => fail (EImInYr (MissingImOuttaYr first_token))
   | Some im_outta_yr =>
     o3 <- next l_next ;;
     match o3 with
     | None => fail (EImInYr (MissingEndLabel im_outta_yr))
     | Some end_label =>
       if is_identifier end_label then
         ret (ImInYr first_token label on_iteration condition code_block end_label)
       else fail (EImInYr (InvalidEndLabel end_label))
     end
   end)%parser.
Lemma loop_head pb f t c ls label it cond r : loop_header c label it cond r -> length c < f ->
  im_in_yr_parse l_next l_peek l_next_statement pb f t (c, ls) =
  bind (next_statement_should_be_empty l_next_statement) (fun _ => loop_rest pb t label it cond) (r, ls).
Proof.
  intros (its & cs & -> & Hl & Hit & Hcs & H1 & H2 & H3 & H4) Hf. cbn [length] in Hf. rewrite !app_length in Hf.
  unfold im_in_yr_parse. bnext. rewrite (proj2 (is_identifier_iff label) Hl).
  erewrite bind_eq.
  2:{ apply iteration_c; [exact Hit|lia|exact H1|]. intros [Ha Hb]. destruct cs as [|u cs].
      - apply H4. rewrite app_nil_r. auto.
      - destruct Hb as (y & ys & E & Hy). injection E as <- _.
        destruct (d_condition_first _ _ Hcs _ _ eq_refl) as [Hk|Hk]; exact (kw_slot _ _ Hk Hy). }
  erewrite bind_eq.
  2:{ apply condition_c; [exact Hcs|lia|exact H2|exact H3|]. intros [Ha Hb]. apply H4. split; [|exact Hb].
      apply ends_app; [apply ends_nonnil|]; exact Ha. }
  reflexivity.
Qed.
Lemma loop_x pb f t c ls x : x_loop t c x -> length c < f ->
  im_in_yr_parse l_next l_peek l_next_statement pb f t (c, ls) = fres x ls.
Proof.
  intros H Hf. unfold im_in_yr_parse. destruct H as [|u r Hu|u l x Hu Hx|u its it l x Hu Hit Hx].
  - bnone. reflexivity.
  - bnext. destruct (is_identifier u) eqn:E; [|reflexivity]. destruct (Hu (proj1 (is_identifier_iff u) E)).
  - bnext. rewrite (proj2 (is_identifier_iff u) Hu). apply bind_fres. eapply iteration_x; [exact Hx|cbn [length] in Hf; lia].
  - bnext. rewrite (proj2 (is_identifier_iff u) Hu). cbn [length] in Hf. rewrite app_length in Hf.
    assert (Hl : exists w ws, l = w :: ws /\ is_until w) by (destruct Hx; eauto). destruct Hl as (w & ws & -> & Hw).
    erewrite bind_eq.
    2:{ apply iteration_c; [exact Hit|lia|..].
        - intros _ (y & ys & E & Hy). injection E as <- _.
          destruct Hy as [Hy|Hy], Hw as [Hw|Hw]; pose proof (kw_fun _ _ _ Hy Hw); discriminate.
        - intros [_ (y & ys & E & Hy)]. injection E as <- _. destruct Hw as [Hw|Hw]; exact (kw_slot _ _ Hw Hy). }
    apply bind_fres. eapply condition_x; [exact Hx|cbn [length] in *; lia].
Qed.

(** ** Headers of functions *)
Lemma params_x l x : x_params l x -> forall f ls, length l < f ->
  how_iz_i_loop l_next l_peek f (l, ls) = fres x ls.
Proof.
  induction 1 as [yr Hy|yr l x Hy Hx|yr ts i an l x Hy Hi Ha Hx IH]; intros [|f] ls Hf; try (cbn in Hf; lia);
    cbn [how_iz_i_loop]; erewrite bind_eq by (apply next_if_yes, is_kw_iff; assumption); cbv beta iota.
  - bnone. reflexivity.
  - destruct (x_identifier_nonnil _ _ Hx) as (t & c & ->). bnext. apply bind_fres. eapply identifier_x; [exact Hx|reflexivity].
  - destruct (d_identifier_first _ _ Hi) as (y & ys & -> & _). cbn [app]. bnext.
    erewrite bind_eq by (eapply identifier_complete; [exact Hi|reflexivity]). cbv beta iota.
    erewrite bind_eq by apply peek_some. cbv beta iota. rewrite (kw_eval _ _ Ha). bnext.
    apply bind_fres. apply IH. cbn [length] in Hf. rewrite app_length in Hf. cbn [length] in Hf. lia.
Qed.
Lemma params_c us is : d_params us is -> forall f r ls, length us < f -> params_stop us r ->
  how_iz_i_loop l_next l_peek f (us ++ r, ls) = ROk is (r, ls).
Proof.
  induction 1 as [|yr ts i Hyr Hi|yr ts i an us is Hyr Hi Han Hp IH]; intros [|f] r ls Hf Hs; try (cbn in Hf; lia);
    cbn [how_iz_i_loop app].
  - erewrite bind_eq by (apply next_if_kw_none; apply Hs; auto). reflexivity.
  - erewrite bind_eq by (apply next_if_yes, is_kw_iff; assumption). cbv beta iota.
    assert (Hr : ~ begins (kw AN) r).
    { apply Hs; [discriminate|]. intros Ha. pose proof (d_identifier_ends _ _ Hi) as He.
      apply (proj1 (ends_an_cons yr ts (ends_nonnil _ He))) in Ha. exact (ends_not_an _ He Ha). }
    destruct (d_identifier_first _ _ Hi) as (x & xs & -> & _). cbn [app]. bnext.
    erewrite bind_eq by (eapply identifier_complete; [exact Hi|reflexivity]). cbv beta iota.
    destruct r as [|u r].
    + erewrite bind_eq by apply peek_none. reflexivity.
    + erewrite bind_eq by apply peek_some. cbv beta iota. destruct (is_kw AN u) eqn:E; [|reflexivity].
      destruct Hr. exists u, r. split; [reflexivity|]. apply is_kw_iff. exact E.
  - erewrite bind_eq by (apply next_if_yes, is_kw_iff; assumption). cbv beta iota.
    cbn [length] in Hf. rewrite app_length in Hf. cbn [length] in Hf. apply (proj1 (params_stop_cons _ _ _ _ _ Han)) in Hs.
    destruct (d_identifier_first _ _ Hi) as (x & xs & -> & _). cbn [app]. rewrite <- app_assoc. bnext.
    erewrite bind_eq by (eapply identifier_complete; [exact Hi|reflexivity]). cbv beta iota. cbn [app].
    erewrite bind_eq by apply peek_some. cbv beta iota. rewrite (kw_eval _ _ Han). bnext.
    erewrite bind_eq by (apply IH; [lia|exact Hs]). reflexivity.
Qed.

(** The rest of [how_iz_i_parse] after its first line. *)
Definition function_rest pb (first_token : token) name arguments : lstate -> res lstate how_iz_i :=
  (body <- block_of (pb stop_function) ;;
   o2 <- next l_next ;;
   match o2 with
   | None => fail (MissingBlockClosingToken first_token)
   | Some t2 =>
     if is_kw IF_U_SAY_SO t2 then
       next_statement_should_be_empty l_next_statement ;;;
       ret (HowIzI first_token name arguments body)
     else fail (UnexpectedToken t2)
   end)%parser.
Lemma function_head pb f t c ls i is r : function_header c i is r -> length c < f ->
  how_iz_i_parse l_next l_peek l_next_statement pb f t (c, ls) =
  bind (next_statement_should_be_empty l_next_statement) (fun _ => function_rest pb t i is) (r, ls).
Proof.
  intros (ts & us & -> & Hi & Hp & H1 & H2) Hf. rewrite !app_length in Hf.
  unfold how_iz_i_parse. destruct (d_identifier_first _ _ Hi) as (x & xs & -> & _). cbn [app]. bnext.
  erewrite bind_eq by (eapply identifier_complete; [exact Hi|reflexivity]). cbv beta iota.
  erewrite bind_eq by (apply params_c; [exact Hp|lia|split; assumption]). reflexivity.
Qed.
Lemma function_x pb f t c ls x : x_function t c x -> length c < f ->
  how_iz_i_parse l_next l_peek l_next_statement pb f t (c, ls) = fres x ls.
Proof.
  intros H Hf. unfold how_iz_i_parse. destruct H as [|l x Hx|ts i l x Hi Hx].
  - bnone. reflexivity.
  - destruct (x_identifier_nonnil _ _ Hx) as (u & c & ->). bnext. apply bind_fres. eapply identifier_x; [exact Hx|reflexivity].
  - rewrite app_length in Hf. destruct (d_identifier_first _ _ Hi) as (y & ys & -> & _). cbn [app]. bnext.
    erewrite bind_eq by (eapply identifier_complete; [exact Hi|reflexivity]). cbv beta iota.
    apply bind_fres. eapply params_x; [exact Hx|lia].
Qed.

Lemma question_x t c ls x : x_question t c x -> question_mark l_next t (c, ls) = fres x ls.
Proof.
  intros H. unfold question_mark. destruct H as [|u r Hu].
  - bnone. reflexivity.
  - bnext. destruct (is_question_symbol u) eqn:E; [|reflexivity]. destruct (Hu (proj1 (is_question_iff u) E)).
Qed.
Lemma closing_c t s o : closing t s o -> oic l_next t s = as_res o.
Proof.
  intros H. unfold oic. destruct H as [ls|u r ls Hu|u r ls Hu].
  - bnone. reflexivity.
  - bnext. rewrite (proj2 (is_kw_false OIC u) Hu). reflexivity.
  - bnext. rewrite (kw_eval _ _ Hu). reflexivity.
Qed.

(** ** Statements and blocks *)
Definition case_of {A : Set} (C : token -> expr -> block -> A) (x : token * expr * list node) : A :=
  let '(a, e, ns) := x in C a e (ASTBlock ns).
Definition section_of {A : Set} (C : token -> block -> A) (x : token * list node) : A :=
  let '(a, ns) := x in C a (ASTBlock ns).

(** [loop] is a loop over cases, as [omg_loop] and [mebbe_loop]. *)
Definition is_cases {A : Set} (w : keyword) (m : token -> ast_error) (k : kind)
           (C : token -> expr -> block -> A) (g : nat) (loop : nat -> lstate -> res lstate (list A)) : Prop :=
  forall f s, loop (S f) s =
  bind (next_if l_next l_peek (is_kw w)) (fun o => match o with
    | None => ret []
    | Some t => bind (next l_next) (fun o2 => match o2 with
       | None => fail (m t)
       | Some u =>
         bind (expr_parse l_next l_peek g u) (fun e =>
         bind (next_statement_should_be_empty l_next_statement) (fun _ =>
         bind (block_of (blk (stop_of k))) (fun b =>
         bind (loop f) (fun rest => ret (C t e b :: rest)))))
       end)
    end) s.

Definition Cstmt (l : list token) (ls : list (list token)) (o : out node) : Prop :=
  forall t c, l = t :: c -> stmt t (c, ls) = as_res o.
Definition Cblock (k : kind) (s : place) (o : out (list node)) : Prop := blk (stop_of k) s = as_res o.
Definition Cmore (k : kind) (ls : list (list token)) (o : out (list node)) : Prop :=
  forall ns r, continue (stop_of k) ns (r, ls) = as_res (omap (app (ns ++ left_over r)) o).
Definition Csection (w : keyword) (k : kind) (s : place) (o : out (option (token * list node))) : Prop :=
  forall (A : Set) (C : token -> block -> A),
    branch (blk (stop_of k)) w C s = as_res (omap (option_map (section_of C)) o).
Definition Ccases (w : keyword) (m : token -> ast_error) (k : kind) (s : place)
           (o : out (list (token * expr * list node))) : Prop :=
  forall (A : Set) (C : token -> expr -> block -> A) loop f g, is_cases w m k C g loop ->
    sz s < f -> sz s < g -> loop f s = as_res (omap (map (case_of C)) o).

Lemma stmt_at_loop t c ls f : kw IM_IN_YR t -> sz (c, ls) + 2 <= f ->
  stmt t (c, ls) = as_node NImInYr (im_in_yr_parse l_next l_peek l_next_statement blk f t) (c, ls).
Proof.
  intros Hk Hf. rewrite (stmt_unfold f) by exact Hf. rewrite (not_valid_kw _ _ Hk) by discriminate.
  unfold kw in Hk. rewrite Hk. reflexivity.
Qed.
Lemma stmt_at_function t c ls f : kw HOW_IZ_I t -> sz (c, ls) + 2 <= f ->
  stmt t (c, ls) = as_node NHowIzI (how_iz_i_parse l_next l_peek l_next_statement blk f t) (c, ls).
Proof.
  intros Hk Hf. rewrite (stmt_unfold f) by exact Hf. rewrite (not_valid_kw _ _ Hk) by discriminate.
  unfold kw in Hk. rewrite Hk. reflexivity.
Qed.
Lemma stmt_at_wtf t c ls f : kw WTF t -> sz (c, ls) + 2 <= f ->
  stmt t (c, ls) = as_node NWtf (wtf_parse l_next l_peek l_next_statement blk f t) (c, ls).
Proof.
  intros Hk Hf. rewrite (stmt_unfold f) by exact Hf. rewrite (not_valid_kw _ _ Hk) by discriminate.
  unfold kw in Hk. rewrite Hk. reflexivity.
Qed.
Lemma stmt_at_o_rly t c ls f : kw O_RLY t -> sz (c, ls) + 2 <= f ->
  stmt t (c, ls) = as_node NORly (o_rly_parse l_next l_peek l_next_statement blk f t) (c, ls).
Proof.
  intros Hk Hf. rewrite (stmt_unfold f) by exact Hf. rewrite (not_valid_kw _ _ Hk) by discriminate.
  unfold kw in Hk. rewrite Hk. reflexivity.
Qed.

Lemma sz_length c ls : length c <= sz (c, ls).
Proof. unfold sz. cbn [fst]. lia. Qed.
Lemma sz_line c ls : sz (line_of ls) + length c = sz (c, ls).
Proof. apply sz_statement. Qed.
Lemma blk_sz k s ns p : blk (stop_of k) s = ROk ns p -> sz p <= sz s.
Proof. intros H. pose proof (blk_fin (stop_of k) s) as Hf. rewrite H in Hf. exact Hf. Qed.
Lemma branch_sz {A : Set} k w (C : token -> block -> A) s d p :
  branch (blk (stop_of k)) w C s = ROk d p -> sz p <= sz s.
Proof.
  intros H. destruct s as [c ls]. unfold branch in H. inv_next_if H.
  - inv_empty H. inv_bind H. inv_ret H. unfold block_of in Hm. inv_bind Hm. inv_ret Hm. apply blk_sz in Hm0.
    pose proof (sz_line [t] ls). change (l_start ls) with (line_of ls) in Hm0. cbn [length] in *. lia.
  - inv_ret H. lia.
Qed.

Lemma omg_is_cases g : is_cases OMG MissingToken SwitchBody WtfOmg g
  (omg_loop l_next l_peek l_next_statement blk (expr_parse l_next l_peek g)).
Proof. intros f s. reflexivity. Qed.
Lemma mebbe_is_cases g : is_cases MEBBE (fun m => EORly (MissingMebbeExpression m)) IfBody Mebbe g
  (mebbe_loop l_next l_peek l_next_statement blk (expr_parse l_next l_peek g)).
Proof. intros f s. reflexivity. Qed.

Lemma omg_c s o f : Ccases OMG MissingToken SwitchBody s o -> sz s < f ->
  omg_loop l_next l_peek l_next_statement blk (expr_parse l_next l_peek f) f s = as_res (omap (map (case_of WtfOmg)) o).
Proof. intros H Hf. exact (H _ _ _ _ _ (omg_is_cases f) Hf Hf). Qed.
Lemma mebbe_c s o f : Ccases MEBBE (fun m => EORly (MissingMebbeExpression m)) IfBody s o -> sz s < f ->
  mebbe_loop l_next l_peek l_next_statement blk (expr_parse l_next l_peek f) f s = as_res (omap (map (case_of Mebbe)) o).
Proof. intros H Hf. exact (H _ _ _ _ _ (mebbe_is_cases f) Hf Hf). Qed.

Lemma aborts_of {A A' B} (g : A -> A') (o : out A) (o' : out B) : aborts o o' -> aborts (omap g o) o'.
Proof. intros H. destruct H; constructor. Qed.
Lemma bind_assoc_aborts {A B D} (m : lstate -> res lstate A) (g : A -> lstate -> res lstate B)
      (h : B -> lstate -> res lstate D) s o o' :
  bind m g s = as_res o -> aborts o o' -> bind m (fun a => bind (g a) h) s = as_res o'.
Proof.
  unfold bind. intros H Ha. destruct Ha; cbn [as_res] in *;
    destruct (m s) as [a s1| | |]; try discriminate; try (inversion H; subst; reflexivity);
    destruct (g a s1) as [b s2| | |]; try discriminate; inversion H; reflexivity.
Qed.

Lemma complete_mut :
  (forall l ls o, r_stmt l ls o -> Cstmt l ls o) /\ (forall k s o, r_block k s o -> Cblock k s o) /\
  (forall k ls o, r_more k ls o -> Cmore k ls o) /\ (forall w k s o, r_section w k s o -> Csection w k s o) /\
  (forall w m k s o, r_cases w m k s o -> Ccases w m k s o).
Proof.
  apply r_mut.
  - (* a line that can be read *)
    intros l ls n r Hr t c E. subst l. rewrite <- (stmt_eq (sz (c, ls) + 4)) by lia.
    eapply single_reads_complete; [exact Hr|reflexivity|]. pose proof (sz_length c ls). cbn [length]. lia.
  - intros l ls x Hx t c E. subst l. rewrite <- (stmt_eq (sz (c, ls) + 4)) by lia. rewrite as_failed.
    eapply single_x; [exact Hx|reflexivity|]. pose proof (sz_length c ls). cbn [length]. lia.
  - intros t v ls Hk t' c E. injection E as <- <-. rewrite (stmt_unfold (sz (v, ls) + 2)) by lia.
    rewrite (not_valid_kw _ _ Hk) by discriminate. unfold kw in Hk. rewrite Hk. reflexivity.
  - (* loops *)
    intros t c ls x Hk Hx t' c' E. injection E as <- <-. rewrite (stmt_at_loop t c ls (sz (c, ls) + 2)) by (assumption || lia).
    apply as_node_failed. apply loop_x; [exact Hx|]. pose proof (sz_length c ls). lia.
  - intros t c ls label it cond x r Hk HH t' c' E. injection E as <- <-.
    rewrite (stmt_at_loop t c ls (sz (c, ls) + 2)) by (assumption || lia). apply as_node_err.
    erewrite loop_head by (first [exact HH|pose proof (sz_length c ls); lia]). reflexivity.
  - intros t c ls label it cond p Hk HH _ IH t' c' E. injection E as <- <-.
    rewrite (stmt_at_loop t c ls (sz (c, ls) + 2)) by (assumption || lia). apply as_node_crash.
    erewrite loop_head by (first [exact HH|pose proof (sz_length c ls); lia]). rewrite empty_step.
    unfold loop_rest. apply bind_crash. apply bind_crash. exact IH.
  - intros t c ls label it cond ns ls' Hk HH _ IH t' c' E. injection E as <- <-.
    rewrite (stmt_at_loop t c ls (sz (c, ls) + 2)) by (assumption || lia). apply as_node_err.
    erewrite loop_head by (first [exact HH|pose proof (sz_length c ls); lia]). rewrite empty_step.
    unfold loop_rest. erewrite bind_eq by (apply block_of_step; exact IH). bnone. reflexivity.
  - intros t c ls label it cond ns imo ls' Hk HH _ IH t' c' E. injection E as <- <-.
    rewrite (stmt_at_loop t c ls (sz (c, ls) + 2)) by (assumption || lia). apply as_node_err.
    erewrite loop_head by (first [exact HH|pose proof (sz_length c ls); lia]). rewrite empty_step.
    unfold loop_rest. erewrite bind_eq by (apply block_of_step; exact IH). bnext. bnone. reflexivity.
  - intros t c ls label it cond ns imo e r ls' Hk HH _ IH He t' c' E. injection E as <- <-.
    rewrite (stmt_at_loop t c ls (sz (c, ls) + 2)) by (assumption || lia). apply as_node_err.
    erewrite loop_head by (first [exact HH|pose proof (sz_length c ls); lia]). rewrite empty_step.
    unfold loop_rest. erewrite bind_eq by (apply block_of_step; exact IH). bnext. bnext.
    destruct (is_identifier e) eqn:Ee; [|reflexivity]. destruct (He (proj1 (is_identifier_iff e) Ee)).
  - intros t c ls label it cond ns imo e r ls' Hk HH _ IH He t' c' E. injection E as <- <-.
    rewrite (stmt_at_loop t c ls (sz (c, ls) + 2)) by (assumption || lia). apply as_node_done.
    erewrite loop_head by (first [exact HH|pose proof (sz_length c ls); lia]). rewrite empty_step.
    unfold loop_rest. erewrite bind_eq by (apply block_of_step; exact IH). bnext. bnext.
    rewrite (proj2 (is_identifier_iff e) He). reflexivity.
  - (* functions *)
    intros t c ls x Hk Hx t' c' E. injection E as <- <-. rewrite (stmt_at_function t c ls (sz (c, ls) + 2)) by (assumption || lia).
    apply as_node_failed. apply function_x; [exact Hx|]. pose proof (sz_length c ls). lia.
  - intros t c ls i is x r Hk HH t' c' E. injection E as <- <-.
    rewrite (stmt_at_function t c ls (sz (c, ls) + 2)) by (assumption || lia). apply as_node_err.
    erewrite function_head by (first [exact HH|pose proof (sz_length c ls); lia]). reflexivity.
  - intros t c ls i is p Hk HH _ IH t' c' E. injection E as <- <-.
    rewrite (stmt_at_function t c ls (sz (c, ls) + 2)) by (assumption || lia). apply as_node_crash.
    erewrite function_head by (first [exact HH|pose proof (sz_length c ls); lia]). rewrite empty_step.
    unfold function_rest. apply bind_crash. apply bind_crash. exact IH.
  - intros t c ls i is ns ls' Hk HH _ IH t' c' E. injection E as <- <-.
    rewrite (stmt_at_function t c ls (sz (c, ls) + 2)) by (assumption || lia). apply as_node_err.
    erewrite function_head by (first [exact HH|pose proof (sz_length c ls); lia]). rewrite empty_step.
    unfold function_rest. erewrite bind_eq by (apply block_of_step; exact IH). bnone. reflexivity.
  - intros t c ls i is ns e x r ls' Hk HH HB IH t' c' E. injection E as <- <-.
    rewrite (stmt_at_function t c ls (sz (c, ls) + 2)) by (assumption || lia). apply as_node_err.
    erewrite function_head by (first [exact HH|pose proof (sz_length c ls); lia]). rewrite empty_step.
    unfold function_rest. erewrite bind_eq by (apply block_of_step; exact IH). bnext.
    rewrite (kw_eval _ _ (block_end_kw _ _ _ _ _ _ HB)). reflexivity.
  - intros t c ls i is ns e ls' Hk HH HB IH t' c' E. injection E as <- <-.
    rewrite (stmt_at_function t c ls (sz (c, ls) + 2)) by (assumption || lia). apply as_node_done.
    erewrite function_head by (first [exact HH|pose proof (sz_length c ls); lia]). rewrite empty_step.
    unfold function_rest. erewrite bind_eq by (apply block_of_step; exact IH). bnext.
    rewrite (kw_eval _ _ (block_end_kw _ _ _ _ _ _ HB)). reflexivity.
  - (* WTF? *)
    intros t c ls x Hk Hx t' c' E. injection E as <- <-. rewrite (stmt_at_wtf t c ls (sz (c, ls) + 2)) by (assumption || lia).
    apply as_node_failed. apply bind_fres. apply question_x. exact Hx.
  - intros t q x r ls Hk Hq t' c' E. injection E as <- <-.
    rewrite (stmt_at_wtf t _ ls (sz (q :: x :: r, ls) + 2)) by (assumption || lia).
    apply as_node_err. unfold wtf_parse. erewrite bind_eq by (apply question_step; exact Hq). reflexivity.
  - intros t q ls o o' Hk Hq _ IH Ha t' c' E. injection E as <- <-.
    rewrite (stmt_at_wtf t _ ls (sz ([q], ls) + 2)) by (assumption || lia).
    apply as_node_aborts with (o := omap (fun _ => Wtf t [] None) o); [|apply aborts_of; exact Ha].
    unfold wtf_parse. erewrite bind_eq by (apply question_step; exact Hq). rewrite empty_step.
    pose proof (sz_line [q] ls). cbn [length] in *. change (l_start ls) with (line_of ls) in *.
    eapply bind_aborts; [apply omg_c; [exact IH|lia]|]. destruct Ha; constructor.
  - intros t q ls omgs p o o' Hk Hq _ IH1 _ IH2 Ha t' c' E. injection E as <- <-.
    rewrite (stmt_at_wtf t _ ls (sz ([q], ls) + 2)) by (assumption || lia).
    apply as_node_aborts with (o := omap (fun _ => Wtf t [] None) o); [|apply aborts_of; exact Ha].
    unfold wtf_parse. erewrite bind_eq by (apply question_step; exact Hq). rewrite empty_step.
    pose proof (sz_line [q] ls). cbn [length] in *. change (l_start ls) with (line_of ls) in *.
    erewrite bind_eq by (apply (omg_c _ _ _ IH1); lia). cbv beta.
    eapply bind_assoc_aborts; [exact (IH2 _ WtfOmgWtf)|]. destruct Ha; constructor.
  - intros t q ls omgs p d p' o o' Hk Hq _ IH1 _ IH2 Hc Ha t' c' E. injection E as <- <-.
    rewrite (stmt_at_wtf t _ ls (sz ([q], ls) + 2)) by (assumption || lia).
    apply as_node_aborts with (o := omap (fun _ => Wtf t [] None) o); [|apply aborts_of; exact Ha].
    unfold wtf_parse. erewrite bind_eq by (apply question_step; exact Hq). rewrite empty_step.
    pose proof (sz_line [q] ls). cbn [length] in *. change (l_start ls) with (line_of ls) in *.
    erewrite bind_eq by (apply (omg_c _ _ _ IH1); lia). cbv beta.
    erewrite bind_assoc_eq by (exact (IH2 _ WtfOmgWtf)).
    eapply bind_aborts; [apply closing_c; exact Hc|]. destruct Ha; constructor.
  - intros t q ls omgs p d p' x r ls' Hk Hq _ IH1 _ IH2 Hc t' c' E. injection E as <- <-.
    rewrite (stmt_at_wtf t _ ls (sz ([q], ls) + 2)) by (assumption || lia). apply as_node_err.
    unfold wtf_parse. erewrite bind_eq by (apply question_step; exact Hq). rewrite empty_step.
    pose proof (sz_line [q] ls). cbn [length] in *. change (l_start ls) with (line_of ls) in *.
    erewrite bind_eq by (apply (omg_c _ _ _ IH1); lia). cbv beta.
    erewrite bind_assoc_eq by (exact (IH2 _ WtfOmgWtf)).
    erewrite bind_eq by (exact (closing_c _ _ _ Hc)). reflexivity.
  - intros t q ls omgs p d p' ls' Hk Hq _ IH1 _ IH2 Hc t' c' E. injection E as <- <-.
    rewrite (stmt_at_wtf t _ ls (sz ([q], ls) + 2)) by (assumption || lia). apply as_node_done.
    unfold wtf_parse. erewrite bind_eq by (apply question_step; exact Hq). rewrite empty_step.
    pose proof (sz_line [q] ls). cbn [length] in *. change (l_start ls) with (line_of ls) in *.
    erewrite bind_eq by (apply (omg_c _ _ _ IH1); lia). cbv beta.
    erewrite bind_assoc_eq by (exact (IH2 _ WtfOmgWtf)).
    erewrite bind_eq by (exact (closing_c _ _ _ Hc)). reflexivity.
  - (* O RLY? *)
    intros t c ls x Hk Hx t' c' E. injection E as <- <-. rewrite (stmt_at_o_rly t c ls (sz (c, ls) + 2)) by (assumption || lia).
    apply as_node_failed. apply bind_fres. apply question_x. exact Hx.
  - intros t q x r ls Hk Hq t' c' E. injection E as <- <-.
    rewrite (stmt_at_o_rly t _ ls (sz (q :: x :: r, ls) + 2)) by (assumption || lia).
    apply as_node_err. unfold o_rly_parse. erewrite bind_eq by (apply question_step; exact Hq). reflexivity.
  - intros t q ls o o' Hk Hq _ IH Ha t' c' E. injection E as <- <-.
    rewrite (stmt_at_o_rly t _ ls (sz ([q], ls) + 2)) by (assumption || lia).
    apply as_node_aborts with (o := omap (fun _ => ORly t None None []) o); [|apply aborts_of; exact Ha].
    unfold o_rly_parse. erewrite bind_eq by (apply question_step; exact Hq). rewrite empty_step.
    eapply bind_assoc_aborts; [exact (IH _ YaRly)|]. destruct Ha; constructor.
  - intros t q ls y p o o' Hk Hq _ IH1 _ IH2 Ha t' c' E. injection E as <- <-.
    rewrite (stmt_at_o_rly t _ ls (sz ([q], ls) + 2)) by (assumption || lia).
    apply as_node_aborts with (o := omap (fun _ => ORly t None None []) o); [|apply aborts_of; exact Ha].
    unfold o_rly_parse. erewrite bind_eq by (apply question_step; exact Hq). rewrite empty_step.
    pose proof (sz_line [q] ls). cbn [length] in *. change (l_start ls) with (line_of ls) in *.
    erewrite bind_assoc_eq by (exact (IH1 _ YaRly)). pose proof (branch_sz _ _ _ _ _ _ (IH1 _ YaRly)).
    eapply bind_aborts; [apply mebbe_c; [exact IH2|lia]|]. destruct Ha; constructor.
  - intros t q ls y p ms p' o o' Hk Hq _ IH1 _ IH2 _ IH3 Ha t' c' E. injection E as <- <-.
    rewrite (stmt_at_o_rly t _ ls (sz ([q], ls) + 2)) by (assumption || lia).
    apply as_node_aborts with (o := omap (fun _ => ORly t None None []) o); [|apply aborts_of; exact Ha].
    unfold o_rly_parse. erewrite bind_eq by (apply question_step; exact Hq). rewrite empty_step.
    pose proof (sz_line [q] ls). cbn [length] in *. change (l_start ls) with (line_of ls) in *.
    erewrite bind_assoc_eq by (exact (IH1 _ YaRly)). pose proof (branch_sz _ _ _ _ _ _ (IH1 _ YaRly)).
    erewrite bind_eq by (apply (mebbe_c _ _ _ IH2); lia). cbv beta.
    eapply bind_assoc_aborts; [exact (IH3 _ NoWai)|]. destruct Ha; constructor.
  - intros t q ls y p ms p' n p'' o o' Hk Hq _ IH1 _ IH2 _ IH3 Hc Ha t' c' E. injection E as <- <-.
    rewrite (stmt_at_o_rly t _ ls (sz ([q], ls) + 2)) by (assumption || lia).
    apply as_node_aborts with (o := omap (fun _ => ORly t None None []) o); [|apply aborts_of; exact Ha].
    unfold o_rly_parse. erewrite bind_eq by (apply question_step; exact Hq). rewrite empty_step.
    pose proof (sz_line [q] ls). cbn [length] in *. change (l_start ls) with (line_of ls) in *.
    erewrite bind_assoc_eq by (exact (IH1 _ YaRly)). pose proof (branch_sz _ _ _ _ _ _ (IH1 _ YaRly)).
    erewrite bind_eq by (apply (mebbe_c _ _ _ IH2); lia). cbv beta.
    erewrite bind_assoc_eq by (exact (IH3 _ NoWai)).
    eapply bind_aborts; [apply closing_c; exact Hc|]. destruct Ha; constructor.
  - intros t q ls y p ms p' n p'' p3 Hk Hq _ IH1 _ IH2 _ IH3 Hc t' c' E. injection E as <- <-.
    rewrite (stmt_at_o_rly t _ ls (sz ([q], ls) + 2)) by (assumption || lia). apply as_node_done.
    unfold o_rly_parse. erewrite bind_eq by (apply question_step; exact Hq). rewrite empty_step.
    pose proof (sz_line [q] ls). cbn [length] in *. change (l_start ls) with (line_of ls) in *.
    erewrite bind_assoc_eq by (exact (IH1 _ YaRly)). pose proof (branch_sz _ _ _ _ _ _ (IH1 _ YaRly)).
    erewrite bind_eq by (apply (mebbe_c _ _ _ IH2); lia). cbv beta.
    erewrite bind_assoc_eq by (exact (IH3 _ NoWai)).
    erewrite bind_eq by (exact (closing_c _ _ _ Hc)). reflexivity.
  - (* blocks *)
    intros k ls o _ IH. unfold Cblock. rewrite blk_unfold. cbn [fst]. rewrite IH. destruct o; reflexivity.
  - intros k t c ls n r ls' o _ IH1 _ IH2. unfold Cblock. rewrite blk_unfold. cbn [fst snd].
    rewrite (IH1 _ _ eq_refl). cbn [as_res]. exact (IH2 [n] r).
  - intros k t c ls e r ls' o _ IH1 _ IH2. unfold Cblock. rewrite blk_unfold. cbn [fst snd].
    rewrite (IH1 _ _ eq_refl). cbn [as_res]. exact (IH2 [NASTError e] r).
  - intros k t c ls p _ IH1. unfold Cblock. rewrite blk_unfold. cbn [fst snd].
    rewrite (IH1 _ _ eq_refl). reflexivity.
  - intros k ls E ns r. unfold continue. cbn [fst snd]. change (l_start ls) with (line_of ls). rewrite E.
    cbn [omap as_res]. rewrite app_nil_r. reflexivity.
  - intros k t c ls Hc ns r. unfold continue. cbn [fst snd l_start]. rewrite (proj2 (stop_of_iff k t) Hc).
    cbn [omap as_res]. rewrite app_nil_r. reflexivity.
  - intros k t c ls o Hc _ IH ns r. unfold continue. cbn [fst snd l_start]. rewrite (proj2 (stop_of_false k t) Hc).
    rewrite IH. destruct o; reflexivity.
  - (* sections *)
    intros w k c ls Hn A C. unfold branch. erewrite bind_eq by (apply next_if_kw_none; exact Hn). reflexivity.
  - intros w k t x r ls Ht A C. unfold branch. erewrite bind_eq by (apply next_if_yes, is_kw_iff; exact Ht). reflexivity.
  - intros w k t ls o Ht _ IH A C. unfold branch. erewrite bind_eq by (apply next_if_yes, is_kw_iff; exact Ht).
    cbv beta iota. rewrite empty_step. unfold Cblock in IH. unfold block_of, bind.
    change (l_start ls) with (line_of ls). rewrite IH. destruct o; reflexivity.
  - (* cases *)
    intros w m k c ls Hn A C loop f g HL Hf Hg. destruct f as [|f]; [lia|]. rewrite HL.
    erewrite bind_eq by (apply next_if_kw_none; exact Hn). reflexivity.
  - intros w m k t l x ls Ht Hx A C loop f g HL Hf Hg. destruct f as [|f]; [lia|]. rewrite HL.
    erewrite bind_eq by (apply next_if_yes, is_kw_iff; exact Ht). cbv beta iota.
    pose proof (sz_length (t :: l) ls) as Hs. cbn [length] in Hs.
    erewrite (expected_x _ _ _ Hx) by lia. destruct x; reflexivity.
  - intros w m k t o ts e x r ls Ht He Hfit A C loop f g HL Hf Hg. destruct f as [|f]; [lia|]. rewrite HL.
    erewrite bind_eq by (apply next_if_yes, is_kw_iff; exact Ht). cbv beta iota.
    pose proof (sz_length (t :: ts ++ x :: r) ls) as Hs. cbn [length] in Hs. rewrite app_length in Hs.
    destruct (d_expr_first _ _ _ He) as (y & ys & -> & _). cbn [app]. bnext.
    erewrite bind_eq by (eapply expr_complete; [exact He|reflexivity|lia|exact Hfit]). reflexivity.
  - intros w m k t b ts e ls o o' Ht He _ IH Ha A C loop f g HL Hf Hg. destruct f as [|f]; [lia|]. rewrite HL.
    erewrite bind_eq by (apply next_if_yes, is_kw_iff; exact Ht). cbv beta iota.
    pose proof (sz_length (t :: ts) ls) as Hs. cbn [length] in Hs.
    destruct (d_expr_first _ _ _ He) as (y & ys & -> & _). bnext.
    erewrite bind_eq by (eapply expr_complete_end; [exact He|reflexivity|lia]). cbv beta. rewrite empty_step.
    unfold Cblock in IH. unfold block_of, bind. change (l_start ls) with (line_of ls). rewrite IH.
    destruct Ha; reflexivity.
  - intros w m k t b ts e ls ns p o Ht He _ IH _ IH2 A C loop f g HL Hf Hg. destruct f as [|f]; [lia|]. rewrite HL.
    erewrite bind_eq by (apply next_if_yes, is_kw_iff; exact Ht). cbv beta iota.
    pose proof (sz_length (t :: ts) ls) as Hs. pose proof (sz_line (t :: ts) ls) as Hs2. cbn [length] in Hs, Hs2.
    destruct (d_expr_first _ _ _ He) as (y & ys & -> & _). bnext.
    erewrite bind_eq by (eapply expr_complete_end; [exact He|reflexivity|lia]). cbv beta. rewrite empty_step.
    change (l_start ls) with (line_of ls).
    erewrite bind_eq by (apply block_of_step; exact IH). cbv beta. apply blk_sz in IH.
    unfold bind. rewrite (IH2 A C loop f g HL) by lia. destruct o; reflexivity.
Qed.
