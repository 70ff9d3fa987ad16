(** [==] against its specification. *)
From Verif Require Import Eq EqSpec.
Local Open Scope bool_scope.

(** ** Induction over nodes *)
Section NodeInd.
  Variable P : node -> Prop.
  Definition all_nodes (b : block) : Prop := Forall P (block_nodes b).
  Hypothesis HL : forall t l it c b e, all_nodes b -> P (NImInYr (ImInYr t l it c b e)).
  Hypothesis HW : forall t omgs d,
    Forall (fun x => match x with WtfOmg _ _ b => all_nodes b end) omgs ->
    match d with Some (WtfOmgWtf _ b) => all_nodes b | None => True end -> P (NWtf (Wtf t omgs d)).
  Hypothesis HO : forall t yes no mebbes,
    match yes with Some (YaRly _ b) => all_nodes b | None => True end ->
    match no with Some (NoWai _ b) => all_nodes b | None => True end ->
    Forall (fun x => match x with Mebbe _ _ b => all_nodes b end) mebbes -> P (NORly (ORly t yes no mebbes)).
  Hypothesis HF : forall t i params b, all_nodes b -> P (NHowIzI (HowIzI t i params b)).
  Hypothesis HS : forall n,
    match n with NImInYr _ | NWtf _ | NORly _ | NHowIzI _ => False | _ => True end -> P n.

  Fixpoint node_ind' (n : node) : P n :=
    let blk (b : block) : all_nodes b :=
      match b with
      | ASTBlock ns =>
        (fix go (ns : list node) : Forall P ns :=
           match ns with [] => Forall_nil _ | n :: ns' => Forall_cons n (node_ind' n) (go ns') end) ns
      end in
    match n with
    | NImInYr (ImInYr t l it c b e) => HL t l it c b e (blk b)
    | NWtf (Wtf t omgs d) =>
      HW t omgs d
        ((fix go (xs : list wtf_omg) : Forall (fun x => match x with WtfOmg _ _ b => all_nodes b end) xs :=
            match xs with
            | [] => Forall_nil _
            | WtfOmg t e b :: xs' =>
              @Forall_cons _ (fun x => match x with WtfOmg _ _ b => all_nodes b end) (WtfOmg t e b) xs' (blk b) (go xs')
            end) omgs)
        (match d with Some (WtfOmgWtf _ b) => blk b | None => I end)
    | NORly (ORly t yes no mebbes) =>
      HO t yes no mebbes
        (match yes with Some (YaRly _ b) => blk b | None => I end)
        (match no with Some (NoWai _ b) => blk b | None => I end)
        ((fix go (xs : list mebbe) : Forall (fun x => match x with Mebbe _ _ b => all_nodes b end) xs :=
            match xs with
            | [] => Forall_nil _
            | Mebbe t e b :: xs' =>
              @Forall_cons _ (fun x => match x with Mebbe _ _ b => all_nodes b end) (Mebbe t e b) xs' (blk b) (go xs')
            end) mebbes)
    | NHowIzI (HowIzI t i params b) => HF t i params b (blk b)
    | n => HS n I
    end.
End NodeInd.

(** ** Generic facts *)
Definition ok {A} (eqb : A -> A -> bool) (cn : A -> A) (tk : A -> list token) (a : A) : Prop :=
  forall b, eqb a b = true <-> cn a = cn b /\ no_nan (tk a).

Lemma no_nan_app a b : no_nan (a ++ b) <-> no_nan a /\ no_nan b.
Proof. apply Forall_app. Qed.
Lemma no_nan_cons t b : no_nan (t :: b) <-> ~ is_nan t /\ no_nan b.
Proof. apply Forall_cons_iff. Qed.
Lemma no_nan_nil : no_nan [] <-> True.
Proof. split; auto. intros _. constructor. Qed.

Lemma list_ok {A} eqb cn tk (l : list A) : Forall (ok eqb cn tk) l ->
  ok (list_eqb eqb) (map cn) (flat_map tk) l.
Proof.
  induction 1 as [|x l Hx _ IH]; intros [|y m]; cbn.
  - rewrite no_nan_nil. tauto.
  - split; [discriminate|intros [E _]; discriminate].
  - split; [discriminate|intros [E _]; discriminate].
  - rewrite andb_true_iff, (Hx y), (IH m), no_nan_app. split.
    + intros ((E & ?) & F & ?). rewrite E, F. auto.
    + intros (E & ? & ?). injection E as E F. auto.
Qed.
Lemma list_ok' {A} eqb cn tk (l : list A) : (forall a, ok eqb cn tk a) ->
  ok (list_eqb eqb) (map cn) (flat_map tk) l.
Proof. intros H. apply list_ok, Forall_forall. auto. Qed.
Definition opt_tokens {A} (tk : A -> list token) (o : option A) : list token :=
  match o with Some x => tk x | None => [] end.
Lemma option_ok {A} eqb cn tk (o : option A) : (forall a, o = Some a -> ok eqb cn tk a) ->
  ok (option_eqb eqb) (option_map cn) (opt_tokens tk) o.
Proof.
  intros H [y|]; destruct o as [x|]; cbn;
    try (rewrite ?no_nan_nil; split; [discriminate|intros [E _]; discriminate]).
  - rewrite (H x eq_refl y). intuition congruence.
  - rewrite no_nan_nil. tauto.
Qed.

(** ** Tokens *)
Lemma list_eqb_eq {A} (eqb : A -> A -> bool) l l' : (forall x y, eqb x y = true <-> x = y) ->
  list_eqb eqb l l' = true <-> l = l'.
Proof.
  intros H. revert l'. induction l as [|x l IH]; intros [|y m]; cbn; try (split; [discriminate|discriminate]).
  - tauto.
  - rewrite andb_true_iff, H, IH. intuition congruence.
Qed.
Lemma str_eqb_eq s s' : str_eqb s s' = true <-> s = s'.
Proof. apply list_eqb_eq. intros. apply N.eqb_eq. Qed.
Lemma position_eqb_canon p q : position_eqb p q = true <-> canon_position p = canon_position q.
Proof.
  unfold position_eqb, canon_position. rewrite andb_true_iff, !Z.eqb_eq. intuition congruence.
Qed.
Lemma range_eqb_canon p q : range_eqb p q = true <-> canon_range p = canon_range q.
Proof.
  unfold range_eqb, canon_range. rewrite andb_true_iff, !position_eqb_canon. intuition congruence.
Qed.
Lemma SFeqb_spec x y : SFeqb x y = true <->
  x <> S754_nan /\ canon_type (TValue (VNumber (Float x))) = canon_type (TValue (VNumber (Float y))).
Proof.
  destruct x as [s|s| |s m e], y as [s'|s'| |s' m' e'];
    try destruct s; try destruct s'; cbn; unfold SFeqb; cbn;
    try (split; [discriminate|intros [? E]; congruence]);
    try (split; [split; congruence|auto]; fail);
    destruct (Z.compare_spec e e') as [->|H|H];
    try (change (Pos.compare_cont Eq m m') with (Pos.compare m m'); destruct (Pos.compare_spec m m') as [->|?|?]);
    cbn; try (split; [split; congruence|auto]; fail);
    (split; [discriminate|intros [_ E]; injection E; intros; lia]).
Qed.
Lemma keyword_eqb_iff k k' : keyword_eqb k k' = true <-> k = k'.
Proof. unfold keyword_eqb. destruct (keyword_eq_dec k k'); split; congruence. Qed.
Lemma bool_eqb_iff b b' : Bool.eqb b b' = true <-> b = b'.
Proof. apply Bool.eqb_true_iff. Qed.

Definition nan_type (t : token_type) : Prop := t = TValue (VNumber (Float S754_nan)).
Lemma canon_type_inv t t' : canon_type t = canon_type t' ->
  t = t' \/ exists s s', t = TValue (VNumber (Float (S754_zero s))) /\ t' = TValue (VNumber (Float (S754_zero s'))).
Proof.
  destruct t as [ | | |[[|[]]| | |]| | | | | | |], t' as [ | | |[[|[]]| | |]| | | | | | |]; cbn; intros E;
    try discriminate; try (injection E; intros; subst); eauto 6.
Qed.
Lemma token_type_eqb_canon t t' :
  token_type_eqb t t' = true <-> canon_type t = canon_type t' /\ ~ nan_type t.
Proof.
  unfold nan_type. split.
  - destruct t as [s|k|s|v|s|s| | | | |], t' as [s'|k'|s'|v'|s'|s'| | | | |]; cbn; try discriminate;
      rewrite ?str_eqb_eq, ?keyword_eqb_iff; try (intros ->; split; [reflexivity|discriminate]);
      try (split; [reflexivity|discriminate]).
    destruct v as [[z|x]|s|b|], v' as [[z'|x']|s'|b'|]; cbn; try discriminate;
      rewrite ?str_eqb_eq, ?bool_eqb_iff, ?Z.eqb_eq; try (intros ->; split; [reflexivity|discriminate]);
      try (split; [reflexivity|discriminate]).
    intros H. apply SFeqb_spec in H as [H1 H2]. split; [exact H2|congruence].
  - intros [E N]. destruct (canon_type_inv _ _ E) as [->|(s & s' & -> & ->)]; [|reflexivity].
    destruct t' as [s|k|s|[[z|x]|s|b|]|s|s| | | | |]; cbn;
      rewrite ?str_eqb_eq, ?keyword_eqb_iff, ?bool_eqb_iff, ?Z.eqb_eq; auto.
    apply SFeqb_spec. split; [congruence|reflexivity].
Qed.
Lemma token_ok t : ok token_eqb canon (fun t => [t]) t.
Proof.
  intros u. unfold token_eqb, canon. rewrite andb_true_iff, token_type_eqb_canon, range_eqb_canon,
    no_nan_cons, no_nan_nil. unfold is_nan, nan_type.
  intuition congruence.
Qed.
Lemma token_eqb_iff t u : token_eqb t u = true <-> canon t = canon u /\ ~ is_nan t.
Proof. rewrite (token_ok t u), no_nan_cons, no_nan_nil. tauto. Qed.
Lemma token_error_eqb_iff e e' : token_error_eqb e e' = true <->
  match e, e' with UnclosedMultilineComment r, UnclosedMultilineComment r' => canon_range r = canon_range r' end.
Proof. destruct e, e'. apply range_eqb_canon. Qed.
Lemma tokens_ok l : ok (list_eqb token_eqb) (map canon) (fun l => l) l.
Proof.
  intros m. rewrite (list_ok' token_eqb canon (fun t => [t]) l token_ok m).
  replace (flat_map (fun t => [t]) l) with l; [tauto|]. induction l; cbn; congruence.
Qed.
Lemma opt_token_ok o o' : option_eqb token_eqb o o' = true <->
  option_map canon o = option_map canon o' /\ no_nan (opt_token o).
Proof.
  rewrite (option_ok token_eqb canon (fun t => [t]) o (fun a _ => token_ok a) o'). destruct o; reflexivity.
Qed.

(** ** Expressions *)
Ltac norm := rewrite ?andb_true_iff, ?token_eqb_iff, ?opt_token_ok, ?no_nan_app, ?no_nan_cons, ?no_nan_app, ?no_nan_cons, ?no_nan_nil.
Ltac fin := intuition congruence.
Ltac off := try (split; [discriminate|intros [? _]; discriminate]).

Lemma identifier_ok i : ok identifier_eqb (map_identifier canon) identifier_tokens i.
Proof.
  intros j. destruct i as [n s], j as [n' s']. unfold identifier_eqb, identifier_tokens, map_identifier. cbn.
  change (match s with Some s => [s] | None => [] end) with (opt_token s). norm. fin.
Qed.
Lemma slot_ok i : ok slot_eqb (map_slot canon) slot_tokens i.
Proof.
  intros j. destruct i as [n s], j as [n' s']. unfold slot_eqb, slot_tokens, map_slot. cbn [slot_access_token slot_identifier].
  norm. rewrite (identifier_ok s s'). fin.
Qed.
Lemma va_ok i : ok va_eqb (map_va canon) va_tokens i.
Proof.
  intros j. destruct i as [n s], j as [n' s']. unfold va_eqb, va_tokens, map_va. cbn [va_identifier va_accesses].
  norm. rewrite (identifier_ok n n'), (list_ok' _ _ _ s slot_ok s'). fin.
Qed.
Lemma value_ok i : ok value_eqb (map_value canon) value_tokens i.
Proof.
  intros j. destruct i as [v|t], j as [v'|t']; cbn; off.
  - rewrite (va_ok v v'). fin.
  - norm. fin.
Qed.
Lemma binary_ok o o' : binary_opt_eqb o o' = true <->
  map_binary canon o = map_binary canon o' /\ ~ is_nan (binary_opt_token o).
Proof. destruct o, o'; cbn; off; norm; fin. Qed.
Lemma unary_ok o o' : unary_opt_eqb o o' = true <->
  map_unary canon o = map_unary canon o' /\ ~ is_nan (unary_opt_token o).
Proof. destruct o, o'; cbn; off; norm; fin. Qed.
Lemma nary_ok o o' : nary_opt_eqb o o' = true <->
  map_nary canon o = map_nary canon o' /\ ~ is_nan (nary_opt_token o).
Proof. destruct o, o'; cbn; off; norm; fin. Qed.
Lemma map_nary_eq f o es m :
  map_expr f (NaryOperation o es m) = NaryOperation (map_nary f o) (map (map_operand f) es) (option_map f m).
Proof. reflexivity. Qed.
Lemma map_operand_eq f e an : map_operand f (Operand e an) = Operand (map_expr f e) (option_map f an).
Proof. reflexivity. Qed.
Lemma map_binary_eq f l o r an : map_expr f (BinaryOperation l o r an) =
  BinaryOperation (map_expr f l) (map_binary f o) (map_expr f r) (option_map f an).
Proof. reflexivity. Qed.
Lemma expr_ok e : ok expr_eqb (map_expr canon) expr_tokens e.
Proof.
  induction e as [l o r an IHl IHr|o x IH|o es mkay IH|v] using expr_ind';
    intros [l' o' r' an'|o' x'|o' es' mkay'|v']; rewrite ?map_nary_eq; cbn [expr_eqb map_expr expr_tokens]; off.
  - norm. rewrite (IHl l'), (IHr r'), binary_ok. fin.
  - norm. rewrite (IH x'), unary_ok. fin.
  - norm. rewrite nary_ok. change (fun x => match x with Operand e an => expr_tokens e ++ opt_token an end) with operand_tokens.
    enough (H : Forall (ok operand_eqb (map_operand canon) operand_tokens) es).
    { rewrite (list_ok _ _ _ es H es'). fin. }
    revert IH. apply Forall_impl. intros [x a] Hx [x' a']. cbn in Hx. cbn [operand_eqb operand_tokens].
    rewrite !map_operand_eq. norm. rewrite (Hx x'). fin.
  - rewrite (value_ok v v'). fin.
Qed.
Lemma type_ok a a' : ast_type_eqb a a' = true <->
  map_type canon a = map_type canon a' /\ ~ is_nan (ast_type_token a).
Proof. destruct a, a'; cbn; off; norm; fin. Qed.
Lemma error_ok e : ok error_eqb (map_error canon) error_tokens e.
Proof.
  intros e'. destruct e as [t|ts|[]|[]|[]|t|[]|t|[]|[]|[]], e' as [t'|ts'|[]|[]|[]|t'|[]|t'|[]|[]|[]]; cbn; off; norm; try (fin).
  rewrite (tokens_ok ts ts'). fin.
Qed.

(** ** Statements *)
Lemma initial_ok i : ok initial_value_eqb (map_initial canon) (fun i => initial_tokens (Some i)) i.
Proof.
  intros j. destruct i as [e|t], j as [e'|t']; cbn; off.
  - rewrite (expr_ok e e'). fin.
  - rewrite type_ok. norm. fin.
Qed.
Lemma i_has_a_ok x : ok i_has_a_eqb (map_i_has_a canon) i_has_a_tokens x.
Proof.
  intros y. destruct x as [t i v], y as [t' i' v']. unfold i_has_a_eqb, map_i_has_a, i_has_a_tokens.
  cbn [ihasa_token ihasa_identifier ihasa_initial_value]. norm.
  rewrite (identifier_ok i i'), (option_ok _ _ _ v (fun a _ => initial_ok a) v').
  replace (opt_tokens _ v) with (initial_tokens v) by (destruct v as [[]|]; reflexivity). fin.
Qed.
Lemma hai_ok x : ok hai_eqb (map_hai canon) hai_tokens x.
Proof.
  intros y. destruct x as [t v], y as [t' v']. unfold hai_eqb, map_hai, hai_tokens. cbn [hai_token hai_version].
  norm. rewrite (tokens_ok v v'). fin.
Qed.
Lemma gimmeh_ok x : ok gimmeh_eqb (map_gimmeh canon) gimmeh_tokens x.
Proof.
  intros y. destruct x as [t v], y as [t' v']. unfold gimmeh_eqb, map_gimmeh, gimmeh_tokens.
  cbn [gimmeh_token gimmeh_variable_access]. norm. rewrite (va_ok v v'). fin.
Qed.
Lemma found_yr_ok x : ok found_yr_eqb (map_found_yr canon) found_yr_tokens x.
Proof.
  intros y. destruct x as [t v], y as [t' v']. unfold found_yr_eqb, map_found_yr, found_yr_tokens.
  cbn [found_yr_token found_yr_expression]. norm. rewrite (expr_ok v v'). fin.
Qed.
Lemma assignment_ok x : ok assignment_eqb (map_assignment canon) assignment_tokens x.
Proof.
  intros y. destruct x as [v e t], y as [v' e' t']. unfold assignment_eqb, map_assignment, assignment_tokens.
  cbn [asg_variable_access asg_expression asg_r_token]. norm. rewrite (va_ok v v'), (expr_ok e e'). fin.
Qed.
Lemma set_slot_ok x : ok set_slot_eqb (map_set_slot canon) set_slot_tokens x.
Proof.
  intros y. destruct x as [v i e], y as [v' i' e']. unfold set_slot_eqb, map_set_slot, set_slot_tokens.
  cbn [bss_bukkit bss_slot_name bss_value]. norm. rewrite (va_ok v v'), (identifier_ok i i'), (expr_ok e e'). fin.
Qed.
Lemma visible_ok x : ok visible_eqb (map_visible canon) visible_tokens x.
Proof.
  intros y. destruct x as [t es o], y as [t' es' o']. unfold visible_eqb, map_visible, visible_tokens.
  cbn [visible_token visible_expressions visible_exclamation_mark]. norm.
  rewrite (list_ok' _ _ _ es expr_ok es'). fin.
Qed.
Lemma i_iz_ok x : ok i_iz_eqb (map_i_iz canon) i_iz_tokens x.
Proof.
  intros y. destruct x as [t v es], y as [t' v' es']. unfold i_iz_eqb, map_i_iz, i_iz_tokens.
  cbn [iiz_token iiz_name iiz_arguments]. norm. rewrite (va_ok v v'), (list_ok' _ _ _ es expr_ok es'). fin.
Qed.
Lemma iteration_ok x : ok iteration_eqb (map_iteration canon) (fun x => iteration_tokens (Some x)) x.
Proof.
  intros y. destruct x as [[t|t] v], y as [[t'|t'] v'];
    unfold iteration_eqb, map_iteration, iteration_tokens; cbn [li_operation li_operand operation_eqb map_operation loop_operation_token andb];
    off; norm; rewrite (va_ok v v'); fin.
Qed.
Lemma iterations_ok x x' : option_eqb iteration_eqb x x' = true <->
  option_map (map_iteration canon) x = option_map (map_iteration canon) x' /\ no_nan (iteration_tokens x).
Proof. rewrite (option_ok _ _ _ x (fun a _ => iteration_ok a) x'). destruct x; reflexivity. Qed.
Lemma condition_ok x : ok condition_eqb (map_condition canon) (fun x => condition_tokens (Some x)) x.
Proof. intros y. destruct x as [e|e], y as [e'|e']; cbn; off; rewrite (expr_ok e e'); fin. Qed.
Lemma conditions_ok x x' : option_eqb condition_eqb x x' = true <->
  option_map (map_condition canon) x = option_map (map_condition canon) x' /\ no_nan (condition_tokens x).
Proof. rewrite (option_ok _ _ _ x (fun a _ => condition_ok a) x'). destruct x as [[]|]; reflexivity. Qed.

Section MapEq.
Variable f : token -> token.
Lemma map_block_eq ns : map_block f (ASTBlock ns) = ASTBlock (map (map_node f) ns).
Proof. reflexivity. Qed.
Lemma map_loop_eq t l it c b e : map_node f (NImInYr (ImInYr t l it c b e)) =
  NImInYr (ImInYr (f t) (f l) (option_map (map_iteration f) it) (option_map (map_condition f) c) (map_block f b) (f e)).
Proof. reflexivity. Qed.
Lemma map_wtf_eq t omgs d : map_node f (NWtf (Wtf t omgs d)) =
  NWtf (Wtf (f t) (map (map_omg f) omgs) (option_map (map_omg_wtf f) d)).
Proof. reflexivity. Qed.
Lemma map_omg_eq t e b : map_omg f (WtfOmg t e b) = WtfOmg (f t) (map_expr f e) (map_block f b).
Proof. reflexivity. Qed.
Lemma map_omg_wtf_eq t b : map_omg_wtf f (WtfOmgWtf t b) = WtfOmgWtf (f t) (map_block f b).
Proof. reflexivity. Qed.
Lemma map_o_rly_eq t yes no mebbes : map_node f (NORly (ORly t yes no mebbes)) =
  NORly (ORly (f t) (option_map (map_ya_rly f) yes) (option_map (map_no_wai f) no) (map (map_mebbe f) mebbes)).
Proof. reflexivity. Qed.
Lemma map_ya_rly_eq t b : map_ya_rly f (YaRly t b) = YaRly (f t) (map_block f b).
Proof. reflexivity. Qed.
Lemma map_no_wai_eq t b : map_no_wai f (NoWai t b) = NoWai (f t) (map_block f b).
Proof. reflexivity. Qed.
Lemma map_mebbe_eq t e b : map_mebbe f (Mebbe t e b) = Mebbe (f t) (map_expr f e) (map_block f b).
Proof. reflexivity. Qed.
Lemma map_fun_eq t i params b : map_node f (NHowIzI (HowIzI t i params b)) =
  NHowIzI (HowIzI (f t) (map_identifier f i) (map (map_identifier f) params) (map_block f b)).
Proof. reflexivity. Qed.
End MapEq.

Lemma block_ok_of b : all_nodes (ok node_eqb (map_node canon) node_tokens) b ->
  ok block_eqb (map_block canon) block_tokens b.
Proof.
  destruct b as [ns]. intros H [ns']. cbn [block_eqb block_tokens]. rewrite !map_block_eq.
  rewrite (list_ok _ _ _ ns H ns'). fin.
Qed.
Lemma node_ok n : ok node_eqb (map_node canon) node_tokens n.
Proof.
  induction n as [t l it c b e Hb|t omgs d Ho Hd|t yes no mebbes Hy Hn Hm|t i params b Hb|n Hn] using node_ind';
    intros n'.
  - destruct n' as [ | |[t' l' it' c' b' e']| | | | | | | | | | | | | ];
      rewrite ?map_loop_eq; cbn [node_eqb node_tokens im_in_yr_eqb im_in_yr_tokens]; off.
    norm. rewrite (block_ok_of b Hb b'), iterations_ok, conditions_ok. fin.
  - destruct n' as [ | | | | | | |[t' omgs' d']| | | | | | | | ];
      rewrite ?map_wtf_eq; cbn [node_eqb node_tokens wtf_eqb wtf_tokens]; off.
    assert (Hl : Forall (ok wtf_omg_eqb (map_omg canon) wtf_omg_tokens) omgs).
    { revert Ho. apply Forall_impl. intros [u e b] Hb [u' e' b']. cbn [wtf_omg_eqb wtf_omg_tokens]. rewrite !map_omg_eq.
      norm. rewrite (block_ok_of b Hb b'), (expr_ok e e'). fin. }
    assert (Hw : ok (option_eqb wtf_omg_wtf_eqb) (option_map (map_omg_wtf canon)) (opt_tokens wtf_omg_wtf_tokens) d).
    { apply option_ok. intros [u b] -> [u' b']. cbn [wtf_omg_wtf_eqb wtf_omg_wtf_tokens]. rewrite !map_omg_wtf_eq.
      norm. rewrite (block_ok_of b Hd b'). fin. }
    norm. rewrite (list_ok _ _ _ omgs Hl omgs'), (Hw d'). unfold opt_tokens. fin.
  - destruct n' as [ | | | | | | | |[t' yes' no' mebbes']| | | | | | | ];
      rewrite ?map_o_rly_eq; cbn [node_eqb node_tokens o_rly_eqb o_rly_tokens]; off.
    assert (Hl : Forall (ok mebbe_eqb (map_mebbe canon) mebbe_tokens) mebbes).
    { revert Hm. apply Forall_impl. intros [u e b] Hb [u' e' b']. cbn [mebbe_eqb mebbe_tokens]. rewrite !map_mebbe_eq.
      norm. rewrite (block_ok_of b Hb b'), (expr_ok e e'). fin. }
    assert (Hw : ok (option_eqb ya_rly_eqb) (option_map (map_ya_rly canon)) (opt_tokens ya_rly_tokens) yes).
    { apply option_ok. intros [u b] -> [u' b']. cbn [ya_rly_eqb ya_rly_tokens]. rewrite !map_ya_rly_eq.
      norm. rewrite (block_ok_of b Hy b'). fin. }
    assert (Hv : ok (option_eqb no_wai_eqb) (option_map (map_no_wai canon)) (opt_tokens no_wai_tokens) no).
    { apply option_ok. intros [u b] -> [u' b']. cbn [no_wai_eqb no_wai_tokens]. rewrite !map_no_wai_eq.
      norm. rewrite (block_ok_of b Hn b'). fin. }
    norm. rewrite (list_ok _ _ _ mebbes Hl mebbes'), (Hw yes'), (Hv no'). unfold opt_tokens. fin.
  - destruct n' as [ | | | | | | | | | |[t' i' params' b']| | | | | ];
      rewrite ?map_fun_eq; cbn [node_eqb node_tokens how_iz_i_eqb how_iz_i_tokens]; off.
    norm. rewrite (block_ok_of b Hb b'), (identifier_ok i i'), (list_ok' _ _ _ params identifier_ok params'). fin.
  - destruct n; try (destruct Hn; fail); destruct n';
      try (split; [intros E; discriminate E|intros [E _]; discriminate E]);
      cbn [node_eqb map_node node_tokens].
    + rewrite (i_has_a_ok _ _). fin.
    + rewrite (hai_ok _ _). fin.
    + rewrite (set_slot_ok _ _). fin.
    + rewrite (assignment_ok _ _). fin.
    + rewrite (visible_ok _ _). fin.
    + rewrite (found_yr_ok _ _). fin.
    + rewrite (i_iz_ok _ _). fin.
    + destruct x, x0. cbn. norm. fin.
    + rewrite (gimmeh_ok _ _). fin.
    + rewrite (expr_ok _ _). fin.
    + rewrite (error_ok _ _). fin.
    + destruct x, x0. cbn. norm. fin.
Qed.
Lemma block_ok b : ok block_eqb (map_block canon) block_tokens b.
Proof. apply block_ok_of. unfold all_nodes. apply Forall_forall. intros n _. apply node_ok. Qed.
