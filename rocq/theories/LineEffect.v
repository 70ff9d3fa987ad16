(** Specification: what one logical line does to the AST of the program it is
    in. *)
From Verif Require Export Recovery Clean.

(** A line that is not empty and starts neither a statement with blocks (or HAI)
    nor a part or the end of one. *)
Definition plain (l : list token) : Prop :=
  l <> [] /\ ~ begins block_start l /\ forall k, ~ begins (closes k) l.

(** The three things that can happen to a plain line: it is read as a statement,
    it is taken for the rest of the line before it, or the statement before it
    wanted OIC in its place. *)
Inductive use : Set := AsStatement | AsRest | AsClosing.

(** What the line gives. *)
Definition gives (u : use) (l : list token) (x : list node + panic_cause) : Prop :=
  match u with
  | AsStatement => line_result l x
  | AsRest => x = inl [NASTError (TooManyTokens l)]
  | AsClosing => exists t r, l = t :: r /\ x = inl (NASTError (UnexpectedToken t) :: left_over r)
  end.

(** Nodes with a place for the nodes of a line, at any depth. *)
Inductive context : (list node -> list node) -> Prop :=
| here h a b : (forall ns, h ns = a ++ ns ++ b) -> context h
| inside h a k b : node_context k -> (forall ns, h ns = a ++ k ns :: b) -> context h
with node_context : (list node -> node) -> Prop :=
| in_loop k t label it cond h e : context h ->
    (forall ns, k ns = NImInYr (ImInYr t label it cond (ASTBlock (h ns)) e)) -> node_context k
| in_function k t i ps h : context h ->
    (forall ns, k ns = NHowIzI (HowIzI t i ps (ASTBlock (h ns)))) -> node_context k
| in_omg k t xs a e h ys d : context h ->
    (forall ns, k ns = NWtf (Wtf t (xs ++ WtfOmg a e (ASTBlock (h ns)) :: ys) d)) -> node_context k
| in_omgwtf k t xs a h : context h ->
    (forall ns, k ns = NWtf (Wtf t xs (Some (WtfOmgWtf a (ASTBlock (h ns)))))) -> node_context k
| in_ya_rly k t a h n ms : context h ->
    (forall ns, k ns = NORly (ORly t (Some (YaRly a (ASTBlock (h ns)))) n ms)) -> node_context k
| in_no_wai k t y a h ms : context h ->
    (forall ns, k ns = NORly (ORly t y (Some (NoWai a (ASTBlock (h ns)))) ms)) -> node_context k
| in_mebbe k t y n xs a e h ys : context h ->
    (forall ns, k ns = NORly (ORly t y n (xs ++ Mebbe a e (ASTBlock (h ns)) :: ys))) -> node_context k.

(** How the result of the program depends on what the line gives: it does not;
    the line's nodes are in it; or they are lost, because a statement around the
    line fails or something later panics. *)
Inductive answer : (list node + panic_cause -> parse_result) -> Prop :=
| not_read r : answer (fun _ => r)
| kept h : context h ->
    answer (fun x => match x with inl ns => ParseOk (ASTBlock (h ns)) | inr c => ParsePanic c end)
| lost b : block_clean b = false ->
    answer (fun x => match x with inl _ => ParseOk b | inr c => ParsePanic c end)
| later_panic c :
    answer (fun x => match x with inl _ => ParsePanic c | inr d => ParsePanic d end).
