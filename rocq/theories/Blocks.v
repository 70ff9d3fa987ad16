(** Model of [iter_errors] and its iterator, src/parser/blocks.rs:31-118. *)
From Verif Require Export Ast.

(** [ASTBlockErrorIterator], src/parser/blocks.rs:31-35; references to blocks
    are the blocks. *)
Record error_iter : Set := mkErrorIter {
  ei_blocks : list block;
  ei_block_index : nat;
  ei_statement_index : nat
}.

(** [ASTBlockErrorIterator::new], src/parser/blocks.rs:38-44, and
    [ASTBlock::iter_errors], 115-117. *)
Definition iter_errors (b : block) : error_iter := mkErrorIter [b] 0 0.

(** [Node::get_inner_block], src/parser/blocks.rs:48-76. *)
Definition get_inner_block (n : node) : option (list block) :=
  match n with
  | NWtf (Wtf _ omg omg_wtf) =>
    Some (map (fun x => match x with WtfOmg _ _ b => b end) omg ++
          match omg_wtf with Some (WtfOmgWtf _ b) => [b] | None => [] end)
  | NORly (ORly _ if_true if_false mebbes) =>
    Some (match if_true with Some (YaRly _ b) => [b] | None => [] end ++
          map (fun x => match x with Mebbe _ _ b => b end) mebbes ++
          match if_false with Some (NoWai _ b) => [b] | None => [] end)
  | NImInYr (ImInYr _ _ _ _ code_block _) => Some [code_block]
  | NHowIzI (HowIzI _ _ _ body) => Some [body]
  | _ => None
  end.

(** [ASTErrorOrBlock], src/parser/blocks.rs:79-82. *)
Inductive error_or_block : Set :=
| EBError (e : ast_error)
| EBBlock (bs : list block).

(** The closure given to the inner [find_map], src/parser/blocks.rs:97-105. *)
Definition error_or_block_of (n : node) : option error_or_block :=
  match get_inner_block n with
  | Some bs => Some (EBBlock bs)
  | None => match n with NASTError e => Some (EBError e) | _ => None end
  end.

(** The inner [find_map] with its count of the nodes it saw, 93-105. *)
Fixpoint find_in_nodes (ns : list node) (count : nat) : option error_or_block * nat :=
  match ns with
  | [] => (None, count)
  | n :: ns' =>
    match error_or_block_of n with
    | Some x => (Some x, S count)
    | None => find_in_nodes ns' (S count)
    end
  end.

(** The outer [find_map], 88-110. *)
Fixpoint find_in_blocks (bs : list block) (index statement : nat) : option error_or_block * nat * nat :=
  match bs with
  | [] => (None, index, statement)
  | ASTBlock ns :: bs' =>
    match find_in_nodes (skipn statement ns) statement with
    | (Some x, statement') => (Some x, index, statement')
    | (None, statement') => find_in_blocks bs' (S index) statement'
    end
  end.

(** Result of [Iterator::next]. *)
Inductive next_result : Set :=
| NextItem (o : option ast_error) (it : error_iter)
| NextPanic.

(** The search of [next], src/parser/blocks.rs:88-110: what it finds, and the
    state it leaves. *)
Definition error_iter_search (it : error_iter) : option error_or_block * error_iter :=
  let '(found, index, statement) :=
    find_in_blocks (skipn (ei_block_index it) (ei_blocks it)) (ei_block_index it) (ei_statement_index it) in
  (found, mkErrorIter (ei_blocks it) index statement).

(** [next], src/parser/blocks.rs:87-112: the search, then [todo!()]. *)
Definition error_iter_next (it : error_iter) : next_result :=
  let (_block_node, _) := error_iter_search it in NextPanic.
