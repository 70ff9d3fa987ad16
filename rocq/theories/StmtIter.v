(** Model of src/parser/statement_iterator.rs. *)
From Verif Require Export Token.
Local Open Scope Z_scope.

(** src/parser/statement_iterator.rs:6-10 ([StatementIterator]); the
    [Peekable<IntoIter<Token>>] is the list of tokens not yet taken from it. *)
Record stmt_iter : Set := mkIter {
  tokens_iter : list token;
  current_line : Z;
  peeked : option (option token)
}.

(** Start line of the next token, src/parser/statement_iterator.rs:71-73 and
    116-118: [self.tokens_iter.peek().map(|t| self.current_line = ..)]. *)
Definition line_of_next (ts : list token) (current : Z) : Z :=
  match ts with
  | t :: _ => start_line (tok_range t)
  | [] => current
  end.

(** [StatementIterator::new], src/parser/statement_iterator.rs:13-19. *)
Definition iter_new (tokens : list token) : stmt_iter :=
  {| tokens_iter := tokens;
     current_line := match tokens with
                     | t :: _ => start_line (tok_range t)
                     | [] => 0
                     end;
     peeked := None |}.

(** The part of [next] after [peeked] was found empty,
    src/parser/statement_iterator.rs:112-128: the token, the tokens left and
    the current line. *)
Fixpoint advance (ts : list token) (cur : Z) : option token * list token * Z :=
  match ts with
  | [] => (None, [], cur)
  | t :: ts' =>
    if is_comma t then (None, ts, cur)
    else if is_ellipsis t && (start_line (tok_range t) =? cur) then
      advance ts' (line_of_next ts' cur)
    else if start_line (tok_range t) =? cur then (Some t, ts', cur)
    else (None, ts, cur)
  end.

(** [Iterator::next], src/parser/statement_iterator.rs:106-129. *)
Definition iter_next (it : stmt_iter) : option token * stmt_iter :=
  match peeked it with
  | Some tok =>
    (tok, {| tokens_iter := tokens_iter it; current_line := current_line it;
             peeked := None |})
  | None =>
    match advance (tokens_iter it) (current_line it) with
    | (o, ts, l) => (o, {| tokens_iter := ts; current_line := l; peeked := None |})
    end
  end.

(** [peek], src/parser/statement_iterator.rs:21-29. *)
Definition iter_peek (it : stmt_iter) : option token * stmt_iter :=
  match peeked it with
  | Some val => (val, it)
  | None =>
    let (o, it') := iter_next it in
    (o, {| tokens_iter := tokens_iter it'; current_line := current_line it';
           peeked := Some o |})
  end.

(** Repeated [advance] until it returns [None]. *)
Fixpoint collect_tokens (ts : list token) (cur : Z) : list token * list token * Z :=
  match ts with
  | [] => ([], [], cur)
  | t :: ts' =>
    if is_comma t then ([], ts, cur)
    else if is_ellipsis t && (start_line (tok_range t) =? cur) then
      collect_tokens ts' (line_of_next ts' cur)
    else if start_line (tok_range t) =? cur then
      match collect_tokens ts' cur with
      | (l, r, c) => (t :: l, r, c)
      end
    else ([], ts, cur)
  end.

(** [self.collect()], src/parser/statement_iterator.rs:62: calls [next] until
    it returns [None].  Written by recursion on the token list; lemma
    [collect_unfold] states that it is the [next] loop. *)
Definition iter_collect (it : stmt_iter) : list token * stmt_iter :=
  match peeked it with
  | Some None =>
    ([], {| tokens_iter := tokens_iter it; current_line := current_line it;
            peeked := None |})
  | Some (Some t) =>
    match collect_tokens (tokens_iter it) (current_line it) with
    | (l, r, c) => (t :: l, {| tokens_iter := r; current_line := c; peeked := None |})
    end
  | None =>
    match collect_tokens (tokens_iter it) (current_line it) with
    | (l, r, c) => (l, {| tokens_iter := r; current_line := c; peeked := None |})
    end
  end.

Lemma collect_unfold it :
  iter_collect it =
  match iter_next it with
  | (None, it') => ([], it')
  | (Some t, it') => let (l, it'') := iter_collect it' in (t :: l, it'')
  end.
Proof.
  destruct it as [ts cur pk]. unfold iter_collect, iter_next.
  destruct pk as [[t|]|]; cbn.
  - destruct (collect_tokens ts cur) as [[l r] c]; reflexivity.
  - reflexivity.
  - revert cur; induction ts as [|t ts IH]; intro cur; cbn.
    + reflexivity.
    + destruct (is_comma t); [reflexivity|].
      destruct (is_ellipsis t && (start_line (tok_range t) =? cur)); [apply IH|].
      destruct (start_line (tok_range t) =? cur); [|reflexivity].
      cbn.
      destruct (collect_tokens ts cur) as [[l r] c]; reflexivity.
Qed.

(** The [while .. next_if(Comma)] loop, src/parser/statement_iterator.rs:65-69. *)
Fixpoint skip_commas (ts : list token) : list token :=
  match ts with
  | t :: ts' => if is_comma t then skip_commas ts' else ts
  | [] => []
  end.

(** [next_statement], src/parser/statement_iterator.rs:61-76. *)
Definition iter_next_statement (it : stmt_iter) : list token * stmt_iter :=
  let (remaining_tokens, it1) := iter_collect it in
  let ts := skip_commas (tokens_iter it1) in
  (remaining_tokens,
   {| tokens_iter := ts;
      current_line := line_of_next ts (current_line it1);
      peeked := None |}).
