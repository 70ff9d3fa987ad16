(** The unit tests of the crate (the test modules under src/parser), as
    computations on the model.  They are tests of the model against the
    expectations of its authors, not proofs of properties.  Generated by
    tools/repotests.py from the Rust sources. *)
From Coq Require Import String.
From Verif Require Import Api Lexer Parser TokIter TokIterFacts Display.
Local Open Scope Z_scope.

(** ** The helpers of src/lexer/tests.rs and src/lexer/range.rs:38-63 *)

(** [1.4_f32], the only float in the tests; its [to_string] is 1.4. *)
Definition f32_1_4 : spec_float :=
  match tokenize (lit "1.4 x") with
  | LexOk ({| tok_type := TValue (VNumber (Float x)) |} :: _) => x
  | _ => S754_nan
  end.

(** [TokenType::to_string], src/lexer/tests.rs:8-28.  Floats: see [f32_1_4]. *)
Definition type_text (t : token_type) : str :=
  match t with
  | TBukkitSlotAccess => lit "'Z"
  | TComma => lit ","
  | TExclamationMark => lit "!"
  | TQuestionMark => lit "?"
  | TEllipsis => lit "..."
  | TIdentifier s => s
  | TKeyword k => to_string_slice k
  | TSymbol s => s
  | TCommentSingleLine s => lit "BTW" ++ s
  | TCommentMultiLine s => lit "OBTW" ++ s ++ lit "TLDR"
  | TValue VNoob => lit "NOOB"
  | TValue (VNumber (Int z)) => i32_text z
  | TValue (VNumber (Float _)) => lit "1.4"
  | TValue (VString s) => [34%N] ++ s ++ [34%N]
  | TValue (VBoolean b) => if b then lit "true" else lit "false"
  end.

(** [From<TokenType> for Token], src/lexer/tests.rs:75-94. *)
Definition token_from (t : token_type) : token :=
  let n := Z.of_nat (byte_len (type_text t)) in
  mkToken t (mkRange position_start {| line := 1; column := 1 + n; bytes := n; chars := n |}).

(** [Add<TokenType> for &Token], src/lexer/tests.rs:32-39, with [Range::after]
    and [Add<&str> for Range], src/lexer/range.rs:44-56. *)
Definition add_column (n : Z) (p : position) : position :=
  {| line := line p; column := column p + n; bytes := bytes p; chars := chars p |}.
Definition token_add (t : token) (ty : token_type) : token :=
  let start := add_column 1 (r_end (tok_range t)) in
  mkToken ty (mkRange start (add_column (1 + Z.of_nat (byte_len (type_text ty))) start)).

(** [Range::set_line], src/lexer/range.rs:57-60. *)
Definition set_line (l : Z) (t : token) : token :=
  let p q := {| line := l; column := column q; bytes := bytes q; chars := chars q |} in
  mkToken (tok_type t) (mkRange (p (r_start (tok_range t))) (p (r_end (tok_range t)))).

(** [make_line], [chain_types], [make_block], src/lexer/tests.rs:44-72. *)
Definition make_line (types : list token_type) (initial_line : Z) : list token :=
  rev (fold_left (fun acc item =>
                    match acc with
                    | back :: _ => token_add back item :: acc
                    | [] => [set_line initial_line (token_from item)]
                    end) types []).
Definition default_token : token := token_from TComma.
Definition chain_types (types : list token_type) : token * list token :=
  let l := make_line types 1 in (hd default_token l, tl l).
Definition make_block (types : list (list token_type)) : list (list token) :=
  map (fun p => make_line (snd p) (Z.of_nat (fst p)))
      (combine (seq 0 (Datatypes.length types)) types).

(** [pop_front]; like the indices, it stays inside the vectors in the tests. *)
Definition pop_front (l : list token) : token * list token := (hd default_token l, tl l).
Definition pop_front_0 (l : list (list token)) : token * list (list token) :=
  match l with
  | x :: r => (hd default_token x, tl x :: r)
  | [] => (default_token, [])
  end.

(** The value of a Rust [Result]; the state of the iterator is not looked at. *)
Inductive result (A : Type) : Type := Ok (a : A) | Err (e : ast_error) | Panicked | OutOfFuel.
Arguments Ok {A}. Arguments Err {A}. Arguments Panicked {A}. Arguments OutOfFuel {A}.
Definition outcome {S A} (r : res S A) : result A :=
  match r with ROk a _ => Ok a | RErr e _ => Err e | RPanic _ => Panicked | RFuel => OutOfFuel end.

(** More fuel than any of the tests needs. *)
Definition fuel : nat := 40.
Definition inner_block (stop : token -> bool) :=
  parse_block iter_next iter_peek iter_next_statement
    (parse_statement iter_next iter_peek iter_next_statement fuel) stop fuel.

(** [n] calls of [next] on the iterator of [tokens()]. *)
Definition results {I} (next : I -> option (option token * I)) (it : I) (n : nat)
  : list (option token) :=
  match calls next n it with Some l => l | None => [] end.
Definition calls_Identifier i n := results (fun it => Some (id_next it)) (identifier_iter i) n.
Definition calls_VariableAccess v n := results (va_next fuel) (variable_access_iter v) n.
Definition calls_ASTExpression e n := results (expr_next fuel) (expression_iter e) n.
Definition calls_NaryOperation e n :=
  match e with
  | NaryOperation o es mkay => results (nary_next fuel) (nary_operation_iter o es mkay) n
  | _ => []
  end.
Definition calls_VariableAssignment a n :=
  results (assignment_next fuel) (variable_assignment_iter a) n.

(** ** The tests *)
