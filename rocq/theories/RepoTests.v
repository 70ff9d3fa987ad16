(** The unit tests of the crate (the test modules under src/parser), as
    computations on the model.  They are tests of the model against the
    expectations of its authors, not proofs of properties.  Generated by
    tools/repotests.py from the Rust sources. *)
From Coq Require Import String.
From Verif Require Import Api Lexer Parser TokIter TokIterFacts Display.
Local Open Scope Z_scope.

(** ** The helpers of src/lexer/tests.rs and src/lexer/range.rs:38-63 *)

(** [1.4_f32], the only float in the tests; its [to_string] is 1.4. *)
Definition f32_1_4 : spec_float :=
  match tokenize (lit "1.4 x") with
  | LexOk ({| tok_type := TValue (VNumber (Float x)) |} :: _) => x
  | _ => S754_nan
  end.

(** [TokenType::to_string], src/lexer/tests.rs:8-28.  Floats: see [f32_1_4]. *)
Definition type_text (t : token_type) : str :=
  match t with
  | TBukkitSlotAccess => lit "'Z"
  | TComma => lit ","
  | TExclamationMark => lit "!"
  | TQuestionMark => lit "?"
  | TEllipsis => lit "..."
  | TIdentifier s => s
  | TKeyword k => to_string_slice k
  | TSymbol s => s
  | TCommentSingleLine s => lit "BTW" ++ s
  | TCommentMultiLine s => lit "OBTW" ++ s ++ lit "TLDR"
  | TValue VNoob => lit "NOOB"
  | TValue (VNumber (Int z)) => i32_text z
  | TValue (VNumber (Float _)) => lit "1.4"
  | TValue (VString s) => [34%N] ++ s ++ [34%N]
  | TValue (VBoolean b) => if b then lit "true" else lit "false"
  end.

(** [From<TokenType> for Token], src/lexer/tests.rs:75-94. *)
Definition token_from (t : token_type) : token :=
  let n := Z.of_nat (byte_len (type_text t)) in
  mkToken t (mkRange position_start {| line := 1; column := 1 + n; bytes := n; chars := n |}).

(** [Add<TokenType> for &Token], src/lexer/tests.rs:32-39, with [Range::after]
    and [Add<&str> for Range], src/lexer/range.rs:44-56. *)
Definition add_column (n : Z) (p : position) : position :=
  {| line := line p; column := column p + n; bytes := bytes p; chars := chars p |}.
Definition token_add (t : token) (ty : token_type) : token :=
  let start := add_column 1 (r_end (tok_range t)) in
  mkToken ty (mkRange start (add_column (1 + Z.of_nat (byte_len (type_text ty))) start)).

(** [Range::set_line], src/lexer/range.rs:57-60. *)
Definition set_line (l : Z) (t : token) : token :=
  let p q := {| line := l; column := column q; bytes := bytes q; chars := chars q |} in
  mkToken (tok_type t) (mkRange (p (r_start (tok_range t))) (p (r_end (tok_range t)))).

(** [make_line], [chain_types], [make_block], src/lexer/tests.rs:44-72. *)
Definition make_line (types : list token_type) (initial_line : Z) : list token :=
  rev (fold_left (fun acc item =>
                    match acc with
                    | back :: _ => token_add back item :: acc
                    | [] => [set_line initial_line (token_from item)]
                    end) types []).
Definition default_token : token := token_from TComma.
Definition chain_types (types : list token_type) : token * list token :=
  let l := make_line types 1 in (hd default_token l, tl l).
Definition make_block (types : list (list token_type)) : list (list token) :=
  map (fun p => make_line (snd p) (Z.of_nat (fst p)))
      (combine (seq 0 (Datatypes.length types)) types).

(** [pop_front]; like the indices, it stays inside the vectors in the tests. *)
Definition pop_front (l : list token) : token * list token := (hd default_token l, tl l).
Definition pop_front_0 (l : list (list token)) : token * list (list token) :=
  match l with
  | x :: r => (hd default_token x, tl x :: r)
  | [] => (default_token, [])
  end.

(** The value of a Rust [Result]; the state of the iterator is not looked at. *)
Inductive result (A : Type) : Type := Ok (a : A) | Err (e : ast_error) | Panicked | OutOfFuel.
Arguments Ok {A}. Arguments Err {A}. Arguments Panicked {A}. Arguments OutOfFuel {A}.
Definition outcome {S A} (r : res S A) : result A :=
  match r with ROk a _ => Ok a | RErr e _ => Err e | RPanic _ => Panicked | RFuel => OutOfFuel end.

(** More fuel than any of the tests needs. *)
Definition fuel : nat := 40.
Definition inner_block (stop : token -> bool) :=
  parse_block iter_next iter_peek iter_next_statement
    (parse_statement iter_next iter_peek iter_next_statement fuel) stop fuel.

(** [n] calls of [next] on the iterator of [tokens()]. *)
Definition results {I} (next : I -> option (option token * I)) (it : I) (n : nat)
  : list (option token) :=
  match calls next n it with Some l => l | None => [] end.
Definition calls_Identifier i n := results (fun it => Some (id_next it)) (identifier_iter i) n.
Definition calls_VariableAccess v n := results (va_next fuel) (variable_access_iter v) n.
Definition calls_ASTExpression e n := results (expr_next fuel) (expression_iter e) n.
Definition calls_NaryOperation e n :=
  match e with
  | NaryOperation o es mkay => results (nary_next fuel) (nary_operation_iter o es mkay) n
  | _ => []
  end.
Definition calls_VariableAssignment a n :=
  results (assignment_next fuel) (variable_assignment_iter a) n.

(** ** The tests *)

(** src/parser/blocks.rs:215-273 *)
Example repo_blocks_block_root :
  let block_tokens := (make_block ([[(TKeyword Keywords.I_HAS_A); (TIdentifier ((lit "Batata"))); (TKeyword Keywords.ITZ); (TValue VNoob)]; [(TKeyword Keywords.VISIBLE); (TValue VNoob)]; [(TIdentifier ((lit "Batata"))); (TKeyword Keywords.R); (TValue VNoob)]])) in
  outcome (inner_block stop_root (iter_new (concat block_tokens))) =
  Ok (block_nodes (ASTBlock ([(NIHasA ((mkIHasA ((nth 0 (nth 0 block_tokens []) default_token)) ((mkIdentifier ((nth 1 (nth 0 block_tokens []) default_token)) None)) ((Some ((InitExpression ((Value ((LiteralValue ((nth 3 (nth 0 block_tokens []) default_token))))))))))))); (NVisible ((mkVisible ((nth 0 (nth 1 block_tokens []) default_token)) ([(Value ((LiteralValue ((nth 1 (nth 1 block_tokens []) default_token)))))]) None))); (NVariableAssignment ((mkAssignment ((mkVA ((mkIdentifier ((nth 0 (nth 2 block_tokens []) default_token)) None)) [])) ((Value ((LiteralValue ((nth 2 (nth 2 block_tokens []) default_token)))))) ((nth 1 (nth 2 block_tokens []) default_token)))))]))).
Proof. vm_compute. reflexivity. Qed.

(** src/parser/blocks.rs:275-353 *)
Example repo_blocks_block_function :
  let block_tokens := (make_block ([[(TKeyword Keywords.I_HAS_A); (TIdentifier ((lit "Batata")))]; [(TIdentifier ((lit "Batata"))); (TKeyword Keywords.R); (TKeyword Keywords.SUM_OF); (TIdentifier ((lit "Batata"))); (TKeyword Keywords.AN); (TValue VNoob)]; [(TKeyword Keywords.FOUND_YR); (TIdentifier ((lit "Batata")))]; [(TKeyword Keywords.IF_U_SAY_SO)]; [(TKeyword Keywords.VISIBLE); (TValue VNoob)]])) in
  outcome (inner_block stop_function (iter_new (concat block_tokens))) =
  Ok (block_nodes (ASTBlock ([(NIHasA ((mkIHasA ((nth 0 (nth 0 block_tokens []) default_token)) ((mkIdentifier ((nth 1 (nth 0 block_tokens []) default_token)) None)) None))); (NVariableAssignment ((mkAssignment ((mkVA ((mkIdentifier ((nth 0 (nth 1 block_tokens []) default_token)) None)) [])) ((BinaryOperation ((Value ((VariableAccess ((mkVA ((mkIdentifier ((nth 3 (nth 1 block_tokens []) default_token)) None)) [])))))) ((SumOf ((nth 2 (nth 1 block_tokens []) default_token)))) ((Value ((LiteralValue ((nth 5 (nth 1 block_tokens []) default_token)))))) ((Some ((nth 4 (nth 1 block_tokens []) default_token)))))) ((nth 1 (nth 1 block_tokens []) default_token))))); (NFoundYr ((mkFoundYr ((nth 0 (nth 2 block_tokens []) default_token)) ((Value ((VariableAccess ((mkVA ((mkIdentifier ((nth 1 (nth 2 block_tokens []) default_token)) None)) [])))))))))]))).
Proof. vm_compute. reflexivity. Qed.

(** src/parser/expression/identifier_iterator.rs:55-63 *)
Example repo_expression_identifier_iterator_no_srs :
  let name := (token_from ((TIdentifier ((lit "VAR"))))) in
  match identifier_parse iter_next name (iter_new []) with ROk identifier _ =>
  calls_Identifier identifier 2 =
  [(Some name); None] | _ => False end.
Proof. vm_compute. reflexivity. Qed.

(** src/parser/expression/identifier_iterator.rs:65-85 *)
Example repo_expression_identifier_iterator_with_srs :
  let tokens := (make_line ([(TKeyword Keywords.SRS); (TIdentifier ((lit "VAR")))]) (0%Z)) in
  let '(first_token, tokens) := pop_front tokens in
  match identifier_parse iter_next first_token (iter_new tokens) with ROk identifier _ =>
  calls_Identifier identifier 3 =
  [(Some first_token); (Some ((nth 0 tokens default_token))); None] | _ => False end.
Proof. vm_compute. reflexivity. Qed.

(** src/parser/expression/mod.rs:371-393 *)
Example repo_expression_mod_iterator_simple :
  let tokens := (make_line ([(TKeyword Keywords.SUM_OF); (TIdentifier ((lit "A"))); (TKeyword Keywords.AN); (TIdentifier ((lit "B")))]) (0%Z)) in
  let '(first_token, tokens) := pop_front tokens in
  match expr_parse iter_next iter_peek fuel first_token (iter_new tokens) with ROk expression _ =>
  calls_ASTExpression expression 5 =
  [(Some first_token); (Some ((nth 0 tokens default_token))); (Some ((nth 1 tokens default_token))); (Some ((nth 2 tokens default_token))); None] | _ => False end.
Proof. vm_compute. reflexivity. Qed.

(** src/parser/expression/mod.rs:395-431 *)
Example repo_expression_mod_iterator_unary_binary_nary :
  let tokens := (make_line ([(TKeyword Keywords.NOT); (TKeyword Keywords.BOTH_OF); (TKeyword Keywords.SMOOSH); (TIdentifier ((lit "A"))); (TKeyword Keywords.AN); (TIdentifier ((lit "B"))); (TKeyword Keywords.AN); (TIdentifier ((lit "C"))); (TKeyword Keywords.MKAY); (TKeyword Keywords.AN); (TIdentifier ((lit "D")))]) (0%Z)) in
  let '(first_token, tokens) := pop_front tokens in
  match expr_parse iter_next iter_peek fuel first_token (iter_new tokens) with ROk expression _ =>
  calls_ASTExpression expression 12 =
  [(Some first_token); (Some ((nth 0 tokens default_token))); (Some ((nth 1 tokens default_token))); (Some ((nth 2 tokens default_token))); (Some ((nth 3 tokens default_token))); (Some ((nth 4 tokens default_token))); (Some ((nth 5 tokens default_token))); (Some ((nth 6 tokens default_token))); (Some ((nth 7 tokens default_token))); (Some ((nth 8 tokens default_token))); (Some ((nth 9 tokens default_token))); None] | _ => False end.
Proof. vm_compute. reflexivity. Qed.

(** src/parser/expression/mod.rs:433-473 *)
Example repo_expression_mod_iterator_nary_access_value :
  let tokens := (make_line ([(TKeyword Keywords.ALL_OF); (TKeyword Keywords.SRS); (TIdentifier ((lit "A"))); (TKeyword Keywords.AN); (TIdentifier ((lit "B"))); TBukkitSlotAccess; (TIdentifier ((lit "C"))); TBukkitSlotAccess; (TKeyword Keywords.SRS); (TIdentifier ((lit "D"))); (TKeyword Keywords.AN); (TValue ((VString ((lit "VALUE"))))); (TKeyword Keywords.MKAY)]) (0%Z)) in
  let '(first_token, tokens) := pop_front tokens in
  match expr_parse iter_next iter_peek fuel first_token (iter_new tokens) with ROk expression _ =>
  calls_ASTExpression expression 14 =
  [(Some first_token); (Some ((nth 0 tokens default_token))); (Some ((nth 1 tokens default_token))); (Some ((nth 2 tokens default_token))); (Some ((nth 3 tokens default_token))); (Some ((nth 4 tokens default_token))); (Some ((nth 5 tokens default_token))); (Some ((nth 6 tokens default_token))); (Some ((nth 7 tokens default_token))); (Some ((nth 8 tokens default_token))); (Some ((nth 9 tokens default_token))); (Some ((nth 10 tokens default_token))); (Some ((nth 11 tokens default_token))); None] | _ => False end.
Proof. vm_compute. reflexivity. Qed.

(** src/parser/expression/nary_operations.rs:199-234 *)
Example repo_expression_nary_operations_iterator_smoosh_mkay :
  let tokens := (make_line ([(TKeyword Keywords.SMOOSH); (TIdentifier ((lit "A"))); (TKeyword Keywords.AN); (TIdentifier ((lit "B"))); (TKeyword Keywords.AN); (TIdentifier ((lit "C"))); (TKeyword Keywords.AN); (TIdentifier ((lit "D"))); (TKeyword Keywords.MKAY)]) (0%Z)) in
  let '(first_token, tokens) := pop_front tokens in
  match nary_parse iter_next iter_peek (expr_parse iter_next iter_peek fuel) fuel (Smoosh first_token) (iter_new tokens) with ROk variable_access _ =>
  calls_NaryOperation variable_access 10 =
  [(Some first_token); (Some ((nth 0 tokens default_token))); (Some ((nth 1 tokens default_token))); (Some ((nth 2 tokens default_token))); (Some ((nth 3 tokens default_token))); (Some ((nth 4 tokens default_token))); (Some ((nth 5 tokens default_token))); (Some ((nth 6 tokens default_token))); (Some ((nth 7 tokens default_token))); None] | _ => False end.
Proof. vm_compute. reflexivity. Qed.

(** src/parser/expression/variable_access_iterator.rs:115-123 *)
Example repo_expression_variable_access_iterator_no_srs_no_access :
  let name := (token_from ((TIdentifier ((lit "VAR"))))) in
  match va_parse iter_next iter_peek fuel name (iter_new []) with ROk variable_access _ =>
  calls_VariableAccess variable_access 2 =
  [(Some name); None] | _ => False end.
Proof. vm_compute. reflexivity. Qed.

(** src/parser/expression/variable_access_iterator.rs:125-149 *)
Example repo_expression_variable_access_iterator_no_srs_two_accesses :
  let tokens := (make_line ([(TIdentifier ((lit "Var"))); TBukkitSlotAccess; (TIdentifier ((lit "Access_1"))); TBukkitSlotAccess; (TIdentifier ((lit "Access_2")))]) (0%Z)) in
  let '(first_token, tokens) := pop_front tokens in
  match va_parse iter_next iter_peek fuel first_token (iter_new tokens) with ROk variable_access _ =>
  calls_VariableAccess variable_access 6 =
  [(Some first_token); (Some ((nth 0 tokens default_token))); (Some ((nth 1 tokens default_token))); (Some ((nth 2 tokens default_token))); (Some ((nth 3 tokens default_token))); None] | _ => False end.
Proof. vm_compute. reflexivity. Qed.

(** src/parser/expression/variable_access_iterator.rs:151-179 *)
Example repo_expression_variable_access_iterator_some_srs_two_accesses :
  let tokens := (make_line ([(TKeyword Keywords.SRS); (TIdentifier ((lit "Var"))); TBukkitSlotAccess; (TKeyword Keywords.SRS); (TIdentifier ((lit "Access_1"))); TBukkitSlotAccess; (TIdentifier ((lit "Access_2")))]) (0%Z)) in
  let '(first_token, tokens) := pop_front tokens in
  match va_parse iter_next iter_peek fuel first_token (iter_new tokens) with ROk variable_access _ =>
  calls_VariableAccess variable_access 8 =
  [(Some first_token); (Some ((nth 0 tokens default_token))); (Some ((nth 1 tokens default_token))); (Some ((nth 2 tokens default_token))); (Some ((nth 3 tokens default_token))); (Some ((nth 4 tokens default_token))); (Some ((nth 5 tokens default_token))); None] | _ => False end.
Proof. vm_compute. reflexivity. Qed.

(** src/parser/statements/assignment.rs:152-184 *)
Example repo_statements_assignment_normal :
  let '(identifier, operands) := (chain_types ([(TIdentifier ((lit "Batata"))); (TKeyword Keywords.R); (TValue VNoob)])) in
  outcome (assignment_parse iter_next iter_peek fuel ((mkVA ((mkIdentifier identifier None)) [])) (iter_new operands)) =
  (Ok ((mkAssignment ((mkVA ((mkIdentifier identifier None)) [])) ((Value ((LiteralValue ((nth 1 operands default_token)))))) ((nth 0 operands default_token))))).
Proof. vm_compute. reflexivity. Qed.

(** src/parser/statements/assignment.rs:186-205 *)
Example repo_statements_assignment_missing_r :
  let '(identifier, operands) := (chain_types ([(TIdentifier ((lit "Batata"))); (TValue VNoob)])) in
  outcome (assignment_parse iter_next iter_peek fuel ((mkVA ((mkIdentifier identifier None)) [])) (iter_new operands)) =
  (Err ((EVariableAssignment ((MissingR identifier))))).
Proof. vm_compute. reflexivity. Qed.

(** src/parser/statements/assignment.rs:207-230 *)
Example repo_statements_assignment_iterator_simple_assignment :
  let tokens := (make_line ([(TIdentifier ((lit "A"))); (TKeyword Keywords.R); (TKeyword Keywords.NOOB)]) (0%Z)) in
  let '(first_token, tokens) := pop_front tokens in
  let statement_iterator := (iter_new tokens) in
  match va_parse iter_next iter_peek fuel first_token statement_iterator with ROk variable_access statement_iterator =>
  match assignment_parse iter_next iter_peek fuel variable_access statement_iterator with ROk expression statement_iterator =>
  calls_VariableAssignment expression 4 =
  [(Some first_token); (Some ((nth 0 tokens default_token))); (Some ((nth 1 tokens default_token))); None] | _ => False end | _ => False end.
Proof. vm_compute. reflexivity. Qed.

(** src/parser/statements/assignment.rs:232-261 *)
Example repo_statements_assignment_iterator_expression :
  let tokens := (make_line ([(TIdentifier ((lit "A"))); (TKeyword Keywords.R); (TKeyword Keywords.EITHER_OF); (TKeyword Keywords.NOOB); (TKeyword Keywords.AN); (TKeyword Keywords.NOOB)]) (0%Z)) in
  let '(first_token, tokens) := pop_front tokens in
  let statement_iterator := (iter_new tokens) in
  match va_parse iter_next iter_peek fuel first_token statement_iterator with ROk variable_access statement_iterator =>
  match assignment_parse iter_next iter_peek fuel variable_access statement_iterator with ROk expression statement_iterator =>
  calls_VariableAssignment expression 7 =
  [(Some first_token); (Some ((nth 0 tokens default_token))); (Some ((nth 1 tokens default_token))); (Some ((nth 2 tokens default_token))); (Some ((nth 3 tokens default_token))); (Some ((nth 4 tokens default_token))); None] | _ => False end | _ => False end.
Proof. vm_compute. reflexivity. Qed.

(** src/parser/statements/bukkit_set_slot.rs:81-116 *)
Example repo_statements_bukkit_set_slot_normal :
  let '(identifier, operands) := (chain_types ([(TIdentifier ((lit "Batata"))); (TKeyword Keywords.HAS_A); (TIdentifier ((lit "Tomate"))); (TKeyword Keywords.ITZ); (TValue ((VString ((lit "Cebola")))))])) in
  outcome (bukkit_set_slot_parse iter_next iter_peek fuel ((mkVA ((mkIdentifier identifier None)) [])) (iter_new operands)) =
  (Ok ((mkBukkitSetSlot ((mkVA ((mkIdentifier identifier None)) [])) ((mkIdentifier ((nth 1 operands default_token)) None)) ((Value ((LiteralValue ((nth 3 operands default_token))))))))).
Proof. vm_compute. reflexivity. Qed.

(** src/parser/statements/found_yr.rs:52-75 *)
Example repo_statements_found_yr_simple :
  let keyword := (token_from ((TKeyword Keywords.GIMMEH))) in
  let ident := (token_add keyword ((TIdentifier ((lit "Batata"))))) in
  outcome (found_yr_parse iter_next iter_peek fuel keyword (iter_new [ident])) =
  (Ok ((mkFoundYr keyword ((Value ((VariableAccess ((mkVA ((mkIdentifier ident None)) []))))))))).
Proof. vm_compute. reflexivity. Qed.

(** src/parser/statements/found_yr.rs:77-85 *)
Example repo_statements_found_yr_missing_token :
  let keyword := (token_from ((TKeyword Keywords.GIMMEH))) in
  outcome (found_yr_parse iter_next iter_peek fuel keyword (iter_new [])) =
  (Err ((MissingToken keyword))).
Proof. vm_compute. reflexivity. Qed.

(** src/parser/statements/gimmeh.rs:44-64 *)
Example repo_statements_gimmeh_simple :
  let '(keyword, tokens) := (chain_types ([(TKeyword Keywords.GIMMEH); (TIdentifier ((lit "Batata")))])) in
  outcome (gimmeh_parse iter_next iter_peek fuel keyword (iter_new tokens)) =
  (Ok ((mkGimmeh keyword ((mkVA ((mkIdentifier ((nth 0 tokens default_token)) None)) []))))).
Proof. vm_compute. reflexivity. Qed.

(** src/parser/statements/gimmeh.rs:66-77 *)
Example repo_statements_gimmeh_invalid_identifier :
  let '(keyword, tokens) := (chain_types ([(TKeyword Keywords.GIMMEH); (TValue VNoob)])) in
  outcome (gimmeh_parse iter_next iter_peek fuel keyword (iter_new tokens)) =
  (Err ((UnexpectedToken ((nth 0 tokens default_token))))).
Proof. vm_compute. reflexivity. Qed.

(** src/parser/statements/gimmeh.rs:79-87 *)
Example repo_statements_gimmeh_missing_identifier :
  let '(keyword, tokens) := (chain_types ([(TKeyword Keywords.GIMMEH)])) in
  outcome (gimmeh_parse iter_next iter_peek fuel keyword (iter_new tokens)) =
  (Err ((MissingToken keyword))).
Proof. vm_compute. reflexivity. Qed.

(** src/parser/statements/hai.rs:32-46 *)
Example repo_statements_hai_simple :
  let '(first_token, tokens) := (chain_types ([(TKeyword Keywords.HAI); (TValue ((VNumber ((Float f32_1_4)))))])) in
  outcome (hai_parse iter_next_statement first_token (iter_new tokens)) =
  (Ok ((mkHai first_token tokens))).
Proof. vm_compute. reflexivity. Qed.

(** src/parser/statements/how_is_i.rs:96-130 *)
Example repo_statements_how_is_i_simple_no_arguments :
  let block_tokens := (make_block ([[(TKeyword Keywords.HOW_IZ_I); (TIdentifier ((lit "Some_Func")))]; [(TKeyword Keywords.VISIBLE); (TValue ((VString ((lit "Hai!")))))]; [(TKeyword Keywords.IF_U_SAY_SO)]])) in
  let '(first_token, block_tokens) := pop_front_0 block_tokens in
  outcome (how_iz_i_parse iter_next iter_peek iter_next_statement inner_block fuel first_token (iter_new (concat block_tokens))) =
  (Ok ((HowIzI first_token ((mkIdentifier ((nth 0 (nth 0 block_tokens []) default_token)) None)) [] ((ASTBlock ([(NVisible ((mkVisible ((nth 0 (nth 1 block_tokens []) default_token)) ([(Value ((LiteralValue ((nth 1 (nth 1 block_tokens []) default_token)))))]) None)))])))))).
Proof. vm_compute. reflexivity. Qed.

(** src/parser/statements/how_is_i.rs:132-187 *)
Example repo_statements_how_is_i_simple_some_arguments :
  let block_tokens := (make_block ([[(TKeyword Keywords.HOW_IZ_I); (TIdentifier ((lit "Some_Func"))); (TKeyword Keywords.YR); (TIdentifier ((lit "Arg1"))); (TKeyword Keywords.AN); (TKeyword Keywords.YR); (TIdentifier ((lit "Arg2"))); (TKeyword Keywords.AN); (TKeyword Keywords.YR); (TIdentifier ((lit "Arg3")))]; [(TKeyword Keywords.VISIBLE); (TValue ((VString ((lit "Hai!")))))]; [(TKeyword Keywords.IF_U_SAY_SO)]])) in
  let '(first_token, block_tokens) := pop_front_0 block_tokens in
  outcome (how_iz_i_parse iter_next iter_peek iter_next_statement inner_block fuel first_token (iter_new (concat block_tokens))) =
  (Ok ((HowIzI first_token ((mkIdentifier ((nth 0 (nth 0 block_tokens []) default_token)) None)) ([(mkIdentifier ((nth 2 (nth 0 block_tokens []) default_token)) None); (mkIdentifier ((nth 5 (nth 0 block_tokens []) default_token)) None); (mkIdentifier ((nth 8 (nth 0 block_tokens []) default_token)) None)]) ((ASTBlock ([(NVisible ((mkVisible ((nth 0 (nth 1 block_tokens []) default_token)) ([(Value ((LiteralValue ((nth 1 (nth 1 block_tokens []) default_token)))))]) None)))])))))).
Proof. vm_compute. reflexivity. Qed.

(** src/parser/statements/i_has_a.rs:101-108 *)
Example repo_statements_i_has_a_missing_identifier :
  let '(keyword, tokens) := (chain_types ([(TKeyword Keywords.I_HAS_A)])) in
  outcome (i_has_a_parse iter_next iter_peek fuel keyword (iter_new tokens)) =
  (Err ((EIHasA ((MissingIdentifier keyword))))).
Proof. vm_compute. reflexivity. Qed.

(** src/parser/statements/i_has_a.rs:110-121 *)
Example repo_statements_i_has_a_invalid_identifier_noob :
  let '(keyword, tokens) := (chain_types ([(TKeyword Keywords.I_HAS_A); (TValue VNoob)])) in
  outcome (i_has_a_parse iter_next iter_peek fuel keyword (iter_new tokens)) =
  (Err ((EIHasA ((InvalidIdentifier ((nth 0 tokens default_token))))))).
Proof. vm_compute. reflexivity. Qed.

(** src/parser/statements/i_has_a.rs:123-134 *)
Example repo_statements_i_has_a_invalid_identifier_string :
  let '(keyword, tokens) := (chain_types ([(TKeyword Keywords.I_HAS_A); (TValue ((VString ((lit "Batata")))))])) in
  outcome (i_has_a_parse iter_next iter_peek fuel keyword (iter_new tokens)) =
  (Err ((EIHasA ((InvalidIdentifier ((nth 0 tokens default_token))))))).
Proof. vm_compute. reflexivity. Qed.

(** src/parser/statements/i_has_a.rs:136-147 *)
Example repo_statements_i_has_a_invalid_identifier_number :
  let '(keyword, tokens) := (chain_types ([(TKeyword Keywords.I_HAS_A); (TValue ((VNumber ((Int (123%Z))))))])) in
  outcome (i_has_a_parse iter_next iter_peek fuel keyword (iter_new tokens)) =
  (Err ((EIHasA ((InvalidIdentifier ((nth 0 tokens default_token))))))).
Proof. vm_compute. reflexivity. Qed.

(** src/parser/statements/i_has_a.rs:149-161 *)
Example repo_statements_i_has_a_missing_itz :
  let '(keyword, tokens) := (chain_types ([(TKeyword Keywords.I_HAS_A); (TIdentifier ((lit "Batata"))); (TKeyword Keywords.NOOB)])) in
  outcome (i_has_a_parse iter_next iter_peek fuel keyword (iter_new tokens)) =
  (Err ((UnexpectedToken ((nth 1 tokens default_token))))).
Proof. vm_compute. reflexivity. Qed.

(** src/parser/statements/i_has_a.rs:163-175 *)
Example repo_statements_i_has_a_missing_value :
  let '(keyword, tokens) := (chain_types ([(TKeyword Keywords.I_HAS_A); (TIdentifier ((lit "Batata"))); (TKeyword Keywords.ITZ)])) in
  outcome (i_has_a_parse iter_next iter_peek fuel keyword (iter_new tokens)) =
  (Err ((EIHasA ((ExpectedInitialValue ((nth 1 tokens default_token))))))).
Proof. vm_compute. reflexivity. Qed.

(** src/parser/statements/i_has_a.rs:177-190 *)
Example repo_statements_i_has_a_invalid_value :
  let '(keyword, tokens) := (chain_types ([(TKeyword Keywords.I_HAS_A); (TIdentifier ((lit "Batata"))); (TKeyword Keywords.ITZ); (TSymbol ((lit "+")))])) in
  outcome (i_has_a_parse iter_next iter_peek fuel keyword (iter_new tokens)) =
  (Err ((UnexpectedToken ((nth 2 tokens default_token))))).
Proof. vm_compute. reflexivity. Qed.

(** src/parser/statements/i_has_a.rs:192-214 *)
Example repo_statements_i_has_a_success_with_intial_value :
  let '(first_token, tokens) := (chain_types ([(TKeyword Keywords.I_HAS_A); (TIdentifier ((lit "Batata"))); (TKeyword Keywords.ITZ); (TValue ((VString ((lit "Tomate")))))])) in
  outcome (i_has_a_parse iter_next iter_peek fuel first_token (iter_new tokens)) =
  (Ok ((mkIHasA first_token ((mkIdentifier ((nth 0 tokens default_token)) None)) ((Some ((InitExpression ((Value ((LiteralValue ((nth 2 tokens default_token))))))))))))).
Proof. vm_compute. reflexivity. Qed.

(** src/parser/statements/i_has_a.rs:216-236 *)
Example repo_statements_i_has_a_success_with_intial_type :
  let '(first_token, tokens) := (chain_types ([(TKeyword Keywords.I_HAS_A); (TIdentifier ((lit "Batata"))); (TKeyword Keywords.ITZ); (TKeyword Keywords.YARN)])) in
  outcome (i_has_a_parse iter_next iter_peek fuel first_token (iter_new tokens)) =
  (Ok ((mkIHasA first_token ((mkIdentifier ((nth 0 tokens default_token)) None)) ((Some ((InitType ((TyYarn ((nth 2 tokens default_token))))))))))).
Proof. vm_compute. reflexivity. Qed.

(** src/parser/statements/i_is.rs:102-126 *)
Example repo_statements_i_is_simple_no_arguments :
  let block_tokens := (make_block ([[(TKeyword Keywords.I_IZ); (TIdentifier ((lit "Some_Func"))); (TKeyword Keywords.MKAY)]])) in
  let '(first_token, block_tokens) := pop_front_0 block_tokens in
  outcome (i_iz_parse iter_next iter_peek fuel first_token (iter_new (concat block_tokens))) =
  (Ok ((mkIIz first_token ((mkVA ((mkIdentifier ((nth 0 (nth 0 block_tokens []) default_token)) None)) [])) []))).
Proof. vm_compute. reflexivity. Qed.

(** src/parser/statements/i_is.rs:128-195 *)
Example repo_statements_i_is_simple_some_arguments :
  let block_tokens := (make_block ([[(TKeyword Keywords.I_IZ); (TIdentifier ((lit "Some_Func"))); (TKeyword Keywords.YR); (TIdentifier ((lit "Batata"))); (TKeyword Keywords.AN); (TKeyword Keywords.YR); (TIdentifier ((lit "Tomate"))); (TKeyword Keywords.AN); (TKeyword Keywords.YR); (TKeyword Keywords.SUM_OF); (TIdentifier ((lit "Cebola"))); (TKeyword Keywords.AN); (TKeyword Keywords.NOOB); (TKeyword Keywords.MKAY)]])) in
  let '(first_token, block_tokens) := pop_front_0 block_tokens in
  outcome (i_iz_parse iter_next iter_peek fuel first_token (iter_new (concat block_tokens))) =
  (Ok ((mkIIz first_token ((mkVA ((mkIdentifier ((nth 0 (nth 0 block_tokens []) default_token)) None)) [])) ([(Value ((VariableAccess ((mkVA ((mkIdentifier ((nth 2 (nth 0 block_tokens []) default_token)) None)) []))))); (Value ((VariableAccess ((mkVA ((mkIdentifier ((nth 5 (nth 0 block_tokens []) default_token)) None)) []))))); (BinaryOperation ((Value ((VariableAccess ((mkVA ((mkIdentifier ((nth 9 (nth 0 block_tokens []) default_token)) None)) [])))))) ((SumOf ((nth 8 (nth 0 block_tokens []) default_token)))) ((Value ((LiteralValue ((nth 11 (nth 0 block_tokens []) default_token)))))) ((Some ((nth 10 (nth 0 block_tokens []) default_token)))))])))).
Proof. vm_compute. reflexivity. Qed.

(** src/parser/statements/im_in_yr.rs:289-374 *)
Example repo_statements_im_in_yr_no_iteration_operation :
  let block_tokens := (make_block ([[(TKeyword Keywords.IM_IN_YR); (TIdentifier ((lit "Batata")))]; [(TKeyword Keywords.VISIBLE); (TValue ((VString ((lit "Iteration"))))); (TIdentifier ((lit "COUNT")))]; [(TIdentifier ((lit "COUNT"))); (TKeyword Keywords.R); (TKeyword Keywords.SUM_OF); (TIdentifier ((lit "COUNT"))); (TKeyword Keywords.AN); (TValue ((VNumber ((Int (1%Z))))))]; [(TKeyword Keywords.IM_OUTTA_YR); (TIdentifier ((lit "Batata")))]])) in
  let '(first_token, block_tokens) := pop_front_0 block_tokens in
  outcome (im_in_yr_parse iter_next iter_peek iter_next_statement inner_block fuel first_token (iter_new (concat block_tokens))) =
  (Ok ((ImInYr first_token ((nth 0 (nth 0 block_tokens []) default_token)) None None (ASTBlock [(NVisible ((mkVisible ((nth 0 (nth 1 block_tokens []) default_token)) ([(Value ((LiteralValue ((nth 1 (nth 1 block_tokens []) default_token))))); (Value ((VariableAccess ((mkVA ((mkIdentifier ((nth 2 (nth 1 block_tokens []) default_token)) None)) [])))))]) None))); (NVariableAssignment ((mkAssignment ((mkVA ((mkIdentifier ((nth 0 (nth 2 block_tokens []) default_token)) None)) [])) ((BinaryOperation ((Value ((VariableAccess ((mkVA ((mkIdentifier ((nth 3 (nth 2 block_tokens []) default_token)) None)) [])))))) ((SumOf ((nth 2 (nth 2 block_tokens []) default_token)))) ((Value ((LiteralValue ((nth 5 (nth 2 block_tokens []) default_token)))))) ((Some ((nth 4 (nth 2 block_tokens []) default_token)))))) ((nth 1 (nth 2 block_tokens []) default_token)))))]) ((nth 1 (nth 3 block_tokens []) default_token))))).
Proof. vm_compute. reflexivity. Qed.

(** src/parser/statements/im_in_yr.rs:376-475 *)
Example repo_statements_im_in_yr_simple_iteration_uppin :
  let block_tokens := (make_block ([[(TKeyword Keywords.IM_IN_YR); (TIdentifier ((lit "Batata"))); (TKeyword Keywords.UPPIN); (TKeyword Keywords.YR); (TIdentifier ((lit "COUNT")))]; [(TKeyword Keywords.VISIBLE); (TValue ((VString ((lit "Iteration"))))); (TIdentifier ((lit "COUNT")))]; [(TIdentifier ((lit "COUNT"))); (TKeyword Keywords.R); (TKeyword Keywords.SUM_OF); (TIdentifier ((lit "COUNT"))); (TKeyword Keywords.AN); (TValue ((VNumber ((Int (1%Z))))))]; [(TKeyword Keywords.IM_OUTTA_YR); (TIdentifier ((lit "Batata")))]])) in
  let '(first_token, block_tokens) := pop_front_0 block_tokens in
  outcome (im_in_yr_parse iter_next iter_peek iter_next_statement inner_block fuel first_token (iter_new (concat block_tokens))) =
  (Ok ((ImInYr first_token ((nth 0 (nth 0 block_tokens []) default_token)) ((Some ((mkLoopIteration ((LUppin ((nth 1 (nth 0 block_tokens []) default_token)))) ((mkVA ((mkIdentifier ((nth 3 (nth 0 block_tokens []) default_token)) None)) [])))))) None (ASTBlock [(NVisible ((mkVisible ((nth 0 (nth 1 block_tokens []) default_token)) ([(Value ((LiteralValue ((nth 1 (nth 1 block_tokens []) default_token))))); (Value ((VariableAccess ((mkVA ((mkIdentifier ((nth 2 (nth 1 block_tokens []) default_token)) None)) [])))))]) None))); (NVariableAssignment ((mkAssignment ((mkVA ((mkIdentifier ((nth 0 (nth 2 block_tokens []) default_token)) None)) [])) ((BinaryOperation ((Value ((VariableAccess ((mkVA ((mkIdentifier ((nth 3 (nth 2 block_tokens []) default_token)) None)) [])))))) ((SumOf ((nth 2 (nth 2 block_tokens []) default_token)))) ((Value ((LiteralValue ((nth 5 (nth 2 block_tokens []) default_token)))))) ((Some ((nth 4 (nth 2 block_tokens []) default_token)))))) ((nth 1 (nth 2 block_tokens []) default_token)))))]) ((nth 1 (nth 3 block_tokens []) default_token))))).
Proof. vm_compute. reflexivity. Qed.

(** src/parser/statements/im_in_yr.rs:477-598 *)
Example repo_statements_im_in_yr_simple_iteration_uppin_with_limit :
  let block_tokens := (make_block ([[(TKeyword Keywords.IM_IN_YR); (TIdentifier ((lit "Batata"))); (TKeyword Keywords.UPPIN); (TKeyword Keywords.YR); (TIdentifier ((lit "COUNT"))); (TKeyword Keywords.TIL); (TKeyword Keywords.BOTH_SAEM); (TIdentifier ((lit "COUNT"))); (TKeyword Keywords.AN); (TValue ((VNumber ((Int (10%Z))))))]; [(TKeyword Keywords.VISIBLE); (TValue ((VString ((lit "Iteration"))))); (TIdentifier ((lit "COUNT")))]; [(TIdentifier ((lit "COUNT"))); (TKeyword Keywords.R); (TKeyword Keywords.SUM_OF); (TIdentifier ((lit "COUNT"))); (TKeyword Keywords.AN); (TValue ((VNumber ((Int (1%Z))))))]; [(TKeyword Keywords.IM_OUTTA_YR); (TIdentifier ((lit "Batata")))]])) in
  let '(first_token, block_tokens) := pop_front_0 block_tokens in
  outcome (im_in_yr_parse iter_next iter_peek iter_next_statement inner_block fuel first_token (iter_new (concat block_tokens))) =
  (Ok ((ImInYr first_token ((nth 0 (nth 0 block_tokens []) default_token)) ((Some ((mkLoopIteration ((LUppin ((nth 1 (nth 0 block_tokens []) default_token)))) ((mkVA ((mkIdentifier ((nth 3 (nth 0 block_tokens []) default_token)) None)) [])))))) ((Some ((LTil ((BinaryOperation ((Value ((VariableAccess ((mkVA ((mkIdentifier ((nth 6 (nth 0 block_tokens []) default_token)) None)) [])))))) ((BothSaem ((nth 5 (nth 0 block_tokens []) default_token)))) ((Value ((LiteralValue ((nth 8 (nth 0 block_tokens []) default_token)))))) ((Some ((nth 7 (nth 0 block_tokens []) default_token)))))))))) (ASTBlock [(NVisible ((mkVisible ((nth 0 (nth 1 block_tokens []) default_token)) ([(Value ((LiteralValue ((nth 1 (nth 1 block_tokens []) default_token))))); (Value ((VariableAccess ((mkVA ((mkIdentifier ((nth 2 (nth 1 block_tokens []) default_token)) None)) [])))))]) None))); (NVariableAssignment ((mkAssignment ((mkVA ((mkIdentifier ((nth 0 (nth 2 block_tokens []) default_token)) None)) [])) ((BinaryOperation ((Value ((VariableAccess ((mkVA ((mkIdentifier ((nth 3 (nth 2 block_tokens []) default_token)) None)) [])))))) ((SumOf ((nth 2 (nth 2 block_tokens []) default_token)))) ((Value ((LiteralValue ((nth 5 (nth 2 block_tokens []) default_token)))))) ((Some ((nth 4 (nth 2 block_tokens []) default_token)))))) ((nth 1 (nth 2 block_tokens []) default_token)))))]) ((nth 1 (nth 3 block_tokens []) default_token))))).
Proof. vm_compute. reflexivity. Qed.

(** src/parser/statements/o_rly.rs:136-212 *)
Example repo_statements_o_rly_if_mebbe_else :
  let block_tokens := (make_block ([[(TKeyword Keywords.O_RLY); (TSymbol ((lit "?")))]; [(TKeyword Keywords.YA_RLY)]; [(TKeyword Keywords.VISIBLE); (TIdentifier ((lit "Batata")))]; [(TKeyword Keywords.MEBBE); (TValue ((VString ((lit "SOME VALUE")))))]; [(TKeyword Keywords.VISIBLE); (TValue VNoob)]; [(TKeyword Keywords.NO_WAI); TComma; (TKeyword Keywords.VISIBLE); (TValue ((VNumber ((Int (10%Z))))))]; [(TKeyword Keywords.OIC)]])) in
  let '(first_token, block_tokens) := pop_front_0 block_tokens in
  outcome (o_rly_parse iter_next iter_peek iter_next_statement inner_block fuel first_token (iter_new (concat block_tokens))) =
  (Ok ((ORly first_token ((Some ((YaRly ((nth 0 (nth 1 block_tokens []) default_token)) ((ASTBlock ([(NVisible ((mkVisible ((nth 0 (nth 2 block_tokens []) default_token)) ([(Value ((VariableAccess ((mkVA ((mkIdentifier ((nth 1 (nth 2 block_tokens []) default_token)) None)) [])))))]) None)))]))))))) ((Some ((NoWai ((nth 0 (nth 5 block_tokens []) default_token)) ((ASTBlock ([(NVisible ((mkVisible ((nth 2 (nth 5 block_tokens []) default_token)) ([(Value ((LiteralValue ((nth 3 (nth 5 block_tokens []) default_token)))))]) None)))]))))))) ([(Mebbe ((nth 0 (nth 3 block_tokens []) default_token)) ((Value ((LiteralValue ((nth 1 (nth 3 block_tokens []) default_token)))))) ((ASTBlock ([(NVisible ((mkVisible ((nth 0 (nth 4 block_tokens []) default_token)) ([(Value ((LiteralValue ((nth 1 (nth 4 block_tokens []) default_token)))))]) None)))]))))])))).
Proof. vm_compute. reflexivity. Qed.

(** src/parser/statements/o_rly.rs:214-250 *)
Example repo_statements_o_rly_if_else :
  let block_tokens := (make_block ([[(TKeyword Keywords.O_RLY); (TSymbol ((lit "?")))]; [(TKeyword Keywords.NO_WAI); TComma; (TKeyword Keywords.VISIBLE); (TValue ((VNumber ((Int (10%Z))))))]; [(TKeyword Keywords.OIC)]])) in
  let '(first_token, block_tokens) := pop_front_0 block_tokens in
  outcome (o_rly_parse iter_next iter_peek iter_next_statement inner_block fuel first_token (iter_new (concat block_tokens))) =
  (Ok ((ORly first_token None ((Some ((NoWai ((nth 0 (nth 1 block_tokens []) default_token)) ((ASTBlock ([(NVisible ((mkVisible ((nth 2 (nth 1 block_tokens []) default_token)) ([(Value ((LiteralValue ((nth 3 (nth 1 block_tokens []) default_token)))))]) None)))]))))))) []))).
Proof. vm_compute. reflexivity. Qed.

(** src/parser/statements/o_rly.rs:252-271 *)
Example repo_statements_o_rly_missing_question_mark :
  let block_tokens := (make_block ([[(TKeyword Keywords.O_RLY)]; [(TKeyword Keywords.NO_WAI); TComma; (TKeyword Keywords.VISIBLE); (TValue ((VNumber ((Int (10%Z))))))]; [(TKeyword Keywords.OIC)]])) in
  let '(first_token, block_tokens) := pop_front_0 block_tokens in
  outcome (o_rly_parse iter_next iter_peek iter_next_statement inner_block fuel first_token (iter_new (concat block_tokens))) =
  (Err ((EORly ((MissingQuestionMark first_token))))).
Proof. vm_compute. reflexivity. Qed.

(** src/parser/statements/visible.rs:51-68 *)
Example repo_statements_visible_success_hello_world :
  let '(keyword, tokens) := (chain_types ([(TKeyword Keywords.VISIBLE); (TValue ((VString ((lit "Hello, World!")))))])) in
  outcome (visible_parse iter_next iter_peek fuel keyword (iter_new tokens)) =
  (Ok ((mkVisible keyword ([(Value ((LiteralValue ((nth 0 tokens default_token)))))]) None))).
Proof. vm_compute. reflexivity. Qed.

(** src/parser/statements/visible.rs:70-88 *)
Example repo_statements_visible_success_hello_world_exclamation_mark :
  let '(keyword, tokens) := (chain_types ([(TKeyword Keywords.VISIBLE); (TValue ((VString ((lit "Hello, World!"))))); TExclamationMark])) in
  outcome (visible_parse iter_next iter_peek fuel keyword (iter_new tokens)) =
  (Ok ((mkVisible keyword ([(Value ((LiteralValue ((nth 0 tokens default_token)))))]) ((Some ((nth 1 tokens default_token))))))).
Proof. vm_compute. reflexivity. Qed.

(** src/parser/statements/visible.rs:90-102 *)
Example repo_statements_visible_success_empty_expression :
  let '(keyword, tokens) := (chain_types ([(TKeyword Keywords.VISIBLE)])) in
  outcome (visible_parse iter_next iter_peek fuel keyword (iter_new tokens)) =
  (Ok ((mkVisible keyword [] None))).
Proof. vm_compute. reflexivity. Qed.

(** src/parser/statements/visible.rs:104-119 *)
Example repo_statements_visible_success_empty_expression_with_exclamation_mark :
  let '(keyword, tokens) := (chain_types ([(TKeyword Keywords.VISIBLE); TExclamationMark])) in
  outcome (visible_parse iter_next iter_peek fuel keyword (iter_new tokens)) =
  (Ok ((mkVisible keyword [] ((Some ((nth 0 tokens default_token))))))).
Proof. vm_compute. reflexivity. Qed.

(** src/parser/statements/visible.rs:121-205 *)
Example repo_statements_visible_complex_expressions :
  let '(first_token, tokens) := (chain_types ([(TKeyword Keywords.VISIBLE); (TKeyword Keywords.SMOOSH); (TValue ((VString ((lit "Hello, World!"))))); (TKeyword Keywords.AN); (TKeyword Keywords.SUM_OF); (TValue ((VNumber ((Int (10%Z)))))); (TValue VNoob); (TIdentifier ((lit "Batata"))); (TKeyword Keywords.MKAY); (TKeyword Keywords.EITHER_OF); (TIdentifier ((lit "Tomate"))); (TKeyword Keywords.AN); (TValue VNoob); TExclamationMark])) in
  outcome (visible_parse iter_next iter_peek fuel first_token (iter_new tokens)) =
  (Ok ((mkVisible first_token ([(NaryOperation ((Smoosh ((nth 0 tokens default_token)))) ([(Operand ((Value ((LiteralValue ((nth 1 tokens default_token)))))) ((Some ((nth 2 tokens default_token))))); (Operand ((BinaryOperation ((Value ((LiteralValue ((nth 4 tokens default_token)))))) ((SumOf ((nth 3 tokens default_token)))) ((Value ((LiteralValue ((nth 5 tokens default_token)))))) None)) None); (Operand ((Value ((VariableAccess ((mkVA ((mkIdentifier ((nth 6 tokens default_token)) None)) [])))))) None)]) ((Some ((nth 7 tokens default_token))))); (BinaryOperation ((Value ((VariableAccess ((mkVA ((mkIdentifier ((nth 9 tokens default_token)) None)) [])))))) ((EitherOf ((nth 8 tokens default_token)))) ((Value ((LiteralValue ((nth 11 tokens default_token)))))) ((Some ((nth 10 tokens default_token)))))]) ((Some ((nth 12 tokens default_token))))))).
Proof. vm_compute. reflexivity. Qed.

(** src/parser/statements/wtf.rs:106-196 *)
Example repo_statements_wtf_simple_switch :
  let block_tokens := (make_block ([[(TKeyword Keywords.WTF); (TSymbol ((lit "?")))]; [(TKeyword Keywords.OMG); (TValue ((VBoolean true)))]; [(TKeyword Keywords.VISIBLE); (TIdentifier ((lit "WIN!!1!")))]; [(TKeyword Keywords.OMG); (TValue ((VBoolean false)))]; [(TKeyword Keywords.VISIBLE); (TIdentifier ((lit "FAIL :>(")))]; [(TKeyword Keywords.OMGWTF); TComma; (TKeyword Keywords.VISIBLE); (TValue VNoob)]; [(TKeyword Keywords.OIC)]])) in
  let '(first_token, block_tokens) := pop_front_0 block_tokens in
  outcome (wtf_parse iter_next iter_peek iter_next_statement inner_block fuel first_token (iter_new (concat block_tokens))) =
  (Ok ((Wtf first_token ([(WtfOmg ((nth 0 (nth 1 block_tokens []) default_token)) ((Value ((LiteralValue ((nth 1 (nth 1 block_tokens []) default_token)))))) ((ASTBlock ([(NVisible ((mkVisible ((nth 0 (nth 2 block_tokens []) default_token)) ([(Value ((VariableAccess ((mkVA ((mkIdentifier ((nth 1 (nth 2 block_tokens []) default_token)) None)) [])))))]) None)))])))); (WtfOmg ((nth 0 (nth 3 block_tokens []) default_token)) ((Value ((LiteralValue ((nth 1 (nth 3 block_tokens []) default_token)))))) ((ASTBlock ([(NVisible ((mkVisible ((nth 0 (nth 4 block_tokens []) default_token)) ([(Value ((VariableAccess ((mkVA ((mkIdentifier ((nth 1 (nth 4 block_tokens []) default_token)) None)) [])))))]) None)))]))))]) ((Some ((WtfOmgWtf ((nth 0 (nth 5 block_tokens []) default_token)) ((ASTBlock ([(NVisible ((mkVisible ((nth 2 (nth 5 block_tokens []) default_token)) ([(Value ((LiteralValue ((nth 3 (nth 5 block_tokens []) default_token)))))]) None)))])))))))))).
Proof. vm_compute. reflexivity. Qed.

