(** Model of the [Debug] implementations of tokens, ASTs and errors: the derived
    ones and the hand-written one of [Token] (with the plain format [{:?}]).

    A derived implementation hands the names and the fields of a value to the
    [Formatter] of the Rust standard library, which writes them.  [dbg] is what
    is handed over, [print] is what is written. *)
From Coq Require Import String.
From Verif Require Export Ast Display Api.
Local Open Scope string_scope.

(** What [Debug] of a value hands to the formatter. *)
Inductive dbg : Set :=
(* a number, a boolean or the name of a variant without fields *)
| DLeaf (s : str)
(* [Formatter::debug_tuple] with one field *)
| DTuple (name : string) (x : dbg)
(* [Formatter::debug_struct] *)
| DStruct (name : string) (fields : list (string * dbg))
(* [Formatter::debug_list], used by [Vec] and [VecDeque] *)
| DList (xs : list dbg)
(* [Debug for str] *)
| DString (s : str)
(* the text written by [Debug for Range] *)
| DRange (text : str)
(* the text written by [Debug for Range], then the type and a line feed *)
| DToken (range : str) (x : dbg).

Local Open Scope list_scope.

(** ** The formatter of the Rust standard library

    [shown c] tells which characters other than the quote, the backslash and the
    four characters written as [\0], [\t], [\r], [\n] are written as they are;
    the others are written as [\u{...}].  It depends on the Unicode tables of the
    library, and all theorems hold for any choice.  The same goes for
    [float_text], the text of an [f32]. *)
Section Formatter.
  Variable shown : char -> bool.
  Variable float_text : spec_float -> str.

  (** The hexadecimal digits of a code point, lower case, no leading zeros
      ([char::escape_unicode]). *)
  Definition hex_digit (n : N) : char := if (n <? 10)%N then (48 + n)%N else (87 + n)%N.
  Fixpoint hex_digits (fuel : nat) (n : N) : str :=
    match fuel with
    | O => []
    | S f => (if (n <? 16)%N then [] else hex_digits f (n / 16)%N) ++ [hex_digit (n mod 16)%N]
    end.
  Definition hex_text (n : N) : str := hex_digits (S (N.size_nat n)) n.

  (** One character in [Debug for str] ([char::escape_debug_ext]; single quotes
      are not escaped in strings). *)
  Definition escape (c : char) : str :=
    if N.eqb c 0 then lit "\0"
    else if N.eqb c 9 then lit "\t"
    else if N.eqb c 13 then lit "\r"
    else if N.eqb c 10 then lit "\n"
    else if N.eqb c 34 then [92%N; 34%N]
    else if N.eqb c 92 then [92%N; 92%N]
    else if shown c then [c]
    else lit "\u{" ++ hex_text c ++ lit "}".
  Definition string_debug (s : str) : str := [34%N] ++ flat_map escape s ++ [34%N].

  (** Elements separated by a comma and a space. *)
  Fixpoint separated (xs : list str) : str :=
    match xs with
    | [] => []
    | [x] => x
    | x :: l => x ++ lit ", " ++ separated l
    end.

  Fixpoint print (d : dbg) : str :=
    match d with
    | DLeaf s => s
    | DTuple name x => lit name ++ lit "(" ++ print x ++ lit ")"
    | DStruct name fields =>
      lit name ++ lit " { " ++
      separated (map (fun fx => lit (fst fx) ++ lit ": " ++ print (snd fx)) fields) ++ lit " }"
    | DList xs => lit "[" ++ separated (map print xs) ++ lit "]"
    | DString s => string_debug s
    | DRange text => text
    | DToken range x => range ++ print x ++ [10%N]
    end.

  (** ** Tokens *)

  Definition leaf (s : string) : dbg := DLeaf (lit s).
  (** [Debug for Option]. *)
  Definition d_option {T} (f : T -> dbg) (o : option T) : dbg :=
    match o with Some x => DTuple "Some" (f x) | None => leaf "None" end.

  (** src/lexer/token.rs:7 (derived) *)
  Definition d_number (n : number_token) : dbg :=
    match n with
    | Int z => DTuple "Int" (DLeaf (i32_text z))
    | Float x => DTuple "Float" (DLeaf (float_text x))
    end.
  (** src/lexer/token.rs:16 (derived) *)
  Definition d_token_value (v : token_value) : dbg :=
    match v with
    | VNumber n => DTuple "Number" (d_number n)
    | VString s => DTuple "String" (DString s)
    | VBoolean b => DTuple "Boolean" (if b then leaf "true" else leaf "false")
    | VNoob => leaf "NOOB"
    end.
  (** src/lexer/keywords.rs:12 (derived): the name of the variant. *)
  Definition d_keyword (k : keyword) : dbg := leaf (ident k).
  (** src/lexer/token.rs:29 (derived) *)
  Definition d_token_type (t : token_type) : dbg :=
    match t with
    | TIdentifier s => DTuple "Identifier" (DString s)
    | TKeyword k => DTuple "Keyword" (d_keyword k)
    | TSymbol s => DTuple "Symbol" (DString s)
    | TValue v => DTuple "Value" (d_token_value v)
    | TCommentSingleLine s => DTuple "CommentSingleLine" (DString s)
    | TCommentMultiLine s => DTuple "CommentMultiLine" (DString s)
    | TBukkitSlotAccess => leaf "BukkitSlotAccess"
    | TEllipsis => leaf "Ellipsis"
    | TComma => leaf "Comma"
    | TExclamationMark => leaf "ExclamationMark"
    | TQuestionMark => leaf "QuestionMark"
    end.
  (** [Debug for Token], src/lexer/token.rs:73-77: [writeln!] of the range and the
      type. *)
  Definition d_tok (t : token) : dbg := DToken (range_debug (tok_range t)) (d_token_type (tok_type t)).
  (** src/lexer/token.rs:58 (derived) *)
  Definition d_token_error (e : token_error) : dbg :=
    match e with UnclosedMultilineComment r => DTuple "UnclosedMultilineComment" (DRange (range_debug r)) end.

  (** ** Expressions *)

  (** src/parser/expression/identifier.rs:7 (derived) *)
  Definition d_id (i : identifier) : dbg :=
    DStruct "Identifier" [("name", d_tok (id_name i)); ("srs", d_option d_tok (id_srs i))].
  (** src/parser/expression/variable_access.rs:12 and 32 (derived) *)
  Definition d_slot (s : va_slot) : dbg :=
    DStruct "VariableAccessSlot" [("slot_access_token", d_tok (slot_access_token s)); ("identifier", d_id (slot_identifier s))].
  Definition d_variable_access (v : variable_access) : dbg :=
    DStruct "VariableAccess" [("identifier", d_id (va_identifier v)); ("accesses", DList (map d_slot (va_accesses v)))].
  (** src/parser/expression/mod.rs:83 (derived) *)
  Definition d_expr_value (v : expr_value) : dbg :=
    match v with
    | VariableAccess v => DTuple "VariableAccess" (d_variable_access v)
    | LiteralValue t => DTuple "LiteralValue" (d_tok t)
    end.
  (** src/parser/expression/binary_operation.rs:10 (derived) *)
  Definition d_binary_opt (o : binary_opt) : dbg :=
    match o with
    | EitherOf t => DTuple "EitherOf" (d_tok t) | WonOf t => DTuple "WonOf" (d_tok t)
    | SumOf t => DTuple "SumOf" (d_tok t) | DiffOf t => DTuple "DiffOf" (d_tok t)
    | ProduktOf t => DTuple "ProduktOf" (d_tok t) | QuoshuntOf t => DTuple "QuoshuntOf" (d_tok t)
    | ModOf t => DTuple "ModOf" (d_tok t) | BiggrOf t => DTuple "BiggrOf" (d_tok t)
    | SmallrOf t => DTuple "SmallrOf" (d_tok t) | BothSaem t => DTuple "BothSaem" (d_tok t)
    | BothOf t => DTuple "BothOf" (d_tok t) | Diffrint t => DTuple "Diffrint" (d_tok t)
    end.
  (** src/parser/expression/unary_operation.rs:7 (derived) *)
  Definition d_unary_opt (o : unary_opt) : dbg := match o with UNot t => DTuple "Not" (d_tok t) end.
  (** src/parser/expression/nary_operations.rs:10 (derived) *)
  Definition d_nary_opt (o : nary_opt) : dbg :=
    match o with
    | AllOf t => DTuple "AllOf" (d_tok t) | Smoosh t => DTuple "Smoosh" (d_tok t) | AnyOf t => DTuple "AnyOf" (d_tok t)
    end.
  (** src/parser/expression/mod.rs:193, binary_operation.rs:169, unary_operation.rs:77,
      nary_operations.rs:147 and 160 (derived); a [Box] is written as its content. *)
  Fixpoint d_expression (e : expr) : dbg :=
    match e with
    | BinaryOperation l o r an =>
      DTuple "BinaryOperation"
        (DStruct "BinaryOperation"
           [("left", d_expression l); ("operator", d_binary_opt o); ("right", d_expression r);
            ("an_token", d_option d_tok an)])
    | UnaryOperation o x =>
      DTuple "UnaryOperation" (DStruct "UnaryOperation" [("operator", d_unary_opt o); ("expression", d_expression x)])
    | NaryOperation o es m =>
      DTuple "NaryOperation"
        (DStruct "NaryOperation"
           [("operator", d_nary_opt o); ("expressions", DList (map d_operand es)); ("mkay_token", d_option d_tok m)])
    | Value v => DTuple "Value" (d_expr_value v)
    end
  with d_operand (x : operand) : dbg :=
    match x with
    | Operand e an => DStruct "NaryOperationOperand" [("operand", d_expression e); ("an_token", d_option d_tok an)]
    end.
  (** src/parser/expression/identifier.rs:59 (derived) *)
  Definition d_type (a : ast_type) : dbg :=
    match a with
    | TyBukkit t => DTuple "Bukkit" (d_tok t) | TyNumbr t => DTuple "Numbr" (d_tok t)
    | TyNumbar t => DTuple "Numbar" (d_tok t) | TyYarn t => DTuple "Yarn" (d_tok t)
    | TyTroof t => DTuple "Troof" (d_tok t) | TyNoob t => DTuple "Noob" (d_tok t)
    end.

  (** ** Errors *)

  (** src/parser/error.rs:13, expression/mod.rs:272, statements/assignment.rs:96,
      how_is_i.rs:22, i_has_a.rs:18, i_is.rs:22, im_in_yr.rs:10, o_rly.rs:43
      (derived) *)
  Definition d_ast_error (e : ast_error) : dbg :=
    match e with
    | UnexpectedToken t => DTuple "UnexpectedToken" (d_tok t)
    | TooManyTokens ts => DTuple "TooManyTokens" (DList (map d_tok ts))
    | EIHasA e => DTuple "IHasA"
      match e with
      | InvalidIdentifier t => DTuple "InvalidIdentifier" (d_tok t)
      | MissingIdentifier t => DTuple "MissingIdentifier" (d_tok t)
      | ExpectedInitialValue t => DTuple "ExpectedInitialValue" (d_tok t)
      end
    | EVariableAssignment e => DTuple "VariableAssignment"
      match e with
      | MissingR t => DTuple "MissingR" (d_tok t)
      | ExpectedValue t => DTuple "ExpectedValue" (d_tok t)
      end
    | EExpression e => DTuple "Expression" match e with MissingOperands t => DTuple "MissingOperands" (d_tok t) end
    | MissingToken t => DTuple "MissingToken" (d_tok t)
    | EORly e => DTuple "ORly"
      match e with
      | MissingQuestionMark t => DTuple "MissingQuestionMark" (d_tok t)
      | MissingMebbeExpression t => DTuple "MissingMebbeExpression" (d_tok t)
      end
    | MissingBlockClosingToken t => DTuple "MissingBlockClosingToken" (d_tok t)
    | EHowIsI e => DTuple "HowIsI" match e with MissingNameIdentifier t => DTuple "MissingNameIdentifier" (d_tok t) end
    | EImInYr e => DTuple "ImInYr"
      match e with
      | MissingYr t => DTuple "MissingYr" (d_tok t)
      | MissingStartLabel t => DTuple "MissingStartLabel" (d_tok t)
      | InvalidStartLabel t => DTuple "InvalidStartLabel" (d_tok t)
      | MissingEndLabel t => DTuple "MissingEndLabel" (d_tok t)
      | InvalidEndLabel t => DTuple "InvalidEndLabel" (d_tok t)
      | MissingImOuttaYr t => DTuple "MissingImOuttaYr" (d_tok t)
      | InvalidOperation t => DTuple "InvalidOperation" (d_tok t)
      | MissingOperand t => DTuple "MissingOperand" (d_tok t)
      | InvalidConditional t => DTuple "InvalidConditional" (d_tok t)
      | MissingConditionalExpression t => DTuple "MissingConditionalExpression" (d_tok t)
      end
    | EIIz e => DTuple "IIz"
      match e with
      | MissingName t => DTuple "MissingName" (d_tok t)
      | MissingArgument t => DTuple "MissingArgument" (d_tok t)
      | MissingMkay t => DTuple "MissingMkay" (d_tok t)
      end
    end.

  (** ** Statements *)

  (** src/parser/statements/i_has_a.rs:9 and 30 (derived) *)
  Definition d_initial_value (i : initial_value) : dbg :=
    match i with
    | InitExpression e => DTuple "Expression" (d_expression e)
    | InitType t => DTuple "Type" (d_type t)
    end.
  Definition d_i_has_a (x : Ast.i_has_a) : dbg :=
    DStruct "IHasA" [("i_has_a_token", d_tok (ihasa_token x)); ("identifier", d_id (ihasa_identifier x));
                     ("initial_value", d_option d_initial_value (ihasa_initial_value x))].
  (** src/parser/statements/hai.rs:8 (derived) *)
  Definition d_hai (x : Ast.hai) : dbg :=
    DStruct "Hai" [("hai_token", d_tok (hai_token x)); ("version", DList (map d_tok (hai_version x)))].
  (** src/parser/statements/kthxbye.rs:4 (derived) *)
  Definition d_kthxbye (x : Ast.kthxbye) : dbg := DStruct "KThxBye" [("k_thx_bye_token", d_tok (kthxbye_token x))].
  (** src/parser/statements/gtfo.rs:20 (derived) *)
  Definition d_gtfo (x : Ast.gtfo) : dbg := DStruct "Gtfo" [("gtfo_token", d_tok (gtfo_token x))].
  (** src/parser/statements/gimmeh.rs:12 (derived) *)
  Definition d_gimmeh (x : Ast.gimmeh) : dbg :=
    DStruct "Gimmeh" [("gimmeh_token", d_tok (gimmeh_token x)); ("variable_access", d_variable_access (gimmeh_variable_access x))].
  (** src/parser/statements/found_yr.rs:15 (derived) *)
  Definition d_found_yr (x : Ast.found_yr) : dbg :=
    DStruct "FoundYr" [("found_yr_token", d_tok (found_yr_token x)); ("expression", d_expression (found_yr_expression x))].
  (** src/parser/statements/assignment.rs:69 (derived) *)
  Definition d_assignment (x : Ast.assignment) : dbg :=
    DStruct "VariableAssignment" [("variable_access", d_variable_access (asg_variable_access x));
                                  ("expression", d_expression (asg_expression x)); ("r_token", d_tok (asg_r_token x))].
  (** src/parser/statements/bukkit_set_slot.rs:11 (derived) *)
  Definition d_bukkit_set_slot (x : Ast.bukkit_set_slot) : dbg :=
    DStruct "BukkitSetSlot" [("bukkit", d_variable_access (bss_bukkit x)); ("slot_name", d_id (bss_slot_name x));
                             ("value", d_expression (bss_value x))].
  (** src/parser/statements/visible.rs:10 (derived) *)
  Definition d_visible (x : Ast.visible) : dbg :=
    DStruct "Visible" [("visible_token", d_tok (visible_token x)); ("expressions", DList (map d_expression (visible_expressions x)));
                       ("exclamation_mark", d_option d_tok (visible_exclamation_mark x))].
  (** src/parser/statements/i_is.rs:10 (derived) *)
  Definition d_i_iz (x : Ast.i_iz) : dbg :=
    DStruct "IIz" [("i_iz_token", d_tok (iiz_token x)); ("name", d_variable_access (iiz_name x));
                   ("arguments", DList (map d_expression (iiz_arguments x)))].
  (** src/parser/statements/im_in_yr.rs:64, 83 and 91 (derived) *)
  Definition d_loop_operation (o : loop_operation) : dbg :=
    match o with LUppin t => DTuple "UPPIN" (d_tok t) | LNerfin t => DTuple "NERFIN" (d_tok t) end.
  Definition d_loop_condition (c : loop_condition) : dbg :=
    match c with LTil e => DTuple "TIL" (d_expression e) | LWile e => DTuple "WILE" (d_expression e) end.
  Definition d_loop_iteration (x : loop_iteration) : dbg :=
    DStruct "LoopIterationOperation" [("operation", d_loop_operation (li_operation x)); ("operand", d_variable_access (li_operand x))].

  (** src/parser/statements/mod.rs:91, src/parser/blocks.rs:16,
      src/parser/statements/im_in_yr.rs:126, wtf.rs:11, 18 and 25,
      o_rly.rs:9, 15, 21 and 29, how_is_i.rs:10 (derived) *)
  Fixpoint d_node (n : node) : dbg :=
    match n with
    | NIHasA x => DTuple "IHasA" (d_i_has_a x)
    | NHai x => DTuple "Hai" (d_hai x)
    | NImInYr x => DTuple "ImInYr" (d_im_in_yr x)
    | NBukkitSetSlot x => DTuple "BukkitSetSlot" (d_bukkit_set_slot x)
    | NVariableAssignment x => DTuple "VariableAssignment" (d_assignment x)
    | NVisible x => DTuple "Visible" (d_visible x)
    | NFoundYr x => DTuple "FoundYr" (d_found_yr x)
    | NWtf x => DTuple "Wtf" (d_wtf x)
    | NORly x => DTuple "ORly" (d_o_rly x)
    | NIIz x => DTuple "IIz" (d_i_iz x)
    | NHowIzI x => DTuple "HowIzI" (d_how_iz_i x)
    | NGtfo x => DTuple "Gtfo" (d_gtfo x)
    | NGimmeh x => DTuple "Gimmeh" (d_gimmeh x)
    | NExpression x => DTuple "Expression" (d_expression x)
    | NASTError x => DTuple "ASTError" (d_ast_error x)
    | NKThxBye x => DTuple "KThxBye" (d_kthxbye x)
    end
  with d_ast_block (b : block) : dbg :=
    match b with ASTBlock ns => DTuple "ASTBlock" (DList (map d_node ns)) end
  with d_im_in_yr (x : im_in_yr) : dbg :=
    match x with
    | ImInYr t l it c b e =>
      DStruct "ImInYr" [("im_in_yr_token", d_tok t); ("label", d_tok l); ("on_iteration", d_option d_loop_iteration it);
                        ("condition", d_option d_loop_condition c); ("code_block", d_ast_block b); ("end_label", d_tok e)]
    end
  with d_wtf (x : wtf) : dbg :=
    match x with
    | Wtf t omgs d =>
      DStruct "Wtf" [("wtf_token", d_tok t); ("omg", DList (map d_wtf_omg omgs));
                     ("omg_wtf", match d with Some d => DTuple "Some" (d_wtf_omg_wtf d) | None => leaf "None" end)]
    end
  with d_wtf_omg (x : wtf_omg) : dbg :=
    match x with
    | WtfOmg t e b => DStruct "WtfOmg" [("omg_token", d_tok t); ("expression", d_expression e); ("block", d_ast_block b)]
    end
  with d_wtf_omg_wtf (x : wtf_omg_wtf) : dbg :=
    match x with
    | WtfOmgWtf t b => DStruct "WtfOmgWtf" [("omg_wtf_token", d_tok t); ("block", d_ast_block b)]
    end
  with d_o_rly (x : o_rly) : dbg :=
    match x with
    | ORly t yes no mebbes =>
      DStruct "ORly" [("o_rly_token", d_tok t);
                      ("if_true", match yes with Some y => DTuple "Some" (d_ya_rly y) | None => leaf "None" end);
                      ("if_false", match no with Some y => DTuple "Some" (d_no_wai y) | None => leaf "None" end);
                      ("mebbes", DList (map d_mebbe mebbes))]
    end
  with d_ya_rly (x : ya_rly) : dbg :=
    match x with YaRly t b => DStruct "YaRly" [("ya_rly_token", d_tok t); ("block", d_ast_block b)] end
  with d_no_wai (x : no_wai) : dbg :=
    match x with NoWai t b => DStruct "NoWai" [("no_wai_token", d_tok t); ("block", d_ast_block b)] end
  with d_mebbe (x : mebbe) : dbg :=
    match x with
    | Mebbe t e b => DStruct "Mebbe" [("mebbe_token", d_tok t); ("condition", d_expression e); ("block", d_ast_block b)]
    end
  with d_how_iz_i (x : how_iz_i) : dbg :=
    match x with
    | HowIzI t i args b =>
      DStruct "HowIzI" [("how_iz_i_token", d_tok t); ("name", d_id i); ("arguments", DList (map d_id args)); ("body", d_ast_block b)]
    end.

  (** ** Texts *)
  Definition token_debug (t : token) : str := print (d_tok t).
  Definition tokens_debug (ts : list token) : str := print (DList (map d_tok ts)).
  Definition node_debug (n : node) : str := print (d_node n).
  Definition block_debug (b : block) : str := print (d_ast_block b).
  Definition token_error_debug (e : token_error) : str := print (d_token_error e).
  (** [Debug for Result] on the results of [tokenize_and_parse] that are no
      panics. *)
  Definition result_debug (r : block + token_error) : str :=
    print match r with inl b => DTuple "Ok" (d_ast_block b) | inr e => DTuple "Err" (d_token_error e) end.
End Formatter.
