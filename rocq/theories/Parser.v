(** Model of the parse functions under src/parser.

    The functions are written once, generically over the three operations of
    the statement iterator they use ([next], [peek], [next_statement]).  The
    model of the code is the instance with the real iterator ([parse] at the
    end of the file).

    Loops and recursion take fuel; exhaustion is the separate result [RFuel],
    proved unreachable for [parse] (theorem C23). *)
From Coq Require Import String.
From Verif Require Export Token StmtIter Ast.

(** Why a parse function panicked. *)
Inductive panic_cause : Set :=
| PanicMaek (t : token)
  (* [todo!()], src/parser/expression/mod.rs:354 *)
| PanicUnreachable (v : variable_access) (t : token).
  (* [unreachable!()], src/parser/statements/mod.rs:220 *)

(** Result of a parse function on iterator states [S]: [Ok], [Err] (both leave
    the iterator in some state), a panic, or fuel exhaustion. *)
Inductive res (S A : Type) : Type :=
| ROk (a : A) (s : S)
| RErr (e : ast_error) (s : S)
| RPanic (c : panic_cause)
| RFuel.
Arguments ROk {S A}. Arguments RErr {S A}. Arguments RPanic {S A}. Arguments RFuel {S A}.

Definition bind {S A B} (m : S -> res S A) (k : A -> S -> res S B) : S -> res S B :=
  fun s => match m s with
           | ROk a s' => k a s'
           | RErr e s' => RErr e s'
           | RPanic c => RPanic c
           | RFuel => RFuel
           end.
Definition ret {S A} (a : A) : S -> res S A := fun s => ROk a s.
Definition fail {S A} (e : ast_error) : S -> res S A := fun s => RErr e s.
Definition panic {S A} (c : panic_cause) : S -> res S A := fun _ => RPanic c.
Definition out_of_fuel {S A} : S -> res S A := fun _ => RFuel.

Declare Scope parser_scope.
Delimit Scope parser_scope with parser.
Notation "x <- m ;; k" := (bind m (fun x => k))
  (at level 61, m at next level, right associativity) : parser_scope.
Notation "m ;;; k" := (bind m (fun _ => k))
  (at level 61, right associativity) : parser_scope.
Local Open Scope parser_scope.

(** The symbol "?" that src/parser/statements/o_rly.rs:57 and wtf.rs:40 test. *)
Definition is_question_symbol (t : token) : bool :=
  match tok_type t with
  | TSymbol s => if list_eq_dec N.eq_dec s (lit "?") then true else false
  | _ => false
  end.

(** [ASTType::try_from], src/parser/expression/identifier.rs:99-112. *)
Definition ast_type_try_from (t : token) : option ast_type :=
  match tok_type t with
  | TKeyword NUMBR => Some (TyNumbr t)
  | TKeyword NUMBAR => Some (TyNumbar t)
  | TKeyword YARN => Some (TyYarn t)
  | TKeyword NOOB => Some (TyNoob t)
  | TKeyword BUKKIT => Some (TyBukkit t)
  | TKeyword TROOF => Some (TyTroof t)
  | _ => None
  end.

(** [VariableAccess::last_token], src/parser/expression/variable_access.rs:42-47. *)
Definition va_last_token (v : variable_access) : token :=
  match rev (va_accesses v) with
  | slot :: _ => id_name (slot_identifier slot)
  | [] => id_name (va_identifier v)
  end.

(** [VariableAccess::is_valid], src/parser/expression/variable_access.rs:90-95. *)
Definition va_is_valid (t : token) : bool := is_identifier t || is_kw SRS t.

(** The block terminators, src/parser/blocks.rs:158-190. *)
Definition stop_root (t : token) : bool := false.
Definition stop_function (t : token) : bool := is_kw IF_U_SAY_SO t.
Definition stop_loop (t : token) : bool := is_kw IM_OUTTA_YR t.
Definition stop_if (t : token) : bool :=
  is_kw MEBBE t || is_kw NO_WAI t || is_kw YA_RLY t || is_kw OIC t.
Definition stop_switch (t : token) : bool :=
  is_kw OMG t || is_kw OMGWTF t || is_kw OIC t.

Section Parser.

Context {S : Type}.
Variable it_next : S -> option token * S.
Variable it_peek : S -> option token * S.
Variable it_next_statement : S -> list token * S.

Definition M (A : Type) := S -> res S A.

(** ** Iterator operations *)

Definition next : M (option token) := fun s => let (o, s') := it_next s in ROk o s'.
Definition peek : M (option token) := fun s => let (o, s') := it_peek s in ROk o s'.
Definition next_statement : M (list token) :=
  fun s => let (l, s') := it_next_statement s in ROk l s'.

(** [next_if], src/parser/statement_iterator.rs:31-36 (and
    [next_if_token_type_eq]/[_ne], 38-50, with the comparison as [f]). *)
Definition next_if (f : token -> bool) : M (option token) :=
  o <- peek ;;
  match o with
  | Some t => if f t then next else ret None
  | None => ret None
  end.

(** [next_statement_should_be_empty], src/parser/statement_iterator.rs:52-59. *)
Definition next_statement_should_be_empty : M unit :=
  l <- next_statement ;;
  match l with
  | [] => ret tt
  | _ => fail (TooManyTokens l)
  end.

(** ** Identifiers and variable accesses *)

(** [Identifier::parse], src/parser/expression/identifier.rs:30-54. *)
Definition identifier_parse (first_token : token) : M identifier :=
  match tok_type first_token with
  | TIdentifier _ => ret {| id_name := first_token; id_srs := None |}
  | TKeyword SRS =>
    o <- next ;;
    match o with
    | None => fail (MissingToken first_token)
    | Some t =>
      match tok_type t with
      | TIdentifier _ => ret {| id_name := t; id_srs := Some first_token |}
      | _ => fail (UnexpectedToken t)
      end
    end
  | _ => fail (UnexpectedToken first_token)
  end.

(** The [while let] loop of [VariableAccess::parse],
    src/parser/expression/variable_access.rs:71-82 (accesses prepended instead
    of pushed). *)
Fixpoint accesses_loop (fuel : nat) : M (list va_slot) :=
  match fuel with
  | O => out_of_fuel
  | Datatypes.S fuel' =>
    o <- next_if is_slot_access ;;
    match o with
    | None => ret []
    | Some slot_access_token =>
      o2 <- next ;;
      match o2 with
      | Some t =>
        i <- identifier_parse t ;;
        rest <- accesses_loop fuel' ;;
        ret ({| slot_access_token := slot_access_token; slot_identifier := i |} :: rest)
      | None => fail (MissingToken slot_access_token)
      end
    end
  end.

(** [VariableAccess::parse], src/parser/expression/variable_access.rs:65-88. *)
Definition va_parse (fuel : nat) (first_token : token) : M variable_access :=
  first_ident <- identifier_parse first_token ;;
  accesses <- accesses_loop fuel ;;
  ret {| va_identifier := first_ident; va_accesses := accesses |}.

(** ** Expressions *)

(** [BinaryOperation::parse], src/parser/expression/binary_operation.rs:183-213. *)
Definition binary_parse (pe : token -> M expr) (operator : binary_opt) : M expr :=
  o <- next ;;
  match o with
  | None => fail (EExpression (MissingOperands (binary_opt_token operator)))
  | Some left_first_token =>
    left <- pe left_first_token ;;
    an_token <- next_if (is_kw AN) ;;
    o2 <- next ;;
    match o2 with
    | None => fail (EExpression (MissingOperands (binary_opt_token operator)))
    | Some right_first_token =>
      right <- pe right_first_token ;;
      ret (BinaryOperation left operator right an_token)
    end
  end.

(** [UnaryOperation::parse], src/parser/expression/unary_operation.rs:89-105. *)
Definition unary_parse (pe : token -> M expr) (operator : unary_opt) : M expr :=
  o <- next ;;
  match o with
  | None => fail (EExpression (MissingOperands (unary_opt_token operator)))
  | Some first_token =>
    e <- pe first_token ;;
    ret (UnaryOperation operator e)
  end.

(** The [while let] loop, src/parser/expression/nary_operations.rs:177-182. *)
Fixpoint nary_loop (pe : token -> M expr) (fuel : nat) : M (list operand) :=
  match fuel with
  | O => out_of_fuel
  | Datatypes.S fuel' =>
    o <- next_if (fun t => negb (is_kw MKAY t)) ;;
    match o with
    | None => ret []
    | Some t =>
      e <- pe t ;;
      an_token <- next_if (is_kw AN) ;;
      rest <- nary_loop pe fuel' ;;
      ret (Operand e an_token :: rest)
    end
  end.

(** [NaryOperation::parse], src/parser/expression/nary_operations.rs:173-189. *)
Definition nary_parse (pe : token -> M expr) (fuel : nat) (operator : nary_opt) : M expr :=
  expressions <- nary_loop pe fuel ;;
  mkay_token <- next ;;
  ret (NaryOperation operator expressions mkay_token).

(** [ASTExpression::parse], src/parser/expression/mod.rs:292-361. *)
Fixpoint expr_parse (fuel : nat) (first_token : token) : M expr :=
  match fuel with
  | O => out_of_fuel
  | Datatypes.S f =>
    let binary op := binary_parse (expr_parse f) op in
    let nary op := nary_parse (expr_parse f) f op in
    match tok_type first_token with
    | TIdentifier _ | TKeyword SRS =>
      v <- va_parse f first_token ;;
      ret (Value (VariableAccess v))
    | TValue _ => ret (Value (LiteralValue first_token))
    | TKeyword NOOB => ret (Value (LiteralValue first_token))
    | TKeyword BOTH_OF => binary (BothOf first_token)
    | TKeyword EITHER_OF => binary (EitherOf first_token)
    | TKeyword WON_OF => binary (WonOf first_token)
    | TKeyword NOT => unary_parse (expr_parse f) (UNot first_token)
    | TKeyword ALL_OF => nary (AllOf first_token)
    | TKeyword ANY_OF => nary (AnyOf first_token)
    | TKeyword SUM_OF => binary (SumOf first_token)
    | TKeyword DIFF_OF => binary (DiffOf first_token)
    | TKeyword PRODUKT_OF => binary (ProduktOf first_token)
    | TKeyword QUOSHUNT_OF => binary (QuoshuntOf first_token)
    | TKeyword MOD_OF => binary (ModOf first_token)
    | TKeyword BIGGR_OF => binary (BiggrOf first_token)
    | TKeyword SMALLR_OF => binary (SmallrOf first_token)
    | TKeyword BOTH_SAEM => binary (BothSaem first_token)
    | TKeyword DIFFRINT => binary (Diffrint first_token)
    | TKeyword SMOOSH => nary (Smoosh first_token)
    | TKeyword MAEK => panic (PanicMaek first_token)
    | _ => fail (UnexpectedToken first_token)
    end
  end.

(** ** Single-line statements *)

(** [VariableAssignment::parse], src/parser/statements/assignment.rs:111-137. *)
Definition assignment_parse (fuel : nat) (v : variable_access) : M assignment :=
  o <- next ;;
  match o with
  | Some r_token =>
    if is_kw R r_token then
      o2 <- next ;;
      match o2 with
      | Some initial_token =>
        value <- expr_parse fuel initial_token ;;
        ret {| asg_variable_access := v; asg_expression := value;
               asg_r_token := r_token |}
      | None => fail (EVariableAssignment (ExpectedValue r_token))
      end
    else fail (EVariableAssignment (MissingR (va_last_token v)))
  | None => fail (EVariableAssignment (MissingR (va_last_token v)))
  end.

(** [BukkitSetSlot::parse], src/parser/statements/bukkit_set_slot.rs:22-68. *)
Definition bukkit_set_slot_parse (fuel : nat) (bukkit : variable_access)
  : M bukkit_set_slot :=
  o <- next ;;
  match o with
  | Some has_a_token =>
    if is_kw HAS_A has_a_token then
      o2 <- next ;;
      match o2 with
      | Some initial_token =>
        slot_name <- identifier_parse initial_token ;;
        o3 <- next ;;
        match o3 with
        | Some itz_token =>
          if is_kw ITZ itz_token then
            o4 <- next ;;
            match o4 with
            | None => fail (MissingToken itz_token)
            | Some t =>
              value <- expr_parse fuel t ;;
              ret {| bss_bukkit := bukkit; bss_slot_name := slot_name;
                     bss_value := value |}
            end
          else fail (UnexpectedToken itz_token)
        | None => fail (MissingToken (id_name slot_name))
        end
      | None => fail (EVariableAssignment (ExpectedValue has_a_token))
      end
    else fail (UnexpectedToken (va_last_token bukkit))
  | None => fail (UnexpectedToken (va_last_token bukkit))
  end.

(** [IHasA::parse], src/parser/statements/i_has_a.rs:40-92. *)
Definition i_has_a_parse (fuel : nat) (first_token : token) : M i_has_a :=
  o <- next ;;
  match o with
  | None => fail (EIHasA (MissingIdentifier first_token))
  | Some t =>
    if va_is_valid t then
      identifier <- identifier_parse t ;;
      o2 <- next ;;
      match o2 with
      | None =>
        ret {| ihasa_token := first_token; ihasa_identifier := identifier;
               ihasa_initial_value := None |}
      | Some assignment_token =>
        if is_kw ITZ assignment_token then
          o3 <- next ;;
          match o3 with
          | Some t3 =>
            match ast_type_try_from t3 with
            | Some ty =>
              ret {| ihasa_token := first_token; ihasa_identifier := identifier;
                     ihasa_initial_value := Some (InitType ty) |}
            | None =>
              e <- expr_parse fuel t3 ;;
              ret {| ihasa_token := first_token; ihasa_identifier := identifier;
                     ihasa_initial_value := Some (InitExpression e) |}
            end
          | None => fail (EIHasA (ExpectedInitialValue assignment_token))
          end
        else fail (UnexpectedToken assignment_token)
      end
    else fail (EIHasA (InvalidIdentifier t))
  end.

(** The [while let] loop of [Visible::parse], src/parser/statements/visible.rs:22-25. *)
Fixpoint visible_loop (pe : token -> M expr) (fuel : nat) : M (list expr) :=
  match fuel with
  | O => out_of_fuel
  | Datatypes.S fuel' =>
    o <- next_if (fun t => negb (is_exclamation t)) ;;
    match o with
    | None => ret []
    | Some t =>
      e <- pe t ;;
      rest <- visible_loop pe fuel' ;;
      ret (e :: rest)
    end
  end.

(** [Visible::parse], src/parser/statements/visible.rs:18-34. *)
Definition visible_parse (fuel : nat) (first_token : token) : M visible :=
  expressions <- visible_loop (expr_parse fuel) fuel ;;
  exclamation_mark <- next_if is_exclamation ;;
  ret {| visible_token := first_token; visible_expressions := expressions;
         visible_exclamation_mark := exclamation_mark |}.

(** [Gimmeh::parse], src/parser/statements/gimmeh.rs:19-30. *)
Definition gimmeh_parse (fuel : nat) (first_token : token) : M gimmeh :=
  o <- next ;;
  match o with
  | Some t =>
    v <- va_parse fuel t ;;
    ret {| gimmeh_token := first_token; gimmeh_variable_access := v |}
  | None => fail (MissingToken first_token)
  end.

(** [FoundYr::parse], src/parser/statements/found_yr.rs:22-36. *)
Definition found_yr_parse (fuel : nat) (first_token : token) : M found_yr :=
  o <- next ;;
  match o with
  | Some next_token =>
    e <- expr_parse fuel next_token ;;
    ret {| found_yr_token := first_token; found_yr_expression := e |}
  | None => fail (MissingToken first_token)
  end.

(** [Hai::parse], src/parser/statements/hai.rs:15-23. *)
Definition hai_parse (first_token : token) : M hai :=
  version <- next_statement ;;
  ret {| hai_token := first_token; hai_version := version |}.

(** The argument [loop] of [IIz::parse], src/parser/statements/i_is.rs:51-70. *)
Fixpoint i_iz_loop (pe : token -> M expr) (fuel : nat) : M (list expr) :=
  match fuel with
  | O => out_of_fuel
  | Datatypes.S fuel' =>
    o <- next_if (is_kw YR) ;;
    match o with
    | None => ret []
    | Some yr_token =>
      o2 <- next ;;
      match o2 with
      | None => fail (EIIz (MissingArgument yr_token))
      | Some first_expression_token =>
        e <- pe first_expression_token ;;
        an <- next_if (is_kw AN) ;;
        match an with
        | None => ret [e]
        | Some _ =>
          rest <- i_iz_loop pe fuel' ;;
          ret (e :: rest)
        end
      end
    end
  end.

(** [IIz::parse], src/parser/statements/i_is.rs:42-85. *)
Definition i_iz_parse (fuel : nat) (first_token : token) : M i_iz :=
  o <- next ;;
  match o with
  | None => fail (EIIz (MissingName first_token))
  | Some t =>
    name <- va_parse fuel t ;;
    arguments <- i_iz_loop (expr_parse fuel) fuel ;;
    o2 <- next ;;
    match o2 with
    | None => fail (EIIz (MissingMkay first_token))
    | Some t2 =>
      if is_kw MKAY t2 then
        ret {| iiz_token := first_token; iiz_name := name;
               iiz_arguments := arguments |}
      else fail (EIIz (MissingMkay t2))
    end
  end.

(** ** Blocks *)

(** [parse_statement(..).unwrap_or_else(|err| err.into())],
    src/parser/blocks.rs:140. *)
Definition catch (m : M node) : M node :=
  fun s => match m s with
           | RErr e s' => ROk (NASTError e) s'
           | r => r
           end.

(** [next_statement_should_be_empty().unwrap_or_else(|err| push(err.into()))],
    src/parser/blocks.rs:145-147: the nodes pushed. *)
Definition end_of_statement : M (list node) :=
  fun s => match next_statement_should_be_empty s with
           | ROk _ s' => ROk [] s'
           | RErr e s' => ROk [NASTError e] s'
           | RPanic c => RPanic c
           | RFuel => RFuel
           end.

(** [parse_block], src/parser/blocks.rs:132-156; [ps] is [parse_statement].
    The nodes of an iteration are put before those of the later iterations
    instead of being pushed to an accumulator. *)
Fixpoint parse_block (ps : token -> M node) (should_stop_at_token : token -> bool)
         (fuel : nat) : M (list node) :=
  match fuel with
  | O => out_of_fuel
  | Datatypes.S fuel' =>
    o <- next ;;
    stmt <- match o with
            | Some t => n <- catch (ps t) ;; ret [n]
            | None => ret []
            end ;;
    errs <- end_of_statement ;;
    p <- peek ;;
    match p with
    | Some t =>
      if should_stop_at_token t then ret (stmt ++ errs)
      else
        rest <- parse_block ps should_stop_at_token fuel' ;;
        ret (stmt ++ errs ++ rest)
    | None => ret (stmt ++ errs)
    end
  end.

(** [parse_block_function], [parse_block_loop], [parse_block_if],
    [parse_block_switch], src/parser/blocks.rs:162-190, as [ASTBlock]s. *)
Definition block_of (pb : M (list node)) : M block :=
  l <- pb ;; ret (ASTBlock l).

(** ** Block statements.  [pb stop] is [parse_block_..] *)

(** [parse_iteration_operation], src/parser/statements/im_in_yr.rs:229-268. *)
Definition iteration_operation_parse (fuel : nat) : M (option loop_iteration) :=
  o <- next_if (fun t => is_kw UPPIN t || is_kw NERFIN t) ;;
  match o with
  | None => ret None
  | Some t =>
    let operation := if is_kw UPPIN t then LUppin t else LNerfin t in
    o2 <- next ;;
    match o2 with
    | None => fail (EImInYr (MissingOperand (loop_operation_token operation)))
    | Some t2 =>
      if is_kw YR t2 then
        o3 <- next ;;
        match o3 with
        | None => fail (EImInYr (MissingOperand (loop_operation_token operation)))
        | Some t3 =>
          operand <- va_parse fuel t3 ;;
          ret (Some {| li_operation := operation; li_operand := operand |})
        end
      else fail (EImInYr (MissingYr t2))
    end
  end.

(** [parse_conditional], src/parser/statements/im_in_yr.rs:191-227. *)
Definition conditional_parse (fuel : nat) : M (option loop_condition) :=
  o <- next_if (fun t => is_kw TIL t || is_kw WILE t) ;;
  match o with
  | None => ret None
  | Some t =>
    o2 <- next ;;
    match o2 with
    | None => fail (EImInYr (MissingConditionalExpression t))
    | Some t2 =>
      e <- expr_parse fuel t2 ;;
      ret (Some (if is_kw TIL t then LTil e else LWile e))
    end
  end.

(** [ImInYr::parse], src/parser/statements/im_in_yr.rs:142-188. *)
Definition im_in_yr_parse (pb : (token -> bool) -> M (list node)) (fuel : nat)
           (first_token : token) : M im_in_yr :=
  o <- next ;;
  match o with
  | None => fail (EImInYr (MissingStartLabel first_token))
  | Some label =>
    if is_identifier label then
      on_iteration <- iteration_operation_parse fuel ;;
      condition <- conditional_parse fuel ;;
      next_statement_should_be_empty ;;;
      code_block <- block_of (pb stop_loop) ;;
      o2 <- next ;;
      match o2 with
      | None => fail (EImInYr (MissingImOuttaYr first_token))
      | Some im_outta_yr =>
        o3 <- next ;;
        match o3 with
        | None => fail (EImInYr (MissingEndLabel im_outta_yr))
        | Some end_label =>
          if is_identifier end_label then
            ret (ImInYr first_token label on_iteration condition code_block end_label)
          else fail (EImInYr (InvalidEndLabel end_label))
        end
      end
    else fail (EImInYr (InvalidStartLabel label))
  end.

(** The parameter [loop] of [HowIzI::parse], src/parser/statements/how_is_i.rs:38-58. *)
Fixpoint how_iz_i_loop (fuel : nat) : M (list identifier) :=
  match fuel with
  | O => out_of_fuel
  | Datatypes.S fuel' =>
    o <- next_if (is_kw YR) ;;
    match o with
    | None => ret []
    | Some yr_token =>
      o2 <- next ;;
      match o2 with
      | None => fail (MissingToken yr_token)
      | Some t =>
        param <- identifier_parse t ;;
        p <- peek ;;
        match p with
        | Some t' =>
          if is_kw AN t' then
            next ;;;
            rest <- how_iz_i_loop fuel' ;;
            ret (param :: rest)
          else ret [param]
        | None => ret [param]
        end
      end
    end
  end.

(** [HowIzI::parse], src/parser/statements/how_is_i.rs:29-80. *)
Definition how_iz_i_parse (pb : (token -> bool) -> M (list node)) (fuel : nat)
           (first_token : token) : M how_iz_i :=
  o <- next ;;
  match o with
  | None => fail (EHowIsI (MissingNameIdentifier first_token))
  | Some t =>
    name <- identifier_parse t ;;
    arguments <- how_iz_i_loop fuel ;;
    next_statement_should_be_empty ;;;
    body <- block_of (pb stop_function) ;;
    o2 <- next ;;
    match o2 with
    | None => fail (MissingBlockClosingToken first_token)
    | Some t2 =>
      if is_kw IF_U_SAY_SO t2 then
        next_statement_should_be_empty ;;;
        ret (HowIzI first_token name arguments body)
      else fail (UnexpectedToken t2)
    end
  end.

(** The [?] test of src/parser/statements/wtf.rs:39-42 and o_rly.rs:56-59. *)
Definition question_mark (first_token : token) : M unit :=
  o <- next ;;
  match o with
  | Some t =>
    if is_question_symbol t then ret tt
    else fail (EORly (MissingQuestionMark first_token))
  | None => fail (EORly (MissingQuestionMark first_token))
  end.

(** The final [OIC], src/parser/statements/wtf.rs:74-81 and o_rly.rs:103-110. *)
Definition oic (first_token : token) : M unit :=
  o <- next ;;
  match o with
  | None => fail (MissingBlockClosingToken first_token)
  | Some t => if is_kw OIC t then ret tt else fail (UnexpectedToken t)
  end.

(** The [OMG] loop, src/parser/statements/wtf.rs:45-60. *)
Fixpoint omg_loop (pb : (token -> bool) -> M (list node)) (pe : token -> M expr)
         (fuel : nat) : M (list wtf_omg) :=
  match fuel with
  | O => out_of_fuel
  | Datatypes.S fuel' =>
    o <- next_if (is_kw OMG) ;;
    match o with
    | None => ret []
    | Some omg_token =>
      o2 <- next ;;
      match o2 with
      | None => fail (MissingToken omg_token)
      | Some t =>
        expression <- pe t ;;
        next_statement_should_be_empty ;;;
        b <- block_of (pb stop_switch) ;;
        rest <- omg_loop pb pe fuel' ;;
        ret (WtfOmg omg_token expression b :: rest)
      end
    end
  end.

(** [Wtf::parse], src/parser/statements/wtf.rs:35-90. *)
Definition wtf_parse (pb : (token -> bool) -> M (list node)) (fuel : nat)
           (first_token : token) : M wtf :=
  question_mark first_token ;;;
  next_statement_should_be_empty ;;;
  omg <- omg_loop pb (expr_parse fuel) fuel ;;
  o <- next_if (is_kw OMGWTF) ;;
  omg_wtf <- match o with
             | Some omg_wtf_token =>
               next_statement_should_be_empty ;;;
               b <- block_of (pb stop_switch) ;;
               ret (Some (WtfOmgWtf omg_wtf_token b))
             | None => ret None
             end ;;
  oic first_token ;;;
  next_statement_should_be_empty ;;;
  ret (Wtf first_token omg omg_wtf).

(** The [MEBBE] loop, src/parser/statements/o_rly.rs:74-89. *)
Fixpoint mebbe_loop (pb : (token -> bool) -> M (list node)) (pe : token -> M expr)
         (fuel : nat) : M (list mebbe) :=
  match fuel with
  | O => out_of_fuel
  | Datatypes.S fuel' =>
    o <- next_if (is_kw MEBBE) ;;
    match o with
    | None => ret []
    | Some mebbe_token =>
      o2 <- next ;;
      match o2 with
      | None => fail (EORly (MissingMebbeExpression mebbe_token))
      | Some t =>
        condition <- pe t ;;
        next_statement_should_be_empty ;;;
        b <- block_of (pb stop_if) ;;
        rest <- mebbe_loop pb pe fuel' ;;
        ret (Mebbe mebbe_token condition b :: rest)
      end
    end
  end.

(** [ORly::parse], src/parser/statements/o_rly.rs:52-118. *)
Definition o_rly_parse (pb : (token -> bool) -> M (list node)) (fuel : nat)
           (first_token : token) : M o_rly :=
  question_mark first_token ;;;
  next_statement_should_be_empty ;;;
  o <- next_if (is_kw YA_RLY) ;;
  if_true <- match o with
             | Some ya_rly_token =>
               next_statement_should_be_empty ;;;
               b <- block_of (pb stop_if) ;;
               ret (Some (YaRly ya_rly_token b))
             | None => ret None
             end ;;
  mebbes <- mebbe_loop pb (expr_parse fuel) fuel ;;
  o2 <- next_if (is_kw NO_WAI) ;;
  if_false <- match o2 with
              | Some no_wai_token =>
                next_statement_should_be_empty ;;;
                b <- block_of (pb stop_if) ;;
                ret (Some (NoWai no_wai_token b))
              | None => ret None
              end ;;
  oic first_token ;;;
  ret (ORly first_token if_true if_false mebbes).

(** ** Statements *)

(** [.map(|t| t.into())] *)
Definition as_node {A} (f : A -> node) (m : M A) : M node := a <- m ;; ret (f a).

(** The branch of [parse_statement] for variable accesses,
    src/parser/statements/mod.rs:206-222. *)
Definition va_statement (fuel : nat) (first_token : token) : M node :=
  variable_access <- va_parse fuel first_token ;;
  o <- peek ;;
  match o with
  | None => ret (NExpression (Value (VariableAccess variable_access)))
  | Some t =>
    if is_kw R t then
      as_node NVariableAssignment (assignment_parse fuel variable_access)
    else if is_kw HAS_A t then
      as_node NBukkitSetSlot (bukkit_set_slot_parse fuel variable_access)
    else panic (PanicUnreachable variable_access t)
  end.

(** [parse_statement], src/parser/statements/mod.rs:202-252. *)
Fixpoint parse_statement (fuel : nat) (first_token : token) : M node :=
  match fuel with
  | O => out_of_fuel
  | Datatypes.S f =>
    let pb stop := parse_block (parse_statement f) stop f in
    if va_is_valid first_token then va_statement f first_token
    else
    match tok_type first_token with
    | TKeyword I_HAS_A => as_node NIHasA (i_has_a_parse f first_token)
    | TKeyword VISIBLE => as_node NVisible (visible_parse f first_token)
    | TKeyword GIMMEH => as_node NGimmeh (gimmeh_parse f first_token)
    | TKeyword FOUND_YR => as_node NFoundYr (found_yr_parse f first_token)
    | TKeyword HAI => as_node NHai (hai_parse first_token)
    | TKeyword KTHXBYE => ret (NKThxBye {| kthxbye_token := first_token |})
    | TKeyword GTFO => ret (NGtfo {| gtfo_token := first_token |})
    | TKeyword I_IZ => as_node NIIz (i_iz_parse f first_token)
    | TKeyword IM_IN_YR => as_node NImInYr (im_in_yr_parse pb f first_token)
    | TKeyword HOW_IZ_I => as_node NHowIzI (how_iz_i_parse pb f first_token)
    | TKeyword WTF => as_node NWtf (wtf_parse pb f first_token)
    | TKeyword O_RLY => as_node NORly (o_rly_parse pb f first_token)
    | _ => as_node NExpression (expr_parse f first_token)
    end
  end.

(** [parse_block_root], src/parser/blocks.rs:158-160. *)
Definition parse_block_root (fuel : nat) : M block :=
  block_of (parse_block (parse_statement fuel) stop_root fuel).

End Parser.

(** Result of [parse]: the AST, a panic, or fuel exhaustion of the model. *)
Inductive parse_result : Set :=
| ParseOk (b : block)
| ParsePanic (c : panic_cause)
| ParseFuel.

Definition result_of {S} (r : res S block) : parse_result :=
  match r with
  | ROk b _ => ParseOk b
  | RErr _ _ => ParseFuel   (* [parse_block] has no [Err] result; proved impossible *)
  | RPanic c => ParsePanic c
  | RFuel => ParseFuel
  end.

(** Fuel that is always enough (theorem C23). *)
Definition parse_fuel (n : nat) : nat := n + 4.

(** [parse], src/parser/mod.rs:18-21. *)
Definition parse (tokens : list token) : parse_result :=
  result_of
    (parse_block_root iter_next iter_peek iter_next_statement
                      (parse_fuel (length tokens)) (iter_new tokens)).
