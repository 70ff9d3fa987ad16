(** Property C73: the statements of the documentation.  Vocabulary: DocSpec.v;
    the proofs are in DocProofs.v. *)
From Coq Require Import String Lia.
From Verif Require Import Lexer Parser Api ParseFuel PropLexer PropParser NodeTokens DocProofs.
From Verif Require Export DocSpec.
Local Open Scope string_scope.
Local Open Scope list_scope.

(** src/lib.rs:22-68, the example of the crate documentation, for every name:
    the AST and all positions. *)
Theorem C73_library_example v : Writes (TIdentifier v) v ->
  tokenize_and_parse (lit "GIMMEH " ++ v) = ApiOk (ASTBlock [NGimmeh (mkGimmeh
    (mkToken (TKeyword GIMMEH) (mkRange (mkPos 1 1 0 0) (mkPos 1 7 6 6)))
    (mkVA (mkIdentifier (mkToken (TIdentifier v)
       (mkRange (mkPos 1 8 7 7) (mkPos 1 (8 + Z.of_nat (length v)) (7 + Z.of_nat (length v)) (7 + Z.of_nat (length v))))) None) []))]).
Proof. exact (library_example v). Qed.
Print Assumptions C73_library_example.

(** ** src/parser/statements/mod.rs:22-86, for all names, values and blocks *)
Theorem C73_assignment v x code : source_with [[name_ v; TKeyword R; value_ x]] code ->
  outcome code = ApiOk (ASTBlock [NVariableAssignment (mkAssignment (the_variable v) (literal_ x) (key R))]).
Proof. intros H. rewrite (outcome_of _ _ H). vm_compute. reflexivity. Qed.
Print Assumptions C73_assignment.
Theorem C73_set_slot v s x code : source_with [[name_ v; TKeyword HAS_A; name_ s; TKeyword ITZ; value_ x]] code ->
  outcome code = ApiOk (ASTBlock [NBukkitSetSlot (mkBukkitSetSlot (the_variable v) (the_name s) (literal_ x))]).
Proof. intros H. rewrite (outcome_of _ _ H). vm_compute. reflexivity. Qed.
Print Assumptions C73_set_slot.
Theorem C73_found_yr x code : source_with [[TKeyword FOUND_YR; value_ x]] code ->
  outcome code = ApiOk (ASTBlock [NFoundYr (mkFoundYr (key FOUND_YR) (literal_ x))]).
Proof. intros H. rewrite (outcome_of _ _ H). vm_compute. reflexivity. Qed.
Print Assumptions C73_found_yr.
(** With the example of src/parser/statements/gimmeh.rs:8-11. *)
Theorem C73_gimmeh v w code : source_with [[TKeyword I_HAS_A; name_ v]; [TKeyword GIMMEH; name_ w]] code ->
  outcome code = ApiOk (ASTBlock [NIHasA (mkIHasA (key I_HAS_A) (the_name v) None); NGimmeh (mkGimmeh (key GIMMEH) (the_variable w))]).
Proof. intros H. rewrite (outcome_of _ _ H). vm_compute. reflexivity. Qed.
Print Assumptions C73_gimmeh.
Theorem C73_gtfo code : source_with [[TKeyword GTFO]] code -> outcome code = ApiOk (ASTBlock [NGtfo (mkGtfo (key GTFO))]).
Proof. intros H. rewrite (outcome_of _ _ H). vm_compute. reflexivity. Qed.
Print Assumptions C73_gtfo.
Theorem C73_hai x code : source_with [[TKeyword HAI; value_ x]] code ->
  outcome code = ApiOk (ASTBlock [NHai (mkHai (key HAI) [bare (value_ x)])]).
Proof. intros H. rewrite (outcome_of _ _ H). vm_compute. reflexivity. Qed.
Print Assumptions C73_hai.
Theorem C73_i_has_a v x code : source_with [[TKeyword I_HAS_A; name_ v; TKeyword ITZ; value_ x]] code ->
  outcome code = ApiOk (ASTBlock [NIHasA (mkIHasA (key I_HAS_A) (the_name v) (Some (InitExpression (literal_ x))))]).
Proof. intros H. rewrite (outcome_of _ _ H). vm_compute. reflexivity. Qed.
Print Assumptions C73_i_has_a.
Theorem C73_function body ns code f x y : d_block (map (map bare) body) ns ->
  source_with ([TKeyword HOW_IZ_I; name_ f; TKeyword YR; name_ x; TKeyword AN; TKeyword YR; name_ y] :: body ++ [[TKeyword IF_U_SAY_SO]]) code ->
  outcome code = ApiOk (ASTBlock [NHowIzI (HowIzI (key HOW_IZ_I) (the_name f) [the_name x; the_name y] (ASTBlock ns))]).
Proof. intros H. exact (function_example code body ns H f x y). Qed.
Print Assumptions C73_function.
Theorem C73_o_rly v a b body1 body2 body3 ns1 ns2 ns3 code :
  d_block (map (map bare) body1) ns1 -> d_block (map (map bare) body2) ns2 -> d_block (map (map bare) body3) ns3 ->
  source_with ([[TKeyword BOTH_SAEM; name_ v; TKeyword AN; value_ a]; [TKeyword O_RLY; question_]; [TKeyword YA_RLY]] ++ body1 ++
               [[TKeyword MEBBE; TKeyword BOTH_SAEM; name_ v; TKeyword AN; value_ b]] ++ body2 ++
               [[TKeyword NO_WAI]] ++ body3 ++ [[TKeyword OIC]]) code ->
  outcome code = ApiOk (ASTBlock [NExpression (both_saem_ (variable_ v) (literal_ a));
    NORly (ORly (key O_RLY) (Some (YaRly (key YA_RLY) (ASTBlock ns1))) (Some (NoWai (key NO_WAI) (ASTBlock ns3)))
      [Mebbe (key MEBBE) (both_saem_ (variable_ v) (literal_ b)) (ASTBlock ns2)])]).
Proof. intros H1 H2 H3. exact (o_rly_example code v a b body1 body2 body3 ns1 ns2 ns3 H1 H2 H3). Qed.
Print Assumptions C73_o_rly.
Theorem C73_wtf v a b body1 body2 body3 ns1 ns2 ns3 code :
  d_block (map (map bare) body1) ns1 -> d_block (map (map bare) body2) ns2 -> d_block (map (map bare) body3) ns3 ->
  source_with ([[name_ v]; [TKeyword WTF; question_]; [TKeyword OMG; value_ a]] ++ body1 ++
               [[TKeyword OMG; value_ b]] ++ body2 ++ [[TKeyword OMGWTF]] ++ body3 ++ [[TKeyword OIC]]) code ->
  outcome code = ApiOk (ASTBlock [NExpression (variable_ v);
    NWtf (Wtf (key WTF) [WtfOmg (key OMG) (literal_ a) (ASTBlock ns1); WtfOmg (key OMG) (literal_ b) (ASTBlock ns2)]
      (Some (WtfOmgWtf (key OMGWTF) (ASTBlock ns3))))]).
Proof. intros H1 H2 H3. exact (wtf_example code v a b body1 body2 body3 ns1 ns2 ns3 H1 H2 H3). Qed.
Print Assumptions C73_wtf.

(** ** src/parser/statements/im_in_yr.rs:99-124: the four forms of a loop, for
    all labels, variables, conditions and blocks *)
Theorem C73_loop l v o cs e body ns code : d_block (map (map bare) body) ns -> d_expr o (map bare cs) e ->
  forall hs it cond,
  (hs = [] /\ it = None /\ cond = None \/
   hs = TKeyword TIL :: cs /\ it = None /\ cond = Some (LTil e) \/
   hs = [TKeyword UPPIN; TKeyword YR; name_ v] /\ it = Some (mkLoopIteration (LUppin (key UPPIN)) (the_variable v)) /\ cond = None \/
   hs = [TKeyword UPPIN; TKeyword YR; name_ v; TKeyword TIL] ++ cs /\
     it = Some (mkLoopIteration (LUppin (key UPPIN)) (the_variable v)) /\ cond = Some (LTil e)) ->
  source_with ((TKeyword IM_IN_YR :: name_ l :: hs) :: body ++ [[TKeyword IM_OUTTA_YR; name_ l]]) code ->
  outcome code = ApiOk (ASTBlock [NImInYr (ImInYr (key IM_IN_YR) (bare (name_ l)) it cond (ASTBlock ns) (bare (name_ l)))]).
Proof. exact (loop_example l v o cs e body ns code). Qed.
Print Assumptions C73_loop.

(** ** Documented, but not so *)
(** src/parser/statements/mod.rs:46, [I IZ some_function YR .. AN YR ..]: a call
    needs MKAY; so for all names and values. *)
Theorem C73_call_refuted f x y code : source_with [[TKeyword I_IZ; name_ f; TKeyword YR; value_ x; TKeyword AN; TKeyword YR; value_ y]] code ->
  outcome code = ApiOk (ASTBlock [NASTError (EIIz (MissingMkay (key I_IZ)))]).
Proof. intros H. rewrite (outcome_of _ _ H). vm_compute. reflexivity. Qed.
Print Assumptions C73_call_refuted.
Theorem C73_call_with_mkay f x y code :
  source_with [[TKeyword I_IZ; name_ f; TKeyword YR; value_ x; TKeyword AN; TKeyword YR; value_ y; TKeyword MKAY]] code ->
  outcome code = ApiOk (ASTBlock [NIIz (mkIIz (key I_IZ) (the_variable f) [literal_ x; literal_ y])]).
Proof. intros H. rewrite (outcome_of _ _ H). vm_compute. reflexivity. Qed.
Print Assumptions C73_call_with_mkay.
(** i_is.rs:24-38, the correct usages. *)
Theorem C73_call_usages f x code :
  (source_with [[TKeyword I_IZ; name_ f; TKeyword MKAY]] code ->
   outcome code = ApiOk (ASTBlock [NIIz (mkIIz (key I_IZ) (the_variable f) [])])) /\
  (source_with [[TKeyword I_IZ; name_ f; TKeyword YR; name_ x; TKeyword MKAY]] code ->
   outcome code = ApiOk (ASTBlock [NIIz (mkIIz (key I_IZ) (the_variable f) [variable_ x])])).
Proof. split; intros H; rewrite (outcome_of _ _ H); vm_compute; reflexivity. Qed.
Print Assumptions C73_call_usages.
(** im_in_yr.rs:22-27 gives [IM IN var] as correct usage; [parse] panics. *)
Theorem C73_loop_usage_refuted : tokenize_and_parse (lit "IM IN var") = ApiPanic.
Proof. vm_compute. reflexivity. Qed.
Print Assumptions C73_loop_usage_refuted.
(** The comments in the examples of functions, loops (mod.rs:36-43,
    im_in_yr.rs:99-124) and GTFO (gtfo.rs:6-19) are errors. *)
Theorem C73_function_with_comment_refuted f x y s code :
  source_with [[TKeyword HOW_IZ_I; name_ f; TKeyword YR; name_ x; TKeyword AN; TKeyword YR; name_ y]; [comment_ s]; [TKeyword IF_U_SAY_SO]] code ->
  outcome code = ApiOk (ASTBlock [NHowIzI (HowIzI (key HOW_IZ_I) (the_name f) [the_name x; the_name y]
    (ASTBlock [NASTError (UnexpectedToken (bare (comment_ s)))]))]).
Proof. intros H. rewrite (outcome_of _ _ H). vm_compute. reflexivity. Qed.
Print Assumptions C73_function_with_comment_refuted.
Theorem C73_loop_with_comment_refuted l s code :
  source_with [[TKeyword IM_IN_YR; name_ l]; [comment_ s]; [TKeyword IM_OUTTA_YR; name_ l]] code ->
  outcome code = ApiOk (ASTBlock [NImInYr (ImInYr (key IM_IN_YR) (bare (name_ l)) None None
    (ASTBlock [NASTError (UnexpectedToken (bare (comment_ s)))]) (bare (name_ l)))]).
Proof. intros H. rewrite (outcome_of _ _ H). vm_compute. reflexivity. Qed.
Print Assumptions C73_loop_with_comment_refuted.
Theorem C73_gtfo_with_comment_refuted s code : source_with [[TKeyword GTFO; comment_ s]] code ->
  outcome code = ApiOk (ASTBlock [NGtfo (mkGtfo (key GTFO)); NASTError (TooManyTokens [bare (comment_ s)])]).
Proof. intros H. rewrite (outcome_of _ _ H). vm_compute. reflexivity. Qed.
Print Assumptions C73_gtfo_with_comment_refuted.
(** src/parser/statements/mod.rs:38-42: the names of the example of a function
    end in digits, which are no letters of a name here; the definition is
    refused, and so is every one with a value after its first parameter. *)
Definition function_example : str := text [
  "HOW IZ I function_name YR argument1 AN YR argument2"; "    BTW some code here"; "IF U SAY SO" ].
Theorem C73_function_example_refuted : exists t u us,
  outcome function_example = ApiOk (ASTBlock (NASTError (TooManyTokens (t :: us)) :: u)) /\
  tok_type t = value_ (VNumber (Int 1)).
Proof. eexists _, _, _. vm_compute. split; reflexivity. Qed.
Print Assumptions C73_function_example_refuted.
Theorem C73_numbered_parameter_refuted f x n more ls code :
  source_with (([TKeyword HOW_IZ_I; name_ f; TKeyword YR; name_ x; value_ n] ++ more) :: ls) code ->
  forall b, tokenize_and_parse code = ApiOk b -> exists t us ns,
  b = ASTBlock (NASTError (TooManyTokens (t :: us)) :: ns) /\ tok_type t = value_ n.
Proof. exact (numbered_parameter f x n more ls code). Qed.
Print Assumptions C73_numbered_parameter_refuted.
(** src/parser/statements/found_yr.rs:7-13: the example writes MOD for MOD OF,
    and [parse] panics. *)
Definition found_yr_example : str := text [
  "HOW IZ I is_even YR num";
  "    MOD num AN 2, O RLY?";
  "        YA RLY, FOUND YR ""Odd""";
  "        NO WAI, FOUND YR ""Even""";
  "    OIC";
  "IF U SAY SO" ].
Theorem C73_found_yr_example_refuted : tokenize_and_parse found_yr_example = ApiPanic.
Proof. vm_compute. reflexivity. Qed.
Print Assumptions C73_found_yr_example_refuted.
(** src/parser/statements/gtfo.rs:6-19 has one error, the comment. *)
Definition gtfo_example : str := text [
  "HOW IZ I is_slot_even YR bukkit AN YR slot";
  "    I HAS A var ITZ bukkit'Z SRS slot";
  "";
  "    BOTH SAEM var AN NOOB, O RLY?";
  "        YA RLY, GTFO    BTW returns early from the function";
  "    OIC";
  "";
  "    MOD OF var AN 2, O RLY?";
  "        YA RLY, FOUND YR ""ODD""";
  "        NO WAI, FOUND YR ""EVEN""";
  "    OIC";
  "IF U SAY SO" ].
Theorem C73_gtfo_example_refuted : exists b r,
  tokenize_and_parse gtfo_example = ApiOk b /\
  block_errors b = [TooManyTokens [mkToken (comment_ (lit " returns early from the function")) r]].
Proof. eexists _, _. vm_compute. split; reflexivity. Qed.
Print Assumptions C73_gtfo_example_refuted.

(** ** Cases: the texts of the documentation are such sources. *)
Ltac C73_is_source := eexists; split; [vm_compute; reflexivity|vm_compute; reflexivity].
Definition C73_number (n : Z) : token_value := VNumber (Int n).
Definition C73_show (s : string) : list token_type := [TKeyword VISIBLE; value_ (VString (lit s))].
Definition C73_shown (s : string) : node := NVisible (mkVisible (key VISIBLE) [literal_ (VString (lit s))] None).
Lemma C73_show_block s : d_block (map (map bare) [C73_show s]) [C73_shown s].
Proof.
  apply d_block_stmts; [|discriminate]. apply (d_stmts_cons [_] _ [] []); [|constructor]. apply d_single.
  apply (d_visible _ false); [reflexivity|]. constructor. apply d_literal_.
Qed.
Example C73_case_name : Writes (TIdentifier (lit "VAR")) (lit "VAR").
Proof.
  apply writes_identifier; [discriminate| |intros k (u & E); destruct k; discriminate E].
  cbn. repeat (constructor; [unfold letter; lia|]). constructor.
Qed.
(** The one-line examples of statements/mod.rs:22-46. *)
Example C73_case_lines :
  source_with [[name_ (lit "var"); TKeyword R; value_ (VString (lit "some_value"))]] (lit "var R ""some_value""") /\
  source_with [[name_ (lit "var"); TKeyword HAS_A; name_ (lit "slot_name"); TKeyword ITZ; value_ (VString (lit "some_value"))]]
              (lit "var HAS A slot_name ITZ ""some_value""") /\
  source_with [[TKeyword FOUND_YR; value_ (VString (lit "some_value"))]] (lit "FOUND YR ""some_value""") /\
  source_with [[TKeyword I_HAS_A; name_ (lit "var")]; [TKeyword GIMMEH; name_ (lit "var")]] (text ["I HAS A var"; "GIMMEH var"]) /\
  source_with [[TKeyword GTFO]] (lit "GTFO") /\
  source_with [[TKeyword I_HAS_A; name_ (lit "var"); TKeyword ITZ; value_ (VString (lit "some_value"))]]
              (lit "I HAS A var ITZ ""some_value""") /\
  source_with [[TKeyword I_IZ; name_ (lit "some_function"); TKeyword YR; value_ (VString (lit "value 1"));
                TKeyword AN; TKeyword YR; value_ (VString (lit "value 2"))]]
              (lit "I IZ some_function YR ""value 1"" AN YR ""value 2""") /\
  exists x, source_with [[TKeyword HAI; value_ (VNumber (Float x))]] (text ["HAI 1.3"]).
Proof. repeat split; try C73_is_source. eexists. C73_is_source. Qed.
(** [HAI 1.3] at the end of the source is not such a source: digits there are
    symbols (C13). *)
Example C73_case_hai : source_with
  [[TKeyword HAI; TSymbol (lit "1"); TSymbol (lit "."); TSymbol (lit "3")]] (lit "HAI 1.3").
Proof. C73_is_source. Qed.
(** statements/mod.rs:59-70. *)
Definition o_rly_text : str := text [
  "BOTH SAEM var AN 0, O RLY?"; "    YA RLY"; "        VISIBLE ""var is 0""";
  "    MEBBE BOTH SAEM var AN 1"; "        VISIBLE ""var is 1""";
  "    NO WAI"; "        VISIBLE ""var is neither 0 or 1"""; "OIC" ].
Example C73_case_o_rly : outcome o_rly_text = ApiOk (ASTBlock
  [NExpression (both_saem_ (variable_ (lit "var")) (literal_ (C73_number 0)));
   NORly (ORly (key O_RLY) (Some (YaRly (key YA_RLY) (ASTBlock [C73_shown "var is 0"])))
     (Some (NoWai (key NO_WAI) (ASTBlock [C73_shown "var is neither 0 or 1"])))
     [Mebbe (key MEBBE) (both_saem_ (variable_ (lit "var")) (literal_ (C73_number 1))) (ASTBlock [C73_shown "var is 1"])])]).
Proof.
  apply (C73_o_rly _ _ _ [C73_show "var is 0"] [C73_show "var is 1"] [C73_show "var is neither 0 or 1"]).
  1-3: apply C73_show_block. C73_is_source.
Qed.
(** statements/mod.rs:74-85. *)
Definition wtf_text : str := text [
  "var, WTF?"; "    OMG 0"; "        VISIBLE ""var is 0"""; "    OMG 1"; "        VISIBLE ""var is 1""";
  "    OMGWTF"; "        VISIBLE ""var is neither 0 or 1"""; "OIC" ].
Example C73_case_wtf : outcome wtf_text = ApiOk (ASTBlock [NExpression (variable_ (lit "var"));
  NWtf (Wtf (key WTF) [WtfOmg (key OMG) (literal_ (C73_number 0)) (ASTBlock [C73_shown "var is 0"]);
                       WtfOmg (key OMG) (literal_ (C73_number 1)) (ASTBlock [C73_shown "var is 1"])]
    (Some (WtfOmgWtf (key OMGWTF) (ASTBlock [C73_shown "var is neither 0 or 1"]))))]).
Proof.
  apply (C73_wtf _ _ _ [C73_show "var is 0"] [C73_show "var is 1"] [C73_show "var is neither 0 or 1"]).
  1-3: apply C73_show_block. C73_is_source.
Qed.
(** statements/mod.rs:49-55, the loop with its condition. *)
Definition loop_text : str := text [
  "IM IN YR loop UPPIN YR var TIL BOTH SAEM var AN 10"; "    VISIBLE var"; "IM OUTTA YR loop" ].
Example C73_case_loop : outcome loop_text = ApiOk (ASTBlock [NImInYr (ImInYr (key IM_IN_YR) (bare (name_ (lit "loop")))
  (Some (mkLoopIteration (LUppin (key UPPIN)) (the_variable (lit "var"))))
  (Some (LTil (both_saem_ (variable_ (lit "var")) (literal_ (C73_number 10)))))
  (ASTBlock [NVisible (mkVisible (key VISIBLE) [variable_ (lit "var")] None)]) (bare (name_ (lit "loop"))))]).
Proof.
  eapply (C73_loop (lit "loop") (lit "var") false [TKeyword BOTH_SAEM; name_ (lit "var"); TKeyword AN; value_ (C73_number 10)] _
    [[TKeyword VISIBLE; name_ (lit "var")]]).
  - apply d_block_stmts; [|discriminate]. apply (d_stmts_cons [_] _ [] []); [|constructor]. apply d_single.
    apply (d_visible _ false); [reflexivity|]. constructor. apply d_variable_.
  - apply d_comparison.
  - right. right. right. split; [reflexivity|]. split; reflexivity.
  - C73_is_source.
Qed.
(** The comments. *)
Example C73_case_comments :
  source_with [[TKeyword HOW_IZ_I; name_ (lit "function_name"); TKeyword YR; name_ (lit "argument"); TKeyword AN; TKeyword YR;
                name_ (lit "other")]; [comment_ (lit " some code here")]; [TKeyword IF_U_SAY_SO]]
    (text ["HOW IZ I function_name YR argument AN YR other"; "    BTW some code here"; "IF U SAY SO"]) /\
  source_with [[TKeyword IM_IN_YR; name_ (lit "loop")]; [comment_ (lit " some code here")]; [TKeyword IM_OUTTA_YR; name_ (lit "loop")]]
    (text ["IM IN YR loop"; "    BTW some code here"; "IM OUTTA YR loop"]) /\
  source_with [[TKeyword GTFO; comment_ (lit " now")]] (text ["GTFO BTW now"]).
Proof. split; [|split]; C73_is_source. Qed.
