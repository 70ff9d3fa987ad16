[
 {
  "mutant": "add_column_chars",
  "theorem": "C08_positions",
  "requires": "LexSpec LexPropSpec Lexer PropLexer",
  "proof": "\ndestruct (H (lit \"BTW \" ++ [233%N]) (T (lit \"BTW \" ++ [233%N])) (first (lit \"BTW \" ++ [233%N])) [] (lit \"BTW \" ++ [233%N]) []) as [_ E];\n  [vm_compute; reflexivity|left; reflexivity|vm_compute; auto|]. vm_compute in E. discriminate E."
 },
 {
  "mutant": "add_column_chars",
  "theorem": "C07_line_counts_line_breaks",
  "requires": "LexSpec LexPropSpec Lexer PropLexer",
  "proof": "\nedestruct (H (lit \"BTW \" ++ [233%N])) as (a & raw & b & T & _ & _ & _ & E); [vm_compute; reflexivity|left; reflexivity|].\nedestruct (at_unique _ _ _ _ _ [] (lit \"BTW \" ++ [233%N]) [] T) as (-> & -> & ->); [vm_compute; auto|].\nvm_compute in E. discriminate E."
 },
 {
  "mutant": "ws_newline_no_line",
  "theorem": "C07_line_counts_line_breaks",
  "requires": "LexSpec LexPropSpec Lexer PropLexer",
  "proof": "\nedestruct (H (nl ++ lit \"HAI\")) as (a & raw & b & T & E & _); [vm_compute; reflexivity|left; reflexivity|].\nedestruct (at_unique _ _ _ _ _ nl (lit \"HAI\") [] T) as (-> & -> & ->); [vm_compute; auto|].\nvm_compute in E. discriminate E."
 },
 {
  "mutant": "ws_newline_no_line",
  "theorem": "C09_boundaries_ordered",
  "requires": "LexSpec LexPropSpec Lexer PropLexer",
  "proof": "\nedestruct (H (lit \"x\" ++ nl ++ lit \"x\")) as [E _]; [vm_compute; reflexivity|eexists; split; [left; reflexivity|left; reflexivity]|\n eexists; split; [right; left; reflexivity|left; reflexivity]|]. destruct E as [E _]. specialize (E eq_refl). vm_compute in E. discriminate E."
 },
 {
  "mutant": "comment_takes_newline",
  "theorem": "C17_single_line_comments",
  "requires": "LexSpec LexPropSpec Lexer PropLexer",
  "proof": "\nedestruct (H (lit \"BTW x\" ++ nl ++ lit \"HAI\")) as (a & b & _ & N & _); [vm_compute; reflexivity|left; reflexivity|reflexivity|].\napply N. vm_compute. tauto.",
  "edits": [
   {
    "file": "Lexer",
    "old": "match find [c_nl] code with Some n => n | None => byte_len code end in",
    "new": "match find [c_nl] code with Some n => S n | None => byte_len code end in"
   }
  ]
 },
 {
  "mutant": "i32_wide",
  "theorem": "C12_int_tokens",
  "requires": "LexSpec LexPropSpec Lexer PropLexer",
  "proof": "\nedestruct (H (lit \"-2147483649 \")) as (? & ? & ? & ? & ? & _ & _ & _ & _ & _ & E & _); [vm_compute; reflexivity|left; reflexivity|reflexivity|].\nvm_compute in E. apply E. reflexivity."
 },
 {
  "mutant": "i32_max_off",
  "theorem": "C13_integer_recognised",
  "requires": "LexSpec LexPropSpec Lexer PropLexer",
  "proof": "\nedestruct (H (lit \"2147483647 \") (T (lit \"2147483647 \")) [] [] false (lit \"2147483647\") (lit \" \")) as (t & I & E & _);\n [constructor|discriminate|repeat constructor; discriminate|split; [discriminate|reflexivity]|\n  exists 32%N, []; repeat split; unfold digit, dot; lia|vm_compute; reflexivity|constructor|].\nvm_compute in I. intuition (subst; discriminate E)."
 },
 {
  "mutant": "i32_max_off",
  "theorem": "C19_print_tokenize",
  "requires": "LexSpec LexPropSpec Lexer PropLexer",
  "proof": "\ndestruct (H [] [(TValue (VNumber (Int 2147483647)), lit \"2147483647\", lit \" \")]) as (ts & E1 & E2);\n [constructor| |vm_compute in E1; injection E1 as <-; discriminate E2].\nconstructor; [|constructor]. split; [|split; [discriminate|split; [constructor; [left; reflexivity|constructor]|exact I]]].\napply (writes_int [] false (lit \"2147483647\")); [constructor|discriminate|repeat constructor; discriminate|split; [discriminate|reflexivity]]."
 },
 {
  "mutant": "qmark_fixed",
  "theorem": "C18_question_mark_never_produced",
  "requires": "LexSpec LexPropSpec Lexer PropLexer",
  "proof": "\neapply (H (lit \"?\")); [vm_compute; reflexivity|left; reflexivity|reflexivity].",
  "edits": [
   {
    "file": "Lexer",
    "old": "try_token code p (one_char c_comma code) (fun raw => raw) (fun _ => TQuestionMark) (",
    "new": "try_token code p (one_char c_qmark code) (fun raw => raw) (fun _ => TQuestionMark) ("
   }
  ]
 },
 {
  "mutant": "qmark_fixed",
  "theorem": "C18_question_mark_is_symbol",
  "requires": "LexSpec LexPropSpec Lexer PropLexer",
  "proof": "\nedestruct (H (lit \"?\") (T (lit \"?\")) [] []) as (t & I & _ & E); [vm_compute; reflexivity|reflexivity|].\nvm_compute in I. destruct I as [<-|[]]. decompose [or ex] E; discriminate.",
  "edits": [
   {
    "file": "Lexer",
    "old": "try_token code p (one_char c_comma code) (fun raw => raw) (fun _ => TQuestionMark) (",
    "new": "try_token code p (one_char c_qmark code) (fun raw => raw) (fun _ => TQuestionMark) ("
   }
  ]
 },
 {
  "mutant": "string_double_colon",
  "theorem": "C16_string_tokens",
  "requires": "LexSpec LexPropSpec Lexer PropLexer",
  "proof": "\nedestruct (H ([quote] ++ lit \"c::\" ++ [quote])) as (a & raw & b & T & E); [reflexivity|vm_compute; reflexivity|left; reflexivity|reflexivity|].\ndestruct E as [[_ [_ E]]|(E & _)]; [apply E; exists (lit \"c:\"); reflexivity|].\nedestruct (at_unique _ _ _ _ _ [] ([quote] ++ lit \"c::\" ++ [quote]) [] T) as (-> & -> & ->); [vm_compute; auto|]. discriminate E."
 },
 {
  "mutant": "string_no_escape",
  "theorem": "C16_string_tokens",
  "requires": "LexSpec LexPropSpec Lexer PropLexer",
  "proof": "\nedestruct (H ([quote] ++ lit \"c:\" ++ [quote])) as (a & raw & b & T & E); [reflexivity|vm_compute; reflexivity|left; reflexivity|reflexivity|].\ndestruct E as [[_ [_ E]]|(E & _)]; [apply E; exists (lit \"c\"); reflexivity|].\nedestruct (at_unique _ _ _ _ _ [] ([quote] ++ lit \"c:\" ++ [quote]) [] T) as (-> & -> & ->); [vm_compute; auto|]. discriminate E."
 },
 {
  "mutant": "ident_upper_bound",
  "theorem": "C15_identifier_tokens",
  "requires": "LexSpec LexPropSpec Lexer PropLexer",
  "proof": "\nedestruct (H (lit \"aZ\")) as (a & b & T & _ & _ & E & _); [vm_compute; reflexivity|left; reflexivity|reflexivity|].\nedestruct (at_unique _ _ _ _ _ [] (lit \"a\") (lit \"Z\") T) as (-> & _ & ->); [vm_compute; auto|].\napply E. exists 90%N, []. split; [reflexivity|unfold letter; lia]."
 },
 {
  "mutant": "ident_upper_bound",
  "theorem": "C15_identifier_recognised",
  "requires": "LexSpec LexPropSpec Lexer PropLexer",
  "proof": "\nedestruct (H (lit \"Z\") (T (lit \"Z\")) [] (lit \"Z\") []) as (t & I & E & _);\n [discriminate|constructor; [cbn; unfold letter; lia|constructor]|intros (c & r & E & _); discriminate E|\n  intros k (r & E); destruct k; discriminate E|vm_compute; reflexivity|constructor|].\nvm_compute in I. intuition (subst; discriminate E)."
 },
 {
  "mutant": "make_token_end",
  "theorem": "C04_lossless",
  "requires": "LexSpec LexPropSpec Lexer PropLexer",
  "proof": "\ndestruct (H (lit \"x\") _ eq_refl) as [E _]. inversion E; subst. vm_compute in H2. destruct H2 as [[_ E1] _]. discriminate E1."
 },
 {
  "mutant": "make_token_end",
  "theorem": "C05_token_text",
  "requires": "LexSpec LexPropSpec Lexer PropLexer",
  "proof": "\nedestruct (H (lit \"HAI\")) as (a & raw & b & (E & E1 & E2) & E3 & _); [vm_compute; reflexivity|left; reflexivity|].\nvm_compute in E3. subst raw. rewrite byte_len_app' in E2. cbn in E1, E2. lia."
 },
 {
  "mutant": "add_chars_bytes",
  "theorem": "C06_byte_and_char_offsets",
  "requires": "LexSpec LexPropSpec Lexer PropLexer",
  "proof": "\nedestruct (H (lit \"BTW\" ++ [233%N])) as (a & raw & b & E & _ & _ & E1 & _ & E2 & E3); [vm_compute; reflexivity|left; reflexivity|].\nedestruct (at_unique _ _ _ _ _ [] (lit \"BTW\" ++ [233%N]) [] (conj E (conj E1 E2))) as (-> & -> & ->); [vm_compute; auto|].\nvm_compute in E3. discriminate E3."
 },
 {
  "mutant": "error_range_start",
  "theorem": "C11_unclosed_comment_range",
  "requires": "LexSpec LexPropSpec Lexer PropLexer",
  "proof": "\nedestruct (H (lit \"HAI OBTW\")) as (a & rem & E & _ & E1 & _); [vm_compute; reflexivity|]. cbn in E1. destruct a; [discriminate E|cbn in E1; pose proof (utf8_len_pos' c); lia].",
  "edits": [
   {
    "file": "Lexer",
    "old": "{| r_start := p; r_end := position_add p code |})",
    "new": "{| r_start := position_start; r_end := position_add p code |})"
   }
  ]
 },
 {
  "mutant": "cmp_line",
  "theorem": "C09_boundaries_ordered",
  "requires": "LexSpec LexPropSpec Lexer PropLexer",
  "proof": "\nedestruct (H (lit \"x y\")) as [_ E]; [vm_compute; reflexivity|eexists; split; [left; reflexivity|left; reflexivity]|\n eexists; split; [right; left; reflexivity|left; reflexivity]|]. destruct E as [_ E].\nassert (F : Eq = Lt) by (apply E; right; split; reflexivity). discriminate F."
 },
 {
  "mutant": "eq_line_only",
  "theorem": "C09_boundaries_ordered",
  "requires": "LexSpec LexPropSpec Lexer PropLexer",
  "proof": "\nedestruct (H (lit \"x y\")) as [E _]; [vm_compute; reflexivity|eexists; split; [left; reflexivity|left; reflexivity]|\n eexists; split; [right; left; reflexivity|left; reflexivity]|]. destruct E as [E _]. specialize (E eq_refl). vm_compute in E. discriminate E."
 },
 {
  "mutant": "kw_missing",
  "theorem": "C14_keyword_recognised",
  "requires": "LexSpec LexPropSpec Lexer PropLexer",
  "proof": "\nedestruct (H (lit \"SMOOSH\") (T (lit \"SMOOSH\")) [] SMOOSH []) as (t & I & E & _); [simpl; intuition discriminate|discriminate|discriminate|vm_compute; reflexivity|constructor|].\nvm_compute in I. intuition (subst; discriminate E)."
 },
 {
  "mutant": "ws_no_tab",
  "theorem": "C19_print_tokenize",
  "requires": "LexSpec LexPropSpec Lexer PropLexer",
  "proof": "\ndestruct (H [9%N] []) as (ts & E1 & E2); [constructor; [right; left; reflexivity|constructor]|constructor|].\nvm_compute in E1. injection E1 as <-. discriminate E2."
 },
 {
  "mutant": "kw_dup_spelling",
  "theorem": "C47_spelling_injective",
  "requires": "LexSpec LexPropSpec Lexer PropLexer",
  "proof": "\ndiscriminate (H WON_OF EITHER_OF eq_refl)."
 },
 {
  "mutant": "bool_swapped",
  "theorem": "C05_token_text",
  "requires": "LexSpec LexPropSpec Lexer PropLexer",
  "proof": "\nedestruct (H (lit \"FAIL\")) as (a & raw & b & T & E & _); [vm_compute; reflexivity|left; reflexivity|]. vm_compute in E. subst raw.\nedestruct (at_unique _ _ _ _ _ [] (lit \"FAIL\") [] T) as (_ & E & _); [vm_compute; auto|]. discriminate E."
 },
 {
  "mutant": "ellipsis_two",
  "theorem": "C05_token_text",
  "requires": "LexSpec LexPropSpec Lexer PropLexer",
  "proof": "\nedestruct (H (lit \"..\")) as (a & raw & b & T & E & _); [vm_compute; reflexivity|left; reflexivity|]. vm_compute in E. subst raw.\nedestruct (at_unique _ _ _ _ _ [] (lit \"..\") [] T) as (_ & E & _); [vm_compute; auto|]. discriminate E."
 },
 {
  "mutant": "iter_comma_ignored",
  "theorem": "C21_statements_are_logical_lines",
  "requires": "Lexer Parser Lines Grammar Clean AstTokens TokIter IterFacts ParserProps TokIterFacts PropParser",
  "proof": "\nspecialize (H (toks [\"GTFO, GTFO\"]) 0). vm_compute in H. discriminate H.",
  "edits": [
   {
    "file": "StmtIter",
    "old": "    if is_comma t then (None, ts, cur)",
    "new": "    if is_comma t then advance ts' cur"
   },
   {
    "file": "StmtIter",
    "old": "    if is_comma t then ([], ts, cur)",
    "new": "    if is_comma t then collect_tokens ts' cur"
   }
  ]
 },
 {
  "mutant": "iter_comma_not_end",
  "theorem": "C22_collect_is_next_loop",
  "requires": "Lexer Parser Lines Grammar Clean AstTokens TokIter IterFacts ParserProps TokIterFacts PropParser",
  "proof": "\nspecialize (H (snd (iter_next (iter_new (toks [\"GTFO, GTFO\"]))))). vm_compute in H. discriminate H."
 },
 {
  "mutant": "iter_next_keeps_peeked",
  "theorem": "C22_peek_is_transparent",
  "requires": "Lexer Parser Lines Grammar Clean AstTokens TokIter IterFacts ParserProps TokIterFacts PropParser",
  "proof": "\nspecialize (H (iter_new (toks [\"x y\"]))). destruct H as (_ & H & _). vm_compute in H. discriminate H."
 },
 {
  "mutant": "srs_not_stored",
  "theorem": "C26_expression_stores_its_tokens",
  "requires": "Lexer Parser Lines Grammar Clean AstTokens TokIter IterFacts ParserProps TokIterFacts PropParser",
  "proof": "\npose (ts := toks [\"SRS x\"]). edestruct (H 9 (tok 0 ts) (snd (iter_next (iter_new ts)))) as (used & E & E1 & _);\n [apply reach_next, reach_new|vm_compute; reflexivity|]. subst used. vm_compute in E. discriminate E."
 },
 {
  "mutant": "id_iter_no_srs",
  "theorem": "C27_identifier_tokens",
  "requires": "Lexer Parser Lines Grammar Clean AstTokens TokIter IterFacts ParserProps TokIterFacts PropParser",
  "proof": "\nspecialize (H 1 (mkIdentifier dummy (Some (bare' 1)))). vm_compute in H. discriminate H."
 },
 {
  "mutant": "id_range_srs",
  "theorem": "C28_identifier_range",
  "requires": "Lexer Parser Lines Grammar Clean AstTokens TokIter IterFacts ParserProps TokIterFacts PropParser",
  "proof": "\ndestruct (H (mkIdentifier dummy (Some (bare' 2)))) as [(t & r & E & E1) _]. injection E as <- _. vm_compute in E1. discriminate E1."
 },
 {
  "mutant": "bin_range_left",
  "theorem": "C28_expression_range",
  "requires": "Lexer Parser Lines Grammar Clean AstTokens TokIter IterFacts ParserProps TokIterFacts PropParser",
  "proof": "\ndestruct (H (BinaryOperation (Value (LiteralValue dummy)) (SumOf dummy) (Value (LiteralValue (tok 0 (toks [\"abc\"])))) None)) as [_ (t & r & E & E1)].\nchange ([dummy; dummy] ++ [tok 0 (toks [\"abc\"])] = r ++ [t]) in E. apply app_inj_tail in E as [_ <-]. vm_compute in E1. discriminate E1."
 },
 {
  "mutant": "srs_any_token",
  "theorem": "C29_expressions_sound",
  "requires": "Lexer Parser Lines Grammar Clean AstTokens TokIter IterFacts ParserProps TokIterFacts PropParser",
  "proof": "\npose (ts := toks [\"SRS WIN\"]). edestruct (H 9 (tok 0 ts) (snd (iter_next (iter_new ts)))) as (_ & o & us & E & D & _);\n [apply reach_next, reach_new|vm_compute; reflexivity|].\nassert (E' : ts = us ++ []) by (vm_cast_no_check E). rewrite app_nil_r in E'. subst us. clear E.\ninversion D as [| |vs v DV EV EE| | | | |]; subst.\ninversion DV as [ws i us ss DI DS E1 E2]; subst. inversion DI as [t ? |t n K [w N]]; subst.\nall: try (destruct H0 as [? H0]; vm_compute in H0; discriminate H0).\nall: vm_compute in N; discriminate N."
 },
 {
  "mutant": "nary_no_mkay",
  "theorem": "C30_expressions_complete",
  "requires": "Lexer Parser Lines Grammar Clean AstTokens TokIter IterFacts ParserProps TokIterFacts PropParser",
  "proof": "\npose (ts := toks [\"ALL OF WIN MKAY\"]).\nedestruct (H 9 (tok 0 ts) [tok 1 ts; tok 2 ts] false (NaryOperation (AllOf (tok 0 ts)) [Operand (Value (LiteralValue (tok 1 ts))) None] (Some (tok 2 ts))) [] (snd (iter_next (iter_new ts)))) as (it & E & _).\n- apply reach_next, reach_new.\n- apply (d_nary_closed ALL_OF AllOf (tok 0 ts) [tok 1 ts]); [constructor|vm_compute; reflexivity| |vm_compute; reflexivity].\n  apply (d_operand [tok 1 ts] _ [] None [] []); [apply d_literal; eexists; vm_compute; reflexivity|constructor|constructor].\n- vm_compute. reflexivity.\n- split; [discriminate|]. intros [_ (y & us & E & _)]. discriminate E.\n- cbn. lia.\n- vm_compute in E. discriminate E."
 },
 {
  "mutant": "found_yr_opt",
  "theorem": "C32_single_line_statements",
  "requires": "Lexer Parser Lines Grammar Clean AstTokens TokIter IterFacts ParserProps TokIterFacts PropParser",
  "proof": "\npose (ts := toks [\"FOUND YR\"]).\ndestruct (H ts (tok 0 ts) [] (NFoundYr (mkFoundYr (tok 0 ts) (Value (LiteralValue (tok 0 ts)))))) as [D _];\n [vm_compute; reflexivity|intros K; vm_compute in K; intuition discriminate|].\nspecialize (D ltac:(split; [vm_compute; reflexivity|intros [? K]; discriminate K])).\nassert (K : forall t, ~ d_line [t] (NFoundYr (mkFoundYr t (Value (LiteralValue t))))); [|exact (K _ D)].\nintros t K. inversion K; subst. match goal with X : d_expr _ [] _ |- _ => inversion X end."
 },
 {
  "mutant": "block_no_too_many",
  "theorem": "C33_error_free_means_grammatical",
  "requires": "Lexer Parser Lines Grammar Clean AstTokens TokIter IterFacts ParserProps TokIterFacts PropParser",
  "proof": "\npose (ts := toks [\"GTFO GTFO\"]).\nassert (D := H ts [NGtfo (mkGtfo (tok 0 ts))] ltac:(vm_compute; reflexivity) eq_refl).\ndestruct D as (k & bl & rest & E & D).\nassert (K : forall bl g, d_block bl [NGtfo (mkGtfo g)] -> bl = [[g]] \\/ exists r, bl = [] :: r).\n{ clear. intros bl g D. inversion D as [ls ns D1|ls ns D1]; subst; [left|right; eauto].\n  inversion D1 as [|l n m ns D2 D3]; subst. inversion D3; subst. inversion D2 as [l' n' D4| | | | |]; subst. inversion D4; subst. reflexivity. }\nchange (logical_lines ts) with [[tok 0 ts; tok 1 ts]] in E.\ndestruct (K _ _ D) as [->|[r ->]]; discriminate E."
 },
 {
  "mutant": "block_no_too_many",
  "theorem": "C35_hai_swallows_next_line_refuted",
  "requires": "Lexer Parser Lines Grammar Clean AstTokens TokIter IterFacts ParserProps TokIterFacts PropParser",
  "proof": "\npose (ts := toks [\"HAI\"; \"GTFO\"]).\nassert (E := H ts (tok 0 ts) [] [tok 1 ts] [] ltac:(vm_compute; reflexivity) ltac:(vm_compute; reflexivity) ltac:(discriminate)).\nvm_compute in E. discriminate E."
 },
 {
  "mutant": "stop_root_kthxbye",
  "theorem": "C34_grammatical_programs_accepted",
  "requires": "Lexer Parser Lines Grammar Clean AstTokens TokIter IterFacts ParserProps TokIterFacts PropParser",
  "proof": "\npose (ts := toks [\"GTFO\"; \"KTHXBYE\"; \"GTFO\"]).\ndestruct (H ts [NGtfo (mkGtfo (tok 0 ts)); NKThxBye (mkKthxbye (tok 1 ts)); NGtfo (mkGtfo (tok 2 ts))]) as [E _];\n [|vm_compute in E; discriminate E].\nexists 1, [[tok 0 ts]; [tok 1 ts]; [tok 2 ts]], []. split; [vm_compute; reflexivity|].\napply d_block_stmts; [|discriminate].\napply (d_stmts_cons [_] _ [_; _]); [apply d_single, d_gtfo; vm_compute; reflexivity|].\napply (d_stmts_cons [_] _ [_]); [apply d_single, d_kthxbye; vm_compute; reflexivity|].\napply (d_stmts_cons [_] _ []); [apply d_single, d_gtfo; vm_compute; reflexivity|constructor]."
 },
 {
  "mutant": "maek_not_panic",
  "theorem": "C24_maek_never_panics_refuted",
  "requires": "Lexer Parser Lines Grammar Clean AstTokens TokIter IterFacts ParserProps TokIterFacts PropParser NodeTokens NodeKind PropParser2",
  "proof": "\npose (ts := toks [\"MAEK x\"]).\nassert (E := H ts (tok 0 ts) [tok 1 ts] [] ltac:(vm_compute; reflexivity) ltac:(vm_compute; reflexivity)).\nvm_compute in E. discriminate E."
 },
 {
  "mutant": "va_statement_expr",
  "theorem": "C24_parse_never_panics_refuted",
  "requires": "Lexer Parser Lines Grammar Clean AstTokens TokIter IterFacts ParserProps TokIterFacts PropParser NodeTokens NodeKind PropParser2",
  "proof": "\npose (ts := toks [\"x x\"]).\nassert (E : parse ts = ParsePanic (PanicUnreachable (mkVA (mkIdentifier (tok 0 ts) None) []) (tok 1 ts))).\n{ apply (H ts [tok 0 ts] (mkVA (mkIdentifier (tok 0 ts) None) []) (tok 1 ts) [] []); [vm_compute; reflexivity| |intros K; vm_compute in K; discriminate K..].\n  apply (d_access [_] _ [] []); [|constructor]. constructor. eexists. vm_compute. reflexivity. }\nvm_compute in E. discriminate E.",
  "edits": [
   {
    "file": "Parser",
    "old": "    else panic (PanicUnreachable variable_access t)",
    "new": "    else ret (NExpression (Value (VariableAccess variable_access)))"
   }
  ]
 },
 {
  "mutant": "block_errs_first",
  "theorem": "C25_ast_tokens_are_source_tokens_in_order",
  "requires": "Lexer Parser Lines Grammar Clean AstTokens TokIter IterFacts ParserProps TokIterFacts PropParser NodeTokens NodeKind PropParser2",
  "proof": "\npose (ts := toks [\"GTFO 1 \"; \"GTFO\"]). assert (E := H ts (ASTBlock (nodes_of (parse ts))) ltac:(vm_compute; reflexivity)).\nvm_compute in E. repeat match goal with K : Subseq _ _ |- _ => inversion K; clear K; subst end."
 },
 {
  "mutant": "err_too_many_one",
  "theorem": "C42_too_many_tokens_is_the_end_of_a_line",
  "requires": "Lexer Parser Lines Grammar Clean AstTokens TokIter IterFacts ParserProps TokIterFacts PropParser NodeTokens NodeKind PropParser2",
  "proof": "\npose (ts := toks [\"GTFO 1 2 \"]).\nedestruct (H ts (ASTBlock (nodes_of (parse ts)))) as (_ & p & E); [vm_compute; reflexivity|vm_compute; left; reflexivity|].\nassert (L : logical_lines ts = [[tok 0 ts; tok 1 ts] ++ [tok 2 ts]]) by (vm_compute; reflexivity).\nrewrite L in E. destruct E as [E|[]]. apply app_inj_tail in E as [_ E]. vm_compute in E. discriminate E.",
  "edits": [
   {
    "file": "Parser",
    "old": "| _ => fail (TooManyTokens l)",
    "new": "| t :: _ => fail (TooManyTokens [t])"
   }
  ]
 },
 {
  "mutant": "loop_label_keyword",
  "theorem": "C44_loop_labels_are_identifiers",
  "requires": "Lexer Parser Lines Grammar Clean AstTokens TokIter IterFacts ParserProps TokIterFacts PropParser NodeTokens NodeKind PropParser2",
  "proof": "\npose (ts := toks [\"IM IN YR SRS\"; \"GTFO\"; \"IM OUTTA YR x\"]).\nedestruct (H ts) as (_ & _ & [s E] & _); [vm_compute; reflexivity|left; reflexivity|]. vm_compute in E. discriminate E."
 },
 {
  "mutant": "inner_order",
  "theorem": "C46_inner_blocks",
  "requires": "Lexer Parser Lines Grammar Clean AstTokens TokIter IterFacts ParserProps TokIterFacts PropParser NodeTokens NodeKind PropParser2",
  "proof": "\npose (ns := nodes_of (parse (toks [\"O RLY?\"; \"YA RLY\"; \"GTFO\"; \"MEBBE x\"; \"GTFO\"; \"OIC\"]))).\nspecialize (H (hd (NASTError (UnexpectedToken dummy)) ns)). vm_compute in H. discriminate H.",
  "edits": [
   {
    "file": "Blocks",
    "old": "    Some (match if_true with Some (YaRly _ b) => [b] | None => [] end ++\n          map (fun x => match x with Mebbe _ _ b => b end) mebbes ++",
    "new": "    Some (map (fun x => match x with Mebbe _ _ b => b end) mebbes ++\n          match if_true with Some (YaRly _ b) => [b] | None => [] end ++"
   }
  ]
 },
 {
  "mutant": "stop_root_kthxbye",
  "theorem": "C41_parse_reads_everything",
  "requires": "Lexer Parser Lines Grammar Clean AstTokens TokIter IterFacts ParserProps TokIterFacts PropParser",
  "proof": "\nedestruct (H (toks [\"GTFO\"; \"KTHXBYE\"; \"GTFO\"]) 20) as [E _]; [repeat constructor; discriminate|vm_compute; reflexivity|].\nvm_compute in E. discriminate E."
 },
 {
  "mutant": "api_swallow_err",
  "theorem": "C45_tokenize_and_parse",
  "requires": "Lexer Parser Api PropParser",
  "proof": "\nspecialize (H (lit \"OBTW\")). vm_compute in H. discriminate H.",
  "edits": [
   {
    "file": "Api",
    "old": "  | LexErr e => ApiErr e",
    "new": "  | LexErr e => ApiOk (ASTBlock [])"
   }
  ]
 },
 {
  "mutant": "api_no_panic",
  "theorem": "C45_tokenize_and_parse",
  "requires": "Lexer Parser Api PropParser",
  "proof": "\nspecialize (H (lit \"MAEK x\")). vm_compute in H. discriminate H.",
  "edits": [
   {
    "file": "Api",
    "old": "    | ParsePanic _ => ApiPanic",
    "new": "    | ParsePanic _ => ApiOk (ASTBlock [])"
   }
  ]
 },
 {
  "mutant": "eq_srs_ignored",
  "theorem": "C52_nodes",
  "requires": "Lexer Parser Api Eq EqSpec Display PropParser PropEq",
  "proof": "\npose (i s := NIHasA (mkIHasA dummy (mkIdentifier dummy s) None)).\ndestruct (H (i None) (i (Some dummy))) as [E _]. specialize (E eq_refl). destruct E as [E _]. discriminate E."
 },
 {
  "mutant": "disp_no_comma",
  "theorem": "C53_display_iff_equal",
  "requires": "Lexer Parser Api Eq EqSpec Display PropParser PropEq",
  "proof": "\ndestruct (H (mkPos 1 23 0 0) (mkPos 12 3 0 0)) as [E _]. specialize (E ltac:(vm_compute; reflexivity)). discriminate E.",
  "edits": [
   {
    "file": "Display",
    "old": "lit \", C\" ++ ",
    "new": ""
   }
  ]
 },
 {
  "mutant": "disp_swapped",
  "theorem": "C53_position_text",
  "requires": "Lexer Parser Api Eq EqSpec Display PropParser PropEq",
  "proof": "\ndestruct (H (mkPos 1 2 0 0)) as (l & c & (neg & ds & -> & ND & FD & NZ & NN & E) & _ & D & _). vm_compute in D.\ndestruct neg; [discriminate D|]. destruct ds as [|d ds]; [congruence|]. injection D as <- D.\ndestruct ds as [|d ds]; [vm_compute in E; discriminate E|]. inversion FD as [|? ? _ FD']; inversion FD'; subst. injection D as <- _.\nunfold LexSpec.digit in *. lia."
 },
 {
  "mutant": "func_no_consume",
  "theorem": "C36_function_swallows_next_line_refuted",
  "requires": "Lexer Parser Lines Grammar Clean AstTokens TokIter IterFacts ParserProps TokIterFacts PropParser",
  "proof": "\npose (ts := toks [\"HOW IZ I f\"; \"GTFO\"; \"IF U SAY SO\"; \"GTFO\"]).\nassert (E := H ts (tok 0 ts) [tok 1 ts] (mkIdentifier (tok 1 ts) None) [] [] [[tok 2 ts]] [NGtfo (mkGtfo (tok 2 ts))] (tok 3 ts) [tok 4 ts] []\n  ltac:(vm_compute; reflexivity) ltac:(vm_compute; reflexivity) ltac:(constructor; eexists; vm_compute; reflexivity) ltac:(constructor)\n  ltac:(apply d_block_stmts; [apply (d_stmts_cons [_] _ []); [apply d_single, d_gtfo; vm_compute; reflexivity|constructor]|discriminate])\n  ltac:(vm_compute; reflexivity) ltac:(discriminate)).\nvm_compute in E. discriminate E."
 },
 {
  "mutant": "wtf_no_consume",
  "theorem": "C37_wtf_swallows_next_line_refuted",
  "requires": "Lexer Parser Lines Grammar Clean AstTokens TokIter IterFacts ParserProps TokIterFacts PropParser",
  "proof": "\npose (ts := toks [\"WTF?\"; \"OMG 1 \"; \"GTFO\"; \"OIC\"; \"GTFO\"]).\nassert (E := H ts (tok 0 ts) (tok 1 ts) [[tok 2 ts; tok 3 ts]; [tok 4 ts]]\n  [WtfOmg (tok 2 ts) (Value (LiteralValue (tok 3 ts))) (ASTBlock [NGtfo (mkGtfo (tok 4 ts))])] [] None (tok 5 ts) [tok 6 ts] []\n  ltac:(vm_compute; reflexivity) ltac:(vm_compute; reflexivity) ltac:(vm_compute; reflexivity)\n  ltac:(apply (d_omgs_cons _ false [_] _ [[_]] _ []); [vm_compute; reflexivity|apply d_literal; eexists; vm_compute; reflexivity|\n    apply d_block_stmts; [apply (d_stmts_cons [_] _ []); [apply d_single, d_gtfo; vm_compute; reflexivity|constructor]|discriminate]|constructor])\n  ltac:(constructor) ltac:(vm_compute; reflexivity) ltac:(discriminate)).\nvm_compute in E. discriminate E."
 },
 {
  "mutant": "gtfo_column",
  "theorem": "C49_positions_only_cut_lines",
  "requires": "Lexer Parser Api Lines Grammar Clean Relabel SourceSpec PropParser PropSource",
  "proof": "\nspecialize (H (toks [\"GTFO\"]) (toks [\"  GTFO\"]) ltac:(vm_compute; reflexivity)). vm_compute in H. discriminate H.",
  "edits": [
   {
    "file": "Parser",
    "old": "| TKeyword GTFO => ret (NGtfo {| gtfo_token := first_token |})",
    "new": "| TKeyword GTFO => if (column (r_start (tok_range first_token)) =? 1)%Z then ret (NGtfo {| gtfo_token := first_token |}) else fail (UnexpectedToken first_token)"
   }
  ]
 },
 {
  "mutant": "bin_range_left",
  "theorem": "C57_ranges_nest",
  "requires": "Lexer Parser TokIter IterFacts Ranges PropParser PropRanges",
  "proof": "\npose (ts := toks [\"SUM OF abc abc\"]).\npose (x k := Value (VariableAccess (mkVA (mkIdentifier (tok k ts) None) []))).\npose (b := PExpr (BinaryOperation (x 1) (SumOf (tok 0 ts)) (x 2) None)).\ndestruct (H (text [\"SUM OF abc abc\"]) ts (ASTBlock (nodes_of (parse ts))) (PExpr (x 2)) b b) as [_ E];\n [vm_compute; reflexivity|vm_compute; reflexivity|left; vm_compute; reflexivity|apply part_refl|eapply part_step; [apply part_refl|right; left; reflexivity]|].\nvm_compute in E. intuition (try discriminate; try lia)."
 },
 {
  "mutant": "srs_any_token",
  "theorem": "C58_every_ast_has_its_shape",
  "requires": "Lexer Parser NodeTokens Shape PropParser PropShape",
  "proof": "\npose (ts := toks [\"SRS WIN\"]). assert (E := H ts (ASTBlock (nodes_of (parse ts))) ltac:(vm_compute; reflexivity)). vm_compute in E.\ndestruct E as [[[[s E] _] _] _]. discriminate E. "
 },
 {
  "mutant": "missing_r",
  "theorem": "C62_every_variant_occurs_refuted",
  "requires": "Lexer Parser NodeTokens ErrorShape PropParser PropErrors",
  "proof": "\npose (ts := toks [\"x 1 \"]). edestruct (H (tok 1 ts) ts (ASTBlock (nodes_of (parse ts)))) as [E _]; [vm_compute; reflexivity|]. apply E. vm_compute. left. reflexivity.",
  "edits": [
   {
    "file": "Parser",
    "old": "    else panic (PanicUnreachable variable_access t)",
    "new": "    else fail (EVariableAssignment (MissingR t))"
   }
  ]
 },
 {
  "mutant": "missing_r",
  "theorem": "C68_assignment_without_r",
  "requires": "Lexer Parser Lines Grammar PropParser PropErrorDocs",
  "proof": "\npose (ts := toks [\"x 1 \"]).\nassert (E := H ts [tok 0 ts] (mkVA (mkIdentifier (tok 0 ts) None) []) (tok 1 ts) []).\nvm_compute in E.\nassert (F : False); [|exact F].\nenough (X : ParsePanic (PanicUnreachable (mkVA (mkIdentifier (tok 0 ts) None) []) (tok 1 ts)) = parse ts) by (vm_compute in X; discriminate X).\nsymmetry. apply H with (ws := [tok 0 ts]) (r := []); [vm_compute; reflexivity| |intros K; vm_compute in K; discriminate K..].\napply (d_access [_] _ [] []); [|constructor]. constructor. eexists. vm_compute. reflexivity.",
  "edits": [
   {
    "file": "Parser",
    "old": "    else panic (PanicUnreachable variable_access t)",
    "new": "    else fail (EVariableAssignment (MissingR t))"
   }
  ]
 },
 {
  "mutant": "block_errs_first",
  "theorem": "C64_nodes_by_line",
  "requires": "Lexer Parser NodeTokens Lines NodeLines PropParser PropNodeLines",
  "proof": "\npose (ts := toks [\"GTFO 1 \"; \"GTFO\"]). destruct (H ts (ASTBlock (nodes_of (parse ts))) ltac:(vm_compute; reflexivity)) as (gs & F & E).\nassert (K : forall l g, line_nodes l g -> length g <= 1 \\/ exists n r, g = [n; NASTError (TooManyTokens r)]).\n{ clear. intros l g D. destruct D; cbn; eauto. }\nchange (logical_lines ts) with [[tok 0 ts; tok 1 ts]; [tok 2 ts]] in F.\ninversion F as [|? g1 ? ? F1 F2]; subst. inversion F2 as [|? g2 ? ? F3 F4]; subst. inversion F4; subst.\napply K in F1, F3. vm_compute in E. clear F2 F4 F.\ndestruct F1 as [L1|(n & r & ->)]; [|discriminate E].\ndestruct g1 as [|n1 [|? ?]]; [| |cbn in L1; lia].\n- destruct F3 as [L2|(n' & r' & ->)]; [destruct g2 as [|? [|? ?]]; cbn in L2; try lia|]; discriminate E.\n- destruct F3 as [L2|(n' & r' & ->)]; [destruct g2 as [|? [|? ?]]; cbn in L2; try lia|]; discriminate E."
 },
 {
  "mutant": "err_too_many_one",
  "theorem": "C64_errors_by_line",
  "requires": "Lexer Parser NodeTokens Lines NodeLines PropParser PropNodeLines",
  "proof": "\npose (ts := toks [\"GTFO 1 2 \"]). destruct (H ts (ASTBlock (nodes_of (parse ts))) ltac:(vm_compute; reflexivity)) as (gs & F & E).\nchange (logical_lines ts) with [[tok 0 ts; tok 1 ts] ++ [tok 2 ts]] in F.\ninversion F as [|? g1 ? ? [_ F1] F2]; subst. inversion F2; subst. clear F2 F. cbn [concat] in E. rewrite app_nil_r in E.\nreplace (block_errors _) with [TooManyTokens [tok 1 ts]] in E by (vm_compute; reflexivity). subst g1.\napply Forall_inv in F1. destruct F1 as [_ [p E]]. change ([tok 0 ts; tok 1 ts] ++ [tok 2 ts] = p ++ [tok 1 ts]) in E. apply app_inj_tail in E as [_ E]. vm_compute in E. discriminate E.",
  "edits": [
   {
    "file": "Parser",
    "old": "| _ => fail (TooManyTokens l)",
    "new": "| t :: _ => fail (TooManyTokens [t])"
   }
  ]
 },
 {
  "mutant": "id_error_first",
  "theorem": "C68_errors_say_where",
  "requires": "Lexer Parser NodeTokens Lines NodeLines PropParser PropErrorDocs",
  "proof": "\npose (ts := toks [\"I HAS A 1 2 \"]).\ndestruct (H ts (ASTBlock (nodes_of (parse ts))) (EIHasA (InvalidIdentifier (tok 0 ts))) ltac:(vm_compute; reflexivity) ltac:(vm_compute; left; reflexivity))\n  as [(p & r & I & A & _)|(p & r & _ & _ & E)]; [|discriminate E].\ndestruct A as (h & _ & _ & ->). vm_compute in I. destruct I as [I|I]; [discriminate I|exact I].",
  "edits": [
   {
    "file": "Parser",
    "old": "    else fail (EIHasA (InvalidIdentifier t))",
    "new": "    else fail (EIHasA (InvalidIdentifier first_token))"
   }
  ]
 },
 {
  "mutant": "dbg_backslash_raw",
  "theorem": "C69_strings",
  "requires": "Debug PropDebug",
  "proof": "\nspecialize (H (fun _ => true) [92%N; 110%N] [10%N]). destruct H as [H _]. specialize (H eq_refl). discriminate H."
 },
 {
  "mutant": "dbg_no_srs",
  "theorem": "C69_nodes",
  "requires": "Debug DebugSpec PropParser PropDebug",
  "proof": "\nspecialize (H (fun _ => true) ft).\npose (id o := mkIdentifier (bare' 1) o).\ndestruct (H (NIHasA (mkIHasA (bare' 1) (id None) None)) (NIHasA (mkIHasA (bare' 1) (id (Some (bare' 1))) None)) ft_ok) as [K _].\nspecialize (K ltac:(vm_compute; reflexivity)). vm_compute in K. discriminate K."
 },
 {
  "mutant": "pad_once",
  "theorem": "C71_lines_of_vectors",
  "requires": "Debug DebugSpec Pretty PropPretty PropParser",
  "proof": "\nspecialize (H (fun _ => true) ft [bare' 1] ft_ok). vm_compute in H. discriminate H."
 },
 {
  "mutant": "type_numbr_numbar",
  "theorem": "C72_types",
  "requires": "Conversions Grammar PropParser PropConversions",
  "proof": "\ndestruct (H (mkToken (TKeyword NUMBAR) (mkRange (mkPos 1 1 1 1) (mkPos 1 1 1 1)))) as [K _].\ndestruct (K (TyNumbr (mkToken (TKeyword NUMBAR) (mkRange (mkPos 1 1 1 1) (mkPos 1 1 1 1))))) as [K1 _]. specialize (K1 eq_refl).\ninversion K1; unfold kw in *; cbn in *; congruence."
 },
 {
  "mutant": "value_identifier",
  "theorem": "C72_values",
  "requires": "Conversions PropParser PropConversions",
  "proof": "\ndestruct (H (mkToken (TIdentifier [97%N]) (mkRange (mkPos 1 1 1 1) (mkPos 1 1 1 1)))) as [_ K].\nassert (E : parse [mkToken (TIdentifier [97%N]) (mkRange (mkPos 1 1 1 1) (mkPos 1 1 1 1))] = _) by (apply K; left; eexists; vm_compute; reflexivity).\nvm_compute in E. discriminate E."
 },
 {
  "mutant": "gimmeh_slots_lost",
  "theorem": "C32_single_line_statements",
  "requires": "Lexer Parser Lines Grammar LineGrammar PropParser",
  "proof": "\npose (ts := toks [\"GIMMEH x'Z y\"]). pose (k n := nth n ts dummy).\nassert (D : d_line ts (NGimmeh (mkGimmeh (k 0) (mkVA (mkIdentifier (k 1) None) [mkSlot (k 2) (mkIdentifier (k 3) None)])))).\n{ change ts with (k 0 :: [k 1] ++ k 2 :: [k 3] ++ []). apply d_gimmeh; [vm_compute; reflexivity|].\n  apply d_access; [apply d_name; eexists; vm_compute; reflexivity|].\n  apply d_slot; [vm_compute; reflexivity|apply d_name; eexists; vm_compute; reflexivity|apply d_no_slot]. }\nassert (M : ~ multi_line (k 0)) by (vm_compute; intuition discriminate).\nassert (L : logical_lines ts = [k 0 :: tl ts]) by (vm_compute; reflexivity).\ndestruct (proj2 (H ts (k 0) (tl ts) (NGimmeh (mkGimmeh (k 0) (mkVA (mkIdentifier (k 1) None) [mkSlot (k 2) (mkIdentifier (k 3) None)]))) L M) D) as [E _].\nvm_compute in E. discriminate E.",
  "edits": [
   {
    "file": "Parser",
    "old": "    v <- va_parse fuel t ;;\n    ret {| gimmeh_token",
    "new": "    w <- va_parse fuel t ;; v <- ret {| va_identifier := va_identifier w; va_accesses := [] |} ;;\n    ret {| gimmeh_token"
   }
  ]
 },
 {
  "mutant": "call_without_mkay",
  "theorem": "C73_call_refuted",
  "requires": "Lexer Parser Api DocSpec PropDocs",
  "proof": "\nspecialize (H (lit \"f\") (VNumber (Int 1)) (VNumber (Int 2)) (lit \"I IZ f YR 1 AN YR 2 \")).\nassert (E : source_with [[TKeyword I_IZ; name_ (lit \"f\"); TKeyword YR; value_ (VNumber (Int 1)); TKeyword AN; TKeyword YR; value_ (VNumber (Int 2))]] (lit \"I IZ f YR 1 AN YR 2 \")).\n{ eexists. split; vm_compute; reflexivity. }\nspecialize (H E). vm_compute in H. discriminate H.",
  "edits": [
   {
    "file": "Parser",
    "old": "    | None => fail (EIIz (MissingMkay first_token))\n    | Some t2 =>\n      if is_kw MKAY t2 then\n        ret",
    "new": "    | None => ret {| iiz_token := first_token; iiz_name := name;\n               iiz_arguments := arguments |}\n    | Some t2 =>\n      if is_kw MKAY t2 then\n        ret"
   }
  ]
 },
 {
  "mutant": "nary_iter_index",
  "theorem": "C74_expression_stack",
  "requires": "AstTokens TokIter TokCost PropParser PropTokCost",
  "proof": "\npose (e := expression_value). specialize (H 12 e (13 * expr_depth e) (le_n _)). vm_compute in H. discriminate H.",
  "edits": [
   {
    "file": "TokIter",
    "old": "(NaOperand (index + 1) (Some (nary_operand_iter x))))",
    "new": "(NaOperand index (Some (nary_operand_iter x))))"
   }
  ]
 },
 {
  "mutant": "block_stops_at_error",
  "theorem": "C40_first_line_is_independent",
  "requires": "Lexer Parser Lines LineGrammar PropParser",
  "proof": "\npose (ts := toks [\"I HAS A\"; \"GTFO\"]).\nassert (M : ~ multi_line (hd dummy ts)) by (vm_compute; intuition discriminate).\nspecialize (H ts (toks [\"I HAS A\"]) (hd dummy ts) [] [[nth 1 ts dummy]] ltac:(vm_compute; reflexivity) ltac:(vm_compute; reflexivity) M).\nvm_compute in H. discriminate H.",
  "edits": [
   {
    "file": "Parser",
    "old": "      if should_stop_at_token t then ret (stmt ++ errs)\n      else\n        rest",
    "new": "      if should_stop_at_token t then ret (stmt ++ errs)\n      else\n      match stmt with\n      | [NASTError _] => ret (stmt ++ errs)\n      | _ =>\n        rest"
   },
   {
    "file": "Parser",
    "old": "        ret (stmt ++ errs ++ rest)\n    | None => ret (stmt ++ errs)",
    "new": "        ret (stmt ++ errs ++ rest)\n      end\n    | None => ret (stmt ++ errs)"
   }
  ]
 },
 {
  "mutant": "iiz_args_lost",
  "theorem": "C76_nothing_is_lost",
  "requires": "Lexer Parser Lines Clean Kept PropParser PropKept",
  "proof": "\npose (ts := toks [\"I IZ f YR 1 AN YR 2 MKAY\"]).\nspecialize (H ts (nodes_of (parse ts)) ltac:(vm_compute; reflexivity) ltac:(vm_compute; reflexivity)).\nassert (E : logical_lines ts = [ts]) by (vm_compute; reflexivity). rewrite E in H.\nassert (F : ts <> []) by (vm_compute; discriminate).\nspecialize (H (Forall_cons ts F (Forall_nil (fun l => l <> [])))). vm_compute in H. discriminate H.",
  "edits": [
   {
    "file": "Parser",
    "old": "iiz_arguments := arguments |}",
    "new": "iiz_arguments := firstn 1 arguments |}"
   }
  ]
 },
 {
  "mutant": "keyword_whole_word",
  "theorem": "C77_before_an_edit",
  "requires": "Lexer LookAhead PropLexer PropLookAhead",
  "proof": "\nspecialize (H (lit \"IF U SAY SO\") (lit \" \") (lit \"x\")).\ndestruct (H _ [] _ ltac:(rewrite app_nil_r; vm_compute; reflexivity) ltac:(vm_compute; reflexivity)) as [us E].\n{ repeat (apply Forall_cons; [vm_compute; discriminate|]). apply Forall_nil. }\nvm_compute in E. discriminate E.",
  "edits": [
   {
    "file": "Lexer",
    "old": "(fun k => starts_with (to_string_slice k) code) all_symbols",
    "new": "(fun k => starts_with (to_string_slice k) code && negb (match skipn (length (to_string_slice k)) code with c :: _ => (N.leb 65 c && N.leb c 90) || (N.leb 97 c && N.leb c 122) | [] => false end)) all_symbols"
   }
  ]
 },
 {
  "mutant": "machine_column_in_chars",
  "theorem": "C80_same_below_the_bound",
  "requires": "Machine MachineSpec PropLexer PropMachine",
  "proof": "\nspecialize (H Checked (lit \"BTW\" ++ [233%N]) ltac:(vm_compute; reflexivity)). destruct H as [H _]. vm_compute in H. discriminate H."
 },
 {
  "mutant": "machine_newline_keeps_column",
  "theorem": "C80_same_below_the_bound",
  "requires": "Machine MachineSpec PropLexer PropMachine",
  "proof": "\nspecialize (H Checked (lit \"x\" ++ nl ++ lit \"y\") ltac:(vm_compute; reflexivity)). destruct H as [H _]. vm_compute in H. discriminate H."
 },
 {
  "mutant": "machine_first_column_zero",
  "theorem": "C80_same_below_the_bound",
  "requires": "Machine MachineSpec PropLexer PropMachine",
  "proof": "\nspecialize (H Checked (lit \"x\") ltac:(vm_compute; reflexivity)). destruct H as [H _]. vm_compute in H. discriminate H."
 },
 {
  "mutant": "machine_cast_16_bits",
  "theorem": "C80_as_i32",
  "requires": "Machine MachineSpec PropLexer PropMachine",
  "proof": "\ndestruct (proj1 (H (2 ^ 16)%Z 0%Z) eq_refl) as [_ [k K]]. lia."
 },
 {
  "mutant": "machine_cast_unsigned",
  "theorem": "C80_as_i32",
  "requires": "Machine MachineSpec PropLexer PropMachine",
  "proof": "\ndestruct (proj1 (H (-1)%Z (2 ^ 32 - 1)%Z) eq_refl) as [K _]. lia."
 },
 {
  "mutant": "cr_is_space",
  "theorem": "C81_line_ends",
  "requires": "Lexer Lines Windows PropLexer PropWindows",
  "proof": "\npose (d := mkToken TComma (mkRange position_start position_start)).\npose (code := lit \"HAI\" ++ nl ++ lit \"x\"). pose (us := toks_of (crlf code)).\nspecialize (H code [] (nth 0 us d) (nth 1 us d) [] ltac:(vm_compute; reflexivity) ltac:(vm_compute; reflexivity)).\ndestruct H as [H|[H|[s H]]]; vm_compute in H; discriminate H.",
  "edits": [
   {
    "file": "Lexer",
    "old": "if N.eqb c c_space || N.eqb c c_tab then",
    "new": "if N.eqb c c_space || N.eqb c c_tab || N.eqb c 13%N then"
   }
  ]
 },
 {
  "mutant": "cr_is_space",
  "theorem": "C81_tokens",
  "requires": "Lexer Lines Windows PropLexer PropWindows",
  "proof": "\nspecialize (H nl [Gap 10%N] ltac:(vm_compute; reflexivity)).\nassert (L : LexesTo nl [Gap 10%N] []) by (constructor; [right; right; reflexivity|constructor]).\nspecialize (H L). vm_compute in H. discriminate H.",
  "edits": [
   {
    "file": "Lexer",
    "old": "if N.eqb c c_space || N.eqb c c_tab then",
    "new": "if N.eqb c c_space || N.eqb c c_tab || N.eqb c 13%N then"
   }
  ]
 },
 {
  "mutant": "itz_a_accepted",
  "theorem": "C79_vocabulary",
  "requires": "Lexer Parser Lines Clean Vocabulary PropParser PropVocabulary",
  "proof": "\npose (ts := toks [\"I HAS A x ITZ A NUMBR\"]). pose (t := nth 3 ts dummy).\nassert (E : logical_lines ts = [ts]) by (vm_compute; reflexivity).\nassert (F : ts <> []) by (vm_compute; discriminate).\nassert (G : Forall (fun l => l <> []) (logical_lines ts)) by (rewrite E; exact (Forall_cons ts F (Forall_nil _))).\nassert (I1 : In ts (logical_lines ts)) by (rewrite E; left; reflexivity).\nassert (I2 : In t ts) by (vm_compute; tauto).\nspecialize (H ts _ ts t ltac:(vm_compute; reflexivity) ltac:(vm_compute; reflexivity) G I1 I2).\ndestruct H as [H|(h & v & H & K)].\n- vm_compute in H. tauto || (decompose [or] H; discriminate) || discriminate.\n- assert (K' : h = hd dummy ts) by (rewrite H; reflexivity). subst h. vm_compute in K. discriminate K.",
  "edits": [
   {
    "file": "Parser",
    "old": "          o3 <- next ;;\n          match o3 with\n          | Some t3 =>\n            match ast_type_try_from t3 with",
    "new": "          next_if (is_kw Keywords.A) ;;;\n          o3 <- next ;;\n          match o3 with\n          | Some t3 =>\n            match ast_type_try_from t3 with"
   }
  ]
 },
 {
  "mutant": "visible_skips_symbols",
  "theorem": "C79_vocabulary",
  "requires": "Lexer Parser Lines Clean Vocabulary PropParser PropVocabulary",
  "proof": "\npose (ts := toks [\"VISIBLE x ; y\"]). pose (t := nth 2 ts dummy).\nassert (E : logical_lines ts = [ts]) by (vm_compute; reflexivity).\nassert (F : ts <> []) by (vm_compute; discriminate).\nassert (G : Forall (fun l => l <> []) (logical_lines ts)) by (rewrite E; exact (Forall_cons ts F (Forall_nil _))).\nassert (I1 : In ts (logical_lines ts)) by (rewrite E; left; reflexivity).\nassert (I2 : In t ts) by (vm_compute; tauto).\nspecialize (H ts _ ts t ltac:(vm_compute; reflexivity) ltac:(vm_compute; reflexivity) G I1 I2).\ndestruct H as [H|(h & v & H & K)].\n- vm_compute in H. tauto || (decompose [or] H; discriminate) || discriminate.\n- assert (K' : h = hd dummy ts) by (rewrite H; reflexivity). subst h. vm_compute in K. discriminate K.",
  "edits": [
   {
    "file": "Parser",
    "old": "      e <- pe t ;;\n      rest <- visible_loop pe fuel' ;;\n      ret (e :: rest)",
    "new": "      match tok_type t with\n      | TSymbol _ => visible_loop pe fuel'\n      | _ =>\n      e <- pe t ;;\n      rest <- visible_loop pe fuel' ;;\n      ret (e :: rest)\n      end"
   }
  ]
 },
 {
  "mutant": "maek_unfinished_value",
  "theorem": "C79_vocabulary",
  "requires": "Lexer Parser Lines Clean Vocabulary PropParser PropVocabulary",
  "proof": "\npose (ts := toks [\"VISIBLE MAEK x A NUMBR\"]). pose (t := nth 1 ts dummy).\nassert (E : logical_lines ts = [ts]) by (vm_compute; reflexivity).\nassert (F : ts <> []) by (vm_compute; discriminate).\nassert (G : Forall (fun l => l <> []) (logical_lines ts)) by (rewrite E; exact (Forall_cons ts F (Forall_nil _))).\nassert (I1 : In ts (logical_lines ts)) by (rewrite E; left; reflexivity).\nassert (I2 : In t ts) by (vm_compute; tauto).\nspecialize (H ts _ ts t ltac:(vm_compute; reflexivity) ltac:(vm_compute; reflexivity) G I1 I2).\ndestruct H as [H|(h & v & H & K)].\n- vm_compute in H. tauto || (decompose [or] H; discriminate) || discriminate.\n- assert (K' : h = hd dummy ts) by (rewrite H; reflexivity). subst h. vm_compute in K. discriminate K.",
  "edits": [
   {
    "file": "Parser",
    "old": "| TKeyword MAEK => panic (PanicMaek first_token)",
    "new": "| TKeyword MAEK => o <- next ;; match o with None => fail (MissingToken first_token) | Some t => e <- expr_parse f t ;; next_if (is_kw Keywords.A) ;;; next ;;; ret e end"
   }
  ]
 },
 {
  "mutant": "mebbe_condition_only",
  "theorem": "C76_nothing_is_lost",
  "requires": "Lexer Parser Lines Clean Kept PropParser PropKept",
  "proof": "\npose (ts := toks [\"O RLY?\"; \"YA RLY\"; \"GTFO\"; \"MEBBE x\"; \"GTFO\"; \"OIC\"]).\nspecialize (H ts (nodes_of (parse ts)) ltac:(vm_compute; reflexivity) ltac:(vm_compute; reflexivity)).\nassert (F : Forall (fun l => l <> []) (logical_lines ts)).\n{ assert (B : forallb (fun l => match l with [] => false | _ => true end) (logical_lines ts) = true) by (vm_compute; reflexivity).\n  apply Forall_forall. intros l Hl Z. rewrite forallb_forall in B. specialize (B l Hl). rewrite Z in B. discriminate B. }\nspecialize (H F). vm_compute in H. discriminate H.",
  "edits": [
   {
    "file": "Parser",
    "old": "ret (Mebbe mebbe_token condition b :: rest)",
    "new": "ret (Mebbe mebbe_token condition (ASTBlock []) :: rest)"
   }
  ]
 },
 {
  "mutant": "params_lost_after_first",
  "theorem": "C76_nothing_is_lost",
  "requires": "Lexer Parser Lines Clean Kept PropParser PropKept",
  "proof": "\npose (ts := toks [\"HOW IZ I f YR x AN YR y\"; \"GTFO\"; \"IF U SAY SO\"]).\nspecialize (H ts (nodes_of (parse ts)) ltac:(vm_compute; reflexivity) ltac:(vm_compute; reflexivity)).\nassert (F : Forall (fun l => l <> []) (logical_lines ts)).\n{ assert (B : forallb (fun l => match l with [] => false | _ => true end) (logical_lines ts) = true) by (vm_compute; reflexivity).\n  apply Forall_forall. intros l Hl Z. rewrite forallb_forall in B. specialize (B l Hl). rewrite Z in B. discriminate B. }\nspecialize (H F). vm_compute in H. discriminate H.",
  "edits": [
   {
    "file": "Parser",
    "old": "ret (param :: rest)",
    "new": "ret [param]"
   }
  ]
 },
 {
  "mutant": "omg_merges",
  "theorem": "C76_nothing_is_lost",
  "requires": "Lexer Parser Lines Clean Kept PropParser PropKept",
  "proof": "\npose (ts := toks [\"WTF?\"; \"OMG 1 \"; \"GTFO\"; \"OMG 2 \"; \"GTFO\"; \"OIC\"]).\nspecialize (H ts (nodes_of (parse ts)) ltac:(vm_compute; reflexivity) ltac:(vm_compute; reflexivity)).\nassert (F : Forall (fun l => l <> []) (logical_lines ts)).\n{ assert (B : forallb (fun l => match l with [] => false | _ => true end) (logical_lines ts) = true) by (vm_compute; reflexivity).\n  apply Forall_forall. intros l Hl Z. rewrite forallb_forall in B. specialize (B l Hl). rewrite Z in B. discriminate B. }\nspecialize (H F). vm_compute in H. discriminate H.",
  "edits": [
   {
    "file": "Parser",
    "old": "ret (WtfOmg omg_token expression b :: rest)",
    "new": "ret (match rest with [] => [WtfOmg omg_token expression b] | _ => rest end)"
   }
  ]
 },
 {
  "mutant": "label_checked_same",
  "theorem": "C49_names_and_values_do_not_matter",
  "requires": "Lexer Parser Lines Relabel SourceSpec PropParser PropSource",
  "proof": "\nspecialize (H (toks [\"IM IN YR a\"; \"GTFO\"; \"IM OUTTA YR a\"]) (toks [\"IM IN YR a\"; \"GTFO\"; \"IM OUTTA YR b\"]) ltac:(vm_compute; reflexivity)). vm_compute in H. discriminate H.",
  "edits": [
   {
    "file": "Parser",
    "old": "          if is_identifier end_label then\n            ret",
    "new": "          if is_identifier end_label && (if list_eq_dec N.eq_dec (match tok_type label with TIdentifier s => s | _ => [] end) (match tok_type end_label with TIdentifier s => s | _ => [] end) then true else false) then\n            ret"
   }
  ]
 },
 {
  "mutant": "it_reserved",
  "theorem": "C49_names_and_values_do_not_matter",
  "requires": "Lexer Parser Lines Relabel SourceSpec PropParser PropSource",
  "proof": "\nspecialize (H (toks [\"VISIBLE it\"]) (toks [\"VISIBLE is\"]) ltac:(vm_compute; reflexivity)). vm_compute in H. discriminate H.",
  "edits": [
   {
    "file": "Parser",
    "old": "  | TIdentifier _ => ret {| id_name := first_token; id_srs := None |}",
    "new": "  | TIdentifier s => if list_eq_dec N.eq_dec s (lit \"it\") then fail (UnexpectedToken first_token) else ret {| id_name := first_token; id_srs := None |}"
   }
  ]
 },
 {
  "mutant": "tabs_four",
  "theorem": "C08_positions",
  "requires": "LexSpec LexPropSpec Lexer PropLexer",
  "proof": "\ndestruct (H ([9%N] ++ lit \"x\") (T ([9%N] ++ lit \"x\")) (first ([9%N] ++ lit \"x\")) [9%N] (lit \"x\") []) as [E _];\n  [vm_compute; reflexivity|left; reflexivity|vm_compute; auto|]. vm_compute in E. discriminate E.",
  "edits": [
   {
    "file": "Lexer",
    "old": "          {| line := line p; column := column p + 1;\n             bytes := bytes p + Z.of_nat (utf8_len c); chars := chars p + 1 |} in",
    "new": "          {| line := line p; column := if N.eqb c c_tab then column p + 4 else column p + 1;\n             bytes := bytes p + Z.of_nat (utf8_len c); chars := chars p + 1 |} in"
   }
  ]
 },
 {
  "mutant": "string_ends_at_newline",
  "theorem": "C16_string_tokens",
  "requires": "LexSpec LexPropSpec Lexer PropLexer",
  "proof": "\nedestruct (H ([quote] ++ lit \"a\" ++ nl ++ lit \"b\" ++ [quote])) as (a & raw & b & T & E); [reflexivity|vm_compute; reflexivity|left; reflexivity|reflexivity|].\nedestruct (at_unique _ _ _ _ _ [] ([quote] ++ lit \"a\" ++ nl) (lit \"b\" ++ [quote]) T) as (-> & -> & ->); [vm_compute; auto|].\ndestruct E as [[E _]|(E & _)]; discriminate E.",
  "edits": [
   {
    "file": "Lexer",
    "old": "    else if N.eqb c c_quote then Some index\n",
    "new": "    else if N.eqb c c_quote || N.eqb c c_nl then Some index\n"
   }
  ]
 },
 {
  "mutant": "number_needs_space",
  "theorem": "C13_integer_recognised",
  "requires": "LexSpec LexPropSpec Lexer PropLexer",
  "proof": "\nedestruct (H (lit \"12ab \") (T (lit \"12ab \")) [] [] false (lit \"12\") (lit \"ab \")) as (t & I & E & _);\n [constructor|discriminate|repeat constructor; discriminate|split; [discriminate|reflexivity]|\n  exists 97%N, (lit \"b \"); repeat split; unfold digit, dot; lia|vm_compute; reflexivity|constructor|].\nvm_compute in I. intuition (subst; discriminate E).",
  "edits": [
   {
    "file": "Lexer",
    "old": "  match number_position 0 false code with\n  | None => Ret None\n  | Some (position, has_dot) =>",
    "new": "  match number_position 0 false code with\n  | None => Ret None\n  | Some (position, has_dot) => if match nth_error code position with Some c => N.leb c_a c && N.leb c c_z | None => false end then Ret None else"
   }
  ]
 },
 {
  "mutant": "tldr_inside_word",
  "theorem": "C17_multi_line_comments",
  "requires": "LexSpec LexPropSpec Lexer PropLexer",
  "proof": "\nedestruct (H (lit \"OBTW xTLDR TLDR\")) as (a & b & T & E); [vm_compute; reflexivity|left; reflexivity|reflexivity|].\nmatch type of E with forall x y, ?s ++ _ = _ -> _ => specialize (E (lit \" x\") (lit \"TLDR\")) end.\nvm_compute in E. specialize (E eq_refl). discriminate E.",
  "edits": [
   {
    "file": "Lexer",
    "old": "    match find tldr_str code with",
    "new": "    match find (c_space :: tldr_str) code with"
   }
  ]
 },
 {
  "mutant": "comment_skipped",
  "theorem": "C21_statements_are_logical_lines",
  "requires": "Lexer Parser Lines Grammar Clean AstTokens TokIter IterFacts ParserProps TokIterFacts PropParser",
  "proof": "\nspecialize (H (toks [\"x BTW y\"]) 0). vm_compute in H. discriminate H.",
  "edits": [
   {
    "file": "StmtIter",
    "old": "    if is_comma t then ([], ts, cur)",
    "new": "    if match tok_type t with TCommentSingleLine _ => true | _ => false end then collect_tokens ts' cur else if is_comma t then ([], ts, cur)"
   },
   {
    "file": "StmtIter",
    "old": "    if is_comma t then (None, ts, cur)",
    "new": "    if match tok_type t with TCommentSingleLine _ => true | _ => false end then advance ts' cur else if is_comma t then (None, ts, cur)"
   }
  ]
 },
 {
  "mutant": "ellipsis_skips_next_line_only",
  "theorem": "C21_statements_are_logical_lines",
  "requires": "Lexer Parser Lines Grammar Clean AstTokens TokIter IterFacts ParserProps TokIterFacts PropParser",
  "proof": "\nspecialize (H (toks [\"x ...\"; \"\"; \"y\"]) 0). vm_compute in H. discriminate H.",
  "edits": [
   {
    "file": "StmtIter",
    "old": "      advance ts' (line_of_next ts' cur)",
    "new": "      advance ts' (cur + 1)"
   },
   {
    "file": "StmtIter",
    "old": "      collect_tokens ts' (line_of_next ts' cur)",
    "new": "      collect_tokens ts' (cur + 1)"
   }
  ]
 },
 {
  "mutant": "no_progress",
  "theorem": "C01_every_iteration_consumes",
  "requires": "LexSpec LexPropSpec Lexer PropLexer",
  "proof": "\nspecialize (H (lit \"HAI\") position_start ltac:(discriminate)). vm_compute in H. lia.",
  "edits": [
   {
    "file": "Lexer",
    "old": "  obind (slice_from code (byte_len raw_string)) (fun code' =>",
    "new": "  obind (slice_from code 0) (fun code' =>"
   }
  ]
 },
 {
  "mutant": "no_progress",
  "theorem": "C01_tokenize_terminates",
  "requires": "LexSpec LexPropSpec Lexer PropLexer",
  "proof": "\ndestruct (H (lit \"HAI\") 4%nat ltac:(vm_compute; lia)) as [_ K]. apply K. vm_compute. reflexivity.",
  "edits": [
   {
    "file": "Lexer",
    "old": "  obind (slice_from code (byte_len raw_string)) (fun code' =>",
    "new": "  obind (slice_from code 0) (fun code' =>"
   }
  ]
 },
 {
  "mutant": "open_string_panics",
  "theorem": "C02_ascii_never_panics",
  "requires": "LexSpec LexPropSpec Lexer PropLexer",
  "proof": "\napply (H [34%N; 97%N]); vm_compute; reflexivity.",
  "edits": [
   {
    "file": "Lexer",
    "old": "      obind (slice_from code 1) (fun contents => Ret (Some (code, contents)))",
    "new": "      Panic"
   }
  ]
 },
 {
  "mutant": "open_string_panics",
  "theorem": "C01_tokenize_result",
  "requires": "LexSpec LexPropSpec Lexer PropLexer",
  "proof": "\ndestruct (H [34%N; 97%N]) as [K _].\nassert (X : LexesTo [34%N; 97%N] [Tok [34%N; 97%N] (TValue (VString [97%N]))] []).\n{ apply (lexes_tok [34%N; 97%N] [] (TValue (VString [97%N])) [] []); [|constructor]. apply (tt_open_string [97%N]).\n  intros a b E. destruct a as [|x [|y a]]; discriminate E. }\nassert (Y := proj2 (K _) (ex_intro _ _ (conj X eq_refl))). vm_compute in Y. discriminate Y.",
  "edits": [
   {
    "file": "Lexer",
    "old": "      obind (slice_from code 1) (fun contents => Ret (Some (code, contents)))",
    "new": "      Panic"
   }
  ]
 },
 {
  "mutant": "symbol_of_any_length",
  "theorem": "C03_nonascii_at_token_position_panics",
  "requires": "LexSpec LexPropSpec Lexer PropLexer",
  "proof": "\nspecialize (H [233%N] [] 233%N [] (lexes_nil _) ltac:(discriminate)). vm_compute in H. discriminate H.",
  "edits": [
   {
    "file": "Lexer",
    "old": "  match slice_to code 1 with\n  | Panic => SPanic\n  | Ret raw_symbol =>",
    "new": "  match slice_to code (match code with c :: _ => utf8_len c | [] => 1%nat end) with\n  | Panic => SPanic\n  | Ret raw_symbol =>"
   }
  ]
 },
 {
  "mutant": "symbol_of_any_length",
  "theorem": "C03_panics_iff",
  "requires": "LexSpec LexPropSpec Lexer PropLexer",
  "proof": "\nassert (X : tokenize [233%N] = LexPanic).\n{ apply H. exists [], [233%N]. split; [apply lexes_nil|]. left. exists 233%N, []. split; [reflexivity|discriminate]. }\nvm_compute in X. discriminate X.",
  "edits": [
   {
    "file": "Lexer",
    "old": "  match slice_to code 1 with\n  | Panic => SPanic\n  | Ret raw_symbol =>",
    "new": "  match slice_to code (match code with c :: _ => utf8_len c | [] => 1%nat end) with\n  | Panic => SPanic\n  | Ret raw_symbol =>"
   }
  ]
 },
 {
  "mutant": "ws_newline_no_line",
  "theorem": "C20_compositional",
  "requires": "LexSpec LexPropSpec Lexer PropLexer",
  "proof": "\nspecialize (H (lit \"HAI\") 10%N (lit \"HAI\") (T (lit \"HAI\" ++ [10%N])) ltac:(right; reflexivity) ltac:(vm_compute; reflexivity)).\nassert (F : Forall (fun t => (bytes (end_of t) <= Z.of_nat (byte_len (lit \"HAI\")))%Z) (T (lit \"HAI\" ++ [10%N]))) by (vm_compute; constructor; [discriminate|constructor]).\nspecialize (H F). vm_compute in H. discriminate H."
 },
 {
  "mutant": "block_never_ends",
  "theorem": "C23_parse_terminates",
  "requires": "Lexer Parser Lines PropParser",
  "proof": "\ndestruct (H [] 4%nat ltac:(cbn; lia)) as [_ K]. apply K. vm_compute. reflexivity.",
  "edits": [
   {
    "file": "Parser",
    "old": "    | None => ret (stmt ++ errs)\n    end\n  end.",
    "new": "    | None => rest <- parse_block ps should_stop_at_token fuel' ;; ret (stmt ++ errs ++ rest)\n    end\n  end."
   }
  ]
 },
 {
  "mutant": "unexpected_panics",
  "theorem": "C24_panics_only_in_two_situations",
  "requires": "Lexer Parser Lines Grammar PropParser PropParser2",
  "proof": "\npose (ts := toks [\"VISIBLE TROOF\"]).\ndestruct (H ts (PanicMaek (nth 1 ts dummy)) ltac:(vm_compute; reflexivity)) as [K _]. vm_compute in K. discriminate K.",
  "edits": [
   {
    "file": "Parser",
    "old": "    | _ => fail (UnexpectedToken first_token)\n    end\n  end.\n\n(** ** Single-line",
    "new": "    | _ => panic (PanicMaek first_token)\n    end\n  end.\n\n(** ** Single-line"
   }
  ]
 },
 {
  "mutant": "closing_keyword_missing",
  "theorem": "C38_closing_keyword_is_an_error",
  "requires": "Lexer Parser Lines Free Grammar PropParser",
  "proof": "\npose (o := mkToken (TKeyword OIC) (tok_range (bare' 1))).\nedestruct (H (fun _ => false) o [] []) as (ms & E); [|vm_compute; reflexivity|vm_compute in E; discriminate E].\ndo 5 right. left. reflexivity.",
  "edits": [
   {
    "file": "Parser",
    "old": "    | _ => fail (UnexpectedToken first_token)\n    end\n  end.\n\n(** ** Single-line",
    "new": "    | _ => fail (MissingToken first_token)\n    end\n  end.\n\n(** ** Single-line"
   }
  ]
 },
 {
  "mutant": "gtfo_is_kthxbye",
  "theorem": "C43_first_token_announces_the_node",
  "requires": "Lexer Parser Lines Grammar NodeTokens NodeKind PropParser PropParser2",
  "proof": "\npose (ts := toks [\"GTFO\"]).\npose (g := nth 0 ts dummy).\nassert (P : parse ts = ParseOk (ASTBlock [NKThxBye {| kthxbye_token := g |}])) by (vm_compute; reflexivity).\ndestruct (H ts _ (NKThxBye {| kthxbye_token := g |}) P (or_introl eq_refl)) as [(e & E)|(t & c & _ & K)]; [discriminate E|].\ndestruct K as [K1 K2]. cbn [kthxbye_token] in K2. subst t. vm_compute in K1. discriminate K1.",
  "edits": [
   {
    "file": "Parser",
    "old": "    | TKeyword GTFO => ret (NGtfo {| gtfo_token := first_token |})",
    "new": "    | TKeyword GTFO => ret (NKThxBye {| kthxbye_token := first_token |})"
   }
  ]
 },
 {
  "mutant": "peeks_again",
  "theorem": "C56_linear_number_of_calls",
  "requires": "Lexer Parser Cost PropParser PropCost",
  "proof": "\npose (ts := toks [\"GTFO\"; \"GTFO\"; \"GTFO\"; \"GTFO\"]).\nedestruct (H ts) as (k & it & E & K); [vm_compute; reflexivity|]. revert E K.\nmatch goal with |- ?x = _ -> _ => let y := eval vm_compute in (match x with ROk _ (k, _) => k | _ => 0%nat end) in\n  assert (X : match x with ROk _ (k, _) => k | _ => 0%nat end = y) by (vm_compute; reflexivity) end.\nintros E. rewrite E in X. subst k. change (length ts) with 4%nat. lia.",
  "edits": [
   {
    "file": "Parser",
    "old": "    p <- peek ;;\n    match p with\n    | Some t =>\n      if should_stop_at_token t then ret (stmt ++ errs)",
    "new": "    p <- peek ;; peek ;;; peek ;;; peek ;;; peek ;;; peek ;;; peek ;;; peek ;;;\n    match p with\n    | Some t =>\n      if should_stop_at_token t then ret (stmt ++ errs)"
   }
  ]
 },
 {
  "mutant": "open_string_panics",
  "theorem": "C60_counting_changes_nothing",
  "requires": "Lexer LexCost PropLexCost",
  "proof": "\nspecialize (H [34%N; 97%N]). vm_compute in H. discriminate H.",
  "edits": [
   {
    "file": "Lexer",
    "old": "      obind (slice_from code 1) (fun contents => Ret (Some (code, contents)))",
    "new": "      Panic"
   }
  ]
 },
 {
  "mutant": "not_twice",
  "theorem": "C61_depth_within_tokens",
  "requires": "Lexer Parser Depth PropParser PropDepth",
  "proof": "\npose (ts := toks [\"NOT NOT NOT NOT 1\"]).\nassert (K := H ts _ ltac:(vm_compute; reflexivity)). vm_compute in K. lia.",
  "edits": [
   {
    "file": "Parser",
    "old": "    | TKeyword NOT => unary_parse (expr_parse f) (UNot first_token)",
    "new": "    | TKeyword NOT => e <- unary_parse (expr_parse f) (UNot first_token) ;; ret (UnaryOperation (UNot first_token) e)"
   }
  ]
 },
 {
  "mutant": "gimmeh_slots_lost",
  "theorem": "C63_same_ast_of_tokens",
  "requires": "Lexer Parser Lines Grammar Clean Relabel SourceSpec SameAst PropParser PropSameAst",
  "proof": "\npose (a := toks [\"GIMMEH a\"]). pose (b := toks [\"GIMMEH a'Z b\"]).\nassert (Ea : logical_lines a = [a]) by (vm_compute; reflexivity). assert (Eb : logical_lines b = [b]) by (vm_compute; reflexivity).\nassert (Fa : Forall (fun l => l <> []) (logical_lines a)) by (rewrite Ea; constructor; [discriminate|constructor]).\nassert (Fb : Forall (fun l => l <> []) (logical_lines b)) by (rewrite Eb; constructor; [discriminate|constructor]).\nedestruct (H a b) as [K _]; [vm_compute; reflexivity|vm_compute; reflexivity|exact Fa|vm_compute; reflexivity|vm_compute; reflexivity|exact Fb|].\nspecialize (K ltac:(vm_compute; reflexivity)). rewrite Ea, Eb in K. vm_compute in K. discriminate K."
 },
 {
  "mutant": "block_reversed",
  "theorem": "C70_only_the_last_node_changes",
  "requires": "Lexer Parser Lines AppendSpec PropParser PropAppend",
  "proof": "\npose (a := toks [\"GTFO\"; \"KTHXBYE\"]).\npose (ts := toks [\"GTFO\"; \"KTHXBYE\"; \"GIMMEH a\"]). pose (b := skipn 2 ts).\nedestruct (H a b ts) as (cs & tl & tl' & E1 & E2 & L); [vm_compute; reflexivity|vm_compute; reflexivity|vm_compute; reflexivity|].\ndestruct cs as [|x [|y [|z cs]]]; cbn [app] in E1, E2.\n- subst tl. cbn in L. lia.\n- injection E1 as <- <-. discriminate E2.\n- injection E1 as <- <- <-. discriminate E2.\n- discriminate E1.",
  "edits": [
   {
    "file": "Parser",
    "old": "        ret (stmt ++ errs ++ rest)",
    "new": "        ret (rest ++ stmt ++ errs)"
   }
  ]
 },
 {
  "mutant": "identifier_cut",
  "theorem": "C78_tokens",
  "requires": "LexSpec LexPropSpec Lexer Rename PropLexer PropRename",
  "proof": "\ndestruct (H (fun _ => lit \"abcde\") (fun s => s) (lit \"x\") (T (lit \"x\"))) as (us & E & K & _).\n- vm_compute. reflexivity.\n- intros s _. split; [exists 97%N, (lit \"bcde\"); split; [reflexivity|right; split; discriminate]|].\n  cbv [lit]. vm_compute lit. repeat (apply Forall_cons; [unfold letter; cbn; lia|]). apply Forall_nil.\n- intros t s [<-|[]] X. vm_compute in X. discriminate X.\n- assert (X : tokenize (splice (fun _ => lit \"abcde\") (fun s => s) 0 (lit \"x\") (T (lit \"x\"))) = LexOk (T (lit \"abcde\"))) by (vm_compute; reflexivity).\n  rewrite X in E. injection E as <-. vm_compute in K. discriminate K.",
  "edits": [
   {
    "file": "Lexer",
    "old": "            (fun raw => TIdentifier raw) (",
    "new": "            (fun raw => TIdentifier (firstn 3 raw)) ("
   }
  ]
 },
 {
  "mutant": "unclosed_runs_to_end",
  "theorem": "C82_cut",
  "requires": "LexSpec LexPropSpec Lexer PropLexer PropUnclosed",
  "proof": "\ndestruct (H (lit \"OBTW\") (lit \"TLDR\") (T (lit \"OBTWTLDR\")) ltac:(reflexivity) ltac:(vm_compute; reflexivity)) as [[_ K] _].\ndestruct K as [e K]; [|vm_compute in K; discriminate K].\nexists (first (lit \"OBTWTLDR\")), []. split; [left; reflexivity|]. split; [reflexivity|]. vm_compute. split; [discriminate|reflexivity].",
  "edits": [
   {
    "file": "Lexer",
    "old": "    | None => Ret MlErr\n",
    "new": "    | None => obind (slice_from code (byte_len obtw_str)) (fun c => Ret (MlSome code c))\n"
   }
  ]
 },
 {
  "mutant": "tldr_needs_line_start",
  "theorem": "C82_closing",
  "requires": "LexSpec LexPropSpec Lexer PropLexer PropUnclosed",
  "proof": "\nedestruct (H (lit \"OBTW\")) as (a & s & ts & t & _ & _ & E & _); [vm_compute; reflexivity|].\nchange (lit \"OBTW\" ++ lit \"TLDR\") with (lit \"OBTWTLDR\") in E.\nassert (X : match tokenize (lit \"OBTWTLDR\") with LexOk _ => true | _ => false end = false) by (vm_compute; reflexivity).\nrewrite E in X. discriminate X.",
  "edits": [
   {
    "file": "Lexer",
    "old": "    match find tldr_str code with",
    "new": "    match find (c_nl :: tldr_str) code with"
   }
  ]
 },
 {
  "mutant": "closing_ends_comment_too",
  "theorem": "C82_typing_on",
  "requires": "LexSpec LexPropSpec Lexer PropLexer PropUnclosed",
  "proof": "\nremember (tokenize (lit \"OBTW\")) as z eqn:Zq. assert (Zr := Zq). vm_compute in Zr. subst z.\ndestruct (H (lit \"OBTW\") _ [10%N; 10%N] Zr) as (a & s & E & L & K).\nassert (A : a = []) by (destruct a; [reflexivity|vm_compute in L; discriminate L]). subst a. injection E as <-.\ndestruct K as (r' & K & _); [|vm_compute in K; discriminate K].\nintros (x & y & E). change (lit \"OBTW\" ++ [] ++ [10%N; 10%N]) with ([79;66;84;87;10;10]%N) in E.\ndo 6 (destruct x as [|? x]; [discriminate E|injection E as _ E]). destruct x; discriminate E.",
  "edits": [
   {
    "file": "Lexer",
    "old": "    | None => Ret MlErr\n",
    "new": "    | None => match find [c_nl; c_nl] code with None => Ret MlErr | Some n => obind (slice_to code n) (fun raw => obind (slice code (byte_len obtw_str) n) (fun c => Ret (MlSome raw c))) end\n"
   }
  ]
 },
 {
  "mutant": "utf8_three_bytes_as_four",
  "theorem": "C83_len",
  "requires": "Str Utf8 LexSpec LexPropSpec Lexer PropUtf8",
  "proof": "\nassert (U : Utf8 [8230%N] [226%N; 128%N; 166%N]).\n{ apply (utf8_cons _ [226; 128; 166]%N _ []); [|constructor]. apply (utf8_3 8230 2 0 38); try reflexivity; try discriminate. left. reflexivity. }\nspecialize (H _ _ U). vm_compute in H. discriminate H.",
  "edits": [
   {
    "file": "Str",
    "old": "else if N.ltb c 65536%N then 3",
    "new": "else if N.ltb c 65536%N then 4"
   }
  ]
 },
 {
  "mutant": "slice_rounds_down",
  "theorem": "C83_slice_to",
  "requires": "Str Utf8 LexSpec LexPropSpec Lexer PropUtf8",
  "proof": "\nassert (U : Utf8 [8230%N] [226%N; 128%N; 166%N]).\n{ apply (utf8_cons _ [226; 128; 166]%N _ []); [|constructor]. apply (utf8_3 8230 2 0 38); try reflexivity; try discriminate. left. reflexivity. }\nspecialize (H _ _ 1%nat U). vm_compute in H. destruct H as [[H|[H|(b & H & K)]] _]; [discriminate H|discriminate H|]. injection H as <-. apply K. split; [discriminate|reflexivity].",
  "edits": [
   {
    "file": "Str",
    "old": "        | None => None\n        end\n      else None\n    end\n  end.",
    "new": "        | None => None\n        end\n      else Some ([], s)\n    end\n  end."
   }
  ]
 },
 {
  "mutant": "find_char_index",
  "theorem": "C83_find",
  "requires": "Str Utf8 LexSpec LexPropSpec Lexer PropUtf8",
  "proof": "\nassert (U : Utf8 [8230%N] [226%N; 128%N; 166%N]).\n{ apply (utf8_cons _ [226; 128; 166]%N _ []); [|constructor]. apply (utf8_3 8230 2 0 38); try reflexivity; try discriminate. left. reflexivity. }\nassert (V : Utf8 [65%N] [65%N]) by (apply (utf8_cons _ [65%N] _ []); [apply utf8_1; reflexivity|constructor]).\nassert (W : Utf8 [8230%N; 65%N] [226; 128; 166; 65]%N) by (apply (utf8_cons 8230 [226; 128; 166]%N [65%N] [65%N]); [inversion U as [|c cb s bs Hc Hs E1 E2]; subst; inversion Hs; subst; rewrite app_nil_r in E2; subst; exact Hc|exact V]).\nspecialize (H _ _ _ _ V W). vm_compute in H. destruct H as [(x & y & E & L) _]. destruct x as [|x1 [|x2 x]]; discriminate L || discriminate E.",
  "edits": [
   {
    "file": "Str",
    "old": "         | Some n => Some (utf8_len c + n)",
    "new": "         | Some n => Some (S n)"
   }
  ]
 },
 {
  "mutant": "qmark_fixed",
  "theorem": "C84_types",
  "requires": "LexSpec LexPropSpec Lexer ImageSpec PropLexer PropImage",
  "proof": "\ndestruct (proj1 (H TQuestionMark)) as [K|[(s & K & _)|(d & K & _)]]; [|exact K|discriminate K|discriminate K].\nexists (lit \"?\"), (T (lit \"?\")), (first (lit \"?\")). repeat split; try (vm_compute; reflexivity). left. reflexivity.",
  "edits": [
   {
    "file": "Lexer",
    "old": "try_token code p (one_char c_comma code) (fun raw => raw) (fun _ => TQuestionMark) (",
    "new": "try_token code p (one_char c_qmark code) (fun raw => raw) (fun _ => TQuestionMark) ("
   }
  ]
 },
 {
  "mutant": "i32_wide",
  "theorem": "C84_types",
  "requires": "LexSpec LexPropSpec Lexer ImageSpec PropLexer PropImage",
  "proof": "\ndestruct (proj1 (H (TValue (VNumber (Int (-2147483649)))))) as [K|[(s & K & _)|(d & K & _)]]; [|cbn in K; lia|discriminate K|discriminate K].\nexists (lit \"-2147483649 \"), (T (lit \"-2147483649 \")), (first (lit \"-2147483649 \")). repeat split; try (vm_compute; reflexivity). left. reflexivity."
 },
 {
  "mutant": "ws_newline_no_line",
  "theorem": "C84_sequences",
  "requires": "LexSpec LexPropSpec Lexer ImageSpec PropLexer PropImage",
  "proof": "\nassert (Y : Yields 1 (map with_line (T (lit \"BTWx\" ++ [10%N] ++ lit \",\")))).\n{ apply H. exists (lit \"BTWx\" ++ [10%N] ++ lit \",\"), (T (lit \"BTWx\" ++ [10%N] ++ lit \",\")). repeat split; vm_compute; reflexivity. }\nvm_compute in Y. inversion Y as [|? ? ? ? _ _ Z| | | | |]; subst. inversion Z as [|? ? ? ? L| | | | |]; subst. lia."
 },
 {
  "mutant": "gtfo_is_kthxbye",
  "theorem": "C50_lines_one_after_the_other",
  "requires": "Lexer Parser Lines Grammar Failure Recovery PropParser PropFailure",
  "proof": "\npose (ts := toks [\"GTFO\"]).\ndestruct (H ts (inl [NGtfo (mkGtfo (tok 0 ts))])) as [_ K].\n{ change (logical_lines ts) with [[tok 0 ts]]. constructor; [|constructor]. split; [discriminate|]. intros (t & c & E & B). vm_compute in E. injection E as <- <-. vm_compute in B. decompose [or] B; discriminate. }\nspecialize (K ltac:(exists [inl [NGtfo (mkGtfo (tok 0 ts))]]; split; [|reflexivity]; change (logical_lines ts) with [[tok 0 ts]];\n  constructor; [|constructor]; apply (lr_reads _ _ []); exists [tok 0 ts]; split; [reflexivity|]; split; [apply d_gtfo; vm_compute; reflexivity|]; split; [intros []|\n  intros (_ & x & y & N & _); discriminate N])).\nvm_compute in K. discriminate K.",
  "edits": [
   {
    "file": "Parser",
    "old": "    | TKeyword GTFO => ret (NGtfo {| gtfo_token := first_token |})",
    "new": "    | TKeyword GTFO => ret (NKThxBye {| kthxbye_token := first_token |})"
   }
  ]
 },
 {
  "mutant": "gtfo_is_kthxbye",
  "theorem": "C67_replacing_statements",
  "requires": "Lexer Parser Lines Grammar Clean Recovery LineEffect NodeTokens PropParser PropSubst",
  "proof": "\npose (ts := toks [\"GTFO\"]). pose (ts' := toks [\"KTHXBYE\"]).\nassert (CK : forall h g k, context h -> h [NGtfo g] = [NKThxBye k] -> False).\n{ clear. intros h g k C E. inversion C as [h' a b Eh|h' a kk b N Eh]; subst.\n  - rewrite Eh in E. destruct a as [|? [|? ?]]; discriminate E.\n  - rewrite Eh in E. destruct a as [|? [|? ?]]; try discriminate E. injection E as E _.\n    inversion N as [? ? ? ? ? ? ? ? Ek|? ? ? ? ? ? Ek|? ? ? ? ? ? ? ? ? Ek|? ? ? ? ? ? Ek|? ? ? ? ? ? ? Ek|? ? ? ? ? ? ? Ek|? ? ? ? ? ? ? ? ? ? Ek]; subst; rewrite Ek in E; discriminate E. }\ndestruct (H [] [[tok 0 ts]] [] [NGtfo (mkGtfo (tok 0 ts))] ts (ASTBlock [NKThxBye (mkKthxbye (tok 0 ts))])) as [(h & C & E & _)|K].\n- vm_compute; reflexivity.\n- reflexivity.\n- vm_compute; reflexivity.\n- apply (d_stmts_cons [_] _ []); [apply d_single, d_gtfo; vm_compute; reflexivity|constructor].\n- discriminate.\n- injection E as E. exact (CK _ _ _ C (eq_sym E)).\n- specialize (K ts' [[tok 0 ts']] ltac:(vm_compute; reflexivity)). vm_compute in K. discriminate K.",
  "edits": [
   {
    "file": "Parser",
    "old": "    | TKeyword GTFO => ret (NGtfo {| gtfo_token := first_token |})",
    "new": "    | TKeyword GTFO => ret (NKThxBye {| kthxbye_token := first_token |})"
   }
  ]
 },
 {
  "mutant": "gtfo_is_kthxbye",
  "theorem": "C65_effect_of_a_line",
  "requires": "Lexer Parser Lines Grammar Clean Failure Recovery LineEffect NodeTokens PropParser PropLineEffect",
  "proof": "\npose (ts := toks [\"GTFO\"]). pose (ts' := toks [\"KTHXBYE\"]).\nassert (CK : forall h g k, context h -> h [NGtfo g] = [NKThxBye k] -> False).\n{ clear. intros h g k C E. inversion C as [h' a b Eh|h' a kk b N Eh]; subst.\n  - rewrite Eh in E. destruct a as [|? [|? ?]]; discriminate E.\n  - rewrite Eh in E. destruct a as [|? [|? ?]]; try discriminate E. injection E as E _.\n    inversion N as [? ? ? ? ? ? ? ? Ek|? ? ? ? ? ? Ek|? ? ? ? ? ? ? ? ? Ek|? ? ? ? ? ? Ek|? ? ? ? ? ? ? Ek|? ? ? ? ? ? ? Ek|? ? ? ? ? ? ? ? ? ? Ek]; subst; rewrite Ek in E; discriminate E. }\ndestruct (H [] []) as (u & f & A & K).\nassert (P1 : plain [tok 0 ts]) by (repeat split; [discriminate|intros (t & c & E & B); vm_compute in E; injection E as <- <-; vm_compute in B; decompose [or] B; discriminate|intros k (t & c & E & B); vm_compute in E; injection E as <- <-; destruct k; vm_compute in B; decompose [or] B; try discriminate; assumption]).\nassert (P2 : plain [tok 0 ts']) by (repeat split; [discriminate|intros (t & c & E & B); vm_compute in E; injection E as <- <-; vm_compute in B; decompose [or] B; discriminate|intros k (t & c & E & B); vm_compute in E; injection E as <- <-; destruct k; vm_compute in B; decompose [or] B; try discriminate; assumption]).\nassert (G1 : exists x, gives u [tok 0 ts] x /\\ (x = inl [NGtfo (mkGtfo (tok 0 ts))] \\/ exists e, x = inl [NASTError e])).\n{ destruct u.\n  - exists (inl [NGtfo (mkGtfo (tok 0 ts))]). split; [|left; reflexivity]. apply (lr_reads _ _ []). exists [tok 0 ts]. split; [reflexivity|]; split; [apply d_gtfo; vm_compute; reflexivity|]; split; [intros []|intros (_ & x & y & N & _); discriminate N].\n  - eexists. split; [reflexivity|]. eauto.\n  - eexists. split; [exists (tok 0 ts), []; split; reflexivity|]. cbn. eauto. }\nassert (G2 : exists x, gives u [tok 0 ts'] x).\n{ destruct u.\n  - exists (inl [NKThxBye (mkKthxbye (tok 0 ts'))]). apply (lr_reads _ _ []). exists [tok 0 ts']. split; [reflexivity|]; split; [apply d_kthxbye; vm_compute; reflexivity|]; split; [intros []|intros (_ & x & y & N & _); discriminate N].\n  - eexists. reflexivity.\n  - eexists. exists (tok 0 ts'), []. split; reflexivity. }\ndestruct G1 as (x & G1 & Ex), G2 as (x' & G2).\npose proof (K ts [tok 0 ts] x ltac:(vm_compute; reflexivity) P1 G1) as E1.\npose proof (K ts' [tok 0 ts'] x' ltac:(vm_compute; reflexivity) P2 G2) as E2.\nassert (V1 : parse ts = ParseOk (ASTBlock [NKThxBye (mkKthxbye (tok 0 ts))])) by (vm_compute; reflexivity).\nassert (V2 : parse ts' <> parse ts) by (vm_compute; discriminate).\nrewrite V1 in E1.\nassert (CE : forall h e k, context h -> h [NASTError e] = [NKThxBye k] -> False).\n{ clear. intros h g k C E. inversion C as [h' a b Eh|h' a kk b N Eh]; subst.\n  - rewrite Eh in E. destruct a as [|? [|? ?]]; discriminate E.\n  - rewrite Eh in E. destruct a as [|? [|? ?]]; try discriminate E. injection E as E _.\n    inversion N as [? ? ? ? ? ? ? ? Ek|? ? ? ? ? ? Ek|? ? ? ? ? ? ? ? ? Ek|? ? ? ? ? ? Ek|? ? ? ? ? ? ? Ek|? ? ? ? ? ? ? Ek|? ? ? ? ? ? ? ? ? ? Ek]; subst; rewrite Ek in E; discriminate E. }\ndestruct A as [r|h C|b Cb|c].\n- apply V2. rewrite E2, V1, E1. reflexivity.\n- destruct Ex as [->|[e ->]]; injection E1 as E1; [exact (CK _ _ _ C (eq_sym E1))|exact (CE _ _ _ C (eq_sym E1))].\n- destruct Ex as [->|[e ->]]; injection E1 as E1; subst b; discriminate Cb.\n- destruct Ex as [->|[e ->]]; discriminate E1.",
  "edits": [
   {
    "file": "Parser",
    "old": "    | TKeyword GTFO => ret (NGtfo {| gtfo_token := first_token |})",
    "new": "    | TKeyword GTFO => ret (NKThxBye {| kthxbye_token := first_token |})"
   }
  ]
 },
 {
  "mutant": "binary_swap",
  "theorem": "C59_format_keeps_the_ast",
  "requires": "Lexer Parser Api Clean Shape Unparse SourceSpec Format PropLexer PropParser PropShape",
  "proof": "\npose (code := lit \"SUM OF x AN y\" ++ nl).\ndestruct (H code (match tokenize_and_parse code with ApiOk (ASTBlock ns) => ns | _ => [] end)) as (ns' & E & M & _).\n- vm_compute; reflexivity.\n- intros [a E]. apply (f_equal (@rev N)) in E. rewrite rev_app_distr in E. vm_compute in E. discriminate E.\n- vm_compute; reflexivity.\n- vm_compute; reflexivity.\n- vm_compute; constructor.\n- vm_compute in E. injection E as <-. vm_compute in M. discriminate M."
 },
 {
  "mutant": "lexer_panic_lost",
  "theorem": "C54_result_of_every_source",
  "requires": "Lexer Parser Api LexSpec SourceLines PropApi",
  "proof": "\ndestruct (H [233%N] ApiPanic) as [K _].\nspecialize (K ltac:(apply (source_lexer_panic _ [] [233%N]); [constructor|left; exists 233%N, []; split; [reflexivity|vm_compute; discriminate]])).\nvm_compute in K. discriminate K.",
  "edits": [
   {
    "file": "Api",
    "old": "| LexPanic => ApiPanic",
    "new": "| LexPanic => ApiOk (ASTBlock [])"
   }
  ]
 },
 {
  "mutant": "ws_newline_no_line",
  "theorem": "C55_one_source_after_another",
  "requires": "Lexer Parser Api LexSpec LexPropSpec SourceLines SourceJoin Clean PropLexer PropParser PropApi",
  "proof": "\n\nassert (K := H (lit \"GTFO\") (lit \"GTFO\") (T (lit \"GTFO\" ++ [newline])) (match tokenize_and_parse (lit \"GTFO\" ++ [newline]) with ApiOk (ASTBlock ns) => ns | _ => [] end)).\nspecialize (K ltac:(vm_compute; reflexivity) ltac:(repeat constructor; vm_compute; discriminate)).\nspecialize (K ltac:(intros ts0 t E; destruct ts0 as [|? [|? ?]]; vm_compute in E; try discriminate E; injection E as <-; discriminate)).\nspecialize (K ltac:(vm_compute; repeat constructor; discriminate) ltac:(vm_compute; reflexivity) ltac:(vm_compute; reflexivity)).\nspecialize (K ltac:(intros ns0 n E; destruct ns0 as [|? [|? ?]]; vm_compute in E; try discriminate E; injection E as <-; exact (fun x => x))).\nspecialize (K ltac:(intros us ls E; vm_compute in E; injection E as <-; vm_compute; discriminate)).\nvm_compute in K. discriminate K."
 },
 {
  "mutant": "gtfo_is_kthxbye",
  "theorem": "C48_round_trip",
  "requires": "Lexer Parser Api LexSpec LexPropSpec Grammar Relabel SourceSpec PropLexer PropParser PropSource",
  "proof": "\n\npose (g := first (lit \"GTFO\")).\ndestruct (H (fun _ => lit \"GTFO\") [[g]] [NGtfo (mkGtfo g)]) as (ns' & E & M & _).\n- constructor; [|constructor]. constructor; [|constructor]. split; [|repeat split; vm_compute; discriminate]. apply (writes_keyword GTFO). simpl. clear H. intuition discriminate.\n- exists 1, [[g]], []. split; [reflexivity|]. apply d_block_stmts; [|discriminate]. apply (d_stmts_cons [_] _ []); [apply d_single, d_gtfo; vm_compute; reflexivity|constructor].\n- vm_compute in E. injection E as <-. vm_compute in M. discriminate M.",
  "edits": [
   {
    "file": "Parser",
    "old": "    | TKeyword GTFO => ret (NGtfo {| gtfo_token := first_token |})",
    "new": "    | TKeyword GTFO => ret (NKThxBye {| kthxbye_token := first_token |})"
   }
  ]
 },
 {
  "mutant": "peeks_many",
  "theorem": "C75_linear_work",
  "requires": "Lexer Parser Api IterCost PropLexer PropParser PropIterCost",
  "proof": "\n\npose (ts := toks [\"GTFO\"; \"GTFO\"; \"GTFO\"; \"GTFO\"; \"GTFO\"; \"GTFO\"; \"GTFO\"; \"GTFO\"; \"GTFO\"; \"GTFO\"]).\nassert (K : match metered_parse ts with ROk b ((w, d), it) => w <= 22 * length ts + 9 | _ => True end).\n{ destruct (metered_parse ts) as [b [[w d] it]| | |] eqn:E; try exact I. exact (H _ _ _ _ _ E). }\nvm_compute in K. lia.",
  "edits": [
   {
    "file": "Parser",
    "old": "    p <- peek ;;\n    match p with\n    | Some t =>\n      if should_stop_at_token t then ret (stmt ++ errs)",
    "new": "    p <- peek ;; peek ;;; peek ;;; peek ;;; peek ;;; peek ;;; peek ;;; peek ;;; peek ;;; peek ;;; peek ;;; peek ;;; peek ;;; peek ;;; peek ;;; peek ;;; peek ;;; peek ;;; peek ;;; peek ;;; peek ;;; peek ;;; peek ;;; peek ;;; peek ;;; peek ;;; peek ;;; peek ;;; peek ;;; peek ;;; peek ;;;  peek ;;; peek ;;; peek ;;; peek ;;; peek ;;; peek ;;; peek ;;;\n    match p with\n    | Some t =>\n      if should_stop_at_token t then ret (stmt ++ errs)"
   }
  ]
 },
 {
  "mutant": "decode_init_mask",
  "theorem": "C85_chars",
  "requires": "Lexer Machine ByteLexer Utf8 ByteSpec Utf8Proofs PropLexer PropByteLexer",
  "proof": "\nassert (U : forall s, forallb (fun c => (c <? 128)%N || existsb (N.eqb c) [233; 191; 8230; 8364; 128512]%N) s = true -> Utf8 s (encode s)).\n{ clear. induction s as [|c s IH]; intros F; [constructor|]. cbn [forallb] in F. apply Bool.andb_true_iff in F as [F F'].\n  change (encode (c :: s)) with (encode_char c ++ encode s). constructor; [|exact (IH F')]. apply Bool.orb_true_iff in F as [F|F].\n  - unfold encode_char. rewrite F. constructor. apply N.ltb_lt. exact F.\n  - cbn [existsb] in F. rewrite !Bool.orb_true_iff, !N.eqb_eq in F. destruct F as [->|[->|[->|[->|[->|F]]]]]; [| | | | |discriminate F].\n    + apply (utf8_2 233 3 41); reflexivity || (vm_compute; discriminate).\n    + apply (utf8_2 191 2 63); reflexivity || (vm_compute; discriminate).\n    + apply (utf8_3 8230 2 0 38); try reflexivity; try (vm_compute; discriminate). left; reflexivity.\n    + apply (utf8_3 8364 2 2 44); try reflexivity; try (vm_compute; discriminate). left; reflexivity.\n    + apply (utf8_4 128512 0 31 24 0); try reflexivity; try (vm_compute; discriminate). right; split; [vm_compute; discriminate|reflexivity]. }\nspecialize (H _ _ (U [233; 8364; 128512]%N eq_refl)). vm_compute in H. discriminate H.",
  "edits": [
   {
    "file": "ByteLexer",
    "old": "let init := N.land x 31 in",
    "new": "let init := N.land x 63 in"
   }
  ]
 },
 {
  "mutant": "decode_four_mask",
  "theorem": "C85_chars",
  "requires": "Lexer Machine ByteLexer Utf8 ByteSpec Utf8Proofs PropLexer PropByteLexer",
  "proof": "\nassert (U : forall s, forallb (fun c => (c <? 128)%N || existsb (N.eqb c) [233; 191; 8230; 8364; 128512]%N) s = true -> Utf8 s (encode s)).\n{ clear. induction s as [|c s IH]; intros F; [constructor|]. cbn [forallb] in F. apply Bool.andb_true_iff in F as [F F'].\n  change (encode (c :: s)) with (encode_char c ++ encode s). constructor; [|exact (IH F')]. apply Bool.orb_true_iff in F as [F|F].\n  - unfold encode_char. rewrite F. constructor. apply N.ltb_lt. exact F.\n  - cbn [existsb] in F. rewrite !Bool.orb_true_iff, !N.eqb_eq in F. destruct F as [->|[->|[->|[->|[->|F]]]]]; [| | | | |discriminate F].\n    + apply (utf8_2 233 3 41); reflexivity || (vm_compute; discriminate).\n    + apply (utf8_2 191 2 63); reflexivity || (vm_compute; discriminate).\n    + apply (utf8_3 8230 2 0 38); try reflexivity; try (vm_compute; discriminate). left; reflexivity.\n    + apply (utf8_3 8364 2 2 44); try reflexivity; try (vm_compute; discriminate). left; reflexivity.\n    + apply (utf8_4 128512 0 31 24 0); try reflexivity; try (vm_compute; discriminate). right; split; [vm_compute; discriminate|reflexivity]. }\nspecialize (H _ _ (U [233; 8364; 128512]%N eq_refl)). vm_compute in H. discriminate H.",
  "edits": [
   {
    "file": "ByteLexer",
    "old": "N.shiftl (N.land init 7) 18",
    "new": "N.shiftl init 18"
   }
  ]
 },
 {
  "mutant": "decode_three_as_two",
  "theorem": "C85_chars",
  "requires": "Lexer Machine ByteLexer Utf8 ByteSpec Utf8Proofs PropLexer PropByteLexer",
  "proof": "\nassert (U : forall s, forallb (fun c => (c <? 128)%N || existsb (N.eqb c) [233; 191; 8230; 8364; 128512]%N) s = true -> Utf8 s (encode s)).\n{ clear. induction s as [|c s IH]; intros F; [constructor|]. cbn [forallb] in F. apply Bool.andb_true_iff in F as [F F'].\n  change (encode (c :: s)) with (encode_char c ++ encode s). constructor; [|exact (IH F')]. apply Bool.orb_true_iff in F as [F|F].\n  - unfold encode_char. rewrite F. constructor. apply N.ltb_lt. exact F.\n  - cbn [existsb] in F. rewrite !Bool.orb_true_iff, !N.eqb_eq in F. destruct F as [->|[->|[->|[->|[->|F]]]]]; [| | | | |discriminate F].\n    + apply (utf8_2 233 3 41); reflexivity || (vm_compute; discriminate).\n    + apply (utf8_2 191 2 63); reflexivity || (vm_compute; discriminate).\n    + apply (utf8_3 8230 2 0 38); try reflexivity; try (vm_compute; discriminate). left; reflexivity.\n    + apply (utf8_3 8364 2 2 44); try reflexivity; try (vm_compute; discriminate). left; reflexivity.\n    + apply (utf8_4 128512 0 31 24 0); try reflexivity; try (vm_compute; discriminate). right; split; [vm_compute; discriminate|reflexivity]. }\nspecialize (H _ _ (U [233; 8364; 128512]%N eq_refl)). vm_compute in H. discriminate H.",
  "edits": [
   {
    "file": "ByteLexer",
    "old": "if x <? 224 then Some",
    "new": "if x <? 240 then Some"
   }
  ]
 },
 {
  "mutant": "decode_no_mask",
  "theorem": "C85_chars",
  "requires": "Lexer Machine ByteLexer Utf8 ByteSpec Utf8Proofs PropLexer PropByteLexer",
  "proof": "\nassert (U : forall s, forallb (fun c => (c <? 128)%N || existsb (N.eqb c) [233; 191; 8230; 8364; 128512]%N) s = true -> Utf8 s (encode s)).\n{ clear. induction s as [|c s IH]; intros F; [constructor|]. cbn [forallb] in F. apply Bool.andb_true_iff in F as [F F'].\n  change (encode (c :: s)) with (encode_char c ++ encode s). constructor; [|exact (IH F')]. apply Bool.orb_true_iff in F as [F|F].\n  - unfold encode_char. rewrite F. constructor. apply N.ltb_lt. exact F.\n  - cbn [existsb] in F. rewrite !Bool.orb_true_iff, !N.eqb_eq in F. destruct F as [->|[->|[->|[->|[->|F]]]]]; [| | | | |discriminate F].\n    + apply (utf8_2 233 3 41); reflexivity || (vm_compute; discriminate).\n    + apply (utf8_2 191 2 63); reflexivity || (vm_compute; discriminate).\n    + apply (utf8_3 8230 2 0 38); try reflexivity; try (vm_compute; discriminate). left; reflexivity.\n    + apply (utf8_3 8364 2 2 44); try reflexivity; try (vm_compute; discriminate). left; reflexivity.\n    + apply (utf8_4 128512 0 31 24 0); try reflexivity; try (vm_compute; discriminate). right; split; [vm_compute; discriminate|reflexivity]. }\nspecialize (H _ _ (U [233; 8364; 128512]%N eq_refl)). vm_compute in H. discriminate H.",
  "edits": [
   {
    "file": "ByteLexer",
    "old": "N.lor (N.shiftl ch 6) (N.land byte 63)",
    "new": "N.lor (N.shiftl ch 6) byte"
   }
  ]
 },
 {
  "mutant": "bytes_count_chars",
  "theorem": "C85_tokenize",
  "requires": "Lexer Machine ByteLexer Utf8 ByteSpec Utf8Proofs PropLexer PropByteLexer",
  "proof": "\nassert (U : forall s, forallb (fun c => (c <? 128)%N || existsb (N.eqb c) [233; 191; 8230; 8364; 128512]%N) s = true -> Utf8 s (encode s)).\n{ clear. induction s as [|c s IH]; intros F; [constructor|]. cbn [forallb] in F. apply Bool.andb_true_iff in F as [F F'].\n  change (encode (c :: s)) with (encode_char c ++ encode s). constructor; [|exact (IH F')]. apply Bool.orb_true_iff in F as [F|F].\n  - unfold encode_char. rewrite F. constructor. apply N.ltb_lt. exact F.\n  - cbn [existsb] in F. rewrite !Bool.orb_true_iff, !N.eqb_eq in F. destruct F as [->|[->|[->|[->|[->|F]]]]]; [| | | | |discriminate F].\n    + apply (utf8_2 233 3 41); reflexivity || (vm_compute; discriminate).\n    + apply (utf8_2 191 2 63); reflexivity || (vm_compute; discriminate).\n    + apply (utf8_3 8230 2 0 38); try reflexivity; try (vm_compute; discriminate). left; reflexivity.\n    + apply (utf8_3 8364 2 2 44); try reflexivity; try (vm_compute; discriminate). left; reflexivity.\n    + apply (utf8_4 128512 0 31 24 0); try reflexivity; try (vm_compute; discriminate). right; split; [vm_compute; discriminate|reflexivity]. }\nspecialize (H Wrapping _ _ (U (lit \"BTW \" ++ [233%N]) eq_refl)). vm_compute in H. discriminate H.",
  "edits": [
   {
    "file": "ByteLexer",
    "old": "  obind (add_i32 b (bytes p) (as_i32 (Z.of_nat (length s)))) (fun bytes' =>",
    "new": "  obind (add_i32 b (bytes p) (as_i32 (Z.of_nat (length (b_chars s))))) (fun bytes' =>"
   }
  ]
 },
 {
  "mutant": "bytes_count_chars",
  "theorem": "C85_same_below_the_bound",
  "requires": "Lexer Machine ByteLexer Utf8 ByteSpec Utf8Proofs PropLexer PropByteLexer",
  "proof": "\nassert (U : forall s, forallb (fun c => (c <? 128)%N || existsb (N.eqb c) [233; 191; 8230; 8364; 128512]%N) s = true -> Utf8 s (encode s)).\n{ clear. induction s as [|c s IH]; intros F; [constructor|]. cbn [forallb] in F. apply Bool.andb_true_iff in F as [F F'].\n  change (encode (c :: s)) with (encode_char c ++ encode s). constructor; [|exact (IH F')]. apply Bool.orb_true_iff in F as [F|F].\n  - unfold encode_char. rewrite F. constructor. apply N.ltb_lt. exact F.\n  - cbn [existsb] in F. rewrite !Bool.orb_true_iff, !N.eqb_eq in F. destruct F as [->|[->|[->|[->|[->|F]]]]]; [| | | | |discriminate F].\n    + apply (utf8_2 233 3 41); reflexivity || (vm_compute; discriminate).\n    + apply (utf8_2 191 2 63); reflexivity || (vm_compute; discriminate).\n    + apply (utf8_3 8230 2 0 38); try reflexivity; try (vm_compute; discriminate). left; reflexivity.\n    + apply (utf8_3 8364 2 2 44); try reflexivity; try (vm_compute; discriminate). left; reflexivity.\n    + apply (utf8_4 128512 0 31 24 0); try reflexivity; try (vm_compute; discriminate). right; split; [vm_compute; discriminate|reflexivity]. }\nspecialize (H Wrapping _ _ (U (lit \"BTW \" ++ [233%N]) eq_refl)). destruct H as [H _]; [vm_compute; reflexivity|]. vm_compute in H. discriminate H.",
  "edits": [
   {
    "file": "ByteLexer",
    "old": "  obind (add_i32 b (bytes p) (as_i32 (Z.of_nat (length s)))) (fun bytes' =>",
    "new": "  obind (add_i32 b (bytes p) (as_i32 (Z.of_nat (length (b_chars s))))) (fun bytes' =>"
   }
  ]
 },
 {
  "mutant": "bytes_count_chars",
  "theorem": "C85_tokenize_and_parse",
  "requires": "Lexer Machine ByteLexer Utf8 ByteSpec Utf8Proofs PropLexer PropByteLexer Parser Api",
  "proof": "\nassert (U : forall s, forallb (fun c => (c <? 128)%N || existsb (N.eqb c) [233; 191; 8230; 8364; 128512]%N) s = true -> Utf8 s (encode s)).\n{ clear. induction s as [|c s IH]; intros F; [constructor|]. cbn [forallb] in F. apply Bool.andb_true_iff in F as [F F'].\n  change (encode (c :: s)) with (encode_char c ++ encode s). constructor; [|exact (IH F')]. apply Bool.orb_true_iff in F as [F|F].\n  - unfold encode_char. rewrite F. constructor. apply N.ltb_lt. exact F.\n  - cbn [existsb] in F. rewrite !Bool.orb_true_iff, !N.eqb_eq in F. destruct F as [->|[->|[->|[->|[->|F]]]]]; [| | | | |discriminate F].\n    + apply (utf8_2 233 3 41); reflexivity || (vm_compute; discriminate).\n    + apply (utf8_2 191 2 63); reflexivity || (vm_compute; discriminate).\n    + apply (utf8_3 8230 2 0 38); try reflexivity; try (vm_compute; discriminate). left; reflexivity.\n    + apply (utf8_3 8364 2 2 44); try reflexivity; try (vm_compute; discriminate). left; reflexivity.\n    + apply (utf8_4 128512 0 31 24 0); try reflexivity; try (vm_compute; discriminate). right; split; [vm_compute; discriminate|reflexivity]. }\nspecialize (H Wrapping _ _ (U (lit \"VISIBLE \" ++ lit \"BTW \" ++ [233%N]) eq_refl)). vm_compute in H. discriminate H.",
  "edits": [
   {
    "file": "ByteLexer",
    "old": "  obind (add_i32 b (bytes p) (as_i32 (Z.of_nat (length s)))) (fun bytes' =>",
    "new": "  obind (add_i32 b (bytes p) (as_i32 (Z.of_nat (length (b_chars s))))) (fun bytes' =>"
   }
  ]
 },
 {
  "mutant": "column_counts_chars",
  "theorem": "C85_tokenize",
  "requires": "Lexer Machine ByteLexer Utf8 ByteSpec Utf8Proofs PropLexer PropByteLexer",
  "proof": "\nassert (U : forall s, forallb (fun c => (c <? 128)%N || existsb (N.eqb c) [233; 191; 8230; 8364; 128512]%N) s = true -> Utf8 s (encode s)).\n{ clear. induction s as [|c s IH]; intros F; [constructor|]. cbn [forallb] in F. apply Bool.andb_true_iff in F as [F F'].\n  change (encode (c :: s)) with (encode_char c ++ encode s). constructor; [|exact (IH F')]. apply Bool.orb_true_iff in F as [F|F].\n  - unfold encode_char. rewrite F. constructor. apply N.ltb_lt. exact F.\n  - cbn [existsb] in F. rewrite !Bool.orb_true_iff, !N.eqb_eq in F. destruct F as [->|[->|[->|[->|[->|F]]]]]; [| | | | |discriminate F].\n    + apply (utf8_2 233 3 41); reflexivity || (vm_compute; discriminate).\n    + apply (utf8_2 191 2 63); reflexivity || (vm_compute; discriminate).\n    + apply (utf8_3 8230 2 0 38); try reflexivity; try (vm_compute; discriminate). left; reflexivity.\n    + apply (utf8_3 8364 2 2 44); try reflexivity; try (vm_compute; discriminate). left; reflexivity.\n    + apply (utf8_4 128512 0 31 24 0); try reflexivity; try (vm_compute; discriminate). right; split; [vm_compute; discriminate|reflexivity]. }\nspecialize (H Wrapping _ _ (U (lit \"BTW \" ++ [233%N]) eq_refl)). vm_compute in H. discriminate H.",
  "edits": [
   {
    "file": "ByteLexer",
    "old": "  obind (add_i32 b (column p) (as_i32 (Z.of_nat (length s)))) (fun column' =>",
    "new": "  obind (add_i32 b (column p) (as_i32 (Z.of_nat (length (b_chars s))))) (fun column' =>"
   }
  ]
 },
 {
  "mutant": "chars_count_bytes",
  "theorem": "C85_tokenize",
  "requires": "Lexer Machine ByteLexer Utf8 ByteSpec Utf8Proofs PropLexer PropByteLexer",
  "proof": "\nassert (U : forall s, forallb (fun c => (c <? 128)%N || existsb (N.eqb c) [233; 191; 8230; 8364; 128512]%N) s = true -> Utf8 s (encode s)).\n{ clear. induction s as [|c s IH]; intros F; [constructor|]. cbn [forallb] in F. apply Bool.andb_true_iff in F as [F F'].\n  change (encode (c :: s)) with (encode_char c ++ encode s). constructor; [|exact (IH F')]. apply Bool.orb_true_iff in F as [F|F].\n  - unfold encode_char. rewrite F. constructor. apply N.ltb_lt. exact F.\n  - cbn [existsb] in F. rewrite !Bool.orb_true_iff, !N.eqb_eq in F. destruct F as [->|[->|[->|[->|[->|F]]]]]; [| | | | |discriminate F].\n    + apply (utf8_2 233 3 41); reflexivity || (vm_compute; discriminate).\n    + apply (utf8_2 191 2 63); reflexivity || (vm_compute; discriminate).\n    + apply (utf8_3 8230 2 0 38); try reflexivity; try (vm_compute; discriminate). left; reflexivity.\n    + apply (utf8_3 8364 2 2 44); try reflexivity; try (vm_compute; discriminate). left; reflexivity.\n    + apply (utf8_4 128512 0 31 24 0); try reflexivity; try (vm_compute; discriminate). right; split; [vm_compute; discriminate|reflexivity]. }\nspecialize (H Wrapping _ _ (U (lit \"BTW \" ++ [233%N]) eq_refl)). vm_compute in H. discriminate H.",
  "edits": [
   {
    "file": "ByteLexer",
    "old": "(as_i32 (Z.of_nat (length (b_chars s))))",
    "new": "(as_i32 (Z.of_nat (length s)))"
   }
  ]
 },
 {
  "mutant": "string_end_in_bytes",
  "theorem": "C85_tokenize",
  "requires": "Lexer Machine ByteLexer Utf8 ByteSpec Utf8Proofs PropLexer PropByteLexer",
  "proof": "\nassert (U : forall s, forallb (fun c => (c <? 128)%N || existsb (N.eqb c) [233; 191; 8230; 8364; 128512]%N) s = true -> Utf8 s (encode s)).\n{ clear. induction s as [|c s IH]; intros F; [constructor|]. cbn [forallb] in F. apply Bool.andb_true_iff in F as [F F'].\n  change (encode (c :: s)) with (encode_char c ++ encode s). constructor; [|exact (IH F')]. apply Bool.orb_true_iff in F as [F|F].\n  - unfold encode_char. rewrite F. constructor. apply N.ltb_lt. exact F.\n  - cbn [existsb] in F. rewrite !Bool.orb_true_iff, !N.eqb_eq in F. destruct F as [->|[->|[->|[->|[->|F]]]]]; [| | | | |discriminate F].\n    + apply (utf8_2 233 3 41); reflexivity || (vm_compute; discriminate).\n    + apply (utf8_2 191 2 63); reflexivity || (vm_compute; discriminate).\n    + apply (utf8_3 8230 2 0 38); try reflexivity; try (vm_compute; discriminate). left; reflexivity.\n    + apply (utf8_3 8364 2 2 44); try reflexivity; try (vm_compute; discriminate). left; reflexivity.\n    + apply (utf8_4 128512 0 31 24 0); try reflexivity; try (vm_compute; discriminate). right; split; [vm_compute; discriminate|reflexivity]. }\nspecialize (H Wrapping _ _ (U ([34; 233; 34]%N ++ nl) eq_refl)). vm_compute in H. discriminate H.",
  "edits": [
   {
    "file": "ByteLexer",
    "old": "  match b_chars code with\n  | c :: rest => if negb",
    "new": "  match code with\n  | c :: rest => if negb"
   }
  ]
 },
 {
  "mutant": "string_end_in_bytes",
  "theorem": "C85_same_below_the_bound",
  "requires": "Lexer Machine ByteLexer Utf8 ByteSpec Utf8Proofs PropLexer PropByteLexer",
  "proof": "\nassert (U : forall s, forallb (fun c => (c <? 128)%N || existsb (N.eqb c) [233; 191; 8230; 8364; 128512]%N) s = true -> Utf8 s (encode s)).\n{ clear. induction s as [|c s IH]; intros F; [constructor|]. cbn [forallb] in F. apply Bool.andb_true_iff in F as [F F'].\n  change (encode (c :: s)) with (encode_char c ++ encode s). constructor; [|exact (IH F')]. apply Bool.orb_true_iff in F as [F|F].\n  - unfold encode_char. rewrite F. constructor. apply N.ltb_lt. exact F.\n  - cbn [existsb] in F. rewrite !Bool.orb_true_iff, !N.eqb_eq in F. destruct F as [->|[->|[->|[->|[->|F]]]]]; [| | | | |discriminate F].\n    + apply (utf8_2 233 3 41); reflexivity || (vm_compute; discriminate).\n    + apply (utf8_2 191 2 63); reflexivity || (vm_compute; discriminate).\n    + apply (utf8_3 8230 2 0 38); try reflexivity; try (vm_compute; discriminate). left; reflexivity.\n    + apply (utf8_3 8364 2 2 44); try reflexivity; try (vm_compute; discriminate). left; reflexivity.\n    + apply (utf8_4 128512 0 31 24 0); try reflexivity; try (vm_compute; discriminate). right; split; [vm_compute; discriminate|reflexivity]. }\nspecialize (H Wrapping _ _ (U ([34; 233; 34]%N ++ nl) eq_refl)). destruct H as [H _]; [vm_compute; reflexivity|]. vm_compute in H. discriminate H.",
  "edits": [
   {
    "file": "ByteLexer",
    "old": "  match b_chars code with\n  | c :: rest => if negb",
    "new": "  match code with\n  | c :: rest => if negb"
   }
  ]
 },
 {
  "mutant": "string_end_in_bytes",
  "theorem": "C85_tokenize_and_parse",
  "requires": "Lexer Machine ByteLexer Utf8 ByteSpec Utf8Proofs PropLexer PropByteLexer Parser Api",
  "proof": "\nassert (U : forall s, forallb (fun c => (c <? 128)%N || existsb (N.eqb c) [233; 191; 8230; 8364; 128512]%N) s = true -> Utf8 s (encode s)).\n{ clear. induction s as [|c s IH]; intros F; [constructor|]. cbn [forallb] in F. apply Bool.andb_true_iff in F as [F F'].\n  change (encode (c :: s)) with (encode_char c ++ encode s). constructor; [|exact (IH F')]. apply Bool.orb_true_iff in F as [F|F].\n  - unfold encode_char. rewrite F. constructor. apply N.ltb_lt. exact F.\n  - cbn [existsb] in F. rewrite !Bool.orb_true_iff, !N.eqb_eq in F. destruct F as [->|[->|[->|[->|[->|F]]]]]; [| | | | |discriminate F].\n    + apply (utf8_2 233 3 41); reflexivity || (vm_compute; discriminate).\n    + apply (utf8_2 191 2 63); reflexivity || (vm_compute; discriminate).\n    + apply (utf8_3 8230 2 0 38); try reflexivity; try (vm_compute; discriminate). left; reflexivity.\n    + apply (utf8_3 8364 2 2 44); try reflexivity; try (vm_compute; discriminate). left; reflexivity.\n    + apply (utf8_4 128512 0 31 24 0); try reflexivity; try (vm_compute; discriminate). right; split; [vm_compute; discriminate|reflexivity]. }\nspecialize (H Wrapping _ _ (U (lit \"VISIBLE \" ++ [34; 233; 34]%N ++ nl) eq_refl)). vm_compute in H. discriminate H.",
  "edits": [
   {
    "file": "ByteLexer",
    "old": "  match b_chars code with\n  | c :: rest => if negb",
    "new": "  match code with\n  | c :: rest => if negb"
   }
  ]
 },
 {
  "mutant": "ellipsis_whole",
  "theorem": "C85_tokenize",
  "requires": "Lexer Machine ByteLexer Utf8 ByteSpec Utf8Proofs PropLexer PropByteLexer",
  "proof": "\nassert (U : forall s, forallb (fun c => (c <? 128)%N || existsb (N.eqb c) [233; 191; 8230; 8364; 128512]%N) s = true -> Utf8 s (encode s)).\n{ clear. induction s as [|c s IH]; intros F; [constructor|]. cbn [forallb] in F. apply Bool.andb_true_iff in F as [F F'].\n  change (encode (c :: s)) with (encode_char c ++ encode s). constructor; [|exact (IH F')]. apply Bool.orb_true_iff in F as [F|F].\n  - unfold encode_char. rewrite F. constructor. apply N.ltb_lt. exact F.\n  - cbn [existsb] in F. rewrite !Bool.orb_true_iff, !N.eqb_eq in F. destruct F as [->|[->|[->|[->|[->|F]]]]]; [| | | | |discriminate F].\n    + apply (utf8_2 233 3 41); reflexivity || (vm_compute; discriminate).\n    + apply (utf8_2 191 2 63); reflexivity || (vm_compute; discriminate).\n    + apply (utf8_3 8230 2 0 38); try reflexivity; try (vm_compute; discriminate). left; reflexivity.\n    + apply (utf8_3 8364 2 2 44); try reflexivity; try (vm_compute; discriminate). left; reflexivity.\n    + apply (utf8_4 128512 0 31 24 0); try reflexivity; try (vm_compute; discriminate). right; split; [vm_compute; discriminate|reflexivity]. }\nspecialize (H Wrapping _ _ (U ([8230%N]) eq_refl)). vm_compute in H. discriminate H.",
  "edits": [
   {
    "file": "ByteLexer",
    "old": "obind (b_slice_to code 1) (fun raw => Ret (Some raw))\n  else Ret None.\n\n(** [parse_boolean]",
    "new": "obind (b_slice_to code 3) (fun raw => Ret (Some raw))\n  else Ret None.\n\n(** [parse_boolean]"
   }
  ]
 },
 {
  "mutant": "skip_one_byte_ws",
  "theorem": "C85_tokenize",
  "requires": "Lexer Machine ByteLexer Utf8 ByteSpec Utf8Proofs PropLexer PropByteLexer",
  "proof": "\nassert (U : forall s, forallb (fun c => (c <? 128)%N || existsb (N.eqb c) [233; 191; 8230; 8364; 128512]%N) s = true -> Utf8 s (encode s)).\n{ clear. induction s as [|c s IH]; intros F; [constructor|]. cbn [forallb] in F. apply Bool.andb_true_iff in F as [F F'].\n  change (encode (c :: s)) with (encode_char c ++ encode s). constructor; [|exact (IH F')]. apply Bool.orb_true_iff in F as [F|F].\n  - unfold encode_char. rewrite F. constructor. apply N.ltb_lt. exact F.\n  - cbn [existsb] in F. rewrite !Bool.orb_true_iff, !N.eqb_eq in F. destruct F as [->|[->|[->|[->|[->|F]]]]]; [| | | | |discriminate F].\n    + apply (utf8_2 233 3 41); reflexivity || (vm_compute; discriminate).\n    + apply (utf8_2 191 2 63); reflexivity || (vm_compute; discriminate).\n    + apply (utf8_3 8230 2 0 38); try reflexivity; try (vm_compute; discriminate). left; reflexivity.\n    + apply (utf8_3 8364 2 2 44); try reflexivity; try (vm_compute; discriminate). left; reflexivity.\n    + apply (utf8_4 128512 0 31 24 0); try reflexivity; try (vm_compute; discriminate). right; split; [vm_compute; discriminate|reflexivity]. }\nspecialize (H Wrapping _ _ (U (lit \"  x\") eq_refl)). vm_compute in H. discriminate H.",
  "edits": [
   {
    "file": "ByteLexer",
    "old": "    match b_slice_from code nws with",
    "new": "    match b_slice_from code 1 with"
   }
  ]
 },
 {
  "mutant": "comment_end_in_chars",
  "theorem": "C85_tokenize",
  "requires": "Lexer Machine ByteLexer Utf8 ByteSpec Utf8Proofs PropLexer PropByteLexer",
  "proof": "\nassert (U : forall s, forallb (fun c => (c <? 128)%N || existsb (N.eqb c) [233; 191; 8230; 8364; 128512]%N) s = true -> Utf8 s (encode s)).\n{ clear. induction s as [|c s IH]; intros F; [constructor|]. cbn [forallb] in F. apply Bool.andb_true_iff in F as [F F'].\n  change (encode (c :: s)) with (encode_char c ++ encode s). constructor; [|exact (IH F')]. apply Bool.orb_true_iff in F as [F|F].\n  - unfold encode_char. rewrite F. constructor. apply N.ltb_lt. exact F.\n  - cbn [existsb] in F. rewrite !Bool.orb_true_iff, !N.eqb_eq in F. destruct F as [->|[->|[->|[->|[->|F]]]]]; [| | | | |discriminate F].\n    + apply (utf8_2 233 3 41); reflexivity || (vm_compute; discriminate).\n    + apply (utf8_2 191 2 63); reflexivity || (vm_compute; discriminate).\n    + apply (utf8_3 8230 2 0 38); try reflexivity; try (vm_compute; discriminate). left; reflexivity.\n    + apply (utf8_3 8364 2 2 44); try reflexivity; try (vm_compute; discriminate). left; reflexivity.\n    + apply (utf8_4 128512 0 31 24 0); try reflexivity; try (vm_compute; discriminate). right; split; [vm_compute; discriminate|reflexivity]. }\nspecialize (H Wrapping _ _ (U (lit \"BTW \" ++ [233%N]) eq_refl)). vm_compute in H. discriminate H.",
  "edits": [
   {
    "file": "ByteLexer",
    "old": "match b_find [c_nl] code with Some n => n | None => length code end in",
    "new": "match b_find [c_nl] code with Some n => n | None => length (b_chars code) end in"
   }
  ]
 },
 {
  "mutant": "tldr_in_chars",
  "theorem": "C85_tokenize",
  "requires": "Lexer Machine ByteLexer Utf8 ByteSpec Utf8Proofs PropLexer PropByteLexer",
  "proof": "\nassert (U : forall s, forallb (fun c => (c <? 128)%N || existsb (N.eqb c) [233; 191; 8230; 8364; 128512]%N) s = true -> Utf8 s (encode s)).\n{ clear. induction s as [|c s IH]; intros F; [constructor|]. cbn [forallb] in F. apply Bool.andb_true_iff in F as [F F'].\n  change (encode (c :: s)) with (encode_char c ++ encode s). constructor; [|exact (IH F')]. apply Bool.orb_true_iff in F as [F|F].\n  - unfold encode_char. rewrite F. constructor. apply N.ltb_lt. exact F.\n  - cbn [existsb] in F. rewrite !Bool.orb_true_iff, !N.eqb_eq in F. destruct F as [->|[->|[->|[->|[->|F]]]]]; [| | | | |discriminate F].\n    + apply (utf8_2 233 3 41); reflexivity || (vm_compute; discriminate).\n    + apply (utf8_2 191 2 63); reflexivity || (vm_compute; discriminate).\n    + apply (utf8_3 8230 2 0 38); try reflexivity; try (vm_compute; discriminate). left; reflexivity.\n    + apply (utf8_3 8364 2 2 44); try reflexivity; try (vm_compute; discriminate). left; reflexivity.\n    + apply (utf8_4 128512 0 31 24 0); try reflexivity; try (vm_compute; discriminate). right; split; [vm_compute; discriminate|reflexivity]. }\nspecialize (H Wrapping _ _ (U (lit \"OBTW \" ++ [233%N] ++ lit \"TLDR\") eq_refl)). vm_compute in H. discriminate H.",
  "edits": [
   {
    "file": "ByteLexer",
    "old": "    match b_find tldr_str code with",
    "new": "    match b_find tldr_str (b_chars code) with"
   }
  ]
 },
 {
  "mutant": "boundary_end_missing",
  "theorem": "C85_tokenize",
  "requires": "Lexer Machine ByteLexer Utf8 ByteSpec Utf8Proofs PropLexer PropByteLexer",
  "proof": "\nassert (U : forall s, forallb (fun c => (c <? 128)%N || existsb (N.eqb c) [233; 191; 8230; 8364; 128512]%N) s = true -> Utf8 s (encode s)).\n{ clear. induction s as [|c s IH]; intros F; [constructor|]. cbn [forallb] in F. apply Bool.andb_true_iff in F as [F F'].\n  change (encode (c :: s)) with (encode_char c ++ encode s). constructor; [|exact (IH F')]. apply Bool.orb_true_iff in F as [F|F].\n  - unfold encode_char. rewrite F. constructor. apply N.ltb_lt. exact F.\n  - cbn [existsb] in F. rewrite !Bool.orb_true_iff, !N.eqb_eq in F. destruct F as [->|[->|[->|[->|[->|F]]]]]; [| | | | |discriminate F].\n    + apply (utf8_2 233 3 41); reflexivity || (vm_compute; discriminate).\n    + apply (utf8_2 191 2 63); reflexivity || (vm_compute; discriminate).\n    + apply (utf8_3 8230 2 0 38); try reflexivity; try (vm_compute; discriminate). left; reflexivity.\n    + apply (utf8_3 8364 2 2 44); try reflexivity; try (vm_compute; discriminate). left; reflexivity.\n    + apply (utf8_4 128512 0 31 24 0); try reflexivity; try (vm_compute; discriminate). right; split; [vm_compute; discriminate|reflexivity]. }\nspecialize (H Wrapping _ _ (U (lit \"BTW\") eq_refl)). vm_compute in H. discriminate H.",
  "edits": [
   {
    "file": "ByteLexer",
    "old": "| None => Nat.eqb n (length bs)",
    "new": "| None => false"
   }
  ]
 },
 {
  "mutant": "boundary_end_missing",
  "theorem": "C85_same_below_the_bound",
  "requires": "Lexer Machine ByteLexer Utf8 ByteSpec Utf8Proofs PropLexer PropByteLexer",
  "proof": "\nassert (U : forall s, forallb (fun c => (c <? 128)%N || existsb (N.eqb c) [233; 191; 8230; 8364; 128512]%N) s = true -> Utf8 s (encode s)).\n{ clear. induction s as [|c s IH]; intros F; [constructor|]. cbn [forallb] in F. apply Bool.andb_true_iff in F as [F F'].\n  change (encode (c :: s)) with (encode_char c ++ encode s). constructor; [|exact (IH F')]. apply Bool.orb_true_iff in F as [F|F].\n  - unfold encode_char. rewrite F. constructor. apply N.ltb_lt. exact F.\n  - cbn [existsb] in F. rewrite !Bool.orb_true_iff, !N.eqb_eq in F. destruct F as [->|[->|[->|[->|[->|F]]]]]; [| | | | |discriminate F].\n    + apply (utf8_2 233 3 41); reflexivity || (vm_compute; discriminate).\n    + apply (utf8_2 191 2 63); reflexivity || (vm_compute; discriminate).\n    + apply (utf8_3 8230 2 0 38); try reflexivity; try (vm_compute; discriminate). left; reflexivity.\n    + apply (utf8_3 8364 2 2 44); try reflexivity; try (vm_compute; discriminate). left; reflexivity.\n    + apply (utf8_4 128512 0 31 24 0); try reflexivity; try (vm_compute; discriminate). right; split; [vm_compute; discriminate|reflexivity]. }\nspecialize (H Wrapping _ _ (U (lit \"BTW\") eq_refl)). destruct H as [H _]; [vm_compute; reflexivity|]. vm_compute in H. discriminate H.",
  "edits": [
   {
    "file": "ByteLexer",
    "old": "| None => Nat.eqb n (length bs)",
    "new": "| None => false"
   }
  ]
 },
 {
  "mutant": "boundary_end_missing",
  "theorem": "C85_tokenize_and_parse",
  "requires": "Lexer Machine ByteLexer Utf8 ByteSpec Utf8Proofs PropLexer PropByteLexer Parser Api",
  "proof": "\nassert (U : forall s, forallb (fun c => (c <? 128)%N || existsb (N.eqb c) [233; 191; 8230; 8364; 128512]%N) s = true -> Utf8 s (encode s)).\n{ clear. induction s as [|c s IH]; intros F; [constructor|]. cbn [forallb] in F. apply Bool.andb_true_iff in F as [F F'].\n  change (encode (c :: s)) with (encode_char c ++ encode s). constructor; [|exact (IH F')]. apply Bool.orb_true_iff in F as [F|F].\n  - unfold encode_char. rewrite F. constructor. apply N.ltb_lt. exact F.\n  - cbn [existsb] in F. rewrite !Bool.orb_true_iff, !N.eqb_eq in F. destruct F as [->|[->|[->|[->|[->|F]]]]]; [| | | | |discriminate F].\n    + apply (utf8_2 233 3 41); reflexivity || (vm_compute; discriminate).\n    + apply (utf8_2 191 2 63); reflexivity || (vm_compute; discriminate).\n    + apply (utf8_3 8230 2 0 38); try reflexivity; try (vm_compute; discriminate). left; reflexivity.\n    + apply (utf8_3 8364 2 2 44); try reflexivity; try (vm_compute; discriminate). left; reflexivity.\n    + apply (utf8_4 128512 0 31 24 0); try reflexivity; try (vm_compute; discriminate). right; split; [vm_compute; discriminate|reflexivity]. }\nspecialize (H Wrapping _ _ (U (lit \"VISIBLE \" ++ lit \"BTW\") eq_refl)). vm_compute in H. discriminate H.",
  "edits": [
   {
    "file": "ByteLexer",
    "old": "| None => Nat.eqb n (length bs)",
    "new": "| None => false"
   }
  ]
 },
 {
  "mutant": "boundary_at_continuation",
  "theorem": "C85_tokenize",
  "requires": "Lexer Machine ByteLexer Utf8 ByteSpec Utf8Proofs PropLexer PropByteLexer",
  "proof": "\nassert (U : forall s, forallb (fun c => (c <? 128)%N || existsb (N.eqb c) [233; 191; 8230; 8364; 128512]%N) s = true -> Utf8 s (encode s)).\n{ clear. induction s as [|c s IH]; intros F; [constructor|]. cbn [forallb] in F. apply Bool.andb_true_iff in F as [F F'].\n  change (encode (c :: s)) with (encode_char c ++ encode s). constructor; [|exact (IH F')]. apply Bool.orb_true_iff in F as [F|F].\n  - unfold encode_char. rewrite F. constructor. apply N.ltb_lt. exact F.\n  - cbn [existsb] in F. rewrite !Bool.orb_true_iff, !N.eqb_eq in F. destruct F as [->|[->|[->|[->|[->|F]]]]]; [| | | | |discriminate F].\n    + apply (utf8_2 233 3 41); reflexivity || (vm_compute; discriminate).\n    + apply (utf8_2 191 2 63); reflexivity || (vm_compute; discriminate).\n    + apply (utf8_3 8230 2 0 38); try reflexivity; try (vm_compute; discriminate). left; reflexivity.\n    + apply (utf8_3 8364 2 2 44); try reflexivity; try (vm_compute; discriminate). left; reflexivity.\n    + apply (utf8_4 128512 0 31 24 0); try reflexivity; try (vm_compute; discriminate). right; split; [vm_compute; discriminate|reflexivity]. }\nspecialize (H Wrapping _ _ (U ([191%N]) eq_refl)). vm_compute in H. discriminate H.",
  "edits": [
   {
    "file": "ByteLexer",
    "old": "Some b => (b <? 128) || (192 <=? b)",
    "new": "Some b => (b <? 128) || (191 <=? b)"
   }
  ]
 },
 {
  "mutant": "boundary_at_continuation",
  "theorem": "C85_texts_are_strings",
  "requires": "Lexer Machine ByteLexer Utf8 ByteSpec Utf8Proofs PropLexer PropByteLexer",
  "proof": "\nassert (U : forall s, forallb (fun c => (c <? 128)%N || existsb (N.eqb c) [233; 191; 8230; 8364; 128512]%N) s = true -> Utf8 s (encode s)).\n{ clear. induction s as [|c s IH]; intros F; [constructor|]. cbn [forallb] in F. apply Bool.andb_true_iff in F as [F F'].\n  change (encode (c :: s)) with (encode_char c ++ encode s). constructor; [|exact (IH F')]. apply Bool.orb_true_iff in F as [F|F].\n  - unfold encode_char. rewrite F. constructor. apply N.ltb_lt. exact F.\n  - cbn [existsb] in F. rewrite !Bool.orb_true_iff, !N.eqb_eq in F. destruct F as [->|[->|[->|[->|[->|F]]]]]; [| | | | |discriminate F].\n    + apply (utf8_2 233 3 41); reflexivity || (vm_compute; discriminate).\n    + apply (utf8_2 191 2 63); reflexivity || (vm_compute; discriminate).\n    + apply (utf8_3 8230 2 0 38); try reflexivity; try (vm_compute; discriminate). left; reflexivity.\n    + apply (utf8_3 8364 2 2 44); try reflexivity; try (vm_compute; discriminate). left; reflexivity.\n    + apply (utf8_4 128512 0 31 24 0); try reflexivity; try (vm_compute; discriminate). right; split; [vm_compute; discriminate|reflexivity]. }\n\npose (ts := match b_tokenize Wrapping (encode [191%N]) with LexOk ts => ts | _ => [] end).\ndestruct (H Wrapping _ _ ts (hd (mkToken TComma (mkRange (mkPos 1 1 0 0) (mkPos 1 1 0 0))) ts) [194%N] (U [191%N] eq_refl) ltac:(vm_compute; reflexivity) (or_introl eq_refl) eq_refl) as (y & K).\ninversion K as [|c cb s bs K1 K2 Ec Eb]. inversion K1; subst; cbn in Eb; try discriminate Eb. injection Eb as Eb _. subst. match goal with X : (194 < 128)%N |- _ => discriminate X end.",
  "edits": [
   {
    "file": "ByteLexer",
    "old": "Some b => (b <? 128) || (192 <=? b)",
    "new": "Some b => (b <? 128) || (191 <=? b)"
   }
  ]
 },
 {
  "mutant": "gtfo_is_kthxbye",
  "theorem": "C51_results_of_programs",
  "requires": "Lexer Parser Lines Grammar Failure Recovery PropParser PropFailure",
  "proof": "\npose (ts := toks [\"GTFO\"]).\ndestruct (H ts [NGtfo (mkGtfo (tok 0 ts))]) as [_ K].\nassert (P : program_nodes (logical_lines ts) [NGtfo (mkGtfo (tok 0 ts))]).\n{ exists ([], []). change (line_of (logical_lines ts)) with ([tok 0 ts], @nil (list token)).\n  apply (r_block_done Root (tok 0 ts) [] [] (NGtfo (mkGtfo (tok 0 ts))) [] [] (Done [] ([], []))).\n  - apply r_reads. exists [tok 0 ts]. split; [reflexivity|]. split; [apply d_gtfo; vm_compute; reflexivity|]. split; [intros []|intros (_ & x & y & N & _); discriminate N].\n  - apply (r_more_empty Root []). reflexivity. }\nspecialize (K P). vm_compute in K. discriminate K.",
  "edits": [
   {
    "file": "Parser",
    "old": "    | TKeyword GTFO => ret (NGtfo {| gtfo_token := first_token |})",
    "new": "    | TKeyword GTFO => ret (NKThxBye {| kthxbye_token := first_token |})"
   }
  ]
 },
 {
  "mutant": "gtfo_is_kthxbye",
  "theorem": "C66_effect_of_a_source_line",
  "requires": "Lexer Parser Api Lines Grammar Clean Failure Recovery LineEffect SourceSpec SourceEdit PropLexer PropParser PropSourceEdit",
  "proof": "\n\npose (T := fun code : str => match Lexer.tokenize code with Lexer.LexOk ts => ts | _ => [] end).\npose (first := fun code : str => hd (mkToken TComma (mkRange position_start position_start)) (T code)).\npose (g := lit \"GTFO\" ++ [newline]). pose (k := lit \"KTHXBYE\" ++ [newline]).\nassert (CK : forall h n k, (match n with NGtfo _ | NASTError _ => True | _ => False end) -> context h -> h [n] = [NKThxBye k] -> False).\n{ clear. intros h n k Hn C E. inversion C as [h' a b Eh|h' a kk b N Eh]; subst.\n  - rewrite Eh in E. destruct a as [|? [|? ?]]; try discriminate E. injection E as E _. subst n. exact Hn.\n  - rewrite Eh in E. destruct a as [|? [|? ?]]; try discriminate E. injection E as E _.\n    inversion N as [? ? ? ? ? ? ? ? Ek|? ? ? ? ? ? Ek|? ? ? ? ? ? ? ? ? Ek|? ? ? ? ? ? Ek|? ? ? ? ? ? ? Ek|? ? ? ? ? ? ? Ek|? ? ? ? ? ? ? ? ? ? Ek]; subst; rewrite Ek in E; discriminate E. }\ndestruct (H [] [] [] [] (or_introl (conj eq_refl eq_refl)) eq_refl) as (u & f & A & K). clear H.\nassert (O : forall s, In s [g; k] -> one_line s (T s) /\\ plain (T s)).\n{ unfold one_line, whole_lines, T; intros s [<-|[<-|[]]]; (split; [split; [right; eexists; split; [reflexivity|]; split; [vm_compute; reflexivity|]; split;\n    [vm_compute; repeat constructor; discriminate|intros ts0 t E; destruct ts0 as [|? [|? ?]]; vm_compute in E; try discriminate E; injection E as <-; reflexivity]\n    |split; vm_compute; reflexivity]|\n   split; [vm_compute; discriminate|]; split; [intros (t & c & E & B); vm_compute in E; injection E as <- <-; vm_compute in B; decompose [or] B; discriminate|\n   intros q (t & c & E & B); vm_compute in E; injection E as <- <-; destruct q; vm_compute in B; decompose [or] B; try discriminate; assumption]]). }\npose (tg := drop_offsets (shift_token (pos_at [] []) (first g))). pose (tk := drop_offsets (shift_token (pos_at [] []) (first k))).\nassert (G1 : exists n, gives u [tg] (inl [n]) /\\ match n with NGtfo _ | NASTError _ => True | _ => False end).\n{ destruct u.\n  - exists (NGtfo (mkGtfo tg)). split; [|exact I]. apply (lr_reads _ _ []). exists [tg]. split; [reflexivity|]. split; [apply d_gtfo; vm_compute; reflexivity|]. split; [intros []|intros (_ & x & y & N & _); discriminate N].\n  - eexists. split; [reflexivity|exact I].\n  - eexists. split; [exists tg, []; split; reflexivity|exact I]. }\nassert (G2 : exists n, gives u [tk] (inl [n])).\n{ destruct u.\n  - exists (NKThxBye (mkKthxbye tk)). apply (lr_reads _ _ []). exists [tk]. split; [reflexivity|]. split; [apply d_kthxbye; vm_compute; reflexivity|]. split; [intros []|intros (_ & x & y & N & _); discriminate N].\n  - eexists. reflexivity.\n  - eexists. exists tk, []. split; reflexivity. }\ndestruct G1 as (n & G1 & Hn), G2 as (n2 & G2).\ndestruct (O g (or_introl eq_refl)) as [O1 P1], (O k (or_intror (or_introl eq_refl))) as [O2 P2].\npose proof (K g (T g) (inl [n]) O1 P1 G1) as E1. pose proof (K k (T k) (inl [n2]) O2 P2 G2) as E2.\nassert (V1 : map_api drop_offsets (tokenize_and_parse ([] ++ g ++ [])) = ApiOk (ASTBlock [NKThxBye (mkKthxbye tg)])) by (vm_compute; reflexivity).\nassert (V2 : map_api drop_offsets (tokenize_and_parse ([] ++ k ++ [])) <> ApiOk (ASTBlock [NKThxBye (mkKthxbye tg)])) by (vm_compute; discriminate).\nrewrite V1 in E1. destruct A as [r|h C|b Cb|c].\n- apply V2. rewrite E2, E1. reflexivity.\n- injection E1 as E1. exact (CK _ _ _ Hn C (eq_sym E1)).\n- injection E1 as E1. subst b. discriminate Cb.\n- discriminate E1.",
  "edits": [
   {
    "file": "Parser",
    "old": "    | TKeyword GTFO => ret (NGtfo {| gtfo_token := first_token |})",
    "new": "    | TKeyword GTFO => ret (NKThxBye {| kthxbye_token := first_token |})"
   }
  ]
 },
 {
  "mutant": "no_point_zero",
  "theorem": "C86_forms",
  "requires": "FloatText FloatTextSpec Lexer Token Display PropFloatText",
  "proof": "\npose (x := f32_of_decimal false 1 0 : SpecFloat.spec_float).\ndestruct (H x ltac:(vm_compute; reflexivity) ltac:(vm_compute; reflexivity)) as [H1 H2].\nset (s := f32_debug x) in H1, H2. vm_compute in s.\ndestruct (Classical_Prop.classic (written_plainly x)) as [P|P].\n- destruct (H1 P) as (ip & f & E & N & _). unfold s in E. cbn in E. repeat (destruct ip as [|? ip]; try (now apply N); try discriminate E); try (injection E; intros; congruence).\n- destruct (H2 P) as (c & f & neg & z & E & _). unfold s in E. cbn in E. repeat (destruct f as [|? f]; try discriminate E; try (injection E; intros; congruence)); destruct f; discriminate E.",
  "edits": [
   {
    "file": "FloatText",
    "old": "else buf ++ zero_digits (exp - len) ++ lit \".0\".",
    "new": "else buf ++ zero_digits (exp - len)."
   }
  ]
 },
 {
  "mutant": "no_leading_zero_digit",
  "theorem": "C86_forms",
  "requires": "FloatText FloatTextSpec Lexer Token Display PropFloatText",
  "proof": "\npose (x := f32_of_decimal false 5 1 : SpecFloat.spec_float).\ndestruct (H x ltac:(vm_compute; reflexivity) ltac:(vm_compute; reflexivity)) as [H1 H2].\nset (s := f32_debug x) in H1, H2. vm_compute in s.\ndestruct (Classical_Prop.classic (written_plainly x)) as [P|P].\n- destruct (H1 P) as (ip & f & E & N & _). unfold s in E. cbn in E. repeat (destruct ip as [|? ip]; try (now apply N); try discriminate E); try (injection E; intros; congruence).\n- destruct (H2 P) as (c & f & neg & z & E & _). unfold s in E. cbn in E. repeat (destruct f as [|? f]; try discriminate E; try (injection E; intros; congruence)); destruct f; discriminate E.",
  "edits": [
   {
    "file": "FloatText",
    "old": "then lit \"0.\" ++ zero_digits",
    "new": "then lit \".\" ++ zero_digits"
   }
  ]
 },
 {
  "mutant": "exponent_capital",
  "theorem": "C86_forms",
  "requires": "FloatText FloatTextSpec Lexer Token Display PropFloatText",
  "proof": "\npose (x := f32_of_decimal false 1 5 : SpecFloat.spec_float).\ndestruct (H x ltac:(vm_compute; reflexivity) ltac:(vm_compute; reflexivity)) as [H1 H2].\nset (s := f32_debug x) in H1, H2. vm_compute in s.\ndestruct (Classical_Prop.classic (written_plainly x)) as [P|P].\n- destruct (H1 P) as (ip & f & E & N & _). unfold s in E. cbn in E. repeat (destruct ip as [|? ip]; try (now apply N); try discriminate E); try (injection E; intros; congruence).\n- destruct (H2 P) as (c & f & neg & z & E & _). unfold s in E. cbn in E. repeat (destruct f as [|? f]; try discriminate E; try (injection E; intros; congruence)); destruct f; discriminate E.",
  "edits": [
   {
    "file": "FloatText",
    "old": "lit \"e\" ++ i32_text (exp - 1)",
    "new": "lit \"E\" ++ i32_text (exp - 1)"
   }
  ]
 },
 {
  "mutant": "exponent_point_always",
  "theorem": "C86_forms",
  "requires": "FloatText FloatTextSpec Lexer Token Display PropFloatText",
  "proof": "\npose (x := f32_of_decimal false 1 5 : SpecFloat.spec_float).\ndestruct (H x ltac:(vm_compute; reflexivity) ltac:(vm_compute; reflexivity)) as [H1 H2].\nset (s := f32_debug x) in H1, H2. vm_compute in s.\ndestruct (Classical_Prop.classic (written_plainly x)) as [P|P].\n- destruct (H1 P) as (ip & f & E & N & _ & D1 & D2 & _). unfold s in E. cbn in E. rewrite Forall_forall in D1, D2.\n  assert (A : forall c, In c (ip ++ 46%N :: f) -> digit c \\/ c = 46%N).\n  { intros c Hc. apply in_app_iff in Hc as [Hc|[Hc|Hc]]; [left; exact (D1 c Hc)|right; symmetry; exact Hc|left; exact (D2 c Hc)]. }\n  rewrite <- E in A. destruct (A 101%N) as [X|X]; [cbn; tauto|unfold digit in X; lia|discriminate X].\n- destruct (H2 P) as (c & f & neg & z & E & D & _ & Df & _). unfold s in E. cbn in E. destruct f as [|a f]; [discriminate E|]. injection E as _ E. rewrite Forall_forall in Df. assert (a = 101%N) as -> by (cbn in E; congruence). specialize (Df 101%N (or_introl eq_refl)). unfold digit in Df. lia.",
  "edits": [
   {
    "file": "FloatText",
    "old": "(if Nat.ltb 1 (length buf) then lit \".\" ++ skipn 1 buf else [])",
    "new": "(lit \".\" ++ skipn 1 buf)"
   }
  ]
 },
 {
  "mutant": "sign_plus",
  "theorem": "C86_forms",
  "requires": "FloatText FloatTextSpec Lexer Token Display PropFloatText",
  "proof": "\npose (x := f32_of_decimal false 5 1 : SpecFloat.spec_float).\ndestruct (H x ltac:(vm_compute; reflexivity) ltac:(vm_compute; reflexivity)) as [H1 H2].\nset (s := f32_debug x) in H1, H2. vm_compute in s.\ndestruct (Classical_Prop.classic (written_plainly x)) as [P|P].\n- destruct (H1 P) as (ip & f & E & N & _ & D1 & D2 & _). unfold s in E. cbn in E. rewrite Forall_forall in D1, D2.\n  assert (A : forall c, In c (ip ++ 46%N :: f) -> digit c \\/ c = 46%N).\n  { intros c Hc. apply in_app_iff in Hc as [Hc|[Hc|Hc]]; [left; exact (D1 c Hc)|right; symmetry; exact Hc|left; exact (D2 c Hc)]. }\n  rewrite <- E in A. destruct (A 43%N (or_introl eq_refl)) as [X|X]; [unfold digit in X; lia|discriminate X].\n- destruct (H2 P) as (c & f & neg & z & E & D & _ & Df & _). unfold s in E. cbn in E. injection E as <- _. unfold digit in D. lia.",
  "edits": [
   {
    "file": "FloatText",
    "old": "if s then lit \"-\" else []",
    "new": "if s then lit \"-\" else lit \"+\""
   }
  ]
 },
 {
  "mutant": "zero_int",
  "theorem": "C86_forms",
  "requires": "FloatText FloatTextSpec Lexer Token Display PropFloatText",
  "proof": "\npose (x := SpecFloat.S754_zero false : SpecFloat.spec_float).\ndestruct (H x ltac:(vm_compute; reflexivity) ltac:(vm_compute; reflexivity)) as [H1 H2].\nset (s := f32_debug x) in H1, H2. vm_compute in s.\ndestruct (Classical_Prop.classic (written_plainly x)) as [P|P].\n- destruct (H1 P) as (ip & f & E & N & _). unfold s in E. cbn in E. repeat (destruct ip as [|? ip]; try (now apply N); try discriminate E); try (injection E; intros; congruence).\n- destruct (H2 P) as (c & f & neg & z & E & _). unfold s in E. cbn in E. repeat (destruct f as [|? f]; try discriminate E; try (injection E; intros; congruence)); destruct f; discriminate E.",
  "edits": [
   {
    "file": "FloatText",
    "old": "sign_str s ++ lit \"0.0\"",
    "new": "sign_str s ++ lit \"0\""
   }
  ]
 },
 {
  "mutant": "sign_lost",
  "theorem": "C86_float_texts",
  "requires": "FloatText FloatTextSpec Lexer Token Display PropFloatText",
  "proof": "\ndestruct H as [H _]. specialize (H (f32_of_decimal false 5 1) (f32_of_decimal true 5 1) ltac:(vm_compute; reflexivity)). vm_compute in H. discriminate H.",
  "edits": [
   {
    "file": "FloatText",
    "old": "      sign_str s ++\n",
    "new": "      sign_str false ++\n"
   }
  ]
 },
 {
  "mutant": "sign_of_zero",
  "theorem": "C86_float_texts",
  "requires": "FloatText FloatTextSpec Lexer Token Display PropFloatText",
  "proof": "\ndestruct H as [H _]. specialize (H (SpecFloat.S754_zero true) (SpecFloat.S754_zero false) ltac:(vm_compute; reflexivity)). vm_compute in H. discriminate H.",
  "edits": [
   {
    "file": "FloatText",
    "old": "| S754_zero s => sign_str s ++ lit \"0.0\"",
    "new": "| S754_zero s => lit \"0.0\""
   }
  ]
 },
 {
  "mutant": "infinity_sign",
  "theorem": "C86_float_texts",
  "requires": "FloatText FloatTextSpec Lexer Token Display PropFloatText",
  "proof": "\ndestruct H as [H _]. specialize (H (SpecFloat.S754_infinity true) (SpecFloat.S754_infinity false) ltac:(vm_compute; reflexivity)). vm_compute in H. discriminate H.",
  "edits": [
   {
    "file": "FloatText",
    "old": "| S754_infinity s => sign_str s ++ lit \"inf\"",
    "new": "| S754_infinity s => lit \"inf\""
   }
  ]
 },
 {
  "mutant": "infinity_word",
  "theorem": "C86_float_texts",
  "requires": "FloatText FloatTextSpec Lexer Token Display PropFloatText",
  "proof": "\ndestruct H as [H _]. specialize (H (SpecFloat.S754_infinity false) (f32_of_decimal false 99999 1) ltac:(vm_compute; reflexivity)). vm_compute in H. discriminate H.",
  "edits": [
   {
    "file": "FloatText",
    "old": "| S754_infinity s => sign_str s ++ lit \"inf\"",
    "new": "| S754_infinity s => sign_str s ++ lit \"9999.9\""
   }
  ]
 },
 {
  "mutant": "zeros_off_by_one",
  "theorem": "C86_tokenize",
  "requires": "FloatText FloatTextSpec Lexer Token Display PropFloatText",
  "proof": "\nassert (FB : forall k, (-149 <= k)%Z -> Generic_fmt.generic_format Zaux.radix2 (FLT.FLT_exp (-149) 24) (Raux.bpow Zaux.radix2 k)).\n{ intros k Hk. apply Generic_fmt.generic_format_bpow. unfold FLT.FLT_exp. lia. }\nassert (LO : (round32 (value 1 (-4)) <= Raux.bpow Zaux.radix2 (-3))%R).\n{ apply Generic_fmt.round_le_generic; [apply FLT.FLT_exp_valid; reflexivity|apply Generic_fmt.valid_rnd_N|apply FB; lia|]. unfold value. cbn. lra. }\nassert (LO2 : (Raux.bpow Zaux.radix2 (-14) <= round32 (value 1 (-4)))%R).\n{ apply Generic_fmt.round_ge_generic; [apply FLT.FLT_exp_valid; reflexivity|apply Generic_fmt.valid_rnd_N|apply FB; lia|]. unfold value. cbn. lra. }\nassert (HI : (Raux.bpow Zaux.radix2 50 <= round32 (value 1 16))%R).\n{ apply Generic_fmt.round_ge_generic; [apply FLT.FLT_exp_valid; reflexivity|apply Generic_fmt.valid_rnd_N|apply FB; lia|]. unfold value. cbn. lra. }\nassert (HI2 : (round32 (value 1 16) <= Raux.bpow Zaux.radix2 54)%R).\n{ apply Generic_fmt.round_le_generic; [apply FLT.FLT_exp_valid; reflexivity|apply Generic_fmt.valid_rnd_N|apply FB; lia|]. unfold value. cbn. lra. }\npose (x := SpecFloat.S754_finite false 8388608 (-24)).\nassert (P : written_plainly x).\n{ split; [reflexivity|right]. unfold x. cbn [BinarySingleNaN.SF2R Zaux.cond_Zopp]. rewrite Rabs_pos_eq by (unfold Defs.F2R; cbn; lra). unfold Defs.F2R. cbn in *. lra. }\ndestruct (H x ltac:(vm_compute; reflexivity) P) as (ts & E1 & E2). vm_compute in E1. injection E1 as <-. vm_compute in E2. discriminate E2.",
  "edits": [
   {
    "file": "FloatText",
    "old": "zero_digits (- exp) ++ buf",
    "new": "zero_digits (1 - exp) ++ buf"
   }
  ]
 },
 {
  "mutant": "point_off_by_one",
  "theorem": "C86_tokenize",
  "requires": "FloatText FloatTextSpec Lexer Token Display PropFloatText",
  "proof": "\nassert (FB : forall k, (-149 <= k)%Z -> Generic_fmt.generic_format Zaux.radix2 (FLT.FLT_exp (-149) 24) (Raux.bpow Zaux.radix2 k)).\n{ intros k Hk. apply Generic_fmt.generic_format_bpow. unfold FLT.FLT_exp. lia. }\nassert (LO : (round32 (value 1 (-4)) <= Raux.bpow Zaux.radix2 (-3))%R).\n{ apply Generic_fmt.round_le_generic; [apply FLT.FLT_exp_valid; reflexivity|apply Generic_fmt.valid_rnd_N|apply FB; lia|]. unfold value. cbn. lra. }\nassert (LO2 : (Raux.bpow Zaux.radix2 (-14) <= round32 (value 1 (-4)))%R).\n{ apply Generic_fmt.round_ge_generic; [apply FLT.FLT_exp_valid; reflexivity|apply Generic_fmt.valid_rnd_N|apply FB; lia|]. unfold value. cbn. lra. }\nassert (HI : (Raux.bpow Zaux.radix2 50 <= round32 (value 1 16))%R).\n{ apply Generic_fmt.round_ge_generic; [apply FLT.FLT_exp_valid; reflexivity|apply Generic_fmt.valid_rnd_N|apply FB; lia|]. unfold value. cbn. lra. }\nassert (HI2 : (round32 (value 1 16) <= Raux.bpow Zaux.radix2 54)%R).\n{ apply Generic_fmt.round_le_generic; [apply FLT.FLT_exp_valid; reflexivity|apply Generic_fmt.valid_rnd_N|apply FB; lia|]. unfold value. cbn. lra. }\npose (x := SpecFloat.S754_finite false 12582912 (-23)).\nassert (P : written_plainly x).\n{ split; [reflexivity|right]. unfold x. cbn [BinarySingleNaN.SF2R Zaux.cond_Zopp]. rewrite Rabs_pos_eq by (unfold Defs.F2R; cbn; lra). unfold Defs.F2R. cbn in *. lra. }\ndestruct (H x ltac:(vm_compute; reflexivity) P) as (ts & E1 & E2). vm_compute in E1. injection E1 as <-. vm_compute in E2. discriminate E2.",
  "edits": [
   {
    "file": "FloatText",
    "old": "firstn (Z.to_nat exp) buf ++ lit \".\" ++ skipn (Z.to_nat exp) buf",
    "new": "firstn (Z.to_nat exp - 1) buf ++ lit \".\" ++ skipn (Z.to_nat exp - 1) buf"
   }
  ]
 },
 {
  "mutant": "no_point_zero",
  "theorem": "C86_tokenize",
  "requires": "FloatText FloatTextSpec Lexer Token Display PropFloatText",
  "proof": "\nassert (FB : forall k, (-149 <= k)%Z -> Generic_fmt.generic_format Zaux.radix2 (FLT.FLT_exp (-149) 24) (Raux.bpow Zaux.radix2 k)).\n{ intros k Hk. apply Generic_fmt.generic_format_bpow. unfold FLT.FLT_exp. lia. }\nassert (LO : (round32 (value 1 (-4)) <= Raux.bpow Zaux.radix2 (-3))%R).\n{ apply Generic_fmt.round_le_generic; [apply FLT.FLT_exp_valid; reflexivity|apply Generic_fmt.valid_rnd_N|apply FB; lia|]. unfold value. cbn. lra. }\nassert (LO2 : (Raux.bpow Zaux.radix2 (-14) <= round32 (value 1 (-4)))%R).\n{ apply Generic_fmt.round_ge_generic; [apply FLT.FLT_exp_valid; reflexivity|apply Generic_fmt.valid_rnd_N|apply FB; lia|]. unfold value. cbn. lra. }\nassert (HI : (Raux.bpow Zaux.radix2 50 <= round32 (value 1 16))%R).\n{ apply Generic_fmt.round_ge_generic; [apply FLT.FLT_exp_valid; reflexivity|apply Generic_fmt.valid_rnd_N|apply FB; lia|]. unfold value. cbn. lra. }\nassert (HI2 : (round32 (value 1 16) <= Raux.bpow Zaux.radix2 54)%R).\n{ apply Generic_fmt.round_le_generic; [apply FLT.FLT_exp_valid; reflexivity|apply Generic_fmt.valid_rnd_N|apply FB; lia|]. unfold value. cbn. lra. }\npose (x := SpecFloat.S754_finite false 8388608 (-23)).\nassert (P : written_plainly x).\n{ split; [reflexivity|right]. unfold x. cbn [BinarySingleNaN.SF2R Zaux.cond_Zopp]. rewrite Rabs_pos_eq by (unfold Defs.F2R; cbn; lra). unfold Defs.F2R. cbn in *. lra. }\ndestruct (H x ltac:(vm_compute; reflexivity) P) as (ts & E1 & E2). vm_compute in E1. injection E1 as <-. vm_compute in E2. discriminate E2.",
  "edits": [
   {
    "file": "FloatText",
    "old": "else buf ++ zero_digits (exp - len) ++ lit \".0\".",
    "new": "else buf ++ zero_digits (exp - len)."
   }
  ]
 },
 {
  "mutant": "threshold_low",
  "theorem": "C86_forms",
  "requires": "FloatText FloatTextSpec Lexer Token Display PropFloatText",
  "proof": "\nassert (FB : forall k, (-149 <= k)%Z -> Generic_fmt.generic_format Zaux.radix2 (FLT.FLT_exp (-149) 24) (Raux.bpow Zaux.radix2 k)).\n{ intros k Hk. apply Generic_fmt.generic_format_bpow. unfold FLT.FLT_exp. lia. }\nassert (LO : (round32 (value 1 (-4)) <= Raux.bpow Zaux.radix2 (-3))%R).\n{ apply Generic_fmt.round_le_generic; [apply FLT.FLT_exp_valid; reflexivity|apply Generic_fmt.valid_rnd_N|apply FB; lia|]. unfold value. cbn. lra. }\nassert (LO2 : (Raux.bpow Zaux.radix2 (-14) <= round32 (value 1 (-4)))%R).\n{ apply Generic_fmt.round_ge_generic; [apply FLT.FLT_exp_valid; reflexivity|apply Generic_fmt.valid_rnd_N|apply FB; lia|]. unfold value. cbn. lra. }\nassert (HI : (Raux.bpow Zaux.radix2 50 <= round32 (value 1 16))%R).\n{ apply Generic_fmt.round_ge_generic; [apply FLT.FLT_exp_valid; reflexivity|apply Generic_fmt.valid_rnd_N|apply FB; lia|]. unfold value. cbn. lra. }\nassert (HI2 : (round32 (value 1 16) <= Raux.bpow Zaux.radix2 54)%R).\n{ apply Generic_fmt.round_le_generic; [apply FLT.FLT_exp_valid; reflexivity|apply Generic_fmt.valid_rnd_N|apply FB; lia|]. unfold value. cbn. lra. }\npose (x := SpecFloat.S754_finite false 8388608 (-38)).\nassert (P : ~ written_plainly x).\n{ intros [_ P]. unfold x in P. cbn [BinarySingleNaN.SF2R Zaux.cond_Zopp] in P. assert (X : (0 < Defs.F2R (Defs.Float Zaux.radix2 8388608 (-38)))%R) by (unfold Defs.F2R; cbn; lra).\n  rewrite Rabs_pos_eq in P by lra. unfold Defs.F2R in P, X. cbn in *. lra. }\ndestruct (H x ltac:(vm_compute; reflexivity) ltac:(reflexivity)) as [_ H2]. destruct (H2 P) as (c & f & neg & z & E & _). vm_compute in E.\nrepeat (destruct f as [|? f]; try discriminate E; try (injection E; intros; congruence)); destruct f; discriminate E.",
  "edits": [
   {
    "file": "FloatText",
    "old": "SFltb abs (f32_of_decimal false 1 4)",
    "new": "SFltb abs (f32_of_decimal false 1 5)"
   }
  ]
 },
 {
  "mutant": "threshold_high",
  "theorem": "C86_forms",
  "requires": "FloatText FloatTextSpec Lexer Token Display PropFloatText",
  "proof": "\nassert (FB : forall k, (-149 <= k)%Z -> Generic_fmt.generic_format Zaux.radix2 (FLT.FLT_exp (-149) 24) (Raux.bpow Zaux.radix2 k)).\n{ intros k Hk. apply Generic_fmt.generic_format_bpow. unfold FLT.FLT_exp. lia. }\nassert (LO : (round32 (value 1 (-4)) <= Raux.bpow Zaux.radix2 (-3))%R).\n{ apply Generic_fmt.round_le_generic; [apply FLT.FLT_exp_valid; reflexivity|apply Generic_fmt.valid_rnd_N|apply FB; lia|]. unfold value. cbn. lra. }\nassert (LO2 : (Raux.bpow Zaux.radix2 (-14) <= round32 (value 1 (-4)))%R).\n{ apply Generic_fmt.round_ge_generic; [apply FLT.FLT_exp_valid; reflexivity|apply Generic_fmt.valid_rnd_N|apply FB; lia|]. unfold value. cbn. lra. }\nassert (HI : (Raux.bpow Zaux.radix2 50 <= round32 (value 1 16))%R).\n{ apply Generic_fmt.round_ge_generic; [apply FLT.FLT_exp_valid; reflexivity|apply Generic_fmt.valid_rnd_N|apply FB; lia|]. unfold value. cbn. lra. }\nassert (HI2 : (round32 (value 1 16) <= Raux.bpow Zaux.radix2 54)%R).\n{ apply Generic_fmt.round_le_generic; [apply FLT.FLT_exp_valid; reflexivity|apply Generic_fmt.valid_rnd_N|apply FB; lia|]. unfold value. cbn. lra. }\npose (x := SpecFloat.S754_finite false 8388608 31).\nassert (P : ~ written_plainly x).\n{ intros [_ P]. unfold x in P. cbn [BinarySingleNaN.SF2R Zaux.cond_Zopp] in P. assert (X : (0 < Defs.F2R (Defs.Float Zaux.radix2 8388608 31))%R) by (unfold Defs.F2R; cbn; lra).\n  rewrite Rabs_pos_eq in P by lra. unfold Defs.F2R in P, X. cbn in *. lra. }\ndestruct (H x ltac:(vm_compute; reflexivity) ltac:(reflexivity)) as [_ H2]. destruct (H2 P) as (c & f & neg & z & E & _). vm_compute in E.\nrepeat (destruct f as [|? f]; try discriminate E; try (injection E; intros; congruence)); destruct f; discriminate E.",
  "edits": [
   {
    "file": "FloatText",
    "old": "(f32_of_decimal false (10 ^ 16) 0) abs",
    "new": "(f32_of_decimal false (10 ^ 17) 0) abs"
   }
  ]
 },
 {
  "mutant": "search_starts_at_block_1",
  "theorem": "C46_search",
  "requires": "Blocks PropParser PropParser2 ParserProps2",
  "edits": [
   {
    "file": "Blocks",
    "old": "mkErrorIter [b] 0 0.",
    "new": "mkErrorIter [b] 1 0."
   }
  ],
  "proof": "\npose (ns := [NASTError (UnexpectedToken (bare' 0))]).\ndestruct (H ns) as [(pre & n & post & x & E & F & D & S)|(F & S)]; vm_compute in S; [discriminate S|]. inversion F as [|? ? N _]. apply N. eexists. constructor."
 },
 {
  "mutant": "search_skips_a_node",
  "theorem": "C46_search",
  "requires": "Blocks PropParser PropParser2 ParserProps2",
  "edits": [
   {
    "file": "Blocks",
    "old": "mkErrorIter [b] 0 0.",
    "new": "mkErrorIter [b] 0 1."
   }
  ],
  "proof": "\npose (ns := [NASTError (UnexpectedToken (bare' 0))]).\ndestruct (H ns) as [(pre & n & post & x & E & F & D & S)|(F & S)]; vm_compute in S; [discriminate S|]. inversion F as [|? ? N _]. apply N. eexists. constructor."
 },
 {
  "mutant": "search_loses_what_it_finds",
  "theorem": "C46_search",
  "requires": "Blocks PropParser PropParser2 ParserProps2",
  "edits": [
   {
    "file": "Blocks",
    "old": "| Some x => (Some x, S count)",
    "new": "| Some x => (None, S count)"
   }
  ],
  "proof": "\npose (ns := [NASTError (UnexpectedToken (bare' 0))]).\ndestruct (H ns) as [(pre & n & post & x & E & F & D & S)|(F & S)]; vm_compute in S; [discriminate S|]. inversion F as [|? ? N _]. apply N. eexists. constructor."
 },
 {
  "mutant": "search_loses_the_result",
  "theorem": "C46_search",
  "requires": "Blocks PropParser PropParser2 ParserProps2",
  "edits": [
   {
    "file": "Blocks",
    "old": "| (Some x, statement') => (Some x, index, statement')",
    "new": "| (Some x, statement') => (None, index, statement')"
   }
  ],
  "proof": "\npose (ns := [NASTError (UnexpectedToken (bare' 0))]).\ndestruct (H ns) as [(pre & n & post & x & E & F & D & S)|(F & S)]; vm_compute in S; [discriminate S|]. discriminate S."
 },
 {
  "mutant": "search_counts_from_zero",
  "theorem": "C46_search",
  "requires": "Blocks PropParser PropParser2 ParserProps2",
  "edits": [
   {
    "file": "Blocks",
    "old": "| Some x => (Some x, S count)",
    "new": "| Some x => (Some x, count)"
   }
  ],
  "proof": "\npose (ns := [NASTError (UnexpectedToken (bare' 0))]).\ndestruct (H ns) as [(pre & n & post & x & E & F & D & S)|(F & S)]; vm_compute in S; [|discriminate S]. destruct pre as [|? [|? ?]]; discriminate S."
 },
 {
  "mutant": "ellipsis_joins_nothing",
  "theorem": "C88_normal_form",
  "requires": "Token Lexer Parser Api Lines Relabel Clean Format Normal PropLexer PropShape PropNormal",
  "edits": [
   {
    "file": "StmtIter",
    "old": "advance ts' (line_of_next ts' cur)",
    "new": "advance ts' cur"
   },
   {
    "file": "StmtIter",
    "old": "collect_tokens ts' (line_of_next ts' cur)",
    "new": "collect_tokens ts' cur"
   }
  ],
  "proof": "\npose (code := lit \"SUM OF ...\" ++ nl ++ lit \"1 AN 2\" ++ nl).\ndestruct (H code match tokenize code with LexOk ts => ts | _ => [] end) as (ts1 & E1 & E2 & E3 & _); [vm_compute; reflexivity|vm_compute; repeat constructor|].\nvm_compute in E3. discriminate E3."
 },
 {
  "mutant": "no_exponent_zeros_lost",
  "theorem": "C87_print_keeps_the_ast",
  "requires": "Token Lexer Parser Api Relabel Clean Shape Format FloatText PrintAst PropLexer PropShape PropPrintAst",
  "edits": [
   {
    "file": "FloatText",
    "old": "else buf ++ zero_digits (exp - len) ++ lit \".0\".",
    "new": "else buf ++ zero_digits (exp - len)."
   }
  ],
  "proof": "\npose (code := lit \"VISIBLE 1.0\" ++ nl).\ndestruct (H code (api_nodes (tokenize_and_parse code))) as (ns1 & E1 & E2 & _); [reflexivity| |vm_compute; reflexivity|vm_compute; reflexivity|vm_compute; constructor|].\n{ intros (x & X). apply (f_equal (fun s => last s 0%N)) in X. rewrite last_last in X. discriminate X. }\nvm_compute in E1. injection E1 as <-. vm_compute in E2. discriminate E2."
 },
 {
  "mutant": "ends_may_have_comments",
  "theorem": "C39_comments_spoil_lines_refuted",
  "requires": "Token Parser Lines Clean PropLexer PropParser",
  "edits": [
   {
    "file": "Parser",
    "old": "  l <- next_statement ;;\n  match l with\n  | [] => ret tt",
    "new": "  l <- next_statement ;;\n  match filter (fun t => match tok_type t with TCommentSingleLine _ | TCommentMultiLine _ => false | _ => true end) l with\n  | [] => ret tt"
   }
  ],
  "proof": "\npose (k := mkToken (TCommentSingleLine (lit \"x\")) (tok_range dummy)). pose (ts := [mkToken (TKeyword GTFO) (tok_range dummy); k]).\nassert (E : forallb node_clean (nodes_of (parse ts)) = false); [|vm_compute in E; discriminate E].\napply (H ts _ ts k); [vm_compute; reflexivity|vm_compute; intros l [<-|[]]; discriminate|left; vm_compute; reflexivity|right; left; reflexivity|left; eexists; reflexivity|].\nintros h v X. injection X as <- _. vm_compute. discriminate."
 },
 {
  "mutant": "label_checked_same",
  "theorem": "C89_checker",
  "requires": "Token Lexer Parser Api Lines Clean Grammar Checker PropLexer PropParser PropChecker",
  "edits": [
   {
    "file": "Parser",
    "old": "          if is_identifier end_label then\n            ret",
    "new": "          if is_identifier end_label && (if list_eq_dec N.eq_dec (match tok_type label with TIdentifier s => s | _ => [] end) (match tok_type end_label with TIdentifier s => s | _ => [] end) then true else false) then\n            ret"
   }
  ],
  "proof": "\npose (ts := c89_toks [\"IM IN YR b\"; \"GTFO\"; \"IM OUTTA YR y\"]).\nassert (S : steps (Fresh []) (logical_lines ts) (Begun [])).\n{ \nchange (steps (Fresh []) [[tok 0 ts; tok 1 ts]; [tok 2 ts]; [tok 3 ts; tok 4 ts]] (Begun []));\neconstructor; [apply (step_loop _ [] (tok 0 ts) (tok 1 ts) [] None [] None); [constructor|reflexivity|eexists; reflexivity|constructor|constructor]|];\neconstructor; [eapply step_line; [constructor|]; apply d_gtfo; reflexivity|];\neconstructor; [apply step_loop_end; [reflexivity|eexists; reflexivity]|constructor].\n}\ndestruct (proj2 (H ts) (ex_intro _ _ (conj S I))) as (ns & E & C). vm_compute in E. injection E as <-. vm_compute in C. discriminate C."
 },
 {
  "mutant": "label_checked_same",
  "theorem": "C89_closing",
  "requires": "Token Lexer Parser Api Lines Clean Grammar Checker PropLexer PropParser PropChecker",
  "edits": [
   {
    "file": "Parser",
    "old": "          if is_identifier end_label then\n            ret",
    "new": "          if is_identifier end_label && (if list_eq_dec N.eq_dec (match tok_type label with TIdentifier s => s | _ => [] end) (match tok_type end_label with TIdentifier s => s | _ => [] end) then true else false) then\n            ret"
   }
  ],
  "proof": "\npose (ts := c89_toks [\"IM IN YR b\"; \"GTFO\"]).\npose (code := c89_code [\"IM IN YR b\"; \"GTFO\"]).\nassert (S : steps (Fresh []) (logical_lines ts) (Begun [FLoop])).\n{ \nchange (steps (Fresh []) [[tok 0 ts; tok 1 ts]; [tok 2 ts]] (Begun [FLoop]));\neconstructor; [apply (step_loop _ [] (tok 0 ts) (tok 1 ts) [] None [] None); [constructor|reflexivity|eexists; reflexivity|constructor|constructor]|];\neconstructor; [eapply step_line; [constructor|]; apply d_gtfo; reflexivity|];\nconstructor.\n}\ndestruct (H code ts (Begun [FLoop])) as (ns & E & C); [|exact S|].\n{ right. exists (removelast code). split; [vm_compute; reflexivity|]. split; [vm_compute; reflexivity|].\n  split; [vm_compute; repeat constructor; discriminate|].\n  intros ts0 t E. assert (E2 : last ts dummy = last (ts0 ++ [t]) dummy) by (rewrite E; reflexivity).\n  rewrite last_last in E2. subst t. vm_compute. reflexivity. }\nvm_compute in E. injection E as <-. vm_compute in C. discriminate C."
 },
 {
  "mutant": "hai_takes_one_token",
  "theorem": "C89_bad_line",
  "requires": "Token Lexer Parser Api Lines Clean Grammar Checker PropLexer PropParser PropChecker",
  "edits": [
   {
    "file": "Parser",
    "old": "as_node NHai (hai_parse first_token)",
    "new": "as_node NHai (o <- next ;; ret {| hai_token := first_token; hai_version := match o with Some t => [t] | None => [] end |})"
   }
  ],
  "proof": "\nassert (S1 : steps (Fresh []) [[tok 0 c89_bad; tok 1 c89_bad]] (NeedEmpty [])).\n{ econstructor; [|constructor]. apply step_hai; [constructor|reflexivity]. }\nassert (S2 : forall s', ~ step (NeedEmpty []) [tok 2 c89_bad] s').\n{ clear H. intros s' H. inversion H; subst; repeat match goal with\n    | H : _ \\/ _ |- _ => destruct H\n    | H : in_block _ _ |- _ => inversion H\n    | H : before_case _ _ |- _ => inversion H\n    | H : before_mebbe _ _ |- _ => inversion H\n    end; discriminate. }\napply (H _ _ _ S1 S2 c89_bad []); [vm_compute; reflexivity|].\neexists. split; vm_compute; reflexivity."
 },
 {
  "mutant": "ends_may_have_comments",
  "theorem": "C90_beginnings",
  "requires": "Token Lexer Parser Api Lines Clean Grammar ErrorShape Checker Reader PropLexer PropParser PropChecker PropReader",
  "edits": [
   {
    "file": "Parser",
    "old": "  l <- next_statement ;;\n  match l with\n  | [] => ret tt",
    "new": "  l <- next_statement ;;\n  match filter (fun t => match tok_type t with TCommentSingleLine _ | TCommentMultiLine _ => false | _ => true end) l with\n  | [] => ret tt"
   }
  ],
  "proof": "\npose (k := mkToken (TCommentSingleLine (lit \"x\")) (tok_range dummy)). pose (g := mkToken (TKeyword GTFO) (tok_range dummy)).\ndestruct (proj1 (H [] [g; k] ltac:(repeat first [discriminate|constructor]) ltac:(repeat first [discriminate|constructor]))) as (s & q & S & Q).\n{ exists [g; k], [], []. split; [vm_compute; reflexivity|]. eexists. split; vm_compute; reflexivity. }\nclear H. inversion S; subst. inversion Q as [|? ? q1 ? ? Q1 Q2]; subst. inversion Q2 as [|? ? q2 ? ? Q3 Q4]; subst.\nassert (E : q1 = REnd).\n{ clear Q2 Q3 Q4 Q. inversion Q1; subst; try reflexivity; try discriminate;\n  repeat match goal with\n    | H : _ \\/ _ |- _ => destruct H\n    | H : in_block _ _ |- _ => inversion H; clear H; subst\n    | H : before_case _ _ |- _ => inversion H; clear H; subst\n    | H : before_mebbe _ _ |- _ => inversion H; clear H; subst\n    | H : expects _ _ _ |- _ => inversion H; clear H; subst\n    | H : done _ _ _ |- _ => inversion H; clear H; subst\n    | H : ident_tok _ |- _ => destruct H\n    end; try discriminate;\n  match goal with H : opens _ _ _ _ |- _ => inversion H; subst end; try discriminate;\n  try (match goal with H : value_tok _ |- _ => destruct H; discriminate end);\n  try (match goal with H : ident_tok _ |- _ => destruct H; discriminate end);\n  try (match goal with H : binary_operator _ _ |- _ => inversion H; subst; discriminate end);\n  try (match goal with H : nary_operator _ _ |- _ => inversion H; subst; discriminate end). }\nsubst q1. clear Q Q1 Q2 Q4. inversion Q3; subst;\n  repeat match goal with\n    | H : _ \\/ _ |- _ => destruct H\n    | H : expects _ _ _ |- _ => inversion H; clear H; subst\n    | H : done _ _ _ |- _ => inversion H; clear H; subst\n    end; discriminate."
 },
 {
  "mutant": "unclosed_loop_label",
  "theorem": "C91_unclosed",
  "requires": "Token Lexer Parser Api Lines Clean Grammar Recovery NodeTokens NodeLines ErrorShape Checker CheckerProofs FirstError PropLexer PropParser PropChecker PropFirstError",
  "edits": [
   {
    "file": "Parser",
    "old": "| None => fail (EImInYr (MissingImOuttaYr first_token))",
    "new": "| None => fail (EImInYr (MissingImOuttaYr label))"
   }
  ],
  "proof": "\npose (ts := c89_toks [\"IM IN YR a\"]).\nassert (S : tracks (Fresh []) [] [[tok 0 ts; tok 1 ts]] (Fresh [FLoop]) [tok 0 ts]).\n{ apply (tracks_cons _ _ _ (Fresh [FLoop])); [|apply tracks_nil]. apply (step_loop _ [] (tok 0 ts) (tok 1 ts) [] None [] None);\n  [constructor|reflexivity|eexists; reflexivity|constructor|constructor]. }\n\ndestruct (H ts _ [] (tok 0 ts) S) as (ns & e & E & _ & U). clear H S.\nassert (P : parse ts = ParseOk (ASTBlock ([] ++ [NASTError (EImInYr (MissingImOuttaYr (tok 1 ts)))]))) by (vm_compute; reflexivity).\nrewrite P in E. injection E as E. change ([] ++ [NASTError (EImInYr (MissingImOuttaYr (tok 1 ts)))] = ns ++ [NASTError e]) in E.\napply app_inj_tail in E as (_ & E). injection E as <-. inversion U."
 },
 {
  "mutant": "unclosed_loop_label",
  "theorem": "C91_no_false_alarms",
  "requires": "Token Lexer Parser Api Lines Clean Grammar Recovery NodeTokens NodeLines ErrorShape Checker CheckerProofs FirstError PropLexer PropParser PropChecker PropFirstError",
  "edits": [
   {
    "file": "Parser",
    "old": "| None => fail (EImInYr (MissingImOuttaYr first_token))",
    "new": "| None => fail (EImInYr (MissingImOuttaYr label))"
   }
  ],
  "proof": "\npose (ts := c89_toks [\"IM IN YR a\"]).\nassert (S : tracks (Fresh []) [] [[tok 0 ts; tok 1 ts]] (Fresh [FLoop]) [tok 0 ts]).\n{ apply (tracks_cons _ _ _ (Fresh [FLoop])); [|apply tracks_nil]. apply (step_loop _ [] (tok 0 ts) (tok 1 ts) [] None [] None);\n  [constructor|reflexivity|eexists; reflexivity|constructor|constructor]. }\n\ndestruct (H [[tok 0 ts; tok 1 ts]] [] _ _ ts (ASTBlock [NASTError (EImInYr (MissingImOuttaYr (tok 1 ts)))]) (EImInYr (MissingImOuttaYr (tok 1 ts)))\n  ltac:(vm_compute; reflexivity) S ltac:(vm_compute; reflexivity) ltac:(left; reflexivity)) as [K|(t & K & U)].\n- destruct (K (tok 1 ts) (or_introl eq_refl)).\n- destruct K as [<-|[]]. inversion U."
 },
 {
  "mutant": "unclosed_function_accepted",
  "theorem": "C91_unclosed",
  "requires": "Token Lexer Parser Api Lines Clean Grammar Recovery NodeTokens NodeLines ErrorShape Checker CheckerProofs FirstError PropLexer PropParser PropChecker PropFirstError",
  "edits": [
   {
    "file": "Parser",
    "old": "    | None => fail (MissingBlockClosingToken first_token)\n    | Some t2",
    "new": "    | None => ret (HowIzI first_token name arguments body)\n    | Some t2"
   }
  ],
  "proof": "\npose (ts := c89_toks [\"HOW IZ I f\"]).\nassert (S : tracks (Fresh []) [] [[tok 0 ts; tok 1 ts]] (Fresh [FFunction]) [tok 0 ts]).\n{ apply (tracks_cons _ _ _ (Fresh [FFunction])); [|apply tracks_nil]. apply (step_function _ [] (tok 0 ts) [tok 1 ts] (mkIdentifier (tok 1 ts) None) [] []);\n  [constructor|reflexivity|constructor; eexists; reflexivity|constructor]. }\ndestruct (H ts _ [] (tok 0 ts) S) as (ns & e & E & _ & U). clear H S.\nassert (P : exists n, parse ts = ParseOk (ASTBlock ([] ++ [n])) /\\ node_error n = []) by (eexists; split; vm_compute; reflexivity).\ndestruct P as (n & P & N). rewrite P in E. injection E as E. change ([] ++ [n] = ns ++ [NASTError e]) in E. apply app_inj_tail in E as (_ & ->). discriminate N."
 },
 {
  "mutant": "hai_takes_one_token",
  "theorem": "C91_no_false_alarms",
  "requires": "Token Lexer Parser Api Lines Clean Grammar Recovery NodeTokens NodeLines ErrorShape Checker CheckerProofs FirstError PropLexer PropParser PropChecker PropFirstError",
  "proof": "\npose (ts := c89_toks [\"HAI a b\"]).\ndestruct (H [[tok 0 ts; tok 1 ts; tok 2 ts]] [] (NeedEmpty []) [] ts (ASTBlock [NHai (mkHai (tok 0 ts) [tok 1 ts]); NASTError (TooManyTokens [tok 2 ts])]) (TooManyTokens [tok 2 ts])\n  ltac:(vm_compute; reflexivity)) as [K|(t & [] & _)].\n- apply (tracks_cons _ _ _ (NeedEmpty [])); [|apply tracks_nil]. apply step_hai; [constructor|reflexivity].\n- vm_compute. reflexivity.\n- left. reflexivity.\n- destruct (K (tok 2 ts) (or_introl eq_refl))."
 },
 {
  "mutant": "block_no_too_many",
  "theorem": "C91_bad_line",
  "requires": "Token Lexer Parser Api Lines Clean Grammar Recovery NodeTokens NodeLines ErrorShape Checker CheckerProofs FirstError PropLexer PropParser PropChecker PropFirstError",
  "proof": "\ndestruct (H [[tok 0 c89_bad; tok 1 c89_bad]] [tok 2 c89_bad] [] (NeedEmpty []) c89_bad [NHai (mkHai (tok 0 c89_bad) [tok 1 c89_bad])] ltac:(vm_compute; reflexivity)) as (n1 & e & n2 & E & _).\n- apply (tracks_cons _ _ _ (NeedEmpty [])); [|apply tracks_nil]. apply step_hai; [constructor|reflexivity].\n- clear H. intros s' H. inversion H; subst; repeat match goal with\n    | H : _ \\/ _ |- _ => destruct H\n    | H : in_block _ _ |- _ => inversion H\n    | H : before_case _ _ |- _ => inversion H\n    | H : before_mebbe _ _ |- _ => inversion H\n    end; discriminate.\n- vm_compute. reflexivity.\n- destruct n1 as [|? [|? ?]]; discriminate E."
 },
 {
  "mutant": "hai_version_maek",
  "theorem": "C91_no_false_panics",
  "requires": "Token Lexer Parser Api Lines Clean Grammar Recovery NodeTokens NodeLines ErrorShape Checker CheckerProofs FirstError PropLexer PropParser PropChecker PropFirstError",
  "edits": [
   {
    "file": "Parser",
    "old": "as_node NHai (hai_parse first_token)",
    "new": "as_node NHai (p <- peek ;; match p with Some t => if is_kw MAEK t then panic (PanicMaek t) else hai_parse first_token | None => hai_parse first_token end)"
   }
  ],
  "proof": "\npose (ts := c89_toks [\"HAI MAEK\"]).\nassert (K := H [[tok 0 ts; tok 1 ts]] [] (NeedEmpty []) [] ts (PanicMaek (tok 1 ts)) ltac:(vm_compute; reflexivity)).\napply (K ltac:(apply (tracks_cons _ _ _ (NeedEmpty [])); [apply step_hai; [constructor|reflexivity]|apply tracks_nil]) ltac:(vm_compute; reflexivity) (tok 1 ts)).\nleft. reflexivity."
 },
 {
  "mutant": "iiz_no_mkay",
  "theorem": "C92_accepts",
  "requires": "Token Lexer Parser Api Lines Clean Checker Reader Automaton PropLexer PropParser PropAutomaton",
  "proof": "\npose (ts := toks [\"I IZ f\"]).\nassert (B : exists ns, parse ts = ParseOk (ASTBlock ns) /\\ forallb node_clean ns = true) by (eexists; split; vm_compute; reflexivity).\napply H in B. vm_compute in B. discriminate B."
 },
 {
  "mutant": "iiz_no_mkay",
  "theorem": "C92_sources",
  "requires": "Token Lexer Parser Api Lines Clean Checker Reader Automaton PropLexer PropParser PropAutomaton",
  "proof": "\npose (code := text [\"I IZ f\"]).\nassert (B : exists ns, tokenize_and_parse code = ApiOk (ASTBlock ns) /\\ forallb node_clean ns = true) by (eexists; split; vm_compute; reflexivity).\napply H in B. vm_compute in B. discriminate B."
 },
 {
  "mutant": "wtf_no_consume",
  "theorem": "C92_accepts",
  "requires": "Token Lexer Parser Api Lines Clean Checker Reader Automaton PropLexer PropParser PropAutomaton",
  "proof": "\npose (ts := toks [\"WTF?\"; \"OMG 1\"; \"GTFO\"; \"OIC\"; \"VISIBLE 1\"]).\nassert (B : exists ns, parse ts = ParseOk (ASTBlock ns) /\\ forallb node_clean ns = true) by (eexists; split; vm_compute; reflexivity).\napply H in B. vm_compute in B. discriminate B."
 },
 {
  "mutant": "wtf_no_consume",
  "theorem": "C92_earliest",
  "requires": "Token Lexer Parser Api Lines Clean Checker Reader Automaton PropLexer PropParser PropAutomaton",
  "proof": "\npose (ts := toks [\"WTF?\"; \"OMG 1\"; \"GTFO\"; \"OIC\"; \"VISIBLE 1\"]).\nassert (B : exists us ns, parse (ts ++ us) = ParseOk (ASTBlock ns) /\\ forallb node_clean ns = true) by (exists []; eexists; split; vm_compute; reflexivity).\napply H in B. vm_compute in B. discriminate B."
 },
 {
  "mutant": "orly_eos",
  "theorem": "C92_accepts",
  "requires": "Token Lexer Parser Api Lines Clean Checker Reader Automaton PropLexer PropParser PropAutomaton",
  "proof": "\npose (ts := toks [\"O RLY?\"; \"OIC\"; \"VISIBLE 1\"]).\nassert (B : match parse ts with ParseOk (ASTBlock ns) => forallb node_clean ns | _ => false end = false) by (vm_compute; reflexivity).\ndestruct (proj1 (H ts) ltac:(vm_compute; reflexivity)) as (ns & E & C). rewrite E in B. congruence."
 },
 {
  "mutant": "loop_without_wile",
  "theorem": "C92_accepts",
  "requires": "Token Lexer Parser Api Lines Clean Checker Reader Automaton PropLexer PropParser PropAutomaton",
  "edits": [
   {
    "file": "Parser",
    "old": "next_if (fun t => is_kw TIL t || is_kw WILE t)",
    "new": "next_if (is_kw TIL)"
   }
  ],
  "proof": "\npose (ts := toks [\"IM IN YR a WILE b\"; \"GTFO\"; \"IM OUTTA YR a\"]).\nassert (B : match parse ts with ParseOk (ASTBlock ns) => forallb node_clean ns | _ => false end = false) by (vm_compute; reflexivity).\ndestruct (proj1 (H ts) ltac:(vm_compute; reflexivity)) as (ns & E & C). rewrite E in B. congruence."
 },
 {
  "mutant": "ellipsis_joins_nothing",
  "theorem": "C92_accepts",
  "requires": "Token Lexer Parser Api Lines Clean Checker Reader Automaton PropLexer PropParser PropAutomaton",
  "edits": [
   {
    "file": "StmtIter",
    "old": "advance ts' (line_of_next ts' cur)",
    "new": "advance ts' cur"
   },
   {
    "file": "StmtIter",
    "old": "collect_tokens ts' (line_of_next ts' cur)",
    "new": "collect_tokens ts' cur"
   }
  ],
  "proof": "\npose (ts := toks [\"I HAS A ...\"; \"b\"]).\nassert (B : match parse ts with ParseOk (ASTBlock ns) => forallb node_clean ns | _ => false end = false) by (vm_compute; reflexivity).\ndestruct (proj1 (H ts) ltac:(vm_compute; reflexivity)) as (ns & E & C). rewrite E in B. congruence."
 },
 {
  "mutant": "hai_takes_one_token",
  "theorem": "C92_accepts",
  "requires": "Token Lexer Parser Api Lines Clean Checker Reader Automaton PropLexer PropParser PropAutomaton",
  "proof": "\npose (ts := toks [\"HAI a b\"]).\nassert (B : match parse ts with ParseOk (ASTBlock ns) => forallb node_clean ns | _ => false end = false) by (vm_compute; reflexivity).\ndestruct (proj1 (H ts) ltac:(vm_compute; reflexivity)) as (ns & E & C). rewrite E in B. congruence."
 },
 {
  "mutant": "automaton_nary_an_operand",
  "theorem": "C92_accepts",
  "requires": "Token Lexer Parser Api Lines Clean Checker Reader Automaton PropLexer PropParser PropAutomaton",
  "edits": [
   {
    "file": "Automaton",
    "old": "TKeyword AN => Some (RMore k' x) | _ => more_f",
    "new": "TKeyword AN => Some (RExpr (PNary :: k') x) | _ => more_f"
   }
  ],
  "proof": "\npose (ts := toks [\"ALL OF a AN\"]).\nassert (B : exists ns, parse ts = ParseOk (ASTBlock ns) /\\ forallb node_clean ns = true) by (eexists; split; vm_compute; reflexivity).\napply H in B. vm_compute in B. discriminate B."
 },
 {
  "mutant": "automaton_copies_stack",
  "theorem": "C92_reader",
  "requires": "Token Lexer Parser Api Lines Clean Checker Reader Automaton PropLexer PropParser PropAutomaton",
  "edits": [
   {
    "file": "Automaton",
    "old": "Some (RExpr (PBinary :: k) x)",
    "new": "Some (RExpr (PBinary :: k ++ k) x)"
   }
  ],
  "proof": "\npose (t := mkToken (TKeyword SUM_OF) (tok_range dummy)).\nassert (K := proj1 (H (RExpr [PBinary] AtEnd) t (RExpr [PBinary; PBinary; PBinary] AtEnd)) eq_refl). inversion K; subst;\nrepeat match goal with H : expects _ _ _ |- _ => inversion H; clear H; subst | H : done _ _ _ |- _ => inversion H; clear H; subst | H : opens _ _ _ _ |- _ => inversion H; clear H; subst | H : _ \\/ _ |- _ => destruct H end; discriminate."
 },
 {
  "mutant": "automaton_not_pushes",
  "theorem": "C92_memory",
  "requires": "Token Lexer Parser Api Lines Clean Checker Reader Automaton PropLexer PropParser PropAutomaton",
  "edits": [
   {
    "file": "Automaton",
    "old": "  | TKeyword NOT => Some (RExpr k x)",
    "new": "  | TKeyword NOT => Some (RExpr (PNary :: PNary :: PNary :: PNary :: PNary :: PNary :: k) x)"
   }
  ],
  "proof": "\npose (t := mkToken (TKeyword NOT) (tok_range dummy)).\nassert (K := H t [t] _ _ eq_refl eq_refl). vm_compute in K. repeat (apply le_S_n in K). inversion K."
 },
 {
  "mutant": "block_no_too_many",
  "theorem": "C93_errors",
  "requires": "Token Lexer Parser Lines Grammar Clean Failure NodeTokens Earliest PropLexer PropParser PropEarliest",
  "proof": "\npose (ts := toks [\"GTFO GTFO\"]).\nassert (P : Forall plain_line (logical_lines ts)).\n{ vm_compute. repeat constructor; try discriminate; intros (t & r & E & [K|[K|[K|[K|K]]]]); injection E as <- <-; discriminate K. }\nassert (B : exists ns, parse ts = ParseOk (ASTBlock ns)) by (eexists; vm_compute; reflexivity).\ndestruct B as (ns & B). destruct (H ts ns P B) as (nss & E & L). clear H.\nvm_compute in B. injection B as B. subst ns.\nchange (logical_lines ts) with [[tok 0 ts; tok 1 ts]] in L.\ninversion L as [|l m ls ms L1 L2]; subst. inversion L2; subst. cbn [concat app] in E. clear L L2.\n\nrewrite app_nil_r in E. subst m. inversion L1 as [l n D| | |]; subst. inversion D."
 },
 {
  "mutant": "err_too_many_one",
  "theorem": "C93_errors",
  "requires": "Token Lexer Parser Lines Grammar Clean Failure NodeTokens Earliest PropLexer PropParser PropEarliest",
  "proof": "\npose (ts := toks [\"GTFO GTFO GTFO\"]).\nassert (P : Forall plain_line (logical_lines ts)).\n{ vm_compute. repeat constructor; try discriminate; intros (t & r & E & [K|[K|[K|[K|K]]]]); injection E as <- <-; discriminate K. }\nassert (B : exists ns, parse ts = ParseOk (ASTBlock ns)) by (eexists; vm_compute; reflexivity).\ndestruct B as (ns & B). destruct (H ts ns P B) as (nss & E & L). clear H.\nvm_compute in B. injection B as B. subst ns.\nchange (logical_lines ts) with [[tok 0 ts; tok 1 ts; tok 2 ts]] in L.\ninversion L as [|l m ls ms L1 L2]; subst. inversion L2; subst. cbn [concat app] in E. clear L L2.\n\nrewrite app_nil_r in E. subst m. inversion L1 as [|l n t r D W E1|l t r e W T E1 E2|]; subst.\ndestruct l as [|a [|b [|c [|d l]]]]; discriminate E1."
 },
 {
  "mutant": "err_iiz_mkay_token",
  "theorem": "C93_errors",
  "requires": "Token Lexer Parser Lines Grammar Clean Failure NodeTokens Earliest PropLexer PropParser PropEarliest",
  "proof": "\npose (ts := toks [\"I IZ f ITZ 1\"]).\nassert (P : Forall plain_line (logical_lines ts)).\n{ vm_compute. repeat constructor; try discriminate; intros (t & r & E & [K|[K|[K|[K|K]]]]); injection E as <- <-; discriminate K. }\nassert (B : exists ns, parse ts = ParseOk (ASTBlock ns)) by (eexists; vm_compute; reflexivity).\ndestruct B as (ns & B). destruct (H ts ns P B) as (nss & E & L). clear H.\nvm_compute in B. injection B as B. subst ns.\nchange (logical_lines ts) with [[tok 0 ts; tok 1 ts; tok 2 ts; tok 3 ts]] in L.\ninversion L as [|l m ls ms L1 L2]; subst. inversion L2; subst. cbn [concat app] in E. clear L L2.\n\nrewrite app_nil_r in E. subst m. inversion L1 as [|l n t r D W E1|l t r e W T E1 E2|]; subst; [inversion D|].\ncbn in T. injection T as T. \ndestruct l as [|a [|b [|c [|d [|f l]]]]]; try discriminate E1; injection E1; intros; subst; try discriminate."
 },
 {
  "mutant": "gtfo_panics",
  "theorem": "C93_panics",
  "requires": "Token Lexer Parser Lines Grammar Clean Failure NodeTokens Earliest PropLexer PropParser PropEarliest",
  "edits": [
   {
    "file": "Parser",
    "old": "| TKeyword GTFO => ret (NGtfo {| gtfo_token := first_token |})",
    "new": "| TKeyword GTFO => panic (PanicMaek first_token)"
   }
  ],
  "proof": "\npose (ts := toks [\"GTFO\"]).\nassert (P : Forall plain_line (logical_lines ts)).\n{ vm_compute. repeat constructor; try discriminate; intros (t & r & E & [K|[K|[K|[K|K]]]]); injection E as <- <-; discriminate K. }\n\ndestruct (H ts (PanicMaek (tok 0 ts)) P ltac:(vm_compute; reflexivity)) as (ls1 & nss & l1 & t & r & ls2 & E & _ & _ & W).\nchange (logical_lines ts) with [[tok 0 ts]] in E.\ndestruct ls1 as [|? [|? ?]]; try discriminate E. injection E as E _. destruct l1 as [|? [|? ?]]; try discriminate E. injection E as <- _.\napply W. exists [], (NGtfo (mkGtfo (tok 0 ts))). constructor. reflexivity."
 },
 {
  "mutant": "iiz_no_mkay",
  "theorem": "C94_automaton",
  "requires": "Token Lexer Parser Api Lines Clean Checker Reader Automaton PropLexer PropParser PropAutomaton Memory PropMemory",
  "proof": "\npose (ts := toks [\"I IZ f\"]).\nassert (B : exists ns, parse ts = ParseOk (ASTBlock ns) /\\ forallb node_clean ns = true) by (eexists; split; vm_compute; reflexivity).\napply H in B. vm_compute in B. discriminate B."
 },
 {
  "mutant": "loop_without_wile",
  "theorem": "C94_automaton",
  "requires": "Token Lexer Parser Api Lines Clean Checker Reader Automaton PropLexer PropParser PropAutomaton Memory PropMemory",
  "edits": [
   {
    "file": "Parser",
    "old": "next_if (fun t => is_kw TIL t || is_kw WILE t)",
    "new": "next_if (is_kw TIL)"
   }
  ],
  "proof": "\npose (ts := toks [\"IM IN YR a WILE b\"; \"GTFO\"; \"IM OUTTA YR a\"]).\nassert (B : match parse ts with ParseOk (ASTBlock ns) => forallb node_clean ns | _ => false end = false) by (vm_compute; reflexivity).\ndestruct (proj1 (H ts) ltac:(vm_compute; reflexivity)) as (ns & E & C). rewrite E in B. congruence."
 },
 {
  "mutant": "memory_stopped_accepts",
  "theorem": "C94_automaton",
  "requires": "Token Lexer Parser Api Lines Clean Checker Reader Automaton PropLexer PropParser PropAutomaton Memory PropMemory",
  "edits": [
   {
    "file": "Memory",
    "old": "                | Some None => false",
    "new": "                | Some None => true"
   }
  ],
  "proof": "\npose (ts := toks [\"GTFO GTFO\"]).\nassert (B : match parse ts with ParseOk (ASTBlock ns) => forallb node_clean ns | _ => false end = false) by (vm_compute; reflexivity).\ndestruct (proj1 (H ts) ltac:(vm_compute; reflexivity)) as (ns & E & C). rewrite E in B. congruence."
 },
 {
  "mutant": "tab_column_jumps",
  "theorem": "C10_token_positions_fit",
  "requires": "LexSpec LexPropSpec Lexer PropLexer",
  "edits": [
   {
    "file": "Lexer",
    "old": "          {| line := line p; column := column p + 1;\n             bytes := bytes p + Z.of_nat (utf8_len c); chars := chars p + 1 |} in",
    "new": "          {| line := line p; column := if N.eqb c c_tab then column p + 2147483648 else column p + 1;\n             bytes := bytes p + Z.of_nat (utf8_len c); chars := chars p + 1 |} in"
   }
  ],
  "proof": "\npose (c := [9%N] ++ lit \"x\").\nassert (B : boundary (T c) (r_start (tok_range (first c)))) by (exists (first c); split; [vm_compute; auto|left; reflexivity]).\ndestruct (H c (T c) (r_start (tok_range (first c))) ltac:(vm_compute; reflexivity) ltac:(vm_compute; reflexivity) B) as (_ & K & _).\nunfold i32 in K. apply proj2 in K. vm_compute in K. discriminate K."
 },
 {
  "mutant": "grammar_noob_twice",
  "theorem": "C31_one_node_per_line",
  "requires": "Token Lexer Parser Lines Grammar PropLexer PropParser",
  "edits": [
   {
    "file": "Grammar",
    "old": "kw ITZ itz -> d_expr o ts e ->\n    (forall t, ts = [t] -> ~ kw NOOB t) ->\n",
    "new": "kw ITZ itz -> d_expr o ts e ->\n"
   }
  ],
  "proof": "\npose (w := fun k => mkToken (TKeyword k) (mkRange position_start position_start)).\npose (x := mkToken (TIdentifier (lit \"x\")) (mkRange position_start position_start)).\nassert (K := H ([w I_HAS_A; x] ++ [w ITZ; w NOOB]) _ _\n  (d_i_has_a (w I_HAS_A) [x] _ [w ITZ; w NOOB] _ eq_refl (d_name x ltac:(vm_compute; eauto)) (d_initial_type (w ITZ) (w NOOB) _ eq_refl (d_noob_type (w NOOB) eq_refl)))\n  (d_i_has_a (w I_HAS_A) [x] _ [w ITZ; w NOOB] _ eq_refl (d_name x ltac:(vm_compute; eauto)) (d_initial_expr (w ITZ) false [w NOOB] _ eq_refl (d_noob (w NOOB) eq_refl)))).\ndiscriminate K."
 },
 {
  "mutant": "grammar_open_operands",
  "theorem": "C31_one_tree_per_sequence",
  "requires": "Token Lexer Parser Lines Grammar PropLexer PropParser",
  "edits": [
   {
    "file": "Grammar",
    "old": "    d_expr true (t :: ts) (NaryOperation (op t) es None)\n",
    "new": "    d_expr false (t :: ts) (NaryOperation (op t) es None)\n"
   }
  ],
  "proof": "\npose (w := fun k => mkToken (TKeyword k) (mkRange position_start position_start)).\nassert (N : nary_operator ALL_OF AllOf) by constructor.\nassert (D1 : d_expr false [w ALL_OF; w ALL_OF; w MKAY] (NaryOperation (AllOf (w ALL_OF)) [Operand (NaryOperation (AllOf (w ALL_OF)) [] None) None] (Some (w MKAY)))).\n{ apply (d_nary_closed ALL_OF AllOf (w ALL_OF) [w ALL_OF] _ (w MKAY) N eq_refl); [|reflexivity].\n  apply (d_operand [w ALL_OF] _ [] None [] []); [|constructor|constructor]. apply (d_nary_open ALL_OF AllOf (w ALL_OF) [] [] N eq_refl). constructor. }\nassert (D2 : d_expr false [w ALL_OF; w ALL_OF; w MKAY] (NaryOperation (AllOf (w ALL_OF)) [Operand (NaryOperation (AllOf (w ALL_OF)) [] (Some (w MKAY))) None] None)).\n{ apply (d_nary_open ALL_OF AllOf (w ALL_OF) [w ALL_OF; w MKAY] _ N eq_refl).\n  apply (d_operand [w ALL_OF; w MKAY] _ [] None [] []); [|constructor|constructor]. apply (d_nary_closed ALL_OF AllOf (w ALL_OF) [] [] (w MKAY) N eq_refl); [constructor|reflexivity]. }\nassert (K := H _ _ _ _ _ D1 D2). discriminate K."
 }
]
