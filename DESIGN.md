# Formal model of lolcode-ast in Rocq (Coq 8.16.1)

Everything is in `rocq/theories/` (logical name `Verif`).

## 1. What is modelled

| Rust source | model file | remark |
|---|---|---|
| `&str`, byte slicing, `starts_with`, `find`, `len`, `chars().count()` | `Str.v` | a string is a list of Unicode code points; byte slicing computes with UTF-8 lengths and *panics* (explicit value) off a char boundary or out of range; C83 relates this to UTF-8 bytes; `ByteLexer.v` is the lexer on bytes, and C85 shows that it computes the same |
| `src/lexer/keywords.rs`, `lolcode-ast-derive` | `Keywords.v` | the enum, the derived spelling and the derived iteration order |
| `src/lexer/{token,position,range}.rs` | `Token.v` | i32 counters are unbounded `Z`; C10 proves they stay in i32 range for sources shorter than 2^31-1 bytes; `Machine.v` models the i32 arithmetic itself and C80 relates the two |
| `src/lexer/mod.rs` | `Lexer.v` | every function; `f32` literals are rounded with the standard library's `SpecFloat` (24, 128) |
| `src/parser/statement_iterator.rs` | `StmtIter.v` | the state machine with `peeked`, `current_line`, `tokens_iter` |
| AST structs and enums | `Ast.v` | |
| `src/parser/**` parse functions | `Parser.v` | error/panic/state monad; panics (`todo!()`, `unreachable!()`) are explicit values |
| token iterators (`tokens()`), `range()` | `TokIter.v` | the nested state machines |
| `src/parser/blocks.rs` `iter_errors`, `get_inner_block` | `Blocks.v` | the error iterator; `parse_block*` are in `Parser.v` |
| `src/lib.rs` | `Api.v` | |
| `PartialEq` of `Range`, derived `PartialEq` of tokens, errors and AST types | `Eq.v` | `==` of `f32` is `SFeqb` of the standard library (NaN differs from itself, `-0.0 == 0.0`) |
| `Display`/`Debug` of `Position`, `Debug` of `Range` | `Display.v` | |
| `Debug for Token`, derived `Debug` of tokens, errors and AST types | `Debug.v` | the formatter of the Rust library for `{:?}` is modelled; which characters strings show unescaped and the text of an `f32` are parameters; `FloatText.v` models the text of an `f32` (C86) |
| the same with `{:#?}` | `Pretty.v` | the indenting formatter of the Rust library is modelled |
| `From`, `Into`, `TryFrom`, `IntoIterator` implementations, `into_token`, `similar` | `Conversions.v` | |

Not modelled: derived `Clone`
(it is the identity), memory and stack limits (deep recursion can overflow the
Rust stack: C61 shows that no depth suffices for all sources), the helper functions inside
`#[cfg(test)]` modules.

Loops and recursion are modelled with fuel; running out of fuel is a separate
result value which is proved unreachable (C01, C23, C45), so no theorem is true
because fuel ran out.

## 2. Proof architecture

* **Lexer.** A step function `lex_step` (the body of the `while` loop) is
  specified by an independent relation `TokText` (spec file `LexSpec.v`):
  which text a token type stands for and what may follow. The decomposition
  theorem says that a successful run splits the source in whitespace and token
  texts with the right positions. C04-C18 are read off it.
* **Statement iterator.** `Lines.v` defines, without reference to the
  iterator, how a token vector is split in logical lines. The parser is written
  once, generically over the operations `next`/`peek`/`next_statement`; it is
  instantiated with the real iterator (that is the model) and with a trivial
  machine over lists of lines. A simulation theorem (C21/C22) shows both give
  the same AST, so the parser proofs work on lists of lines.
* **Parser.** `Grammar.v` is a BNF-like inductive grammar over token lists.
  Soundness and completeness of the parser against it (C26, C29-C34), token
  preservation (C25), panic characterisation (C24), error structure (C40-C43)
  are proved on the line machine and transferred to `parse`.
* **Refutations.** Where the code violates a property a user would expect, the
  theorem is named `..._refuted` and, where possible, states the universal form
  of the failure, not only a witness.

## 3. Per property plan

| id | model | proof |
|---|---|---|
| C01 | `Lexer.tokenize` | fuel `length code + 1` suffices: each step consumes a character |
| C02 | `Lexer.tokenize` | slices at char index = byte index on ASCII prefixes |
| C03 | same | witness by computation; panic-free fragment: non-ASCII only in comments |
| C04-C06 | same | decomposition theorem, induction over the run |
| C07, C08 | same | line/column as functions of the pieces; witness for the refutation |
| C09 | same | strict lexicographic monotonicity along the run |
| C10 | same | bounds by total byte length |
| C11 | same | induction over the run |
| C12-C18 | same | per-rule consequences of `TokText`; finite keyword sweeps lifted with `forallb_forall` |
| C19, C20 | same | step lemma with an arbitrary suffix, induction over the printed list |
| C21, C22 | `StmtIter` vs `Lines` | simulation relation |
| C23 | `Parser.parse` | measure: tokens left |
| C24 | same | panic values carry their cause; induction on fuel |
| C25 | same | `subseq` relation, induction on fuel |
| C26-C28 | `TokIter`, `Ast` | structural induction on AST values |
| C29-C31 | `Grammar` | soundness by induction on fuel, completeness by induction on the derivation |
| C32-C34 | `Grammar` | same, mutual over statements and blocks |
| C35-C38 | `Parser` | universal failure theorems by symbolic execution over arbitrary lines |
| C39 | corollary of C33 | grammatical lines contain no comment token |
| C40 | `Parser` | induction over the lines |
| C41 | `Lines` | lines are non-empty without Ellipsis; witness for the refutation |
| C42, C43 | `Parser` | induction on fuel |
| C44 | `Parser` | witness; soundness for the label tokens |
| C45 | `Api` | by definition plus termination |
| C46 | `Blocks` error iterator | case analysis |
| C47 | `Keywords` | finite sweep |
| C48 | all | C19 (printing) + relabelling homomorphism + program grammar iff |
| C49 | all | homomorphism logic `hom` for every parse function |
| C50 | `Parser` | soundness and completeness against `Failure` on the line machine |
| C51 | `Parser` | soundness against `Recovery` by induction on fuel, completeness by mutual induction on its derivations |
| C52 | `Eq` | induction over AST values: `==` is equality after a normalisation `canon` of tokens; injectivity of `canon` on the tokens of a source; the parser commutes with `canon` |
| C53 | `Display` | decimal spelling by induction; texts are split at their first comma |
| C54 | `Api` | the cut of the lexer's pieces by newlines, commas and ellipses is the cut of tokens by line numbers; C01 and C51 |
| C55 | `Api` | C20 (tokens of a concatenation), C33/C34 for the first text, C49 for the shift |
| C56 | `Parser` on a counting iterator | amortised: every token pays for 7 calls, induction on fuel; for panics two runs are compared, one of them with wrong answers after the limit |
| C57 | `TokIter` (ranges), `Lexer`, `Parser` | induction on parts; the tokens of a part are a subsequence of the source's |
| C58 | `Ast`, `Parser` | shapes as a predicate on ASTs; equivalence with the grammar |
| C59 | `Lexer`, `Parser`, `Api` | derivation of the lines of an AST; relabelling from the new tokens to the old ones |
| C60 | `Lexer` with a counter (`LexCost`) | cost of each sub-parser against the text it consumes; induction on fuel; digit runs by induction |
| C61 | `Parser`, `Api` | every level stores a token of its own; deep sources by the grammar and C48 |
| C62 | `Parser` | soundness by mutual induction on the derivations of C51; a program for every error; a vector for every list of lines; the printer of C48 for sources |
| C63 | `Parser` | every derivation of the grammar has a canonical one with the same essential lines and AST; completeness and determinism of the parser |
| C64 | `Parser` | induction over the recovery relations of C51; every failure of a single line is about tokens of that line |
| C65 | `Parser` | induction over the recovery relations of C51 with one line replaced by a hole; the rules of statements with blocks are composed as sequences |
| C66 | `Lexer`, `Parser`, `Api` | C20 and C45 twice to cut the token vector around the line, relabelling to drop the offsets, then C65 |
| C67 | `Parser`, `Lexer`, `Api` | induction over the program grammar: a run that starts in a derivation ends in it; prefix uniqueness of statements from the completeness of the parser |
| C68 | `Parser` | from C64 (what every error says about its line), C65 (a line matters only through its nodes) and one run of the parser for each documented form |
| C69 | `Debug` | values are handed to the formatter as trees; printing trees is injective by induction with the possible next characters; the tree of an AST identifies it up to offsets by induction over the AST |
| C70 | `AppendSpec` | induction over the derivations of `Recovery`: reading either does not depend on the later lines or reaches the first of them (`Prefix.local_mut`); then induction on the number of lines |
| C71 | `DebugSpec` | an indented text ends at the first line that is not indented (`pad_split`), then as C69 |
| C72 | `Grammar` | case analysis |
| C73 | `Grammar`, `Lines` | derivations of the program grammar; computation on lines with free names |
| C74 | `Depth`, `TokCost` | counted copy of `TokIter`, equal up to the counter; calls bounded by induction on fuel for iterators within a depth |
| C75 | `IterCost` | each call is paid by the tokens it removes; C56 for the number of calls; simulation by an iterator with a meter and by ones that refuse deep calls and calls after the budget |
| C76 | `Kept` | induction over the grammar derivations of C31-C37, filtering both sides |
| C77 | `LookAhead` | locality of `TokText`, then C04's decomposition |
| C78 | `Rename` | no keyword or number goes on over a small letter or quote; then C49 |
| C79 | `Vocabulary` | induction over the grammar derivations; C04 for the characters |
| C80 | `Machine` | refinement: induction on the loop of `tokenize`, one step at a time; lines of the first 2^32 stay apart |
| C81 | `Windows` | induction on the pieces of a source; occurrences of calm texts (without CR and LF) go back and forth |
| C82 | `LexSpec` | induction on the pieces before the comment: what follows an OBTW has no influence on the token texts before it |
| C83 | `Utf8` | induction on the characters; encodings are prefix free, and no encoding starts with a continuation byte |
| C84 | `ImageSpec` | induction on the cut of the source in pieces; a source built piece by piece; every finite binary32 number is a decimal |
| C85 | `ByteSpec`, `Utf8` | refinement: every recogniser on the encoding of a string returns the encoding of what it returns on the string; shifts and masks are sums; the parser commutes with encoding the texts (C49) |
| C86 | `FloatTextSpec` | invariant of the loop that produces digits: what is left is less than one unit, and no shorter prefix is in the interval; nearest is a function, so texts that are read back identify floats |
| C87 | `PrintAst`, `Unparse`, `SourceSpec` | the digits of C86 without exponent are a literal of the float; grammatical lines are parsed to their AST (C48), and the text depends on types only |
| C88 | `Normal`, `Lines`, `PrintAst` | a single-line comment is the last token of its line, since a newline follows it; the printer of C48 extended to such lines; the result depends on the lines of types only (C49) |
| C89 | `Checker`, `Grammar` | derivations of the grammar are runs of the checker (mutual induction); a run to the end is a derivation (induction on the run, with the lines that each open block still needs); `closing` gives those lines |
| C90 | `Reader`, `Checker`, `Grammar` | derivations are runs of the reader (mutual induction over expressions); every state has a language and every step prepends its token (case analysis); `finish_line` leads every state to a final one |
| C91 | `FirstError`, `Checker`, `NodeTokens`, `NodeLines` | an invariant of the checker's runs says which derivations have been read; the recovery relations of C51 are run over them by induction over the open statements, every part being total and its errors being about the tokens it reads |
| C92 | `Automaton`, `Reader`, `Checker` | the functions are shown to compute the relations of C89 and C90; a run over the tokens is one over the logical lines by induction over the chunks between line breaks; for beginnings the missing tokens are fed to it |
| C93 | `Earliest`, `Failure`, `Grammar` | by induction over the failures of C50, the reader of C90 gets to the token that the failure is about and cannot read it; for statements that end early, by the uniqueness of the results of lines; for headers, by cases on the outcomes of C51 |
| C94 | `Memory`, `Automaton` | two different chains are told apart by the tokens that finish one of them, on which the automaton of C92 is computed; then by counting; for sources, by the printer of C48 |

## 4. Trusted base

* Coq's kernel (8.16.1).
* The reading of the Rust code into the model files `Str`, `Keywords`, `Token`,
  `Lexer`, `StmtIter`, `Ast`, `Parser`, `TokIter`, `Blocks`, `Api`, `Eq`,
  `Display`, `Debug`, `Pretty`, `Conversions`, `Machine`, `ByteLexer`, `FloatText`; every
  definition in them cites its lines. The specification files listed below are
  part of what a reader has to read to know what a theorem says, but they are
  not assumptions about the code.
* Axioms. Every theorem of the `Prop*.v` files is followed by `Print
  Assumptions`. All of them print `Closed under the global context`, except
  the two theorems of C12 about the rounding of float literals
  (`C12_float_tokens`, `C12_float_rounding`) and the theorems of C84, C86, C87 (except `C87_integers` and `C87_sources_that_end_in_a_colon_refuted`) and C88 (except `C88_ascii` and `C88_digits_refuted`), which use the real numbers of the
  standard library and so print its axioms
  `ClassicalDedekindReals.sig_not_dec`, `ClassicalDedekindReals.sig_forall_dec`,
  `FunctionalExtensionality.functional_extensionality_dep` and
  `Classical_Prop.classic`. No axiom is declared in this development.

Things a reader has to believe about Rust: the standard library functions used
by the lexer (`str::find`, `starts_with`, `split_at`-like slicing, `chars`,
`parse::<i32>`, `parse::<f32>`) behave as `Str.v`/`Lexer.v` say; `i32`
additions panic or wrap on overflow as `Machine.v` says (C80: below 2^31 - 1
bytes none overflows); the process
does not run out of memory or stack.

## 5. Files

Model: see section 1.

| file | role |
|---|---|
| `StrFacts`, `LexBasics`, `LexProofs`, `LexProps`, `LexProps2`, `LexProps3`, `FloatRounding` | proofs about the lexer |
| `LexSpec`, `LexPropSpec` | specification: texts of tokens, decomposition of a source, positions |
| `PropLexer` | theorems C01-C20, C47 |
| `Lines` | specification: cut of a token vector in logical lines, machine over lines |
| `LinesSim`, `ParseFuel`, `IterFacts`, `ReadAll` | iterator/line-machine simulation, termination, reading to the end |
| `AstTokens` | specification: the tokens of an AST value in source order |
| `TokIterFacts`, `NodeTokens` | token iterators, tokens of parse results |
| `Grammar`, `Clean` | specification: expression, line and program grammar; ASTs without error nodes |
| `ExprGrammar`, `LineGrammar`, `ProgGrammar`, `ProgComplete`, `LineLocal`, `Free`, `ParserProps`, `ParserProps2`, `NodeKind`, `LineTrace`, `ProgTrace` | proofs about the parser |
| `PropParser`, `PropParser2`, `PropSeparators` | theorems C21-C46 |
| `Relabel`, `SourceSpec` | specification: replacing the tokens of an AST, printing programs |
| `RelabelProofs`, `SourceProofs` | proofs about them |
| `PropSource` | theorems C48, C49 |
| `Failure` | specification: what is read from a line, what is reported when it is not well-formed |
| `FailureSound`, `Reads`, `FailureComplete` | the parser agrees with it on single lines |
| `Recovery` | specification: the result of every program, error recovery included |
| `RecoverySound`, `RecoveryComplete`, `RecoveryProps` | the parser agrees with it |
| `PropFailure` | theorems C50, C51 |
| `EqSpec` | specification: when two values are equal, spelling of numbers |
| `EqFacts`, `EqInj`, `RelabelTokens`, `EqProps`, `DisplayProofs` | proofs about them |
| `PropEq` | theorems C52, C53 |
| `SourceLines` | specification: the statements of a source, the result of every source |
| `SourceLinesProofs`, `SourceJoin` | `tokenize_and_parse` agrees with it; one source after another |
| `PropApi` | theorems C54, C55 |
| `Cost` | specification: iterator operations with a counter |
| `CostProofs`, `CostLimit`, `CostPanic`, `PropCost` | proofs, theorems C56 |
| `Ranges` | specification: parts of an AST with ranges, nesting and order |
| `RangesProofs`, `PropRanges` | proofs, theorems C57 |
| `Shape` | specification: the shape of ASTs |
| `Unparse`, `Format` | specification: the lines of an AST, and their text |
| `ShapeProofs`, `UnparseProofs`, `FormatProofs`, `PropShape` | proofs, theorems C58, C59 |
| `LexCost` | specification: the lexer with a counter of the characters read |
| `LexCostProofs`, `PropLexCost` | proofs, theorems C60 |
| `Depth` | specification: depth of ASTs, deep sources |
| `DepthProofs`, `PropDepth` | proofs, theorems C61 |
| `ErrorShape` | specification: what errors carry |
| `ErrorShapeProofs`, `LinesImage`, `ErrorImage`, `SourceImage`, `PropErrors` | proofs, theorems C62 |
| `SameAst` | specification: lines up to what the AST does not tell |
| `SameAstProofs`, `PropSameAst` | proofs, theorems C63 |
| `NodeLines` | specification: the nodes that one logical line gives |
| `NodeLinesProofs`, `PropNodeLines` | proofs, theorems C64 |
| `LineEffect` | specification: plain lines, what they give, contexts |
| `LineEffectProofs`, `PropLineEffect` | proofs, theorems C65 |
| `SourceEdit` | specification: whole lines, one line, results without offsets |
| `SourceEditProofs`, `PropSourceEdit` | proofs, theorems C66 |
| `StmtSubst` | replacing statements in derivations, C67 |
| `SourceSubst`, `PropSubst` | the same for sources; theorems C67 |
| `ErrorDocs`, `PropErrorDocs` | errors against their documentation, C68 |
| `Debug`, `DebugSpec`, `DebugProofs`, `DebugAst`, `DebugEq`, `DebugLines`, `DebugExample`, `PropDebug` | texts written by `Debug`, C69 |
| `Prefix`, `AppendSpec`, `AppendProofs`, `PropAppend` | programs followed by others, C70 |
| `Pretty`, `PrettyProofs`, `PrettyLayout`, `PrettyLayoutProofs`, `PropPretty` | `{:#?}`, C71 |
| `Conversions`, `ConversionsProofs`, `PropConversions` | conversions, C72 |
| `DocSpec`, `DocProofs`, `PropDocs` | statements of the documentation, C73 |
| `TokCost`, `TokCostProofs`, `PropTokCost` | calls and recursion of `tokens()`, C74 |
| `IterCost`, `IterCostProofs`, `PropIterCost` | work and recursion inside the statement iterator, C75 |
| `Kept`, `KeptProofs`, `PropKept` | the tokens kept by ASTs without errors, C76 |
| `LookAhead`, `LookAheadProofs`, `PropLookAhead` | what decides a token, edits of sources, C77 |
| `Rename`, `RenameProofs`, `PropRename` | renaming in sources, C78 |
| `Vocabulary`, `VocabularyProofs`, `PropVocabulary` | tokens and characters of programs without errors, C79 |
| `Machine` | `src/lexer` with `i32` arithmetic, debug and release builds |
| `MachineSpec`, `MachineProofs`, `PropMachine` | 32-bit positions against unbounded ones, C80 |
| `Windows`, `WindowsProofs`, `PropWindows` | Windows line endings, C81 |
| `UnclosedProofs`, `PropUnclosed` | sources that end inside a comment, C82 |
| `Utf8`, `Utf8Proofs`, `PropUtf8` | strings as UTF-8 bytes, C83 |
| `FloatImage`, `ImageSpec`, `ImageProofs`, `ImageParse`, `PropImage` | the image of tokenize, C84 |
| `ByteLexer` | `tokenize` on bytes, with 32-bit positions (model) |
| `ByteSpec`, `ByteProofs`, `PropByteLexer` | the lexer on bytes, C85 |
| `FloatText` | `Debug for f32` of the standard library (model) |
| `FloatTextSpec`, `FloatTextProofs`, `FloatTextRead`, `PropFloatText` | the texts of floats, C86 |
| `PrintAst`, `PrintAstProofs`, `PropPrintAst` | printing ASTs, C87 |
| `Normal`, `NormalProofs`, `PropNormal` | normal forms, C88 |
| `Checker`, `CheckerProofs`, `PropChecker` | the line-by-line checker, C89 |
| `Reader`, `ReaderProofs`, `PropReader` | the token-by-token reader, C90 |
| `FirstError`, `FirstErrorProofs`, `FirstErrorRuns`, `FirstErrorMain`, `PropFirstError` | where errors begin, C91 |
| `Automaton`, `AutomatonProofs`, `PropAutomaton` | a program that decides whether there are errors, token by token, C92 |
| `Earliest`, `EarliestProofs`, `HeaderProofs`, `PropEarliest` | errors are about the first wrong token, C93 |
| `Memory`, `MemoryProofs`, `PropMemory` | lower bound on the memory of machines that find errors, C94 |

`RepoTests.v` holds the 47 unit tests of the crate, translated by
`tools/repotests.py` from the Rust sources to computations on the model: a
check of the model against the expectations of the authors of the code, not a
proof. All of them hold.

`properties.jsonl` and `MANIFEST.json` are generated by `tools/props.py` and
`tools/manifest.py` (with `tools/notes.json`). `seeded/LOG.jsonl` records the
mutation tests: the edit of the model, the claim it breaks and the theorems
whose proofs fail. A proof can fail because its script follows the old text, so
three further checks are made.

- `tools/sweep.py` makes all mutants of a list of small edits (one operator,
  constant or name in one place) of the model files and rebuilds each until the
  first proof that breaks. `seeded/SWEEP.jsonl` has one line for each: rejected by the type checker (`ill-typed`), `killed` (with the
  file and line of the first proof that broke), or `survived`, with an
  explanation; three places of the model that no theorem was about were found so
  (C83 and `C46_search` are about them now).
- `tools/falsify.py` proves, on the mutated model, the negation of the statement
  of a theorem (field `statements_false` of the log). The scripts are in
  `tools/falsify.json`; the proofs of the development are dropped for it, and
  Print Assumptions must find the negation closed (for statements about reals: without
  axioms but those of the standard library). Every property has at least
  one such entry.
- `tools/difftest.py` runs the mutated model and the model on a set of programs
  and reports those on which they differ. C01, C45, C50, C51 and C54 fix the
  result of every input, so that a difference in a result makes them false.

## 6. Where the code does not do what one expects

Each of these is a theorem about the faithful model, with a witness or for all
inputs. The expected statement is in the comment or the statement of the theorem.

| behaviour | theorem |
|---|---|
| `tokenize` panics on characters outside ASCII, and on some strings with such characters | `C03_never_panics_refuted`, `C05_string_text_refuted` |
| newlines inside tokens are not counted as lines | `C07_lines_refuted` |
| digits at the very end of a source are symbols, not a number | `C13_integer_at_end_refuted` |
| `ANY OF` is never recognised; words that start with a keyword are cut in two | `C14_all_keywords_refuted`, `C15_words_are_identifiers_refuted` |
| a variable followed by anything but `R` or `HAS A`, and `MAEK`, panic in `parse` | `C24_parse_never_panics_refuted`, `C24_maek_never_panics_refuted` |
| `HAI`, `HOW IZ I` and `WTF?` swallow the line after them | `C35_…_refuted`, `C36_…_refuted`, `C37_…_refuted` |
| empty loops and functions are errors | `C38_empty_loop_refuted`, `C38_empty_function_refuted` |
| a comment makes an error on every line but that of `HAI` | `C39_comments_spoil_lines_refuted` |
| an empty logical line ends the program, the rest is dropped silently | `C41_parse_reads_everything_refuted` |
| the labels of a loop are not compared | `C44_loop_labels_match_refuted` |
| `iter_errors().next()` always panics | `C46_errors_enumerated_refuted` |
| recursion as deep as the program, the expression or the number of ellipses | `C61_bounded_depth_refuted`, `C74_bounded_stack_refuted`, `C75_bounded_stack_refuted` |
| reading and `tokens()` take quadratic time | `C60_linear_refuted`, `C74_linear_refuted` |
| some errors can never be reported | `C62_every_variant_occurs_refuted` |
| examples in the documentation of the crate are rejected or mean something else | `C68_documented_examples_refuted`, `C73_…_refuted` |
| small and large floats are shown with an exponent, which the lexer does not read as a number | `C86_forms`, `C86_no_number` |
| Windows line endings are errors, `ITZ A type` and casts are not accepted | `C79_line_endings_do_not_matter_refuted`, `C79_vocabulary` |
