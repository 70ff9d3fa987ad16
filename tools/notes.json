{
 "C01": "C01_tokenize_result is the complete functional specification of tokenize against LexSpec.v.",
 "C03": "Exact characterisation of the panics; the panic-freedom a user expects is refuted.",
 "C05": "The closing quote of strings needs an ASCII source; refuted otherwise.",
 "C07": "The plain newline count is refuted; exact with line breaks outside tokens.",
 "C08": "In bytes; in characters refuted.",
 "C09": "For positions of one source; refuted for arbitrary Position values.",
 "C12": "Float theorems use the axioms of the standard library's real numbers.",
 "C13": "C13_integer_at_end_refuted is the universal form of the failure at the end of the source.",
 "C14": "All keywords: refuted (ANY OF).",
 "C19": "Space-separated printing is refuted.",
 "C20": "Space as the separator is refuted.",
 "C21": "Lines.v defines logical lines without the iterator.",
 "C23": "The model's fuel bound length+4 always suffices; more fuel gives the same result.",
 "C24": "Panic-freedom is refuted.",
 "C33": "With C34 an if-and-only-if against Grammar.v, at any nesting depth.",
 "C34": "The empty line after HAI, HOW IZ I and WTF? is forced by the code (C35 to C37).",
 "C35": "Refuted in universal form.",
 "C36": "Refuted in universal form.",
 "C37": "Refuted in universal form.",
 "C38": "Refuted in universal form for loops and functions; for branches through C38_closing_keyword_is_an_error.",
 "C39": "Refuted in universal form.",
 "C41": "Refuted in general, proved when no later logical line is empty.",
 "C44": "Refuted by a witness; the true part is proved.",
 "C46": "Refuted: the code ends in todo!().",
 "C48": "ANY OF, NOOB as keyword and QuestionMark tokens have no spelling the lexer accepts and are not writable.",
 "C50": "If and only if, against Failure.v.",
 "C51": "If and only if, against Recovery.v; the specification is total and deterministic.",
 "C52": "Reflexivity and identity across sources are refuted.",
 "C53": "Debug of tokens and ASTs is C69.",
 "C54": "If and only if, against LexSpec.v, SourceLines.v and Recovery.v.",
 "C55": "The swallowing statements are C35 to C37; malformed single lines before other lines are C40.",
 "C56": "For runs that end in a panic there is no final counter: the theorem says that the answers of the iterator after 7n+3 calls do not matter.",
 "C57": "Only the node types with a range method; C28 says which tokens the range spans.",
 "C58": "What error nodes hold is C50 and C51.",
 "C59": "The formatter is part of the specification (Unparse.v, Format.v), not of the code: the property says that an AST and its number texts determine the program.",
 "C60": "Counts characters on a copy of the lexer with a counter (LexCost.v), proved to give the lexer's result; str::find and str::parse count as linear scans, slicing and vector operations as free.",
 "C61": "Depth of results; the recursion of the parser itself, also on sources that give errors, is bounded by the number of tokens plus 3 (fuel in C23).",
 "C62": "Image of parse for single errors and for error-free ASTs; the image for whole ASTs with errors is given by the specification of C51, not in closed form. The statements on sources leave out single-line comments, which only end a line.",
 "C63": "For programs without errors; the AST of a program with errors drops parts of lines.",
 "C64": "For inputs on which parse does not panic.",
 "C65": "The place of the nodes is given by the inductive predicate context; lines that start or end blocks are outside the property.",
 "C66": "The line has no commas, ellipses or tokens over several lines; equality up to offsets is the crate's own equality of positions, which compares only line and column.",
 "C67": "HAI, HOW IZ I and WTF? count with the empty logical line that must follow them (C35-C37); a run may not be replaced by nothing, because an empty block is an error (C38).",
 "C68": "The lines of the documented examples are taken as the only line of the program.",
 "C69": "The formatter of the Rust standard library is part of the model (plain format; {:#?} is C71). Which characters are escaped is an arbitrary parameter; that the text of an f32 identifies it is a hypothesis, met by an example.",
 "C70": "Generalises C55 to first sources with errors. That the first source's last token does not reach over the newline and is not an ellipsis remains a hypothesis.",
 "C71": "The formatter of the Rust standard library (PadAdapter) is part of the model.",
 "C72": "Model of the From, Into, TryFrom and IntoIterator implementations.",
 "C73": "Refuted for: the call without MKAY, the function whose parameters end in digits, comments in blocks and after GTFO, the FOUND YR example (MOD for MOD OF panics) and the usage IM IN var (panics).",
 "C74": "Refuted: a bound on the recursion for all expressions, and a linear number of calls.",
 "C75": "Refuted: a bound on the recursion of next for all sources.",
 "C76": "Refuted: the same for ASTs with errors.",
 "C77": "Refuted: eight characters are enough; any fixed number of characters is enough for digits.",
 "C78": "Refuted: new names that start with a capital letter (ANT is AN and T); strings that are not ASCII.",
 "C79": "Refuted: line endings (CR LF) do not matter. Casts (MAEK, IS NOW) and ITZ A are never accepted.",
 "C80": "Refuted: release builds wrap positions only, whatever the size (C80_release_builds_all_sizes_refuted). This removes the unbounded-position simplification of Token.v and Lexer.v for sources below 2^31 - 1 bytes.",
 "C81": "Refuted for sources with other than ASCII characters (C81_all_sources_refuted).",
 "C82": "The converse of C82_cut_error is refuted for sources with other than ASCII characters (C82_all_sources_refuted), proved for ASCII ones (C82_cut).",
 "C83": "The operations of str are modelled from the documentation of Rust's standard library, on bytes.",
 "C84": "Sources in ASCII; on others the code cuts strings at wrong places (C16). Uses the axioms of the real numbers, through C12.",
 "C85": "Sources that are valid UTF-8, as every Rust String is.",
 "C86": "Debug for f32 is code of Rust's standard library, not of /repo; its model follows the library's documented algorithm. Uses the axioms of the real numbers.",
 "C87": "Stronger than C59, where the texts of numbers were copied from the source. Uses the axioms of the real numbers (for floats).",
 "C88": "Unlike C59 and C87 it is about all programs, not only those without errors. Uses the axioms of the real numbers (for floats), except C88_ascii and C88_digits_refuted.",
 "C89": "The checker is a relation over the states Fresh, Begun, NeedEmpty, SwitchHead, IfHead and Ended; lines inside blocks use the grammar of C33 and C34.",
 "C90": "C90_lines and C90_next_token are about the lines of C89, which C89_checker relates to parse; C90_beginnings is about parse itself.",
 "C91": "C91_tracked and C91_one_each relate the bookkeeping of open statements to the checker of C89. C91_inner_bad_line_refuted shows why C91_bad_line is about lines outside statements: IM IN YR a / OIC has one error, about the loop.",
 "C92": "accepts, reads and run are computable and do not use the functions of the model of the parser. C92_earliest adds the tokens of C90 (the rest of the line) and C89 (the open blocks), separated by commas, with an ellipsis for an empty line.",
 "C93": "C93_headers is about headers outside of other blocks, and does not cover panics. C93_blocks_refuted shows why the claim is not about all lines: in O RLY x the error is about O RLY, not about x. C93_unique says that a line has at most one first wrong token.",
 "C94": "C94_automaton shows that the hypothesis can be met; C92_memory bounds its stacks from above by the number of tokens."
}