{"id": "C01", "title": "tokenize terminates", "statement": "tokenize(code) reaches a result (Ok, Err or a panic) after finitely many loop iterations: every iteration consumes at least one character.", "quantifier": "every Unicode string", "why_tests_cant": "Termination is a statement about all inputs; a finite test suite can only show that some inputs terminate.", "anchors": ["src/lexer/mod.rs:tokenize", "src/lexer/mod.rs:make_token"]}
{"id": "C02", "title": "tokenize never panics on ASCII source", "statement": "If every character of code is ASCII, tokenize(code) returns Ok or Err and does not panic.", "quantifier": "every ASCII string of any length", "why_tests_cant": "Slicing panics depend on the exact position of every character; only a universal argument excludes all of them.", "anchors": ["src/lexer/mod.rs:tokenize", "src/lexer/mod.rs:parse_string", "src/lexer/mod.rs:parse_number", "src/lexer/mod.rs:parse_identifier"]}
{"id": "C03", "title": "tokenize panics exactly at known places", "statement": "tokenize(code) panics iff lexing reaches a non-ASCII character at a token position, or a closed string literal whose closing quote's character index, used as a byte index, does not fall on an ASCII character boundary. In particular every panic is at a non-ASCII character outside comments, every non-ASCII character at a token position panics, and 'tokenize never panics' is refuted (e.g. by the ellipsis character).", "quantifier": "every Unicode string", "why_tests_cant": "The failing inputs are a vanishing fraction of what anybody would type into a test; the safe fragment must hold for every string.", "anchors": ["src/lexer/mod.rs:parse_string", "src/lexer/mod.rs:parse_ellipsis", "src/lexer/mod.rs:tokenize"]}
{"id": "C04", "title": "tokenisation is lossless", "statement": "When tokenize returns Ok(tokens), the byte ranges of the tokens are non-empty, in source order and pairwise disjoint, lie inside the source, and every character of the source not covered by a token is a space, a tab or a newline.", "quantifier": "every Unicode string that tokenises", "why_tests_cant": "A dropped or doubly covered character can hide between any two tokens of any input.", "anchors": ["src/lexer/mod.rs:tokenize", "src/lexer/mod.rs:make_token", "src/lexer/mod.rs:parse_whitespace"]}
{"id": "C05", "title": "token text is faithful", "statement": "The source text in a token's byte range is that token's own text: the keyword spelling, the identifier, the symbol, 'BTW'+comment, 'OBTW'+comment+'TLDR', the number literal, 'WIN'/'FAIL'/'NOOB', ',', '!', \"'Z\" or '...'; for a string s it is '\"'+s plus one character (or the end of the source), and on ASCII sources that character is the closing quote. (For non-ASCII sources the closing-quote claim is refuted.)", "quantifier": "every token of every Unicode string that tokenises", "why_tests_cant": "It relates every token of every output to the input; examples cover finitely many.", "anchors": ["src/lexer/mod.rs:tokenize", "src/lexer/token.rs:TokenType"]}
{"id": "C06", "title": "byte and char offsets are exact", "statement": "For each token, range.0.bytes/range.1.bytes are the numbers of UTF-8 bytes, and range.0.chars/range.1.chars the numbers of characters, of the source before the token and up to its end.", "quantifier": "every token of every Unicode string that tokenises", "why_tests_cant": "Offsets accumulate over an unbounded history of tokens.", "anchors": ["src/lexer/position.rs:AddAssign", "src/lexer/mod.rs:make_token", "src/lexer/mod.rs:parse_whitespace"]}
{"id": "C07", "title": "line numbers are exact", "statement": "range.0.line of a token is 1 + the number of line breaks before it, where a line break is a newline character not covered by any token; so it is 1 + the number of newlines before it when no earlier token contains a newline. (Counting all newlines is refuted: newlines inside multi-line comments and strings are not counted.)", "quantifier": "every token of every Unicode string that tokenises", "why_tests_cant": "Line numbers accumulate over an unbounded history; the failing shape needs a multi-line token earlier in the file.", "anchors": ["src/lexer/position.rs:AddAssign", "src/lexer/mod.rs:parse_whitespace"]}
{"id": "C08", "title": "columns are exact", "statement": "range.0.column of a token is 1 + the number of bytes from the last line break (the last newline outside a token, or the start) to the token; start and end position are completely determined by the text before them and the set of tokens. (Counting characters instead of bytes is refuted.)", "quantifier": "every token of every Unicode string that tokenises", "why_tests_cant": "Same accumulation over unbounded history as line numbers.", "anchors": ["src/lexer/position.rs:AddAssign"]}
{"id": "C09", "title": "positions of one source are consistently ordered", "statement": "For two positions produced by one tokenize call, == holds iff the byte offsets are equal, and < holds iff (line, column) is lexicographically smaller. (For arbitrary Position values == and partial_cmp disagree.)", "quantifier": "all pairs of token boundaries of every string that tokenises", "why_tests_cant": "It quantifies over all pairs of positions of all sources.", "anchors": ["src/lexer/position.rs:PartialEq", "src/lexer/position.rs:PartialOrd"]}
{"id": "C10", "title": "i32 position counters do not overflow", "statement": "For a source shorter than 2^31-1 bytes, every line, column, bytes and chars value computed by tokenize lies in the i32 range.", "quantifier": "every string of fewer than 2^31-1 bytes", "why_tests_cant": "Inputs near the bound are too big to test.", "anchors": ["src/lexer/position.rs:Position", "src/lexer/mod.rs:tokenize"]}
{"id": "C11", "title": "unclosed comments are reported exactly", "statement": "tokenize returns Err(UnclosedMultilineComment(range)) iff lexing reaches a position where the remaining source starts with OBTW and contains no TLDR; range starts there and its end is the end of the source.", "quantifier": "every Unicode string", "why_tests_cant": "It is an iff over all inputs.", "anchors": ["src/lexer/mod.rs:parse_multi_line_comment", "src/lexer/mod.rs:tokenize"]}
{"id": "C12", "title": "integer tokens carry the value of their text", "statement": "A Number(Int(n)) token's text is an optional sign and one or more digits denoting n, with -2^31 <= n < 2^31; a Number(Float(x)) token's text is an optional sign, digits and exactly one dot with at least one digit, and x is its correctly rounded binary32 value.", "quantifier": "every number token of every string", "why_tests_cant": "All literals and all contexts.", "anchors": ["src/lexer/mod.rs:parse_number", "src/lexer/token.rs:NumberToken"]}
{"id": "C13", "title": "decimal literals are recognised", "statement": "A decimal integer literal in i32 range at a token position that is followed by a character other than a digit or a dot is tokenised as one Number(Int) token with its value. At the end of the source this fails for every digit string: it is tokenised as one Symbol per digit.", "quantifier": "every literal and every following text", "why_tests_cant": "The boundary (end of input) is a single position out of all contexts.", "anchors": ["src/lexer/mod.rs:parse_number"]}
{"id": "C14", "title": "keywords are recognised", "statement": "Every keyword's spelling at a token position yields that Keyword token with that text whatever follows, except: BTW, OBTW, WIN, FAIL, NOOB (comments and values) and ANY OF (shadowed by AN), whose Keyword tokens are never produced for any source; A followed by N or 'LL OF'; and OMG followed by WTF. (That every keyword is recognised is refuted by ANY OF.)", "quantifier": "every keyword and every following text", "why_tests_cant": "For all continuations of the source.", "anchors": ["src/lexer/mod.rs:parse_keyword", "src/lexer/keywords.rs:Keywords"]}
{"id": "C15", "title": "identifiers are maximal words", "statement": "An Identifier token's text is a non-empty maximal run of letters and underscores, and it does not start with the spelling of any keyword; conversely, wherever a token is looked for, every such run is one Identifier token. That every word which is not a keyword is an identifier is refuted (ANSWER is AN and SWER).", "quantifier": "every identifier token of every string", "why_tests_cant": "Universal over outputs.", "anchors": ["src/lexer/mod.rs:parse_identifier", "src/lexer/mod.rs:tokenize"]}
{"id": "C16", "title": "string literals end at the first unescaped quote", "statement": "On ASCII source a String(s) token's text is '\"'+s+'\"' where s has no quote that is not preceded by an escaping colon, or '\"'+s running to the end of the source when there is no closing quote.", "quantifier": "every string token of every ASCII string", "why_tests_cant": "Universal over contents, including escapes at every position.", "anchors": ["src/lexer/mod.rs:parse_string"]}
{"id": "C17", "title": "comments have the right extent", "statement": "A CommentSingleLine token starts with BTW and ends just before the next newline or at the end of the source; a CommentMultiLine token starts with OBTW and ends with the first TLDR after it.", "quantifier": "every comment token of every string", "why_tests_cant": "Universal over contents.", "anchors": ["src/lexer/mod.rs:parse_single_line_comment", "src/lexer/mod.rs:parse_multi_line_comment"]}
{"id": "C18", "title": "question marks are never recognised", "statement": "No source yields a QuestionMark token; every '?' of a source that tokenises lies in a Symbol(\"?\") token or in a string or comment.", "quantifier": "every Unicode string", "why_tests_cant": "'Never produced' is a universal statement.", "anchors": ["src/lexer/mod.rs:tokenize"]}
{"id": "C19", "title": "printing and re-tokenising is the identity", "statement": "Printing a sequence of well-formed token types, each followed by non-empty whitespace, and tokenising it gives back exactly that sequence of token types, provided single-line comments are followed by a newline and identifiers that are the first word of a keyword are not followed by a space. (Separating by spaces only is refuted: the identifiers I and IZ.)", "quantifier": "every sequence of printable token types", "why_tests_cant": "All sequences of all lengths.", "anchors": ["src/lexer/mod.rs:tokenize"]}
{"id": "C20", "title": "tokenisation is compositional", "statement": "If a source ends in a tab or newline outside its tokens and tokenises, then tokenising it followed by any text gives its tokens followed by the result for the text (tokens, error or panic) shifted by the position reached. (With a space as separator it is refuted: keywords contain spaces.)", "quantifier": "every pair of sources", "why_tests_cant": "All pairs of texts.", "anchors": ["src/lexer/mod.rs:tokenize"]}
{"id": "C21", "title": "statements are logical lines", "statement": "The n-th call of next_statement on the statement iterator of any token vector returns the n-th logical line: the vector is cut between two neighbours when one is a comma or when their lines differ and the first is not an Ellipsis; commas and ellipses are dropped; a leading comma makes an empty first line. Two vectors with the same logical lines have the same parse.", "quantifier": "every token vector", "why_tests_cant": "All interleavings of commas, ellipses and line changes.", "anchors": ["src/parser/statement_iterator.rs:StatementIterator"]}
{"id": "C22", "title": "peeking never changes the result", "statement": "For every state of the statement iterator, reachable or not: peek returns what next returns, and after a peek, next, peek, collect and next_statement give what they would have given without it; collecting is calling next until None.", "quantifier": "every reachable iterator state", "why_tests_cant": "All call histories.", "anchors": ["src/parser/statement_iterator.rs:peek", "src/parser/statement_iterator.rs:next"]}
{"id": "C23", "title": "parse terminates", "statement": "parse(tokens) reaches a result (an AST or a panic) for every token vector, including ones tokenize cannot produce.", "quantifier": "every token vector", "why_tests_cant": "Termination over all inputs.", "anchors": ["src/parser/mod.rs:parse", "src/parser/blocks.rs:parse_block"]}
{"id": "C24", "title": "parse panics only in two known situations", "statement": "parse panics only at a MAEK keyword of the vector, or on a logical line that starts with a variable access followed by a token other than R or HAS A; vectors without MAEK, identifiers and SRS never panic. That parse never panics is refuted, for every program whose first line has one of the two forms.", "quantifier": "every token vector", "why_tests_cant": "A panic path can be hidden under any context.", "anchors": ["src/parser/statements/mod.rs:parse_statement", "src/parser/expression/mod.rs:ASTExpression::parse"]}
{"id": "C25", "title": "the AST contains only source tokens, in order, once", "statement": "The tokens stored in the AST (error nodes included), read in source order, form a subsequence of the token vector passed to parse.", "quantifier": "every token vector that parses without panic", "why_tests_cant": "Universal over inputs of any nesting depth.", "anchors": ["src/parser/mod.rs:parse"]}
{"id": "C26", "title": "an expression stores exactly the tokens it was parsed from", "statement": "Whenever ASTExpression::parse succeeds in a reachable iterator state, the tokens of the returned value are exactly the tokens consumed, in order, and tokens() enumerates them followed by None forever.", "quantifier": "every token vector and every expression", "why_tests_cant": "All nesting depths.", "anchors": ["src/parser/expression/mod.rs:ASTExpression::tokens", "src/parser/expression/mod.rs:ASTExpression::parse"]}
{"id": "C27", "title": "tokens() iterators are exact and fused", "statement": "For every identifier, variable access, expression and assignment value, n calls of next() on tokens() give the first n of its tokens in source order and then None forever, for every n.", "quantifier": "every AST value, every number of calls", "why_tests_cant": "All shapes and all call counts.", "anchors": ["src/parser/expression/mod.rs:ASTExpressionIterator", "src/parser/expression/nary_operations.rs:NaryOperationIterator", "src/parser/expression/binary_operation.rs:BinaryOperationIterator", "src/parser/expression/variable_access_iterator.rs:VariableAccessIterator", "src/parser/statements/assignment.rs:VariableAssignmentIterator"]}
{"id": "C28", "title": "range() spans the value's tokens", "statement": "range() of every identifier, variable access, expression and assignment value is (start of its first token, end of its last token).", "quantifier": "every expression / variable access / assignment value", "why_tests_cant": "All shapes, including n-ary operations with and without MKAY, trailing AN and no operands.", "anchors": ["src/parser/expression/mod.rs:ASTExpression::range", "src/parser/expression/variable_access.rs:range", "src/parser/statements/assignment.rs:range"]}
{"id": "C29", "title": "expression parsing is sound", "statement": "Whenever ASTExpression::parse succeeds in a reachable iterator state, the tokens it consumed are a part of the current statement and derive the returned tree in the expression grammar; an n-ary operation without MKAY extends to the end of its statement; later statements are untouched.", "quantifier": "every token vector", "why_tests_cant": "All token sequences.", "anchors": ["src/parser/expression/mod.rs:ASTExpression::parse"]}
{"id": "C30", "title": "expression parsing is complete", "statement": "Every token sequence that derives an expression tree is accepted by ASTExpression::parse with exactly that tree, in every reachable iterator state and whatever follows on the line, provided nothing follows an n-ary operation left open and no 'Z follows a final identifier.", "quantifier": "every derivation of the grammar and every continuation", "why_tests_cant": "All derivations.", "anchors": ["src/parser/expression/mod.rs:ASTExpression::parse"]}
{"id": "C31", "title": "the grammar is unambiguous", "statement": "A token sequence derives at most one expression tree, and two derivations that start at the same place of the same line end at the same place; a line derives at most one node, and a list of lines at most one program.", "quantifier": "every token sequence", "why_tests_cant": "All sequences.", "anchors": ["src/parser/expression/mod.rs:ASTExpression::parse"]}
{"id": "C32", "title": "single-line statements follow their grammar", "statement": "A program of one logical line that does not start with HAI, IM IN YR, HOW IZ I, WTF or O RLY parses to exactly one non-error node n if and only if the line derives n in the grammar of I HAS A, VISIBLE, GIMMEH, FOUND YR, KTHXBYE, GTFO, I IZ, assignment, slot assignment and expression lines.", "quantifier": "every logical line", "why_tests_cant": "All lines.", "anchors": ["src/parser/statements/mod.rs:parse_statement"]}
{"id": "C33", "title": "an error-free AST means a grammatical program", "statement": "If parse returns an AST without error nodes at any depth, the logical lines of the vector derive that AST in the program grammar.", "quantifier": "every token vector", "why_tests_cant": "All programs of all nesting depths.", "anchors": ["src/parser/blocks.rs:parse_block", "src/parser/statements/im_in_yr.rs:ImInYr::parse", "src/parser/statements/o_rly.rs:ORly::parse", "src/parser/statements/wtf.rs:Wtf::parse", "src/parser/statements/how_is_i.rs:HowIzI::parse"]}
{"id": "C34", "title": "grammatical programs are accepted", "statement": "Every token vector whose logical lines derive an AST in the program grammar, in which HAI, HOW IZ I and WTF? statements are followed by an empty logical line or the end of the program, is parsed to that AST, and the AST has no error nodes.", "quantifier": "every derivation of the program grammar", "why_tests_cant": "All programs of all nesting depths.", "anchors": ["src/parser/blocks.rs:parse_block"]}
{"id": "C35", "title": "HAI does not disturb the statement after it", "statement": "The statement on the line after HAI is parsed normally. Refuted for every program that starts with HAI: its second line, whatever it is, becomes one TooManyTokens error, and parsing goes on with the third line.", "quantifier": "every program that starts with a HAI line", "why_tests_cant": "Universal over the following statements.", "anchors": ["src/parser/statements/hai.rs:Hai::parse", "src/parser/blocks.rs:parse_block"]}
{"id": "C36", "title": "a function definition does not disturb the statement after it", "statement": "The statement on the line after IF U SAY SO is parsed normally. Refuted for every program that starts with a well-formed function definition: the line after it becomes one TooManyTokens error, and parsing goes on with the line after that.", "quantifier": "every well-formed function definition and every following line", "why_tests_cant": "Universal over bodies and followers.", "anchors": ["src/parser/statements/how_is_i.rs:HowIzI::parse", "src/parser/blocks.rs:parse_block"]}
{"id": "C37", "title": "a WTF? statement does not disturb the statement after it", "statement": "The statement on the line after the OIC of WTF? is parsed normally. Refuted for every program that starts with a well-formed WTF? statement: the line after it becomes one TooManyTokens error, and parsing goes on with the line after that.", "quantifier": "every well-formed WTF? statement and every following line", "why_tests_cant": "Universal over bodies and followers.", "anchors": ["src/parser/statements/wtf.rs:Wtf::parse", "src/parser/blocks.rs:parse_block"]}
{"id": "C38", "title": "empty blocks are accepted", "statement": "A loop or function with an empty body is parsed. Refuted for every program that starts with a well-formed loop or function header directly followed by its closing line: the result starts with an error or with a loop or function whose body starts with UnexpectedToken(closing keyword). In every block parse_block returns, the list is empty only if the block starts at an empty line, and a block that starts at a closing keyword starts with an error node.", "quantifier": "every loop, function and branch header followed directly by its closing line", "why_tests_cant": "Universal over headers and followers.", "anchors": ["src/parser/blocks.rs:parse_block"]}
{"id": "C39", "title": "comments do not change the AST", "statement": "A comment on a line does not change the AST. Refuted for all programs: if no logical line is empty and a line that does not start with HAI has a comment token, the AST of the program has an error node.", "quantifier": "every logical line with a comment", "why_tests_cant": "Universal over lines.", "anchors": ["src/parser/statements/mod.rs:parse_statement", "src/lexer/mod.rs:tokenize"]}
{"id": "C40", "title": "errors are local to their logical line", "statement": "For programs made of single-line statements, well-formed or not, the result is the concatenation, line by line up to the first panic, of the results of the lines parsed alone; and a single-line statement at the start of any program is parsed as if it were alone.", "quantifier": "every sequence of logical lines without block openers and HAI", "why_tests_cant": "All combinations of good and bad lines.", "anchors": ["src/parser/blocks.rs:parse_block"]}
{"id": "C41", "title": "parse reads the whole program", "statement": "If no logical line after the first is empty (in particular if the vector has no Ellipsis), parse leaves no token in the iterator. Refuted in general: a line that contains only '...' directly before a comma silently ends the program, without an error node.", "quantifier": "every token vector", "why_tests_cant": "Universal over vectors; the failing shape is rare.", "anchors": ["src/parser/blocks.rs:parse_block", "src/parser/statement_iterator.rs:next"]}
{"id": "C42", "title": "TooManyTokens carries the unread rest of a line", "statement": "Every TooManyTokens error at any depth of an AST carries a non-empty run of tokens that is the tail of one logical line of the vector.", "quantifier": "every token vector", "why_tests_cant": "All error sites at all depths.", "anchors": ["src/parser/statement_iterator.rs:next_statement_should_be_empty"]}
{"id": "C43", "title": "the node kind is determined by the first token of a line", "statement": "Every non-error node at any depth of an AST has the kind announced by the first token of some logical line, and stores that token.", "quantifier": "every logical line", "why_tests_cant": "All lines.", "anchors": ["src/parser/statements/mod.rs:parse_statement"]}
{"id": "C44", "title": "loop labels match", "statement": "In an ImInYr node the closing label equals the opening label. Refuted by an error-free AST; but in every loop of every AST the label is an identifier that follows an IM IN YR token starting a logical line, and the end label an identifier that follows an IM OUTTA YR token starting a logical line.", "quantifier": "every loop", "why_tests_cant": "Universal over loops.", "anchors": ["src/parser/statements/im_in_yr.rs:ImInYr::parse"]}
{"id": "C45", "title": "tokenize_and_parse is tokenize followed by parse", "statement": "tokenize_and_parse(code) is Err(e) if and only if tokenize(code) is Err(e), and otherwise the result of parse on its tokens; it terminates on every input.", "quantifier": "every Unicode string", "why_tests_cant": "Universal.", "anchors": ["src/lib.rs:tokenize_and_parse"]}
{"id": "C46", "title": "errors can be enumerated", "statement": "block.iter_errors() enumerates the errors of the AST. Refuted for every block and every iterator state: next() panics. What it finds before it panics is the first node that is an error or has inner blocks, and the inner blocks of a node are complete and in source order.", "quantifier": "every block", "why_tests_cant": "Universal over ASTs.", "anchors": ["src/parser/blocks.rs:iter_errors"]}
{"id": "C47", "title": "keyword spellings identify keywords", "statement": "to_string_slice is injective on Keywords, contains no underscore, and every spelling is non-empty.", "quantifier": "every pair of keywords", "why_tests_cant": "Small finite domain; a proof covers all pairs at once.", "anchors": ["src/lexer/keywords.rs:Keywords::to_string_slice", "lolcode-ast-derive/src/lib.rs:derive_to_string_slice"]}
{"id": "C48", "title": "source-level round trip", "statement": "Every grammatical program whose tokens are writable has a source text, with any spelling of its tokens, that tokenize_and_parse turns into an error-free AST equal to the program's up to positions. A printed source is parsed to an error-free AST if and only if its lines are grammatical.", "quantifier": "every derivation of the program grammar whose tokens are printable", "why_tests_cant": "All programs.", "anchors": ["src/lib.rs:tokenize_and_parse"]}
{"id": "C49", "title": "layout does not matter", "statement": "Of the positions of the tokens only the cut in logical lines matters: replacing the tokens of all lines by tokens of the same kinds (same keyword, or both identifiers, both literal values, ...) replaces exactly those tokens in the result, error nodes and panics included, so neither the names of identifiers nor the values of literals matter; two printed sources with the same lines have the same tokenize_and_parse result up to positions.", "quantifier": "every pair of token vectors, every pair of printed sources", "why_tests_cant": "All layouts of all programs.", "anchors": ["src/parser/mod.rs:parse", "src/lib.rs:tokenize_and_parse"]}
{"id": "C50", "title": "the result of a sequence of lines is known, errors included", "statement": "For a program whose logical lines are non-empty and start no block statement, the result is that of the lines one after the other, up to the first panic: each line has exactly one result according to a specification of what is read from its front, which error with which tokens is reported when nothing can be read (missing operands, invalid identifiers, missing MKAY, ...), what is left of the line (reported as TooManyTokens), and when the parser panics.", "quantifier": "every vector of tokens whose lines start no block statement", "why_tests_cant": "Every way in which a line can be malformed, at any depth of an expression.", "anchors": ["src/parser/statements/mod.rs:parse_statement", "src/parser/expression/mod.rs:parse", "src/parser/blocks.rs:parse_block"]}
{"id": "C51", "title": "the result of every program is known, errors included", "statement": "parse gives exactly the nodes and errors, or the panic, of a specification of error recovery that covers every token vector: broken headers of loops, functions, WTF? and O RLY?, headers that swallow the line after them, blocks that are not closed, wrong closing tokens and labels, sections with missing expressions, at any nesting depth. The specification gives every block and every statement exactly one outcome.", "quantifier": "every vector of tokens", "why_tests_cant": "Error recovery inside nested blocks has unboundedly many combinations.", "anchors": ["src/parser/blocks.rs:parse_block", "src/parser/statements/im_in_yr.rs:parse", "src/parser/statements/how_is_i.rs:parse", "src/parser/statements/wtf.rs:parse", "src/parser/statements/o_rly.rs:parse"]}
{"id": "C52", "title": "equality of tokens and ASTs", "statement": "Two tokens or ASTs are == if and only if they agree up to the bytes and chars of positions and the sign of zeros, and contain no NaN. == is symmetric and transitive; it is not reflexive in general (refuted with a NaN token), but it is on every AST of tokenize_and_parse. On the tokens and nodes of one source it is identity, so two occurrences of the same text are never equal; for different sources equal ASTs need not be identical (refuted). Equal token vectors have equal parse results.", "quantifier": "every pair of tokens, ASTs and token vectors", "why_tests_cant": "Universal over pairs of ASTs of any size.", "anchors": ["src/lexer/token.rs:Token", "src/lexer/range.rs:Range", "src/lexer/position.rs:Position", "src/parser/statements/mod.rs:Node", "src/parser/blocks.rs:ASTBlock"]}
{"id": "C53", "title": "printed positions identify positions", "statement": "The Display and Debug texts of a Position and the Debug text of a Range contain the decimal spelling of their lines and columns, and two texts are the same if and only if the positions or ranges are ==. In one source two different tokens have different printed start positions.", "quantifier": "every pair of positions and ranges", "why_tests_cant": "Universal over numbers, negative ones included.", "anchors": ["src/lexer/position.rs:fmt", "src/lexer/range.rs:fmt"]}
{"id": "C54", "title": "the result of tokenize_and_parse is known for every source", "statement": "tokenize_and_parse(code) is exactly what a specification says that covers every text: the text is cut in whitespace and token texts; the statements are read off the newlines, commas and ellipses between them (newlines and commas end a statement, a newline after an ellipsis does not, a leading comma leaves an empty statement before it); the nodes and panics of the statements are those of C51; an unclosed OBTW gives the error with its range. The specification gives every text exactly one result.", "quantifier": "every Unicode string", "why_tests_cant": "Universal over texts, well-formed or not.", "anchors": ["src/lib.rs:tokenize_and_parse", "src/parser/statement_iterator.rs:new"]}
{"id": "C55", "title": "a source after another", "statement": "If a text parses without error nodes, has no empty statement, and does not end in an ellipsis or with a statement that swallows the next line (HAI, HOW IZ I, WTF?), then the result for this text, a newline and any further text is the nodes of the first text followed by the result for the further text alone, with all positions (also those of an unclosed comment) shifted by the end of the first text; panics remain panics. Only the first statement of the further text must not be empty (refuted otherwise).", "quantifier": "every pair of texts", "why_tests_cant": "Universal over both texts; the second may be malformed in any way.", "anchors": ["src/lib.rs:tokenize_and_parse", "src/parser/blocks.rs:parse_block"]}
{"id": "C56", "title": "parsing takes a linear number of iterator calls", "statement": "On a vector of n tokens, parse makes at most 7n+3 calls of next, peek and next_statement, where next_statement counts one more for each token it collects; for a source of m characters at most 7m+3. The bound also holds if it panics.", "quantifier": "every vector of tokens", "why_tests_cant": "Universal; a quadratic or exponential case may need special nesting.", "anchors": ["src/parser/blocks.rs:parse_block", "src/parser/expression/mod.rs:parse", "src/parser/statement_iterator.rs:next"]}
{"id": "C57", "title": "ranges in an AST", "statement": "In the AST of a source, error nodes included, the range() of an identifier, variable access, expression or assignment covers a non-empty piece of the source text, by bytes and by characters; the range of a part lies within the range of what contains it; the ranges of siblings and of the outermost parts are in source order without overlap.", "quantifier": "every source and every part of its AST at any depth", "why_tests_cant": "Universal over nestings.", "anchors": ["src/parser/expression/mod.rs:range", "src/parser/expression/variable_access.rs:range", "src/parser/expression/identifier.rs:range", "src/parser/statements/assignment.rs:range"]}
{"id": "C58", "title": "every AST has its shape", "statement": "Every field of every AST of parse, also next to error nodes, holds tokens of the kind that it is for (operators, keywords, identifiers, literals), and an n-ary operation without MKAY is found only where nothing may follow. The ASTs of grammatical programs are exactly the ASTs of this shape without error nodes.", "quantifier": "every vector of tokens; every AST", "why_tests_cant": "Universal over ASTs.", "anchors": ["src/parser/statements/mod.rs:Node", "src/parser/expression/mod.rs:ASTExpression"]}
{"id": "C59", "title": "an AST can be written back", "statement": "From the AST of an ASCII source without errors and the texts of its number literals a formatter (one statement per line, nothing else kept of the source) writes a text that tokenize_and_parse turns into the same AST up to positions, without errors, and that the formatter does not change. The source must not end in a colon, and the version after HAI must contain no single-line comments and no digits outside numbers.", "quantifier": "every ASCII source without errors", "why_tests_cant": "Universal over programs.", "anchors": ["src/lib.rs:tokenize_and_parse", "src/parser/mod.rs:parse"]}
{"id": "C60", "title": "how much of the source tokenize reads", "statement": "tokenize reads a number of characters linear in the length of the source. Refuted: a source of n digits needs at least n(n+1)/2, and so does a run of n digits too large for an i32 followed by anything. For every source of n characters and b bytes at most 366n + 4b + n(n+1) characters are read (compared, scanned or copied), and at most (368 + 2L)n + 4b if no run of digits, signs and dots is longer than L.", "quantifier": "every Unicode string", "why_tests_cant": "Needs a bound for all sources; the quadratic case only shows on long runs of digits.", "anchors": ["src/lexer/mod.rs:tokenize", "src/lexer/mod.rs:parse_number"]}
{"id": "C61", "title": "the depth of ASTs", "statement": "The depth of an AST (levels of operators, statements and sections) is at most the number of tokens, so at most the length of the source; NOT repeated n times before an identifier is a source of 4n+2 characters without errors that reaches the bound n+1, and n loops in each other have depth n+1. There is a depth that no AST exceeds (so a fixed stack suffices for the recursive parser). Refuted.", "quantifier": "every source", "why_tests_cant": "Needs all sources, and sources of every depth.", "anchors": ["src/parser/expression/mod.rs:parse", "src/parser/blocks.rs:parse_block"]}
{"id": "C62", "title": "which errors and ASTs occur", "statement": "Every error at any depth of an AST carries a token of the kind that it is about (MissingOperands the operator, MissingStartLabel the IM IN YR, ...), and these are all: an error is reported for some token vector if and only if it has this shape and holds no comma or ellipsis. The lists of logical lines of token vectors are all lists without commas and ellipses, and the error-free ASTs of token vectors are all ASTs of the shape of C58 without commas and ellipses. Up to positions, every error and every error-free AST of the right shape whose tokens can be written on a line also occurs for some source. Every variant of the error types is reported for some input. Refuted: MissingR, InvalidOperation and InvalidConditional never are.", "quantifier": "every token vector, every error, every AST", "why_tests_cant": "That a variant never occurs, and that every error of a shape occurs, are statements on all inputs.", "anchors": ["src/parser/error.rs:ASTErrorType", "src/parser/statements/im_in_yr.rs:ImInYrError", "src/parser/statements/assignment.rs:VariableAssignmentError", "src/parser/mod.rs:parse"]}
{"id": "C63", "title": "what an AST does not tell", "statement": "Two programs without errors have the same AST up to positions if and only if their logical lines have the same token types, up to empty lines and up to an AN after the last parameter of HOW IZ I or the last argument of I IZ. So everything else in an error-free program, including every token the AST does not store, can be recovered from the AST. That an error-free AST determines the token types of its lines is refuted: the last AN is lost.", "quantifier": "every two error-free programs", "why_tests_cant": "Injectivity of the parser is a statement on all pairs of programs.", "anchors": ["src/parser/mod.rs:parse", "src/parser/statements/i_is.rs:IIz", "src/parser/statements/how_is_i.rs:HowIzI", "src/parser/blocks.rs:ASTBlock"]}
{"id": "C64", "title": "the nodes of every line", "statement": "The nodes of an AST at every depth, in source order, are the nodes of one logical line after the other: a line gives nothing, one node, or one node and one TooManyTokens error with the rest of the line. A node of a line is a statement that starts with the first token of the line (and whose tokens are all on it unless it has blocks) and is read from what the line has before the tokens left over, or an error that says exactly what was read of the line before reading stopped. So errors do not cascade: there are at most two for every line, in source order, and an AST has at most as many nodes as the source has tokens. That a line gives at most one error is refuted.", "quantifier": "every token vector for which parse returns", "why_tests_cant": "Error recovery has to be followed through all nestings of unfinished blocks.", "anchors": ["src/parser/mod.rs:parse", "src/parser/blocks.rs:ASTBlock", "src/parser/statements/mod.rs:Node"]}
{"id": "C65", "title": "the effect of one line", "statement": "Take any lines before and any lines after one plain line, that is a line that is not empty and starts neither a statement with blocks (or HAI) nor a part or the end of one. What surrounds the line decides whether it is read as a statement, taken for the rest of the line before it, or found where OIC was wanted. The line matters only through the nodes (or the panic) that it gives when used so: the result of the whole program is a fixed function of them, and that function puts the nodes unchanged in one fixed place of the AST, at any depth, or loses them together with a statement that fails around them, or does not depend on them. So replacing a line of an error-free program by another well-formed line replaces that line's node in the AST and nothing else.", "quantifier": "all logical lines before and after, and every plain line between them", "why_tests_cant": "An edit has to be compared with every other edit of the same line in every surrounding program.", "anchors": ["src/parser/mod.rs:parse", "src/parser/blocks.rs:ASTBlock", "src/parser/statements/mod.rs:Node", "src/parser/statement_iterator.rs:StatementIterator"]}
{"id": "C66", "title": "editing one line of a source", "statement": "Take a source made of whole lines, then one line that is one plain statement, then any text that can be tokenized. Whatever the other lines are, the result of tokenize_and_parse is, up to the byte and character offsets of tokens, a fixed function of what the one line gives when its tokens are at its place; types, lines and columns of all other tokens do not depend on it. So replacing one line of an error-free source by another well-formed line replaces that line's node in the AST, keeps the source error-free and changes nothing else but offsets.", "quantifier": "all source texts before and after, and every line between them", "why_tests_cant": "The lexer's position tracking and the parser's recovery have to be compared on every two versions of a text.", "anchors": ["src/lib.rs:tokenize_and_parse", "src/lexer/mod.rs:tokenize", "src/lexer/position.rs:Position", "src/parser/statement_iterator.rs:StatementIterator"]}
{"id": "C67", "title": "statements can be replaced", "statement": "In an error-free program, any non-empty run of statements next to each other, on one line or with blocks, at any depth, can be replaced by any other non-empty run of statements: the program stays error-free, and in the AST exactly the nodes of the run are replaced (unless the run comes after the end of what is parsed, and then nothing changes). So one of two neighbouring statements can be deleted and they can be swapped. The same holds for the lines of a source text, up to the positions of tokens.", "quantifier": "all error-free programs, all places in them and all runs of statements", "why_tests_cant": "Each instance compares two programs, and the statements nest without bound.", "anchors": ["src/parser/mod.rs:parse", "src/lib.rs:tokenize_and_parse", "src/parser/blocks.rs:ASTBlock", "src/parser/statements/mod.rs:Node"]}
{"id": "C68", "title": "the errors mean what their documentation says", "statement": "Every error, at any depth, tells where reading stopped on its line: for every kind of error what was read of the line is fixed, and what is left is reported in a TooManyTokens error. The tokens of a TooManyTokens error after a statement on a plain line are exactly what has to go for the line to be valid, and nothing else changes without them. That this holds for all TooManyTokens errors is refuted (after errors, after HAI, before a block that is not closed), and so are the documented examples of MissingName, MissingArgument, MissingR, InvalidOperation and InvalidConditional: what such lines give instead is proved for all of them.", "quantifier": "every token vector for which parse returns; all lines of the documented forms in any program or alone", "why_tests_cant": "The documentation speaks about every program with the error.", "anchors": ["src/parser/error.rs:ASTErrorType", "src/parser/statements/i_is.rs:IIzError", "src/parser/statements/assignment.rs:VariableAssignmentError", "src/parser/statements/im_in_yr.rs:ImInYrError", "src/parser/statements/how_is_i.rs:HowIsIError"]}
{"id": "C69", "title": "Debug texts identify what they show", "statement": "The text written by {:?} tells everything but byte and character offsets: two strings have the same text iff they are the same; two tokens, vectors of tokens, streams of tokens, nodes, ASTs or results of tokenize_and_parse have the same text iff they agree up to these offsets. An AST of a source is == to every AST with the same text; the converse holds if no zero float occurs and is refuted otherwise (-0.0 == 0.0). The text of an AST has exactly two line feeds for each token stored in it.", "quantifier": "all strings, tokens, ASTs and results, any table of printable characters, any injective text of floats", "why_tests_cant": "Debug output is compared in tests and bug reports; that no two ASTs are confused is a statement about all pairs.", "anchors": ["src/lexer/token.rs:Token::fmt", "src/lexer/range.rs:Range::fmt", "src/lexer/position.rs:Position::fmt", "src/parser/statements/mod.rs:ASTNode", "src/parser/blocks.rs:ASTBlock", "src/parser/error.rs:ASTErrorType"]}
{"id": "C70", "title": "what the first part of a program decides", "statement": "Every program, with or without errors, is closed (whatever follows is parsed as if it were alone and its nodes come after those of the program), has ended (nothing that follows is read) or is open (what follows can change its last node and no other). A program is closed iff GTFO on the next line becomes one more node. Appending lines changes at most the last node, a panic stays a panic, and closed programs one after the other are closed. The same holds for sources, with shifted positions.", "quantifier": "all programs and all continuations of them", "why_tests_cant": "Incremental parsing and concatenation of files rely on it for all continuations; a test tries one.", "anchors": ["src/parser/blocks.rs:parse_block", "src/parser/statements/mod.rs:parse_statement", "src/parser/statement_iterator.rs:StatementIterator", "src/lib.rs:tokenize_and_parse"]}
{"id": "C71", "title": "pretty Debug texts identify tokens and ASTs", "statement": "The texts written by {:#?} for tokens, vectors of tokens, nodes and ASTs are equal iff the types, lines and columns of the tokens and the structure are; results have the same text in this format iff they have in the plain one. Every part of a value stands on lines of its own, indented by four spaces more than the value, the last one with a comma; this includes the line feeds inside tokens.", "quantifier": "all tokens, nodes, ASTs and results; any table of escaped characters", "why_tests_cant": "Indentation after line feeds inside tokens could hide differences for some nesting; tests compare few values.", "anchors": ["src/lexer/token.rs:Debug for Token", "src/lexer/range.rs:Debug for Range", "src/parser/statements/mod.rs:Node", "src/parser/blocks.rs:ASTBlock"]}
{"id": "C72", "title": "conversions keep their values", "statement": "A token is converted to a type iff it is the keyword of one, and the token is kept in either case. The tokens converted to values are those the parser reads as literals, except the keyword NOOB. An iterator built from a deque of deques only sees the concatenation. Every node comes from exactly one value, every specific error from exactly one error, and blocks keep their nodes. Ranges made of positions keep their ends, and values and loop operations their tokens.", "quantifier": "all tokens, deques of deques, nodes, errors and blocks", "why_tests_cant": "A conversion that confuses two of the sixteen variants or loses a token is only seen by a test that uses that variant.", "anchors": ["src/parser/expression/identifier.rs:TryFrom<Token> for ASTType", "src/parser/expression/mod.rs:TryFrom<Token> for ASTExpressionValue", "src/parser/statement_iterator.rs:From", "src/parser/error.rs:From", "src/parser/statements/mod.rs:From", "src/parser/blocks.rs:From"]}
{"id": "C73", "title": "the statements of the documentation parse as documented", "statement": "Every source whose lines are those of an example in the documentation, with any names, values, blocks and layout, gives the documented statements without errors (documented examples for which this is false are refuted, by what they give instead for all names); the example of the crate documentation also gives the documented positions, for every name.", "quantifier": "all names, values, conditions, blocks and layouts", "why_tests_cant": "The documentation examples are not compiled as tests (the one in lib.rs does not even type-check), and a test fixes names and layout.", "anchors": ["src/lib.rs:tokenize_and_parse", "src/parser/statements/mod.rs:module documentation", "src/parser/statements/im_in_yr.rs:ImInYr", "src/parser/statements/found_yr.rs:FoundYr", "src/parser/statements/gtfo.rs:Gtfo", "src/parser/statements/i_is.rs:IIzError"]}
{"id": "C74", "title": "tokens() recurses as deep as the expression, not as wide", "statement": "A call of next on the iterator of an expression recurses at most 13 times per level of the expression and makes at most as many calls of next, however many operands or slots there are; for a variable access the bound is 5. Draining the iterator takes at most that for each token; n nested NOTs take at least n*n calls.", "quantifier": "all expressions, variable accesses and assignments; all numbers of calls", "why_tests_cant": "The recursion self.next() has no visible bound, tests use small expressions and do not observe the stack.", "anchors": ["src/parser/expression/mod.rs:ASTExpressionIterator::next", "src/parser/expression/binary_operation.rs:BinaryOperationIterator::next", "src/parser/expression/unary_operation.rs:UnaryOperationIterator::next", "src/parser/expression/nary_operations.rs:NaryOperationIterator::next", "src/parser/expression/variable_access_iterator.rs:VariableAccessIterator::next", "src/parser/statements/assignment.rs:VariableAssignmentIterator::next"]}
{"id": "C75", "title": "the statement iterator works in linear time", "statement": "During a parse of n tokens the statement iterator makes at most 22n+9 internal steps (activations of next, activations of peek and next_statement, tests of the comma loop); of a parse that panics, no call starts after that many steps. next calls itself at most once for each ellipsis of a run; n lines with only an ellipsis make it call itself n times although the AST is empty.", "quantifier": "all token vectors; panicking parses included for the recursion", "why_tests_cant": "The recursion of next depends on runs of ellipses, which tests do not contain; the amount of work is not observable in a test.", "anchors": ["src/parser/statement_iterator.rs:StatementIterator::next", "src/parser/statement_iterator.rs:StatementIterator::peek", "src/parser/statement_iterator.rs:StatementIterator::next_statement"]}
{"id": "C76", "title": "an AST without errors keeps what the user wrote", "statement": "If parsing succeeds without errors and no logical line is empty, then the AST contains every token of the source except commas, ellipses, the question mark and ten connecting keywords, in source order and as often as it was written; in particular all identifiers and literals. Each of the other types is really missing from some AST. With errors the AST can lose operands and whole lines.", "quantifier": "all token vectors whose parse has no errors", "why_tests_cant": "A token that is dropped or stored twice only in one combination of statements is not seen by tests of other combinations.", "anchors": ["src/parser/mod.rs:parse", "src/parser/statements/mod.rs:Node", "src/parser/expression/mod.rs:ASTExpression"]}
{"id": "C77", "title": "an edit only changes the tokens around it", "statement": "A token depends on the text before it, its own text and a number of characters after it: at most 10 if the text is ASCII and the token is not a digit, sign or dot outside a number literal; for those all digits and dots that follow (that any fixed number is enough is refuted). The tokens after a place that no token lies over are those of the text from there on alone, shifted. So if a part of a source is replaced and both sources tokenise, with no token over the end of the part, then the tokens decided by the text before the part are the same, and those after it are the same up to the shift of positions.", "quantifier": "all sources, all cuts and replacements", "why_tests_cant": "Tests cannot vary what comes after a token over all texts.", "anchors": ["src/lexer/mod.rs:tokenize", "src/lexer/mod.rs:parse_number", "src/lexer/mod.rs:parse_keyword"]}
{"id": "C78", "title": "renaming identifiers in a source renames them in the AST", "statement": "If in a source the text of every identifier that starts with a small letter or underscore is replaced by another such word, and the text of every string by another string, then the new source tokenises to the renamed tokens on the same lines, and its result is the renamed result up to positions, errors and panics included. Replaced are the characters between the start and the end of the tokens; nothing else changes. Required: the strings of the source and the new ones are ASCII. New names that start with a capital letter, and strings that are not ASCII, are refuted.", "quantifier": "all sources that tokenise, all renamings, all changes of strings", "why_tests_cant": "Tests cannot try all renamings of all programs.", "anchors": ["src/lexer/mod.rs:tokenize", "src/lexer/mod.rs:parse_keyword", "src/lexer/mod.rs:parse_identifier", "src/parser/mod.rs:parse", "src/lib.rs:tokenize_and_parse"]}
{"id": "C79", "title": "the vocabulary of programs without errors", "statement": "If the AST of a token vector without empty lines has no errors, then every token on the lines is an identifier, a literal, 'Z, !, the symbol ?, or a keyword other than BTW, OBTW, TLDR, WIN, FAIL, MAEK, IS NOW and A; on the line of HAI anything may be. All of these occur. So a source with such an AST has, outside strings and the line of HAI, only letters, digits, spaces, tabs, newlines and + - . ' , ! ? as characters. In particular every Windows line ending outside a string makes an error; that line endings do not matter is refuted.", "quantifier": "all token vectors, all sources", "why_tests_cant": "Tests cannot list all programs that use a token.", "anchors": ["src/lexer/mod.rs:parse_whitespace", "src/lexer/mod.rs:tokenize", "src/parser/mod.rs:parse", "src/parser/statements/i_has_a.rs"]}
{"id": "C80", "title": "32-bit positions agree with unbounded ones below 2^31 - 1 bytes", "statement": "The lexer with the i32 arithmetic of the code (overflow panics in debug builds, wraps in release builds, `as i32` cuts) gives, for every source shorter than 2^31 - 1 bytes and in both builds, exactly the tokens, errors, positions and AST of the model with unbounded positions. The bound is sharp: a source of 2^31 - 1 bytes panics in debug builds and gets a negative column in release builds. In release builds, sources of fewer than 2^32 characters give the same tokens and AST with all positions cut to 32 bits; without the limit this is refuted (a number of 2^32 digits followed by a sign). In debug builds, a source whose tokens are shorter than 2^31 bytes gives the right tokens or a panic, and a panic from 2^31 bytes on.", "quantifier": "all sources, both builds", "why_tests_cant": "No test has a source of two gigabytes.", "anchors": ["src/lexer/position.rs", "src/lexer/mod.rs:parse_number", "src/lexer/mod.rs:parse_whitespace", "src/lexer/mod.rs:tokenize"]}
{"id": "C81", "title": "what Windows line endings do", "statement": "If every newline of an ASCII source becomes CR LF, the source is accepted by the lexer exactly if it was before, and its tokens are known: a symbol token CR at every line break that does not follow a BTW comment, a CR at the end of each such comment, CRs inside strings and multi-line comments; without these, the tokens and their lines are the old ones. The last token of every line but the last is a CR or a comment, so no line is ever continued by an ellipsis. For sources with other characters this is refuted.", "quantifier": "all ASCII sources", "why_tests_cant": "Tests use Unix line endings only, and cannot cover all sources.", "anchors": ["src/lexer/mod.rs:parse_whitespace", "src/lexer/mod.rs:tokenize", "src/parser/statement_iterator.rs"]}
{"id": "C82", "title": "sources that end inside a multi-line comment", "statement": "The lexer's only error stays, at the same start, while text without TLDR is appended, and goes away if TLDR is appended: the tokens are then those before the comment, and the comment with the whole rest as its text. If a source is accepted and the source cut short is not, the cut is inside a multi-line comment token, after its OBTW and before its end; for ASCII sources every such cut is refused and every other cut accepted. Refuted for other sources.", "quantifier": "all sources and all texts appended or cut off", "why_tests_cant": "Tests have two unclosed comments; which cuts of a source are accepted is a statement about all sources and all cuts.", "anchors": ["src/lexer/mod.rs:parse_multi_line_comment", "src/lexer/mod.rs:tokenize"]}
{"id": "C83", "title": "strings of characters are strings of bytes", "statement": "The model's strings are lists of characters with computed byte lengths; Rust's are UTF-8 bytes. With UTF-8 written down separately: exactly the lists of Unicode scalar values have an encoding, and encodings and strings determine each other; len is the number of bytes; a slice is the slice of the bytes, and panics exactly if an end is not a character boundary (start, end or a byte that is no continuation byte) or the ends are in the wrong order; starts_with and find compare bytes, and find gives the first byte index; the byte offsets of tokens and errors cut their texts out of the bytes of the source, at character boundaries.", "quantifier": "all strings, byte indices, patterns and sources", "why_tests_cant": "No test has a character outside ASCII, and none compares offsets with bytes.", "anchors": ["src/lexer/mod.rs:tokenize", "src/lexer/position.rs", "src/lexer/range.rs"]}
{"id": "C84", "title": "which sequences of tokens sources have", "statement": "The types and lines of the tokens of ASCII sources are exactly the following sequences: identifiers are words without a keyword at their start, keywords are all but BTW, OBTW, WIN, FAIL, NOOB and ANY OF, integers are all of i32, floats all of binary32 but NaN, strings and comments are those that end where they should; lines do not decrease, and increase after a single-line comment; only the last token can be a string that is not closed; a digit is a symbol only at the end of the source (alone, before other digits or in a decimal) or in front of the rest of an integer that is too large, on the same line and not zero. ASTs depend on nothing else, positions aside, so that the ASTs of sources are those of these sequences. One might expect that tokens that occur can follow each other; that is false.", "quantifier": "all sequences of types and lines, all ASCII sources, all binary32 numbers", "why_tests_cant": "Tests show that some sequences occur; that all others do not is a statement about all sources.", "anchors": ["src/lexer/mod.rs:tokenize", "src/lexer/mod.rs:parse_number", "src/parser/mod.rs:parse"]}
{"id": "C85", "title": "the lexer on bytes", "statement": "A second model of tokenize works on the bytes of the source, as Rust does: slices are slices of bytes that panic inside a character, starts_with and find compare bytes, chars() decodes UTF-8 with shifts and masks, and positions are 32-bit numbers. For every source that is valid UTF-8, in debug and in release builds, it returns what the model on characters returns, with the texts of all tokens encoded: the same tokens, ranges, errors and panics, and after parsing the same AST. Below 2^31 - 1 bytes that is the model of all other properties. The texts of all tokens are valid UTF-8 again.", "quantifier": "all sources, both builds", "why_tests_cant": "The property is about two models, and about all sources: every place where the code mixes character counts and byte offsets is a place where the two could differ.", "anchors": ["src/lexer/mod.rs:tokenize", "src/lexer/mod.rs:make_token", "src/lexer/position.rs:add_assign"]}
{"id": "C86", "title": "the texts of floats", "statement": "The derived Debug of number tokens writes floats with Debug for f32. With that text modelled: for every finite f32, the text is a decimal that is read back as the same f32; no decimal with fewer digits is, and none with as many digits is nearer, or as near and larger; nine digits are always enough. Zero and the numbers from 0.0001 up to 10^16 are written plainly, others with an exponent, and no zeros are written that could be left out. Different floats have different texts, so the texts of tokens and ASTs (C69, C71) identify them. The text is a LOLCODE literal of the same float, and tokenize reads it so, exactly if it is plain: texts with an exponent, and those of the infinities, are not the text of a number token in any source.", "quantifier": "all 32-bit floats, all sources", "why_tests_cant": "There are 2^32 floats, and minimality compares each text with infinitely many decimals.", "anchors": ["src/lexer/token.rs:NumberToken", "src/lexer/mod.rs:make_token"]}
{"id": "C87", "title": "an AST can be printed without its source", "statement": "A printer that is given an AST and nothing else writes, for every AST of an ASCII source without errors, a text that tokenize_and_parse turns into the same AST up to positions; the AST of the text has the same text. Two sources without errors have the same AST up to positions if and only if their ASTs have the same text. Numbers are written from their values: every i32 and every binary32 number but NaN has a literal, so no two values of a token are confused and none is lost. The source must not end in a colon (refuted otherwise), and the version after HAI must contain no single-line comments and no digits outside numbers.", "quantifier": "every ASCII source without errors, every AST of the right shape", "why_tests_cant": "A round trip over all ASTs, including all integers and all floats, is out of reach of tests.", "anchors": ["src/lib.rs:tokenize_and_parse", "src/lexer/mod.rs:make_token", "src/parser/mod.rs:parse"]}
{"id": "C88", "title": "sources have a normal form, with or without errors", "statement": "For every source that tokenizes there is a normal form: its lines of tokens written one per line with one tab between tokens. tokenize_and_parse does the same with the normal form as with the source, up to positions: the same AST, the same error nodes, or the same panic. The normal form of a normal form is itself, and two sources have the same normal form if and only if they have the same lines of tokens. Every digit of the source must be part of a number (refuted otherwise), and the texts of strings must be such that they can be closed by a quote; ASCII sources that do not end in a colon meet the latter.", "quantifier": "every source that tokenizes, with or without errors in it", "why_tests_cant": "Reformatting programs with errors without changing the errors is a claim over all sources; tests only show examples.", "anchors": ["src/lib.rs:tokenize_and_parse", "src/lexer/mod.rs:tokenize", "src/parser/statement_iterator.rs:next", "src/parser/mod.rs:parse"]}
{"id": "C89", "title": "programs can be checked line by line, and the beginnings that can be continued are known", "statement": "A checker that reads the logical lines of a program once, from the first to the last, with a stack of open blocks, accepts exactly the token vectors that parse gives an AST without errors for. It is deterministic. A line it cannot read is in no program without errors that begins with the lines before it. Conversely, the lines of a source can all be read by it if and only if something can be written after the source such that tokenize_and_parse gives an AST without errors; the lines that close the open blocks will do.", "quantifier": "every token vector, every list of lines and every source of whole lines", "why_tests_cant": "An equivalence between the recursive parser and a one-pass checker, for blocks nested to any depth and every continuation of a source, cannot be tested exhaustively.", "anchors": ["src/lib.rs:tokenize_and_parse", "src/parser/mod.rs:parse", "src/parser/statements/mod.rs:parse_statement", "src/parser/blocks.rs:parse_block"]}
{"id": "C90", "title": "programs can be read token by token, and the tokens that may come next are known", "statement": "A deterministic reader reads each line once, from left to right, with a stack of open operations; together with the checker of C89 it accepts exactly the token vectors that parse gives an AST without errors for. Some lines and the first tokens of the next line are the beginning of such a token vector if and only if they can be read; so a token may come next if and only if the reader has a step for it. The tokens that finish a line are given.", "quantifier": "every list of lines and every beginning of a line, without bound on nesting", "why_tests_cant": "For each of infinitely many beginnings, that no continuation at all is accepted is a claim over all continuations; tests can only try some.", "anchors": ["src/parser/mod.rs:parse", "src/parser/statements/mod.rs:parse_statement", "src/parser/expression/mod.rs:parse", "src/parser/blocks.rs:parse_block"]}
{"id": "C91", "title": "the first wrong line is where the errors begin", "statement": "When the checker of C89 has read the first lines of a token vector, every error in the AST that parse returns is about tokens after these lines, or says that one of the statements that are open after them is not closed. If parse panics, it does so at a token after these lines. If all lines can be read and statements are open at the end, parse does not panic, and its only error is the last node, about the outermost open statement. A line outside all statements that the checker cannot read has an error about its own tokens, and no node before that error contains an error. The first claim also holds for sources that begin with whole lines, with byte positions. Inside a statement this is false: the error of a wrong line can be lost.", "quantifier": "every token vector and every beginning of its lines, without bound on nesting", "why_tests_cant": "The claim is about errors anywhere in the AST for whatever lines come after the beginning, at any nesting depth; tests fix both.", "anchors": ["src/parser/mod.rs:parse", "src/parser/blocks.rs:parse_block", "src/parser/statements/mod.rs:parse_statement"]}
{"id": "C92", "title": "one pass over the tokens decides whether there are errors", "statement": "A program that gets the tokens one at a time, with a stack of open blocks and a stack of open operations, accepts exactly the token vectors that parse returns an AST without errors for, and with the lexer before it exactly the sources that tokenize_and_parse returns one for. It stops at the earliest possible token: the tokens so far can be read iff some tokens can be added to them such that parse finds no errors. Its stacks grow by at most two entries with each token.", "quantifier": "every token vector and every source, without bound on length or nesting", "why_tests_cant": "The parser is recursive and builds a tree; that it agrees with a machine without recursion, and that rejected beginnings cannot be repaired by any continuation, is about infinitely many vectors.", "anchors": ["src/parser/mod.rs:parse", "src/parser/statement_iterator.rs:next", "src/parser/statements/mod.rs:parse_statement", "src/parser/expression/mod.rs:parse"]}
{"id": "C93", "title": "errors and panics are about the first wrong token", "statement": "In a program of single-line statements, the error of a wrong line is about its first wrong token (the first one after which the line cannot be continued to one of the grammar), and a TooManyTokens after it has the tokens after that one; or the statement ends before the first wrong token, with which TooManyTokens starts; or the line is only unfinished, and the error is about one of its tokens. A panic is about the first wrong token of its line. The first header of a loop or function that is not well-formed, after single-line statements, has an error of the same kind. For O RLY? and WTF? this is false.", "quantifier": "every token vector of single-line statements, without bound on length or nesting", "why_tests_cant": "That a token is the first wrong one is a statement about all continuations of the line, of which there are infinitely many.", "anchors": ["src/parser/mod.rs:parse", "src/parser/blocks.rs:parse_block", "src/parser/statements/mod.rs:parse_statement", "src/parser/expression/mod.rs:parse"]}
{"id": "C94", "title": "finding errors takes memory that grows with the program", "statement": "Any machine that reads the tokens of a program one after another and knows in the end whether parse gives an AST without errors has at least 2^n states for programs of n + 1 tokens, because it must tell all chains of n operations apart; the same holds for machines that read the characters of sources, with 9 + 7n characters. So no machine with finitely many states can do it. The automaton of C92 is a machine that does it.", "quantifier": "every machine, every n", "why_tests_cant": "It is a statement about all machines.", "anchors": ["src/parser/mod.rs:parse", "src/parser/expression/mod.rs:parse", "src/lib.rs:tokenize_and_parse"]}
