{"id": "C01", "title": "Reader positions are exact", "statement": "Reading a text byte by byte yields exactly its bytes in order, and after any number of reads the reported position is (number of newlines read so far, number of bytes read since the last newline).", "quantifier": "every byte text and every number of reads, including reads past the end", "why_tests_cant": "a test fixes one text; the position bookkeeping must be right for every newline/byte arrangement and at every prefix", "anchors": ["ginko/src/dts/reader.rs: ByteReader::consume, peek, pos", "ginko/src/dts/data.rs: Position"]}
{"id": "C02", "title": "Tokenising never panics", "statement": "For every valid UTF-8 text, asking the lexer for tokens, any number of times and in any lexer state reached, never hits a panic (all String::from_utf8(..).unwrap() calls succeed, even though the lexer works on bytes and may stand in the middle of a multi-byte character).", "quantifier": "every valid UTF-8 text and every number of next() calls", "why_tests_cant": "needs every placement of multi-byte characters relative to token boundaries", "anchors": ["ginko/src/dts/tokens/lexer.rs: Lexer::consume, read_while, line_comment, multi_line_comment, compiler_directive, path_or_reference"]}
{"id": "C03", "title": "Tokens are non-empty, ordered, disjoint and inside the text", "statement": "Every token delivered has start < end, starts at or after the end of the previous one, lies inside the text, and carries the source of the file; only finitely many tokens are delivered (each consumes at least one byte), after which the lexer reports the end for ever.", "quantifier": "every text and every token index", "why_tests_cant": "ordering and progress must hold for all inputs, a test only shows one token list", "anchors": ["ginko/src/dts/tokens/lexer.rs: Lexer::consume, Iterator for Lexer", "ginko/src/dts/data.rs: Position::to"]}
{"id": "C04", "title": "Tokenisation is lossless", "statement": "The text is exactly the concatenation gap, token spelling, gap, token spelling, ..., tail where each gap consists of white space and comments only, and the slice of the text under each token's span is a spelling of the token's kind; the tail is a gap, possibly followed by a construct that is unterminated at the end of the text.", "quantifier": "every text", "why_tests_cant": "universally quantified decomposition of the input", "anchors": ["ginko/src/dts/tokens/lexer.rs: Lexer::consume, Iterator for Lexer"]}
{"id": "C05", "title": "Layout does not matter", "statement": "If the spellings of a sequence of tokens are written down separated by any non-empty white-space/comment gaps, then the lexer returns exactly this sequence of token kinds, whatever the gaps are (a gap behind a '/' starts with white space, as it would otherwise be read as part of a comment).", "quantifier": "every sequence of lexable token kinds and every choice of separators", "why_tests_cant": "unbounded number of token sequences and layouts", "anchors": ["ginko/src/dts/tokens/lexer.rs: Lexer::consume, skip_whitespace, Iterator for Lexer"]}
{"id": "C06", "title": "String literals denote their text", "statement": "For every text, writing it between double quotes with backslash escapes for backslash and double quote lexes to one string token whose value is the text.", "quantifier": "every string content (valid UTF-8)", "why_tests_cant": "must hold for every content, in particular non-ASCII content", "anchors": ["ginko/src/dts/tokens/lexer.rs: Lexer::string"]}
{"id": "C07", "title": "No input is silently ignored", "statement": "If parsing a text reports no diagnostic then every byte of the text belongs to a token, white space or a complete comment.", "quantifier": "every text", "why_tests_cant": "requires reasoning over every way a text can end", "anchors": ["ginko/src/dts/tokens/lexer.rs: Lexer::consume, string, multi_line_comment, path_or_reference", "ginko/src/dts/parser.rs: Parser::file"]}
{"id": "C08", "title": "Peeking is transparent", "statement": "Any interleaving of peek and next on the peeking lexer delivers by next exactly the token sequence of next alone, and each peek shows the token the following next returns.", "quantifier": "every text and every sequence of peek/next calls", "why_tests_cant": "histories of calls are unbounded", "anchors": ["ginko/src/dts/tokens/lexer.rs: PeekingLexer::peek, next"]}
{"id": "C09", "title": "Parsing terminates without panic", "statement": "For every valid UTF-8 text and every list of include paths, parsing the file terminates and returns a syntax tree or an error diagnostic; it never panics and never loops.", "quantifier": "every valid UTF-8 text", "why_tests_cant": "termination of mutually nested loops with error recovery, on all inputs", "anchors": ["ginko/src/dts/parser.rs: Parser::file, primary, node_payload, property_values, property_value, number_u32, byte_string, skip_expression_starting_with_paren"]}
{"id": "C10", "title": "A clean parse is a derivation", "statement": "If parsing a text succeeds without any diagnostic, then the token sequence of the text derives, in the device-tree grammar accepted by the tool, exactly the returned syntax tree, and every token is used.", "quantifier": "every text", "why_tests_cant": "soundness against a grammar is a statement on all inputs", "anchors": ["ginko/src/dts/parser.rs: Parser::file, primary, node_payload, property_values, property_value", "ginko/src/dts/ast.rs"]}
{"id": "C11", "title": "Every grammatical file parses cleanly", "statement": "If the token sequence of a text derives a syntax tree in the grammar (with all names, numbers and byte strings in range) then parsing the text succeeds, reports no diagnostic and returns this tree; in particular the grammar is unambiguous.", "quantifier": "every text whose token sequence is in the language", "why_tests_cant": "completeness for an infinite language", "anchors": ["ginko/src/dts/parser.rs: Parser::file, primary, node_payload, property_values, property_value"]}
{"id": "C12", "title": "Names in a clean tree are legal", "statement": "If parsing reports no diagnostic, then every label, node name, unit address, property name and reference in the tree is non-empty, at most 31 bytes long and made of the characters the device-tree specification allows for it, and starts with an allowed character.", "quantifier": "every text and every name occurring in its tree", "why_tests_cant": "all nestings and all positions of names", "anchors": ["ginko/src/dts/parser.rs: check_ident, check_is_label, check_is_node_name, check_is_property_name, reference"]}
{"id": "C13", "title": "Cell integers have their mathematical value", "statement": "A number token in a cell list yields the value of the literal in base 10, 16 (0x) or 8 (leading 0) if the literal is well formed and the value is below 2^32; otherwise exactly one integer diagnostic is reported on that token and the cell is 0.", "quantifier": "every number token", "why_tests_cant": "overflow boundaries and all digit strings", "anchors": ["ginko/src/dts/parser.rs: Parser::number_u32"]}
{"id": "C14", "title": "Memory reservation integers have their mathematical value", "statement": "As C13 for /memreserve/ addresses and lengths with bound 2^64.", "quantifier": "every number token", "why_tests_cant": "overflow boundaries and all digit strings", "anchors": ["ginko/src/dts/parser.rs: Parser::memreserve_number_u64"]}
{"id": "C15", "title": "Byte strings decode as hexadecimal", "statement": "A byte-string element yields the bytes whose two-digit hexadecimal spellings, in order and in any case, are the element; an element of odd length or with a non-hex digit yields one diagnostic on that token and no bytes.", "quantifier": "every byte-string token", "why_tests_cant": "all digit strings and lengths", "anchors": ["ginko/src/dts/parser.rs: Parser::byte_string"]}
{"id": "C16", "title": "Diagnostics point into the file", "statement": "Every diagnostic a parse reports (and the error it returns) names the parsed file as its source and its span starts and ends no later than the end of the text.", "quantifier": "every text", "why_tests_cant": "all error paths at all positions", "anchors": ["ginko/src/dts/parser.rs: all Diagnostic constructions", "ginko/src/dts/diagnostics.rs"]}
{"id": "C17", "title": "Spans in the tree nest", "statement": "In every returned tree (also after error recovery) every node, property, reference and include has a non-empty span, the name of an item lies inside the span of the item, items lie inside their parent node and siblings are disjoint and in source order.", "quantifier": "every text that yields a tree", "why_tests_cant": "all nestings, including all error recoveries", "anchors": ["ginko/src/dts/ast.rs: HasSpan implementations", "ginko/src/dts/parser.rs: node_payload, expect_semicolon"]}
{"id": "C18", "title": "Property-after-node diagnostics are exact", "statement": "In every successful parse the diagnostics of kind PropertyAfterNode are exactly one per property that follows a sub-node inside the same braces, on the span of this property.", "quantifier": "every text that yields a tree", "why_tests_cant": "needs every item order and nesting", "anchors": ["ginko/src/dts/parser.rs: node_payload"]}
{"id": "C19", "title": "A missing semicolon is recovered", "statement": "If a file is grammatical except that semicolons are missing before tokens other than unknown characters, parsing still succeeds, returns the tree of the repaired file up to the end tokens and reports one 'Expected ;' diagnostic per missing semicolon.", "quantifier": "every grammatical file and every subset of its semicolons whose removal leaves the rest of the tokens unchanged", "why_tests_cant": "all places at once", "anchors": ["ginko/src/dts/parser.rs: expect_semicolon, node_payload, primary"]}
{"id": "C20", "title": "Node names and paths round-trip through text", "statement": "Displaying a node path and parsing the text as a path gives the path back, for names without '/' and '@' in them (and non-empty components).", "quantifier": "every path", "why_tests_cant": "algebraic law over unbounded lists and strings", "anchors": ["ginko/src/dts/ast.rs: Display/From for NodeName, Path"]}
{"id": "C21", "title": "Displayed cell lists, references and clean strings parse back", "statement": "Displaying a property value made of numbers, label or path references, or a string and parsing the text gives an equal value without diagnostics.", "quantifier": "every such property value with legal names", "why_tests_cant": "round-trip law over all u32 values, list lengths and names", "anchors": ["ginko/src/dts/ast.rs: Display for Cell, PropertyValue, Reference, Path", "ginko/src/dts/parser.rs: property_value"]}
{"id": "C22", "title": "Displayed trees parse back", "statement": "Displaying any syntax tree returned by a clean parse and parsing the text gives an equal tree.", "quantifier": "every clean tree", "why_tests_cant": "round-trip law over all trees", "anchors": ["ginko/src/dts/ast.rs: Display implementations"]}
{"id": "C23", "title": "Cyclic includes are detected exactly", "statement": "Adding an element with dependencies to the import guard reports an error if and only if the element then lies on a cycle of all dependencies added so far.", "quantifier": "every sequence of additions, every hash iteration order", "why_tests_cant": "graph reachability over all histories", "anchors": ["ginko/src/dts/import_guard.rs: ImportGuard::add, check_for_cyclic_dependencies"]}
{"id": "C24", "title": "A reported import cycle is real", "statement": "The cycle carried by the error starts and ends with the added element, has at least one step, each consecutive pair is an added dependency, and no other element is repeated.", "quantifier": "every sequence of additions, every hash iteration order", "why_tests_cant": "graph reachability over all histories", "anchors": ["ginko/src/dts/import_guard.rs: ImportGuard::check_for_cyclic_dependencies"]}
{"id": "C25", "title": "The import guard stays silent exactly on acyclic graphs", "statement": "All additions of a sequence succeed if and only if the graph of all added dependencies is acyclic; the result does not depend on the order of the additions.", "quantifier": "every sequence of additions and every reordering", "why_tests_cant": "histories are unbounded", "anchors": ["ginko/src/dts/import_guard.rs: ImportGuard::add"]}
{"id": "C26", "title": "Labels resolve to their last definition", "statement": "After analysing a file, looking a label up yields a node exactly if the last thing carrying this label, in source order with includes expanded at their place, is this node.", "quantifier": "every tree, every label, every context of included files", "why_tests_cant": "all trees and label multiplicities", "anchors": ["ginko/src/dts/analysis.rs: analyze_node, analyze_property, analyze_include, get_node_by_label"]}
{"id": "C27", "title": "Paths resolve to their last definition", "statement": "After analysing a file with root nodes, looking a path up yields the last node defined at this path in source order.", "quantifier": "every tree and every path", "why_tests_cant": "all trees", "anchors": ["ginko/src/dts/analysis.rs: analyze_node, analyze_node_payload, get_node_by_path"]}
{"id": "C28", "title": "Unresolved property references are reported exactly", "statement": "For a plain .dts file that is not a plugin, each reference in a property value or cell gets exactly one UnresolvedReference diagnostic, at its span, if no node or property in the file or its includes defines its label (or path), wherever in the file the definition is, and none otherwise.", "quantifier": "every tree and every reference in it", "why_tests_cant": "order independence over all trees", "anchors": ["ginko/src/dts/analysis.rs: analyze_reference, resolve_references, unresolved_reference_error"]}
{"id": "C29", "title": "Includes, overlays and plugins are not blamed for outside references", "statement": "Analysing a file that is not a .dts never reports UnresolvedReference, and neither does a .dts whose /plugin/ directive precedes its nodes.", "quantifier": "every tree and file type", "why_tests_cant": "absence of a diagnostic over all trees", "anchors": ["ginko/src/dts/analysis.rs: unresolved_reference_error"]}
{"id": "C30", "title": "Version header rules", "statement": "For a .dts, the missing-header diagnostic is reported exactly once if no /dts-v1/ occurs and never otherwise; every /dts-v1/ after the first is reported as duplicate; the first is reported as misplaced exactly if a memreserve, plugin, omit-if-no-ref, root or reference node precedes it.", "quantifier": "every sequence of top-level elements", "why_tests_cant": "all orders and multiplicities of top-level elements", "anchors": ["ginko/src/dts/analysis.rs: analyze_file"]}
{"id": "C31", "title": "Non-string compatible values are reported exactly", "statement": "For every property named compatible, at any depth, each value that is not a string gets exactly one NonStringInCompatible diagnostic with the span of the value; no other property gets one.", "quantifier": "every tree", "why_tests_cant": "all nestings", "anchors": ["ginko/src/dts/analysis.rs: analyze_property, check_is_string_list"]}
{"id": "C32", "title": "Analysis does not depend on hash order", "statement": "The diagnostics and lookups of an analysis are the same for every iteration order of the hash maps.", "quantifier": "every tree and every pair of iteration orders", "why_tests_cant": "hash orders are not controllable in a test", "anchors": ["ginko/src/dts/analysis.rs: FileContext::resolve_reference"]}
{"id": "C33", "title": "Extending a labelled node resolves when the label is defined", "statement": "&label { ... } in a .dts is reported as unresolved exactly if no earlier node in the file or its includes carries the label.", "quantifier": "every tree", "why_tests_cant": "all sequences of definitions and re-openings", "anchors": ["ginko/src/dts/analysis.rs: resolve_reference, FileContext::resolve_reference"]}
{"id": "C34", "title": "Included definitions are visible", "statement": "After /include/ of an analysed file, every label and path the included file resolves is resolved by the including file, to the same thing, unless redefined later.", "quantifier": "every pair of files and every label/path", "why_tests_cant": "all contexts", "anchors": ["ginko/src/dts/analysis.rs: analyze_include"]}
{"id": "C35", "title": "Adding a file terminates", "statement": "Adding a file to a project terminates for every finite file system, also if the include graph is cyclic, and parses each file at most once.", "quantifier": "every finite file system and every include graph", "why_tests_cant": "all include graphs", "anchors": ["ginko/src/dts/project.rs: parse_file, parse_included_file"]}
{"id": "C36", "title": "The include closure is loaded", "statement": "After adding a file to an empty project, every readable file reachable through includes that resolve is present in the project, and nothing else.", "quantifier": "every file system and include graph", "why_tests_cant": "reachability over all graphs", "anchors": ["ginko/src/dts/project.rs: parse_file, parse_included_file"]}
{"id": "C37", "title": "Adding an existing file never panics", "statement": "Adding a file that exists, with any text, to any project reached by adding and removing files does not panic.", "quantifier": "every file system and every history of additions and removals", "why_tests_cant": "histories and file systems are unbounded", "anchors": ["ginko/src/dts/project.rs: add_file_with_text, compute_key_order"]}
{"id": "C38", "title": "Includes are analysed before their includers", "statement": "In the order in which an addition analyses the files, each file comes after all the files it includes if the include graph is acyclic.", "quantifier": "every acyclic include graph and every hash iteration order", "why_tests_cant": "hash order decides", "anchors": ["ginko/src/dts/project.rs: compute_key_order"]}
{"id": "C39", "title": "Adding a file changes only what it must", "statement": "After adding a file with a text, the project stores exactly this text for it, with the syntax tree and parser diagnostics of this text, and the text, tree and parser diagnostics of every file that was already present are unchanged.", "quantifier": "every project state, text and include graph", "why_tests_cant": "frame condition over all states", "anchors": ["ginko/src/dts/project.rs: add_file_with_text, parse_file, get_file"]}
{"id": "C40", "title": "Removing a file removes exactly this file", "statement": "After remove_file, lookups of this path find nothing and lookups of every other path are unchanged.", "quantifier": "every project state", "why_tests_cant": "frame condition over all states", "anchors": ["ginko/src/dts/project.rs: remove_file"]}
{"id": "C41", "title": "No parser diagnostic is lost", "statement": "Every diagnostic the parser reports for a text, and the error it stops at, is a diagnostic of the file in the project.", "quantifier": "every text", "why_tests_cant": "all combinations of recovered and unrecovered errors", "anchors": ["ginko/src/dts/project.rs: parse_file, ProjectFile::unrecoverable"]}
{"id": "C42", "title": "The exit status tells whether diagnostics were found", "statement": "The command line tool exits with status 0 if no diagnostic was found and non-zero otherwise, and says OK only in the first case.", "quantifier": "every input", "why_tests_cant": "decision over all runs; there is no test of main", "anchors": ["ginko/src/main.rs: main"]}
{"id": "C43", "title": "Printed diagnostics underline their span", "statement": "Printing a diagnostic whose span is on one line shows this line, the 1-based position of its start, and exactly max(1, span length) carets starting in the column of its start; printing never fails.", "quantifier": "every diagnostic and every text", "why_tests_cant": "all spans and texts", "anchors": ["ginko/src/dts/diagnostics.rs: DiagnosticPrinter::fmt_diagnostic"]}
{"id": "C44", "title": "Cursor lookup is sound", "statement": "Whatever item is found at a cursor position is an item of the file whose span contains the cursor.", "quantifier": "every tree and position", "why_tests_cant": "all trees and positions", "anchors": ["ginko/src/dts/visitor.rs: item_at_cursor"]}
{"id": "C45", "title": "Cursor lookup is complete", "statement": "If the cursor is inside the span of a reference, label or include of a parsed file, the lookup finds this very item.", "quantifier": "every parsed text and every position", "why_tests_cant": "all trees and positions", "anchors": ["ginko/src/dts/visitor.rs: item_at_cursor"]}
{"id": "C46", "title": "Document symbols are well-formed", "statement": "Every document symbol sent to the editor has its selection range inside its range, its children inside its range, and there is one symbol per node, property, deletion and include, in source order.", "quantifier": "every parsed text", "why_tests_cant": "LSP clients reject malformed symbols, for any document", "anchors": ["ginko_ls/src/server.rs: document_symbol, node_payload_to_symbol, node_to_symbol"]}
{"id": "C47", "title": "Published diagnostics are the current ones", "statement": "After handling a did_open or did_change the client has been sent, for every file of the project, exactly the current diagnostics of this file.", "quantifier": "every history of notifications, handled one after the other", "why_tests_cant": "histories are unbounded", "anchors": ["ginko_ls/src/server.rs: publish_diagnostics, did_open, did_change"]}
{"id": "C48", "title": "Closing a file clears its diagnostics", "statement": "After did_close the client's diagnostics for the closed file are empty.", "quantifier": "every history", "why_tests_cant": "histories are unbounded", "anchors": ["ginko_ls/src/server.rs: did_close"]}
{"id": "C49", "title": "did_change applies the newest text", "statement": "After a did_change the project holds the text of the last content change.", "quantifier": "every non-empty list of full-text changes", "why_tests_cant": "all change lists", "anchors": ["ginko_ls/src/server.rs: did_change"]}
{"id": "C50", "title": "Go to definition lands on the definition", "statement": "Go to definition on a reference answers with the file and span of the name of the node the reference resolves to, or nothing if it does not resolve to a node.", "quantifier": "every project state, document and position", "why_tests_cant": "all states", "anchors": ["ginko_ls/src/server.rs: goto_definition", "ginko/src/dts/project.rs: find_at_pos, get_node_position"]}
{"id": "C51", "title": "Severities and errors in includes", "statement": "In every project exactly the codes NameTooLong, NonStringInCompatible and DuplicateDirective are warnings and all others errors, and an include is reported as containing errors exactly if the included file currently has a diagnostic of severity error.", "quantifier": "every diagnostic list", "why_tests_cant": "all diagnostic lists", "anchors": ["ginko/src/dts/error_codes.rs: SeverityMap", "ginko/src/dts/analysis.rs: analyze_include", "ginko/src/dts/project.rs: has_errors"]}
{"id": "C52", "title": "Concurrent notifications leave the client up to date", "statement": "When two notifications are handled concurrently, the last diagnostics the client gets for each file are the ones of the final project state.", "quantifier": "every schedule", "why_tests_cant": "schedules are not controllable in a test", "anchors": ["ginko_ls/src/server.rs: publish_diagnostics, did_change"]}
{"id": "C53", "title": "File types follow the extension", "statement": "A path is treated as source, include or overlay exactly if the part of its file name after the last dot is dts, dtsi, dtso/overlay (and the dot is not the first character). An included file has the type of its own path, whatever the type of its includer; the added file has the type it was added with.", "quantifier": "every path", "why_tests_cant": "all paths", "anchors": ["ginko/src/dts/data.rs: FileType::from_file_ending, From<&Path>"]}
{"id": "C54", "title": "Positions do not overflow", "statement": "For texts below 2^31 bytes no position computed by reading, lexing or parsing exceeds u32.", "quantifier": "every text below the bound", "why_tests_cant": "needs a bound on all positions", "anchors": ["ginko/src/dts/reader.rs", "ginko/src/dts/data.rs: Position::offset_by_char", "ginko/src/dts/parser.rs: check_ident"]}
{"id": "C55", "title": "Expected-token messages name the expected token", "statement": "When an opening brace is required and another token is found, the diagnostic names the opening brace and is located between the previous and the found token.", "quantifier": "every text", "why_tests_cant": "all error paths", "anchors": ["ginko/src/dts/tokens/lexer.rs: PeekingLexer::expect"]}
{"id": "C56", "title": "Illegal-character diagnostics point at the character", "statement": "The span of an illegal-character diagnostic covers exactly one byte, which is the first illegal character of the name.", "quantifier": "every name in every text", "why_tests_cant": "all positions", "anchors": ["ginko/src/dts/parser.rs: check_ident, check_is_node_name"]}
{"id": "C57", "title": "Deleted nodes no longer resolve", "statement": "After /delete-node/ of a label, references to it in a .dts are reported as unresolved.", "quantifier": "every tree", "why_tests_cant": "all trees", "anchors": ["ginko/src/dts/analysis.rs: analyze_file"]}
{"id": "C58", "title": "A file sees the labels and paths of the files it includes", "statement": "After adding a file, the analysis of every file of the project contains every label and every node path that the analysis of a file it includes contains.", "quantifier": "all file systems, projects reached by additions and removals, texts, and iteration orders of the hash maps", "why_tests_cant": "It depends on the order in which a hash map yields the files, which differs from run to run; a test sees one order of one include graph.", "anchors": ["ginko/src/dts/project.rs:96-159", "ginko/src/dts/analysis.rs"]}
{"id": "C59", "title": "Cyclic includes are reported exactly if there is a cycle", "statement": "After adding a file, some file of the project carries a cyclic include diagnostic exactly if the include graph of the files in the project has a cycle.", "quantifier": "all file systems, projects reached by additions and removals, texts, and iteration orders of the hash maps", "why_tests_cant": "Graphs of any size and shape, analysed in any order, with the guard shared between the files of one addition.", "anchors": ["ginko/src/dts/project.rs:96-159", "ginko/src/dts/import_guard.rs", "ginko/src/dts/analysis.rs"]}
{"id": "C60", "title": "A removed file is not listed any more", "statement": "After remove_file the list of the files of the project is the one before without this file.", "quantifier": "all projects, paths and states of the file system at the time of the removal", "why_tests_cant": "The file system may have changed since the file was added; a test removes files that are still there.", "anchors": ["ginko/src/dts/project.rs:161-165", "ginko_ls/src/server.rs"]}
{"id": "C61", "title": "Every diagnostic is printed once", "statement": "The command line tool prints every diagnostic of every loaded file exactly once, rendered against the text of its own file, and nothing else but the final message.", "quantifier": "every input, every iteration order of the files", "why_tests_cant": "Tests print a handful of diagnostics of one file; that none of any number of files is lost or repeated is a statement about all projects.", "anchors": ["ginko/src/main.rs:22-37", "ginko/src/dts/diagnostics.rs:218-227"]}
{"id": "C62", "title": "Go to definition on an include opens the included file at a place in it", "statement": "Go to definition on an include directive answers with a location that lies in the included file.", "quantifier": "every project state, document and position on an include", "why_tests_cant": "The range must be valid in another file, of any content.", "anchors": ["ginko_ls/src/server.rs:202-213"]}
{"id": "C63", "title": "Positions follow the protocol", "statement": "The line and column the server sends for a place in a text are those of the protocol: lines end with LF, CR LF or CR, and columns count UTF-16 code units.", "quantifier": "every text and every place in it", "why_tests_cant": "All texts, in particular all characters before a place on its line.", "anchors": ["ginko_ls/src/server.rs:50-56", "ginko_ls/src/server.rs:391-397", "ginko/src/dts/reader.rs"]}
{"id": "C64", "title": "Go to definition answers about the current texts", "statement": "After any history of notifications, the range answered by go to definition on a reference is that of the name of a node in the current text of the answered file.", "quantifier": "every history of notifications, iteration order of the hash maps, document and position", "why_tests_cant": "It depends on the order in which the files of a project are analysed after a change of one of them.", "anchors": ["ginko/src/dts/project.rs:96-159", "ginko/src/dts/project.rs:222-229", "ginko_ls/src/server.rs:176-216"]}
{"id": "C65", "title": "Hover and go to definition agree", "statement": "Hover on a reference shows text exactly if go to definition answers a location, and both are about the same node. Hover on a label shows the label, on an include the file name, and away from labels, references and includes there is neither hover nor definition (as far as the lookup finds the item, see C45).", "quantifier": "every history of notifications, document and position on a reference", "why_tests_cant": "All project states.", "anchors": ["ginko/src/dts/project.rs:217-229", "ginko_ls/src/server.rs:176-246"]}
{"id": "C66", "title": "Accepted labels can be referenced", "statement": "Every label the parser accepts on a node without a diagnostic can be named by a reference in some text.", "quantifier": "every legal label", "why_tests_cant": "quantifies over all texts: no text lexes to such a reference", "anchors": ["ginko/src/dts/tokens/lexer.rs:reference", "ginko/src/dts/parser.rs:check_is_label"]}
{"id": "C67", "title": "A missing semicolon is reported where it belongs", "statement": "In every parse that yields a tree, each diagnostic 'Expected ;' lies directly behind the token that the semicolon should follow (behind the last comment if comments follow that token) as one column when another token follows, on the following token when that is an unknown character, and at that place or the end of the text when nothing follows. Every other diagnostic lies on a token, inside one, across a property or at (or, for a missing number of a memory reservation, one column behind) the end of a token, comment or the text.", "quantifier": "every text", "why_tests_cant": "the place depends on the lexer position before the look-ahead, over all gaps, comments and tokens", "anchors": ["ginko/src/dts/parser.rs:608-654", "ginko/src/dts/tokens/lexer.rs", "ginko/src/dts/parser.rs:66-120"]}
{"id": "C68", "title": "Reformatting changes positions only", "statement": "Two texts that consist of the same tokens (for example the same spellings with different white space, comments and line breaks between them, none of the tokens an unknown character) are read alike, whatever their file paths: both fail with the same error or both give the same tree up to positions, and the same diagnostics in the same order up to positions.", "quantifier": "every pair of UTF-8 texts, every token list, every layout, every include path list", "why_tests_cant": "all layouts of all token lists, including those with syntax errors, are infinitely many; a parser peeking at positions (for example comparing lines) would only show on particular layouts", "anchors": ["ginko/src/dts/parser.rs:Parser", "ginko/src/dts/tokens/lexer.rs:Lexer"]}
{"id": "C69", "title": "Where includes are searched", "statement": "An include is resolved to the first hit among: the directory of the including file, the include directories of the project in canonical form and in the given order, the working directory; it does not resolve if none of them has the name. This holds for every file an addition loads.", "quantifier": "every file system, every list of include directories, every added file and every file included directly or indirectly", "why_tests_cant": "the search order only shows when several candidates exist; the combinations of directories, names and nesting are unbounded", "anchors": ["ginko/src/dts/ast.rs:473-486", "ginko/src/dts/project.rs:82-87", "ginko/src/dts/project.rs:240-290", "ginko/src/dts/parser.rs:725-740"]}
{"id": "C70", "title": "No stale analysis after an addition", "statement": "After a file has been added, the diagnostics and the analysis stored for every file of the project are those of a fresh analysis of its tree against the project as it now is, not against an earlier state.", "quantifier": "every project reached by additions and removals, every added text, every iteration order", "why_tests_cant": "staleness depends on the history of the project and on the iteration order of hash tables; tests see a few histories and one order", "anchors": ["ginko/src/dts/project.rs:108-130", "ginko/src/dts/project.rs:132-159", "ginko/src/dts/analysis.rs"]}
{"id": "C71", "title": "Answers depend on the current texts only", "statement": "Two sessions on the same file system with the same include directories, whatever their histories of additions, edits and removals, that end with an addition and hold the same texts give the same diagnostics, trees, definitions and hover texts for every name. In particular giving the present text of a file once more changes no answer.", "quantifier": "every pair of histories, every iteration order, every name and reference", "why_tests_cant": "histories are unbounded sequences; a leftover of an earlier text only shows for particular sequences", "anchors": ["ginko/src/dts/project.rs:108-130", "ginko/src/dts/project.rs:161-235"]}
{"id": "C72", "title": "Configured include directories", "statement": "If the settings sent by the editor, at the start or later, are an object whose member includes is an array of strings (whatever other members it has), the include directories of the project are these strings in canonical form and in this order. Any other settings, and their lack, leave the project without include directories and fail nothing.", "quantifier": "every JSON value, every server state, every file system", "why_tests_cant": "JSON values are infinitely many; tests try a few well-formed ones", "anchors": ["ginko_ls/src/server.rs:31-40", "ginko_ls/src/server.rs:110-113", "ginko_ls/src/server.rs:129-133"]}
{"id": "C73", "title": "A new configuration applies to open documents", "statement": "After a change of the configured include directories the editor shows for every open document the diagnostics that sending its text again would give.", "quantifier": "every server state, every settings value, every open document", "why_tests_cant": "depends on the state reached by earlier notifications and on the file system", "anchors": ["ginko_ls/src/server.rs:129-133", "ginko/src/dts/project.rs:82-87"]}
{"id": "C74", "title": "The editor shows what the present texts give", "statement": "Two connections with the same disk and configuration whose projects hold the same texts after an open or change notification show the same diagnostics for every file and give the same answers to definition, hover and outline requests, whatever was opened, changed and closed before.", "quantifier": "every pair of histories of notifications, every iteration order, every document, every cursor", "why_tests_cant": "histories are unbounded; a leftover of an earlier text shows for particular sequences only", "anchors": ["ginko_ls/src/server.rs:141-246", "ginko/src/dts/project.rs:108-130"]}
{"id": "C75", "title": "Work on other files does not change the answers about a file", "statement": "Adding, editing or removing files that a file does not include, directly or indirectly, and changing the include directories, changes none of the diagnostics, trees, definitions and hover texts for that file: these depend on its own text and the texts of the files it includes only.", "quantifier": "every project, every sequence of additions and removals elsewhere, every iteration order, every name and reference", "why_tests_cant": "every addition analyses every file of the project again, so any leak between files shows only for particular combinations of unrelated files", "anchors": ["ginko/src/dts/project.rs:108-130", "ginko/src/dts/project.rs:132-159", "ginko/src/dts/analysis.rs"]}
{"id": "C76", "title": "Including a file is like pasting its text", "statement": "If a file includes another one, then replacing the include directive by the elements of the included file leaves the meaning of every label, path and reference of the including file as it was, and every unresolved reference reported, apart from those inside the pasted elements.", "quantifier": "every file system, project, including file, included file and place of the directive", "why_tests_cant": "the include hands over finished tables while the paste runs the analysis in the middle of the other file; agreement needs all interleavings of definitions", "anchors": ["ginko/src/dts/analysis.rs:174-208", "ginko/src/dts/analysis.rs:104-172", "ginko/src/dts/analysis.rs:251-300"]}
{"id": "C77", "title": "Adding definitions leaves resolved references resolved", "statement": "If nodes or includes are added to a file, at any place, then every reference that resolved before still resolves, every path that had a node has one and every label that had a meaning has one; new complaints about unresolved references are about the added text only.", "quantifier": "every file system, project, file, place and added elements", "why_tests_cant": "resolution depends on the order of all definitions; a test shows one addition at one place", "anchors": ["ginko/src/dts/analysis.rs:229-250", "ginko/src/dts/analysis.rs:251-300", "ginko/src/dts/analysis.rs:261-280"]}
{"id": "C78", "title": "One text behind another", "statement": "If two texts are read without diagnostics, then the first, a line end and the second together are read without diagnostics as the elements of the first followed by the elements of the second, the latter moved down by the number of lines before them.", "quantifier": "every pair of UTF-8 texts and every list of include directories", "why_tests_cant": "needs every way a text can end and every way the next can begin; no finite set of pairs settles it", "anchors": ["ginko/src/dts/tokens/lexer.rs", "ginko/src/dts/parser.rs"]}
{"id": "C79", "title": "Layout does not matter to the analysis", "statement": "Two texts that consist of the same tokens, none of them an unknown character, and differ in blanks, line breaks and comments only, stored under the same path and analysed at the same moment, get the same diagnostics in the same order with the same messages, syntax and analysis alike, apart from their places; every label and path means the same node or property in both.", "quantifier": "all pairs of texts with equal token kinds, all file systems, projects, histories of includes, hash orders", "why_tests_cant": "Tests compare at most a handful of layouts; there are infinitely many ways to lay a text out, and a check that looks at a line number or a column by mistake shows in some only.", "anchors": ["ginko/src/dts/analysis.rs", "ginko/src/dts/parser.rs", "ginko/src/dts/tokens/lexer.rs"]}
{"id": "C80", "title": "Files that are no text are refused", "statement": "Adding a file answers with an error exactly if its path does not resolve, it cannot be read, or its bytes are not the UTF-8 encoding of a sequence of Unicode scalar values. A file that includes such a file gets an IO error on the include.", "quantifier": "all byte sequences, all file systems, all project states", "why_tests_cant": "There are infinitely many ill-formed byte sequences (overlong forms, surrogates, truncated characters); the decision must be right for each of them, and for each project in which such a file is met.", "anchors": ["ginko/src/dts/project.rs", "ginko/src/dts/parser.rs"]}
{"id": "C81", "title": "An error stands, whatever is written behind it", "statement": "If parsing a text stops with an error other than 'unexpected end of file' and the text does not break off inside a string, block comment, path reference or directive, then parsing any text that continues it with further lines stops with the same error (code, message, place) after the same diagnostics. So on the way to an acceptable text a user who types from top to bottom sees, as fatal error, only 'unexpected end of file'.", "quantifier": "all texts a, all continuations b after a line break, all include paths and file names", "why_tests_cant": "A test fixes one text and one continuation; the claim ranges over all continuations of all erroneous texts, and depends on every look-ahead of lexer and parser.", "anchors": ["ginko/src/dts/parser.rs", "ginko/src/dts/tokens/lexer.rs"]}
{"id": "C82", "title": "A text that only ends too early can be completed", "statement": "If the only complaint about a text is that it ended unexpectedly, then there are further lines that make it a text without any complaint - except when it breaks off in an item that cannot stand where it is (a property begun after a subnode or behind /omit-if-no-ref/, or a last word that is neither a legal node name nor a property name allowed there), and then no continuation whatsoever is accepted. The text must not break off inside a string, block comment, path or directive.", "quantifier": "for all texts a that do not break off inside a lexical construct and are reported only as ended too early; some / all continuations b", "why_tests_cant": "whether any continuation among infinitely many texts is accepted is no finite check, in both directions", "anchors": ["ginko/src/dts/parser.rs", "ginko/src/dts/tokens/lexer.rs"]}
{"id": "C83", "title": "The tree says only what is written", "statement": "Every name, label, reference, string, number, byte and include in the tree that the parser returns - also for a file with errors that was repaired while reading - is written in the text, byte for byte, at the place recorded with it; nothing in the tree is invented and nothing is attributed to the wrong place.", "quantifier": "all valid UTF-8 texts, all include paths, all trees the parser returns (damaged texts included)", "why_tests_cant": "a test compares a few trees with expected ones; error recovery multiplies the paths by which a token can reach the tree", "anchors": ["ginko/src/dts/parser.rs", "ginko/src/dts/data.rs"]}
{"id": "C84", "title": "No nameless entry in the outline", "statement": "The names of document symbols, at all depths, are never empty and never blank (LSP clients such as VS Code reject a symbol with a blank name and then show no outline at all).", "quantifier": "all reachable states of the language server, all documents, all symbols at all depths", "why_tests_cant": "a blank name would come from a rare text in the middle of typing", "anchors": ["ginko_ls/src/server.rs", "ginko/src/dts/parser.rs"]}
{"id": "C85", "title": "The outline shows what is written", "statement": "The name of a document symbol is the text at its selection range.", "quantifier": "all reachable states of the language server, all documents, all symbols at all depths", "why_tests_cant": "depends on every kind of entry and every state of a half-typed document", "anchors": ["ginko_ls/src/server.rs"]}
{"id": "C86", "title": "Every opened document is checked", "statement": "A document opened in the editor is analysed and its diagnostics are published, whatever its URI.", "quantifier": "all reachable states of the language server, all URIs", "why_tests_cant": "tests open files only", "anchors": ["ginko_ls/src/server.rs"]}
{"id": "C87", "title": "Directories given to the language server are searched", "statement": "Directories passed to ginko_ls with --include are searched for included files, as ginko does.", "quantifier": "all argument lists", "why_tests_cant": "there is no test of the language server binary", "anchors": ["ginko_ls/src/main.rs", "ginko_ls/src/server.rs", "ginko/src/main.rs"]}
{"id": "C88", "title": "A missing include is reported once", "statement": "For each include that cannot be found there is one diagnostic in the file that contains it, and there are no other input/output errors.", "quantifier": "all projects after the last of any sequence of additions and removals, all file systems that do not change, all files with a tree", "why_tests_cant": "the two stages that look up includes are tested apart", "anchors": ["ginko/src/dts/project.rs", "ginko/src/dts/analysis.rs"]}
{"id": "C89", "title": "No notification ends the language server", "statement": "Whatever document notification the editor sends, the server handles it and goes on.", "quantifier": "all reachable states of the server, all notifications with valid texts, all file systems, iteration orders", "why_tests_cant": "a test opens files that exist and stay", "anchors": ["ginko_ls/src/server.rs", "ginko/src/dts/project.rs"]}
{"id": "C90", "title": "The code of a diagnostic tells where it comes from", "statement": "Apart from the input/output error, codes reported while reading a file are never reported by the analysis and the other way round; a file with a fatal syntax error has exactly this one diagnostic; every code of the two lists occurs.", "quantifier": "all reachable projects and all files stored in them", "why_tests_cant": "tests look at chosen texts; the absence of a code needs all texts", "anchors": ["ginko/src/dts/parser.rs", "ginko/src/dts/analysis.rs", "ginko/src/dts/project.rs", "ginko/src/dts/error_codes.rs"]}
{"id": "C91", "title": "Each mistake that has a code is reported", "statement": "A label of a property used where a node is needed gives property_referenced_by_node, and parentheses left open give unbalanced_parentheses.", "quantifier": "all reachable projects and all files stored in them", "why_tests_cant": "that a diagnostic is never given cannot be seen in examples", "anchors": ["ginko/src/dts/error_codes.rs", "ginko/src/dts/analysis.rs", "ginko/src/dts/parser.rs"]}
{"id": "C92", "title": "Labels can be renamed", "statement": "If the labels of a text and the references to them are renamed so that different labels stay different, the text gets the same diagnostics as before (apart from places), and each new name means what the old one meant. For files in which no label that is opened is on two nodes, and labels that the other files of the project do not use.", "quantifier": "all texts without unknown characters whose labels are legal before and after, all injective renamings, layouts, projects, iteration orders", "why_tests_cant": "a test can rename one label in one file", "anchors": ["ginko/src/dts/parser.rs", "ginko/src/dts/analysis.rs"]}
{"id": "C93", "title": "Names get exactly the complaints they deserve", "statement": "When a file is read to its end, the diagnostics about names (illegal character, name too long, name expected, illegal start, empty path) are, in order, exactly those that the labels, property names, node names, unit addresses and references of the syntax tree deserve: at most one per name, with the right code, place, file and message. Legal names get none.", "quantifier": "all UTF-8 texts that are read to the end, with whatever other mistakes", "why_tests_cant": "a test compares the diagnostics of one text", "anchors": ["ginko/src/dts/parser.rs", "ginko/src/dts/diagnostics.rs"]}
{"id": "C94", "title": "Tolerated mistakes get one diagnostic each", "statement": "An /omit-if-no-ref/ before a property, a property after a node, a semicolon after an include directive and a missing semicolon do not stop the reading: the file gives the tree that is written there, and in order exactly one diagnostic for each mistake, with its code, place and message (the place of a missing semicolon excepted). The codes incorrect_directive and parser_error are used for nothing else.", "quantifier": "all texts that are grammatical up to any number of these mistakes; for the last sentence all UTF-8 texts", "why_tests_cant": "a test tries one mistake at a time", "anchors": ["ginko/src/dts/parser.rs"]}
{"id": "C95", "title": "An error is reported at the first token with which the text goes wrong", "statement": "If reading stops with an error other than \"unexpected end of file\" and nothing else was reported, the error is about one token: it starts at that token or in the white space and comments in front of it. The part of the text before the token is not at fault: alone it is accepted or only ends too early, and it can be continued to an accepted text, unless it breaks off in a property behind a node or the like. With the token it is at fault: the same error is reported there whatever follows the token.", "quantifier": "all UTF-8 texts, all continuations", "why_tests_cant": "a test compares one diagnostic with the expected one; it does not ask whether the text before it could have been continued and whether some continuation behind it helps", "anchors": ["ginko/src/dts/parser.rs"]}
{"id": "C96", "title": "The editor and the command line tool report the same", "statement": "If every document is saved, then for every file that ginko prints diagnostics for, run with the same include directories on a file the editor has open, the editor shows exactly these diagnostics.", "quantifier": "all file systems, include directories, histories of the editor session, texts and hash orders", "why_tests_cant": "a test runs one of the two programs on a few files; it does not compare sessions of any length with runs of the tool", "anchors": ["ginko/src/main.rs", "ginko_ls/src/server.rs", "ginko/src/dts/project.rs"]}
{"id": "C97", "title": "Silence means correct sources, and correct sources meet silence", "statement": "The tool reports nothing about a device-tree source exactly if the sources are correct: each file reached by includes is derived by the grammar, has its header in place, opens and deletes only nodes declared before, refers only to labels and paths that are written somewhere in it or in what it includes, gives only strings to compatible, includes only files that exist, and no file includes itself, directly or not.", "quantifier": "all file systems, include directories, file names, texts and hash orders", "why_tests_cant": "a test compares the output for some sources with expectations; that silence is given for no incorrect source and for each correct one speaks about all sources", "anchors": ["ginko/src/dts/analysis.rs", "ginko/src/dts/project.rs", "ginko/src/dts/parser.rs", "ginko/src/main.rs"]}
{"id": "C98", "title": "What the iteration order of hash maps can change in an analysis", "statement": "Over all iteration orders, the results of analysing a file are exactly these: wherever a label is opened, any node that carries it at that place may be taken; wherever an include closes a cycle, any cycle through it that repeats no file and has no shortcut may be named; all else is determined by the file, the project and the includes recorded before.", "quantifier": "all file systems, projects, files, file types, recorded includes and iteration orders", "why_tests_cant": "a test runs with one seed of the hasher; which results other seeds give, and that each allowed result is given by one of them, is about all orders", "anchors": ["ginko/src/dts/analysis.rs", "ginko/src/dts/import_guard.rs"]}
{"id": "C99", "title": "Putting in a missing semicolon is a fix", "statement": "When a file parses with a complaint about a missing semicolon, a semicolon put behind the last token before the complaint takes away this complaint and nothing else: the tree is the same apart from positions, and the other diagnostics say the same, in the same order. The complaint lies behind that token with only blanks and comments between.", "quantifier": "all texts that parse, all complaints about a missing semicolon in them; the text has no unknown character as a token and no directive without its second slash at its end", "why_tests_cant": "the edit moves all later tokens and changes the state of the lexer in which they are read; a test sees one file", "anchors": ["ginko/src/dts/parser.rs", "ginko/src/dts/tokens/lexer.rs"]}
{"id": "C100", "title": "All missing semicolons can be put in", "statement": "For every file that parses, one semicolon for each complaint about a missing one can be put in, each directly behind a token, so that the new text has the same tree apart from positions and exactly the other diagnostics. If only semicolons are missing, the new text has no diagnostic.", "quantifier": "all texts that parse, with any number of missing semicolons; no unknown character as a token and no directive without its second slash at the end", "why_tests_cant": "the number of missing semicolons and their places are unbounded", "anchors": ["ginko/src/dts/parser.rs"]}
{"id": "C101", "title": "Deeply nested nodes do not exhaust the stack", "statement": "Reading a text needs only a fixed number of nested calls, so that no text can end the program by exhausting its stack.", "quantifier": "all texts, all limits on the number of nested calls", "why_tests_cant": "each limit is passed by some text; a test uses one text and the stack of one machine", "anchors": ["ginko/src/dts/parser.rs"]}
{"id": "C102", "title": "The language server does not block itself", "statement": "Whatever messages arrive together, on however many threads their handlers run, and however the lock around the project prefers writers to readers: the handlers never wait for each other for ever, and all of them come to an end.", "quantifier": "all lists of messages, all schedules, all numbers of threads, all preferences of the lock", "why_tests_cant": "a deadlock needs one particular interleaving among very many, which a test meets by chance only", "anchors": ["ginko_ls/src/server.rs"]}
{"id": "C103", "title": "Messages handled together are as good as handled one by one", "statement": "When messages are handled concurrently, the project and the answers to the requests are those that the messages give when they are handled one after the other; nobody sees a project that is half updated. If the handlers share one thread, as in tower-lsp, the order is that of their arrival.", "quantifier": "all lists of messages, all schedules, all numbers of threads", "why_tests_cant": "a torn read shows in few of the possible schedules; a test runs one", "anchors": ["ginko_ls/src/server.rs", "ginko/src/dts/project.rs"]}
{"id": "C104", "title": "On one thread the editor ends up with the current diagnostics", "statement": "Messages of all kinds arrive while others are still being handled, and their handlers share one thread, as in tower-lsp. Once all of them have finished, the client shows for every file of the project the diagnostics the project has for it, although publications of different handlers are mixed.", "quantifier": "all lists of messages, all interleavings on one thread", "why_tests_cant": "the stale result needs a particular interleaving of several handlers; a test client waits for each answer", "anchors": ["ginko_ls/src/server.rs"]}
{"id": "C105", "title": "What the parser makes of every text", "statement": "There is a grammar that includes every mistake the parser tolerates (bad numbers, tokens that are no cells, odd or bad byte strings, illegal names, misplaced properties and directives, missing semicolons, unknown characters in their place, labels that mean nothing) with the remark each one calls for. A text gives a tree exactly when this grammar derives something from its tokens; then the tree is the one derived, there is no other, and the diagnostics are the remarks, in order, with their code, place, source and message.", "quantifier": "all valid UTF-8 texts, all sources and include paths", "why_tests_cant": "the mistakes can be combined at will; a test looks at one text with a few of them", "anchors": ["ginko/src/dts/parser.rs"]}
{"id": "C106", "title": "What the parser says of every text it refuses", "statement": "There is a second grammar, of refusals: tolerated statements and then one place where the text ends too early or where a token cannot stand. A text gives no tree exactly when this grammar refuses it; the error then is \"Unexpected End of File\", or names the tokens that could have stood there, at that token (or in the white space and comments in front of it). With C105 it divides all texts, and a text has one refusal.", "quantifier": "all valid UTF-8 texts, all sources and include paths", "why_tests_cant": "there are infinitely many ways to be wrong after infinitely many tolerated mistakes", "anchors": ["ginko/src/dts/parser.rs"]}
{"id": "C107", "title": "Nothing is given up too early: every text that only ends too early has a continuation", "statement": "Take any text that does not break off inside a string, block comment, path or directive, with any mistakes in it. Some further lines make it a text that gives a tree exactly when it gives a tree already or the parser stops with \"Unexpected End of File\". So this error always means that something is missing, and every other error means that no continuation whatsoever is accepted.", "quantifier": "all valid UTF-8 texts a, all continuations b after a line break, all sources and include paths", "why_tests_cant": "whether some or no continuation among infinitely many is accepted is no finite check; texts with tolerated mistakes multiply the ways to get there", "anchors": ["ginko/src/dts/parser.rs", "ginko/src/dts/tokens/lexer.rs"]}
{"id": "C108", "title": "What the command line tool prints, from the files on the disk to the last character", "statement": "For every file system and every file given to the tool: over all iteration orders of the hash maps, the pairs of exit status and standard output that can come about are exactly those of a specification of whole runs. It says which files are read, what the parser reports of each, which includes cannot be followed, in which orders the files can be analysed, what each analysis reports given the ones before it, and how the reports are laid out.", "quantifier": "all file systems with finitely many readable files and stable canonical paths, all include directories, all file names, all iteration orders, debug and release builds", "why_tests_cant": "a run depends on the contents of all files and on hash orders that differ from run to run; a test sees one of them", "anchors": ["ginko/src/main.rs", "ginko/src/dts/project.rs", "ginko/src/dts/analysis.rs", "ginko/src/dts/parser.rs", "ginko/src/dts/diagnostics.rs"]}
{"id": "C109", "title": "What the language server publishes and answers in a whole session", "statement": "For every sequence of messages to the language server, handled one after the other, with a disk that may change between them: over all iteration orders of the hash maps, the sequences of published diagnostics that can come about are exactly those of a specification of sessions, and so are the answers to definition, hover and outline requests after them. The specification says which files a message reads from the disk, which stay as they are, in which orders the files can be analysed and with which results, what is published, and what closing a file does.", "quantifier": "all sequences of initialize, configuration, open, change and close messages, all file systems (one per message) with finitely many readable files and absolute canonical paths, all texts in UTF-8, all iteration orders", "why_tests_cant": "sessions have any length and depend on texts, the disk and hash orders; a leftover of an earlier message shows for particular sequences only", "anchors": ["ginko_ls/src/server.rs", "ginko/src/dts/project.rs", "ginko/src/dts/analysis.rs"]}
{"id": "C110", "title": "Parsing stops at the first token that makes the text hopeless", "statement": "When parsing ends with an error other than the end of the file, whatever was complained about before: the error is about a token behind some part of the text, such that this part alone gives a tree or only ends too early, and some continuation of it gives a tree; but with the token no continuation does: whatever stands behind it (as long as it stays the same token) parsing stops at it with the same message.", "quantifier": "all texts in UTF-8, all continuations", "why_tests_cant": "the error depends on everything in front of it, and the claim ranges over all texts with the same beginning", "anchors": ["ginko/src/dts/parser.rs", "ginko/src/dts/tokens/lexer.rs"]}
{"id": "C111", "title": "Every diagnostic of a file points into this file", "statement": "Each diagnostic that a project holds for a file, be it of the parser, about an include or of the analysis, names this file as its source, and its span lies in the text of this file; the span of a diagnostic of the analysis is exactly that of a part of the text. This holds after any history of additions and removals, whatever the disk was meanwhile.", "quantifier": "all texts in UTF-8, all projects reached by additions and removals, all iteration orders", "why_tests_cant": "a diagnostic at a wrong place needs a particular combination of tree and history; the places depend on the whole text", "anchors": ["ginko/src/dts/analysis.rs", "ginko/src/dts/project.rs", "ginko/src/dts/ast.rs"]}
{"id": "C112", "title": "Reformatting the files of a project changes only places in what the tool prints", "statement": "If any of the files on a disk are laid out differently (same tokens, none of them an unknown character, other blanks, line breaks and comments), then to each run of the command line tool there is a run on the other disk with the same exit status that reports, file by file in the same order, the same complaints with the same severity and message; only the places and the lines of code shown beside them differ.", "quantifier": "all pairs of disks with the same files in two layouts, all include graphs, arguments, hash iteration orders; release build", "why_tests_cant": "Layouts and include graphs are both unbounded, and a dependence on a place somewhere between lexer and printer shows only for particular combinations of several files.", "anchors": ["ginko/src/main.rs", "ginko/src/dts/project.rs", "ginko/src/dts/analysis.rs", "ginko/src/dts/parser.rs", "ginko/src/dts/tokens/lexer.rs"]}
{"id": "C113", "title": "Reformatting documents changes only places in what the language server publishes", "statement": "If in a session of the language server the opened and changed documents, and the files on the disk, are laid out differently (same tokens, none of them an unknown character), then the server can publish the same remarks (message, code, severity) for the same documents in the same order, apart from the ranges; and the outline of every document has the same names, kinds and nesting.", "quantifier": "all sessions of opening, changing, closing and configuring, all disks, all pairs of layouts, all hash iteration orders", "why_tests_cant": "Histories, include graphs and layouts are all unbounded; a dependence on a place shows only in particular combinations.", "anchors": ["ginko_ls/src/server.rs", "ginko/src/dts/project.rs", "ginko/src/dts/analysis.rs", "ginko/src/dts/parser.rs"]}
{"id": "C114", "title": "Hovering over the same place says the same in every layout", "statement": "If the documents of a session and the files on the disk are laid out differently (same tokens, none of them an unknown character), then hovering over a reference, a label or an include in one layout gives the same answer as hovering over its counterpart in the other, and hovering beside all of them gives the same, too.", "quantifier": "all sessions, disks, pairs of layouts, documents and pairs of corresponding cursor positions; all hash iteration orders", "why_tests_cant": "The answer depends on the whole history, the include graph and the place of every element; tests try single cursor positions in single texts.", "anchors": ["ginko_ls/src/server.rs", "ginko/src/dts/visitor.rs", "ginko/src/dts/project.rs", "ginko/src/dts/analysis.rs"]}
{"id": "C115", "title": "The number of diagnostics is bounded by the size of the text", "statement": "A file never gets a flood of diagnostics: parsing a text makes at most one diagnostic for every byte and one for the error that ends it; analysing its tree makes at most two for every byte and one for a missing header, however many files it includes and however they contradict it; so a file held in a project has at most three per byte, and one.", "quantifier": "all texts, include paths, projects, file systems, histories of additions and removals, hash iteration orders", "why_tests_cant": "A quadratic cascade (one mistake reported again by every enclosing construct, or every diagnostic of an included file repeated in the including one) shows only on particular combinations of faults; a test sees the combinations it has.", "anchors": ["ginko/src/dts/parser.rs", "ginko/src/dts/analysis.rs", "ginko/src/dts/project.rs"]}
{"id": "C116", "title": "Going to a definition leads to the same node in every layout", "statement": "If the documents of an editor session and the files on the disk are reformatted (same tokens, other blanks, line breaks and comments), going to the definition from the same reference or include names the same file, and for a reference the place answered is the name of the same node: the one with the same number in the two layouts of a text that file had at the same moment of the two sessions. The request panics in neither.", "quantifier": "all sessions, message texts, disks, positions, hash iteration orders of both sessions (for every first session there is a second)", "why_tests_cant": "The answer depends on the whole history of the session, on which analysis of which version of the included file is still stored and on hash orders; a test compares two layouts of one session.", "anchors": ["ginko_ls/src/server.rs", "ginko/src/dts/project.rs", "ginko/src/dts/analysis.rs", "ginko/src/dts/visitor.rs"]}
{"id": "C117", "title": "Files written while an operation runs are each seen as they were at one moment", "statement": "While a file is added, the tool runs or the server handles a message, other programs may write files. As long as names keep leading to the same paths and a file that cannot be read stays so, the outcome is the one on a disk that stands still and has each file as it was at one moment during the operation: no file is seen half in one version and half in another. Sessions of messages with such interruptions are sessions on disks that change only between messages.", "quantifier": "all courses of the disk (one state per system call), file contents, include graphs, projects, messages, hash iteration orders, outcomes including panics", "why_tests_cant": "The moments at which other programs write are up to the scheduler; an operation makes any number of system calls, and a test can place only a few writes between a few of them.", "anchors": ["ginko/src/dts/project.rs", "ginko/src/dts/analysis.rs", "ginko/src/dts/ast.rs", "ginko/src/main.rs", "ginko_ls/src/server.rs"]}
{"id": "C118", "title": "An addition survives whatever happens to the disk meanwhile", "statement": "Whatever other programs do to the disk while a file is added (create, remove, rename, rewrite), the addition ends without a panic if it would on the disk before and on the disk after, old files keep their text, new files have a text that was on the disk during the operation, and each stored tree and its diagnostics belong to the text stored with them.", "quantifier": "all courses of the disk with finitely many files, projects reached through such additions, texts, include graphs, hash iteration orders", "why_tests_cant": "The interleavings of another program with the system calls of an addition are unbounded and hardly to be produced on purpose in a test.", "anchors": ["ginko/src/dts/project.rs", "ginko/src/dts/analysis.rs", "ginko/src/dts/ast.rs"]}
{"id": "C119", "title": "Windows line ends do not matter", "statement": "If some or all line feeds of the files are preceded by a carriage return (as editors on Windows write them), the parser gives the same tree and the same diagnostics at the same lines and columns, the tool prints the same bytes and ends with the same status, and the server publishes and answers the same in every session.", "quantifier": "all texts and all subsets of their line feeds, all projects and include graphs, include directories, sessions of messages, positions of requests, hash iteration orders that depend on file names only", "why_tests_cant": "Every combination of line ends in every text is a different input with different byte offsets; a test can compare a few files saved in both ways.", "anchors": ["ginko/src/dts/reader.rs", "ginko/src/dts/tokens/lexer.rs", "ginko/src/dts/parser.rs", "ginko/src/dts/project.rs", "ginko/src/dts/diagnostics.rs", "ginko/src/main.rs", "ginko_ls/src/server.rs"]}
{"id": "C120", "title": "A label nobody refers to can be left out", "statement": "If labels that no reference in any file names are written over with spaces, in files without syntax errors, every file still parses to the same tree but for these labels, a project reports the same diagnostics for every file, and the server publishes the same and answers every go-to-definition and hover the same, unless the cursor is on such a label.", "quantifier": "all sets of labels, texts, projects and include graphs, sessions of messages, disks, cursor positions, and hash iteration orders that do not depend on the labels", "why_tests_cant": "Every set of labels in every set of files is another input; whether a label is used is a property of the whole project; a test removes a few labels from a few files.", "anchors": ["ginko/src/dts/tokens/lexer.rs", "ginko/src/dts/parser.rs", "ginko/src/dts/analysis.rs", "ginko/src/dts/project.rs", "ginko/src/dts/visitor.rs", "ginko_ls/src/server.rs"]}
{"id": "C121", "title": "A byte order mark does not matter", "statement": "A file that starts with the UTF-8 byte order mark (as some editors write it) is treated like the same file without it.", "quantifier": "all texts behind the mark, all projects the file is added to, all disks and iteration orders", "why_tests_cant": "The statement is about every text that may follow the mark and every project around the file; a test can try a few files.", "anchors": ["ginko/src/dts/reader.rs", "ginko/src/dts/tokens/lexer.rs", "ginko/src/dts/parser.rs", "ginko/src/dts/project.rs"]}
{"id": "C122", "title": "A line #include \"file\" brings in the file", "statement": "Definitions in a file named by a #include \"...\" line, which the parser accepts, are known to the including file like those of /include/.", "quantifier": "all texts, places of such lines, projects, sessions, disks and iteration orders", "why_tests_cant": "Whether definitions are visible depends on all files of a project; a test looks at a few projects.", "anchors": ["ginko/src/dts/parser.rs", "ginko/src/dts/ast.rs", "ginko/src/dts/analysis.rs", "ginko/src/dts/project.rs", "ginko_ls/src/server.rs"]}
{"id": "C123", "title": "Root blocks can be taken apart", "statement": "Writing the contents of one root block / { ... }; as two root blocks, one after the other, changes no diagnostic of any file and no answer of the server.", "quantifier": "all texts and places between two items of a root block, all projects, sessions, disks and iteration orders", "why_tests_cant": "The analysis of a project depends on all its files in any order; a test can compare a few pairs of projects.", "anchors": ["ginko/src/dts/parser.rs", "ginko/src/dts/analysis.rs", "ginko/src/dts/visitor.rs", "ginko/src/dts/project.rs", "ginko_ls/src/server.rs"]}
{"id": "C124", "title": "What values hold does not matter", "statement": "Putting other numbers into cells, memory reservations and /bits/ prefixes, other bytes into byte strings and other strings into property values, at the same positions, changes no diagnostic of any file, no publication and no answer or outline of the server.", "quantifier": "all texts without syntax errors and all replacements of numbers (of 32 bits in cells, of 64 bits in reservations), bytes and strings that are not file names, all projects, sessions, disks and iteration orders", "why_tests_cant": "There are infinitely many texts and values; a test compares a few pairs.", "anchors": ["ginko/src/dts/parser.rs", "ginko/src/dts/analysis.rs", "ginko/src/dts/visitor.rs", "ginko/src/dts/project.rs", "ginko_ls/src/server.rs"]}
{"id": "C125", "title": "What properties are called does not matter", "statement": "Giving properties other legal names of the same length, where neither the old nor the new name is compatible, changes no diagnostic of any file, no publication, no definition and no hover text of the server; outlines change in the names of the properties only, and the command line tool ends with the same status and prints the same but for the quoted lines.", "quantifier": "all texts without syntax errors and all such renamings (together with other values as in C124), all projects, sessions, disks and iteration orders", "why_tests_cant": "There are infinitely many texts and names; a test tries a few names and cannot exclude that another one is treated specially.", "anchors": ["ginko/src/dts/parser.rs", "ginko/src/dts/analysis.rs", "ginko/src/dts/visitor.rs", "ginko/src/dts/project.rs", "ginko_ls/src/server.rs"]}
{"id": "C126", "title": "Including a file again does no harm", "statement": "When a file is included a second time, with nothing defined or included in between, the analysis of the including file gives the same meaning to every label and path and the same diagnostics, but for at most one at the second include, of the same kind as the one at the first.", "quantifier": "all files and projects, all places of the two includes with only directives that define and include nothing in between, all histories of includes; results compared over all iteration orders of the hash maps", "why_tests_cant": "There are infinitely many files; what a second include overwrites depends on everything defined before and behind it.", "anchors": ["ginko/src/dts/analysis.rs", "ginko/src/dts/import_guard.rs"]}
