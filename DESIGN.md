# Formal model of ginko in Rocq (Coq 8.16.1)

ginko (a device-tree-source parser, checker and language server) is modelled in executable Gallina with
the standard library only, and the properties of `properties.jsonl` are proved for all inputs, states
and executions of the model. `MANIFEST.json` lists the theorems per property; this file says what the
model covers, how each property is proved and what is trusted.

## Trusted base

* The kernel of Coq 8.16.1, including its virtual machine (`vm_compute` closes the computed witnesses of
  the refutations and the examples).
* Axioms: none. `Print Assumptions` follows every property theorem and answers
  "Closed under the global context" for each of them. The loaded part of the standard library contains
  seven axioms of `Coq.ssr.ssrunder.Under_rel` (`Under_rel`, `Under_rel_from_rel`, `Under_relE`,
  `Over_rel`, `over_rel`, `over_rel_done`, `under_rel_done`), which come with `ssreflect`'s module type
  for `under` (loaded through `Lia`/`ZifyBool`); no theorem uses them.
* The model: that each definition says what the cited Rust lines do. Nothing is extracted or run against
  the Rust program (no network, no dependencies). `Tests.v` and `TestsMore.v` run the model on the inputs of all
  unit and integration tests of ginko and compare with the expectations written there, which is a test of the
  transcription and not a proof.
* The statements: definitions in `*Spec.v`, `Grammar.v`, `Meaning.v` and at the head of the `Props*.v` files.

## What is modelled

One model file per Rust module, one definition per function; each definition cites its lines.

| model file | Rust file | contents |
|---|---|---|
| Base.v | Rust std | bytes, ASCII classes, UTF-8 check, `chars`, `split`, number printing, `from_str_radix` |
| Data.v | data.rs | `Position`, `Span`, `FileType`, association lists for `HashMap` |
| Token.v | tokens/token.rs | token kinds and their display |
| Reader.v, ReaderIndexed.v | reader.rs | the byte reader, on the rest of the text and, as in the code, on an index (proved equal) |
| Lexer.v | tokens/lexer.rs | lexer, peeking lexer |
| Diag.v | error_codes.rs, diagnostics.rs | diagnostics, messages, severities |
| Ast.v, Display.v | ast.rs | syntax tree with spans, `Display` |
| Visitor.v | visitor.rs | item at a cursor |
| Parser.v | parser.rs | the whole parser, including recovery |
| ImportGuard.v | import_guard.rs | cycle detection |
| Analysis.v | analysis.rs | semantic checks of a file |
| Project.v | project.rs | files, include loading, analysis order, lookups |
| Printer.v, Cli.v | diagnostics.rs, main.rs | printing, the command line tool |
| Server.v | ginko_ls/src/server.rs | notifications, requests, symbols; interleaved handlers |
| Live.v, LiveAsk.v | project.rs, analysis.rs, ast.rs (Include::path), main.rs, server.rs | the operations again, each call of the operating system at a moment of its own on a disk that other programs change |
| LsMain.v | ginko_ls/src/main.rs | start of the language server with its arguments |
| Config.v | ginko_ls/src/server.rs | decoding of the configuration from a JSON value |

Choices common to all files:

* Bytes are `N`, a Rust `String` is its list of UTF-8 bytes. Positions count bytes as in the code.
  `u32` positions are unbounded `N`; C54 bounds them by the length of the text.
* A panic (`unwrap`, `expect`, index out of range, failed `debug_assert` where it matters) is the outcome
  `Panic`. Loops and recursion run on fuel; the outcome `NoFuel` is proved unreachable
  (C02, C09, C23, C35).
* `HashMap`/`HashSet` are association lists; wherever the code iterates over one, the model asks an
  oracle that may permute the list differently each time, and the theorems quantify over it.
* The file system is a parameter (`canonicalize`, `read`), fixed during one operation; theorems
  quantify over it and over its changes between operations.
* Handlers of the server run one after the other in C47–C50 and C60–C65, interleaved at each
  await and lock in C52, and with the lock, its guards and a number of threads in C102, C103 and C104.

## What is not modelled

Stack depth and memory exhaustion; the JSON-RPC transport, cancellation and scheduling of tower-lsp and tokio
(handlers are run by any schedule; an await ends when the schedule polls the handler again); clap's argument parsing; JSON text (settings are JSON values);
percent-encoding of URLs (a file URL is its path); Windows paths; `Debug` output; `cfg(test)` helpers.
The texts handed to the library are assumed to be valid UTF-8, which the type `String` guarantees.

## How the proofs are organised

* Lexer: `LexSpec.v` defines spellings of tokens, gaps and the relation `lexed` between a text and its tokens
  without mentioning the lexer; `LexerProofs*.v` prove that the lexer computes it.
* Parser: `ParserBase.v` a Hoare logic (`wp`) for the parser monad with a ghost view of the unread tokens;
  `ParserSafe*.v` totality and places of diagnostics; `TreeProofs.v` nesting of spans;
  `TokParser.v`/`ParserSim.v` a parser on token lists that the parser is proved to simulate;
  `Grammar.v` an inductive grammar, `GrammarSound.v`/`GrammarComplete.v` both directions;
  `ParserReport.v` which diagnostics occur; `PropsSemicolon.v` recovery places; `Reformat.v`
  a self-simulation for texts with the same tokens.
* Analysis: `AnalysisSpec.v` lists of definitions, references and headers in source order;
  `AnalysisProofs.v` the folds compute them.
* Project: `ProjectSpec.v`, `ProjectProofs*.v` the include closure by an invariant of the recursive loader;
  `ProjectOrder.v` the analysis order; `ProjectHistory.v` invariants of every project reached by additions
  and removals over changing file systems.
* Server: `ServerProofs.v` the invariant of all served states.
* Properties the code violates are stated in full in `properties.jsonl`, refuted by a computed witness
  (`…_refuted`) and proved under a guard as weak as we found (`…_partial`), or replaced by the exact
  behaviour.
* Every property theorem has an example beside it that meets its hypotheses.
* The theorems were tested by editing the model like realistic bugs; `seeded/LOG.jsonl` has one line
  per attempt.

## Per property

* **C01 Reader positions are exact** (proved). Reader.v, induction on the number of reads; ReaderIndexed.v refines to the index based reader. Theorems: `C01_reader_exact`. All texts, any number of reads.
* **C02 Tokenising never panics** (proved). LexerProofs.v: every reachable lexer stands at a boundary from which each slice it decodes is cut at ASCII bytes (Utf8.v). Theorems: `C02_lexing_never_panics`, `C02_tokenize_total`. Every lexer state reachable by consume/next/insert_pseudo_kind on a valid UTF-8 text.
* **C03 Tokens are non-empty, ordered, disjoint and inside the text** (proved). LexerProofs2.v: spans of consecutive tokens, by the invariant that the reader position is that of the consumed prefix. Theorems: `C03_tokens_ordered`, `C03_end_is_final`. Every valid UTF-8 text.
* **C04 Tokenisation is lossless** (proved). LexSpec.v relation `lexed`, sound and complete for the lexer. Theorems: `C04_lossless`, `C04_position_determines_prefix`. tokenize computes exactly the relation lexed of LexSpec.v (soundness and completeness).
* **C05 Layout does not matter** (proved). Completeness of `lexed` on concatenated spellings. Theorems: `C05_layout_irrelevant`. A '/' token must be followed by white space rather than directly by a comment; every token is followed by a non-empty gap.
* **C06 String literals denote their text** (partial). Induction on the text against the escape function of the specification; witness for Latin-1. Theorems: `C06_strings_refuted`, `C06_strings_partial`. The full statement is false of the code: non-ASCII bytes are pushed as Latin-1 characters (lexer.rs string). Proved: the literal always lexes to one string token and its value is the text exactly when the text is ASCII.
* **C07 No input is silently ignored** (partial). C04 and C10 together: all tokens are used and only the tail may be unfinished; witness for the tail. Theorems: `C07_silent_tail_refuted`, `C07_no_input_ignored_partial`, `C07_settled`, `C07_tails_are_silent`. The full statement is false: an unterminated string, comment or path reference at the end of the text (or a lone ampersand) is dropped silently (witness proved). Proved: on a clean parse everything except such an unterminated tail is covered, and all tokens are used by the tree. C07_settled: texts that do not break off (ends_settled) are covered completely. C07_tails_are_silent: every unterminated tail behind a clean text is lost without a diagnostic.
* **C08 Peeking is transparent** (proved). Invariant of the peeked slot, induction on the calls. Theorems: `C08_peek_transparent`. Every text and every sequence of peek/next calls.
* **C09 Parsing terminates without panic** (proved). wp-calculus: no throw escapes as panic and fuel decreases with the unread bytes. Theorems: `C09_parse_total`. For every valid UTF-8 text the model of Parser::from_text(..).file() returns Ok or Err; panics and fuel exhaustion are unreachable. Stack depth is not modelled.
* **C10 A clean parse is a derivation** (proved). Simulation by the token parser, then induction on fuel (GrammarSound.v). Theorems: `C10_clean_parse_derives`. Grammar over tokens in Grammar.v, independent of the parser; it includes the tool's extensions (labels around values, parenthesised expressions, /bits/ with any number, '+d' byte pairs).
* **C11 Every grammatical file parses cleanly** (proved). Induction on derivations (GrammarComplete.v). Theorems: `C11_grammatical_parses_clean`. Same grammar as C10; unambiguity follows.
* **C12 Names in a clean tree are legal** (proved). NameProofs.v: characterisation of the silent name checks; follows the grammar. Theorems: `C12_names_legal`. Also the reserved node name __symbols__ is legal.
* **C13 Cell integers have their mathematical value** (proved). NumProofs.v: `from_str_radix` against positional value; ParserReport.v: one report per bad token. Theorems: `C13_cells_exact`, `C13_no_other_diagnostics`, `reports_exact`. For every successful parse, also with other diagnostics; exactly one or zero integer diagnostics with the span of the token.
* **C14 Memory reservation integers have their mathematical value** (proved). As C13. Theorems: `C14_memreserve_exact`, `reports_exact`. As C13.
* **C15 Byte strings decode as hexadecimal** (partial). As C13 for digit pairs; witness '+c'. Theorems: `C15_plus_refuted`, `C15_bytes_exact_partial`, `reports_exact`. False for elements with a plus sign: '+c' decodes to 0x0c (witness proved). Proved exactly for all other elements; reports_exact covers elements with '+' too (byte_text).
* **C16 Diagnostics point into the file** (proved). ParserSafe.v invariant on all pushed and thrown diagnostics. Theorems: `C16_diagnostics_inside`. All pushed diagnostics and the returned error: source is the file, start <= end <= end of text.
* **C17 Spans in the tree nest** (proved). TreeProofs.v: spans of consumed tokens in order, induction on the parser. Theorems: `C17_spans_nest`. file_nested (TreeSpec.v). For a property whose semicolon is missing the code takes the '=' as its end; there the values are only ordered after the name, not inside the span (stated in prop_nested).
* **C18 Property-after-node diagnostics are exact** (proved). ParserSim.v/ParserReport.v: list of reports equals a function of the tree. Theorems: `C18_property_after_node`. List equality of spans and sources, in source order.
* **C19 A missing semicolon is recovered** (partial). Grammar with optional semicolons; token parser run on the damaged list. Theorems: `C19_missing_semicolon_refuted`, `C19_missing_semicolon_partial`. False for properties without values (witness proved) and for a label following values. Proved for every statement with a recoverable end: success, tree of the repaired token list up to end tokens, exactly one diagnostic per missing semicolon.
* **C20 Node names and paths round-trip through text** (proved). Induction on components. Theorems: `C20_name_round_trip`, `C20_path_round_trip`, `C20_text_normal`. Also: displaying what was parsed from any text is a fixed point. The side conditions are shown to be needed by an example.
* **C21 Displayed cell lists, references and clean strings parse back** (partial). Display then lex (C05) then derive (C11); conversely, what reads back as itself is followed through the display token by token (PropsDisplayOnly.v). Theorems: `C21_exact`, `C21_value_round_trip_partial`, `C21_refuted`. False for strings with quotes, backslashes or non-ASCII characters and bytes below 16 (C21_refuted). C21_exact: every property value, whatever it contains, reads back from its display exactly if it is in value_ok (ASCII strings without quote and backslash, legal references starting with a letter, u32 cells, expressions, non-empty groups of bytes >= 16).
* **C22 Displayed trees parse back** (partial). As C21 for trees; witnesses. The converse: a text that is the display of its own tree; quotes are counted to rule out inclusions with #, everything else is read forward. Theorems: `C22_exact`, `C22_display_is_text`, `C22_refuted`, `C22_plain_partial`. False in general: property labels and omit flags are dropped, deleted items lack a semicolon, memreserve has two, #include lacks quotes, bytes below 16, quotes, backslashes and non-ASCII characters in strings (C22_refuted). C22_exact: a cleanly parsed tree reads back from its display exactly if it contains none of these. C22_display_is_text: the display of a cleanly parsed file is valid UTF-8.
* **C23 Cyclic includes are detected exactly** (proved). GuardProofs.v: DFS invariant for every neighbour order. Theorems: `C23_cycle_iff`. Every history of additions and every hash iteration order.
* **C24 A reported import cycle is real** (proved). Parent map is a tree rooted at the start, and a parent is the first visited node with an edge, so no shortcut. Converse (GuardSteer.v): the next node of the wanted cycle is iterated last, so that it is on top of the stack. Theorems: `C24_reported_cycle_is_real`, `C24_exact`. The reported list starts and ends at the added element, follows dependency edges, repeats no other node and has no shortcut. C24_exact: exactly these cycles are reported for some iteration order.
* **C25 The import guard stays silent exactly on acyclic graphs** (proved). From C23 by induction on additions. Theorems: `C25_silent_iff_acyclic`. Every history and iteration order.
* **C26 Labels resolve to their last definition** (proved). Fold over the tree against the list of definitions in source order. Theorems: `C26_label_lookup`, `C27_root_lookup`.
* **C27 Paths resolve to their last definition** (proved). As C26 for paths. Theorems: `C27_path_lookup`, `C27_root_lookup`.
* **C28 Unresolved property references are reported exactly** (proved). Filter of the list of references, all definitions known. Theorems: `C28_unresolved_exact`.
* **C29 Includes, overlays and plugins are not blamed for outside references** (proved). Invariant of the file context. Theorems: `C29_not_blamed`.
* **C30 Version header rules** (proved). Fold over the top-level elements. Theorems: `C30_headers`.
* **C31 Non-string compatible values are reported exactly** (proved). Structural induction. Theorems: `C31_compatible_exact`.
* **C32 Analysis does not depend on hash order** (partial). Two runs with different oracles related step by step; witness. Theorems: `C32_hash_order_refuted`, `C32_hash_order_partial`, `C32_cycle_refuted`. False as stated: opening a label that several nodes carry picks one in hash order, and the cycle named in a cyclic-include message is picked in hash order when a file lies on several cycles (C32_cycle_refuted). Proved when each opened label is on at most one current node, up to the text of the cycle message. Exactly which results are possible is C98.
* **C33 Extending a labelled node resolves when the label is defined** (partial). As C26 with the definitions before the element; witness. Theorems: `C33_reopened_refuted`, `C33_reopened_partial`. False as stated: a node re-opened without its label hides the label. Proved: reported exactly if no node that is the last at its path carries the label.
* **C34 Included definitions are visible** (proved). Map extension lemmas. Theorems: `C34_included_visible`.
* **C35 Adding a file terminates** (proved). Measure: files of the disk not yet loaded. Theorems: `C35_terminates`, `C35_parsed_once`. Recursion depth is fuel; some depth suffices and all larger ones agree. Finite file systems. Stack use is not modelled.
* **C36 The include closure is loaded** (proved). Loader invariant, both inclusions. Theorems: `C36_closure`, `C36_from_empty`, `C36_add_file`. C36_closure covers every reached project, C36_from_empty the empty one.
* **C37 Adding an existing file never panics** (partial). Exact characterisation of failing lookups in the order computation. Theorems: `C37_panic_exact`, `C37_refuted`, `C37_removal_refuted`, `C37_no_panic_partial`, `C37_additions_partial`. False as stated: an include that exists but cannot be read, or a removed include, makes the next addition panic. The exact condition for a panic is proved.
* **C38 Includes are analysed before their includers** (partial). Order loop on two-level graphs; for every other graph a hash order that puts a file before one it includes is constructed (C38_exact). Theorems: `C38_exact`, `C38_refuted`, `C38_diagnostics_refuted`, `C38_shared_refuted`, `C38_flat_partial`. False as stated for includes of depth two and for partially shared includes. C38_exact: an addition analyses included files first for every hash order exactly if no included file includes and files with a common includer have the same includers. C38_flat_partial: the order then, file by file.
* **C39 Adding a file changes only what it must** (proved). Frame invariant of loader and analysis. Theorems: `C39_frame`.
* **C40 Removing a file removes exactly this file** (proved). Map removal. Theorems: `C40_remove`. Paths are compared by their canonical form, as in the code.
* **C41 No parser diagnostic is lost** (partial). From C39; witness. Theorems: `C41_refuted`, `C41_kept_partial`, `C41_reported_partial`. False as stated: the diagnostics before an unrecoverable error are dropped. Everything else is kept.
* **C42 The exit status tells whether diagnostics were found** (partial). Direct from Cli.v; witness. Theorems: `C42_inverted`, `C42_refuted`. The claim is false in both directions: main.rs exits with 0 and prints OK exactly if a diagnostic was found (C42_refuted, C42_inverted).
* **C43 Printed diagnostics underline their span** (partial). Printer.v against the lines of the text; witnesses. Theorems: `C43_underline_partial`, `C43_release_total`, `C43_debug_exact`, `C43_refuted`, `C43_column_refuted`, `C43_column_exact`. One-line spans whose line is ASCII up to the start are printed exactly as claimed. Refuted otherwise: multi-line spans panic in debug builds and can print 2^32 carets in release builds; behind non-ASCII characters the carets are misplaced. C43_column_exact: what is printed for every one-line span of every text; the carets stand in the right column exactly if the line is ASCII up to them or ends there.
* **C44 Cursor lookup is sound** (partial). Structural induction; witness. Theorems: `C44_found`, `C44_sound_partial`, `C44_refuted`, `C45_exact`. Sound for every tree without top-level deletions and omissions; those are returned for every cursor (C44_refuted). C45_exact says what is found for every cursor in every parsed text.
* **C45 Cursor lookup is complete** (partial). Spans of spots are disjoint (C17); structural induction; witness. Theorems: `C45_spots_disjoint`, `C45_complete_partial`, `C45_refuted`, `C45_exact`. Complete up to and including the first top-level deletion or omission of the file; elements behind it are shadowed (C45_refuted). C45_exact: for every cursor the answer is the item under it before or in that element, else its reference, else nothing.
* **C46 Document symbols are well-formed** (proved). From C17, structural induction. Theorems: `C46_well_formed`, `C46_one_per_element`, `C46_served`. The symbols of every parsed file are well nested and in source order, and their pre-order outline is that of the tree.
* **C47 Published diagnostics are the current ones** (proved). Server invariant; last publication per file. Theorems: `C47_open_published`, `C47_change_published`, `C47_stored`, `C47_no_panic`. For every history of notifications handled one after the other. Current diagnostics are those of Project::get_diagnostics; for files that still exist under their canonical path these are the stored ones (C47_stored).
* **C48 Closing a file clears its diagnostics** (partial). Direct; witness. Theorems: `C48_refuted`, `C48_kept`, `C48_kept_later`. False: closing sends nothing (C48_refuted). Exact behaviour: the diagnostics shown stay as they are, also after later notifications.
* **C49 did_change applies the newest text** (partial). Direct; witness. Theorems: `C49_refuted`, `C49_first_only`, `C49_empty_refuted`, `C49_single_partial`. False for several changes: the first one is used (C49_refuted). True for one change (C49_single_partial).
* **C50 Go to definition lands on the definition** (proved). Server invariant and C26/C27. Theorems: `C50_definition`, `C50_no_panic`. The answer is the place of the name of the node the reference means by the definitions of the analysed file, in the text it was parsed from. See C64 for stale texts.
* **C51 Severities and errors in includes** (proved). Case analysis; severities are constant in reached projects. Theorems: `C51_errors_in_include`, `C51_levels`. C51_levels holds in every reached project.
* **C52 Concurrent notifications leave the client up to date** (partial). Interleaving semantics, invariant over schedules; witness schedule. The atomic steps are justified by the refinement of C103 (C52_runs_with_locks). Theorems: `C52_refuted`, `C52_interleaved_partial`, `C52_updates_first_partial`, `C52_honest`, `C52_runs_with_locks`. False: a handler suspended between reading and sending publishes stale diagnostics last (C52_refuted). True for every schedule in which no update comes between the reading and the sending of the diagnostics of one file (C52_interleaved_partial), in particular if all updates come first. In every schedule only diagnostics of states the project had are sent (C52_honest). C52_runs_with_locks: the runs of the handlers with their locks and awaits are among those considered here. On one thread the client ends up to date in every schedule: C104.
* **C53 File types follow the extension** (proved). String reasoning; loader invariant. Theorems: `C53_file_type`, `C53_included`, `C53_added`. C53_included: the types stored by an addition.
* **C54 Positions do not overflow** (proved). From C03/C16/C17. Theorems: `C54_positions_bounded`. Positions after any number of reads, of all tokens, of all diagnostics and of all tokens stored in a tree are bounded by the text length.
* **C55 Expected-token messages name the expected token** (partial). Case analysis of `expect`; witness. Theorems: `C55_open_brace_partial`, `C55_open_brace_refuted`. False in the code: the message names the token that was found (witness). Proved: kind, exact place (end of the header, before the found token) and the exact message.
* **C56 Illegal-character diagnostics point at the character** (partial). An invariant of the token-level parser (PropsPlaces.v): every illegal-character diagnostic is about the first character that is not allowed in a name of a token (marks), with its message; arithmetic on positions for the place. Theorems: `C56_illegal_char_partial`, `C56_right_place`, `C56_unit_address_refuted`. False for unit addresses and path references, where the tool counts from the start of the token (witness for unit addresses). Proved for every parse: which name and which character of it every illegal-character diagnostic is about, its message and place; the place is right exactly if the name stands at the start of its token.
* **C57 Deleted nodes no longer resolve** (partial). Simulation of runs with and without deletions; witness. Theorems: `C57_deleted_refuted`, `C57_delete_ignored_partial`. False: deletion has no effect on lookups, which is what the partial theorem states.
* **C58 A file sees the labels and paths of the files it includes** (partial). From the analysis order on two levels. In-order form: C70_in_order_partial. Theorems: `C58_included_visible_partial`, `C58_in_order_partial`, `C38_diagnostics_refuted`. False in general because of C38; proved for two-level include graphs, and for any include graph if the addition analyses included files first.
* **C59 Cyclic includes are reported exactly if there is a cycle** (proved). Guard invariant over the whole analysis run (C23); the chain of the diagnostic is a simple path of the dependency table, whose entries are include directives of stored files. Theorems: `C59_cycles_reported`, `C59_cycle_named`. C59_cycle_named: the text of the message names a real cycle of includes.
* **C60 A removed file is not listed any more** (partial). Map keys; witness. Theorems: `C60_refuted`, `C60_listed`. False if the file no longer exists on disk; exact otherwise.
* **C61 Every diagnostic is printed once** (proved). Induction on files and diagnostics. Theorems: `C61_all_printed`. Exact decomposition of the output into the blocks of all diagnostics of all files.
* **C62 Go to definition on an include opens the included file at a place in it** (partial). Direct; witness. Theorems: `C62_refuted`, `C62_include_exact`. False: the range is that of the include directive in the including file (C62_include_exact), which need not exist in the included file (C62_refuted).
* **C63 Positions follow the protocol** (partial). Utf16 columns against byte columns; witnesses; both positions computed from the text before the place (line ends, lone carriage returns, units of the encoded characters), which gives the exact condition. Theorems: `C63_refuted`, `C63_lines_refuted`, `C63_ascii_partial`, `positions_exact`, `C63_exact`. False behind characters outside ASCII, where bytes are counted, and for lone carriage returns. C63_exact: for every token of every text, start and end are right exactly if no lone carriage return is before them and their line is ASCII up to them.
* **C64 Go to definition answers about the current texts** (partial). Server invariant on two levels; witness. In-order form: C70_in_order_partial. Theorems: `C64_refuted`, `C64_flat_partial`, `C64_in_order_partial`. False for includes of includes, where a file can be analysed before the files it includes (C64_refuted). True for two levels of includes, and for any include graph if the addition analyses included files first.
* **C65 Hover and go to definition agree** (proved). Case analysis with C45. Theorems: `C65_hover`, `C65_spots`, `C65_elsewhere`. For every served state; labels and includes as far as C45 finds them.
* **C66 Accepted labels can be referenced** (partial). Lexer behaviour behind an ampersand; construction of a text. Theorems: `C66_refuted`, `C66_letter_partial`. Labels starting with an underscore are accepted but no text contains a reference to them; labels starting with a letter can be referenced.
* **C67 A missing semicolon is reported where it belongs** (proved). Invariant on the last position of the lexer over all parser runs. Theorems: `C67_missing_semicolon_place`, `C67_places`, `C67_recovered_places`. all diagnostics of all parses; the error that ends a parse may name a semicolon that was found (a wrong message of expect), which is the separate case misnamed; C67_readme is the example of README.md.
* **C68 Reformatting changes positions only** (proved). Self-simulation of the token parser. Theorems: `C68_same_tokens`, `C68_reformat`, `C68_refuted`. Self-simulation of the token-level parser, transferred to the parser by ParserSim.v. C68_refuted: with an unknown character in place of a semicolon (excluded in the statement) the layout does matter, since the lexer is switched back to reading names there.
* **C69 Where includes are searched** (proved). Invariant that all includes of a tree carry the directories of its file. Theorems: `C69_search`, `C69_directories`, `C69_missing_refuted`, `C69_cli`, `C72_directories`. C69_missing_refuted: an include directory that does not exist is turned into the empty path, stands for the working directory and so hides the directories behind it.
* **C70 No stale analysis after an addition** (partial). Analysis is monotone in what the included files hold; two-level order analyses included files first. In-order form: induction on the position in the order, includes ranked by it. Theorems: `C70_settled_partial`, `C70_in_order_partial`, `C70_refuted`. Proved for two levels of includes, and for any include graph if the addition analyses included files first. C70_refuted: with deeper acyclic includes a file can be analysed before the file it includes, and keeps that result.
* **C71 Answers depend on the current texts only** (partial). Both sessions are settled (C70), settled analyses of the same trees are equal. In-order form: rank induction over the include graph (Section Local). Theorems: `C71_current_texts_partial`, `C71_repeat_partial`, `C71_in_order_partial`, `C71_refuted`. Proved for two-level includes, or for any include graph if both last additions analyse included files first, and trees without ambiguous paths. C71_refuted: with deeper includes the diagnostics depend on the iteration order.
* **C72 Configured include directories** (proved). Exact characterisation of the decoded values by induction on the array. Theorems: `C72_directories`, `C72_malformed`. JSON values and the derived deserialiser are modelled (Config.v). A single member that is not a string drops all directories, and settings without includes reset them.
* **C73 A new configuration applies to open documents** (partial). publish_diagnostics frame; C69 for the next text; witness for the refutation. Theorems: `C73_exact`, `C73_next_text_partial`, `C73_refuted`. C73_refuted: files are not read again when the configuration changes, an include that the new directories resolve is still reported as missing. C73_exact: nothing but the directories changes. C73_next_text_partial: the next text is read with the new directories.
* **C74 The editor shows what the present texts give** (partial). Connections are sessions of C71; published diagnostics by C47. In-order form likewise. Theorems: `C74_shown_partial`, `C74_in_order_partial`, `C71_refuted`. Server-level form of C71, under the same guards.
* **C75 Work on other files does not change the answers about a file** (partial). `view_kept` is an invariant of a sequence of additions and removals elsewhere: an addition keeps the trees of the files reached, their analyses are determined by what the included files hold, by well-founded induction on the include graph. Theorems: `C75_elsewhere_partial`, `C75_local_partial`, `C75_refuted`. Proved if the stored results of the file and of the files it includes are current (the case after any addition that analyses included files first) and no opened label or path is ambiguous (C32); the order of the analyses elsewhere is arbitrary. C75_refuted: stale results of a deeper include graph (C70) are repaired by the addition of an unrelated file.
* **C76 Including a file is like pasting its text** (partial). Two runs of the specification relation `elements` side by side; the definition `DInclude c` of the include and the definitions of the pasted elements bind the same labels and paths (`agree`), which later elements keep. For texts (PropsPasteText.v): C78 reads both texts as trees in which y stands on different lines, and C79 compares those apart from positions. Theorems: `C76_paste_partial`, `C76_text_partial`, `C76_refuted`. Proved for trees and their analyses, and for texts: C76_text_partial compares x, an include line, y with x, the text of the included file, y, all read from bytes. Included files open no nodes and declare no plugin, there are no include cycles and no ambiguous opened labels (C32). C76_refuted: an included file that opens a node of its includer (&l { m { }; };) has its contents taken for contents of the root.
* **C77 Adding definitions leaves resolved references resolved** (partial). Two runs of `elements` side by side under the relation `more`: everything that has a meaning in the shorter file has one in the longer file. Theorems: `C77_additions_partial`, `C77_refuted`. Proved for files that open and delete nodes by path, not by label, added root nodes, includes and directives, and no include cycle. C77_refuted: a second root node between the definition of a labelled node and its opening loses the label (C33), then the opened contents are placed under the root and a path reference to them no longer resolves.
* **C78 One text behind another** (partial). By the grammar (C10, C11): a derivation without missing semicolons is a derivation with more tokens behind, and a derivation again when its tokens move; the last token of a clean text does not look at what follows, so the lexings compose. Theorems: `C78_concatenation_partial`, `C78_refuted`, `C78_settled`. Proved, with exact positions, if the first text has no unterminated string, comment or path reference at its end. C78_refuted: behind an unterminated comment the second text is lost without a diagnostic (C07). C78_settled: the condition as a check on the bytes of the first text.
* **C79 Layout does not matter to the analysis** (partial). PropsLayout.v: definitions equal up to positions bind the same names (last_of_same); two runs of the specification over elements equal up to positions are followed side by side (elements_layout); texts with the same tokens have such elements by C68_same_tokens. A file without includes whose labels are all written once satisfies the side condition (labels_once_unambiguous). For all iteration orders at once: C79_every_order in PropsRelaid.v, by C98. Theorems: `C79_every_order`, `C79_layout_partial`, `C79_same_tree_partial`, `labels_once_unambiguous`. C79_every_order: for all hash orders, whatever the analysis of one layout can say, that of the other can say word by word, with the same meaning of all names. For any two given runs, as the statement has it, proved where every label that is opened is carried by one node (true for a file without includes whose labels are written once: labels_once_unambiguous), up to the text of the cycle message; elsewhere two runs on the same text may differ already (C32_hash_order_refuted).
* **C80 Files that are no text are refused** (partial). Utf8Adequacy.v: the bytes the check accepts are exactly the encodings of sequences of scalar values (both directions by cases on the four lengths), PropsUtf8.v: the error cases of add_file by cases, the panic from C37_panic_exact. Theorems: `C80_add_exact`, `C80_include_panics`, `C80_refuted`, `utf8_adequate`, `utf8_unique`. Adding: exact. Including: false, the addition panics (C80_include_panics in general, C80_refuted as witness). utf8_adequate: the check of the model accepts exactly the encodings of sequences of scalar values.
* **C81 An error stands, whatever is written behind it** (proved). LexGrow.v: a byte automaton for the lexical context; every lexer function that delivers a token delivers the same one with more lines behind the text, and leaves a settled rest. Prefix.v: by induction on fuel over all parser functions, a run either has not reached the end (and is the same with more text) or has, and then only 'unexpected end of file' can be thrown. PropsStable.v: the theorems, and the consequences for C07 and C78. Theorems: `C81_errors_stand`, `C81_on_the_way`, `C81_refuted`. ends_settled (LexGrow.v) is the condition that the text does not end inside a string, block comment, path or directive, as an automaton on bytes, independent of the lexer. C81_refuted: the condition is needed, an unclosed directive takes the next lines for its name.
* **C82 A text that only ends too early can be completed** (proved). Complete.v takes a run of the token-level parser (TokParser.v, related to the parser by ParserSim.v) apart at the place where it met the end of the tokens and gives, for every such place, the words that complete it; the grammar (Grammar.v) then derives the completed tokens (the growth lemmas of PropsConcat.v for what was read before). GrammarDet.v shows that the grammar reads a token list in one way only, which gives the other direction: a misplaced item is never mended. The last step to texts is the lexical specification (settled texts, LexGrow.v) and C11. Outside settled texts the claim is false (C82_unsettled_refuted: an open string where none may stand). Theorems: `C82_completable`, `C82_misplaced_stays`, `C82_exactly`, `C82_unsettled_refuted`. For texts that are reported only as ended too early and do not break off inside a lexical construct the alternative is exact (C82_exactly). Without the restriction to such texts the claim is false: C82_unsettled_refuted. Texts that also lack a semicolon at their very end are outside (they carry a second diagnostic).
* **C83 The tree says only what is written** (proved). PropsFaithful.v runs a small logic over the token-level parser (TokParser.v, related to the parser by ParserSim.v): every token taken comes from the text, and each constructor of the tree copies the spelling and the span of such a token. The specification (written, file_said) speaks of the text only: prefix, spelling, suffix. Numbers and bytes: with their values (literal and byte_text of Grammar.v). Theorems: `C83_tree_says`. Numbers and bytes with their values: a number that is no number or too large is 0, bytes that are none are empty.
* **C84 No nameless entry in the outline** (proved). From C83: a symbol name is the spelling of an identifier, a path or a label token, or a fixed word; the lexical specification shows such spellings are not blank. Theorems: `C84_symbols_named`.
* **C85 The outline shows what is written** (partial). As C84, with the selection range; the exceptions are part of the specification (shown). Full claim refuted by a witness. Theorems: `C85_shown`, `C85_refuted`. False in full: the unit address is left out of node names, so uart@0 and uart@1 look the same (C85_refuted). C85_shown says exactly how the name relates to the text at the selection range: equal to it but for the unit address, normalised path references, and the words shown for includes and directives.
* **C86 Every opened document is checked** (partial). Invariant over all reachable server states (only file URIs are ever published); witness for the failure of the full claim. Theorems: `C86_refuted`, `C86_not_a_file`, `C47_open_published`. False in full: a document whose URI is not a file path (untitled:1) is never reported on and none of its requests is answered (C86_not_a_file, for all reachable states; C86_refuted is the witness). For file URIs the claim is C47_open_published.
* **C87 Directories given to the language server are searched** (partial). LsMain.v models ginko_ls/src/main.rs; witness. Theorems: `C87_refuted`. False: the arguments are parsed and dropped (ginko_ls/src/main.rs:15). The witness shows the same directory found by ginko --include and by the configuration of the language server, but not by ginko_ls --include.
* **C88 A missing include is reported once** (partial). Kinds.v: a pass over the token-level parser shows which codes the parser reports (none of them an i/o error); the stored diagnostics of a file are those of its text (session_by_text) and of its analysis (analysed_spec); induction over the elements. Theorems: `C88_twice`, `C88_refuted`. False: every missing include is reported exactly twice, once while parsing and once more by the analysis, with the same text and range (C88_twice, for all projects; C88_refuted is what the editor shows). The rest of the claim holds: nothing else is an input/output error.
* **C89 No notification ends the language server** (partial). PropsCrash.v: C37_panic_exact lifted to the server with its invariant (served_inv, publish_spec); a witness for the refutation. Theorems: `C89_crash_exact`, `C89_refuted`. False as stated: after the file of an open document is deleted, the next keystroke ends the server (C89_refuted). C89_crash_exact gives the exact condition for every state and notification: the server panics iff the document is not on disk or an include that exists is neither stored nor readable; otherwise it reaches a good state.
* **C90 The code of a diagnostic tells where it comes from** (proved). PropsCodes.v: which codes the parser (Kinds.v, Unbalanced.v: passes over the token-level parser) and the analysis (analysed_spec, blame_kind) report; induction over reached projects; one witness text per code. Theorems: `C90_codes`, `C90_occur`. For every reachable project. Every listed code occurs (C90_occur, by witnesses).
* **C91 Each mistake that has a code is reported** (partial). Corollary of C90_codes; witnesses computed. Theorems: `C91_never`, `C91_refuted`. False: neither code is ever reported, in any reachable project (C91_never); C91_refuted shows texts with both mistakes.
* **C92 Labels can be renamed** (proved). Rename.v: a simulation of the token-level parser with itself over renamed tokens (as Reformat.v); PropsRename.v: the analysis of a renamed tree simulates that of the tree (elements_ren), lookups commute with the renaming, C79 for the layout. Theorems: `C92_reading`, `C92_rename`, `C92_text`. C92_reading: the parser, also where it fails. C92_rename: the analysis of trees. C92_text: both.
* **C93 Names get exactly the complaints they deserve** (proved). NameReport.v: the specification of the diagnostics of a name (name_report) and of all names of a tree in source order (file_names); the wpt/says logic of ParserReport.v with the filter naming over the token-level parser; PropsNames.v: transfer to the parser by parse_sim. Theorems: `C93_names_exact`, `C93_every_complaint_has_a_name`, `C93_fine_names_are_silent`. C93_names_exact: the filtered list of diagnostics equals what nsite_report demands of the names of the tree, messages included. A label before a closing brace is checked but is not in the tree: for it the theorem says that there is such a label token in the text.
* **C94 Tolerated mistakes get one diagnostic each** (proved). Tolerated.v: a second grammar, as Grammar.v but with the mistakes and the list of remarks; completeness of the token-level parser for it as in GrammarComplete.v; PropsTolerated.v: transfer by parse_sim. C94_only_there: the invariant of PropsPlaces.v over all diagnostics (all_placed). Theorems: `C94_tolerated`, `C94_only_there`. Tolerated.v has the grammar with mistakes (h_file) and the remarks that they deserve. For the place of a missing semicolon see C19.
* **C95 An error is reported at the first token with which the text goes wrong** (proved). FirstError.v: for every function of the token-level parser, an error that is not "end of file" is about a token such that the tokens before it are read or end too early, and any tokens behind it give the same error (file_fall). Boundary.v: such a token is never directly behind an unknown character, so the text can be cut in front of it. ParserSim.parse_near: the place of the error in the text. PropsFirst.v: cutting the text in front of a token (lexed_cut), completion as in C82. Theorems: `C95_first_fault`. The exception (misplaced_file: an item that may not stand there is reported only once it has been read) is that of C82. The continuation must not change the token itself (spells).
* **C96 The editor and the command line tool report the same** (partial). PropsTool.v: the project of the tool has the texts of the disk and only files reachable from the given one (tool_run); the session holds the same texts for these (same_disk); then C75_local_partial (what a file shows depends on the texts it reaches), C47 (the editor shows what the project has) and C61 (the tool prints what the project has). Theorems: `C96_tool_partial`, `C96_opened`, `C96_refuted`. C96_tool_partial: under the guards of C71 (files are analysed behind their includes, no ambiguous label is opened) and if each file has the type of its canonical name. C96_opened: a fresh session that opens the file holds the same project as the tool, for each hash order, without these guards. C96_refuted: a link ending in .dtsi to a .dts is an include for the editor and a source for the tool.
* **C97 Silence means correct sources, and correct sources meet silence** (partial). Meaning.v says what a source means without the analysis: inductive predicates for the nodes written below items, for what a file declares with its includes, for what a reference opens, and a record `correct`. Accept.v relates this to AnalysisSpec.v: a silent analysis only binds what is declared (file_sound), and over a correct, clear, tame file the analysis is silent and binds all that is declared (file_silent). PropsAccept.v: induction over the order of the analysis for soundness (any order), over the rank of the include graph for completeness; the parser side by C10 and C11, cycles by C59. Theorems: `C97_silent_correct`, `C97_correct_silent_partial`, `C97_exact_partial`, `C97_label_refuted`, `C97_opened_refuted`. C97_silent_correct: silence implies correct sources, for each hash order, without guards (a file that is not a source or is a plugin may open nodes it does not know; what stands inside counts as below the root). C97_correct_silent_partial and C97_exact_partial: the converse if files are analysed behind their includes (C38), a label stays with one node and is repeated when the node is written again (C32, C33), and no node is opened where references are not judged. C97_label_refuted and C97_opened_refuted: without the last two guards correct sources get a message.
* **C98 What the iteration order of hash maps can change in an analysis** (proved). PropsRealise.v: the specification of C26-C34 is complete. Each element asks for at most one order; for an opened label the entries of the chosen path are moved to the front, for a cycle the order of GuardSteer.v is taken; the orders of the elements are put together by the query counter. Theorems: `C98_results_exact`. Both directions: each run satisfies the specification in AnalysisSpec.v, and each result that the specification allows is that of a run with some iteration orders. The cycles are those of C24_exact.
* **C99 Putting in a missing semicolon is a fix** (proved). Insert.v: each function of the token-level parser is followed twice, once on the tokens and once with a semicolon put in at the pushed complaint (relation `fixes`). PropsQuickFix.v: the new text has these tokens, because what follows is read alike where a name is expected (no comma, no unknown character before the next switch of the lexer state). Theorems: `C99_quick_fix`, `C99_at_the_complaint_refuted`, `C99_open_directive_refuted`, `C99_number_sign_refuted`. The refuted variants: a semicolon put where the complaint is may land in a line comment; a directive without its second slash at the end of the text takes the semicolon into its name; with a number sign behind the value (a = <1> #b = <2>;) the sign is dropped silently and the tree is another one than with the semicolon.
* **C100 All missing semicolons can be put in** (proved). PropsQuickFix.v: induction on the number of complaints. Theorems: `C100_all_semicolons`, `C100_only_semicolons`. By induction from C99; the hypotheses are shown to hold again for the new text.
* **C101 Deeply nested nodes do not exhaust the stack** (partial). PropsDepth.v: a copy of the part of the parser that calls itself, with a limit on the number of open calls; followed side by side with the parser itself (relation `lim`). The deep texts are displayed towers of nodes (C22). Theorems: `C101_refuted`, `C101_depth_exact`, `C101_enough`. As stated false (C101_refuted): for each limit k a text of 11 k + 7 bytes without any mistake needs more than k nested calls of node_payload. Proved instead: a text that parses is read with k nested calls exactly if its nodes nest at most k deep, and as many calls as the text has bytes, and two, are always enough. How many bytes of stack a call takes is not modelled.
* **C102 The language server does not block itself** (proved). Locks.v: handlers as programs (lock, unlock, look, store, send) on n threads with a small-step relation. A discipline on programs (`tidy`) that all handlers keep gives progress; a well-founded order on programs gives termination. Theorems: `C102_never_blocked`, `C102_no_endless_run`. In each state that can be reached some handler can take a step until all have finished, and no run is endless, so that each run that is carried on ends with all messages handled. The client is assumed to take what is sent to it. C102_needs_discipline shows that one guard kept over an await would break it.
* **C103 Messages handled together are as good as handled one by one** (proved). Simulation of the small steps by steps that run a critical section at once (`refines`), invariant that pairs each handler with its message or with the answer it owes (`serial`, `ordered`). Theorems: `C103_serial`, `C103_in_order`. For runs in which no handler panics (C89 says when one does). add_file_with_text stores the parsed files and the result of each analysis separately; requests look at the project twice under one guard. C103_one_thread_needed: with two threads the order of arrival can be lost. What is sent to the client besides answers is the subject of C52.
* **C104 On one thread the editor ends up with the current diagnostics** (proved). PropsShown.v: invariant over the small steps of Locks.v with one thread: each file of the project is shown as it is, or a handler has still to publish it; between the reading and the sending of one file no other handler runs. Closing a file and the requests keep the diagnostics of the other files, because the names of the files of a project are canonical. Theorems: `C104_one_thread`, `C104_refuted`. For runs in which no handler panics, from the empty project, with a file system that does not change and canonical paths that are their own canonical path. A message is taken by the client end of the channel in the same poll in which it is sent. C104_refuted: with two threads it is false (the situation of C52).
* **C105 What the parser makes of every text** (proved). Forgiving.v: the grammar with remarks as inductive relations on token lists, independent of the parser; the token-level parser of TokParser.v is shown to give only what is derived (induction on fuel) and everything that is derived (induction on the derivation; the reports about names are functional, Utf8Adequacy and decimal_unique; NumReport.v: which message a number gets). PropsForgiving.v transfers it to the reader-level parser by ParserSim.v, which is exact on all diagnostics other than those about missing semicolons and the end of the file. Theorems: `C105_tree_derived`, `C105_derived_tree`, `C105_rejected_iff`, `C105_unambiguous`. A missing semicolon is reported at one of the places of C67; all other diagnostics are given in full. The error of a rejected text is the subject of C95.
* **C106 What the parser says of every text it refuses** (proved). Rejected.v: the refusals as inductive relations on token lists over the grammar of C105; every error of the token-level parser is derived (rule for bind that uses what C105 says about the first part) and every derived refusal is an error (induction on the derivation). PropsRejected.v transfers it to texts by ParserSim.v. Theorems: `C106_error_derived`, `C106_derived_error`, `C106_divided`, `C106_unambiguous`. The message about a missing opening brace names the token found instead of the brace: the code does so (see C55).
* **C107 Nothing is given up too early: every text that only ends too early has a continuation** (proved). Viable.v: the derivations of C105 keep their shape when tokens that do not interfere stand behind them (also where reading resumes behind an unknown character); by induction on the refusal of C106 words are found that complete it. PropsViable.v writes them as a text and uses C81 for the converse. Theorems: `C107_continuable`, `C107_on_the_way`, `C107_hopeless_iff`, `C107_unsettled_refuted`. Extends C82 (texts without any other complaint) to all texts; accepted means that a tree is given, possibly with diagnostics. C107_unsettled_refuted: the condition that the text does not break off inside a lexical construct is needed.
* **C108 What the command line tool prints, from the files on the disk to the last character** (proved). Whole.v: a spec of runs (entry, met, possible, walk, printed) that uses the specs of C98, C61 and C69. From the code to the spec by induction over the analysed files; from the spec to the code by finding iteration orders: each query of the analysis has its own order (C98), the orders of several files are put one behind the other, and lists are sorted by a list of keys. Theorems: `C108_exact`, `C108_entries`, `C108_every_file`. Runs that end; when the tool panics is C37 and C43. C108_exact is an equivalence, so the specification promises no output that no iteration order gives. C108_entries gives the reports of the parser by the grammars of C105 and C106. The exchanges that make the order of analysis are taken from the model (order_loop); C38 says when their result is good.
* **C109 What the language server publishes and answers in a whole session** (proved). Session.v: a spec of sessions (added, edited, reply, session_of) on top of that of C108. Both directions by induction over the messages; from the spec to the code the tables of the spec and of the server agree up to the order in hash maps (alike_table), which is kept by loading, by the analysis (walk_keys) and by closing. Theorems: `C109_published`, `C109_answered`. Messages handled one after the other and to the end; messages handled at the same time are C52, C103 and C104, and messages on which a handler panics have no successor in the specification either. As in C108 the exchanges that make the order of analysis are taken from the model; the answers to requests are those of the handlers applied to the files of the specification (C46, C50, C62, C65 and C85 say what these are).
* **C110 Parsing stops at the first token that makes the text hopeless** (proved). FirstFault.v: the derivations of C105 and C106 go through for another text that agrees up to the token, over an abstract pairing of their tokens, reading resumed behind unknown characters included; PropsFirstFault.v gives the pairing by the lexical grammar and ends with C107. Theorems: `C110_first_fault`. C95 for all texts, not only those without earlier complaints. The part in front of the token has to be UTF-8 itself, which it is unless the token is a byte inside an unknown character.
* **C111 Every diagnostic of a file points into this file** (proved). PropsPointing.v: the tokens of the properties, values and references of a tree are a contiguous part of its tokens, which stand in the text in order (C17); so every rule of AnalysisSpec.v reports a part of the text; carried through histories as an invariant. Theorems: `C111_analysis_points`, `C111_project_points`. C16 for all diagnostics, not only those of the parser.
* **C112 Reformatting the files of a project changes only places in what the tool prints** (proved). Relaid.v, PropsRelaid.v: a table of files and its like up to places are kept in step through loading, the walk over the files and each rule of AnalysisSpec.v; C108 turns the resulting description of a run back into a run of the tool. Theorems: `C112_relaid_run`. Release build (in a debug build the printer may panic, depending on the columns, see C43). Stated run by run, since two runs on the same disk may differ already (C32).
* **C113 Reformatting documents changes only places in what the language server publishes** (proved). PropsRelaidSession.v: the tables of two sessions are kept in step (Relaid.v) along the spec of C109, which is turned back into a session of the server; outlines depend on the tree up to tokens only. Theorems: `C113_relaid_session`. Messages handled one after the other, as in C109. Stated session by session, since two sessions with the same messages may differ already (C32).
* **C114 Hovering over the same place says the same in every layout** (proved). PropsRelaidHover.v: the spots of two layouts of a tree correspond one by one, so the first one under the cursor does; contexts in step (Relaid.v) answer alike. Theorems: `C114_hover`. Corresponding positions: on the same spot of the two trees in the sense of C44/C45. Session by session, as C113.
* **C115 The number of diagnostics is bounded by the size of the text** (proved). Count.v: amortised analysis of every parser function: each token is worth at most its bytes, and the diagnostics of a function are paid for by the tokens it takes. PropsCount.v: the tokens of a tree stand at different bytes, and each element of the analysis specification says at most two things for each of its tokens. Theorems: `C115_parser_count`, `C115_analysis_count`, `C115_project_count`. The factor one of the parser is reached (example with 201 diagnostics for 205 bytes).
* **C116 Going to a definition leads to the same node in every layout** (proved). Relaid.v: the relation between two layouts carries, for every node in every stored analysis, its number in the trees of the two texts it was read from (twin_likeness, with the set of text pairs the two sessions exchanged); PropsRelaidGoto.v: find_at_pos, get_node_position and goto_definition under that relation. Theorems: `C116_definition`. For an include the answer gives the range of the include statement itself (in the document with the cursor) beside the URI of the included file; the theorem says so.
* **C117 Files written while an operation runs are each seen as they were at one moment** (proved). Live.v: every operation once more, each call of the operating system at its own moment of a changing disk. LiveProofs.v: what only resolves names is the same as on the still disk (tracks); loading is that on a disk with the texts of the moments of reading (snapped, by induction over the recursion of parse_file). PropsLive.v: the theorems on additions, the tool, messages and sessions. LiveAsk.v, PropsLiveAsk.v: the requests (definition, hover, outline) likewise: as on the disk at their beginning. Theorems: `C117_text`, `C117_file`, `C117_tool`, `C117_message`, `C117_session`, `C117_still`, `C117_condition_needed`, `C117_request`. C117_condition_needed shows that the condition on unreadable files is needed: a file that is no text at first and one later leaves a project no still disk gives. Different files may be seen at different moments (C117_case). Requests read no file (C117_request).
* **C118 An addition survives whatever happens to the disk meanwhile** (partial). LiveAny.v: loading, ordering and analysis on an arbitrary course of the disk (induction on fuel and includes; the analysis of one include is that of another include on some still disk); PropsLive.v: the invariant of projects, the texts of files, the panics, and the two refutations. Theorems: `C118_any_partial`, `C118_one_text`, `C118_after`, `C118_refuted`, `C118_vanish_refuted`. All but the absence of panics is proved. C118_refuted: a missing include file that is created between parsing and ordering makes position(..).unwrap() panic, although the addition succeeds before and after; C118_vanish_refuted: a file removed between the two canonicalisations of add_file makes expect panic. C118_any_partial names all causes of a panic.
* **C119 Windows line ends do not matter** (partial). CrLf.v: the lexer on a text and on the text with CR LF, token by token, positions included. CrLfScan.v: the automaton of the spec and the lexer. CrLfParser.v: every parser function on two related states (the position before a token may differ by one column after a line comment). CrLfProject.v, CrLfServer.v: loading, ordering, analysis, printing, messages and requests on two such disks. PropsCrLf.v: the theorems, the refutations, UTF-8. Theorems: `C119_parse_partial`, `C119_exact_partial`, `C119_tool_partial`, `C119_session_partial`, `C119_refuted`, `C119_broken_refuted`. Proved for texts none of whose strings, path references and directives goes over a line end (a small automaton, unbroken, tells): the tree is always the same, and so are the diagnostics but for one column of some Expected messages; with no line comment or no syntax error everything is the same. C119_refuted: a semicolon missing before a line comment is reported one column further to the right with Windows line ends, because the comment includes the carriage return. C119_broken_refuted: a string over two lines gets the carriage return as part of its value.
* **C120 A label nobody refers to can be left out** (proved). Unlabel.v: the tree without the labels, derived again by the grammar of C14, and the lexer on the text with the labels written over. UnlabelProject.v: the tables of the analysis without them, the analysis of a file and of a project side by side. PropsUnlabel.v: UTF-8, the server, what is under the cursor, the theorems. Theorems: `C120_blank`, `C120_tree`, `C120_project`, `C120_session`. C120_blank: in every text the labels can be written over with spaces, leaving all other tokens at their places. C120_tree: without them a text that parses without diagnostics does so again, same tree but for the labels. C120_project, C120_session: the same diagnostics, publications and answers; files with syntax errors may be among them if they are left as they are. The outline is not claimed (its ranges start at the labels), nor what the tool prints (it prints the source lines).
* **C121 A byte order mark does not matter** (partial). PropsBom.v: the parser is run on the mark with an unknown rest; an entry that could not be parsed is not touched by the analysis. Theorems: `C121_parse`, `C121_project`, `C121_refuted`. False (C121_refuted). What happens instead, for every text: C121_parse: the parser stops at the first byte with one fixed error. C121_project: in every project the file has exactly this diagnostic, nothing in it can be found or referred to, and no file is loaded because of it.
* **C122 A line #include "file" brings in the file** (partial). CInclude.v: projects whose trees differ in #include elements only, side by side (loading, order, analysis, messages, requests). PropsCInclude.v: texts made of pieces (by C78), the theorems, the witnesses. Theorems: `C122_text`, `C122_project`, `C122_session`, `C122_refuted`, `C122_brackets_refuted`. False (C122_refuted; with pointed brackets it is a syntax error, C122_brackets_refuted). What is proved instead: such lines have no effect at all. C122_text: in texts without syntax errors they can be blanked, which leaves the rest of the tree in place. C122_project, C122_session: then every file has the same diagnostics, and the server publishes and answers the same, in every project and session.
* **C123 Root blocks can be taken apart** (partial). SplitRoot.v: two contexts with the same tables but for the root entry go on alike through every step of the analysis; then projects and servers side by side. PropsSplitRoot.v: derivations of items put together and taken apart, the theorems, the witnesses. Theorems: `C123_text`, `C123_project`, `C123_session`, `C123_root_refuted`, `C123_join_refuted`. C123_text: a text without syntax errors stays so when a root block is closed and opened again between two items, and its items are read as before. C123_project, C123_session: in every project and session files have the same diagnostics, and the server publishes the same, answers hover and goto the same, and shows the same items in the outline (under the other root blocks). Left out: where a jump from &{/} goes, which is the last block (C123_root_refuted). The other direction fails for texts (C123_join_refuted): a property may not follow a node in the same block. Condition on the hash map orders: the search for a label visits the nodes other than the root in the same order.
* **C124 What values hold does not matter** (proved). Revalue.v: replacement on token lists and its effect on derivations of the grammar, with C10 and C11 between texts and derivations. RevalueProject.v: contexts, projects and servers that are equal after erasing the values go on alike. PropsRevalue.v: the theorems and the cases. Theorems: `C124_text`, `C124_project`, `C124_session`. C124_text: the changed text is read without complaint as the same tree but for the numbers, bytes and strings, with the same item at every position and the same outline. C124_project, C124_session: same files and diagnostics, same publications, same answers, a crash in the one exactly if in the other. Conditions: the texts in which values are changed have no syntax errors, tokens keep their places, numbers fit their size (C124_bound shows why), file names after /include/ and #include stay; hash map orders depend on the keys only.
* **C125 What properties are called does not matter** (proved). Same development as C124 (Revalue.v, RevalueProject.v), with the class name_change set to true: names of properties may change as well. PropsOtherNames.v: the theorems and the cases. Theorems: `C125_text`, `C125_project`, `C125_session`, `C125_tool`. C125_text: the changed text is read without complaint as the same tree but for names of properties and values, with the same item at every position. C125_project, C125_session: same files and diagnostics, same publications, same answers, same outlines after unnamed (which blanks the names of entries of kind property), a crash in the one exactly if in the other. C125_tool: the command line tool ends with the same status and prints the same reports but for the source lines it quotes. Conditions: the texts that are changed have no syntax errors, tokens keep their places, names in /delete-property/ stay; hash map orders depend on the keys only. C125_compatible shows that the name compatible has to be excepted.
* **C126 Including a file again does no harm** (proved). PropsTwice.v: on the specification of the analysis (AnalysisSpec.v), definitions repeated at once mean the same and a repeated arrow does not change the graph of includes; C98 leads from the specification back to runs of the code. Theorems: `C126_twice`. C126_twice, in both directions: every result of the analysis with the second include is, without the report of this include, a result of the analysis without it, and the other way round. It is about syntax trees that are equal but for the second include, and about one analysis of one file in a given project; whole sessions are not compared. C126_case: an included file with errors. C126_between: with a definition in between the second include does matter.
