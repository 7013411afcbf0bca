{"claims": [
{"property": "C01", "status": "proved", "theorems": ["C01_reader_exact"], "note": "All texts, any number of reads."},
{"property": "C02", "status": "proved", "theorems": ["C02_lexing_never_panics", "C02_tokenize_total"], "note": "Every lexer state reachable by consume/next/insert_pseudo_kind on a valid UTF-8 text."},
{"property": "C03", "status": "proved", "theorems": ["C03_tokens_ordered", "C03_end_is_final"], "note": "Every valid UTF-8 text."},
{"property": "C04", "status": "proved", "theorems": ["C04_lossless", "C04_position_determines_prefix"], "note": "tokenize computes exactly the relation lexed of LexSpec.v (soundness and completeness)."},
{"property": "C05", "status": "proved", "theorems": ["C05_layout_irrelevant"], "note": "A '/' token must be followed by white space rather than directly by a comment; every token is followed by a non-empty gap."},
{"property": "C06", "status": "partial", "theorems": ["C06_strings_refuted", "C06_strings_partial"], "note": "The full statement is false of the code: non-ASCII bytes are pushed as Latin-1 characters (lexer.rs string). Proved: the literal always lexes to one string token and its value is the text exactly when the text is ASCII."},
{"property": "C07", "status": "partial", "theorems": ["C07_silent_tail_refuted", "C07_no_input_ignored_partial", "C07_settled", "C07_tails_are_silent"], "note": "The full statement is false: an unterminated string, comment or path reference at the end of the text (or a lone ampersand) is dropped silently (witness proved). Proved: on a clean parse everything except such an unterminated tail is covered, and all tokens are used by the tree. C07_settled: texts that do not break off (ends_settled) are covered completely. C07_tails_are_silent: every unterminated tail behind a clean text is lost without a diagnostic."},
{"property": "C08", "status": "proved", "theorems": ["C08_peek_transparent"], "note": "Every text and every sequence of peek/next calls."},
{"property": "C09", "status": "proved", "theorems": ["C09_parse_total"], "note": "For every valid UTF-8 text the model of Parser::from_text(..).file() returns Ok or Err; panics and fuel exhaustion are unreachable. Stack depth is not modelled."},
{"property": "C10", "status": "proved", "theorems": ["C10_clean_parse_derives"], "note": "Grammar over tokens in Grammar.v, independent of the parser; it includes the tool's extensions (labels around values, parenthesised expressions, /bits/ with any number, '+d' byte pairs)."},
{"property": "C100", "status": "proved", "theorems": ["C100_all_semicolons", "C100_only_semicolons"], "note": "By induction from C99; the hypotheses are shown to hold again for the new text."},
{"property": "C101", "status": "partial", "theorems": ["C101_refuted", "C101_depth_exact", "C101_enough"], "note": "As stated false (C101_refuted): for each limit k a text of 11 k + 7 bytes without any mistake needs more than k nested calls of node_payload. Proved instead: a text that parses is read with k nested calls exactly if its nodes nest at most k deep, and as many calls as the text has bytes, and two, are always enough. How many bytes of stack a call takes is not modelled."},
{"property": "C102", "status": "proved", "theorems": ["C102_never_blocked", "C102_no_endless_run"], "note": "In each state that can be reached some handler can take a step until all have finished, and no run is endless, so that each run that is carried on ends with all messages handled. The client is assumed to take what is sent to it. C102_needs_discipline shows that one guard kept over an await would break it."},
{"property": "C103", "status": "proved", "theorems": ["C103_serial", "C103_in_order"], "note": "For runs in which no handler panics (C89 says when one does). add_file_with_text stores the parsed files and the result of each analysis separately; requests look at the project twice under one guard. C103_one_thread_needed: with two threads the order of arrival can be lost. What is sent to the client besides answers is the subject of C52."},
{"property": "C104", "status": "proved", "theorems": ["C104_one_thread", "C104_refuted"], "note": "For runs in which no handler panics, from the empty project, with a file system that does not change and canonical paths that are their own canonical path. A message is taken by the client end of the channel in the same poll in which it is sent. C104_refuted: with two threads it is false (the situation of C52)."},
{"property": "C105", "status": "proved", "theorems": ["C105_tree_derived", "C105_derived_tree", "C105_rejected_iff", "C105_unambiguous"], "note": "A missing semicolon is reported at one of the places of C67; all other diagnostics are given in full. The error of a rejected text is the subject of C95."},
{"property": "C106", "status": "proved", "theorems": ["C106_error_derived", "C106_derived_error", "C106_divided", "C106_unambiguous"], "note": "The message about a missing opening brace names the token found instead of the brace: the code does so (see C55)."},
{"property": "C107", "status": "proved", "theorems": ["C107_continuable", "C107_on_the_way", "C107_hopeless_iff", "C107_unsettled_refuted"], "note": "Extends C82 (texts without any other complaint) to all texts; accepted means that a tree is given, possibly with diagnostics. C107_unsettled_refuted: the condition that the text does not break off inside a lexical construct is needed."},
{"property": "C108", "status": "proved", "theorems": ["C108_exact", "C108_entries", "C108_every_file"], "note": "Runs that end; when the tool panics is C37 and C43. C108_exact is an equivalence, so the specification promises no output that no iteration order gives. C108_entries gives the reports of the parser by the grammars of C105 and C106. The exchanges that make the order of analysis are taken from the model (order_loop); C38 says when their result is good."},
{"property": "C109", "status": "proved", "theorems": ["C109_published", "C109_answered"], "note": "Messages handled one after the other and to the end; messages handled at the same time are C52, C103 and C104, and messages on which a handler panics have no successor in the specification either. As in C108 the exchanges that make the order of analysis are taken from the model; the answers to requests are those of the handlers applied to the files of the specification (C46, C50, C62, C65 and C85 say what these are)."},
{"property": "C11", "status": "proved", "theorems": ["C11_grammatical_parses_clean"], "note": "Same grammar as C10; unambiguity follows."},
{"property": "C110", "status": "proved", "theorems": ["C110_first_fault"], "note": "C95 for all texts, not only those without earlier complaints. The part in front of the token has to be UTF-8 itself, which it is unless the token is a byte inside an unknown character."},
{"property": "C111", "status": "proved", "theorems": ["C111_analysis_points", "C111_project_points"], "note": "C16 for all diagnostics, not only those of the parser."},
{"property": "C112", "status": "proved", "theorems": ["C112_relaid_run"], "note": "Release build (in a debug build the printer may panic, depending on the columns, see C43). Stated run by run, since two runs on the same disk may differ already (C32)."},
{"property": "C113", "status": "proved", "theorems": ["C113_relaid_session"], "note": "Messages handled one after the other, as in C109. Stated session by session, since two sessions with the same messages may differ already (C32)."},
{"property": "C114", "status": "proved", "theorems": ["C114_hover"], "note": "Corresponding positions: on the same spot of the two trees in the sense of C44/C45. Session by session, as C113."},
{"property": "C115", "status": "proved", "theorems": ["C115_parser_count", "C115_analysis_count", "C115_project_count"], "note": "The factor one of the parser is reached (example with 201 diagnostics for 205 bytes)."},
{"property": "C116", "status": "proved", "theorems": ["C116_definition"], "note": "For an include the answer gives the range of the include statement itself (in the document with the cursor) beside the URI of the included file; the theorem says so."},
{"property": "C117", "status": "proved", "theorems": ["C117_text", "C117_file", "C117_tool", "C117_message", "C117_session", "C117_still", "C117_condition_needed", "C117_request"], "note": "C117_condition_needed shows that the condition on unreadable files is needed: a file that is no text at first and one later leaves a project no still disk gives. Different files may be seen at different moments (C117_case). Requests read no file (C117_request)."},
{"property": "C118", "status": "partial", "theorems": ["C118_any_partial", "C118_one_text", "C118_after", "C118_refuted", "C118_vanish_refuted"], "note": "All but the absence of panics is proved. C118_refuted: a missing include file that is created between parsing and ordering makes position(..).unwrap() panic, although the addition succeeds before and after; C118_vanish_refuted: a file removed between the two canonicalisations of add_file makes expect panic. C118_any_partial names all causes of a panic."},
{"property": "C119", "status": "partial", "theorems": ["C119_parse_partial", "C119_exact_partial", "C119_tool_partial", "C119_session_partial", "C119_refuted", "C119_broken_refuted"], "note": "Proved for texts none of whose strings, path references and directives goes over a line end (a small automaton, unbroken, tells): the tree is always the same, and so are the diagnostics but for one column of some Expected messages; with no line comment or no syntax error everything is the same. C119_refuted: a semicolon missing before a line comment is reported one column further to the right with Windows line ends, because the comment includes the carriage return. C119_broken_refuted: a string over two lines gets the carriage return as part of its value."},
{"property": "C12", "status": "proved", "theorems": ["C12_names_legal"], "note": "Also the reserved node name __symbols__ is legal."},
{"property": "C120", "status": "proved", "theorems": ["C120_blank", "C120_tree", "C120_project", "C120_session"], "note": "C120_blank: in every text the labels can be written over with spaces, leaving all other tokens at their places. C120_tree: without them a text that parses without diagnostics does so again, same tree but for the labels. C120_project, C120_session: the same diagnostics, publications and answers; files with syntax errors may be among them if they are left as they are. The outline is not claimed (its ranges start at the labels), nor what the tool prints (it prints the source lines)."},
{"property": "C121", "status": "partial", "theorems": ["C121_parse", "C121_project", "C121_refuted"], "note": "False (C121_refuted). What happens instead, for every text: C121_parse: the parser stops at the first byte with one fixed error. C121_project: in every project the file has exactly this diagnostic, nothing in it can be found or referred to, and no file is loaded because of it."},
{"property": "C122", "status": "partial", "theorems": ["C122_text", "C122_project", "C122_session", "C122_refuted", "C122_brackets_refuted"], "note": "False (C122_refuted; with pointed brackets it is a syntax error, C122_brackets_refuted). What is proved instead: such lines have no effect at all. C122_text: in texts without syntax errors they can be blanked, which leaves the rest of the tree in place. C122_project, C122_session: then every file has the same diagnostics, and the server publishes and answers the same, in every project and session."},
{"property": "C123", "status": "partial", "theorems": ["C123_text", "C123_project", "C123_session", "C123_root_refuted", "C123_join_refuted"], "note": "C123_text: a text without syntax errors stays so when a root block is closed and opened again between two items, and its items are read as before. C123_project, C123_session: in every project and session files have the same diagnostics, and the server publishes the same, answers hover and goto the same, and shows the same items in the outline (under the other root blocks). Left out: where a jump from &{/} goes, which is the last block (C123_root_refuted). The other direction fails for texts (C123_join_refuted): a property may not follow a node in the same block. Condition on the hash map orders: the search for a label visits the nodes other than the root in the same order."},
{"property": "C124", "status": "proved", "theorems": ["C124_text", "C124_project", "C124_session"], "note": "C124_text: the changed text is read without complaint as the same tree but for the numbers, bytes and strings, with the same item at every position and the same outline. C124_project, C124_session: same files and diagnostics, same publications, same answers, a crash in the one exactly if in the other. Conditions: the texts in which values are changed have no syntax errors, tokens keep their places, numbers fit their size (C124_bound shows why), file names after /include/ and #include stay; hash map orders depend on the keys only."},
{"property": "C125", "status": "proved", "theorems": ["C125_text", "C125_project", "C125_session", "C125_tool"], "note": "C125_text: the changed text is read without complaint as the same tree but for names of properties and values, with the same item at every position. C125_project, C125_session: same files and diagnostics, same publications, same answers, same outlines after unnamed (which blanks the names of entries of kind property), a crash in the one exactly if in the other. C125_tool: the command line tool ends with the same status and prints the same reports but for the source lines it quotes. Conditions: the texts that are changed have no syntax errors, tokens keep their places, names in /delete-property/ stay; hash map orders depend on the keys only. C125_compatible shows that the name compatible has to be excepted."},
{"property": "C126", "status": "proved", "theorems": ["C126_twice"], "note": "C126_twice, in both directions: every result of the analysis with the second include is, without the report of this include, a result of the analysis without it, and the other way round. It is about syntax trees that are equal but for the second include, and about one analysis of one file in a given project; whole sessions are not compared. C126_case: an included file with errors. C126_between: with a definition in between the second include does matter."},
{"property": "C13", "status": "proved", "theorems": ["C13_cells_exact", "C13_no_other_diagnostics", "reports_exact"], "note": "For every successful parse, also with other diagnostics; exactly one or zero integer diagnostics with the span of the token."},
{"property": "C14", "status": "proved", "theorems": ["C14_memreserve_exact", "reports_exact"], "note": "As C13."},
{"property": "C15", "status": "partial", "theorems": ["C15_plus_refuted", "C15_bytes_exact_partial", "reports_exact"], "note": "False for elements with a plus sign: '+c' decodes to 0x0c (witness proved). Proved exactly for all other elements; reports_exact covers elements with '+' too (byte_text)."},
{"property": "C16", "status": "proved", "theorems": ["C16_diagnostics_inside"], "note": "All pushed diagnostics and the returned error: source is the file, start <= end <= end of text."},
{"property": "C17", "status": "proved", "theorems": ["C17_spans_nest"], "note": "file_nested (TreeSpec.v). For a property whose semicolon is missing the code takes the '=' as its end; there the values are only ordered after the name, not inside the span (stated in prop_nested)."},
{"property": "C18", "status": "proved", "theorems": ["C18_property_after_node"], "note": "List equality of spans and sources, in source order."},
{"property": "C19", "status": "partial", "theorems": ["C19_missing_semicolon_refuted", "C19_missing_semicolon_partial"], "note": "False for properties without values (witness proved) and for a label following values. Proved for every statement with a recoverable end: success, tree of the repaired token list up to end tokens, exactly one diagnostic per missing semicolon."},
{"property": "C20", "status": "proved", "theorems": ["C20_name_round_trip", "C20_path_round_trip", "C20_text_normal"], "note": "Also: displaying what was parsed from any text is a fixed point. The side conditions are shown to be needed by an example."},
{"property": "C21", "status": "partial", "theorems": ["C21_exact", "C21_value_round_trip_partial", "C21_refuted"], "note": "False for strings with quotes, backslashes or non-ASCII characters and bytes below 16 (C21_refuted). C21_exact: every property value, whatever it contains, reads back from its display exactly if it is in value_ok (ASCII strings without quote and backslash, legal references starting with a letter, u32 cells, expressions, non-empty groups of bytes >= 16)."},
{"property": "C22", "status": "partial", "theorems": ["C22_exact", "C22_display_is_text", "C22_refuted", "C22_plain_partial"], "note": "False in general: property labels and omit flags are dropped, deleted items lack a semicolon, memreserve has two, #include lacks quotes, bytes below 16, quotes, backslashes and non-ASCII characters in strings (C22_refuted). C22_exact: a cleanly parsed tree reads back from its display exactly if it contains none of these. C22_display_is_text: the display of a cleanly parsed file is valid UTF-8."},
{"property": "C23", "status": "proved", "theorems": ["C23_cycle_iff"], "note": "Every history of additions and every hash iteration order."},
{"property": "C24", "status": "proved", "theorems": ["C24_reported_cycle_is_real", "C24_exact"], "note": "The reported list starts and ends at the added element, follows dependency edges, repeats no other node and has no shortcut. C24_exact: exactly these cycles are reported for some iteration order."},
{"property": "C25", "status": "proved", "theorems": ["C25_silent_iff_acyclic"], "note": "Every history and iteration order."},
{"property": "C26", "status": "proved", "theorems": ["C26_label_lookup", "C27_root_lookup"], "note": ""},
{"property": "C27", "status": "proved", "theorems": ["C27_path_lookup", "C27_root_lookup"], "note": ""},
{"property": "C28", "status": "proved", "theorems": ["C28_unresolved_exact"], "note": ""},
{"property": "C29", "status": "proved", "theorems": ["C29_not_blamed"], "note": ""},
{"property": "C30", "status": "proved", "theorems": ["C30_headers"], "note": ""},
{"property": "C31", "status": "proved", "theorems": ["C31_compatible_exact"], "note": ""},
{"property": "C32", "status": "partial", "theorems": ["C32_hash_order_refuted", "C32_hash_order_partial", "C32_cycle_refuted"], "note": "False as stated: opening a label that several nodes carry picks one in hash order, and the cycle named in a cyclic-include message is picked in hash order when a file lies on several cycles (C32_cycle_refuted). Proved when each opened label is on at most one current node, up to the text of the cycle message. Exactly which results are possible is C98."},
{"property": "C33", "status": "partial", "theorems": ["C33_reopened_refuted", "C33_reopened_partial"], "note": "False as stated: a node re-opened without its label hides the label. Proved: reported exactly if no node that is the last at its path carries the label."},
{"property": "C34", "status": "proved", "theorems": ["C34_included_visible"], "note": ""},
{"property": "C35", "status": "proved", "theorems": ["C35_terminates", "C35_parsed_once"], "note": "Recursion depth is fuel; some depth suffices and all larger ones agree. Finite file systems. Stack use is not modelled."},
{"property": "C36", "status": "proved", "theorems": ["C36_closure", "C36_from_empty", "C36_add_file"], "note": "C36_closure covers every reached project, C36_from_empty the empty one."},
{"property": "C37", "status": "partial", "theorems": ["C37_panic_exact", "C37_refuted", "C37_removal_refuted", "C37_no_panic_partial", "C37_additions_partial"], "note": "False as stated: an include that exists but cannot be read, or a removed include, makes the next addition panic. The exact condition for a panic is proved."},
{"property": "C38", "status": "partial", "theorems": ["C38_exact", "C38_refuted", "C38_diagnostics_refuted", "C38_shared_refuted", "C38_flat_partial"], "note": "False as stated for includes of depth two and for partially shared includes. C38_exact: an addition analyses included files first for every hash order exactly if no included file includes and files with a common includer have the same includers. C38_flat_partial: the order then, file by file."},
{"property": "C39", "status": "proved", "theorems": ["C39_frame"], "note": ""},
{"property": "C40", "status": "proved", "theorems": ["C40_remove"], "note": "Paths are compared by their canonical form, as in the code."},
{"property": "C41", "status": "partial", "theorems": ["C41_refuted", "C41_kept_partial", "C41_reported_partial"], "note": "False as stated: the diagnostics before an unrecoverable error are dropped. Everything else is kept."},
{"property": "C42", "status": "partial", "theorems": ["C42_inverted", "C42_refuted"], "note": "The claim is false in both directions: main.rs exits with 0 and prints OK exactly if a diagnostic was found (C42_refuted, C42_inverted)."},
{"property": "C43", "status": "partial", "theorems": ["C43_underline_partial", "C43_release_total", "C43_debug_exact", "C43_refuted", "C43_column_refuted", "C43_column_exact"], "note": "One-line spans whose line is ASCII up to the start are printed exactly as claimed. Refuted otherwise: multi-line spans panic in debug builds and can print 2^32 carets in release builds; behind non-ASCII characters the carets are misplaced. C43_column_exact: what is printed for every one-line span of every text; the carets stand in the right column exactly if the line is ASCII up to them or ends there."},
{"property": "C44", "status": "partial", "theorems": ["C44_found", "C44_sound_partial", "C44_refuted", "C45_exact"], "note": "Sound for every tree without top-level deletions and omissions; those are returned for every cursor (C44_refuted). C45_exact says what is found for every cursor in every parsed text."},
{"property": "C45", "status": "partial", "theorems": ["C45_spots_disjoint", "C45_complete_partial", "C45_refuted", "C45_exact"], "note": "Complete up to and including the first top-level deletion or omission of the file; elements behind it are shadowed (C45_refuted). C45_exact: for every cursor the answer is the item under it before or in that element, else its reference, else nothing."},
{"property": "C46", "status": "proved", "theorems": ["C46_well_formed", "C46_one_per_element", "C46_served"], "note": "The symbols of every parsed file are well nested and in source order, and their pre-order outline is that of the tree."},
{"property": "C47", "status": "proved", "theorems": ["C47_open_published", "C47_change_published", "C47_stored", "C47_no_panic"], "note": "For every history of notifications handled one after the other. Current diagnostics are those of Project::get_diagnostics; for files that still exist under their canonical path these are the stored ones (C47_stored)."},
{"property": "C48", "status": "partial", "theorems": ["C48_refuted", "C48_kept", "C48_kept_later"], "note": "False: closing sends nothing (C48_refuted). Exact behaviour: the diagnostics shown stay as they are, also after later notifications."},
{"property": "C49", "status": "partial", "theorems": ["C49_refuted", "C49_first_only", "C49_empty_refuted", "C49_single_partial"], "note": "False for several changes: the first one is used (C49_refuted). True for one change (C49_single_partial)."},
{"property": "C50", "status": "proved", "theorems": ["C50_definition", "C50_no_panic"], "note": "The answer is the place of the name of the node the reference means by the definitions of the analysed file, in the text it was parsed from. See C64 for stale texts."},
{"property": "C51", "status": "proved", "theorems": ["C51_errors_in_include", "C51_levels"], "note": "C51_levels holds in every reached project."},
{"property": "C52", "status": "partial", "theorems": ["C52_refuted", "C52_interleaved_partial", "C52_updates_first_partial", "C52_honest", "C52_runs_with_locks"], "note": "False: a handler suspended between reading and sending publishes stale diagnostics last (C52_refuted). True for every schedule in which no update comes between the reading and the sending of the diagnostics of one file (C52_interleaved_partial), in particular if all updates come first. In every schedule only diagnostics of states the project had are sent (C52_honest). C52_runs_with_locks: the runs of the handlers with their locks and awaits are among those considered here. On one thread the client ends up to date in every schedule: C104."},
{"property": "C53", "status": "proved", "theorems": ["C53_file_type", "C53_included", "C53_added"], "note": "C53_included: the types stored by an addition."},
{"property": "C54", "status": "proved", "theorems": ["C54_positions_bounded"], "note": "Positions after any number of reads, of all tokens, of all diagnostics and of all tokens stored in a tree are bounded by the text length."},
{"property": "C55", "status": "partial", "theorems": ["C55_open_brace_partial", "C55_open_brace_refuted"], "note": "False in the code: the message names the token that was found (witness). Proved: kind, exact place (end of the header, before the found token) and the exact message."},
{"property": "C56", "status": "partial", "theorems": ["C56_illegal_char_partial", "C56_right_place", "C56_unit_address_refuted"], "note": "False for unit addresses and path references, where the tool counts from the start of the token (witness for unit addresses). Proved for every parse: which name and which character of it every illegal-character diagnostic is about, its message and place; the place is right exactly if the name stands at the start of its token."},
{"property": "C57", "status": "partial", "theorems": ["C57_deleted_refuted", "C57_delete_ignored_partial"], "note": "False: deletion has no effect on lookups, which is what the partial theorem states."},
{"property": "C58", "status": "partial", "theorems": ["C58_included_visible_partial", "C58_in_order_partial", "C38_diagnostics_refuted"], "note": "False in general because of C38; proved for two-level include graphs, and for any include graph if the addition analyses included files first."},
{"property": "C59", "status": "proved", "theorems": ["C59_cycles_reported", "C59_cycle_named"], "note": "C59_cycle_named: the text of the message names a real cycle of includes."},
{"property": "C60", "status": "partial", "theorems": ["C60_refuted", "C60_listed"], "note": "False if the file no longer exists on disk; exact otherwise."},
{"property": "C61", "status": "proved", "theorems": ["C61_all_printed"], "note": "Exact decomposition of the output into the blocks of all diagnostics of all files."},
{"property": "C62", "status": "partial", "theorems": ["C62_refuted", "C62_include_exact"], "note": "False: the range is that of the include directive in the including file (C62_include_exact), which need not exist in the included file (C62_refuted)."},
{"property": "C63", "status": "partial", "theorems": ["C63_refuted", "C63_lines_refuted", "C63_ascii_partial", "positions_exact", "C63_exact"], "note": "False behind characters outside ASCII, where bytes are counted, and for lone carriage returns. C63_exact: for every token of every text, start and end are right exactly if no lone carriage return is before them and their line is ASCII up to them."},
{"property": "C64", "status": "partial", "theorems": ["C64_refuted", "C64_flat_partial", "C64_in_order_partial"], "note": "False for includes of includes, where a file can be analysed before the files it includes (C64_refuted). True for two levels of includes, and for any include graph if the addition analyses included files first."},
{"property": "C65", "status": "proved", "theorems": ["C65_hover", "C65_spots", "C65_elsewhere"], "note": "For every served state; labels and includes as far as C45 finds them."},
{"property": "C66", "status": "partial", "theorems": ["C66_refuted", "C66_letter_partial"], "note": "Labels starting with an underscore are accepted but no text contains a reference to them; labels starting with a letter can be referenced."},
{"property": "C67", "status": "proved", "theorems": ["C67_missing_semicolon_place", "C67_places", "C67_recovered_places"], "note": "all diagnostics of all parses; the error that ends a parse may name a semicolon that was found (a wrong message of expect), which is the separate case misnamed; C67_readme is the example of README.md"},
{"property": "C68", "status": "proved", "theorems": ["C68_same_tokens", "C68_reformat", "C68_refuted"], "note": "Self-simulation of the token-level parser, transferred to the parser by ParserSim.v. C68_refuted: with an unknown character in place of a semicolon (excluded in the statement) the layout does matter, since the lexer is switched back to reading names there."},
{"property": "C69", "status": "proved", "theorems": ["C69_search", "C69_directories", "C69_missing_refuted", "C69_cli", "C72_directories"], "note": "C69_missing_refuted: an include directory that does not exist is turned into the empty path, stands for the working directory and so hides the directories behind it."},
{"property": "C70", "status": "partial", "theorems": ["C70_settled_partial", "C70_in_order_partial", "C70_refuted"], "note": "Proved for two levels of includes, and for any include graph if the addition analyses included files first. C70_refuted: with deeper acyclic includes a file can be analysed before the file it includes, and keeps that result."},
{"property": "C71", "status": "partial", "theorems": ["C71_current_texts_partial", "C71_repeat_partial", "C71_in_order_partial", "C71_refuted"], "note": "Proved for two-level includes, or for any include graph if both last additions analyse included files first, and trees without ambiguous paths. C71_refuted: with deeper includes the diagnostics depend on the iteration order."},
{"property": "C72", "status": "proved", "theorems": ["C72_directories", "C72_malformed"], "note": "JSON values and the derived deserialiser are modelled (Config.v). A single member that is not a string drops all directories, and settings without includes reset them."},
{"property": "C73", "status": "partial", "theorems": ["C73_exact", "C73_next_text_partial", "C73_refuted"], "note": "C73_refuted: files are not read again when the configuration changes, an include that the new directories resolve is still reported as missing. C73_exact: nothing but the directories changes. C73_next_text_partial: the next text is read with the new directories."},
{"property": "C74", "status": "partial", "theorems": ["C74_shown_partial", "C74_in_order_partial", "C71_refuted"], "note": "Server-level form of C71, under the same guards."},
{"property": "C75", "status": "partial", "theorems": ["C75_elsewhere_partial", "C75_local_partial", "C75_refuted"], "note": "Proved if the stored results of the file and of the files it includes are current (the case after any addition that analyses included files first) and no opened label or path is ambiguous (C32); the order of the analyses elsewhere is arbitrary. C75_refuted: stale results of a deeper include graph (C70) are repaired by the addition of an unrelated file."},
{"property": "C76", "status": "partial", "theorems": ["C76_paste_partial", "C76_text_partial", "C76_refuted"], "note": "Proved for trees and their analyses, and for texts: C76_text_partial compares x, an include line, y with x, the text of the included file, y, all read from bytes. Included files open no nodes and declare no plugin, there are no include cycles and no ambiguous opened labels (C32). C76_refuted: an included file that opens a node of its includer (&l { m { }; };) has its contents taken for contents of the root."},
{"property": "C77", "status": "partial", "theorems": ["C77_additions_partial", "C77_refuted"], "note": "Proved for files that open and delete nodes by path, not by label, added root nodes, includes and directives, and no include cycle. C77_refuted: a second root node between the definition of a labelled node and its opening loses the label (C33), then the opened contents are placed under the root and a path reference to them no longer resolves."},
{"property": "C78", "status": "partial", "theorems": ["C78_concatenation_partial", "C78_refuted", "C78_settled"], "note": "Proved, with exact positions, if the first text has no unterminated string, comment or path reference at its end. C78_refuted: behind an unterminated comment the second text is lost without a diagnostic (C07). C78_settled: the condition as a check on the bytes of the first text."},
{"property": "C79", "status": "partial", "theorems": ["C79_every_order", "C79_layout_partial", "C79_same_tree_partial", "labels_once_unambiguous"], "note": "C79_every_order: for all hash orders, whatever the analysis of one layout can say, that of the other can say word by word, with the same meaning of all names. For any two given runs, as the statement has it, proved where every label that is opened is carried by one node (true for a file without includes whose labels are written once: labels_once_unambiguous), up to the text of the cycle message; elsewhere two runs on the same text may differ already (C32_hash_order_refuted)."},
{"property": "C80", "status": "partial", "theorems": ["C80_add_exact", "C80_include_panics", "C80_refuted", "utf8_adequate", "utf8_unique"], "note": "Adding: exact. Including: false, the addition panics (C80_include_panics in general, C80_refuted as witness). utf8_adequate: the check of the model accepts exactly the encodings of sequences of scalar values."},
{"property": "C81", "status": "proved", "theorems": ["C81_errors_stand", "C81_on_the_way", "C81_refuted"], "note": "ends_settled (LexGrow.v) is the condition that the text does not end inside a string, block comment, path or directive, as an automaton on bytes, independent of the lexer. C81_refuted: the condition is needed, an unclosed directive takes the next lines for its name."},
{"property": "C82", "status": "proved", "theorems": ["C82_completable", "C82_misplaced_stays", "C82_exactly", "C82_unsettled_refuted"], "note": "For texts that are reported only as ended too early and do not break off inside a lexical construct the alternative is exact (C82_exactly). Without the restriction to such texts the claim is false: C82_unsettled_refuted. Texts that also lack a semicolon at their very end are outside (they carry a second diagnostic)."},
{"property": "C83", "status": "proved", "theorems": ["C83_tree_says"], "note": "Numbers and bytes with their values: a number that is no number or too large is 0, bytes that are none are empty."},
{"property": "C84", "status": "proved", "theorems": ["C84_symbols_named"], "note": ""},
{"property": "C85", "status": "partial", "theorems": ["C85_shown", "C85_refuted"], "note": "False in full: the unit address is left out of node names, so uart@0 and uart@1 look the same (C85_refuted). C85_shown says exactly how the name relates to the text at the selection range: equal to it but for the unit address, normalised path references, and the words shown for includes and directives."},
{"property": "C86", "status": "partial", "theorems": ["C86_refuted", "C86_not_a_file", "C47_open_published"], "note": "False in full: a document whose URI is not a file path (untitled:1) is never reported on and none of its requests is answered (C86_not_a_file, for all reachable states; C86_refuted is the witness). For file URIs the claim is C47_open_published."},
{"property": "C87", "status": "partial", "theorems": ["C87_refuted"], "note": "False: the arguments are parsed and dropped (ginko_ls/src/main.rs:15). The witness shows the same directory found by ginko --include and by the configuration of the language server, but not by ginko_ls --include."},
{"property": "C88", "status": "partial", "theorems": ["C88_twice", "C88_refuted"], "note": "False: every missing include is reported exactly twice, once while parsing and once more by the analysis, with the same text and range (C88_twice, for all projects; C88_refuted is what the editor shows). The rest of the claim holds: nothing else is an input/output error."},
{"property": "C89", "status": "partial", "theorems": ["C89_crash_exact", "C89_refuted"], "note": "False as stated: after the file of an open document is deleted, the next keystroke ends the server (C89_refuted). C89_crash_exact gives the exact condition for every state and notification: the server panics iff the document is not on disk or an include that exists is neither stored nor readable; otherwise it reaches a good state."},
{"property": "C90", "status": "proved", "theorems": ["C90_codes", "C90_occur"], "note": "For every reachable project. Every listed code occurs (C90_occur, by witnesses)."},
{"property": "C91", "status": "partial", "theorems": ["C91_never", "C91_refuted"], "note": "False: neither code is ever reported, in any reachable project (C91_never); C91_refuted shows texts with both mistakes."},
{"property": "C92", "status": "proved", "theorems": ["C92_reading", "C92_rename", "C92_text"], "note": "C92_reading: the parser, also where it fails. C92_rename: the analysis of trees. C92_text: both."},
{"property": "C93", "status": "proved", "theorems": ["C93_names_exact", "C93_every_complaint_has_a_name", "C93_fine_names_are_silent"], "note": "C93_names_exact: the filtered list of diagnostics equals what nsite_report demands of the names of the tree, messages included. A label before a closing brace is checked but is not in the tree: for it the theorem says that there is such a label token in the text."},
{"property": "C94", "status": "proved", "theorems": ["C94_tolerated", "C94_only_there"], "note": "Tolerated.v has the grammar with mistakes (h_file) and the remarks that they deserve. For the place of a missing semicolon see C19."},
{"property": "C95", "status": "proved", "theorems": ["C95_first_fault"], "note": "The exception (misplaced_file: an item that may not stand there is reported only once it has been read) is that of C82. The continuation must not change the token itself (spells)."},
{"property": "C96", "status": "partial", "theorems": ["C96_tool_partial", "C96_opened", "C96_refuted"], "note": "C96_tool_partial: under the guards of C71 (files are analysed behind their includes, no ambiguous label is opened) and if each file has the type of its canonical name. C96_opened: a fresh session that opens the file holds the same project as the tool, for each hash order, without these guards. C96_refuted: a link ending in .dtsi to a .dts is an include for the editor and a source for the tool."},
{"property": "C97", "status": "partial", "theorems": ["C97_silent_correct", "C97_correct_silent_partial", "C97_exact_partial", "C97_label_refuted", "C97_opened_refuted"], "note": "C97_silent_correct: silence implies correct sources, for each hash order, without guards (a file that is not a source or is a plugin may open nodes it does not know; what stands inside counts as below the root). C97_correct_silent_partial and C97_exact_partial: the converse if files are analysed behind their includes (C38), a label stays with one node and is repeated when the node is written again (C32, C33), and no node is opened where references are not judged. C97_label_refuted and C97_opened_refuted: without the last two guards correct sources get a message."},
{"property": "C98", "status": "proved", "theorems": ["C98_results_exact"], "note": "Both directions: each run satisfies the specification in AnalysisSpec.v, and each result that the specification allows is that of a run with some iteration orders. The cycles are those of C24_exact."},
{"property": "C99", "status": "proved", "theorems": ["C99_quick_fix", "C99_at_the_complaint_refuted", "C99_open_directive_refuted", "C99_number_sign_refuted"], "note": "The refuted variants: a semicolon put where the complaint is may land in a line comment; a directive without its second slash at the end of the text takes the semicolon into its name; with a number sign behind the value (a = <1> #b = <2>;) the sign is dropped silently and the tree is another one than with the semicolon."}
]}
