{"claims": [
 {"property": "C01", "status": "proved", "theorems": ["C01_extract_finishes", "C01_extract_returns"], "note": "All rule trees, documents, nodes with a parent, limits and regex engines. Exceptions of the regex library and of user functions, and the overflow of C22, are the only other outcomes and are shown to need their cause."},
 {"property": "C02", "status": "partial", "theorems": ["C02_document_node_refuted", "C02_document_never", "C02_document_undefined", "C02_other_nodes_partial"], "note": "Refuted as stated: on the document node the search dereferences the null parent, whatever the rule is (C02_document_never, C02_document_undefined). Proved for all other nodes."},
 {"property": "C03", "status": "proved", "theorems": ["C03_limit_never_changes_result"], "note": ""},
 {"property": "C04", "status": "proved", "theorems": ["C04_limit_threshold", "C04_search_count"], "note": ""},
 {"property": "C05", "status": "proved", "theorems": ["C05_values_from_matches", "C16_pairs_match"], "note": ""},
 {"property": "C06", "status": "proved", "theorems": ["C06_match_is_embedding"], "note": "At every fuel at which the model's function returns, which C01 shows to exist."},
 {"property": "C07", "status": "proved", "theorems": ["C07_groups_complete"], "note": ""},
 {"property": "C08", "status": "proved", "theorems": ["C08_found_iff_embeds"], "note": "Per sibling list of the search; later groups are covered by C09."},
 {"property": "C09", "status": "proved", "theorems": ["C09_disjoint_exhaustive"], "note": ""},
 {"property": "C10", "status": "proved", "theorems": ["C10_single_rule", "C10_single_capture"], "note": " C10_single_capture (in PropHref) states it for results: one map per matching node with a value."},
 {"property": "C11", "status": "proved", "theorems": ["C11_single_greedy_rule"], "note": ""},
 {"property": "C12", "status": "proved", "theorems": ["C12_optional_between", "C12_optional_trailing"], "note": ""},
 {"property": "C13", "status": "partial", "theorems": ["C13_greedy_after_optional_refuted", "C13_greedy_repeats_partial", "C13_greedy_once_partial"], "note": "Refuted as stated: <?a/><+b/> does not repeat b. Proved for chains of any length: a greedy mandatory rule is repeated if it comes first or directly after a mandatory rule that is not itself repeated; every other mandatory rule has exactly one node in each group."},
 {"property": "C14", "status": "partial", "theorems": ["C14_optional_resume_refuted", "C14_single_optional_partial", "C14_optional_groups_partial", "C14_none_lost_partial"], "note": "Refuted as stated: <?a/><?b/> on two a loses the second. Proved: for a single optional rule all matches are found; for any chain of optional rules the groups are described exactly; nothing after the last group is lost if the last rule is not greedy and has a node in every group."},
 {"property": "C15", "status": "partial", "theorems": ["C15_optional_children_refuted", "C15_optional_children_partial", "C15_optional_only_partial"], "note": "Refuted as stated: a rule with only optional children does not match an empty element. Proved for all elements with children and whenever a child rule remains."},
 {"property": "C16", "status": "proved", "theorems": ["C16_pairs_match", "C16_search_result", "C16_search_result_unique"], "note": ""},
 {"property": "C17", "status": "proved", "theorems": ["C17_result_maps", "C17_extract_computes"], "note": ""},
 {"property": "C18", "status": "proved", "theorems": ["C18_copy_equal", "C18_trait_copy_equal", "C18_capture_copy_equal"], "note": "Copy construction; equality of rule trees at every depth."},
 {"property": "C19", "status": "proved", "theorems": ["C19_siblings_determine", "C19_append_next", "C19_append_child", "C19_append_nested", "C19_append_match", "C19_append_capture"], "note": "Stated on the list of siblings, which determines the chain."},
 {"property": "C20", "status": "proved", "theorems": ["C20_tag", "C20_rule_matches", "C20_no_name"], "note": "The name of the rule or that in the source must be free of NUL bytes, at which strncasecmp stops."},
 {"property": "C21", "status": "proved", "theorems": ["C21_formula", "C21_answers"], "note": ""},
 {"property": "C22", "status": "partial", "theorems": ["C22_overflow_refuted", "C22_difference_overflow_refuted", "C22_safe_partial", "C22_overflow_iff_partial"], "note": "Refuted as stated, by two texts that the parser accepts. The exact condition is proved (C22_overflow_iff_partial): a > 0 and position - b > 2^31-1, or a = -2^31 and position <= b. In particular there is no overflow for a > -2^31 and b at least the number of siblings minus 2^31-1 (C22_safe_partial)."},
 {"property": "C23", "status": "partial", "theorems": ["C23_root_refuted", "C23_root_partial"], "note": "Refuted as stated: the root has position 0, so :nth-child(2n) accepts it. Proved: it is accepted exactly if 0 has the form an+b."},
 {"property": "C24", "status": "proved", "theorems": ["C24_only_child"], "note": ""},
 {"property": "C25", "status": "proved", "theorems": ["C25_child_count", "C25_attribute_count", "C25_not_child_count", "C25_not_attribute_count"], "note": "For less than 2^32 children or attributes (the counters are unsigned int)."},
 {"property": "C26", "status": "proved", "theorems": ["C26_not", "C26_not_false", "C26_negated_test", "C26_missing_attribute"], "note": ""},
 {"property": "C27", "status": "proved", "theorems": ["C27_exists", "C27_test"], "note": ""},
 {"property": "C28", "status": "proved", "theorems": ["C28_attribute", "C28_no_attribute", "C28_function", "C28_builtin"], "note": ""},
 {"property": "C29", "status": "proved", "theorems": ["C29_equals", "C29_begins_with", "C29_ends_with", "C29_contains", "C29_tests_answer"], "note": ""},
 {"property": "C30", "status": "partial", "theorems": ["C30_words_partial", "C30_constructed_partial", "C30_words_exist", "C30_words_with_blanks_refuted", "C30_exact", "C30_answers", "C30_no_words"], "note": "Refuted for words that contain blanks or are empty, which the string constructor never makes of a text with words. Proved for all others, and for all texts. C30_exact says for every list of words what is found."},
 {"property": "C31", "status": "partial", "theorems": ["C31_of_type_refuted", "C31_known_tags_partial", "C31_exact", "C31_nth_of_type", "C31_only_of_type"], "note": "Refuted as stated: all elements unknown to HTML count as one type. C31_exact: elements count as one type iff their names are the same or both unknown. C31_nth_of_type, C31_only_of_type: what the code answers, in these terms."},
 {"property": "C32", "status": "proved", "theorems": ["C32_collapse", "C32_words_exist", "C32_idempotent"], "note": ""},
 {"property": "C33", "status": "proved", "theorems": ["C33_strip_tags", "C33_reached", "C33_wrapped"], "note": "Texts are C strings and end at a NUL byte."},
 {"property": "C34", "status": "proved", "theorems": ["C34_words", "C34_block"], "note": ""},
 {"property": "C35", "status": "partial", "theorems": ["C35_ambiguous_refuted", "C35_unambiguous_partial", "C35_values_partial"], "note": "Refuted as stated: text is not escaped. Proved for trees without brackets in texts, ends of comments in comments, separators in names and adjacent texts."},
 {"property": "C36", "status": "proved", "theorems": ["C36_chain", "C36_append_to_chain", "C36_trim", "C36_case", "C36_append_prepend", "C36_filter"], "note": ""},
 {"property": "C37", "status": "proved", "theorems": ["C37_position", "C37_position_exists", "C37_message", "C37_decimal", "C37_errors"], "note": "C37_errors: every message of ParseHext names a place of the text (ParserSpec.parse_outcome), C37_message: what is printed about a place. Messages have no marker line if the text has a byte above 127, and the missing closing tag is never marked."},
 {"property": "C38", "status": "proved", "theorems": ["C38_total", "C38_text"], "note": "By an invariant for each of the 820 states (SafetyCheck.v) preserved by all 89 actions. The one remaining undefined behaviour, isprint on a negative char, is property C40."},
 {"property": "C39", "status": "partial", "theorems": ["C39_refuted", "C39_exceptions_partial"], "note": "Finding: std::out_of_range of std::stoi escapes, e.g. for <a:child-count(99999999999)/>. Proved: nothing else but SyntaxError is thrown, and std::out_of_range only for texts with a number above INT_MAX."},
 {"property": "C40", "status": "partial", "theorems": ["C40_refuted", "C40_defined_partial"], "note": "Finding: an unexpected byte from 128 to 254 is passed to std::isprint as a negative int. Proved: this is the only undefined behaviour of ParseHext (C38_total), and there is none without such bytes."},
 {"property": "C41", "status": "proved", "theorems": ["C41_consumed", "C41_actions", "C41_error", "C41_end", "C41_bodies", "C41_quotable"], "note": "The grammar is the transcription of hext-machine.rl in Grammar.v (regular expressions with embedded actions); the longest-match star of quoted strings is rendered as stated by C41_bodies."},
 {"property": "C42", "status": "proved", "theorems": ["C42_parse", "C42_reading"], "note": "SyntaxSpec gives the texts and what they denote, independent of the parser tables. The parser is the generated automaton (see the grammar theorems) plus the actions of Parser.cpp."},
 {"property": "C43", "status": "proved", "theorems": ["C43_image"], "note": "Also the converse: every parsed rule is expressible. ExpressSpec describes these rules without texts."},
 {"property": "C44", "status": "partial", "theorems": ["C44_refuted", "C44_pipe_refuted", "C44_own_partial"], "note": "False: the flags stay in force until the end of the next pattern, so they leak from type-matches into later elements and between pipes of one capture. C44_own_partial: true of all texts without such flags."},
 {"property": "C45", "status": "proved", "theorems": ["C45_tokens", "C45_balanced"], "note": "Every accepted text is a sequence of tokens, and each such sequence is balanced."},
 {"property": "C46", "status": "proved", "theorems": ["C46_blanks"], "note": "Both directions: the text with the blank is accepted, with the same rule, exactly if the text without it is."},
 {"property": "C47", "status": "partial", "theorems": ["C47_json", "C47_nul_refuted", "C47_json_keeps_partial", "C47_bindings_keep_partial", "C47_node_and_ruby", "C47_unique", "C47_recoverable", "C47_python_cuts", "C47_php_cuts"], "note": "Refuted for strings with NUL bytes: JSON, Python and PHP cut them (C47_nul_refuted). What becomes of any map is proved for all of them (C47_json, C47_node_and_ruby, C47_python_cuts, C47_php_cuts); nothing is lost in maps without NUL bytes, and by Node and Ruby."},
 {"property": "C48", "status": "partial", "theorems": ["C48_no_limit_refuted", "C48_exact_partial", "C48_limits_partial", "C48_every", "C48_whole_part"], "note": "Refuted: multiples of 2^32, fractions below 1 and infinity mean no limit. Proved: for every finite number, also a negative one, the limit is its whole part modulo 2^32 (C48_every; every number has a whole part: C48_whole_part); so a number limits the search iff its whole part is no multiple of 2^32, and numbers below 2^32 are exact."},
 {"property": "C49", "status": "partial", "theorems": ["C49_move_construct_refuted", "C49_move_assign_refuted", "C49_moves_never_safe", "C49_without_moves_partial"], "note": "Refuted: the defaulted move operations copy the raw pointer; every history with a move ends in undefined behaviour when all objects are destroyed. Proved for all histories without moves."},
 {"property": "C50", "status": "partial", "theorems": ["C50_null_pipe_refuted", "C50_capture_partial", "C50_match", "C50_test"], "note": "Refuted for captures without pipe (null dereference). Proved for captures with pipe, matches and tests."},
 {"property": "C51", "status": "partial", "theorems": ["C51_prints_all", "C51_text_determined", "C51_failing_search", "C51_no_output_on_error", "C51_missing_html", "C51_lint", "C51_empty_array_refuted"], "note": "Refuted: with --array nothing is printed for an extraction without results. All other parts proved for all rules, inputs and options."},
 {"property": "C52", "status": "partial", "theorems": ["C52_leading_optional_refuted", "C52_leading_optional_partial", "C52_first_rule_partial"], "note": "Refuted as stated: <?p/><a/><?b/> on p a p a loses the second p. Proved: for every chain that starts with an optional rule and has a mandatory one, what the leading rule has in each group: the first of its matches (all, if greedy) since the previous group, or, if rules can match after the last mandatory one, nothing in any but the first group of a list. For a leading optional and one mandatory rule all groups are described exactly."},
 {"property": "C53", "status": "partial", "theorems": ["C53_null_refuted", "C53_leak_refuted", "C53_outcomes_partial", "C53_success_partial", "C53_crash", "C53_decoder"], "note": "As stated it is false: a value that is not UTF-8 makes the destructor of ScopedPyObject pass null to Py_DECREF, reachable from valid UTF-8 input via trim; failures leak the result list. Proved for all results and all patterns of failing calls: the outcome is success with exact counts, an exception with exactly the list left over, or that null dereference; success exactly for UTF-8 when no call is refused. C53_decoder (in PropJson): the decoder that stands for Python's accepts exactly the UTF-8 encodings of Unicode scalar values."},
 {"property": "C54", "status": "partial", "theorems": ["C54_number_refuted", "C54_regex_refuted", "C54_new_rule_partial", "C54_node_new_rule_partial", "C54_extract_partial", "C54_node_extract_partial", "C54_node_arguments"], "note": "As stated it is false: std::out_of_range for a big number and std::runtime_error from the regex library leave all bindings. Proved: these are the only exceptions that leave, all others become exceptions of the script language with the message of the library; results are returned; every call of the Node binding with improper arguments raises an exception."},
 {"property": "C55", "status": "partial", "theorems": ["C55_read_error_refuted", "C55_read_error", "C55_reads_partial"], "note": "As stated it is false: after a read error what was read so far is returned without an error. Proved for all file systems without read errors."},
 {"property": "C56", "status": "partial", "theorems": ["C56_values_present", "C56_lint_partial", "C56_lint_refuted"], "note": "Everything is proved for all command lines relative to a stated contract of boost::program_options, except the part about linting, which is false for grouped or abbreviated options."},
 {"property": "C57", "status": "proved", "theorems": ["C57_documents", "C57_addresses", "C57_room_needed"], "note": "For any number of inputs, any growth strategy, and any number of constructed documents (early exceptions). C57_room_needed shows that the reservation matters."},
 {"property": "C58", "status": "partial", "theorems": ["C58_outcomes_partial", "C58_undefined_refuted", "C58_first_failure"], "note": "Proved for all surroundings and options, with the exact condition for success, and which message is printed; the exceptions are the undefined behaviour of C22 and C40, which is reachable."},
 {"property": "C59", "status": "partial", "theorems": ["C59_search_refuted", "C59_siblings_refuted", "C59_same", "C59_levels_partial", "C59_limit_partial", "C59_needed", "C59_text", "C59_inner_html", "C59_copy", "C59_destroy"], "note": "False as stated: nested HTML and many sibling rules need any number of frames. Proved instead: frames needed in terms of the height of the document, the depth of the rule and the limit; limits bound the frames of RuleMatching.cpp for all documents; exact numbers for StripTags, SerializeNode, copy constructor and destructor. Frames of functions that do not recurse are not counted."},
 {"property": "C60", "status": "proved", "theorems": ["C60_function", "C60_test", "C60_condition", "C60_pipe", "C60_capture", "C60_extract", "C60_defined", "C60_program"], "note": "The description is in MeaningSpec.v (values), MatchSpec.v (groups) and SyntaxSpec.v (texts). Overflow, failing regex searches and limits are the subject of C02 - C04 and C22."},
 {"property": "C61", "status": "partial", "theorems": ["C61_values_partial", "C61_end_partial", "C61_move_part_refuted", "C61_move_whole_refuted", "C61_move_self_refuted"], "note": "Proved for all programs without a move assignment between a rule and a part of itself (copies between them included). The property fails for the rest: move-assigning a rule from any part of itself always reads freed memory; moving a rule into its own part leaks; self-move empties the vectors."},
 {"property": "C62", "status": "partial", "theorems": ["C62_unambiguous", "C62_stream_unambiguous", "C62_text", "C62_printed", "C62_lines", "C62_determines_partial", "C62_program", "C62_utf8", "C62_utf8_refuted"], "note": "Proved for all results: the output is a sequence of JSON texts with exactly one reading, the expected objects; line structure; composition with the whole program. Refuted: the output is UTF-8 only if all names and values are (iff, C62_utf8), and a snippet and document in UTF-8 can produce a value that is not (C62_utf8_refuted). C62_determines_partial excludes NUL bytes, which are cut (C47)."},
 {"property": "C63", "status": "partial", "theorems": ["C63_node_partial", "C63_node_refuted", "C63_php", "C63_php_list", "C63_php_refuted"], "note": "Node: proved for all names but \"__proto__\", whose value is lost (C63_node_refuted); also the order of the properties and the prototype. PHP: every name finds its values (maps without NUL, see C47); the script prints a list exactly for the names 0..k-1, k <= 10 (C63_php_list, C63_php_refuted). The behaviour of JavaScript objects and PHP arrays is modelled from their documentation."},
 {"property": "C64", "status": "partial", "theorems": ["C64_output", "C64_finishes", "C64_base_refuted"], "note": "Output and outcomes proved for all documents, arguments and URI libraries. The documented choice of the base element is refuted: it is the first one with href in the order of the search, which is not the order of the document."},
 {"property": "C65", "status": "proved", "theorems": ["C65_calls", "C65_no_calls", "C65_observers", "C65_counter"], "note": "Conditions still have no side effects. Each property is for every state type and every behaviour of the captures."},
 {"property": "C66", "status": "partial", "theorems": ["C66_parse", "C66_extract", "C66_snippet", "C66_process", "C66_null_refuted", "C66_function_refuted"], "note": "Proved for all texts, for all rules whose functions are set and for all runs of htmlext (given the contract of boost::program_options). A null start node and an empty std::function fail an assertion (refuted part). The assertions that hold by the types of the model are not repeated."},
 {"property": "C67", "status": "proved", "theorems": ["C67_same", "C67_tests", "C67_mandatory", "C67_general", "C67_optional", "C67_linear_refuted", "C67_exponential", "C67_polynomial_refuted"], "note": "C67_tests gives a bound by recursion over rule and document, C67_mandatory and C67_general its closed forms. C67_linear_refuted shows that chains of optional rules do not admit a linear bound, C67_exponential and C67_polynomial_refuted that the factor 2^d of C67_mandatory is needed."},
 {"property": "C68", "status": "proved", "theorems": ["C68_finishes", "C68_passed", "C68_extract", "C68_thrown", "C68_observers"], "note": "The conditions of one rule are called in order; the groups built from changing answers are described by C69."},
 {"property": "C69", "status": "proved", "theorems": ["C69_groups", "C69_found"], "note": "Completeness (every node that matches is in a group) is not claimed; C69_lost shows a search that drops a node that passed its test."},
 {"property": "C70", "status": "partial", "theorems": ["C70_same", "C70_syntax", "C70_limit_partial", "C70_not_utf8_partial", "C70_outcomes_partial", "C70_newlines", "C70_names_refuted"], "note": "C70_same: for files without NUL and CR and results in UTF-8 without NUL, Python and Ruby print the values of htmlext; PHP prints a list for the names 0 to k-1 and JavaScript omits __proto__ and lists numbers first (exact description; C70_names_refuted is a witness). C70_limit_partial: Ruby has no limit. C70_not_utf8_partial: the five behaviours for a value that is not UTF-8. C70_outcomes_partial: all outcomes, including uncaught exceptions and the undefined behaviour of C22, C40 and C53. C70_newlines: the script for Python does the same for lines ending with CR LF, CR or LF."},
 {"property": "C71", "status": "partial", "theorems": ["C71_errors", "C71_one", "C71_outcomes", "C71_undefined_partial", "C71_empty_refuted", "C71_open_refuted"], "note": "C71_errors: ParseHext throws an error iff ErrorSpec describes it, with the complete message. C71_undefined_partial: for a wrong character outside of ASCII the behaviour is undefined (C40). C71_empty_refuted and C71_open_refuted: the two messages about a closing brace do not always tell what is wrong; ErrorSpec describes when they are used."},
 {"property": "C72", "status": "partial", "theorems": ["C72_main", "C72_objects_partial", "C72_moved_refuted", "C72_moved_text_refuted", "C72_reserve_needed"], "note": "Proved for all runs of htmlext and all uses of objects of the bindings without moves. Refuted for moved objects, which no binding has."},
 {"property": "C73", "status": "partial", "theorems": ["C73_values_partial", "C73_end_partial", "C73_death", "C73_terminate_refuted"], "note": "Proved for all programs and all refusals, with the exact number of requests. Refuted for Rule(std::string, ...), which is noexcept and ends the process; moves between a rule and its own parts are as in C61."},
 {"property": "C74", "status": "partial", "theorems": ["C74_outcomes_partial", "C74_run", "C74_status", "C74_inputs", "C74_same", "C74_written", "C74_lost_refuted", "C74_no_name_refuted"], "note": "Proved for all command lines with argv[0] and all worlds, given the contract of boost::program_options (C56), up to the undefined behaviour of C40 and C22. Refuted: the exit status is 0 although output was lost; a null argv[0] is printed."},
 {"property": "C75", "status": "partial", "theorems": ["C75_alike_partial", "C75_any_refuted", "C75_optional_refuted", "C75_limit_refuted"], "note": "Proved without limit for rules that only elements match, that do not ask for inner HTML or call functions of users, and whose child and nested rules are not all optional. Refuted without these restrictions: `<*/>` matches comments, a rule with only optional children tells an empty element from one with a comment, and comments count for the limit."},
 {"property": "C76", "status": "proved", "theorems": ["C76_rewrite", "C76_order_refuted", "C76_throw_refuted"], "note": "For every limit, so the number of searches is the same too. Assumes that no condition or capture fails (regex library, functions of users, int overflow); C76_throw_refuted shows that the order of conditions matters otherwise, C76_order_refuted that the order of captures with the same name matters."},
 {"property": "C77", "status": "proved", "theorems": ["C77_frame", "C77_far_refuted", "C77_siblings_refuted"], "note": "For every outcome and limit, with no assumption about failures. C77_far_refuted: a function of a user may look at the whole document. C77_siblings_refuted: the siblings before the start node do matter."},
 {"property": "C78", "status": "proved", "theorems": ["C78_most"], "note": "Both directions: this many are possible, and not more. A single greedy rule has one group by definition (C11)."},
 {"property": "C79", "status": "proved", "theorems": ["C79_matches", "C79_groups", "C79_nodes", "C79_row_refuted"], "note": "For searches that return. C79_row_refuted: in a row of several rules the groups may consist of other nodes, although there are not fewer."},
 {"property": "C80", "status": "proved", "theorems": ["C80_sequence", "C80_before", "C80_after", "C80_child", "C80_nested", "C80_sequence_refuted"], "note": "For texts that are spelled as in C42. C80_sequence_refuted: the flags of a type-matches are also in force in the text after it (see C44)."},
 {"property": "C81", "status": "proved", "theorems": ["C81_result", "C81_exact", "C81_matches", "C81_chaining", "C81_siblings_refuted"], "note": "C81_chaining is for pages whose elements have fewer than 2^32 attributes. C81_siblings_refuted: with siblings the description does not hold."},
 {"property": "C82", "status": "proved", "theorems": ["C82_occurrences", "C82_once", "C82_size", "C82_braces_refuted", "C82_linear_refuted"], "note": "C82_braces_refuted and C82_linear_refuted show that the conditions and the power are needed: nested rules are searched below every match, so a node under several matches is reported for each of them."},
 {"property": "C83", "status": "proved", "theorems": ["C83_search", "C83_select", "C83_rename", "C83_pipe", "C83_merge_refuted"], "note": "C83_pipe needs the new pipe to return for the values it is applied to. C83_merge_refuted: a renaming that merges names is not determined by the old result."},
 {"property": "C84", "status": "proved", "theorems": ["C84_pipes", "C84_complete", "C84_rules", "C84_text", "C84_trim_refuted", "C84_text_refuted"], "note": "C84_trim_refuted: trimming with two sets is neither trimming with their union nor independent of the order. C84_text_refuted: with a line break the two builtins differ. Regex pipes are only compared with themselves."},
 {"property": "C85", "status": "proved", "theorems": ["C85_places", "C85_matches", "C85_groups", "C85_pages", "C85_nodes", "C85_position_refuted", "C85_row_refuted"], "note": "C85_groups and C85_pages leave out a single greedy rule, which gives one group for each list of siblings; C85_nodes covers it when it stands alone. The two refutations show that the restriction to own conditions and to single rules is needed."},
 {"property": "C86", "status": "proved", "theorems": ["C86_groups", "C86_values", "C86_order", "C86_maps", "C86_order_refuted", "C86_limit_refuted"], "note": "For calls that return with both orders; C86_limit_refuted shows that with a limit one order may throw. C86_order_refuted shows that values under one name follow the order of the braces."},
 {"property": "C87", "status": "proved", "theorems": ["C87_groups", "C87_values", "C87_greedy_refuted", "C87_optional_refuted", "C87_child_refuted"], "note": "For calls that return with both rules. The refutations show that each restriction is needed: an optional rule before a greedy one, no mandatory rule at all, and dropping child rules that are all optional change what is found."},
 {"property": "C88", "status": "proved", "theorems": ["C88_groups", "C88_parts", "C88_cut", "C88_limit_refuted", "C88_siblings_refuted"], "note": "For calls that return. C88_limit_refuted and C88_siblings_refuted show what does not carry over."},
 {"property": "C89", "status": "proved", "theorems": ["C89_typing", "C89_final", "C89_undefined", "C89_completable", "C89_brace_refuted", "C89_marker_refuted", "C89_premature_refuted"], "note": "C89_brace_refuted and C89_marker_refuted show that the two exceptions of the statement are needed. A text for which the parser says 'Premature termination' may have no acceptable continuation, because a number is already too big (C89_premature_refuted)."},
 {"property": "C90", "status": "proved", "theorems": ["C90_same", "C90_quadratic", "C90_siblings", "C90_linear_refuted"], "note": "Counted are the pointers that are followed to the end of a list. Each character takes a bounded number of other steps, apart from copying tokens and writing messages, which are not counted."},
 {"property": "C91", "status": "proved", "theorems": ["C91_same", "C91_copies", "C91_height", "C91_quadratic", "C91_linear_refuted"], "note": "Counted are the characters that are appended, including the newlines. The growing of strings (at most a constant factor) is not counted. The document is any tree; whether the HTML parser limits the depth of what it makes is outside of the model."},
 {"property": "C92", "status": "proved", "theorems": ["C92_same", "C92_search", "C92_total", "C92_nth", "C92_condition", "C92_bound", "C92_texts_refuted", "C92_siblings_refuted"], "note": "Not counted: attributes, inner HTML, value tests and functions of users. The refuted claims are that the work is quadratic (texts) or linear (siblings)."},
 {"property": "C93", "status": "proved", "theorems": ["C93_outcomes", "C93_defined", "C93_accepts", "C93_ascii", "C93_messages_refuted"], "note": "The refuted claim is that the messages are the same for all inputs for which both are defined."},
 {"property": "C94", "status": "proved", "theorems": ["C94_headline", "C94_complete", "C94_node", "C94_reason_refuted"], "note": "The refuted claim is that what() shows the reason why a regex is wrong."},
 {"property": "C95", "status": "proved", "theorems": ["C95_extract", "C95_answers", "C95_compiled", "C95_parse"], "note": ""},
 {"property": "C96", "status": "proved", "theorems": ["C96_extends", "C96_cause"], "note": ""},
 {"property": "C97", "status": "proved", "theorems": ["C97_errors", "C97_rule", "C97_one"], "note": ""},
 {"property": "C98", "status": "proved", "theorems": ["C98_same", "C98_extends", "C98_cause"], "note": ""}
]}
