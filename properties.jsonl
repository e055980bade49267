{"id": "C01", "title": "Extraction always finishes and is memory safe", "statement": "For every rule tree, every DOM, every node that has a parent and every search limit, Rule::extract finishes after finitely many steps, either with a result or with MaxSearchError; it never dereferences a null or dangling node, never indexes a child vector out of bounds.", "quantifier": "all rule trees (any depth, any mix of child, sibling, nested, optional, greedy), all DOM trees, all start nodes with a parent, all limits, all behaviours of the regex engine", "why_tests_cant": "Termination of mutually recursive pointer loops over unbounded trees; tests only see runs that did finish.", "anchors": ["libhext/src/RuleMatching.cpp: SaveMatchingNodesRecursive, MatchRuleGroup, RuleMatchesNodeRecursive, MatchRuleOnce, MatchRange, FindMandatoryRule", "libhext/src/NodeUtil.cpp: NextNode", "libhext/src/Rule.cpp: Rule::extract"]}
{"id": "C02", "title": "Extraction is defined for every non-null node", "statement": "Rule::extract(node) has defined behaviour for every non-null node of a parsed document, including the document node itself.", "quantifier": "all rules, all DOMs, all non-null nodes", "why_tests_cant": "Undefined behaviour need not show up in a run; a test that survives says nothing.", "anchors": ["libhext/src/NodeUtil.cpp: NextNode", "libhext/src/Rule.cpp: Rule::extract(const GumboNode*)"]}
{"id": "C03", "title": "The search limit never changes a result", "statement": "Rule::extract with limit n > 0 either throws MaxSearchError or returns exactly what the unlimited call returns; with n = 0 it never throws.", "quantifier": "all rules, DOMs, start nodes, all 64-bit limits", "why_tests_cant": "A partial or different result under some limit on some document would only be seen with that exact pair.", "anchors": ["libhext/src/RuleMatching.cpp: SaveMatchingNodesRecursive", "libhext/src/Rule.cpp: Rule::extract"]}
{"id": "C04", "title": "The search limit is an exact threshold", "statement": "For each rule and document there is a number S of searches such that extract with limit n > 0 throws exactly when n <= S. For rules without nested rules S is one more than the number of element nodes with children that are at or after the start node among its siblings or below them through elements only (1 for a start node without such nodes).", "quantifier": "all rules, DOMs, limits", "why_tests_cant": "Needs the count for every document and every limit.", "anchors": ["libhext/src/RuleMatching.cpp: SaveMatchingNodesRecursive"]}
{"id": "C05", "title": "Every reported value comes from a node that satisfies its rule", "statement": "Each (rule, node) pair that contributes captures to a result satisfies the rule's tag and all of the rule's conditions.", "quantifier": "all rules, DOMs, limits, all pairs in all groups", "why_tests_cant": "Soundness over all rule/document pairs.", "anchors": ["libhext/src/RuleMatching.cpp: RuleMatchesNodeRecursive, MatchRange, MatchRuleGroup", "libhext/src/Rule.cpp: Rule::matches, Rule::extract"]}
{"id": "C06", "title": "A rule matches a node exactly when its pattern embeds below the node", "statement": "A rule matches a node (including its children and nested rules) if and only if: the node satisfies the rule itself; if the rule has child or nested rules the node is an element with at least one child; the mandatory child rules match, in order, some strictly increasing sequence of the node's children; and each nested group that has a mandatory rule has its mandatory rules matched in order among the children of the node or of some element reachable below it.", "quantifier": "all rule trees and all nodes of all DOMs", "why_tests_cant": "An if-and-only-if between a backtracking-free search and the existence of an embedding of any size.", "anchors": ["libhext/src/RuleMatching.cpp: RuleMatchesNodeRecursive, MatchRuleGroup, SaveMatchingNodesRecursive"]}
{"id": "C07", "title": "A reported group is complete and ordered", "statement": "In every group found by the search, each mandatory sibling rule is matched at least once, each non-greedy rule at most once, and the nodes matched by the sibling rules are in document order consistent with the order of the rules.", "quantifier": "all sibling chains of rules, all sibling lists, all groups returned", "why_tests_cant": "Ranges over all mixes of optional and greedy rules.", "anchors": ["libhext/src/RuleMatching.cpp: MatchRuleGroup, MatchRange"]}
{"id": "C08", "title": "A group is found exactly when the mandatory rules can be matched in order", "statement": "Starting at a node, a chain of sibling rules with at least one mandatory rule yields a group if and only if the mandatory rules match some strictly increasing sequence of the node and its following siblings; optional and greedy flags of other rules never prevent a match. The chosen nodes for the mandatory rules are the earliest possible.", "quantifier": "all chains, all sibling lists, all start nodes", "why_tests_cant": "Completeness of a greedy algorithm against all possible embeddings.", "anchors": ["libhext/src/RuleMatching.cpp: MatchRuleGroup, MatchRuleOnce, FindMandatoryRule"]}
{"id": "C09", "title": "Groups of one sibling list do not overlap and the search is exhaustive", "statement": "Within one sibling list successive groups match disjoint, increasing ranges of nodes, and after the last group no further match of the mandatory rules exists in the remaining siblings.", "quantifier": "all chains with a mandatory rule, all sibling lists", "why_tests_cant": "Quantifies over all later positions.", "anchors": ["libhext/src/RuleMatching.cpp: SaveMatchingNodesRecursive, MatchRuleGroup"]}
{"id": "C10", "title": "A single rule finds every matching node exactly once", "statement": "For a single mandatory non-greedy rule (with any children and nested rules), extraction produces one group for every node reachable from the start node (start node, its following siblings and, through elements only, their descendants) that matches the rule, exactly once and nothing else; the order is: all matches in a sibling list first, then those below each sibling in turn.", "quantifier": "all single rules, all DOMs", "why_tests_cant": "No miss and no duplicate over all trees.", "anchors": ["libhext/src/RuleMatching.cpp: SaveMatchingNodesRecursive", "libhext/src/Rule.cpp: Rule::extract"]}
{"id": "C11", "title": "A lone greedy rule collects all matching siblings in one group", "statement": "For a single mandatory greedy rule the search yields, for each sibling list reachable from the start node, at most one group, which contains exactly all nodes of the list that match the rule, in order.", "quantifier": "all single greedy rules, all DOMs", "why_tests_cant": "Arbitrary number of siblings.", "anchors": ["libhext/src/RuleMatching.cpp: MatchRuleGroup, MatchRange"]}
{"id": "C12", "title": "Optional rules match only between their neighbours and whenever possible", "statement": "For a mandatory rule A, an optional rule B and a mandatory rule C as siblings, B is matched in a group exactly when some node strictly between the nodes of A and C matches B, and then the first such node is used. A trailing optional rule is matched exactly when some node before the next match of the first mandatory rule (or the end) matches it.", "quantifier": "all such chains and sibling lists", "why_tests_cant": "Arbitrary numbers of siblings in between.", "anchors": ["libhext/src/RuleMatching.cpp: MatchRuleGroup, MatchRange"]}
{"id": "C13", "title": "A greedy rule repeats even when an optional rule precedes it", "statement": "A mandatory greedy rule matched in a group is repeated for the following matching siblings also when it is preceded by an optional rule.", "quantifier": "all chains, all sibling lists", "why_tests_cant": "The documentation promises it for every chain; existing tests only use greedy rules without a preceding optional one, or with a single candidate.", "anchors": ["libhext/src/RuleMatching.cpp: MatchRuleGroup (rule = stop_rule->next())"]}
{"id": "C14", "title": "With only optional rules the search resumes after the last matching node", "statement": "If no sibling rule is mandatory, the next group is searched right after the last node matched by the previous group, so that no later matching node is lost.", "quantifier": "all chains of optional rules, all sibling lists", "why_tests_cant": "Only visible for particular relations between rules and siblings.", "anchors": ["libhext/src/RuleMatching.cpp: MatchRange (return value), MatchRuleGroup"]}
{"id": "C15", "title": "Optional child rules never decide whether the parent matches", "statement": "Removing an optional child rule from a rule does not change which nodes the rule matches.", "quantifier": "all rules with optional children, all nodes", "why_tests_cant": "Needs to be checked on every node, including those without children.", "anchors": ["libhext/src/RuleMatching.cpp: RuleMatchesNodeRecursive"]}
{"id": "C16", "title": "Failed candidates leave no trace", "statement": "A node that matches a rule itself but lacks a mandatory child or nested match contributes nothing to any group; every pair below a matched node in a group belongs to a fully matched child or nested group.", "quantifier": "all rules, DOMs, groups", "why_tests_cant": "Every way of failing half-way through a nested match.", "anchors": ["libhext/src/RuleMatching.cpp: RuleMatchesNodeRecursive, MatchRuleGroup (local sub-results)"]}
{"id": "C17", "title": "Results are non-empty multimaps with stable order", "statement": "Every map in the result is non-empty and sorted by name; for one name the values appear in the order in which the pairs of the group were captured, and the multiset of entries is exactly the captured pairs.", "quantifier": "all rules, DOMs", "why_tests_cant": "Ordering and completeness for arbitrary many captures.", "anchors": ["libhext/src/Rule.cpp: Rule::extract, Rule::capture"]}
{"id": "C18", "title": "A copied rule behaves like the original", "statement": "Copy-constructing or copy-assigning a Rule yields a rule tree that is equal to the original in every field at every depth.", "quantifier": "all rule trees, including chains of pipes, nested conditions and value tests", "why_tests_cant": "Recursion over arbitrarily deep trees and all subclasses of Match, Capture, ValueTest and StringPipe.", "anchors": ["libhext/src/Rule.cpp: Rule(const Rule&), operator=", "libhext/include/hext/Cloneable.h", "libhext/src/StringPipe.cpp", "libhext/src/NegateMatch.cpp"]}
{"id": "C19", "title": "Builder calls append at the end", "statement": "append_child, append_next and append_nested add the given rule after all existing ones, keep their order and change nothing else.", "quantifier": "all rule trees, all sequences of builder calls", "why_tests_cant": "All histories of calls.", "anchors": ["libhext/src/Rule.cpp: append_child, append_next, append_nested"]}
{"id": "C20", "title": "Tag matching", "statement": "A rule with tag ANY accepts any node; a rule with a standard tag accepts exactly the elements with that tag; a rule for a custom tag accepts exactly the non-standard elements whose original tag name equals it ignoring ASCII case, and a custom tag rule with no or empty name accepts nothing.", "quantifier": "all rules, all nodes, all tag names", "why_tests_cant": "All names and node kinds.", "anchors": ["libhext/src/Rule.cpp: Rule::matches, Rule(std::string)"]}
{"id": "C21", "title": "nth-child follows the CSS formula", "statement": "For a node with an element parent, :nth-child(an+b) (also -last and -of-type) holds if and only if there is n >= 0 with position = a*n + b, where position is the 1-based position among the element siblings (of the same tag for of-type, from the end for -last), provided no int overflow occurs.", "quantifier": "all integers a, b in the non-overflowing range, all sibling lists and positions", "why_tests_cant": "All a, b and positions.", "anchors": ["libhext/src/NthChildMatch.cpp: NthChildMatch::matches, count_preceding_siblings, count_following_siblings"]}
{"id": "C22", "title": "nth-child arithmetic cannot overflow", "statement": "Evaluating :nth-child with any a and b accepted by the parser causes no signed integer overflow.", "quantifier": "all 32-bit a and b, all positions", "why_tests_cant": "Undefined behaviour at the extremes of int.", "anchors": ["libhext/src/NthChildMatch.cpp: NthChildMatch::matches", "libhext/ragel/hext-machine.rl: nth_pattern"]}
{"id": "C23", "title": "nth-child never matches a node without element siblings context", "statement": "Nodes whose parent is not an element (the html root) are not matched by any nth-child trait other than as a first child.", "quantifier": "all a, b", "why_tests_cant": "All a and b.", "anchors": ["libhext/src/NthChildMatch.cpp"]}
{"id": "C24", "title": "only-child", "statement": "OnlyChildMatch accepts a node exactly when it is an element whose parent is an element and no other element child (of the same tag for OfType) exists.", "quantifier": "all nodes of all DOMs, both options", "why_tests_cant": "All sibling lists.", "anchors": ["libhext/src/OnlyChildMatch.cpp"]}
{"id": "C25", "title": "child-count, attribute-count and empty", "statement": ":child-count(n) holds exactly for elements with n element children; :attribute-count(n) exactly for elements with n attributes; :empty-style negations are their complements.", "quantifier": "all nodes, all n", "why_tests_cant": "All sizes.", "anchors": ["libhext/src/ChildCountMatch.cpp", "libhext/src/AttributeCountMatch.cpp"]}
{"id": "C26", "title": "Negation", "statement": ":not(t1 t2 ...) holds exactly when none of the traits holds; a negated value test holds exactly when the test does not, and in particular for a missing attribute.", "quantifier": "all lists of conditions, all nodes, all subjects", "why_tests_cant": "All combinations and nestings.", "anchors": ["libhext/src/NegateMatch.cpp", "libhext/src/NegateTest.cpp", "libhext/src/AttributeMatch.cpp"]}
{"id": "C27", "title": "Attribute conditions", "statement": "An attribute condition inspects the first attribute whose name equals the given one ignoring ASCII case: without a test it holds exactly when that attribute exists; with a test it holds exactly when the test holds for the value, or for no value if the attribute is missing.", "quantifier": "all attribute lists and names", "why_tests_cant": "All attribute lists, duplicates, letter cases.", "anchors": ["libhext/src/AttributeMatch.cpp", "libhext/src/AttributeCapture.cpp"]}
{"id": "C28", "title": "Captures", "statement": "An attribute capture yields a value exactly when the node is an element that has the attribute, namely the attribute value passed through the pipes from left to right; a builtin capture always yields a value when its function is set.", "quantifier": "all nodes, all pipe chains", "why_tests_cant": "All chains of pipes of any length.", "anchors": ["libhext/src/AttributeCapture.cpp", "libhext/src/FunctionCapture.cpp", "libhext/src/StringPipe.cpp"]}
{"id": "C29", "title": "Literal value tests mean equality, prefix, suffix and substring", "statement": "EqualsTest, BeginsWithTest, EndsWithTest and ContainsTest accept a subject exactly when it is non-null and equal to / starts with / ends with / contains the literal.", "quantifier": "all literals and subjects over all bytes", "why_tests_cant": "All strings, including empty and embedded NUL bytes.", "anchors": ["libhext/src/EqualsTest.cpp", "libhext/src/BeginsWithTest.cpp", "libhext/src/EndsWithTest.cpp", "libhext/src/ContainsTest.cpp"]}
{"id": "C30", "title": "Word containment", "statement": "ContainsWordsTest accepts a subject exactly when each of its (space-free, non-empty) words is a maximal run delimited by spaces or the ends of the subject; for a list with words that contain spaces a word is found whenever it occurs delimited by spaces or the ends.", "quantifier": "all subjects and word lists", "why_tests_cant": "The scanning loop skips ahead after a failed occurrence; overlaps only matter for particular strings.", "anchors": ["libhext/src/ContainsWordsTest.cpp", "libhext/src/StringUtil.cpp: ContainsWord"]}
{"id": "C31", "title": "of-type distinguishes custom elements", "statement": "The of-type variants of nth-child and only-child treat two elements as the same type only if they have the same tag name.", "quantifier": "all sibling lists", "why_tests_cant": "Depends on mixtures of custom elements that tests do not contain.", "anchors": ["libhext/src/NthChildMatch.cpp", "libhext/src/OnlyChildMatch.cpp"]}
{"id": "C32", "title": "Whitespace collapsing", "statement": "TrimAndCollapseWs returns the whitespace-separated words of its input joined by single spaces; it is idempotent and its in-place writes never overtake its reads nor leave the buffer.", "quantifier": "all byte strings", "why_tests_cant": "All strings; in-place overwriting bugs depend on the pattern of spaces.", "anchors": ["libhext/src/StringUtil.cpp: TrimAndCollapseWs", "libhext/src/CollapseWsPipe.cpp"]}
{"id": "C33", "title": "strip-tags is the concatenated text", "statement": "StripTags without wrapping returns the concatenation, in document order, of all text and whitespace nodes below the node through elements; with wrapping it only adds newlines.", "quantifier": "all DOM trees", "why_tests_cant": "All trees.", "anchors": ["libhext/src/NodeUtil.cpp: StripTags"]}
{"id": "C34", "title": "text is normalised and loses no characters", "statement": "NodeText returns a string without leading, trailing or doubled whitespace whose non-whitespace characters are exactly those of the concatenated text in order; text of a block-level child never runs together with its surroundings.", "quantifier": "all DOM trees", "why_tests_cant": "All trees.", "anchors": ["libhext/src/NodeUtil.cpp: NodeText, StripTags, TagWrapsText"]}
{"id": "C35", "title": "inner-html output determines the tree", "statement": "Two different child lists never serialise to the same inner HTML.", "quantifier": "all pairs of DOM trees", "why_tests_cant": "Injectivity over all pairs; text and attribute values are arbitrary.", "anchors": ["libhext/src/NodeUtil.cpp: NodeInnerHtml, SerializeNode, SerializeAttribute"]}
{"id": "C36", "title": "Pipes", "statement": "A pipe chain applies its pipes from left to right; append and prepend add their string; trim removes exactly the maximal prefix and suffix made of the given characters; case pipes map ASCII letters only; filter yields the first capture group if there is one, the whole match otherwise and the empty string without a match.", "quantifier": "all chains, all strings", "why_tests_cant": "All strings and all chain lengths.", "anchors": ["libhext/src/StringPipe.cpp", "libhext/src/TrimPipe.cpp", "libhext/src/CasePipe.cpp", "libhext/src/RegexPipe.cpp", "libhext/src/AppendPipe.cpp", "libhext/src/PrependPipe.cpp"]}
{"id": "C37", "title": "Error positions are right", "statement": "The line and column in a syntax error message are the number of newlines before the offending character and its distance from the last newline; the marker line underlines exactly the offending characters under the printed, numbered line.", "quantifier": "all inputs, all error positions", "why_tests_cant": "All texts and positions, widths of line numbers.", "anchors": ["libhext/src/StringUtil.cpp: CharPosition, DecimalWidth, PrintNumberedLines", "libhext/src/Parser.cpp: print_error_location"]}
{"id": "C38", "title": "Parsing is total and memory safe", "statement": "For every byte string ParseHext finishes, reads only inside its input and its tables, never uses an empty rule stack or an unset pattern value, and either returns a rule or throws, unless it reports an unexpected byte above 127 (C40).", "quantifier": "all byte strings, all behaviours of the regex compiler", "why_tests_cant": "All byte strings; the machine has 820 states and 89 actions over an unbounded stack.", "anchors": ["libhext/src/Parser.cpp: Parser::parse and tables", "libhext/ragel/hext-machine.rl"]}
{"id": "C39", "title": "The only exception of ParseHext is SyntaxError", "statement": "ParseHext throws nothing but SyntaxError, whatever the input.", "quantifier": "all byte strings", "why_tests_cant": "All inputs.", "anchors": ["libhext/src/Parser.cpp: Parser::parse (std::stoi actions)", "libhext/include/hext/ParseHext.h"]}
{"id": "C40", "title": "Error reporting has defined behaviour for every byte", "statement": "Reporting an unexpected character calls the C library only with allowed arguments.", "quantifier": "all inputs", "why_tests_cant": "Undefined behaviour that the usual C library tolerates.", "anchors": ["libhext/src/StringUtil.cpp: CharName", "libhext/src/Parser.cpp: throw_unexpected"]}
{"id": "C41", "title": "The generated state machine implements the grammar", "statement": "The byte strings consumed without a lexical error by the generated tables are exactly the prefixes of the language described by hext-machine.rl, and for each of them the tables run exactly the actions that the grammar embeds, at the same positions.", "quantifier": "all byte strings", "why_tests_cant": "Equivalence of a 820-state machine and a grammar over all strings.", "anchors": ["libhext/src/Parser.cpp: _hext_* tables", "libhext/ragel/hext-machine.rl"]}
{"id": "C42", "title": "ParseHext accepts exactly the well-formed texts and builds the rule they denote", "statement": "ParseHext returns rule r for text s if and only if s is a concrete spelling (with any whitespace and comments) of a well-formed sequence of elements that denotes r.", "quantifier": "all byte strings, all rules", "why_tests_cant": "Soundness and completeness of a parser.", "anchors": ["libhext/src/Parser.cpp", "libhext/ragel/hext-machine.rl"]}
{"id": "C43", "title": "Printing a rule and parsing it back gives the same rule", "statement": "For every rule that the language can express there is a text that ParseHext turns into exactly this rule.", "quantifier": "all expressible rule trees of any depth", "why_tests_cant": "All rule trees.", "anchors": ["libhext/src/Parser.cpp", "libhext/ragel/hext-machine.rl"]}
{"id": "C44", "title": "Regex flags apply to their own regex only", "statement": "The flags after a regex in Hext text affect only this regex.", "quantifier": "all texts", "why_tests_cant": "Depends on the state left behind by earlier parts of the text.", "anchors": ["libhext/src/PatternValues.cpp", "libhext/ragel/hext-machine.rl: regex, regex_flag"]}
{"id": "C45", "title": "Closing tags pair up", "statement": "In every accepted text each opening tag is closed by a tag of the same name (ignoring case for standard tags, exactly for custom ones, * only by *), nested braces are balanced within their element and never empty.", "quantifier": "all accepted texts", "why_tests_cant": "Unbounded nesting.", "anchors": ["libhext/src/Parser.cpp: set_open_tag_or_throw, validate_close_tag_or_throw, push_nested, pop_nested, pop_rule"]}
{"id": "C46", "title": "Whitespace and comments between rules are insignificant", "statement": "Inserting whitespace or a terminated comment between any two top-level tokens of an accepted text does not change the rule.", "quantifier": "all accepted texts and insertion points", "why_tests_cant": "All texts.", "anchors": ["libhext/ragel/hext-machine.rl: main", "libhext/src/Parser.cpp"]}
{"id": "C47", "title": "Conversion to JSON and to script objects keeps every value", "statement": "For every result map the JSON object has one member per name, in name order; its value is the string if there is one value and the array of all values in order otherwise. The conversions in the Node, Python, Ruby and PHP bindings group values in the same way.", "quantifier": "all result maps", "why_tests_cant": "All maps.", "anchors": ["htmlext/htmlext/Json.cpp", "libhext/bindings/nodejs/src/Rule.cpp", "libhext/bindings/python/pyhext.i", "libhext/bindings/ruby/rbhext.i", "libhext/bindings/php/phphext.i"]}
{"id": "C48", "title": "The bindings pass the search limit through", "statement": "A positive search limit given to the Node binding limits the search.", "quantifier": "all numbers", "why_tests_cant": "Conversion wraps only for particular numbers.", "anchors": ["libhext/bindings/nodejs/src/Rule.cpp"]}
{"id": "C49", "title": "Each parsed document is freed exactly once", "statement": "In every history of constructing, moving, assigning and destroying Html objects each Gumbo output is destroyed exactly once.", "quantifier": "all histories", "why_tests_cant": "All histories; a double free need not crash.", "anchors": ["libhext/src/Html.cpp", "libhext/include/hext/Html.h"]}
{"id": "C50", "title": "Copy assignment of captures and tests is safe", "statement": "Copy-assigning any AttributeCapture, FunctionCapture, AttributeMatch, FunctionValueMatch or NegateTest has defined behaviour and yields an equal object.", "quantifier": "all pairs of objects, with and without pipes and tests", "why_tests_cant": "Depends on optional members.", "anchors": ["libhext/src/AttributeCapture.cpp", "libhext/src/FunctionCapture.cpp", "libhext/src/AttributeMatch.cpp", "libhext/src/FunctionValueMatch.cpp", "libhext/src/NegateTest.cpp"]}
{"id": "C51", "title": "The command line tool prints all results of all rules and inputs in order", "statement": "htmlext prints for each rule in order and for each input in order the results of extract; with --filter exactly the values of that name; a syntax error in any rule leads to a failing exit status and no extraction output; with --array the output of each extraction is a JSON array.", "quantifier": "all lists of rules and inputs", "why_tests_cant": "All combinations.", "anchors": ["htmlext/main.cpp", "htmlext/htmlext/Json.cpp"]}
{"id": "C52", "title": "A leading optional rule is matched in every group", "statement": "A child that the leading optional rule of a chain matches, directly before a node matched by the mandatory rule after it, is part of a group.", "quantifier": "all rules, documents and start nodes", "why_tests_cant": "Depends on where the next group starts after any previous group.", "anchors": ["libhext/RuleMatching.cpp:25-60"]}
{"id": "C53", "title": "The Python conversion keeps exact reference counts", "statement": "Converting a result to Python objects returns a list of dicts whose only reference is the returned one, so that giving it up frees every object; if any API call fails an exception is raised and no object is left; no living object is freed and no null or dead object is used.", "quantifier": "all results and all patterns of failing API calls", "why_tests_cant": "Needs every failure point of every result; leaks are not observable in tests.", "anchors": ["libhext/bindings/python/pyhext.i:38-121"]}
{"id": "C54", "title": "The bindings turn every error into an exception of the script language", "statement": "Whatever a script passes to the constructors of Html and Rule and to Rule.extract, the call returns the library's result or raises an exception of the script language carrying the library's message; no C++ exception leaves the binding and no null pointer is used.", "quantifier": "all texts, documents, limits, arguments and regular expression engines", "why_tests_cant": "The set of exceptions that may reach the bindings has to be known exactly.", "anchors": ["libhext/bindings/wrapper/Rule.cpp:19-28", "libhext/bindings/python/pyhext.i:123-144", "libhext/bindings/nodejs/src/Rule.cpp:25-188"]}
{"id": "C55", "title": "Files are read completely or an error is reported", "statement": "ReadFileOrThrow returns the complete contents of the named file (of the standard input for '-'), or throws a FileError that names the file and the reason.", "quantifier": "all file systems and paths", "why_tests_cant": "Read errors cannot be produced at will.", "anchors": ["htmlext/htmlext/File.cpp:66-92"]}
{"id": "C56", "title": "Validated options are complete", "statement": "After ProgramOptions accepted a command line, every option that main reads has a value, the assertion that there is a hext source holds, there is an HTML file unless linting, and when linting every file named on the command line is checked.", "quantifier": "all command lines and all behaviours of boost::program_options within its contract", "why_tests_cant": "Options can be abbreviated and grouped in many ways.", "anchors": ["htmlext/htmlext/ProgramOptions.cpp:58-106", "htmlext/main.cpp:38-97"]}
{"id": "C57", "title": "main never moves a parsed document", "statement": "The vectors of main reserve enough room: no Html object is moved, the texts that documents point into keep their address, and every document is destroyed exactly once.", "quantifier": "all numbers of inputs, growth strategies and points of failure", "why_tests_cant": "A move is only fatal for some allocation patterns.", "anchors": ["htmlext/main.cpp:52-97"]}
{"id": "C58", "title": "Every run of the program ends with success or one message", "statement": "Every run of htmlext ends; it succeeds with no message if everything can be read and parsed and no extraction throws, and otherwise fails with exactly one message, that of the first failure: the first source that cannot be read or parsed, else the first document that cannot be read, else the first extraction that throws.", "quantifier": "all surroundings and options", "why_tests_cant": "Composes all parts of the program.", "anchors": ["htmlext/main.cpp:32-137"]}
{"id": "C59", "title": "The recursions need a bounded stack", "statement": "There is a number of stack frames that suffices for Rule::extract, copying and destroying a rule, whatever the document and the rule.", "quantifier": "all documents, rules, limits and stack sizes", "why_tests_cant": "The depth of the recursion is unbounded; a test only tries some depths.", "anchors": ["libhext/src/RuleMatching.cpp", "libhext/src/NodeUtil.cpp: StripTags, SerializeNode", "libhext/src/Rule.cpp:56-80", "libhext/include/hext/Rule.h:124"]}
{"id": "C60", "title": "A snippet takes from a document exactly what the description of the language says", "statement": "If the regex engine returns, and the numbers in the snippet and the sizes in the document cannot overflow, then parsing a text and searching a document yields a result exactly if a declarative description of the language (syntax, conditions, tests, groups, captures, pipes, builtin functions) gives that result for the text and the document; the description gives at most one result per rule, and exactly one under these conditions.", "quantifier": "all texts, documents, start nodes and regex engines", "why_tests_cant": "Composes parsing, matching, tests, pipes and serialisation for all inputs; a test compares single outputs only.", "anchors": ["libhext/src/Parser.cpp", "libhext/src/Rule.cpp:115-170", "libhext/src/RuleMatching.cpp", "libhext/src/NodeUtil.cpp"]}
{"id": "C61", "title": "Rules are destroyed exactly once and never used afterwards", "statement": "Over any sequence of operations on rules (construct, copy, assign, move, append, set, destroy), also between a rule and its own parts, no rule is used after it was destroyed, none is destroyed twice, each living object has exactly one owner, all are destroyed when the variables end, and every variable has the value that value semantics gives it.", "quantifier": "all sequences of statements over any number of variables, and all places in their rules", "why_tests_cant": "Aliasing between a rule and its parts has unboundedly many shapes; freed memory often still holds its old contents, so a test passes.", "anchors": ["libhext/src/Rule.cpp:56-155", "libhext/src/Rule.cpp:302-316", "libhext/include/hext/Rule.h:124-128"]}
{"id": "C62", "title": "The printed text is JSON and has only one reading", "statement": "What htmlext prints is, for every result and in every format, a sequence of JSON texts (RFC 8259) that mean exactly the objects of the result in order (one array of them with --array), in UTF-8; without --pretty each object is on a line of its own; results with different values have different texts.", "quantifier": "all results, all printing options, all names and values", "why_tests_cant": "Escaping, nesting and indentation have to be right for every string and every shape of object; that no other reading exists is a statement about all derivations of the JSON grammar.", "anchors": ["htmlext/htmlext/Json.cpp:25-105", "htmlext/main.cpp:99-117"]}
{"id": "C63", "title": "Every capture name works in every script language", "statement": "For every result map the object of the Node binding has an own property per name, and the array of the PHP binding an entry per name, that holds exactly the values of the name; the PHP script prints each map as a JSON object.", "quantifier": "all result maps, all names", "why_tests_cant": "Names are arbitrary text; that no name collides with another one or with a name that the language treats specially concerns all of them.", "anchors": ["libhext/bindings/nodejs/src/Rule.cpp:157-191", "libhext/bindings/php/phphext.i:31-63", "libhext/bindings/php/htmlext.php:70-71"]}
{"id": "C64", "title": "extract-href prints every useful link once", "statement": "The example program prints, one per line, the resolved href of every anchor element reachable by the search whose href is not empty and begins neither with '#' nor with 'javascript:', each exactly once; the base is the argument or the first base element's href; it ends otherwise only with an exception of the URI library.", "quantifier": "all documents, all arguments, all URI libraries", "why_tests_cant": "Completeness over every shape of document; the order of the search shows only in nested documents.", "anchors": ["libhext/examples/extract-href.cpp:36-162"]}
{"id": "C65", "title": "Captures are called once per reported pair, in the order of the result, after the search", "statement": "For captures with arbitrary side effects: extract first finishes the search; if that fails no capture has been called; otherwise each capture of each rule is called exactly once for each reported pair, in the order of groups, pairs and captures, up to the first call that does not return; the maps hold exactly what the calls returned; captures whose values do not depend on the state leave the result as without side effects; the counter of examples/mixed.cpp numbers the result from 1 without gaps.", "quantifier": "all states and capture objects, all rules, documents, start nodes and limits", "why_tests_cant": "The order and number of the calls concern every shape of rule and document and every point at which a call can fail.", "anchors": ["libhext/src/Rule.cpp:246-300", "libhext/examples/mixed.cpp:30-72"]}
{"id": "C66", "title": "No assertion of the library or of htmlext fails", "statement": "A build with assertions compiles every Hext text to the same rule or the same error as the Release build, and executes every rule whose functions are set, in particular every compiled one, with the same outcome for every document, start node and limit: no assert of libhext is ever false. Neither is one of htmlext, which behaves in the same way with assertions for every command line and all files. A null start node or an empty std::function does fail an assertion.", "quantifier": "all texts, regex engines, rules, documents, start nodes and limits; all command lines and worlds", "why_tests_cant": "Assertions state invariants of every reachable parser and search state; tests reach only some of them, and the shipped build does not check them at all.", "anchors": ["libhext/src/Parser.cpp:1806-1815", "libhext/src/Parser.cpp:2326-2527", "libhext/src/PatternValues.cpp:40-57", "libhext/src/RuleMatching.cpp:24-36", "libhext/src/RuleMatching.cpp:249-280", "libhext/src/NthChildMatch.cpp:83-153", "htmlext/main.cpp:61", "htmlext/htmlext/Json.cpp:77"]}
{"id": "C67", "title": "The number of rule tests: polynomial in the document, exponential in the rule", "statement": "During a search Rule::matches is called at most 2^d * h^m * r * n times if every chain of sibling rules has a mandatory rule, where r is the number of rules, d how deeply they are nested, m how many nested (not child) rules are inside one another, n the number of nodes searched and h their height: linear in the document for a rule without nested rules. For other rules the largest number of children (at least 2) takes the place of 2. This holds for every limit and also if the search is abandoned. For chains of optional rules no linear bound exists. The factor 2^d is real: there are rules of depth d, with a mandatory rule in every chain, and documents of at most d^2 nodes that take at least 2^(d-1) tests, whatever the limit (except 1), so that no polynomial in the size of the rule and of the document is a bound.", "quantifier": "all regex engines, rules, documents, start nodes, limits", "why_tests_cant": "A bound on the work for all rules and documents cannot be established by timing examples; worst cases depend on the interplay of greedy, optional and nested rules.", "anchors": ["libhext/src/RuleMatching.cpp:24-60", "libhext/src/RuleMatching.cpp:62-180", "libhext/src/RuleMatching.cpp:182-247", "libhext/src/RuleMatching.cpp:249-296"]}
{"id": "C68", "title": "Conditions may have side effects", "statement": "For conditions (objects of classes derived from Match, MatchFunctions) that read and change any state and may answer the same question differently each time: the search always ends; each call of Rule::matches is for a rule of the tree and a node that is the start node, one of its following siblings or below these, and asks the conditions of the rule in order up to the first that does not say yes; every reported pair of a rule and a node has passed such a test; an exception ends the search at once and no capture is called; otherwise the captures run after the last condition. Conditions that only observe or remember their answers give the same result as without a state and are not asked more often than C67 says.", "quantifier": "all state types, behaviours of conditions and captures, rules, documents, start nodes, limits", "why_tests_cant": "Termination and the order of calls for every behaviour of user code cannot be sampled; a condition may react to anything it has seen before.", "anchors": ["libhext/src/RuleMatching.cpp:24-60", "libhext/src/RuleMatching.cpp:62-180", "libhext/src/RuleMatching.cpp:182-247", "libhext/src/RuleMatching.cpp:249-296", "libhext/src/Rule.cpp:201-244", "libhext/src/Rule.cpp:273-300", "libhext/include/hext/Match.h:55"]}
{"id": "C69", "title": "Groups are well-formed whatever the conditions answer", "statement": "For conditions that read and change any state and may answer differently each time, a search that returns yields, in every list of siblings, groups that take nodes one after the other; each group consists of nodes that passed the test of their rule during this search, in the order of the rules and of the nodes, with a node for every mandatory rule and a single one for a rule that is not greedy. The same holds for the groups of child rules and nested rules of every matched node, whose pairs stand in the result where they stand with conditions that do not change; a node with child or nested rules is an element with children, and each of these chains with a mandatory rule has at least one group.", "quantifier": "all state types, behaviours of conditions, rules, documents, start nodes, limits", "why_tests_cant": "The shape must survive any sequence of answers, including answers that contradict earlier ones; these cannot be enumerated.", "anchors": ["libhext/src/RuleMatching.cpp:24-60", "libhext/src/RuleMatching.cpp:62-180", "libhext/src/RuleMatching.cpp:182-247", "libhext/src/RuleMatching.cpp:249-296"]}
{"id": "C70", "title": "The htmlext scripts of the bindings print what htmlext prints", "statement": "Given the same rule file and HTML file, htmlext and the htmlext scripts for Python, Ruby, PHP and JavaScript print the same JSON values, one per line and in the same order, and exit successfully; for a rule with a syntax error all of them print the parser's message and fail; every run of a script ends with its output or with a message.", "quantifier": "all files, rules, documents, regex engines, decoders, arguments", "why_tests_cant": "The five programs escape, sort and convert the result in five different ways; that the texts mean the same holds for every string, every set of names and every number of values, or fails for rare ones only.", "anchors": ["libhext/bindings/python/htmlext.py:22-53", "libhext/bindings/ruby/htmlext.rb:19-49", "libhext/bindings/php/htmlext.php:20-69", "libhext/bindings/nodejs/htmlext.js:38-81", "htmlext/main.cpp:31-137"]}
{"id": "C71", "title": "The parser reports the first error of a text", "statement": "A text is rejected exactly if it has an error, and the error that is reported is the first one: the wrong character, regex, number, brace or closing tag with the name of what was expected, or what is missing at the end of the text, at the place where it is.", "quantifier": "all texts and regex engines", "why_tests_cant": "The message depends on everything before the error: what is open, the flags of earlier regexes and the position; texts with several errors have to be reported for the first one, whatever follows.", "anchors": ["libhext/src/Parser.cpp: throw_regex_error, throw_unexpected, throw_unexpected_tag, throw_missing_tag, throw_error_message", "libhext/ragel/Parser.cpp.rl", "libhext/ragel/hext-machine.rl"]}
{"id": "C72", "title": "Texts outlive the documents made of them", "statement": "htmlext and the bindings read the text of a document only while it is in memory; the names of its elements are read from the text it was made of; all memory for texts and documents is released exactly once, also if an exception ends the program.", "quantifier": "all files, rules, exceptions, and all uses of objects of the bindings", "why_tests_cant": "Short strings are kept inside of objects that may move; wrong reads usually find the old bytes, and only names of unknown elements are read from the text.", "anchors": ["libhext/include/hext/Html.h", "htmlext/main.cpp", "libhext/bindings/wrapper/Html.h", "libhext/bindings/wrapper/Html.cpp", "libhext/bindings/nodejs/src/Html.h", "libhext/bindings/nodejs/src/Html.cpp"]}
{"id": "C73", "title": "Rules survive a lack of memory", "statement": "If memory is refused while a rule is constructed, copied, assigned or extended, then std::bad_alloc is thrown, the rule and all others have their old values (a rule moved into an argument is lost), nothing leaks, and nothing is used or destroyed after its end.", "quantifier": "all programs on rules, all patterns of granted and refused requests", "why_tests_cant": "Each of the unboundedly many requests of a copy may be the one that is refused, and the cleanup differs for each.", "anchors": ["libhext/src/Rule.cpp", "libhext/include/hext/Rule.h", "libhext/include/hext/Cloneable.h"]}
{"id": "C74", "title": "What htmlext does as a process", "statement": "For every command line, and for files and pipes that change when they are read, htmlext opens its inputs in the given order (hext files first, each at most once), then prints the extracted values, then at most one error message; the exit status is 0 if there is no message and 1 if there is one; a status of 0 means that everything was written.", "quantifier": "all command lines, all states of the world and all ways in which opening files changes it, all outcomes of the external libraries", "why_tests_cant": "Command lines, file contents and the effects of reading are unbounded; tests use regular files only.", "anchors": ["htmlext/main.cpp", "htmlext/htmlext/File.cpp", "htmlext/htmlext/ErrorOutput.cpp", "htmlext/htmlext/ProgramOptions.cpp"]}
{"id": "C75", "title": "What a rule does not look at does not matter", "statement": "Two documents with the same elements and attributes give the same result for a rule, whatever comments, CDATA sections and doctype they have, in whatever order the attributes of an element stand, and, unless the rule asks for texts, whatever texts stand between the elements.", "quantifier": "all rules, all pairs of documents that are alike, all start nodes, all regex engines", "why_tests_cant": "A relation between pairs of unbounded documents for every rule; tests compare single documents with fixed results.", "anchors": ["libhext/src/RuleMatching.cpp", "libhext/src/NthChildMatch.cpp", "libhext/src/OnlyChildMatch.cpp", "libhext/src/ChildCountMatch.cpp", "libhext/src/AttributeMatch.cpp", "libhext/src/NodeUtil.cpp", "libhext/src/Rule.cpp"]}
{"id": "C76", "title": "Rules that mean the same give the same result", "statement": "Rewriting a rule - exchanging or repeating conditions, dropping implied conditions or double negations, splitting :not, writing :only-child as :first-child:last-child, exchanging captures with different names, changing the case of a custom tag - changes no outcome of extract.", "quantifier": "all pairs of rule trees that can be rewritten into each other, all documents, start nodes, limits and regex engines", "why_tests_cant": "A relation between pairs of unbounded rule trees over every document and limit; tests compare single rules with fixed results.", "anchors": ["libhext/src/Rule.cpp", "libhext/src/RuleMatching.cpp", "libhext/src/NegateMatch.cpp", "libhext/src/OnlyChildMatch.cpp", "libhext/src/NthChildMatch.cpp", "libhext/src/AttributeMatch.cpp", "libhext/src/FunctionValueMatch.cpp"]}
{"id": "C77", "title": "A search never looks outside the parent of its start node", "statement": "The outcome of extract depends only on the children of the parent of the start node and on what is below them (and on whether the parent is an element): replacing the rest of the document changes no result, exception or limit behaviour, unless a function of a user looks there.", "quantifier": "all rule trees, all pairs of documents that agree on the children of one node each, all start nodes among these children, limits and regex engines", "why_tests_cant": "Independence of an unbounded part of the input; a test changes only a few fixed documents.", "anchors": ["libhext/src/RuleMatching.cpp", "libhext/src/Rule.cpp", "libhext/src/NodeUtil.cpp", "libhext/src/NthChildMatch.cpp", "libhext/src/OnlyChildMatch.cpp", "libhext/src/Builtins.cpp"]}
{"id": "C78", "title": "The search finds as many groups as possible", "statement": "In every list of siblings the number of groups found is the largest number of times that the mandatory rules can be matched one after the other without overlap, for every row of rules except a single greedy one.", "quantifier": "all rule rows with a mandatory rule, all documents, start nodes, limits and regex engines", "why_tests_cant": "Optimality compares the result with all possible choices of nodes in lists of any length.", "anchors": ["libhext/src/RuleMatching.cpp", "libhext/src/Rule.cpp"]}
{"id": "C79", "title": "A rule that asks for less finds at least as much", "statement": "If conditions, child rules or nested rules are dropped or weakened, a tag is replaced by an asterisk, or child rules are replaced by nested rules, then every node that matched still matches, a search finds at least as many groups, and a single rule still finds every node.", "quantifier": "all pairs of rule trees of which one asks for less, all documents, start nodes, limits and regex engines", "why_tests_cant": "A relation between pairs of unbounded rule trees over every document.", "anchors": ["libhext/src/RuleMatching.cpp", "libhext/src/Rule.cpp", "libhext/src/NegateMatch.cpp", "libhext/src/AttributeMatch.cpp"]}
{"id": "C80", "title": "Texts compose", "statement": "Two snippets one after the other give the rules of the first followed by the rules of the second; a snippet between an opening and a closing tag gives the child rules of that tag, and in braces a nested rule; whitespace and comments on either side change nothing. This holds unless a flagged type-matches comes before.", "quantifier": "all texts, all regex engines", "why_tests_cant": "Concerns every pair of texts of unbounded length and depth.", "anchors": ["libhext/ragel/hext-machine.rl", "libhext/src/Parser.cpp"]}
{"id": "C81", "title": "Rules without siblings are paths", "statement": "A rule in whose tree no rule has a sibling takes every node that it matches, and from it the values of every child (for a rule in braces: every node below) that the rules inside match, inner values first; there is one map for each node, or for each list of siblings if the rule is greedy. So the example chaining prints one line for the href of each a in li in an ul without attributes in a div without attributes.", "quantifier": "all rules without siblings, all documents, all start nodes, all regex engines", "why_tests_cant": "Concerns every depth of rules and documents.", "anchors": ["libhext/src/RuleMatching.cpp", "libhext/src/Rule.cpp", "libhext/examples/chaining.cpp"]}
{"id": "C82", "title": "Nothing is reported twice without braces, and results have polynomial size", "statement": "If no rule is in braces then no pair of a rule and a node is in the groups of a search twice. In general it is there at most d^b times, where d is the depth of the node below the parent of the start node and b the number of braces around the rule; so a result has at most captures * nodes * levels^b values. With braces a pair can be there twice, and no bound linear in the size of the document holds.", "quantifier": "all rules, documents, start nodes and regex engines; all searches that return", "why_tests_cant": "Concerns the growth over all documents.", "anchors": ["libhext/src/RuleMatching.cpp:SaveMatchingNodesRecursive", "libhext/src/Rule.cpp:Rule::extract"]}
{"id": "C83", "title": "Captures only report", "statement": "Rules that differ only in their captures have the same search outcome for every document, node and limit. Dropping captures by name removes their values and the maps that become empty, and changes nothing else; renaming captures injectively gives the same values under the new names; a further pipe is applied to the values of its captures and to nothing else.", "quantifier": "all rules, documents, start nodes, limits, regex engines, name predicates, injective renamings and pipes", "why_tests_cant": "Relates the results of infinitely many pairs of rules.", "anchors": ["libhext/src/Rule.cpp:Rule::extract", "libhext/src/Rule.cpp:Rule::capture", "libhext/src/RuleMatching.cpp", "libhext/src/StringPipe.cpp"]}
{"id": "C84", "title": "Chains of pipes that do the same", "statement": "Chains of pipes that are equal by the rules of pipes_equal (merging and reordering of append, prepend, trim, tolower, toupper and collapsews) have the same outcome for every text; for chains of append, prepend and case pipes the rules are complete. Rules that differ only in such chains give the same results for every document, node and limit. Without line-breaking elements below a node the builtin text equals strip-tags followed by collapsews.", "quantifier": "all regex engines, chains, texts, rules, documents, start nodes and limits", "why_tests_cant": "Relates infinitely many pairs of chains on infinitely many texts.", "anchors": ["libhext/src/StringPipe.cpp", "libhext/src/TrimPipe.cpp", "libhext/src/CasePipe.cpp", "libhext/src/CollapseWsPipe.cpp", "libhext/src/StringUtil.cpp:TrimAndCollapseWs", "libhext/src/NodeUtil.cpp:StripTags"]}
{"id": "C85", "title": "More content never loses groups", "statement": "If a page gets further nodes anywhere between and around its nodes, rules whose conditions are on tags and attributes alone match every node they matched before, and the search finds at least as many groups; a single mandatory rule finds every node again. Conditions on positions do not have this property, and in a row of rules a particular node may be lost to a new one.", "quantifier": "all regex engines, rule trees with such conditions, documents, ways of adding nodes, start nodes and limits", "why_tests_cant": "Relates infinitely many pairs of documents for infinitely many rules.", "anchors": ["libhext/src/RuleMatching.cpp:MatchRuleGroup", "libhext/src/RuleMatching.cpp:RuleMatchesNodeRecursive", "libhext/src/RuleMatching.cpp:SaveMatchingNodesRecursive"]}
{"id": "C86", "title": "The order of braces does not matter", "statement": "Rules in braces may be exchanged, anywhere in the tree, without changing which nodes are found: the search returns the same groups with the same pairs of rules and nodes, and extract the same maps up to the order of the values of a name. The values of a name keep their order when no two exchanged rules both store under it; when exchanged rules store under different names the result is the same. Under one name the order of the values does change, and with a limit on the searches one order may return while the other throws.", "quantifier": "all regex engines, rule trees, sequences of exchanges at any depth, documents, start nodes and limits", "why_tests_cant": "Relates infinitely many pairs of rule trees on infinitely many documents.", "anchors": ["libhext/src/RuleMatching.cpp:RuleMatchesNodeRecursive", "libhext/src/Rule.cpp:extract", "libhext/include/hext/Rule.h:nested"]}
{"id": "C87", "title": "Optional rules only add pairs", "statement": "Two rule trees that have the same mandatory rules, anywhere in the tree, find the same number of groups, and in each group the mandatory rules (those below mandatory rules only) find the same nodes in the same order: adding, removing or changing optional rules does not change what the mandatory rules find. The values of a name that only such rules store under are the same. This needs a mandatory rule in the first row and no optional rule directly before a mandatory greedy one: such an optional rule stops the greedy rule from repeating. Child rules that are all optional cannot be dropped, since they ask for a child.", "quantifier": "all regex engines, pairs of rule trees with the same mandatory rules, documents, start nodes and limits", "why_tests_cant": "Relates infinitely many pairs of rule trees on infinitely many documents.", "anchors": ["libhext/src/RuleMatching.cpp:MatchRuleGroup", "libhext/src/RuleMatching.cpp:MatchRange", "libhext/src/RuleMatching.cpp:FindMandatoryRule", "libhext/src/RuleMatching.cpp:RuleMatchesNodeRecursive"]}
{"id": "C88", "title": "A search is made of the searches of its parts", "statement": "The groups of a search are those of the list of siblings that it starts with, followed by the groups of the searches from the first child of each of these siblings, in order and with the same limit. Each of these gives what the sibling gives on a page of its own (unless a function of a user looks further). So if one of the mandatory rules of the first row is satisfied by none of the siblings, the page may be cut into the pages of the siblings, and the results of these, one after the other, are the result of the page. The limit counts for the whole page, and a list of siblings itself cannot be cut.", "quantifier": "all regex engines, rules, documents, start nodes and limits for which the search returns", "why_tests_cant": "Relates the outcome for every document to the outcomes for its parts; tests compare finitely many.", "anchors": ["libhext/src/RuleMatching.cpp:SaveMatchingNodesRecursive", "libhext/src/Rule.cpp:extract"]}
{"id": "C89", "title": "What is wrong stays wrong, and beginnings of good rules are not wrong", "statement": "While an acceptable text is written from left to right, the parser accepts each of its beginnings or says that something is missing at the end (more text, a closing tag or a brace); it never reports anything else. In turn, any other error stays the same, with the same message, whatever text (of ASCII characters) is added; only after an error about a brace at the very end, a wrong next character is reported instead. Undefined behaviour stays, too. If the parser asks for a closing tag or brace, then the text can be completed to an acceptable one.", "quantifier": "all texts, continuations and regex engines", "why_tests_cant": "Quantifies over all texts that can be added to a text; editors rely on it for each keystroke.", "anchors": ["libhext/src/Parser.cpp: parse, throw_unexpected, print_error_location", "libhext/ragel/hext-machine.rl"]}
{"id": "C90", "title": "Building a rule takes quadratic time, not linear", "statement": "Whatever the text is and whether it is accepted or not, the parser follows at most n(n+1)/2 pointers of lists of rules and of pipes for n characters. It does not get by with a number that is linear in the length: n rules next to each other take (n-1)(n-2)/2.", "quantifier": "all texts and regex engines", "why_tests_cant": "Running time as a function of the length of the text.", "anchors": ["libhext/src/Rule.cpp: append_next, append_child", "libhext/src/StringPipe.cpp: append", "libhext/src/Parser.cpp: parse, pop_rule"]}
{"id": "C91", "title": "Taking the text of a node copies each character once per level", "statement": "To take the text of a node, the number of characters appended is the sum of the lengths of the texts of the node and of all nodes below it, at most the height of the node times the length of its text, and at most twice the square of the size of the document. It is not linear in the size of the document.", "quantifier": "all nodes, with or without newlines around blocks", "why_tests_cant": "Running time as a function of the size of the document.", "anchors": ["libhext/src/NodeUtil.cpp: StripTags"]}
{"id": "C92", "title": "The work of the conditions of a search", "statement": "With the characters that are copied to take texts and the children that are looked at as work, each condition does at most quadratic work in the size of the document, and a search at most this much for each condition of each of the tests of C67. Even one rule that is tested once on every node can take cubic time for texts and quadratic time for siblings.", "quantifier": "all rules, documents, start nodes, limits and regex engines", "why_tests_cant": "Running time as a function of the size of the rule and the document.", "anchors": ["libhext/src/NodeUtil.cpp: StripTags", "libhext/src/NthChildMatch.cpp", "libhext/src/OnlyChildMatch.cpp", "libhext/src/ChildCountMatch.cpp", "libhext/src/NegateMatch.cpp", "libhext/src/RuleMatching.cpp"]}
{"id": "C93", "title": "The parser does not depend on the signedness of char", "statement": "Where char is unsigned, ParseHext accepts the same texts with the same rules and reports the same errors as where it is signed, except that an unexpected byte above 127 is reported by its number, which is undefined behaviour or, for 255, another message where char is signed. There is no undefined behaviour where char is unsigned.", "quantifier": "all inputs and regex engines", "why_tests_cant": "Tests run on one platform, and there are infinitely many inputs.", "anchors": ["libhext/src/Parser.cpp: Parser::parse, Parser::throw_unexpected", "libhext/src/StringUtil.cpp: CharName"]}
{"id": "C94", "title": "Error messages say what is wrong and where", "statement": "The part of the message of every SyntaxError that what() shows, up to the first NUL byte, contains the first line of the message completely, and that line names the error and its position. It is the whole message if there is no NUL byte in the text and in the messages of the regex library. If there is a NUL byte in or before a wrong regex, the reason is lost.", "quantifier": "all inputs and regex engines", "why_tests_cant": "There are infinitely many inputs and kinds of positions, and tests do not try NUL bytes.", "anchors": ["libhext/src/Parser.cpp: Parser::throw_unexpected, Parser::throw_regex_error, Parser::print_error_location", "libhext/include/hext/SyntaxError.h", "libhext/bindings/nodejs/src/Rule.cpp: Rule::Rule", "libhext/bindings/python/pyhext.i"]}
{"id": "C95", "title": "A rule only depends on its own regexes", "statement": "What an extraction does, including errors, is the same with any two regex libraries that agree on the regexes (and replacement formats) that occur in the rule. If the library never gives up on these, no regex error leaves the extraction. All regexes of a rule that ParseHext returns were accepted by the library, and another library gives the same rule for the same text if and only if it accepts the regexes of the rule.", "quantifier": "all regex libraries, texts, rules, documents, start nodes and limits", "why_tests_cant": "Tests run with one regex library, and cannot see that nothing depends on it otherwise.", "anchors": ["libhext/src/Parser.cpp: Parser::parse (lines 2014-2027)", "libhext/src/RegexTest.cpp: RegexTest::test", "libhext/src/RegexPipe.cpp", "libhext/src/RegexReplacePipe.cpp", "libhext/src/TypeRegexMatch.cpp", "libhext/src/Rule.cpp: Rule::extract"]}
{"id": "C96", "title": "Regex errors never change a result", "statement": "If a regex library answers whenever another one does, with the same answer, on the regexes of a rule, then every extraction has the same outcome with both, except that one that ended with a regex error may now end otherwise. If a regex error leaves an extraction, the library gave up on a regex of the rule for some text.", "quantifier": "all regex libraries, rules, documents, start nodes and limits", "why_tests_cant": "The errors depend on the complexity limit of the library, and there are infinitely many rules and documents.", "anchors": ["libhext/src/Rule.cpp: Rule::extract, Rule::matches, Rule::capture", "libhext/src/RuleMatching.cpp", "libhext/src/RegexTest.cpp", "libhext/src/RegexPipe.cpp", "libhext/src/RegexReplacePipe.cpp", "libhext/src/TypeRegexMatch.cpp"]}
{"id": "C97", "title": "The regex library only adds regex errors to the parser", "statement": "With any regex library ParseHext does what it does with a library that accepts every regex, or it throws the SyntaxError for a regex that the library rejects, with the reason given by the library. A text that has a rule with one library has the same rule with any other, or one of the regexes of that rule is reported. No text has different rules with different libraries.", "quantifier": "all inputs and regex libraries", "why_tests_cant": "Tests run with one regex library and finitely many inputs.", "anchors": ["libhext/src/Parser.cpp: Parser::parse (lines 2014-2027), Parser::throw_regex_error", "libhext/src/ParseHext.cpp"]}
{"id": "C98", "title": "The regex library is only asked about texts of the document", "statement": "The outcome of an extraction depends on the regex library only through its answers about: the values of attributes and functions of nodes of the document that have the tag of a rule and that a condition of the rule names, the names of these nodes, and what the pipes of a capture make of a captured value before the regex pipe. Libraries that give the same answers to these lead to the same outcome, and a regex error leaves an extraction only if the library gives up on one of them.", "quantifier": "all rules, documents, start nodes, search limits and regex libraries", "why_tests_cant": "Tests run with one regex library and finitely many rules and documents.", "anchors": ["libhext/src/RegexTest.cpp", "libhext/src/RegexPipe.cpp", "libhext/src/RegexReplacePipe.cpp", "libhext/src/TypeRegexMatch.cpp", "libhext/src/AttributeMatch.cpp", "libhext/src/FunctionValueMatch.cpp", "libhext/src/AttributeCapture.cpp", "libhext/src/FunctionCapture.cpp"]}
