# Formal model of hext in Rocq

The properties are listed in `properties.jsonl` (C01 ...), the theorems for each
of them in `MANIFEST.json`. The model and the proofs are in `rocq/theories`.
Nothing in `/repo` was built or run; the model was written by reading the source,
and the state tables of the generated parser were copied from
`libhext/src/Parser.cpp` by a script.

Build: `cd rocq && coq_makefile -f _CoqProject -o Makefile && make -j4`
(about ten minutes on four cores).

## How to read the development

For each area there are four kinds of files.

* Model: `Base`, `Tags`, `Dom`, `NodeUtil`, `StringUtil`, `Values`, `Match`,
  `Rule`, `RuleMatching`, `ParserTables`, `Arrays`, `Parser`, `Convert`, `Cli`,
  `Ownership`, `PyRefs`, `Bindings`, `Program`. Total computable functions, one per C++
  function, with a comment that cites file and lines. No proofs.
* Specification: `*Spec`, `Regular`, `Grammar`. What the properties mean, in
  terms of trees, lists and texts, without the functions of the model as far as
  possible.
* Proofs: all other files.
* Properties: `Prop*`. Only the theorems of the manifest, each with a comment,
  `Print Assumptions` and an `Example` that meets its hypotheses. Theorems whose
  name ends in `_refuted` are witnesses that the code violates the property as
  it is stated; those in `_partial` prove the part that is true.

| Properties | File | Specification |
|---|---|---|
| C01 - C05, C17 | PropExtract | MatchSpec, ExtractSpec |
| C06 - C16, C52 | PropSearch | MatchSpec, GroupSpec, SearchSpec |
| C18, C19 | PropRule | RuleSpec |
| C20 - C28, C31 | PropMatch | NodeSpec, ValueSpec |
| C29, C30, C36 | PropValues | StringSpec, ValueSpec |
| C32 - C35, C37 (positions) | PropText | StringSpec, TextSpec |
| C37 (messages), C38 - C41 | PropParser | ParserSpec, Regular, Grammar, GrammarSpec |
| C42 - C46 | PropSyntax | SyntaxSpec, ExpressSpec |
| C47 - C51 | PropUse | ConvertSpec, CliSpec, OwnershipSpec |
| C53 | PropPython | PySpec |
| C54 | PropBind | BindSpec |
| C55 - C58 | PropProgram | ProgramSpec |
| C59 | PropDepth | DepthSpec |
| C60 | PropMeaning | MeaningSpec, with MatchSpec and SyntaxSpec |
| C61 | PropRuleHeap | RuleHeapSpec |
| C62 | PropJson | JsonSpec |
| C63 | PropScripts | ScriptSpec |
| C64 | PropHref (also C10_single_capture) | HrefSpec |
| C65 | PropCaptureState | CaptureStateSpec |
| C66 | PropAsserts, PropAssertMain | AssertSpec, ProgramSpec (contract of boost) |
| C67 | PropCost | CostSpec |
| C68 | PropCondState | CondSpec |
| C69 | PropCondGroups | CondGroupSpec |
| C70 | PropScriptRun | ScriptRunSpec |
| C71 | PropError | ErrorSpec |
| C30, C31 (exact) | PropExact | ExactSpec |
| C72 | PropBuffers | BufferSpec |
| C73 | PropNoMemory | NoMemorySpec |
| C74 | PropProcess | ProcessSpec |
| C75 | PropAlike | AlikeSpec |
| C76 | PropRewrite | RewriteSpec |
| C77 | PropFrame | FrameSpec |
| C78, C79 | PropMost | MostSpec |
| C80 | PropCompose | ComposeSpec |
| C81 | PropPath | PathSpec, ChainingSpec |
| C82 | PropRepeat | RepeatSpec |
| C83 | PropSelect | SelectSpec |
| C84 | PropPipe | PipeSpec |
| C85 | PropGrow | GrowSpec |
| C86 | PropBrace | BraceSpec |
| C87 | PropSkel | SkelSpec |
| C88 | PropPart | PartSpec |
| C89 | PropFinal | FinalSpec, ErrorSpec |
| C90 | PropBuild | - |
| C91 | PropCopies | - |
| C92 | PropWork | - |
| C93 | PropUnsigned | - |
| C94 | PropVisible | - |
| C95 | PropRegex | - |
| C96 | PropExtend | - |
| C97 | PropLenient | - |
| C98 | PropAsk | - |

## What is modelled

| Area | Model | Source |
|---|---|---|
| bytes, C strings | `list ascii`; `c_str` cuts at the first NUL | - |
| DOM | a tree of nodes; a `GumboNode*` is a path in it (`None` = nullptr); dereferencing an invalid path is the outcome `UB` | gumbo.h (contract) |
| NodeUtil | NextNode, StripTags, NodeText, serialisation, function by function | NodeUtil.cpp |
| StringUtil | in-place loops on buffers with explicit indices | StringUtil.cpp |
| value tests, matches, captures, pipes | one constructor per subclass, one evaluator per virtual function | the small .cpp files |
| regex engine | an arbitrary function record (oracle); all theorems quantify over it | boost::regex |
| Rule | inductive tree with `first_child`, `next`, `nested`; a `Rule*` is a path in it | Rule.cpp |
| matching | the six functions of RuleMatching.cpp with fuel | RuleMatching.cpp |
| parser | the generated tables verbatim, the execution loop with its binary searches, all 89 actions, the stacks and pattern values, all error messages | Parser.cpp, PatternValues.cpp |
| grammar | hext-machine.rl as a regular expression with embedded actions | hext-machine.rl |
| conversions | grouping of multimaps, the search limit of the Node binding | Json.cpp, bindings |
| JSON text | what rapidjson's writers put into the buffer: escapes, separators, indentation | Json.cpp |
| command line tool | loading, linting, the loops over rules and inputs, printing | main.cpp |
| files, options, vectors of main | streams with their state; boost::program_options as an oracle with a contract; vectors with addresses and capacity | File.cpp, ProgramOptions.cpp, main.cpp |
| Python objects | a heap with reference counts; every API call may fail (oracle), strings must be UTF-8 | pyhext.i |
| entry points of the bindings | constructors and extract: arguments, exceptions | bindings/wrapper, the %exception blocks, bindings/nodejs/src |
| stack frames | the recursive functions again, counting frames | RuleMatching.cpp, NodeUtil.cpp, Rule.cpp |
| rules as objects | rules, matches and captures as cells with addresses; constructors, assignments, swap, append functions, destructor; programs of such statements | Rule.cpp, Rule.h |
| ownership | histories of Html objects; copy assignment of captures, matches and tests | Html.cpp, AttributeCapture.cpp, ... |
| objects of JavaScript, arrays of PHP | own properties, prototype and property order; integer keys | nodejs/src/Rule.cpp, phphext.i |
| example extract-href | the two rules, the base URI and main; Poco::URI is an oracle that may throw | examples/extract-href.cpp |
| captures with side effects | Rule::capture and Rule::extract over an arbitrary state and arbitrary capture objects; the function of the example mixed | Rule.cpp, examples/mixed.cpp |
| build with assertions | every assertion of libhext: parser, search, nth-child, empty functions | Parser.cpp, PatternValues.cpp, RuleMatching.cpp, NthChildMatch.cpp, Function*.cpp |
| number of rule tests | calls of Rule::matches during a search | RuleMatching.cpp 190 |
| conditions with side effects | the search again, over an arbitrary state and arbitrary match objects, with a log of the calls | RuleMatching.cpp, Rule.cpp 201-244 |
| scripts of the bindings | arguments, reading the files, messages, and the text that each language prints for a result | htmlext.py, htmlext.rb, htmlext.php, htmlext.js |
| texts in memory | blocks; `std::string` with the short strings of libstdc++; `std::vector` with moving of elements; the locals of main and the class Html of the bindings | main.cpp 55-117, wrapper/Html, nodejs/src/Html |
| rules without memory | the constructors, assignments and append functions of Rule when any request for memory may be refused: std::bad_alloc, the destructors that run while it passes, and noexcept | Rule.cpp 24-155, 195-199, 302-316, Rule.h 102-127, Cloneable.h 45-56 |
| htmlext as a process | the files it opens (which may change the world: a pipe is used up), what it writes to both streams, in order, and its exit status; std::cout on a device of limited size (`Process.v`) | htmlext/main.cpp 32-142, File.cpp 66-89, ErrorOutput.cpp 21-43, ProgramOptions.cpp 108-149, Version.cpp.in 28-39 |
| htmlext with assertions | its two assertions (main.cpp 61, Json.cpp 77) on top of the library with its own (`AssertProgram.v`) | htmlext/main.cpp 32-142, Json.cpp 25-82 |
| the example chaining | the rule built with the builder functions and copies, the loops that print | examples/chaining.cpp |
| building the rule, counted | Parser.v again with the number of pointers that are followed to append a rule or a pipe | Rule.cpp append_next, append_child; StringPipe.cpp append |
| taking a text, counted | StripTags of NodeUtil.v again with the number of characters that are appended | NodeUtil.cpp 32-69 |
| the work of conditions | the matches of Match.v again with the number of characters that StripTags appends and of children that are looked at, as the state of CondState.v | NodeUtil.cpp 32-69, NthChildMatch.cpp, OnlyChildMatch.cpp, ChildCountMatch.cpp, NegateMatch.cpp |
| the parser with an unsigned `char` | the transitions, CharName and the actions that may call it again, with an unsigned `char`; print_error_location converts to `signed char` itself | Parser.cpp 1846-2541, StringUtil.cpp 84-107 |
| `what()` of a SyntaxError | the C string of the message, as the bindings and htmlext use it | Parser.cpp 2496-2585, bindings (pyhext.i 123-134 and the same for Ruby and PHP, nodejs/src/Rule.cpp 25-61) |

Outcomes are `Ok`, `Throw`, `UB` and `OutOfFuel`. Undefined behaviour is an
outcome of its own and never assumed away: null dereference, pointers to no
object, array bounds, `back()` on an empty vector, empty `std::optional`, signed
overflow, `<cctype>` functions on negative chars, double free. Fuel exhaustion is a
distinct outcome and is proved impossible for enough fuel (C01, C38), so it never
hides behaviour.

### Not modelled, and simplifications

* Gumbo itself. Its contract is part of the representation: `parent` and
  `index_within_parent` agree with the child vectors. Its name functions
  (`gumbo_tag_enum`, `gumbo_normalized_tagname`, `gumbo_tag_from_original_text`,
  `gumbo_get_attribute`) are modelled from their documentation.
* Boost.Regex is the record `engine`: compiling, searching, replacing; each may
  fail. Its results are functions of their arguments.
* Boost.StringAlgo (`trim_if`, `split`, `is_any_of`, the predicates) and
  `boost::tokenizer` are modelled from their documentation.
* rapidjson's text output is an arbitrary function `writer`, except in C62,
  which models the writers of rapidjson 1.1.0 with their default parameters
  from their source as known; it is not part of /repo. In C51 and C58
  boost::program_options is replaced by the record of options it produces; C56
  states its contract. Reading a file has no side effects, except in C74; there a file
  is read to its end when it is opened, arguments have no NUL byte, and signals
  (SIGPIPE) do not occur.
* Memory allocation does not fail, except in C73; there a Match or Capture is
  cloned with one request. The stack does not overflow, except in C59; there a
  stack is a number of frames, and functions that are not part of a recursion
  (and the recursions of boost and Gumbo) take none. `std::string` and
  `std::vector` have no maximal size. `int` has 32 bits, `char` is signed (except in C93), the
  locale is "C".
* `assert` is compiled out, as in the default Release build, except in C66. There
  the assertions that hold because of the types of the model (nodes and texts
  that are not null, complete switches) are not repeated.
* User functions (`MatchFunction`, `CaptureFunction`) are functions of the node:
  they return a value or throw, but have no side effects. C65 drops this for
  captures, C68 also for conditions (any state, any class derived from Capture
  or Match). For conditions whose answers change, C69 says what remains of
  C07 and C09; that nothing is missed (C08, C10 - C15) is not true of them.
* `std::stoi` on something that is no number would throw
  std::invalid_argument; the model folds this into StdOutOfRange. C39 shows that
  it is only thrown for numbers that are too big.
* C61: the moves and the destructor of Rule are defaulted, so they are modelled
  from the C++ standard: member by member in the order of Rule.h 269-278;
  `unique_ptr` moves by `reset(release())`; a vector takes the buffer of the
  other one and then destroys its old elements (libstdc++). What a moved-from
  std::string holds is arbitrary. A match or capture is one cell (its inner
  objects are those of C50). The vector that `nested()` returns is not changed
  directly. `nested_` has one copy constructor call per element, and when it
  grows its elements are moved.
* Ragel. The grammar is transcribed by hand (`Grammar.v`): `r >a` is the action
  before `r`, `r %a` the action after `r`; where a place has several actions they
  run in the order of their numbers, once each. The longest-match star `**` of
  quoted strings and regular expressions is rendered as [body]; C41_bodies says
  what it describes. C41 proves that the generated tables and this grammar agree,
  by a check in the kernel (`vm_compute`) that steps both in lockstep, lifted to
  all strings (`GrammarCheck`, `GrammarProofs`). One spurious action was found
  (60, the start of a capture name, before the name of a pipe); it has no effect,
  see `G_exact` in Grammar.v.
* Objects of script languages: the order of integer keys and `__proto__` in
  JavaScript, numeric keys in PHP and the conversion from UTF-8 are left out,
  except in C53, C63 and C70. The strings that
  a Python dict makes for its keys are not counted.
* C70: the JSON libraries and the ways of the four languages to read and print are
  modelled from their documentation, in a UTF-8 locale. Messages are written as
  they are, and writing does not fail; the exceptions that SWIG raises in PHP are
  instances of Exception. The decoder of JavaScript is an arbitrary
  function (which leaves UTF-8 as it is, where stated).

## Method per property

* C01 termination and safety: fuel bound by induction on the height of the DOM
  and the number of remaining siblings; progress lemma for MatchRuleGroup; no
  `UB` outcome for nodes with a parent.
* C03, C04: simulation between a limited and an unlimited run; the count is the
  number of calls of SaveMatchingNodesRecursive with a node.
* C05, C06, C16: refinement of the pointer code to functions on lists of
  siblings (`MatchRefine`), induction against a declarative embedding relation
  (`MatchSpec`) that does not use the search functions.
* C07 - C15, C52: group algebra on lists (`GroupAlg`, `GroupProofs`), then
  corollaries.
* C17: multimap insertion is stable insertion; sortedness and permutation.
* C18, C19, C50: structural induction over the object trees.
* C20 - C31: evaluators against small specifications.
* C32 - C37: loop invariants on the buffer algorithms.
* C38: an invariant for each of the 820 states of the machine (which pattern
  values are set, how many stacks there are), found by reflection
  (`SafetyCheck`) and preserved by all actions (`SafetyProofs`).
* C41: see above.
* C42: the words of the grammar are inverted into concrete syntax
  (`SyntaxWords`), the actions of each construct are run symbolically
  (`SyntaxRun`, `SyntaxMeaning`), and the stack discipline gives the tree
  (`SyntaxTree`).
* C43: structural description of the rules that texts can denote, both
  directions (`ExpressProofs`).
* C47, C48, C51: structural induction over result maps.
* C49: transition system over histories.
* C53: every reference count is the number of references from other objects plus
  those of the running function; preserved by each call (`PyProofs`).
* C54: case distinction over the exceptions that C39 and C02 leave; rules that
  were parsed contain no user functions (`ParsedProofs`).
* C55 - C58: case distinctions; C57 computes the history of the documents for
  any number of inputs and uses the transition system of C49.
* C59: an invariant relates frames, height, rule depth and the remaining
  searches (`DepthProofs`); induction over the step bound.
* C60: each evaluator against its relation (`MeaningProofs`); the groups depend
  on the rules only through which nodes satisfy them (`SpecExt`); composed with
  C05 and C42 (`MeaningMain`).
* C61: an invariant says that the heap is exactly the cells of a tree of objects
  per variable (`RuleHeapProofs`, `RuleHeapOps`), kept by every statement
  (`RuleHeapMain`); permutations of cells are decided by reflection (`PermTac`).
* C62: a text is split in one way only (`JsonUnique`, induction over the
  derivation with the rest of the text generalised); the writer's stack of
  levels is an invariant (`JsonProofs`); UTF-8 of the whole from that of its
  parts (`Utf8Proofs`, `JsonProofs`).
* C63: the loop of the bindings for any kind of map (`ScriptProofs`); the rest is
  sorting and decimal numbers.
* C64: a rule without other rules reports one map per matching node
  (`alone_extract`, from C10 and C17), applied to the two rules of the example.
* C65: the capture phase of extract is written over an arbitrary state and
  arbitrary capture objects. A relation `runs` says that a computation makes
  exactly a given list of calls, up to the first one that does not return; it
  is closed under sequencing, so the list for extract is the concatenation of
  those for the groups, pairs and captures. The counter follows by induction
  over the calls.
* C66: the functions are repeated with their assertions; what a failed assertion
  does is a parameter about which nothing is known, so equality with the Release
  build for all parameters means that no assertion is ever false. For the parser
  an abstract interpretation of the whole state machine (which of the pointers
  of PatternValues may be set, where a token has begun), checked by computation,
  is an invariant of `exec`.
* C67: RuleMatching.v is repeated with a counter (Cost.v; the copy computes the
  same). A triple bounds the counter of every function. The tests of a group
  are charged to the nodes it takes and to the node before which it stops; a
  greedy rule that ran to the end of the list is charged with C06, which says that it matches nowhere
  behind. C67_optional is an exact count by induction on the number of nodes,
  C67_exponential (CostDeep.v) one by induction on the depth of the rule.
* C68: RuleMatching.v is repeated with a state and a log (CondState.v). A triple
  says for every function what is in the log and that it ends within an explicit
  number of steps, by induction on the height of the document. For conditions
  without memory the copy is compared step by step with that of C67.
* C69: a triple for the copy of C68 says what each function returns if everything
  in its log is in the log of the whole search; by induction on the step bound.
* C70: each script is reduced to the conversions of C53 and C63 and to the text
  of its JSON library, whose meaning is given by the grammar of C62. The lines of
  the files that Python reads are followed code point by code point (ScriptLines).
* C71: the run of the machine on a text is the run of the actions of its tokens
  (ErrorRun) up to the action that fails; each action that can fail belongs to one
  part of a token (ErrorParts), and what is open in the text determines the stacks.
* C30, C31, exactly: the word loop against the places that a search without overlaps visits; types against names.
* C72: an invariant that says which blocks are not released and which text each holds, through loading, searching and leaving main, and through any use of objects.
* C73: a triple for each operation: how often it asks, and the cells of the heap if all was granted and at the first refusal; composed over programs that continue in one way after a statement that was done and in another one after std::bad_alloc.
* C74: the course of a run as a relation between worlds, with a total analysis of each loop (all right, the first bad input, undefined) as in C58; what can be seen is then read off the relation.
* C75: conditions and captures give the same at the same places of two documents, because counting depends only on the tags of the elements before and after a node; the search (MatchSem.v) is shown not to notice siblings that no rule matches, by a relation between lists of siblings that may leave such siblings out on either side.
* C76: each rewriting step of conditions keeps the set of accepted nodes (the lemmas of C20–C29); the search looks only at flags, shape and these sets, by induction over the fuel for all mutually recursive functions at once; captures per name determine the multimap.
* C77: a place below the parent in one document corresponds to the same place below the parent in the other; one induction over the fuel relates all functions of the search, outcome by outcome, including exceptions and undefined behaviour.
* C78, C79: the first group ends no later than any other match of the mandatory rules, so, as in the scheduling of intervals, no choice of groups can be larger; rules that ask for less keep every embedding, by induction over the rule.
* C80: from C42, since without flagged type-matches no flags remain at the end of a text, and a row of rules is the rows of its parts one after the other.
* C81: in a list of siblings a rule without siblings gives one group for each node that it matches (C06, C07), so the values of a node are a recursive function of the rule; the example chaining is the case of four such rules.
* C82: by induction over the meaning of groups (C07): the nodes that a rule without braces gets in one list of siblings are different, lists of siblings do not overlap, and a rule in braces adds one search for each element around the node; the sum over all pairs gives the bound for values. The lower bound is a family of nested divs with one link each, with the result from C81.
* C83: the search reads everything of a rule but its captures (same simulation as C76, with the conditions themselves instead of their quiet form); the values of a group are a concatenation over its pairs, so dropping, renaming and piping commute with it, and with the sorting of the map.
* C84: each rule about pipes is an equation of functions on strings. Trimming is determined by its specification (`trimmed_unique`), collapsing by the words of the text, and case mappings act on single characters, checked for all 256 of them. Chains of append, prepend and case have the normal form case, prepend, append, and distinct normal forms differ on some text.
* C85: adding nodes gives a map of paths that keeps kinds, parents and the order of siblings (by induction on the growth). Such a map carries matches over (induction on the rule, embedding of rows into larger rows), and the number of groups in a list of siblings is the largest number of disjoint embeddings (C78), so it cannot become smaller.
* C86: exchanging rules in braces gives a map between the addresses of the two rule trees (closure of single exchanges). The pointer-free semantics of the search is simulated over this map: the groups agree up to a permutation, and the pairs that store under a given name keep their order when no two exchanged rules both store under it.
* C87: two rule trees with the same mandatory rules are run side by side in the pointer-free semantics. Sibling lists are compared from the next match of the first mandatory rule on (`norm`), since optional rules at the end of a row leave different rests; pairs of optional rules and of rules below them are shown never to be essential (SkelOne), and the steps of a group agree on the essential pairs (SkelSim).
* C88: the calls of save_below are followed one by one; what remains of the limit for each of them is at most the limit of the whole (`lim`), so that each succeeds with it. The groups of the list are what is left when the parts, known from the uniqueness of search results, are taken away. The pages of the parts come from C77.
* C89: by the exact description of errors (C71), a complaint about a text is one about each longer text, except that a brace at the end needs the next character; there the tables are checked: each transition out of a final state begins with the actions that the state has at the end of input. An unexpected character stays the first one.
* C90: each action costs at most the number of rules and pipes that exist and makes at most one; that no transition does more than one of these actions is checked for all entries of the tables. Lower bound: induction on the number of rules.
* C91: induction on the height of the node. Lower bound: a text of n characters inside of n elements.
* C92: the conditions are an instance of the conditions with side effects of C68, with the work done as their state; bounds for one condition (C91), for one call of Rule::matches (C68_finishes) and for the number of calls (C67). Lower bounds: a rule that is alone reports every node that it matches (C10), and what is reported was tested (C68_passed).
* C93: the keys of the tables are between 0 and 127 (checked for every state), so a byte above 127 lies in none of the intervals, whether it is below or above all of them; the actions other than the error action do not name a character in a reachable state (C37).
* C94: from the exact description of the messages (C71): the names of tags and characters in a first line have neither NUL nor newline, and the rest consists of numbers, fixed text, and parts of the text.
* C95: extraction: the regexes below a path of the rule are among those of the rule, and tests, pipes and conditions only ask the library about their own. Parser: from the meaning of texts (C42), by induction on the pieces, with a relation between the meanings under two libraries that counts the regexes.
* C96: a relation between outcomes (the same, or a regex error because of a regex of the rule) that is kept by all functions of the extraction; for the cause the second library is the first one with arbitrary answers where it gives up.
* C97: a relation between the runs of the parser with two libraries that is kept by every action, since only action 27 asks the library; which regexes can be reported follows from C95 with a library that is taught the regexes of the rule.
* C98: as C96, with the runs compared question by question: each call of the library is traced back to the attribute, function, element name or earlier pipe its text comes from.

## Findings

Violations of the properties as stated, each with a theorem:

| | What happens |
|---|---|
| C02 | `extract` on the document node dereferences its null parent (NextNode), whatever the rule is (C02_document_never, C02_document_undefined). |
| C13 | `<?a/><+b/>`: the greedy rule is not repeated after an optional one. |
| C14 | `<?a/><?b/>` on two `a`: the second one is lost. |
| C15 | A rule with only optional children does not match an empty element. |
| C22 | `:nth-child(-2147483648n+3)` and `:nth-child(2n-2147483648)` overflow. |
| C23 | The root element has position 0, so `:nth-child(2n)` accepts it. |
| C30 | A list of words given to the constructor with blanks in a word is not matched in all places, only in those that a search without overlaps visits. |
| C31 | `of-type`: all elements unknown to HTML count as one type, and these are the only ones with different names that do. |
| C35 | inner-html does not escape text, so different trees have the same output. |
| C39 | A number above INT_MAX makes ParseHext throw std::out_of_range. |
| C40 | An unexpected byte above 127 is passed to std::isprint as a negative number. |
| C44 | Regex flags stay in force until the end of the next pattern: from `type-matches` into later elements, and between pipes of a capture. |
| C47 | JSON, Python and PHP cut strings at NUL bytes. |
| C48 | Node: limits that are multiples of 2^32, below 1 or infinite mean no limit. |
| C49 | The defaulted moves of Html copy the raw pointer: double free. |
| C50 | Copy-assigning a capture without pipe dereferences null. |
| C51 | `--array` prints nothing if there are no results. |
| C52 | `<?p/><a/><?b/>`: a leading optional rule loses its match to the search of the trailing one. |
| C53 | Python: a value that is not UTF-8 (`@text:trim('é')` on `à`) makes ScopedPyObject pass null to Py_DECREF; other failures leak the result list. |
| C54 | Bindings: a number above INT_MAX and a regex that is too complex for Boost leave the binding as C++ exceptions (they end the process). |
| C55 | A directory or a file with a read error is read as if it were empty or short (File.cpp 84 tests a stream that `<<` cannot change). |
| C56 | `htmlext -cl a.hext b.hext` (or `--lin`) checks only the first file. |
| C58 | Undefined behaviour of C22 and C40 is reachable from the command line. |
| C59 | Deeply nested HTML exhausts the stack of a search without limit; many sibling rules (`<a/><a/>...`) that of the rule's destructor. |
| C61 | `r = std::move(*r.child())` uses freed memory, for every part of a rule; moving a rule into a part of itself leaks it; `r = std::move(r)` loses nested rules, matches and captures. |
| C62 | htmlext copies bytes that are not UTF-8 into its output (`@text:trim('é')` on `à`), which then is no JSON. |
| C63 | Node: a value named `__proto__` is lost (several of them become the object's prototype). PHP: for the names `0` to `k-1` the script prints a list, not an object. |
| C64 | extract-href takes the first `<base href>` in the order of the search, not of the document. |
* C66 (difference between builds): `Rule::extract(nullptr)` returns an empty
  result in a Release build and aborts in a Debug build (RuleMatching.cpp 30
  asserts what line 31 then checks). The same holds for a FunctionMatch,
  FunctionValueMatch or FunctionCapture with an empty std::function.
* C67 (performance): a chain of optional rules alone is tried from the start for
  every group, so that `<?a/><?b/>` takes n(n+3)/2 tests for n elements `<b>`
  (RuleMatching.cpp 100-106). With a mandatory rule the number of tests is
  linear; the node that ends a group is tested twice, as the TODO in line 114
  says. Nested rules multiply by the height of the document. Because that node is
  searched to the bottom both times, rules inside rules with an optional rule at
  the end of each row take a number of tests that is exponential in the depth of
  the rule: `<div><div/><?p/></div><?p/>`, d + 1 rows deep, takes at least 2^d
  tests on a page of (d + 1)^2 nodes (`C67_exponential`), 359 for seven rows. No
  polynomial in the size of rule and page is a bound (`C67_polynomial_refuted`),
  and the search limit, which counts searches, does not stop it.
* C68 (asked twice): a search may ask a condition about the same node twice (the
  node that ends a group, line 114). A condition that changes its answer can
  therefore end a group at a node that then starts no group
  (`C68_mind_case`); Match.h does not say that matches() must be stable.
* C70 (scripts): htmlext.rb gives no limit, the other three scripts stop after
  10000 searches. On a value that is not UTF-8 htmlext prints the bytes,
  htmlext.py crashes, htmlext.rb raises an exception in the middle of its output,
  htmlext.php prints an empty line and exits with 0, htmlext.js prints something
  else. A file that cannot be read is an uncaught exception in all scripts but
  htmlext.php. htmlext.py reads files in text mode, so CR LF becomes LF.
* C71 (messages about braces): a closing brace as the first thing of a text is
  reported as "Nested rules cannot be empty" although there are no braces, and in
  `<a>{<b>}` as "Closing nested rule without open" although one is open. A text
  with several errors is reported for its first wrong regex, number, brace or
  closing tag, even if a wrong character comes directly after it.
* C72 (moving): the class Html of bindings/wrapper can be moved (implicitly), and
  then the document refers to the text in the old object. No binding moves it.
  In main the calls of `reserve` for the documents and their texts are not only an
  optimisation: without them htmlext would read and release memory that it no
  longer has (C72_reserve_needed).
* C73 (noexcept): `Rule(std::string, bool, bool)` is noexcept but copies its
  parameter into `tagname_` (Rule.cpp 39-54). If there is no memory for the copy
  the process ends with std::terminate instead of std::bad_alloc
  (C73_terminate_refuted). The constructors of SyntaxError and MaxSearchError are
  noexcept too and call that of std::runtime_error, which may throw, although the
  comments there say that it does not; these are not modelled.
* C74 (lost output): the state of std::cout is never looked at. On a full device
  htmlext writes what fits and exits with status 0 (C74_lost_refuted).
* C74 (standard input twice): `-` may be given for several inputs; after the first
  one the pipe is empty, so that the other ones are read as empty files and nobody
  is told (C74_twice).
* C74 (no argv[0]): with an empty argument vector, which execve of older kernels
  permits, the null pointer argv[0] is inserted into std::cerr
  (C74_no_name_refuted).
* C75 (comments are matched): `<*/>` and every other rule without a tag and without a
  condition that only elements meet matches comments and texts as well
  (C75_any_refuted).
* C75 (optional children): a rule whose child rules are all optional matches an
  element that contains a comment, but not an empty element
  (C75_optional_refuted; compare C15).
* C75 (limit): an element that contains only a comment counts for the search limit,
  an empty one does not (C75_limit_refuted).
* C89 (errors and what follows them): a brace that must not be there is reported only if the next character is possible: `}` and `}<a/>` give "Nested rules cannot be empty", `}%` gives "Unexpected character '%'" (C89_brace_refuted). A character outside of ASCII anywhere, even after the error, removes the marker from the message (C89_marker_refuted). "Premature termination" is reported for `<a:child-count(99999999999`, which nothing can be added to (C89_premature_refuted).
* C90 (building): `Rule::append_next` walks to the end of the list for each rule that is appended, so that a text with n rules next to each other costs (n-1)(n-2)/2 steps (C90_siblings, C90_linear_refuted).
* C91 (copies): `StripTags` makes a string for each element and appends it to that of the parent, so that a text is copied once for each element around it: a text of n characters inside of n elements takes n(n+1) copies (C91_linear_refuted). A function that appends to one string would take n.
* C92 (repeated texts): a condition on a text takes the text of each node again, so that `<b @text^="a"/>` on nested elements takes cubic time (C92_texts_refuted); `:only-child` and the like look at the siblings again for each node (C92_siblings_refuted). All children of an element are one search for the search limit, however much work their conditions do.
* C93 (signedness of `char`): the undefined behaviour of C40 is only there where `char` is signed; where it is unsigned the byte is reported. The messages for byte 255 differ, `[ascii: -1]` and `[ascii: 255]` (C93_messages_refuted).
* C94 (reason of a regex error): if there is a NUL byte in or before a wrong regex, what() ends at its copy in the message, before the marker and the reason (C94_reason_refuted). The first line with the position is always visible.

Observations without a property of their own:

* `max_searches = 1` always throws.
* `ParseHext("")` is the rule that matches everything.
* A comment at the end of the input needs a newline.
* Closing tags are compared ignoring case for HTML tags, but not for others.
* `class=""` (no words) matches nothing.
* Backslashes before escaped delimiters are kept in the value.
* `n+1` without a number before `n` is not accepted.
* `<a href!/>` is an AttributeMatch with a NegateTest of a null test; it holds
  exactly if the attribute is missing.
* Hext files are cut at NUL by the command line tool and the Node binding, but
  not by the other bindings.
* Node: the messages for a missing and for an invalid argument of Html are
  swapped.
* `StringPipe::operator=` would use freed memory if the source was part of the
  target's own chain; the chain is not accessible from outside.

## Testing the theorems

`seeded/LOG.jsonl` has one line per wrong program that the theorems were tried
on: in a copy of the development a definition of the model is changed as a
realistic bug would, everything is rebuilt, proofs that fail are replaced by
`Admitted`, and the property theorems that then depend on such a lemma are
listed as failed. Theorems that would still be proved although their claim is
wrong for the changed model are tightened.

## Testing the model

The model cannot be compared with the program by running both, but it can be
compared with what the project's own tests expect. These files are tests of the
model, no theorem of the manifest rests on them:

* `Blackbox.v`: all 97 cases of `test/case` (Hext file, HTML file, expected
  output), through the model of `htmlext`'s main including the JSON writer.
* `UnitTests.v`: the unit tests of `libhext/test/src`.
* `BatsTests.v`: `test/bats/htmlext.bats`, without the scanning of arguments.
* `TestRegex.v`: the small regular expression engine they are run with (the
  theorems are about any engine).

The documents were written down by a script that follows the rules of HTML
parsing for the elements that occur. Every expectation of the tests is met.

## Trusted base

* Coq 8.16.1's kernel, including its virtual machine (`vm_compute`).
* `Print Assumptions` says "Closed under the global context" for every theorem
  of the manifest: no axioms, neither own ones nor those of the library. (A
  check of the whole library context also lists `Coq.ssr.ssrunder.Under_rel.*`,
  which come with the standard library's ssreflect files; no theorem uses them.)
* That the model is faithful to the source, as documented by the comments with
  file and line numbers, with the limits listed above.
* That the specifications say what the properties mean. They are small and meant
  to be read.
