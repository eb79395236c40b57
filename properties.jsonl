{"id": "C01", "title": "Lexing is lossless", "statement": "Lexing any source text yields tokens whose texts concatenate to exactly that source; every token is non-empty, the first token starts at offset 0, each token starts where its predecessor ends, and the last one ends at the byte length of the source.", "quantifier": "every finite sequence of Unicode scalar values (source text)", "why_tests_cant": "Tests sample a few hundred sources; the claim is about every character sequence, including every mix of keywords, multi-byte characters and unrecognised characters.", "anchors": ["crates/ludtwig-parser/src/lexer.rs: lex", "crates/ludtwig-parser/src/syntax/untyped.rs: SyntaxKind (logos attributes)"]}
{"id": "C02", "title": "Parsing is lossless", "statement": "Whenever parse(source) returns, the text of the returned syntax tree (concatenation of all its tokens in order) is exactly the source, the root node has kind ROOT and the root range is 0..len(source). This holds with and without syntax errors.", "quantifier": "every source text, valid template or not", "why_tests_cant": "The tree is assembled by ~80 mutually recursive grammar functions with error recovery; losslessness has to survive every interleaving of recovery, lookahead, trivia skipping and re-parenting, which no finite corpus covers.", "anchors": ["crates/ludtwig-parser/src/parser.rs: parse, Parser::parse, finish", "crates/ludtwig-parser/src/parser/sink.rs: Sink::finish", "crates/ludtwig-parser/src/parser/event.rs: EventCollection", "crates/ludtwig-parser/src/grammar.rs: root"]}
{"id": "C03", "title": "Parsing never crashes", "statement": "parse(source) returns a tree and an error list for every source text; it never panics (neither in release builds nor through debug assertions).", "quantifier": "every source text", "why_tests_cant": "A panic needs one particular token sequence reaching one particular unguarded bump or assertion; sampling cannot exclude it.", "anchors": ["crates/ludtwig-parser/src/parser.rs: bump, bump_as, bump_next_n_as, expect, recover, finish", "crates/ludtwig-parser/src/grammar/twig/expression.rs", "crates/ludtwig-parser/src/grammar/twig/literal.rs"]}
{"id": "C04", "title": "Parsing terminates", "statement": "parse(source) finishes for every source text: no grammar loop or recursion runs forever, and the number of nested grammar calls plus loop rounds is bounded by a linear function of the number of tokens.", "quantifier": "every source text", "why_tests_cant": "A test that terminates says nothing about other inputs; the loops terminate only because of a progress argument about error recovery.", "anchors": ["crates/ludtwig-parser/src/grammar.rs: root, parse_many", "crates/ludtwig-parser/src/parser.rs: recover, recover_expect", "crates/ludtwig-parser/src/grammar/twig/expression.rs: parse_twig_expression_binding_power"]}
{"id": "C05", "title": "Templates that end in a closing delimiter never crash the parser", "statement": "If the last token of the source that is not whitespace or a line break is a closing delimiter (}}, -}}, ~}}, %}, -%}, ~%}, >, } or ]), parse(source) returns normally in a release build, whatever precedes it.", "quantifier": "every source text whose last significant token is a closing delimiter", "why_tests_cant": "The crash of C03 depends on how the file ends; tests cannot show that every such ending is safe.", "anchors": ["crates/ludtwig-parser/src/parser.rs: bump, recover", "crates/ludtwig-parser/src/grammar/twig/expression.rs: parse_twig_arrow_function"]}
{"id": "C06", "title": "Parse errors point into the source", "statement": "Every parse error returned by parse(source) has a range start <= end <= len(source) that coincides with the range of one token of the source (the empty range 0..0 for an empty source), so reporting it never slices outside the text or inside a character.", "quantifier": "every source text and every reported error", "why_tests_cant": "Error positions are produced at dozens of call sites under every recovery state.", "anchors": ["crates/ludtwig-parser/src/parser.rs: add_error", "crates/ludtwig-parser/src/parser/parse_error.rs"]}
{"id": "C07", "title": "Node bookkeeping is always balanced", "statement": "While parsing any source, every opened syntax node is completed exactly once, inner nodes are completed before outer ones, and re-parenting only ever targets an already completed node; hence the tree builder receives a balanced event stream and produces exactly one root.", "quantifier": "every source text and every point during its parse", "why_tests_cant": "The discipline is enforced only by runtime assertions; which markers are open depends on the control-flow path taken.", "anchors": ["crates/ludtwig-parser/src/parser/event.rs: start, complete, precede, Marker::drop", "crates/ludtwig-parser/src/parser/sink.rs: finish"]}
{"id": "C08", "title": "Tree tokens refine lexer tokens", "statement": "The leaves of the returned tree, in order, are the lexer tokens of the source with their texts, except that a colon and a token after it that starts with a letter can be merged into one word leaf; a leaf has the kind of its token or is a word, and white space and line breaks never become words. No leaf splits, reorders, drops or duplicates a lexer token. Where white space or a line break follows other white space or another line break, both are siblings in the tree.", "quantifier": "every source text", "why_tests_cant": "Needs an argument about trivia attachment and token merging at every grammar site.", "anchors": ["crates/ludtwig-parser/src/parser/sink.rs: token, next_n_tokens, eat_trivia", "crates/ludtwig-parser/src/parser.rs: bump_next_n_as"]}
{"id": "C09", "title": "Longest match with keyword priority", "statement": "Each token the lexer emits is the longest prefix of the remaining text that any token pattern matches (before the 'not in' / 'is not' look-ahead), and an unmatched position yields a one-char unknown token. A keyword kind is chosen over a plain word exactly when the whole identifier is that keyword; so an identifier that merely starts with a one-word keyword is never split or treated as the keyword.", "quantifier": "every source text and every position", "why_tests_cant": "There are over a hundred keyword patterns competing with the word pattern; identifiers are unbounded.", "anchors": ["crates/ludtwig-parser/src/syntax/untyped.rs: SyntaxKind (logos attributes)", "crates/ludtwig-parser/src/lexer.rs: lex"]}
{"id": "C10", "title": "'not in' and 'is not' are recognised exactly when followed by a separator", "statement": "The text 'not' becomes the operator 'not in' exactly when it is followed by ' in' and then a space, tab, newline or end of input, and likewise 'is not'; in all other cases the single-word operator token is produced.", "quantifier": "every source text", "why_tests_cant": "The look-ahead interacts with longest-match lexing for unbounded continuations.", "anchors": ["crates/ludtwig-parser/src/syntax/untyped.rs: cb_not, cb_is"]}
{"id": "C11", "title": "Operator precedence and associativity", "statement": "In every tree returned by parse, binary Twig operators are grouped according to the operator table: the operator of a left operand never binds looser than its parent, and the operator of a right operand always binds tighter (or equally for right-associative operators).", "quantifier": "every source text and every binary expression node in its tree", "why_tests_cant": "Expressions have unbounded length and nesting; tests fix a few operator pairs.", "anchors": ["crates/ludtwig-parser/src/grammar/twig/expression.rs: parse_twig_expression_binding_power"]}
{"id": "C12", "title": "Error-free templates have matched HTML tags", "statement": "If parse reports no errors, every HTML element in the tree is either self-closing / void, or contains an ending tag whose name equals the name of its starting tag as a direct child of the same element node (so an element never crosses a Twig block boundary).", "quantifier": "every source text that parses without errors and every element in its tree", "why_tests_cant": "This is the documented guarantee of the parser; it quantifies over all nestings of HTML and Twig.", "anchors": ["crates/ludtwig-parser/src/grammar/html.rs: parse_html_element, parse_html_ending_tag", "crates/ludtwig-parser/src/lib.rs (documentation)"]}
{"id": "C13", "title": "Error-free templates have closed Twig blocks", "statement": "If parse reports no errors, every Twig block, if, for, set-capture, apply, embed, macro, ... node in the tree has both its starting part and its corresponding ending part as direct children.", "quantifier": "every source text that parses without errors and every such node", "why_tests_cant": "Same as C12, over all tag kinds and nestings.", "anchors": ["crates/ludtwig-parser/src/grammar/twig/tags.rs", "crates/ludtwig-parser/src/grammar/twig/shopware.rs"]}
{"id": "C14", "title": "Running the rules never crashes", "statement": "Running any set of rules over the syntax tree of any template returns normally; for every syntax tree at all, the list of currently ignored rules is always popped exactly as pushed, and is empty again at the end.", "quantifier": "every source text and every set of the built-in rules; for the bookkeeping, every syntax tree (any nesting of ignore directives, error nodes and tokens)", "why_tests_cant": "The bookkeeping panics if enter/leave ever disagree; directives can be nested arbitrarily.", "anchors": ["crates/ludtwig/src/check.rs: run_rules"]}
{"id": "C15", "title": "Ignore directives have exact scope for per-node rules", "statement": "A per-node or per-token rule is run on an element exactly when the element is not inside an error node, no directive without rule names directly precedes it or one of its ancestors, and no directive naming the rule directly precedes it or one of its ancestors.", "quantifier": "every syntax tree, every element in it and every rule name", "why_tests_cant": "Scope nesting is unbounded, and directives may repeat names.", "anchors": ["crates/ludtwig/src/check.rs: run_rules", "crates/ludtwig-parser/src/syntax/typed.rs: LudtwigDirectiveIgnore::get_rules"]}
{"id": "C16", "title": "Ignore directives have exact scope for whole-tree rules", "statement": "For rules that walk the whole tree themselves (indentation, duplicate block, duplicate id), an element below an ignore directive naming the rule is never reported, no matter what else is nested inside the ignored element.", "quantifier": "every syntax tree", "why_tests_cant": "The rules keep a single flag instead of a stack, so the failing shape needs nested directives.", "anchors": ["crates/ludtwig/src/check/rule.rs: check_for_rule_ignore_enter, check_for_rule_ignore_leave", "crates/ludtwig/src/check/rules/indentation.rs: check_root"]}
{"id": "C17", "title": "Whitespace inside pre, textarea, script and style is protected", "statement": "While the rules visit an element inside a pre, textarea, script or style element (or inside a string), the rule context says that whitespace must not be modified, so --fix never changes whitespace there through the block line-break rule.", "quantifier": "every syntax tree and every element in it", "why_tests_cant": "The flag is a plain boolean toggled on enter/leave of several node kinds; the failure needs a nesting of those kinds.", "anchors": ["crates/ludtwig/src/check.rs: run_rules (inside_trivia_sensitive_node)", "crates/ludtwig/src/check/rules/twig_block_line_breaks.rs"]}
{"id": "C18", "title": "File-level ignore directives", "statement": "For a file, exactly those configured rules run that no top-level ludtwig-ignore-file directive names, in configured-definition order; a top-level directive without names disables all rules.", "quantifier": "every syntax tree and every list of active rules", "why_tests_cant": "Any number of directives with any names in any order.", "anchors": ["crates/ludtwig/src/check/rules.rs: get_file_active_rule_definitions"]}
{"id": "C19", "title": "Rule selection from configuration", "statement": "If every configured rule name exists, the active rules are exactly the configured ones, each once, in definition order, independent of the order and repetition in the configuration; otherwise the first unknown name is reported and nothing runs and the exit code is 1.", "quantifier": "every list of configured names", "why_tests_cant": "Configurations are arbitrary lists of arbitrary strings.", "anchors": ["crates/ludtwig/src/check/rules.rs: get_config_active_rule_definitions", "crates/ludtwig/src/main.rs: app"]}
{"id": "C20", "title": "Applying non-overlapping edits is exact", "statement": "Given suggestions whose ranges are in bounds, on character boundaries and pairwise non-overlapping in source order, applying them yields the source in which exactly those ranges are replaced and every character outside them is kept, in order.", "quantifier": "every source text and every such list of suggestions", "why_tests_cant": "Edits are applied back to front with absolute offsets; correctness depends on all of them at once.", "anchors": ["crates/ludtwig/src/process.rs: apply_suggestions_to_text"]}
{"id": "C21", "title": "--fix never applies overlapping edits", "statement": "Among the suggestions that one fix round applies, no two overlap.", "quantifier": "every multiset of suggestions produced by the rules, hence every template", "why_tests_cant": "Overlap is only tested on neighbours after sorting with a relation that is not transitive; needs at least three suggestions in a particular arrangement.", "anchors": ["crates/ludtwig/src/process.rs: iteratively_apply_suggestions"]}
{"id": "C22", "title": "--fix never breaks a template that parses cleanly", "statement": "If a template parses without syntax errors and --fix succeeds on it, the fixed text also parses without syntax errors.", "quantifier": "every template", "why_tests_cant": "Depends on all rules, the overlap filter and re-parsing together.", "anchors": ["crates/ludtwig/src/process.rs: iteratively_apply_suggestions, run_analysis", "crates/ludtwig/src/check/rules/twig_use_is_same_as.rs"]}
{"id": "C23", "title": "--fix never fails with an internal collision error", "statement": "On no template does --fix end with the error that two suggestions of one rule collide (which the tool itself calls a programmer error).", "quantifier": "every template", "why_tests_cant": "Needs nested occurrences of the same construct.", "anchors": ["crates/ludtwig/src/process.rs: iteratively_apply_suggestions", "crates/ludtwig/src/check/rules/twig_use_is_same_as.rs", "crates/ludtwig/src/check/rules/twig_use_is_not_same_as.rs"]}
{"id": "C24", "title": "The fix loop is bounded and honest", "statement": "--fix re-parses at most ten times; it succeeds only with a text for which the active rules have no suggestion left; if it reports 'not changed' the text is the original one; otherwise it ends with an error.", "quantifier": "every template, rule set and configuration", "why_tests_cant": "Every history of up to ten edit rounds.", "anchors": ["crates/ludtwig/src/process.rs: iteratively_apply_suggestions"]}
{"id": "C25", "title": "Files change only through a successful --fix", "statement": "Processing a file writes to it only if --fix was given and the fix loop succeeded with changes; without --fix, or when reading, fixing or collision checks fail, the file is never opened for writing. When it is written, the content is the fixed text.", "quantifier": "every file content, outcome of read/write and option setting", "why_tests_cant": "All failure points of the pipeline.", "anchors": ["crates/ludtwig/src/process.rs: process_file, run_analysis"]}
{"id": "C26", "title": "A crash while fixing loses nothing", "statement": "If the process is killed at any point while --fix rewrites a file, the file afterwards holds either the complete old or the complete new text.", "quantifier": "every crash point during the write", "why_tests_cant": "Requires considering every crash point between truncation and the last written byte.", "anchors": ["crates/ludtwig/src/process.rs: run_analysis (fs::write)"]}
{"id": "C27", "title": "--fix is idempotent", "statement": "If --fix succeeds on a template, running --fix again on the result succeeds without changing it, provided the file-level ignore directives are the same in both texts.", "quantifier": "every template, rule set and configuration", "why_tests_cant": "Every template and every history of edit rounds.", "anchors": ["crates/ludtwig/src/process.rs: run_analysis, iteratively_apply_suggestions"]}
{"id": "C28", "title": "The exit code does not depend on thread scheduling", "statement": "For any interleaving of the events sent by the worker threads, the printed totals and the exit code are the same, namely the sums over all files.", "quantifier": "every number of files, every event sequence per file and every interleaving", "why_tests_cant": "Interleavings cannot be enumerated by tests.", "anchors": ["crates/ludtwig/src/output.rs: handle_processing_output", "crates/ludtwig/src/main.rs: handle_input_paths"]}
{"id": "C29", "title": "Problems make the exit code non-zero", "statement": "If any error, warning or help was reported during a run, the exit code is 1; if none was, it is 0.", "quantifier": "every run (every sequence of processing events)", "why_tests_cant": "Includes runs in which path walking fails before any file is processed.", "anchors": ["crates/ludtwig/src/output.rs: handle_processing_output", "crates/ludtwig/src/main.rs: handle_input_paths"]}
{"id": "C30", "title": "snake_case suggestions are sound", "statement": "A suggested block name is always valid snake_case and has exactly the letters and digits of the original in order (up to case); a name that is already valid is never flagged and is its own suggestion.", "quantifier": "every block name (any string)", "why_tests_cant": "Unbounded strings with arbitrary mixes of case, dashes, underscores and digits.", "anchors": ["crates/ludtwig/src/check/naming_convention.rs: is_valid_ascii_alpha_snake_case, try_make_snake_case", "crates/ludtwig/src/check/rules/twig_block_name_snake_case.rs"]}
{"id": "C31", "title": "Suggested names are never empty", "statement": "No rename suggestion replaces a name by the empty string.", "quantifier": "every name", "why_tests_cant": "Needs names made only of separators.", "anchors": ["crates/ludtwig/src/check/naming_convention.rs: try_make_snake_case, try_make_kebab_case"]}
{"id": "C32", "title": "kebab-case suggestions are sound", "statement": "A suggested attribute name is always valid kebab-case and has exactly the non-separator characters of the original in order (up to case); a name that is already valid is never flagged and is its own suggestion.", "quantifier": "every attribute name (any string)", "why_tests_cant": "Unbounded strings.", "anchors": ["crates/ludtwig/src/check/naming_convention.rs: is_valid_alphanumeric_kebab_case, try_make_kebab_case", "crates/ludtwig/src/check/rules/html_attribute_name_kebab_case.rs"]}
{"id": "C33", "title": "Unix line endings are enforced exactly", "statement": "With unix_LF configured, the line-ending rule reports exactly the \\r\\n sequences of each line-break token, and applying its suggestions leaves only \\n with the number of line breaks unchanged.", "quantifier": "every line-break token text", "why_tests_cant": "Unbounded mixes of \\r\\n and \\n.", "anchors": ["crates/ludtwig/src/check/rules/line_ending.rs: check_token"]}
{"id": "C34", "title": "Windows line endings are enforced exactly", "statement": "With windows_CRLF configured, the line-ending rule reports nothing on text that already uses \\r\\n everywhere, and applying its suggestions converts every line break to \\r\\n with the number of line breaks unchanged.", "quantifier": "every line-break token text", "why_tests_cant": "The regex behaves differently on adjacent line breaks and on conforming ones; the shipped tests only run the default configuration.", "anchors": ["crates/ludtwig/src/check/rules/line_ending.rs: check_token"]}
{"id": "C35", "title": "Quotation changes keep string contents", "statement": "When the quotation rules suggest changes for a string they replace only the two quote characters, never suggest anything if the string contains the target quote, and afterwards both quotes are the configured one.", "quantifier": "every string node and configuration", "why_tests_cant": "Arbitrary string contents.", "anchors": ["crates/ludtwig/src/check/rules/twig_string_quotation.rs", "crates/ludtwig/src/check/rules/html_string_quotation.rs"]}
{"id": "C36", "title": "Duplicate ids and blocks are counted exactly", "statement": "Outside ignored and erroneous parts, the duplicate-block rule (and likewise the duplicate-id rule for non-empty static ids) reports a name exactly once for every occurrence except the first, pointing to the first one.", "quantifier": "every syntax tree", "why_tests_cant": "Any number and nesting of occurrences.", "anchors": ["crates/ludtwig/src/check/rules/twig_block_duplicate.rs", "crates/ludtwig/src/check/rules/html_duplicate_id.rs"]}
{"id": "C37", "title": "Indentation level never underflows", "statement": "While the indentation rule walks any tree returned by parse, its indentation level and alignment counters never go below zero and are back to zero at the end.", "quantifier": "every source text", "why_tests_cant": "The counters are decremented on leaving nodes whose enter may have been skipped by a directive.", "anchors": ["crates/ludtwig/src/check/rules/indentation.rs: check_root, check_indentation_level, check_indentation_substeps"]}
{"id": "C38", "title": "Suggestions always fit the text", "statement": "Every suggestion produced by the rules for a tree returned by parse has start <= end <= len(source) on character boundaries, so applying a single suggestion never panics.", "quantifier": "every source text and every rule", "why_tests_cant": "Ranges are built by arithmetic at many sites.", "anchors": ["crates/ludtwig/src/check/rules/*.rs", "crates/ludtwig/src/process.rs: apply_suggestions_to_text"]}
{"id": "C39", "title": "Two-word keywords end at a word boundary", "statement": "A two-word keyword token ('starts with', 'ends with', 'same as', 'divisible by', 'ignore missing') is only produced when the text after it does not continue the second word; so `starts without` is not read as the keyword `starts with` followed by the name `out`.", "quantifier": "every source text", "why_tests_cant": "The repository's tests only contain the keywords followed by a blank; whether any continuation is split is a statement about all continuations.", "anchors": ["crates/ludtwig-parser/src/syntax/untyped.rs: TK_STARTS_WITH, TK_ENDS_WITH, TK_SAME_AS, TK_DIVISIBLE_BY, TK_IGNORE_MISSING", "crates/ludtwig-parser/src/lexer.rs: lex"]}
{"id": "C40", "title": "Parse errors can always be printed", "statement": "Formatting any parse error returned by parse(source) yields a message; it never reaches the unreachable arm of the token name table.", "quantifier": "every source text and every reported error", "why_tests_cant": "Whether the arm is reachable depends on which token kinds can be found at each of the dozens of error sites.", "anchors": ["crates/ludtwig-parser/src/parser/parse_error.rs: expected_message, Display", "crates/ludtwig-parser/src/syntax/untyped.rs: Display for SyntaxKind"]}
{"id": "C41", "title": "Quoting an attribute value keeps the value", "statement": "When --fix puts an unquoted HTML attribute value in quotes, the text inside the new quotes is the attribute's value: whitespace between the equals sign and the value does not become part of it.", "quantifier": "every source text and every unquoted attribute value in it", "why_tests_cant": "Tests quote a few values written directly after the equals sign; the claim is about every spacing and every value.", "anchors": ["crates/ludtwig/src/check/rules/html_string_quotation.rs", "crates/ludtwig-parser/src/grammar/html.rs: parse_html_attribute_value_string"]}
{"id": "C42", "title": "Reports describe the text that ends up in the file", "statement": "When processing a file ends without failure, what is reported for it is exactly one error per syntax error of the text now in the file and one report per result of the active rules on that text, with the severity of the result; this also holds after --fix has rewritten the file. When processing fails (the file cannot be read or written, --fix gives up or collides), at least one error is reported.", "quantifier": "every file content, configuration, rule set, option and outcome of reading and writing", "why_tests_cant": "The reports after any number of fix rounds must come from the last parse and the last rule run; tests compare the output of a few templates only.", "anchors": ["crates/ludtwig/src/process.rs: run_analysis, iteratively_apply_suggestions", "crates/ludtwig/src/check.rs: produce_diagnostics", "crates/ludtwig/src/main.rs: app"]}
{"id": "C43", "title": "The camelCase check accepts exactly camelCase names", "statement": "A variable name is accepted as camelCase exactly if it consists of leading underlines followed by nothing, or by a lowercase ASCII letter and then characters other than underline and minus.", "quantifier": "every name", "why_tests_cant": "Tests list a few names; the claim characterises the accepted set.", "anchors": ["crates/ludtwig/src/check/naming_convention.rs: is_camel_case", "crates/ludtwig/src/check/rules/twig_variable_definition_naming.rs"]}
{"id": "C44", "title": "The syntax tree of an error-free template follows a fixed grammar", "statement": "If parse reports no errors, every node of the tree, at any depth, has exactly the kinds of tokens and nodes as children that the grammar of its kind allows, in that order (whitespace and unknown characters aside), related parts agree (tag names, block names, embed flavours, number of assigned values), and there is no error node. In release builds the token between the parameters and the body of an arrow function may be any token.", "quantifier": "every source text that parses without errors and every node in its tree", "why_tests_cant": "The typed accessors and the rules rely on it for every combination and nesting of constructs; tests print the trees of a few templates.", "anchors": ["crates/ludtwig-parser/src/grammar.rs", "crates/ludtwig-parser/src/grammar/html.rs", "crates/ludtwig-parser/src/grammar/twig.rs", "crates/ludtwig-parser/src/grammar/twig/expression.rs", "crates/ludtwig-parser/src/grammar/twig/literal.rs", "crates/ludtwig-parser/src/grammar/twig/tags.rs", "crates/ludtwig-parser/src/grammar/twig/shopware.rs", "crates/ludtwig-parser/src/syntax/typed.rs"]}
{"id": "C45", "title": "Syntax trees keep their skeleton even for broken templates", "statement": "Whatever the source, the child nodes of every node of the returned tree other than ERROR nodes come in the order and multiplicity fixed by the kind of the node (e.g. a block is an opening part, one body and at most one closing part; a body contains only elements; an if has its opening part first and then bodies and branches). ERROR nodes contain tokens only, and parts that the typed accessors rely on are always present.", "quantifier": "every source text, with or without syntax errors", "why_tests_cant": "Error recovery can stop any of the grammar functions at any token; a snapshot test shows one recovery at one place.", "anchors": ["crates/ludtwig-parser/src/grammar.rs", "crates/ludtwig-parser/src/grammar/html.rs", "crates/ludtwig-parser/src/grammar/twig/tags.rs", "crates/ludtwig-parser/src/grammar/twig/expression.rs", "crates/ludtwig-parser/src/parser.rs: Parser::recover, add_error"]}
{"id": "C46", "title": "Operators are grouped by the table wherever operands are present", "statement": "In every tree returned by parse, erroneous or not: every operator that reaches the end of the left operand of a binary operator (through all nested right operands, prefix operators, arrow functions, test arguments and conditionals, but not into parentheses) binds tighter than it, or equally tight if that level groups to the left, unless the last operand in there is missing; every operator that begins at the beginning of a right operand or of the operand of a prefix operator binds tighter, or equally tight if the level groups to the right; the condition of a conditional contains no conditional, arrow function or bare test argument at its end. The table allows exactly one grouping of two adjacent binary operators.", "quantifier": "every source text, debug and release builds, every binary, unary and conditional expression node", "why_tests_cant": "Expressions have unbounded length and nesting, and an operator can be any number of levels away from the one it competes with.", "anchors": ["crates/ludtwig-parser/src/grammar/twig/expression.rs: parse_twig_expression_binding_power, parse_twig_expression_binding_power_rhs, parse_unary_expression, parse_conditional_expression", "crates/ludtwig-parser/src/grammar/twig/literal.rs: parse_postfix_operators, parse_twig_arrow_function, parse_twig_test_implicit_argument"]}
{"id": "C47", "title": "The result of a run does not depend on the order of work", "statement": "For a run over different files in which all writes succeed: however the steps of the per-file tasks (begin, read, report, open for writing, write) are interleaved, the run can always go on, comes to an end, and then every given file holds exactly what processing that file alone makes of its old text, all other files are unchanged, and the printed totals and the exit code are the same.", "quantifier": "every set of files and contents, every configuration, every interleaving of steps", "why_tests_cant": "The thread pool chooses the order; tests see one schedule of a few files.", "anchors": ["crates/ludtwig/src/main.rs: app, handle_input_paths", "crates/ludtwig/src/process.rs: process_file, run_analysis", "crates/ludtwig/src/output.rs: handle_processing_output"]}
{"id": "C48", "title": "A killed run damages only files that are being written", "statement": "If a run with --fix over different files is killed at any moment, every file holds its old text or the text its own fix produces, except that a file whose rewrite is going on at that moment (or fails) may hold a beginning of the new text. Files that need no fix are never touched.", "quantifier": "every set of files, every interleaving, every moment of the run", "why_tests_cant": "It is about every point at which a process can be stopped, in every schedule.", "anchors": ["crates/ludtwig/src/process.rs: run_analysis (fs::write)", "crates/ludtwig/src/main.rs: handle_input_paths"]}
{"id": "C49", "title": "Giving a file twice is harmless", "statement": "If the same file is found twice on the command line (for example a directory and a file in it), at the end of a run with --fix it holds what processing it once makes of its old text.", "quantifier": "every list of paths with repetitions, every content, every interleaving", "why_tests_cant": "The damage needs a particular interleaving of two tasks.", "anchors": ["crates/ludtwig/src/main.rs: handle_input_paths", "crates/ludtwig/src/process.rs: process_file, run_analysis"]}
{"id": "C50", "title": "Indentation does not change what a template means to the parser", "statement": "If two sources differ only in the blanks and tabs at the start of their lines (line by line, including empty lines), parsing them gives the same syntax tree up to white-space tokens and the same syntax errors (found token and expectation) in the same order; or parsing both panics at the same place.", "quantifier": "every pair of texts with the same lines up to leading blanks and tabs, debug and release builds", "why_tests_cant": "A re-indented template can be lexed and parsed differently at any of unboundedly many places (two-word keywords, attribute names behind a colon, text, recovery); tests re-indent a few fixed templates.", "anchors": ["crates/ludtwig-parser/src/lexer.rs: lex", "crates/ludtwig-parser/src/syntax/untyped.rs: SyntaxKind", "crates/ludtwig-parser/src/parser.rs: Parser::parse", "crates/ludtwig-parser/src/grammar.rs: root"]}
{"id": "C51", "title": "Fixing indentation keeps the template", "statement": "Running --fix with only the indentation rule and the rule for white space on empty lines on a template that parses without errors and has no directive that switches everything off: the written text has the same lines up to leading blanks and tabs and parses without errors to the same syntax tree up to white space; and --fix does not fail with a collision or a crash.", "quantifier": "every such template, every configuration (indentation character, width, block indentation), any number of fix rounds, every sorting function meeting the contract of sort_by", "why_tests_cant": "The rule walks trees of any depth with a flag for the start of a line and level counters; whether every edit hits white space at the start of a line and whether moving it changes lexing or parsing cannot be enumerated.", "anchors": ["crates/ludtwig/src/check/rules/indentation.rs: RuleIndentation", "crates/ludtwig/src/check/rules/whitespace_between_line_breaks.rs: RuleWhitespaceBetweenLineBreaks", "crates/ludtwig/src/process.rs: iteratively_apply_suggestions", "crates/ludtwig-parser/src/lib.rs: parse"]}
{"id": "C52", "title": "Every report names its rule; switching a rule off removes exactly its reports", "statement": "Every report of a check carries the name of one of the active rules, and that name identifies the rule. Running the same check without one rule gives exactly the reports of the full check, in the same order, minus those that carry the name of that rule.", "quantifier": "every tree, configuration and set of built-in rules", "why_tests_cant": "Rules share one walk, its flags and its list of results; that no rule influences another is a statement about all sets of rules and all templates.", "anchors": ["crates/ludtwig/src/check.rs: run_rules", "crates/ludtwig/src/check/rules.rs: RULE_DEFINITIONS, get_active_rules", "crates/ludtwig/src/check/rule.rs: Rule, RuleExt"]}
{"id": "C53", "title": "Unknown filters are reported exactly", "statement": "Checking an error-free template reports, for every filter applied with | whose name is not in the configured list of filters, exactly one warning at that name (unless the place is switched off by a directive) and nothing else under this rule; the same holds for the filter of an apply tag.", "quantifier": "every template that parses without errors, every configuration and every set of built-in rules containing this one for which the check ends", "why_tests_cant": "Filters nest without bound in chains, arguments and operands, with or without arguments; soundness and completeness speak about all trees the parser can build.", "anchors": ["crates/ludtwig/src/check/rules/twig_valid_filter.rs: RuleTwigValidFilter", "crates/ludtwig-parser/src/syntax/typed.rs: TwigFilter"]}
{"id": "C54", "title": "Unknown tests are reported exactly", "statement": "Checking an error-free template reports, for every test used after is / is not whose name is not configured, exactly one warning at the name, and nothing else under this rule.", "quantifier": "every template that parses without errors, every configuration and every set of built-in rules containing this one for which the check ends", "why_tests_cant": "Where the operand of a test ends up in the tree depends on precedence over expressions of any size.", "anchors": ["crates/ludtwig/src/check/rules/twig_valid_test.rs: RuleTwigValidTest", "crates/ludtwig-parser/src/syntax/typed.rs: TwigBinaryExpression"]}
{"id": "C55", "title": "Unknown functions are reported exactly", "statement": "Checking an error-free template reports, for every function call that is not a filter or test with arguments and whose name is not configured, exactly one warning at the name, and nothing else under this rule.", "quantifier": "every template that parses without errors, every configuration and every set of built-in rules containing this one for which the check ends", "why_tests_cant": "Filters, tests and functions with arguments share one node kind; telling them apart depends on the position in trees of any shape.", "anchors": ["crates/ludtwig/src/check/rules/twig_valid_function.rs: RuleTwigValidFunction", "crates/ludtwig-parser/src/syntax/typed.rs: TwigFunctionCall"]}
{"id": "C56", "title": "Foreign operators are reported exactly", "statement": "Checking an error-free template reports exactly one error for each && (with the replacement and), each || (with or), each === (is same as(...)) and each !== (is not same as(...)); the identity suggestion replaces the operator and its right operand, wrapping the trimmed operand text, whenever the operand belongs to the operator.", "quantifier": "every template that parses without errors, every configuration and every set of built-in rules containing this one for which the check ends", "why_tests_cant": "Operators sit in expression trees of any shape; that each one is found once and edited at its own range is a statement about all of them.", "anchors": ["crates/ludtwig/src/check/rules/twig_logic_and.rs: RuleTwigLogicAnd", "crates/ludtwig/src/check/rules/twig_logic_or.rs: RuleTwigLogicOr", "crates/ludtwig/src/check/rules/twig_use_is_same_as.rs: RuleTwigUseIsSameAs", "crates/ludtwig/src/check/rules/twig_use_is_not_same_as.rs: RuleTwigUseIsNotSameAs"]}
{"id": "C57", "title": "Misnamed blocks, attributes and variables are reported exactly", "statement": "Checking an error-free template reports exactly one help for each block name that is not snake_case, each attribute name of an html tag that is not kebab-case (except in tags of twig components), and each variable of set and for that is not camelCase (SCREAMING_SNAKE_CASE if its value is a call of constant), with the converted name as replacement where one exists.", "quantifier": "every template that parses without errors, every configuration and every set of built-in rules containing this one for which the check ends", "why_tests_cant": "The statement links the syntax tree (of any size) to the naming predicates over all strings; missed and extra reports cannot be excluded by samples.", "anchors": ["crates/ludtwig/src/check/rules/twig_block_name_snake_case.rs: RuleTwigBlockNameSnakeCase", "crates/ludtwig/src/check/rules/html_attribute_name_kebab_case.rs: RuleHtmlAttributeNameKebabCase", "crates/ludtwig/src/check/rules/twig_variable_definition_naming.rs: RuleTwigVariableDefinitionNaming"]}
{"id": "C58", "title": "Misplaced directives, extends tags, unsafe raw filters and quoted hash keys are reported exactly", "statement": "Checking reports exactly one error for every ludtwig-ignore-file directive that is not at the top level of the file; for every extends tag one help that replaces exactly its keyword by sw_extends; for every raw filter applied directly after json_encode one warning that replaces exactly the word raw by escape('js'); and for every hash key that is a quoted word one help that removes exactly the two quotes. Nothing else is reported under these rules.", "quantifier": "every template that parses without errors, every configuration and every set of built-in rules containing this one for which the check ends; for the directives also every template with errors", "why_tests_cant": "Filter chains, hashes and nesting are unbounded; that nothing is missed, nothing is reported twice and each edit has exactly the right range is a statement about every tree the parser can build.", "anchors": ["crates/ludtwig/src/check/rules/ludtwig_ignore_file_not_on_top.rs", "crates/ludtwig/src/check/rules/twig_prefer_shopware_extends.rs", "crates/ludtwig/src/check/rules/twig_json_encode_escape_js.rs", "crates/ludtwig/src/check/rules/twig_hash_key_no_quotes.rs"]}
{"id": "C59", "title": "Strings with the wrong quotation marks are reported exactly", "statement": "Checking an error-free template reports exactly one help for each Twig string whose quotation marks are not the configured ones (except that a string with interpolations keeps its double ones) and for each html attribute string whose marks are not the configured ones or are missing. The report carries the two edits that put the configured marks at both ends if the content does not contain that mark, and no edit otherwise. Nothing else is reported under these rules.", "quantifier": "every template that parses without errors, every configuration and every set of built-in rules containing this one for which the check ends", "why_tests_cant": "The same token kinds are used for both marks, inside Twig and inside HTML, and strings nest through Twig inside attributes; missed or doubled reports need particular nestings.", "anchors": ["crates/ludtwig/src/check/rules/twig_string_quotation.rs", "crates/ludtwig/src/check/rules/html_string_quotation.rs", "crates/ludtwig-parser/src/syntax/typed.rs: TwigLiteralString, HtmlString"]}
{"id": "C60", "title": "Missing line breaks around blocks are reported exactly", "statement": "Checking a template reports, for each side of each block with an end tag that is outside of protected elements and not on top of the file, exactly one help if the configured number of line breaks (one at the edge of the parent) is not there, with the edit that replaces or inserts them; a comment directly before the block counts as part of it, and the side between two blocks is judged only once. Nothing else is reported under this rule.", "quantifier": "every template, with or without syntax errors, every configuration and every set of built-in rules containing this one for which the check ends", "why_tests_cant": "Siblings, comments and nesting of blocks combine without bound; that no side is missed or judged twice is a statement about all trees.", "anchors": ["crates/ludtwig/src/check/rules/twig_block_line_breaks.rs: RuleTwigBlockLineBreaks"]}
{"id": "C61", "title": "Well-formed templates are accepted", "statement": "A template that follows the grammar of Twig expressions, Twig tags and HTML laid down in a separate inductive definition is parsed to a tree without any syntax error and without a crash. The grammar covers all operators, literals, strings with interpolation, arrays, hashes, calls with named arguments, filters, subscripts and slices, every Twig and Shopware tag the parser knows with its end tag, if/elseif/else and for/else, comments and directives, elements with attributes, void and self-closing elements, raw elements such as script, and Twig tags at any of these places.", "quantifier": "every source text whose tokens, without white space, are derivable in the grammar, with debug assertions on or off", "why_tests_cant": "The language is infinite and nests HTML in Twig in HTML without bound; a test suite shows acceptance of finitely many templates, and false alarms appear only for particular combinations of what precedes and what follows a construct.", "anchors": ["crates/ludtwig-parser/src/parser.rs: parse", "crates/ludtwig-parser/src/grammar.rs: root", "crates/ludtwig-parser/src/grammar/twig/expression.rs", "crates/ludtwig-parser/src/grammar/twig/literal.rs", "crates/ludtwig-parser/src/grammar/twig/tags.rs", "crates/ludtwig-parser/src/grammar/html.rs"]}
{"id": "C62", "title": "The typed view shows the parts of the tree", "statement": "Every accessor of a typed node gives the part of the template it is named after: the name, body and end of a block; the name, attributes, self-closing state, body and end tag of an element, with equal names at both ends; name, value and element of an attribute; both operands and the operator of a binary operation; the expression of an output, operand and filter of a filter, name and arguments of a call, quotes and content of a string; and the white space control of a tag, from the text of its delimiters. Links back to the enclosing node lead to it.", "quantifier": "every template without syntax errors and every node of its tree", "why_tests_cant": "Accessors pick a child by kind and position; whether that child is the right one depends on every way the parser can build the node, with operators, tags and attributes nested without bound.", "anchors": ["crates/ludtwig-parser/src/syntax/typed.rs: HtmlTag, HtmlAttribute, TwigBlock, TwigBinaryExpression, TwigFilter, TwigFunctionCall, HasWhitespaceControl"]}
{"id": "C63", "title": "Indentation, blank lines, line endings and duplicates are reported exactly", "statement": "Indentation: a line is reported exactly if the white space it starts with is not the configured indentation times the number of indenting nodes around it, plus the alignment of attributes; the edit puts the wanted white space in its place. Blank lines: the spaces and tabs of every line of the source with nothing else between two line breaks are reported, and nothing else, and the edit removes them. Line endings: with Unix line endings configured, every carriage return followed by a line feed in the source is reported, nothing else, and replaced with a line feed. Duplicates: every block name or element id used before is reported, pointing to its first use, and nothing else. Always except where the rule is switched off.", "quantifier": "every source text, every configuration, every set of active rules", "why_tests_cant": "The lines of a template and the nodes around them are unbounded, white space can end up anywhere in the tree, and completeness cannot be shown by examples.", "anchors": ["crates/ludtwig/src/check/rules/indentation.rs", "crates/ludtwig/src/check/rules/whitespace_between_line_breaks.rs", "crates/ludtwig/src/check/rules/line_ending.rs", "crates/ludtwig/src/check/rules/twig_block_duplicate.rs", "crates/ludtwig/src/check/rules/html_duplicate_id.rs"]}
{"id": "C64", "title": "Settings come from the environment, then the file, then the defaults", "statement": "The value of every setting is that of its environment variable if there is one (the last one, whatever its case), otherwise that of the configuration file, otherwise the built-in one, each setting on its own. Loading succeeds exactly if all these values are of the right type.", "quantifier": "every configuration file, every environment, every TOML content", "why_tests_cant": "The tests cover two partial files; the claim is about all combinations of three sources, key by key, and about the mapping of variable names to keys.", "anchors": ["crates/ludtwig/src/config.rs: Config::new", "crates/ludtwig/ludtwig-config.toml"]}
{"id": "C65", "title": "Creating a configuration file is safe and changes nothing", "statement": "Nothing is written unless a file is to be created and there is nothing at its place. A created file leaves all settings as they were without a file, whatever the environment.", "quantifier": "every environment and every state of the file system", "why_tests_cant": "That merging the defaults over themselves has no effect is a fact about merging, not about one file; the environment is unbounded.", "anchors": ["crates/ludtwig/src/config.rs: handle_config_or_exit"]}
{"id": "C66", "title": "What is said about the configuration is true", "statement": "If the program says that the default configuration is used, then no file had an effect. Variables that are not announced have no effect. A configuration file of another version of the program is pointed out.", "quantifier": "every configuration file, every environment and every directory", "why_tests_cant": "The messages are computed apart from the loading, from other data; agreement has to hold for all of them.", "anchors": ["crates/ludtwig/src/config.rs: handle_config_or_exit"]}
{"id": "C67", "title": "Line endings and empty lines do not change what a template means to the parser", "statement": "If two sources differ only in the indentation of their lines, in empty lines and in line endings (LF or CRLF), parsing them gives the same syntax tree up to white space and line breaks, and the same syntax errors in the same order; or parsing both panics at the same place. (False as it stands: the operators of two words are not joined before a Windows line ending.)", "quantifier": "every pair of texts with the same lines up to indentation, empty lines and line endings, debug and release builds", "why_tests_cant": "A line break occurs at unboundedly many places, each with its own lexer context (two-word operators, comments, strings, raw text); tests use Unix line endings nearly throughout.", "anchors": ["crates/ludtwig-parser/src/lexer.rs: lex", "crates/ludtwig-parser/src/syntax/untyped.rs: SyntaxKind", "crates/ludtwig-parser/src/parser.rs: Parser::parse"]}
{"id": "C68", "title": "Fixing line endings keeps the template", "statement": "Running --fix with only the rules for indentation, white space on empty lines and line endings, set to Unix, on a template that parses without errors: the written text is the template with the Windows line endings replaced and its indentation changed, and it parses without errors to the same syntax tree up to white space; --fix does not fail with a collision or a crash. (False as it stands for `is not` and `not in` before a Windows line ending.)", "quantifier": "every such template, every configuration with Unix line endings, any number of fix rounds, every sorting function meeting the contract of sort_by", "why_tests_cant": "Edits of three rules meet at the same line breaks in any combination and at any number; that they never collide and that re-lexing gives the same tree cannot be enumerated.", "anchors": ["crates/ludtwig/src/check/rules/line_ending.rs: RuleLineEnding", "crates/ludtwig/src/check/rules/indentation.rs: RuleIndentation", "crates/ludtwig/src/check/rules/whitespace_between_line_breaks.rs: RuleWhitespaceBetweenLineBreaks", "crates/ludtwig/src/process.rs: iteratively_apply_suggestions"]}
{"id": "C69", "title": "Debug and release builds do the same", "statement": "Parsing a template gives the same tree, the same errors or the same panic in a debug build, which the tests run, and in a release build, which users run, unless the debug build panics at the assertion of an arrow function. The same holds for everything that happens to a file (messages, fixes, what is written, how it ends).", "quantifier": "every template, every configuration, every set of rules, with and without --fix", "why_tests_cant": "The tests run in debug builds; the assertions are not only checks, they also move the position of the parser over white space, at unboundedly many states.", "anchors": ["crates/ludtwig-parser/src/parser.rs: Parser", "crates/ludtwig-parser/src/parser/event.rs: Marker::complete", "crates/ludtwig-parser/src/grammar/twig/literal.rs: parse_twig_arrow_function", "crates/ludtwig/src/process.rs: process_file"]}
{"id": "C70", "title": "Tokens are what messages call them", "statement": "Every token of a source reads as the name its kind has in error messages: keywords and punctuation are exactly that text (for DOCTYPE, true, false, none, null and the ignore directives up to case), and white space, line breaks, words, numbers, component names and HTML escapes have the shape so called. Conversely each such text, typed alone, is one token of that kind; only a word that is a keyword is the keyword instead.", "quantifier": "every source, every token of it; every text of every such shape", "why_tests_cant": "The names in messages, the patterns of the lexer and its rule for ties are three separate lists with about 160 entries; tests try one text per entry, not all numbers, words or spellings.", "anchors": ["crates/ludtwig-parser/src/lexer.rs: lex", "crates/ludtwig-parser/src/syntax/untyped.rs: SyntaxKind, impl Display for SyntaxKind"]}
{"id": "C71", "title": "The exit code tells whether everything is in order", "statement": "If ludtwig checks at least one file and ends with exit code 0, its configuration was understood, looking for files met no failure, and every file found was readable and now holds a text without syntax errors about which no active rule reports anything. Conversely, if that holds beforehand, the exit code is 0 and no file changes, with or without --fix. The exit code is always 0, 1 or 101; without --fix it is 101 exactly if the parser panics on one of the files. Files that the walk does not find never change, none changes without --fix, and none is touched if the configuration is only created, cannot be read, names an unknown rule, or the ignore file cannot be used. Result and files do not depend on scheduling, and some run always ends.", "quantifier": "all options, configurations, environments, results of the directory walk without repeated paths, file contents, write failures and schedules", "why_tests_cant": "Continuous integration relies on this for every set of files and every interleaving of the tasks; tests run single files on one schedule and do not test the exit code at all.", "anchors": ["crates/ludtwig/src/main.rs: main, app, handle_input_paths", "crates/ludtwig/src/process.rs: process_file, run_analysis", "crates/ludtwig/src/output.rs: handle_processing_output", "crates/ludtwig/src/config.rs: handle_config_or_exit"]}
{"id": "C72", "title": "Fixing the layout comes to an end", "statement": "Running --fix with only the indentation rule and the rule for white space on empty lines on a template that parses without errors finishes: it never gives up because of too many rounds, needs at most two, and leaves a text in which every line outside preformatted text starts with the white space the configuration asks for and no empty line has white space. (False as it stands: with an indentation of 0 spaces, and with the line-ending rule for ten carriage returns before a line break, --fix gives up.)", "quantifier": "every template without syntax errors, every configuration, every stable sorting function meeting the contract of sort_by, build mode and write result", "why_tests_cant": "The fixes of one round change the input of the next, and the two rules contradict each other on every empty line with white space; that the second round always removes what the first left, at any depth and for any number of lines, is a statement about all trees and their re-parsed versions.", "anchors": ["crates/ludtwig/src/process.rs: iteratively_apply_suggestions, run_analysis", "crates/ludtwig/src/check/rules/indentation.rs: RuleIndentation", "crates/ludtwig/src/check/rules/whitespace_between_line_breaks.rs: RuleWhitespaceBetweenLineBreaks", "crates/ludtwig/src/check.rs: run_rules, get_rule_context_suggestions"]}
{"id": "C73", "title": "Fixing keeps strings and preformatted text", "statement": "Running --fix on a template that parses without errors leaves what matters in it alone: the contents of strings and attribute values and the text of every <pre>, <textarea>, <script> and <style> element stay what they were, character by character. (False as it stands: the indentation of later lines of a string or attribute value changes, white space on an empty line of a <pre> element is removed, and behind an inner element of these four kinds the outer one is indented.)", "quantifier": "every template without syntax errors, every preformatted element in it, every configuration, every stable sorting function meeting the contract of sort_by, build mode and write result", "why_tests_cant": "Whether a line lies in a preformatted element depends on bookkeeping done while walking a tree of any shape and depth, and a fix elsewhere shifts every later position; that no selection of edits reaches into the element is a statement about all trees and all edits.", "anchors": ["crates/ludtwig/src/check/rules/indentation.rs: RuleIndentation", "crates/ludtwig/src/check/rules/whitespace_between_line_breaks.rs: RuleWhitespaceBetweenLineBreaks", "crates/ludtwig/src/process.rs: iteratively_apply_suggestions"]}
{"id": "C74", "title": "Renaming things consistently keeps the template", "statement": "If two templates differ only in the words they use - token by token the same kind, each word replaced by one that may stand in the same places (variables, elements, attributes; no void or raw-text element involved), equal words by equal ones and different words by different ones - they are parsed to the same tree with the words replaced, and to the same errors at the corresponding tokens, a name quoted in a message being replaced too. In particular one is accepted if and only if the other is.", "quantifier": "all pairs of templates of any length that are renamings of each other, with or without syntax errors, debug and release builds", "why_tests_cant": "The parser inspects the text of words in several places (names of blocks, macros, elements and attributes, hash keys, end tags); that nothing else of a word influences the tree, wherever it stands and however broken the template is, is a statement about pairs of runs.", "anchors": ["crates/ludtwig-parser/src/parser.rs: Parser::parse", "crates/ludtwig-parser/src/parser/source.rs: at_following_content", "crates/ludtwig-parser/src/grammar/html.rs: parse_html_element, parse_html_attribute_or_twig", "crates/ludtwig-parser/src/grammar/twig/literal.rs: parse_twig_name, parse_twig_hash_pair", "crates/ludtwig-parser/src/grammar/twig/tags.rs: parse_twig_block, parse_twig_macro"]}
{"id": "C75", "title": "A fixing rule on its own keeps a valid template valid", "statement": "If only one rule is active and a template parses without syntax errors, the text --fix writes for it parses without syntax errors too; and a rule that only reports never causes a file to be written. (The first half is false for ten rules: line breaks around blocks, snake case of block names, kebab case of attribute names, and, or, sw_extends, same as, not same as, escape('js') instead of raw, and hash keys without quotes.)", "quantifier": "every template without syntax errors, every configuration, every rule; for the rules that only report every combination of them and also templates with syntax errors", "why_tests_cant": "The tests of a rule fix a few templates of the expected form; a replacement text can merge with any neighbouring token, so validity of the result concerns all templates around the replaced place.", "anchors": ["crates/ludtwig/src/process.rs: iteratively_apply_suggestions, run_analysis", "crates/ludtwig/src/check/rules/twig_logic_and.rs", "crates/ludtwig/src/check/rules/twig_json_encode_escape_js.rs: RuleTwigJsonEncodeEscapeJs", "crates/ludtwig/src/check/rules/html_attribute_name_kebab_case.rs"]}
{"id": "C76", "title": "Replacing an operator keeps the operation", "statement": "Where --fix replaces && by and, or || by or, and both the given and the written text parse without syntax errors, the written text has as many binary operations as the given one. (False: {{ a&&b }} becomes the single variable {{ aandb }}, without any error.)", "quantifier": "every template without syntax errors before and after", "why_tests_cant": "The result parses and no rule complains about it, so neither a parse check nor a second run shows that an operation is gone; it depends on the tokens beside the operator in any template.", "anchors": ["crates/ludtwig/src/check/rules/twig_logic_and.rs", "crates/ludtwig/src/check/rules/twig_logic_or.rs", "crates/ludtwig/src/process.rs: iteratively_apply_suggestions"]}
{"id": "C77", "title": "White space and the spelling of and / or do not decide over acceptance", "statement": "If a template is well-formed (grammar of C61), every text with the same tokens apart from white space - any amount of it added, removed or changed, as long as the tokens stay the same and what stands directly behind a < or a colon stays there - and with some && written and, some || written or, is accepted without a syntax error as well.", "quantifier": "all pairs of texts of any length whose tokens correspond, debug and release builds", "why_tests_cant": "White space can change at every place of a template at once and the parser takes decisions on what follows with and without it; tests fix a few layouts.", "anchors": ["crates/ludtwig-parser/src/parser.rs: Parser::parse", "crates/ludtwig-parser/src/parser/source.rs: Source", "crates/ludtwig-parser/src/grammar/twig/expression.rs: parse_twig_expression"]}
{"id": "C78", "title": "Fixes leave ignored elements alone", "statement": "With --fix no edit of a rule touches an element (with the white space before it) that stands directly after a ludtwig-ignore directive for all rules or naming that rule. (False for twig-block-line-breaks on an ignored comment before a block, and for indentation when a second directive is inside of the ignored element.) So one round of fixes keeps the text of an element that is ignored for all rules.", "quantifier": "every template, also with syntax errors, every set of the built-in rules, configuration and ignored element", "why_tests_cant": "Rules edit tokens beside the element they look at - the line break before the neighbour, the string around a key, the filter's operand - so an edit in an ignored element can come from a rule looking elsewhere; tests try single rules on single templates.", "anchors": ["crates/ludtwig/src/check/rule.rs: check_for_rule_ignore_enter", "crates/ludtwig/src/check/rules.rs", "crates/ludtwig/src/check/rules/twig_block_line_breaks.rs", "crates/ludtwig/src/check/rules/indentation.rs", "crates/ludtwig/src/process.rs: iteratively_apply_suggestions"]}
{"id": "C79", "title": "Nothing is skipped silently", "statement": "Whenever the parser skips text it cannot use (an error node of the tree), it says so on the spot: some reported error is about the first skipped token or about what ends right where the skipped text starts. Skipped text never contains the beginning of a Twig tag, output or comment or of an HTML element, comment or doctype, so one mistake cannot hide the next construct; the only exception is the opening delimiter of an unknown tag, which is skipped alone, with an error about the token behind it or about the end of the file. If no error is reported nothing has been skipped. (False as it stands for characters no token starts with: {{ [$ 1] }} is accepted without a word.)", "quantifier": "every source text, every error node of its tree, both build modes", "why_tests_cant": "Skipping happens at some sixty places of the grammar, each behind its own report and with its own set of tokens to stop at; that a report always precedes it at the same token, whatever was parsed before and however deep, is a statement about all token sequences.", "anchors": ["crates/ludtwig-parser/src/parser.rs: Parser::recover, Parser::recover_expect, Parser::expect, Parser::expect_any, Parser::add_error, GENERAL_RECOVERY_SET", "crates/ludtwig-parser/src/grammar.rs: parse_many", "crates/ludtwig-parser/src/grammar/twig/tags.rs: parse_twig_block_statement", "crates/ludtwig-parser/src/grammar/html.rs: parse_html_attribute_value_string", "crates/ludtwig-parser/src/parser/parse_error.rs: ParseErrorBuilder"]}
{"id": "C80", "title": "Parsing is linear", "statement": "Parsing never backtracks and never loops without progress: whatever the text, also with syntax errors and however deeply nested, the parser executes at most 150 operations (looking at the next tokens, taking tokens, opening, closing or wrapping a node, adding a message, asking for the position) per token of the file and 35 more, hence at most 150 per character and 35 more. The syntax tree and the list of syntax errors it returns grow no faster: nodes and messages together are at most 150 per token and 36 more.", "quantifier": "every source text, both build modes", "why_tests_cant": "A benchmark measures the files one has. That no nesting of expressions, tags, attributes and errors makes some part be looked at again and again (quadratic or exponential time on a hostile template) is a statement about all token sequences and about every loop and recursive call of the grammar together.", "anchors": ["crates/ludtwig-parser/src/parser.rs: Parser::parse, Parser::recover_expect, Parser::bump, Parser::at_following", "crates/ludtwig-parser/src/grammar.rs: root, parse_many", "crates/ludtwig-parser/src/grammar/twig/expression.rs: parse_twig_expression_binding_power", "crates/ludtwig-parser/src/grammar/twig/tags.rs", "crates/ludtwig-parser/src/grammar/html.rs"]}
{"id": "C81", "title": "Syntax errors come in the order of the text", "statement": "The syntax errors of a file are listed in the order of the places they are about: the range of a later error never starts before that of an earlier one. (Readers of the output and editors that show the first error rely on it; nothing in the program sorts the errors.)", "quantifier": "every source text, any two of its syntax errors, both build modes", "why_tests_cant": "Errors are added at over a hundred places of the grammar, most of them about the next token, some about a token that was taken before, some at the end of the file about its last token; that no combination of them gets out of order for any text is a statement about all runs of the parser.", "anchors": ["crates/ludtwig-parser/src/parser.rs: Parser::add_error, Parser::expect, Parser::recover", "crates/ludtwig-parser/src/parser/parse_error.rs: ParseErrorBuilder::at_token", "crates/ludtwig-parser/src/grammar/twig/tags.rs: parse_twig_block, parse_twig_macro", "crates/ludtwig-parser/src/grammar/twig/literal.rs: parse_twig_string", "crates/ludtwig-parser/src/grammar/html.rs: parse_html_attribute_value_string", "crates/ludtwig/src/check.rs: produce_diagnostics"]}
{"id": "C82", "title": "Every message shows a place of the file", "statement": "Every message about a file (syntax error or result of a rule) has exactly one main label, and all its labels (main, first definition of a duplicate, suggested edits) mark ranges of the text whose ends lie between two characters, start before end, so that the renderer can show them and never fails on one; there is one message for each report that is counted, with the same severity, and after --fix the places are those of the text that has been written.", "quantifier": "every source text, configuration, set of built-in rules, command line option and message", "why_tests_cant": "The message renderer returns an error for a range outside of the text or inside a character, and the program unwraps it. Each of the 22 rules computes the ranges in its own way from tokens, nodes, trimmed nodes, matches of a pattern and elements kept from earlier in the file; that none is wrong for some file with multi-byte characters or broken syntax is a statement about all trees.", "anchors": ["crates/ludtwig/src/check.rs: produce_diagnostics", "crates/ludtwig/src/check/rule.rs: CheckResult::primary_note, CheckResult::secondary_note, CheckResult::suggestion", "crates/ludtwig/src/check/rules/*.rs", "crates/ludtwig-parser/src/syntax/untyped.rs: text_range_trimmed_trivia"]}
{"id": "C83", "title": "What is said about the beginning of a file does not depend on what follows", "statement": "If two files begin with the same tokens, the syntax errors that start before the last significant one (neither white space nor end of line) of the common tokens are the same in both files, whatever follows in either file, also nothing. So editing the end of a template never adds, removes or changes a message about its beginning, and if one file has no syntax errors the other one has none before that token. (The errors about that last common token itself can depend on what follows: <p></p> and <p></b>.)", "quantifier": "every two source texts, every common beginning of their tokens, both build modes", "why_tests_cant": "The parser looks ahead at some hundred places, by kind, by text and over white space, and recovers from errors by skipping tokens up to some set of kinds; that no decision ever depends on more than the next token behind the place a message is about, for any two continuations, compares infinitely many pairs of runs.", "anchors": ["crates/ludtwig-parser/src/parser/source.rs: Source::at_following, Source::at_following_content, Source::peek_next_non_trivia_kind, Source::peek_nth_token", "crates/ludtwig-parser/src/parser.rs: Parser::recover, Parser::recover_expect, Parser::add_error, Parser::at_twig_tag", "crates/ludtwig-parser/src/grammar.rs: parse_many", "crates/ludtwig-parser/src/grammar/twig/*.rs", "crates/ludtwig-parser/src/grammar/html.rs: parse_html_text, parse_html_element"]}
{"id": "C84", "title": "The printed syntax tree says everything", "statement": "Printing the tree of a template (--inspect, debug_tree, debug_parse) never fails, whatever the characters of its tokens. With the text at hand the printed tree determines the tree: two trees of the same text with the same print have the same nodes, tokens, kinds and nesting, and with debug_parse also the same error messages. If no token has 25 bytes or more the print alone determines the tree and the text (a longer token is cut off: two texts can have the same print).", "quantifier": "every source text; every two trees, whether they come from the parser or not; every set of characters that are printed as they are", "why_tests_cant": "The tests of the parser compare prints, so they are worth as much as the print tells apart; that no two trees share a print, through nesting by indentation, ranges, kind names and escaped token texts, is a statement about all pairs of trees. The printer cuts long tokens at a byte offset, and panics if there is no character boundary.", "anchors": ["crates/ludtwig-parser/src/syntax/untyped.rs: debug_tree, SyntaxKind (derived Debug)", "crates/ludtwig-parser/src/parser.rs: Parse::debug_parse", "crates/ludtwig-parser/src/parser/parse_error.rs: Display for ParseError", "crates/ludtwig/src/check.rs: produce_diagnostics (inspect)"]}
{"id": "C85", "title": "A file is read line by line", "statement": "Tokens never depend on other lines: the tokens of a text are the tokens of its first lines followed by those of the rest, unless the rest begins with an empty line (whose end belongs to the same token as the line break before it). So whatever is written on a line that is not empty, the tokens of the lines before it stay the same and those of the lines behind it only move. And the syntax errors before the last significant token of the first lines of a file are the same whatever the other lines are.", "quantifier": "every text, every place of a line end in it, every two continuations of the same first lines, both builds", "why_tests_cant": "The lexer takes the longest match over 160 patterns and looks ahead behind is and not; that none of this crosses the end of a line concerns every text before and behind a line end. The parser looks ahead and recovers over lines.", "anchors": ["crates/ludtwig-parser/src/syntax/untyped.rs: SyntaxKind (logos patterns), cb_not, cb_is", "crates/ludtwig-parser/src/lexer.rs: lex", "crates/ludtwig-parser/src/parser.rs: parse"]}
{"id": "C86", "title": "Templates can be put together", "statement": "Well-formed templates (C61) that stand on lines of their own can be put one after another in any number, and between the opening and the closing tag of any block, condition, loop, other paired Twig tag or HTML element, and the result is well-formed and is parsed without syntax errors again. So a part of a template that is valid on its own can be moved into another place or file without being checked there.", "quantifier": "every list of well-formed texts that end with a line end and do not begin with an empty line; every opening and closing tag that fit together; both builds", "why_tests_cant": "It is about all pairs of templates. Nothing of the parser's state, look-ahead or error recovery may carry over from one part to the next, and the lexer must not build a token out of two parts (on one line it does: a < and b).", "anchors": ["crates/ludtwig-parser/src/lexer.rs: lex", "crates/ludtwig-parser/src/grammar.rs: root, parse_any_element, parse_many", "crates/ludtwig-parser/src/grammar/twig/tags.rs", "crates/ludtwig-parser/src/grammar/html.rs: parse_html_element"]}
{"id": "C87", "title": "Every message has one line", "statement": "The message of a syntax error never contains a line break, whatever the template: not as it is shown to the user and not as it is printed below the syntax tree (debug_parse), also where it quotes a name of the template. So below the printed tree there is exactly one line for each error, in their order, and tools can read the output line by line. The headline of every message about a file, syntax error or result of a rule, is one line too. What is printed for two different files differs, if none of their tokens has 25 bytes or more.", "quantifier": "all templates of any length, all their syntax errors and results of any of the rules, any configuration, debug and release builds", "why_tests_cant": "Some messages quote text of the template (names of elements, blocks and macros, whatever token stands there); that no such text has a line break depends on every place of the grammar that adds a message and on the lexer.", "anchors": ["crates/ludtwig-parser/src/parser/parse_error.rs: ParseError::expected_message, Display for ParseError", "crates/ludtwig-parser/src/parser.rs: Parser::add_error, Parse::debug_parse", "crates/ludtwig-parser/src/grammar/html.rs: parse_html_element", "crates/ludtwig-parser/src/grammar/twig/tags.rs: parse_twig_block, parse_twig_macro", "crates/ludtwig/src/check.rs: produce_diagnostics", "crates/ludtwig/src/check/rules/"]}
{"id": "C88", "title": "Kinds survive their way through the tree library", "statement": "The tree library stores the kind of each node and token as a number of 16 bits, and kinds are read back with an unchecked conversion behind an assertion. Whatever is stored for a tree, a walk over it sees exactly the kinds and texts that were stored, different kinds are never confused and the assertion never stops the walk. For any number and any tree, also one built by someone else, reading either gives a kind of the enumeration (the one that is written as this number) or stops at the assertion: it never makes a value that is none of the variants, so the only unsafe code of the project has no undefined behaviour.", "quantifier": "all kinds, all numbers, all trees of any size and depth, among them those of all templates", "why_tests_cant": "Undefined behaviour cannot be observed reliably by running the code, and the trees are unbounded; it depends on the numbering of all variants, which must have no gap up to the one the assertion names.", "anchors": ["crates/ludtwig-parser/src/syntax/untyped.rs: SyntaxKind, From<SyntaxKind> for rowan::SyntaxKind, TemplateLanguage::kind_from_raw, TemplateLanguage::kind_to_raw", "crates/ludtwig-parser/src/parser/sink.rs: Sink"]}
{"id": "C89", "title": "A setting acts on its own rules only", "statement": "Changing a setting of the sections format and twig changes only the reports of the rule the documentation in the configuration file names for it (checked by the ... rule); the line ending also acts on twig-block-line-breaks. The reports of every other rule stay the same word for word, with their places, edits and order. If none of the rules in use is named for a changed setting, the run is the same in everything: reports, what --fix writes and how it ends. No setting is idle: each acts on each of these rules.", "quantifier": "all pairs of configurations, all sets of built-in rules and all syntax trees; for whole runs all templates, with and without --fix, any sorting function, debug and release builds", "why_tests_cant": "It compares two runs for all pairs of configurations and all templates. Every rule is given the whole configuration, and with --fix every round depends on the reports of the round before.", "anchors": ["crates/ludtwig/ludtwig-config.toml", "crates/ludtwig/src/config.rs: Config, Format, Twig", "crates/ludtwig/src/check.rs: run_rules", "crates/ludtwig/src/check/rule.rs: RuleRunContext", "crates/ludtwig/src/check/rules/", "crates/ludtwig/src/process.rs: run_analysis"]}
{"id": "C90", "title": "Looking changes nothing", "statement": "The options --inspect and --verbose only show more. With and without them the program can do exactly the same to the files and end with exactly the same exit codes. For each file --inspect adds nothing but notes for information; the other reports, what is written and the order of both stay the same. --verbose adds nothing but the values in use at the end of what is said about the configuration.", "quantifier": "all configurations, environments, sets of files with any contents, orders in which the threads work, writes that fail or not, with and without --fix, debug and release builds", "why_tests_cant": "It compares all possible executions of two runs; the notes go through the same channel as the reports that decide over the exit code, and every schedule of the threads of one run must be matched by one of the other.", "anchors": ["crates/ludtwig/src/main.rs: Opts, app, handle_input_paths", "crates/ludtwig/src/check.rs: produce_diagnostics", "crates/ludtwig/src/output.rs: handle_processing_output", "crates/ludtwig/src/config.rs: handle_config_or_exit"]}
{"id": "C91", "title": "Exit code 0 lasts", "statement": "Once a run over at least one file has ended with exit code 0, every later run with the same configuration over the same files or some of them, with or without --fix, ends with exit code 0 and changes no file, as long as nobody else edits them. So what passes locally, or has been fixed with success, passes the check later, and fixing what passes the check does nothing. After a run that has changed files this is claimed if they still have the same directives for the whole file.", "quantifier": "all configurations, environments, sets of files with any contents, pairs of runs in any order of the threads, any sorting function, debug and release builds", "why_tests_cant": "It is about all pairs of executions over all contents. The first run applies up to ten rounds of edits to each file and judges by the last one, the second parses the written text anew.", "anchors": ["crates/ludtwig/src/main.rs: app, handle_input_paths", "crates/ludtwig/src/process.rs: process_file, run_analysis, iteratively_apply_suggestions", "crates/ludtwig/src/output.rs: handle_processing_output", "crates/ludtwig/src/check/rules.rs: get_file_active_rule_definitions"]}
{"id": "C92", "title": "The output is complete, unmixed and counted", "statement": "However the threads take turns, what a run prints on stderr consists of exactly one piece for each file found and one line for each error of the directory walk: the piece of a file whose processing has succeeded holds all its messages together and in their order, never mixed with those of another file, and they are the messages about the text that is in the file afterwards; the piece of another file is its error. The numbers of errors, warnings, helps and infos in the summary are exactly the numbers of such messages that are shown, and the number of files is the number found. If a file has been found, the exit code is 0 exactly if nothing but infos is shown.", "quantifier": "all sets of files with any contents, entries of the walk, configurations, options, sets of built-in rules, schedules of the tasks, the walk and the output thread", "why_tests_cant": "Messages are rendered by many threads, counted through one channel and printed by another thread or by the task itself; a lost, doubled or interleaved message shows up under some schedules and contents only. The count and the message are produced by different statements at five places.", "anchors": ["crates/ludtwig/src/process.rs: process_file, run_analysis", "crates/ludtwig/src/check.rs: produce_diagnostics", "crates/ludtwig/src/output.rs: ProcessingEvent, handle_processing_output", "crates/ludtwig/src/main.rs: app, handle_input_paths"]}
{"id": "C93", "title": "Every error names its file", "statement": "If a file cannot be processed, the error that is printed for it names the file.", "quantifier": "all paths, contents and reasons of failure", "why_tests_cant": "Which errors can occur for which contents is a question about all texts and all sequences of fixing rounds.", "anchors": ["crates/ludtwig/src/error.rs: FileProcessingError", "crates/ludtwig/src/main.rs: handle_input_paths", "crates/ludtwig/src/process.rs: iteratively_apply_suggestions"]}
{"id": "C94", "title": "--fix says what it has done", "statement": "--fix writes a file at most once and only with a text that differs from the one it has read. It prints that a file is fixed exactly for the files whose text has changed, once, with the number of rounds of edits that led from the old text to the new one (one to nine), and no two of the texts on the way are the same. Nothing of the kind is said of a file that could not be read, fixed or written.", "quantifier": "all contents, configurations, sets of rules, outcomes of reading and writing, and any sorting function", "why_tests_cant": "That edits of several rounds never undo each other completely, so that a file would be rewritten and called fixed without a change, is a statement about all texts and sequences of rounds.", "anchors": ["crates/ludtwig/src/process.rs: run_analysis, iteratively_apply_suggestions"]}
{"id": "C95", "title": "Fixing and checking agree", "statement": "After a successful --fix of a file, what has been said about it is message by message what a check of the new text says; the same holds for whole runs: the outputs and summaries that are possible with --fix are those of a later check of the same files. If no finding in a file comes with a suggestion, --fix does nothing but check it. All this as long as the fixed text keeps its directives for the whole file.", "quantifier": "all contents, sets of files, configurations, sets of rules, schedules and any sorting function", "why_tests_cant": "--fix reports from the state its last round has left in memory, a check reads and parses the written text anew and determines the active rules from it; that both agree is a statement about all texts and sequences of rounds.", "anchors": ["crates/ludtwig/src/process.rs: run_analysis, iteratively_apply_suggestions", "crates/ludtwig/src/check.rs: run_rules, produce_diagnostics", "crates/ludtwig/src/check/rules.rs: get_file_active_rule_definitions"]}
{"id": "C96", "title": "The code of a message tells where it comes from", "statement": "A message has the code SyntaxError exactly if it is about a syntax error; these messages come first, are errors, and are as many as the parser has found. The code of every other message is the name of one of the rules in use, which is what has to be written into the configuration or a directive to get rid of it: without the rule of that name, exactly the messages with that code disappear, and never a syntax error.", "quantifier": "all source texts, configurations, sets of built-in rules and names", "why_tests_cant": "The code is the rule name that each of the 22 rules hands on with each of its results on its own; the rules in use run interleaved over one tree.", "anchors": ["crates/ludtwig/src/check.rs: produce_diagnostics, run_rules", "crates/ludtwig/src/check/rules.rs: RULE_DEFINITIONS", "crates/ludtwig/src/check/rule.rs: CheckResult"]}
