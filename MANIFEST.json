{
 "claims": [
  {
   "property": "C01",
   "status": "proved",
   "theorems": [
    "C01_lex_lossless"
   ],
   "note": "Lexer model of untyped.rs/lexer.rs; logos by contract."
  },
  {
   "property": "C09",
   "status": "proved",
   "theorems": [
    "C09_longest_match",
    "C09_identifier"
   ],
   "note": "Holds for all texts; the two-word keywords are the exception stated in C39."
  },
  {
   "property": "C10",
   "status": "proved",
   "theorems": [
    "C10_not_in",
    "C10_is_not"
   ],
   "note": ""
  },
  {
   "property": "C39",
   "status": "partial",
   "theorems": [
    "C39_two_word_keyword_boundary_refuted"
   ],
   "note": "False of the code: witness `starts without`. Not repaired, the code is left unchanged."
  },
  {
   "property": "C02",
   "status": "proved",
   "theorems": [
    "C02_parse_lossless"
   ],
   "note": "Every build, with and without syntax errors; the root range follows from the text."
  },
  {
   "property": "C03",
   "status": "partial",
   "theorems": [
    "C03_never_crashes_refuted",
    "C03_never_crashes_partial"
   ],
   "note": "False of the code: `{{ (a,` and `<script>{%` panic in every build, `{{ (a,b) }}` in debug builds. Proved: no other panic site can be reached."
  },
  {
   "property": "C04",
   "status": "proved",
   "theorems": [
    "C04_parse_terminates"
   ],
   "note": ""
  },
  {
   "property": "C05",
   "status": "proved",
   "theorems": [
    "C05_closed_templates_do_not_crash"
   ],
   "note": ""
  },
  {
   "property": "C06",
   "status": "proved",
   "theorems": [
    "C06_error_ranges"
   ],
   "note": "An empty source yields no error."
  },
  {
   "property": "C07",
   "status": "proved",
   "theorems": [
    "C07_balanced"
   ],
   "note": ""
  },
  {
   "property": "C08",
   "status": "proved",
   "theorems": [
    "C08_leaves_refine_tokens",
    "C08_white_space_stays_together"
   ],
   "note": ""
  },
  {
   "property": "C40",
   "status": "proved",
   "theorems": [
    "C40_errors_printable"
   ],
   "note": ""
  },
  {
   "property": "C30",
   "status": "proved",
   "theorems": [
    "C30_snake_case_suggestions",
    "C30_screaming_own_suggestion_refuted"
   ],
   "note": "Block names use the lower-case variant. For the SCREAMING variant (only shown in a message) valid names are not their own suggestion."
  },
  {
   "property": "C31",
   "status": "partial",
   "theorems": [
    "C31_suggested_names_nonempty_refuted",
    "C31_suggested_names_nonempty_partial"
   ],
   "note": "False of the code: `_` gets the empty name. Proved: exactly the names made of separators only get it."
  },
  {
   "property": "C32",
   "status": "proved",
   "theorems": [
    "C32_kebab_case_suggestions"
   ],
   "note": ""
  },
  {
   "property": "C18",
   "status": "proved",
   "theorems": [
    "C18_unnamed_directive_disables_all",
    "C18_named_rules_are_left_out"
   ],
   "note": ""
  },
  {
   "property": "C19",
   "status": "proved",
   "theorems": [
    "C19_configured_rules_are_selected",
    "C19_order_does_not_matter",
    "C19_first_unknown_name_is_reported",
    "C19_unknown_rule_name_fails_the_run",
    "C19_known_rule_names_do_not_fail_the_run"
   ],
   "note": ""
  },
  {
   "property": "C20",
   "status": "proved",
   "theorems": [
    "C20_edits_are_applied_exactly",
    "C20_edited_text_is_unique"
   ],
   "note": ""
  },
  {
   "property": "C21",
   "status": "partial",
   "theorems": [
    "C21_no_overlapping_edits_refuted",
    "C21_no_overlapping_edits_partial"
   ],
   "note": "False of the code: `{{ a === (\"c\" && b) }}` gets two overlapping edits. Proved for suggestions whose overlap relation is transitive, for every sorting function that meets the contract of sort_by."
  },
  {
   "property": "C22",
   "status": "partial",
   "theorems": [
    "C22_fix_keeps_templates_valid_refuted",
    "C22_fix_keeps_templates_valid_partial"
   ],
   "note": "False of the code: the result for `{{ a === (\"c\" && b) }}` has a syntax error. Proved, and that the tree stays the same up to white space, when only the layout rules (indentation, white space between line breaks, line ending; restrictions of C51 and C68) or only rules without edits are active."
  },
  {
   "property": "C23",
   "status": "partial",
   "theorems": [
    "C23_no_rule_collides_with_itself_refuted",
    "C23_no_rule_collides_with_itself_partial",
    "C23_only_comparisons_and_blocks_collide_partial",
    "C23_other_rules_never_collide",
    "C23_blocks_collide_refuted"
   ],
   "note": "False of the code: `{{ a === (b === c) }}`, and with a syntax error also the rule about line breaks around blocks (a tag left open, with a block before and a commented block after two line breaks). Proved for all templates, configurations and rounds of --fix: the error is only raised for two overlapping suggestions of the named rule, that rule is one of three, and the cause is one === (or !==) comparison inside of another one, or a line break that is after the end of a block and in front of another one, which needs syntax errors or two raw texts side by side; with the other 19 rules it never occurs. Not shown: that raw texts are never side by side without syntax errors."
  },
  {
   "property": "C24",
   "status": "proved",
   "theorems": [
    "C24_fix_loop_is_bounded_and_honest",
    "C24_fix_loop_gives_up_with_an_error"
   ],
   "note": "For every sorting function."
  },
  {
   "property": "C25",
   "status": "proved",
   "theorems": [
    "C25_files_change_only_through_a_successful_fix",
    "C25_written_text_is_a_fixed_point"
   ],
   "note": ""
  },
  {
   "property": "C26",
   "status": "partial",
   "theorems": [
    "C26_crash_loses_nothing_refuted",
    "C48_only_files_being_written_can_be_damaged"
   ],
   "note": "False of the code: fs::write truncates first (contract of std::fs::write). Proved (as C48): only a file that is being written when the program is killed can be damaged."
  },
  {
   "property": "C27",
   "status": "proved",
   "theorems": [
    "C27_fix_is_idempotent",
    "C27_unchanged_files_stay_unchanged",
    "C27_second_fix_changes_nothing_refuted"
   ],
   "note": "The condition on directives is needed: without it the statement is false (last theorem, a template without syntax errors whose directive is lost in the first --fix)."
  },
  {
   "property": "C28",
   "status": "proved",
   "theorems": [
    "C28_totals_are_sums_for_any_interleaving",
    "C28_scheduling_does_not_matter"
   ],
   "note": ""
  },
  {
   "property": "C29",
   "status": "partial",
   "theorems": [
    "C29_problems_make_the_exit_code_nonzero_refuted",
    "C29_problems_make_the_exit_code_nonzero_partial"
   ],
   "note": "False of the code: if the directory walk only meets errors (say the only given path does not exist), an error is reported but the number of files is 0 and the exit code is 0. Proved: with at least one file every error, warning or help report makes it 1."
  },
  {
   "property": "C14",
   "status": "proved",
   "theorems": [
    "C14_rules_never_crash",
    "C14_walk_never_crashes",
    "C14_only_whole_tree_checks_can_fail"
   ],
   "note": "The first for all templates and all built-in rules; the other two for every tree and rule set: the walk itself never fails and ends with nothing ignored."
  },
  {
   "property": "C15",
   "status": "proved",
   "theorems": [
    "C15_ignore_directives_have_exact_scope"
   ],
   "note": ""
  },
  {
   "property": "C16",
   "status": "partial",
   "theorems": [
    "C16_ignored_parts_are_never_reported_refuted",
    "C16_indentation_respects_directives_in_templates_partial",
    "C16_indentation_respects_directives_partial",
    "C16_duplicates_respect_directives_partial"
   ],
   "note": "False of the code: a second directive of the same rule inside an ignored element ends the ignored part. Proved: only below such a cleared element can an ignored element be reported."
  },
  {
   "property": "C17",
   "status": "partial",
   "theorems": [
    "C17_whitespace_is_protected_refuted",
    "C17_whitespace_flag_partial"
   ],
   "note": "False of the code: a string or a nested protected element inside pre ends the protection. Proved: the exact value of the flag."
  },
  {
   "property": "C36",
   "status": "proved",
   "theorems": [
    "C36_duplicate_blocks_are_counted_exactly",
    "C36_duplicate_ids_are_counted_exactly",
    "C36_each_further_occurrence_is_reported_once"
   ],
   "note": ""
  },
  {
   "property": "C37",
   "status": "proved",
   "theorems": [
    "C37_indentation_level_never_underflows",
    "C37_indentation_level_is_back_to_zero",
    "C37_indentation_level_never_underflows_partial"
   ],
   "note": "The last one is the version for arbitrary trees: without a blanket directive in front of an indenting node."
  },
  {
   "property": "C38",
   "status": "proved",
   "theorems": [
    "C38_suggestions_fit_the_text",
    "C38_single_suggestions_can_be_applied"
   ],
   "note": ""
  },
  {
   "property": "C33",
   "status": "proved",
   "theorems": [
    "C33_unix_line_endings_are_reported_exactly",
    "C33_unix_line_endings_are_enforced",
    "C33_line_break_tokens"
   ],
   "note": ""
  },
  {
   "property": "C34",
   "status": "partial",
   "theorems": [
    "C34_conforming_text_is_not_reported_refuted",
    "C34_windows_line_endings_are_enforced_refuted",
    "C34_every_line_break_is_reported",
    "C34_fix_succeeds_only_without_line_breaks",
    "C34_windows_line_endings_are_enforced_partial"
   ],
   "note": "False of the code: CRLF text is reported, two line breaks become one, and --fix can only succeed when no line break is left. Proved: a single LF becomes CRLF."
  },
  {
   "property": "C35",
   "status": "proved",
   "theorems": [
    "C35_quotation_changes_keep_the_content",
    "C35_missing_quotes_are_added",
    "C35_missing_closing_quote_is_added"
   ],
   "note": "For string nodes with both quotes, none, or only the opening one."
  },
  {
   "property": "C41",
   "status": "partial",
   "theorems": [
    "C41_quoting_keeps_the_value_refuted"
   ],
   "note": "False of the code: `<div id= foo>` becomes `<div id=\" foo\">`."
  },
  {
   "property": "C42",
   "status": "proved",
   "theorems": [
    "C42_reports_describe_the_final_text",
    "C42_failures_are_reported"
   ],
   "note": "The rules are the ones active for the text as it was read (file-level directives are not looked up again after a fix)."
  },
  {
   "property": "C43",
   "status": "proved",
   "theorems": [
    "C43_camel_case_check"
   ],
   "note": ""
  },
  {
   "property": "C12",
   "status": "proved",
   "theorems": [
    "C12_matched_tags"
   ],
   "note": ""
  },
  {
   "property": "C13",
   "status": "proved",
   "theorems": [
    "C13_closed_tags"
   ],
   "note": "The two short forms ({% block a expression %} and {% set a = expression %}) have no ending part."
  },
  {
   "property": "C44",
   "status": "proved",
   "theorems": [
    "C44_error_free_well_formed",
    "C44_error_free_well_formed_release",
    "C44_no_error_nodes",
    "C44_arrow_token_refuted"
   ],
   "note": "The grammar is Schema.v. The last theorem shows that the exception for release builds is real."
  },
  {
   "property": "C45",
   "status": "proved",
   "theorems": [
    "C45_every_tree_keeps_the_skeleton",
    "C45_error_nodes_contain_only_tokens",
    "C45_required_parts_are_there"
   ],
   "note": ""
  },
  {
   "property": "C11",
   "status": "partial",
   "theorems": [
    "C11_operators_are_grouped_partial",
    "C11_operators_are_grouped_refuted"
   ],
   "note": "False as stated: the left operand of a binary expression is taken as it is when its last operand is missing ({{ a == b ** * c }} gives no error and is read as (a == (b **)) * c). Proved for every tree with exactly that exception; the right operand needs no exception. See C46."
  },
  {
   "property": "C46",
   "status": "proved",
   "theorems": [
    "C46_left_operands",
    "C46_right_operands",
    "C46_prefix_operands",
    "C46_conditions",
    "C46_the_table_is_unambiguous"
   ],
   "note": "The table is Precedence.v (level, right_associative)."
  },
  {
   "property": "C47",
   "status": "proved",
   "theorems": [
    "C47_files_are_handled_independently",
    "C47_schedules_agree",
    "C47_runs_can_always_go_on",
    "C47_every_run_ends"
   ],
   "note": "Paths are assumed to be different files (no links); the number of threads is not limited in the model."
  },
  {
   "property": "C48",
   "status": "proved",
   "theorems": [
    "C48_only_files_being_written_can_be_damaged",
    "C48_files_without_fixes_are_never_touched"
   ],
   "note": "Under the contract of std::fs::write (truncate, then fill from the front)."
  },
  {
   "property": "C49",
   "status": "partial",
   "theorems": [
    "C49_files_given_twice_are_safe_refuted",
    "C49_files_given_twice_are_safe_partial"
   ],
   "note": "False of the code: the second task can read the file while the first has written a part of it, fix that part and write it back, losing the rest. Proved: nothing is changed without --fix; C47 covers the case without repetitions."
  },
  {
   "property": "C50",
   "status": "proved",
   "theorems": [
    "C50_indentation_is_irrelevant",
    "C50_white_space_may_be_replaced"
   ],
   "note": "Up to white-space leaves; errors are compared by found token and expectation, in order. The second theorem is the same for token lists."
  },
  {
   "property": "C51",
   "status": "proved",
   "theorems": [
    "C51_layout_fixes_keep_the_template",
    "C51_layout_fixes_never_collide",
    "C51_layout_fixes_keep_broken_templates_refuted"
   ],
   "note": "Only the indentation and whitespace-between-line-breaks rules are active. More than ten rounds are not excluded here, see C72. With syntax errors it is false (third theorem): the token after a skipped error node counts as the first of its line."
  },
  {
   "property": "C52",
   "status": "proved",
   "theorems": [
    "C52_reports_name_their_rule",
    "C52_switching_off_removes_exactly_its_reports"
   ],
   "note": ""
  },
  {
   "property": "C53",
   "status": "partial",
   "theorems": [
    "C53_unknown_filters_are_reported_exactly",
    "C53_filters_of_apply_tags_are_checked_refuted"
   ],
   "note": "Exact for filters applied with |. The filter of an apply tag is never checked (refuted)."
  },
  {
   "property": "C54",
   "status": "partial",
   "theorems": [
    "C54_unknown_tests_are_reported_exactly_partial",
    "C54_unknown_tests_are_reported_exactly_refuted"
   ],
   "note": "Exact for tests whose left operand is an expression node of its own, which an operator of equal or higher precedence to the left prevents. {{ a ?? b is foo }} is not reported (refuted)."
  },
  {
   "property": "C55",
   "status": "partial",
   "theorems": [
    "C55_unknown_functions_are_reported_exactly_partial",
    "C55_unknown_functions_are_reported_exactly_refuted"
   ],
   "note": "{{ a ?? b is foo(1) }} is reported as an unknown function (refuted); exact otherwise."
  },
  {
   "property": "C56",
   "status": "proved",
   "theorems": [
    "C56_logic_operators_are_replaced_exactly",
    "C56_identity_operators_are_reported_exactly"
   ],
   "note": ""
  },
  {
   "property": "C57",
   "status": "partial",
   "theorems": [
    "C57_block_names_are_reported_exactly",
    "C57_attribute_names_are_reported_exactly_partial",
    "C57_attribute_names_are_reported_exactly_refuted",
    "C57_variable_names_are_reported_exactly_partial",
    "C57_variable_names_are_reported_exactly_refuted"
   ],
   "note": "Exact for blocks. Attributes inside twig tags of an html tag are not checked; all variables of one set count as constants if the first value is one (both refuted)."
  },
  {
   "property": "C58",
   "status": "proved",
   "theorems": [
    "C58_misplaced_directives_are_reported_exactly",
    "C58_extends_tags_are_reported_exactly",
    "C58_raw_after_json_encode_is_replaced_exactly",
    "C58_quoted_hash_keys_are_reported_exactly"
   ],
   "note": "The first also for templates with errors."
  },
  {
   "property": "C59",
   "status": "proved",
   "theorems": [
    "C59_twig_strings_are_reported_exactly",
    "C59_html_strings_are_reported_exactly"
   ],
   "note": "Which content prevents the change is spelled out in wrong_twig_string and wrong_html_string."
  },
  {
   "property": "C60",
   "status": "proved",
   "theorems": [
    "C60_line_breaks_around_blocks_are_reported_exactly"
   ],
   "note": "Which elements are protected is C17; the token after a block is the one rowan's next_token finds."
  },
  {
   "property": "C61",
   "status": "proved",
   "theorems": [
    "C61_well_formed_templates_are_accepted"
   ],
   "note": "The grammar is AccSpec.v; its header lists what valid Twig and HTML it leaves out because the parser rejects it (C61_reported shows examples)."
  },
  {
   "property": "C62",
   "status": "partial",
   "theorems": [
    "C62_blocks",
    "C62_elements",
    "C62_attributes",
    "C62_attribute_tags_partial",
    "C62_binary_operands_partial",
    "C62_parts",
    "C62_whitespace_control_partial",
    "C62_no_delimiters",
    "C62_tags_offer_control",
    "C62_left_operand_refuted",
    "C62_every_attribute_refuted",
    "C62_closing_sign_refuted"
   ],
   "note": "False in three places (refuted): the left operand of {{ a + b - c }} is given as c and the right one not at all; attributes inside twig tags are not listed; a minus sign before the closing delimiter that directly follows a word is not seen. The partial theorems say exactly what is returned otherwise."
  },
  {
   "property": "C63",
   "status": "partial",
   "theorems": [
    "C63_indentation_is_reported_exactly",
    "C63_only_wrong_indentation_is_reported_refuted",
    "C63_blank_lines_are_reported_exactly",
    "C63_windows_line_endings_are_reported_exactly",
    "C63_duplicates_are_reported_exactly"
   ],
   "note": "False for an indentation of 0 spaces (refuted): every line that starts inside an element is then reported as missing indentation, with an edit that inserts nothing; the exactness theorem includes that case. The lines of the indentation rule are those of the part of the tree it walks: it skips ERROR nodes (see C51)."
  },
  {
   "property": "C64",
   "status": "partial",
   "theorems": [
    "C64_environment_then_file_then_default_partial",
    "C64_environment_then_file_then_default_refuted"
   ],
   "note": "False if twig is no table in the file (refuted): with a variable for one of its lists, the other lists are empty instead of the built-in ones. Proved, as an equivalence, for files whose sections are tables and environments without variables for whole sections or for something inside a setting."
  },
  {
   "property": "C65",
   "status": "proved",
   "theorems": [
    "C65_created_file_changes_nothing",
    "C65_nothing_is_overwritten"
   ],
   "note": ""
  },
  {
   "property": "C66",
   "status": "partial",
   "theorems": [
    "C66_used_file_is_announced_partial",
    "C66_used_file_is_announced_refuted",
    "C66_used_variables_are_announced_partial",
    "C66_used_variables_are_announced_refuted",
    "C66_other_version_is_pointed_out_partial",
    "C66_other_version_is_pointed_out_refuted"
   ],
   "note": "All three are false (refuted): a file above the current directory is used although the default is announced; variables with the prefix in lower case are used but not announced; a file without a version in which the word version occurs is not pointed out. The partial theorems exclude these cases."
  },
  {
   "property": "C67",
   "status": "partial",
   "theorems": [
    "C67_layout_is_irrelevant_partial",
    "C67_layout_is_irrelevant_refuted"
   ],
   "note": "Proved for texts in which no Windows line ending stands directly behind `is not`, `not in` or another carriage return. `{{ a is not` CRLF `defined }}` is parsed differently than with LF (refuted)."
  },
  {
   "property": "C68",
   "status": "partial",
   "theorems": [
    "C68_line_ending_fixes_keep_the_template_partial",
    "C68_line_ending_fixes_never_collide_partial",
    "C68_line_ending_fixes_keep_the_template_refuted"
   ],
   "note": "Same restriction as C67; Unix line endings configured; more than ten rounds are not excluded. The third theorem: fixing the line ending changes the expression tree of `{{ a is not` CRLF `defined }}`."
  },
  {
   "property": "C69",
   "status": "proved",
   "theorems": [
    "C69_builds_parse_alike",
    "C69_builds_check_alike"
   ],
   "note": "Concerns debug_assert! and debug_assert_eq!; the overflow checks of debug builds are not modelled. The exception occurs: {{ (a, b) + c }} (case)."
  },
  {
   "property": "C70",
   "status": "proved",
   "theorems": [
    "C70_tokens_read_as_called",
    "C70_text_reads_as_token"
   ],
   "note": "The shapes are written over characters, without regular expressions. Names are those of the Display table the error messages use."
  },
  {
   "property": "C71",
   "status": "proved",
   "theorems": [
    "C71_exit_code_zero_means_in_order",
    "C71_templates_in_order_pass",
    "C71_only_found_files_change",
    "C71_no_configuration_no_run",
    "C71_exit_code_101",
    "C71_runs_agree",
    "C71_the_program_can_always_finish"
   ],
   "note": "The entries of the directory walk are an input; no path is found twice (else C49). That a panicking task makes the program end with exit code 101 is rayon's and Rust's documented behaviour. In order means no syntax error and no report at all; the active rules are those the file had at the start."
  },
  {
   "property": "C72",
   "status": "partial",
   "theorems": [
    "C72_two_rounds_suffice_partial",
    "C72_layout_fixes_finish_partial",
    "C72_layout_fixes_tidy_partial",
    "C72_fixes_finish_refuted",
    "C72_layout_fixes_finish_refuted"
   ],
   "note": "The full statement is false (last two theorems): an indentation of 0 spaces never finishes, and neither do all rules on ten carriage returns before a line break. Proved for an indentation of at least 1 and templates whose ignore directives each name rules, none of them the two layout rules, and without a hash sign before an opening brace; what is missing is the proof for other directives and for such a hash sign."
  },
  {
   "property": "C73",
   "status": "partial",
   "theorems": [
    "C73_indentation_keeps_preformatted_elements_partial",
    "C73_fixes_keep_strings_refuted",
    "C73_fixes_keep_attribute_values_refuted",
    "C73_fixes_keep_preformatted_elements_refuted",
    "C73_indentation_keeps_preformatted_elements_refuted"
   ],
   "note": "False for strings, attribute values and preformatted text in general (refuted, with a template each). Proved for the indentation rule alone and preformatted elements without another one in them, under the restrictions of C72: the element is in the written text unchanged, behind the same lines."
  },
  {
   "property": "C74",
   "status": "proved",
   "theorems": [
    "C74_renaming_keeps_the_template",
    "C74_renaming_keeps_acceptance"
   ],
   "note": "The correspondence is stated on the tokens of the two texts (renaming in Rename.v); that a replaced word is again one token is part of the hypothesis. Cases show that consistency, distinctness, the sorts of words and the special elements all matter."
  },
  {
   "property": "C75",
   "status": "partial",
   "theorems": [
    "C75_silent_rules_never_write",
    "C75_single_rules_keep_templates_valid_refuted",
    "C22_fix_keeps_templates_valid_partial",
    "C76_operators_are_replaced_faithfully_partial"
   ],
   "note": "False for ten rules (refuted, default configuration, a template each). Proved that the seven rules without edits never write, and that the three layout rules keep templates valid under the restrictions of C51 and C68. Open for the two rules about quotation marks."
  },
  {
   "property": "C76",
   "status": "partial",
   "theorems": [
    "C76_operators_are_replaced_faithfully_refuted",
    "C76_operators_are_replaced_faithfully_partial"
   ],
   "note": "False of the code: `{{ a&&b }}` becomes `{{ aandb }}`, `{{ a||b }}` becomes `{{ aorb }}`, both valid. Proved: with white space around every && and || of a well-formed template (C61) the written tokens are the given ones but for the spelling of these, and the text is accepted. Missing: that the new tree has the same operations."
  },
  {
   "property": "C77",
   "status": "proved",
   "theorems": [
    "C77_spelling_is_irrelevant"
   ],
   "note": "Well-formed means the grammar of C61 (AccSpec.v). That the tokens of the second text are those of the first is a hypothesis on its lexing (respelled in Respell.v); {{ 1&&b }} and {{ 1andb }} do not meet it (case)."
  },
  {
   "property": "C78",
   "status": "partial",
   "theorems": [
    "C78_ignored_elements_are_left_alone_partial",
    "C78_ignored_elements_keep_their_text_partial",
    "C78_ignored_comments_are_left_alone_refuted",
    "C78_nested_directives_are_left_alone_refuted"
   ],
   "note": "False of the code in two cases (refuted, a template each without syntax errors). Proved for all other cases, rule by rule, also with syntax errors. The text is kept over one round if the edits of the round do not overlap in chains (C21)."
  },
  {
   "property": "C79",
   "status": "partial",
   "theorems": [
    "C79_nothing_is_skipped_silently_partial",
    "C79_no_message_no_skipping_partial",
    "C79_unknown_characters_are_reported_refuted"
   ],
   "note": "False of the code for characters no token starts with, which are dropped without a message between the parts of a list: {{ [$ 1] }} (refuted). Proved for all other skipped text, that is for error nodes."
  },
  {
   "property": "C80",
   "status": "proved",
   "theorems": [
    "C80_operations_are_linear",
    "C80_result_is_linear"
   ],
   "note": "Counted are operations of the parser (op in ParserApi.v), each as one; the time inside an operation (how far a look-ahead reads over white space, the growth of a vector), the lexer, the sink and the rules are not counted. The constants are those of the proof, not tight: the case needs 12 per token."
  },
  {
   "property": "C81",
   "status": "proved",
   "theorems": [
    "C81_errors_follow_the_text"
   ],
   "note": "For the list of errors of a parse; check.rs:218 prints it in this order."
  },
  {
   "property": "C82",
   "status": "proved",
   "theorems": [
    "C82_messages_show_a_place",
    "C82_messages_of_a_run"
   ],
   "note": "The messages are modelled as severity, code, text and labels (Diagnostics.v); how codespan-reporting lays them out, and that it accepts every label in the text, is not. The tree printed by --inspect is left out (it has no label)."
  },
  {
   "property": "C83",
   "status": "proved",
   "theorems": [
    "C83_errors_of_a_beginning",
    "C83_clean_beginning"
   ],
   "note": "Stated on tokens: two texts with a common beginning of characters have the same tokens up to the place where one of the tokens could still grow. About the errors, not about the tree: the kinds of the nodes around the beginning are settled later."
  },
  {
   "property": "C84",
   "status": "proved",
   "theorems": [
    "C84_printing_never_fails",
    "C84_printed_tree_determines_the_tree",
    "C84_printed_tree_determines_the_text",
    "C84_printed_parse_determines_the_parse"
   ],
   "note": "The format of rowan 0.16.1 and of std (Debug of str) is modelled from their documentation and sources (Dump.v); which characters std prints as they are is left open, the theorems hold for any choice. That the error messages have no line break is a hypothesis of the last theorem; it holds for the messages of the parser (C87)."
  },
  {
   "property": "C85",
   "status": "proved",
   "theorems": [
    "C85_lines_are_read_one_by_one",
    "C85_a_line_has_its_own_tokens",
    "C85_messages_about_the_first_lines"
   ],
   "note": "The third theorem builds on C83; it needs that both files are parsed without the panics of C03."
  },
  {
   "property": "C86",
   "status": "proved",
   "theorems": [
    "C86_one_after_another",
    "C86_inside_of_something"
   ],
   "note": "Well-formed is meant in the sense of the grammar of C61 (AccSpec.v), which leaves out some templates the parser accepts. A body of a condition or loop is put in as a whole (no else parts in the surrounding tag)."
  },
  {
   "property": "C87",
   "status": "proved",
   "theorems": [
    "C87_messages_are_lines",
    "C87_one_line_for_each_error",
    "C87_headlines_are_lines",
    "C87_printed_parse_determines_the_file"
   ],
   "note": "For results of rules only the headline: the labels of some show text of the template with its line breaks (case). A line break is a line feed; a lone carriage return is not excluded. The format of the printed tree is that of C84."
  },
  {
   "property": "C88",
   "status": "proved",
   "theorems": [
    "C88_kinds_survive",
    "C88_reading_is_defined",
    "C88_numbers_differ",
    "C88_trees_survive",
    "C88_foreign_trees_are_read_or_refused"
   ],
   "note": "Numbers of variants by the rule of the Rust reference; transmute of a number that is no variant's is modelled as undefined."
  },
  {
   "property": "C89",
   "status": "proved",
   "theorems": [
    "C89_settings_act_on_their_rules_only",
    "C89_other_settings_change_nothing",
    "C89_every_setting_acts",
    "C89_only_the_named_rule_refuted"
   ],
   "note": "The last theorem: that only the rule named in the configuration file is concerned is false for the line ending, which is why the statement names a second one. The active-rules list is the subject of C19 and C52."
  },
  {
   "property": "C90",
   "status": "proved",
   "theorems": [
    "C90_looking_changes_nothing",
    "C90_inspecting_adds_only_notes",
    "C90_verbose_adds_only_the_values"
   ],
   "note": "The program is the one of C71 (Main.v); what is printed is modelled by its events and messages, not by its layout."
  },
  {
   "property": "C91",
   "status": "proved",
   "theorems": [
    "C91_exit_code_zero_lasts",
    "C91_passed_checks_last"
   ],
   "note": "Both runs find the same files (the second may find fewer) and no file twice. That a fix keeps the directives for the whole file is a hypothesis of the first theorem, as in C27; the second needs none."
  },
  {
   "property": "C92",
   "status": "proved",
   "theorems": [
    "C92_one_piece_for_each_file",
    "C92_summary_counts_what_is_shown",
    "C92_exit_code_tells_what_is_shown",
    "C92_messages_refine_the_events"
   ],
   "note": "For runs in which no task panics, and with no path found twice. A message stands for its rendering; that a print to stderr is not torn apart is the lock of the standard library."
  },
  {
   "property": "C93",
   "status": "partial",
   "theorems": [
    "C93_errors_name_their_file_partial",
    "C93_errors_name_their_file_refuted"
   ],
   "note": "True without --fix, and with it of the errors of reading and writing. False as stated: the error of a file on which --fix gives up after ten rounds does not name it, and none of the file's messages is shown either."
  },
  {
   "property": "C94",
   "status": "proved",
   "theorems": [
    "C94_files_are_written_only_if_they_change",
    "C94_fixed_is_said_of_the_changed_files",
    "C94_failures_are_not_called_fixed",
    "C94_lines_differ",
    "C94_texts_never_repeat"
   ],
   "note": "Paths are shown as they are (UTF-8). C94_lines_differ: the line tells the number of rounds. C94_texts_never_repeat: no two of the texts that a successful fix goes through are the same."
  },
  {
   "property": "C95",
   "status": "proved",
   "theorems": [
    "C95_fixing_says_what_checking_says_afterwards",
    "C95_without_suggestions_fixing_is_checking",
    "C95_runs_agree",
    "C95_always_refuted"
   ],
   "note": "The last theorem: without the condition on the directives it is false. For whole runs no task may fail."
  },
  {
   "property": "C96",
   "status": "proved",
   "theorems": [
    "C96_codes_tell_the_source",
    "C96_switching_off_removes_the_messages_with_the_code"
   ],
   "note": "The message with the syntax tree (--inspect) is not among them; its code is no rule's name either (rule_names_are_no_codes)."
  }
 ]
}