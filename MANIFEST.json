{
 "claims": [
  {
   "property": "C01",
   "status": "proved",
   "theorems": [
    "C01_lex_total"
   ],
   "note": ""
  },
  {
   "property": "C02",
   "status": "proved",
   "theorems": [
    "C02_lex_lossless"
   ],
   "note": ""
  },
  {
   "property": "C03",
   "status": "proved",
   "theorems": [
    "C03_locations"
   ],
   "note": ""
  },
  {
   "property": "C04",
   "status": "proved",
   "theorems": [
    "C04_token_classes",
    "C04_comment_to_eol",
    "C04_bracket_comment_end"
   ],
   "note": ""
  },
  {
   "property": "C05",
   "status": "partial",
   "theorems": [
    "C05_parse_lossless",
    "C05_file_lossless",
    "C05_parse_tuples_partial",
    "C05_file_tuples_partial",
    "C05_parse_lossless_refuted"
   ],
   "note": "shipped table plus any user table, any text: exact for files that use no pair list (C05_file_lossless); with pair lists nothing is lost and the arguments keep their order (sentinels excluded), but blanks move (refuted)"
  },
  {
   "property": "C06",
   "status": "partial",
   "theorems": [
    "C06_tuple_keeps_args_partial",
    "C06_tuple_keeps_args_refuted",
    "C06_tuple_end_of_input_refuted"
   ],
   "note": "false as stated (both halves refuted); without sentinels every argument is kept in order"
  },
  {
   "property": "C07",
   "status": "partial",
   "theorems": [
    "C07_parse_terminates_partial",
    "C07_file_terminates_partial",
    "C07_parse_terminates_refuted",
    "C07_file_terminates_refuted"
   ],
   "note": "terminates whenever AND/OR are lexed as words; refuted otherwise: if(AND#x hangs"
  },
  {
   "property": "C08",
   "status": "proved",
   "theorems": [
    "C08_normalize_exact",
    "C08_normalize_clean",
    "C08_last_line_refuted"
   ],
   "note": "the last unterminated line is left alone: counterexample theorem"
  },
  {
   "property": "C09",
   "status": "proved",
   "theorems": [
    "C09_normalize_idempotent"
   ],
   "note": ""
  },
  {
   "property": "C10",
   "status": "proved",
   "theorems": [
    "C10_normalize_preserves"
   ],
   "note": ""
  },
  {
   "property": "C11",
   "status": "proved",
   "theorems": [
    "C11_detect_majority"
   ],
   "note": ""
  },
  {
   "property": "C12",
   "status": "proved",
   "theorems": [
    "C12_tabs_use_space",
    "C12_tabs_round_up",
    "C12_tabs_off"
   ],
   "note": ""
  },
  {
   "property": "C13",
   "status": "proved",
   "theorems": [
    "C13_cursor_tracks",
    "C13_write_at"
   ],
   "note": ""
  },
  {
   "property": "C14",
   "status": "proved",
   "theorems": [
    "C14_merge_one_level",
    "C14_later_wins",
    "C14_unmentioned_kept",
    "C14_keys_kept",
    "C14_scalar_over_mapping_refuted"
   ],
   "note": "a scalar never replaces a mapping: counterexample theorem"
  },
  {
   "property": "C15",
   "status": "proved",
   "theorems": [
    "C15_includes_bfs",
    "C15_includes_complete",
    "C15_include_cycle_diverges_refuted"
   ],
   "note": "acyclic includes: exact order and completeness; a cycle diverges: counterexample theorem"
  },
  {
   "property": "C16",
   "status": "proved",
   "theorems": [
    "C16_nearest_config"
   ],
   "note": ""
  },
  {
   "property": "C17",
   "status": "partial",
   "theorems": [
    "C17_cmdline_first_file",
    "C17_cmdline_every_file_refuted",
    "C17_later_files_ignore_cmdline",
    "C17_lint_cmdline_every_file"
   ],
   "note": "false as stated for the second and later files of a run (refuted); proved for the first file and for cmake-lint"
  },
  {
   "property": "C18",
   "status": "proved",
   "theorems": [
    "C18_per_command"
   ],
   "note": ""
  },
  {
   "property": "C19",
   "status": "proved",
   "theorems": [
    "C19_check_mode"
   ],
   "note": ""
  },
  {
   "property": "C20",
   "status": "proved",
   "theorems": [
    "C20_in_place_unchanged"
   ],
   "note": ""
  },
  {
   "property": "C21",
   "status": "proved",
   "theorems": [
    "C21_crash_safe",
    "C21_temp_name_refuted"
   ],
   "note": "the temporary name can clobber a user's file: counterexample theorem"
  },
  {
   "property": "C22",
   "status": "proved",
   "theorems": [
    "C22_format_error_isolated",
    "C22_before_ok",
    "C22_other_error_stops_refuted"
   ],
   "note": "holds for format errors; any other exception stops the run"
  },
  {
   "property": "C23",
   "status": "proved",
   "theorems": [
    "C23_require_valid_layout"
   ],
   "note": ""
  },
  {
   "property": "C24",
   "status": "partial",
   "theorems": [
    "C24_disable_noop",
    "C24_disable_cmdline_refuted"
   ],
   "note": "proved for a configured disable; the command-line switch only reaches the first file (refuted)"
  },
  {
   "property": "C25",
   "status": "proved",
   "theorems": [
    "C25_disabled",
    "C25_file"
   ],
   "note": "For every history of records and suppressions, and for every linted file, no reported record has a disabled code."
  },
  {
   "property": "C26",
   "status": "proved",
   "theorems": [
    "C26_report"
   ],
   "note": "The report is the recorded lint sorted by location, code and discovery, without the records whose code is switched off by the events up to their line."
  },
  {
   "property": "C27",
   "status": "partial",
   "theorems": [
    "C27_intervals_partial",
    "C27_nested_refuted"
   ],
   "note": "False as stated: refuted with nested pragmas. Proved when the suppression events come in line order."
  },
  {
   "property": "C28",
   "status": "partial",
   "theorems": [
    "C28_status_partial",
    "C28_values",
    "C28_empty_refuted",
    "C28_stdin_refuted",
    "C28_auto_refuted"
   ],
   "note": "False as stated: an escaping exception gives status 2 (empty file, standard input, line_ending auto). Proved for runs without exception and distinct paths."
  },
  {
   "property": "C29",
   "status": "partial",
   "theorems": [
    "C29_basics",
    "C29_width_refuted"
   ],
   "note": "Exact for every file, line and configuration; the length of a line counts the carriage return of a windows line ending, so the line-length check is false as stated (refuted)."
  },
  {
   "property": "C30",
   "status": "proved",
   "theorems": [
    "C30_mock",
    "C30_dollar_refuted"
   ],
   "note": "For every string and every replacement without dollar sign; with a dollar sign the loop may run forever (refuted)."
  },
  {
   "property": "C31",
   "status": "proved",
   "theorems": [
    "C31_sort_permutes",
    "C31_order_total",
    "C31_sort_blocks"
   ],
   "note": ""
  },
  {
   "property": "C32",
   "status": "proved",
   "theorems": [
    "C32_sort_idempotent",
    "C32_sorted_fixed"
   ],
   "note": ""
  },
  {
   "property": "C33",
   "status": "proved",
   "theorems": [
    "C33_file_positions",
    "C33_positions_advance",
    "C33_writer_never_asserts"
   ],
   "note": "For the shipped table plus any user table that keeps the spelling of names, every command and keyword case option, and every file that parses; no condition on comments or format switches."
  },
  {
   "property": "C34",
   "status": "partial",
   "theorems": [
    "C34_file_texts",
    "C34_file_pairs",
    "C34_file_tree",
    "C34_texts_in_order",
    "C34_output_is_the_texts",
    "C34_tabs_are_indentation",
    "C34_string_blanks_refuted",
    "C34_string_tabs_refuted"
   ],
   "note": "False as stated: a string with trailing blanks on a line loses them, and with use_tabchars the indentation of the lines of a string is rewritten (refuted). Proved end to end for every file without format switches, whatever its comments (pl = false), where the text of an argument is its normalized text; with plain comments (comments_plain, pl = true) comment blocks consist of line comments. Also for files with pair lists. With use_tabchars the output is that of a run without it, up to the blanks at the beginning of lines."
  },
  {
   "property": "C35",
   "status": "partial",
   "theorems": [
    "C35_file_comments",
    "C35_nothing_behind_a_comment",
    "C35_bracket_refuted",
    "C35_switch_refuted",
    "C35_misaligned_refuted"
   ],
   "note": "False as stated: three refutations (bracket comment above a line comment, format switch among arguments, misaligned comments). Proved for files with plain comments (comments_plain) and no switch."
  },
  {
   "property": "C36",
   "status": "proved",
   "theorems": [
    "C36_file_pieces",
    "C36_file_width",
    "C36_valid_fits"
   ],
   "note": "C36_file_pieces: every placed text of every file, whatever its comments and switches. C36_file_width: moreover every output line of a file without switches and tabs."
  },
  {
   "property": "C37",
   "status": "proved",
   "theorems": [
    "C37_search",
    "C37_bound",
    "C37_error",
    "C37_default_usable"
   ],
   "note": "Every call of reflow on every node with every pass list is exactly such a search (equivalence); the attempts are a prefix of the configured list; errors are characterised; built-in lists always have a usable pass"
  },
  {
   "property": "C38",
   "status": "partial",
   "theorems": [
    "C38_file_apart_partial",
    "C38_split_refuted"
   ],
   "note": "False as stated: an argument with an escape is split (refuted). Argument tokens are never joined or split, for every file without switches and pair lists."
  },
  {
   "property": "C39",
   "status": "partial",
   "theorems": [
    "C39_regions",
    "C39_region",
    "C39_tabs_refuted",
    "C39_double_off_refuted"
   ],
   "note": "False as stated: refuted with use_tabchars (the indentation inside the region is rewritten) and for a second format-off inside a region (the first part is lost). Proved for every file without byte-order mark, every user command table and use_tabchars off, when the sentinels stand at statement level: each region between an off and the next sentinel, if that is an on, is copied byte for byte, in order."
  },
  {
   "property": "C40",
   "status": "partial",
   "theorems": [
    "C40_bom_refuted"
   ],
   "note": "False as stated: refuted, the copied text is shifted by the three bytes of the mark."
  },
  {
   "property": "C41",
   "status": "partial",
   "theorems": [
    "C41_plain_comment",
    "C41_items_shown",
    "C41_lines_kept",
    "C41_refuted"
   ],
   "note": "false as stated: a number inside a numbered item is lost (refuted); proved for comments without lists and fences, and line by line up to bullets and item numbers"
  },
  {
   "property": "C42",
   "status": "partial",
   "theorems": [
    "C42_single_spaced_partial",
    "C42_refuted"
   ],
   "note": "false as stated: refuted by a paragraph with runs of blanks; proved for single-spaced paragraphs"
  },
  {
   "property": "C43",
   "status": "partial",
   "theorems": [
    "C43_item_width_partial",
    "C43_refuted"
   ],
   "note": "false as stated: entries of numbered lists may stick out (refuted); proved up to the digits of the item number"
  },
  {
   "property": "C44",
   "status": "partial",
   "theorems": [
    "C44_file_comments_partial",
    "C44_bracket_refuted"
   ],
   "note": "False as stated: a bracket comment is lost (refuted). Proved for files with plain comments (comments_plain) and no switch."
  },
  {
   "property": "C45",
   "status": "partial",
   "theorems": [
    "C45_empty_call_partial",
    "C45_empty_call_refuted",
    "C45_missing_args_refuted"
   ],
   "note": "false as stated: every empty call of a command with an exact first group fails; open counts are accepted"
  },
  {
   "property": "C46",
   "status": "partial",
   "theorems": [
    "C46_user_command",
    "C46_count_partial",
    "C46_dict_count_refuted",
    "C46_count_refuted"
   ],
   "note": "scalar and tuple declarations are honoured end to end; every dictionary declaration has its count replaced or is rejected (refuted)"
  },
  {
   "property": "C47",
   "status": "partial",
   "theorems": [
    "C47_counts_partial",
    "C47_exact_group",
    "C47_digit_string_refuted",
    "C47_counts_refuted"
   ],
   "note": "exact for int, ?, *, +, N+ and exact groups hold exactly N arguments; a digit string is never full (refuted)"
  },
  {
   "property": "C48",
   "status": "partial",
   "theorems": [
    "C48_balanced",
    "C48_shown",
    "C48_pairs_refuted"
   ],
   "note": "False as stated: a pair-list argument is dropped (refuted). Proved: tags balanced for every tree, and the shown text is the source for the tokens kept."
  },
  {
   "property": "C49",
   "status": "partial",
   "theorems": [
    "C49_escape_refuted"
   ],
   "note": "False as stated: refuted, source text is written without escaping."
  },
  {
   "property": "C50",
   "status": "partial",
   "theorems": [
    "C50_block_structure_partial",
    "C50_unterminated_if_refuted",
    "C50_unterminated_loop_refuted"
   ],
   "note": "every returned tree is properly bracketed except that an if block may lack its endif at end of file (refuted)"
  },
  {
   "property": "C51",
   "status": "partial",
   "theorems": [
    "C51_sentinel_single_line_refuted"
   ],
   "note": "false as stated: refuted by a sentinel token spanning two lines"
  },
  {
   "property": "C52",
   "status": "partial",
   "theorems": [
    "C52_outfile_crash_refuted"
   ],
   "note": "false as stated: refuted by a crash between truncation and write"
  },
  {
   "property": "C53",
   "status": "partial",
   "theorems": [
    "C17_cmdline_every_file_refuted",
    "C17_later_files_ignore_cmdline",
    "C17_lint_cmdline_every_file"
   ],
   "note": "false as stated for cmake-format (refuted); proved for cmake-lint"
  },
  {
   "property": "C54",
   "status": "partial",
   "theorems": [
    "C54_user_command_ignored_refuted"
   ],
   "note": "false as stated: refuted for every table"
  },
  {
   "property": "C55",
   "status": "partial",
   "theorems": [
    "C55_keyword_form",
    "C55_lowercase_keyword_refuted",
    "C55_keyword_case_refuted"
   ],
   "note": "false as stated: such keywords always end in an internal error; the recognisable forms are characterised"
  },
  {
   "property": "C56",
   "status": "partial",
   "theorems": [
    "C56_later_flag_refuted",
    "C56_flag_order_refuted"
   ],
   "note": "false as stated: refuted for every such specification"
  },
  {
   "property": "C57",
   "status": "partial",
   "theorems": [
    "C57_override_own_partial",
    "C57_override_standard_refuted",
    "C57_override_index_refuted"
   ],
   "note": "overrides of the user's own commands are found; false for standard commands and for the index one past the end (refuted)"
  },
  {
   "property": "C58",
   "status": "partial",
   "theorems": [
    "C58_unclosed_refuted",
    "C58_inner_on_refuted"
   ],
   "note": "False as stated: refuted, everything behind the sentinel is dropped, at top level and when the closing sentinel is inside a statement."
  },
  {
   "property": "C59",
   "status": "partial",
   "theorems": [
    "C59_last_line_refuted"
   ],
   "note": "False as stated: refuted, the last line of the block is not covered."
  },
  {
   "property": "C60",
   "status": "partial",
   "theorems": [
    "C60_report_refuted",
    "C60_report_partial"
   ],
   "note": "False as stated: refuted by list(APPEND); the empty file, an if block left open around a set command and an unclosed reference behind another dollar sign also raise. The partial theorem proves that a report is produced when the file is free of these faults, for every configuration; that groups built by the parser contain words and have readable counts is assumed in it, not derived."
  },
  {
   "property": "C61",
   "status": "partial",
   "theorems": [
    "C61_builtin_case",
    "C61_case_variant",
    "C61_prefix_refuted",
    "C61_template_refuted"
   ],
   "note": "False as stated: C61_prefix_refuted (set(apples 1) is reported because the name begins like APPLE) and C61_template_refuted (project_version is not reported because a template covers it). C61_builtin_case gives the exact condition for every file; C61_case_variant says which variants are covered. Assumes the parsers of single commands record only their own codes; letter case and word characters ASCII."
  },
  {
   "property": "C62",
   "status": "proved",
   "theorems": [
    "C62_jump_outside_loop"
   ],
   "note": "Stated for the records the checker writes (FileContext._lint); which of them a line pragma hides from the report is C27/C59. Hypothesis: the argument parsers record only the codes they contain (parsers_ok)."
  },
  {
   "property": "C63",
   "status": "proved",
   "theorems": [
    "C63_parameter_names"
   ],
   "note": "Stated for the records the checker writes (FileContext._lint); which of them a line pragma hides from the report is C27/C59. Hypothesis: the argument parsers record only the codes they contain (parsers_ok). Parameters are the semantic tokens of the argument tree after the first."
  },
  {
   "property": "C64",
   "status": "proved",
   "theorems": [
    "C64_repeated_keyword"
   ],
   "note": "For every file that lints without an exception. What the parsers of single commands report is a parameter of the model."
  },
  {
   "property": "C66",
   "status": "proved",
   "theorems": [
    "C66_size_limits",
    "C66_parameter_limit"
   ],
   "note": "Stated for the records the checker writes (FileContext._lint); which of them a line pragma hides from the report is C27/C59. Hypothesis: the argument parsers record only the codes they contain (parsers_ok)."
  },
  {
   "property": "C67",
   "status": "proved",
   "theorems": [
    "C67_one_line",
    "C67_blank_lines"
   ],
   "note": "Stated for the records the checker writes (FileContext._lint); which of them a line pragma hides from the report is C27/C59. Hypothesis: the argument parsers record only the codes they contain (parsers_ok)."
  },
  {
   "property": "C68",
   "status": "proved",
   "theorems": [
    "C68_unreachable_code"
   ],
   "note": "Stated for the records the checker writes (FileContext._lint); which of them a line pragma hides from the report is C27/C59. Hypothesis: the argument parsers record only the codes they contain (parsers_ok)."
  },
  {
   "property": "C69",
   "status": "partial",
   "theorems": [
    "C69_indentation",
    "C69_first_column_refuted"
   ],
   "note": "False as stated: C69_first_column_refuted (a line without leading blanks is never reported). C69_indentation gives the exact condition for the lines that start with blanks; blank lines that contain blanks count as lines."
  },
  {
   "property": "C70",
   "status": "proved",
   "theorems": [
    "C70_missing_docstring"
   ],
   "note": "Stated for the records the checker writes (FileContext._lint); which of them a line pragma hides from the report is C27/C59. Hypothesis: the argument parsers record only the codes they contain (parsers_ok)."
  },
  {
   "property": "C71",
   "status": "proved",
   "theorems": [
    "C71_line_endings",
    "C71_auto",
    "C71_region_refuted"
   ],
   "note": "Relational: the two runs share the layout and the writer states stay twins. With sentinels the claim is false (C71_region_refuted), the copied region keeps its LF; sentinels are excluded in the statement."
  },
  {
   "property": "C72",
   "status": "proved",
   "theorems": [
    "C72_case_only"
   ],
   "note": "Includes use_tabchars and format-off regions; no condition on comments."
  },
  {
   "property": "C73",
   "status": "proved",
   "theorems": [
    "C73_file_reread",
    "C73_file_tokens",
    "C73_switch_refuted",
    "C73_class_refuted"
   ],
   "note": "The conditions on the file are decidable (steady, settled, calm_comment); the file may have any comments that form plain comment nodes. Each condition left out is refuted by a witness."
  },
  {
   "property": "C74",
   "status": "partial",
   "theorems": [
    "C74_file_structure_partial",
    "C74_file_structure_refuted",
    "C74_switch_refuted"
   ],
   "note": "False as stated: refuted by a variable reference that touches a parenthesis and by a comment whose wrapping creates a format switch. The partial theorem covers all switch-free files whose comments stand outside statements (before, behind and between them, reflowed or not) with steady texts (see DESIGN), spaces for indentation, unix line endings and no sorting. Missing: comments between the parentheses of a statement."
  },
  {
   "property": "C75",
   "status": "partial",
   "theorems": [
    "C75_idempotent_partial",
    "C75_idempotent_refuted"
   ],
   "note": "False as stated: refuted by a file that starts with two empty lines. The partial theorem covers all comment-free, switch-free files with steady texts that start with at most one line break, spaces for indentation, unix line endings, no sorting, and letter-case blind spelling."
  },
  {
   "property": "C76",
   "status": "proved",
   "theorems": [
    "C76_restyle"
   ],
   "note": "End to end through lexer, parser, layout and writer. The hypotheses of the English statement are those of C74 (steady, settled, level, loops_full, tags_quiet, condok), starts_low, plain_passes and overrides; see DESIGN."
  },
  {
   "property": "C77",
   "status": "partial",
   "theorems": [
    "C77_no_test_refuted"
   ],
   "note": "False as stated: refuted by C77_no_test_refuted. parse_file passes a dict as the parse context, StatementNode.consume reads ctx.parse_db, so every file with a command makes the tool fail and no run ever finds a test."
  },
  {
   "property": "C78",
   "status": "proved",
   "theorems": [
    "C78_dump_runs_alike",
    "C159_namespace"
   ],
   "note": "Any notation of the dump is represented by the dictionary it denotes (json, yaml and python writers and readers are trusted to be inverse)."
  },
  {
   "property": "C79",
   "status": "partial",
   "theorems": [
    "C79_dump_per_command_partial",
    "C79_dump_per_command_refuted"
   ],
   "note": "False as stated: the overrides of the nine commands with a canonical spelling are popped (refuted). All other commands keep theirs."
  },
  {
   "property": "C80",
   "status": "partial",
   "theorems": [
    "C80_demo_command_refuted",
    "C80_other_commands"
   ],
   "note": "False as stated: a function named foo always has the flags and keywords of the demonstration (refuted, for every user table that does not declare it). Every other undeclared command is read by the standard table."
  },
  {
   "property": "C81",
   "status": "partial",
   "theorems": [
    "C81_check_after_in_place_partial",
    "C81_check_after_in_place_refuted",
    "C81_run"
   ],
   "note": "False as stated: a file that begins with two empty lines fails the check right after being formatted (C81_check_after_in_place_refuted). Proved for distinct paths none of which is a temporary name, files of the C75 kind (no comments or switches), require_valid_layout off, line_ending not auto; C81_run holds for every formatter and every text that formatting settles."
  },
  {
   "property": "C82",
   "status": "partial",
   "theorems": [
    "C82_ends_partial",
    "C82_ends_refuted"
   ],
   "note": "False as stated: C82_ends_refuted gives a file whose set() values make the expansion loop run forever. Partial: when dollar signs in set() values occur only in plain references or harmlessly, the command ends."
  },
  {
   "property": "C83",
   "status": "partial",
   "theorems": [
    "C83_declared_partial",
    "C83_declared_refuted"
   ],
   "note": "False as stated: refuted for the PARSE_ARGV form, variables set in nested blocks, list(APPEND) and nested definitions. Partial: for a command defined once whose body sets variables and calls cmake_parse_arguments outside nested blocks, loading the output gives exactly the declared flags and keywords (special names and the keyword COMMAND excluded)."
  },
  {
   "property": "C84",
   "status": "partial",
   "theorems": [
    "C84_union",
    "C84_unreadable_partial",
    "C84_unreadable_refuted"
   ],
   "note": "False as stated: refuted by any undecodable file that is not the first one. Partial: unopenable files and an undecodable first file end the command with a failure; when all files are readable the output is the union (C84_union)."
  },
  {
   "property": "C85",
   "status": "proved",
   "theorems": [
    "C05_file_lossless",
    "C05_parse_lossless"
   ],
   "note": "Same theorem as the positive part of C05."
  },
  {
   "property": "C86",
   "status": "proved",
   "theorems": [
    "C17_cmdline_first_file",
    "C17_lint_cmdline_every_file",
    "C159_namespace"
   ],
   "note": "Positive part of C17; the second file of a cmake-format run is refuted there."
  },
  {
   "property": "C87",
   "status": "proved",
   "theorems": [
    "C24_disable_noop"
   ],
   "note": "Positive part of C24; the command-line switch is refuted there."
  },
  {
   "property": "C88",
   "status": "proved",
   "theorems": [
    "C29_basics"
   ],
   "note": "Positive part of C29 with the length as the code measures it."
  },
  {
   "property": "C89",
   "status": "proved",
   "theorems": [
    "C34_file_texts",
    "C34_file_pairs",
    "C34_file_tree"
   ],
   "note": "Positive part of C34, where the two exceptions (trailing blanks in strings, tabs) are refuted: normalized line endings strip the blanks."
  },
  {
   "property": "C90",
   "status": "proved",
   "theorems": [
    "C35_file_comments",
    "C35_nothing_behind_a_comment"
   ],
   "note": "Positive part of C35."
  },
  {
   "property": "C91",
   "status": "proved",
   "theorems": [
    "C39_regions",
    "C39_region"
   ],
   "note": "Positive part of C39."
  },
  {
   "property": "C92",
   "status": "proved",
   "theorems": [
    "C41_plain_comment",
    "C41_lines_kept"
   ],
   "note": "Positive part of C41."
  },
  {
   "property": "C93",
   "status": "proved",
   "theorems": [
    "C46_user_command"
   ],
   "note": "Positive part of C46."
  },
  {
   "property": "C94",
   "status": "proved",
   "theorems": [
    "C61_builtin_case",
    "C61_case_variant"
   ],
   "note": "Positive part of C61 with prefix matching and templates as the code has them."
  },
  {
   "property": "C95",
   "status": "proved",
   "theorems": [
    "C48_balanced",
    "C48_shown"
   ],
   "note": "Positive part of C48."
  },
  {
   "property": "C96",
   "status": "proved",
   "theorems": [
    "C96_clean_lines"
   ],
   "note": "The condition on tokens is neat_tok; configurations whose fence pattern or explicit trailing pattern brings in odd blanks are excluded by neat_markup."
  },
  {
   "property": "C97",
   "status": "partial",
   "theorems": [
    "C97_windows_refuted"
   ],
   "note": "False as stated: refuted for every file. The check takes the empty text behind the last newline for a line with unix ending, so every windows file the formatter writes is reported."
  },
  {
   "property": "C98",
   "status": "proved",
   "theorems": [
    "C98_commands_indented",
    "C98_commands_lined"
   ],
   "note": "C98_commands_indented places the command names among the texts of the page (C34); C98_commands_lined says it of the text. The depth is that of the parse tree."
  },
  {
   "property": "C99",
   "status": "proved",
   "theorems": [
    "C99_lines_of_items"
   ],
   "note": "proved on the pages written without use_tabchars and without format switches; the comment formatter is the modelled one (C44)"
  },
  {
   "property": "C100",
   "status": "proved",
   "theorems": [
    "C100_short_commands"
   ],
   "note": "The words of a command are the tokens of its node (roles), the text written for each is that of C34; flatb states which commands are meant."
  },
  {
   "property": "C101",
   "status": "proved",
   "theorems": [
    "C101_restyle",
    "C101_idempotent"
   ],
   "note": "End to end for two runs with different options. Hypotheses of the English statement in the theorem: settled_source (C74's conditions, apart, starts_low), overrides, plain_passes2."
  },
  {
   "property": "C102",
   "status": "proved",
   "theorems": [
    "C102_restyle",
    "C102_idempotent",
    "C102_twins_refuted"
   ],
   "note": "The per-comment condition is the boolean redone. C102_twins_refuted shows that comments directly below each other in different columns have to be excluded."
  },
  {
   "property": "C103",
   "status": "proved",
   "theorems": [
    "C103_check_after_in_place",
    "C103_in_place_again"
   ],
   "note": "For the files of C101 and C102 (options: unix line endings, spaces, no autosort, no require_valid_layout, default pass rules) the second run of -i makes no file system step and --check succeeds."
  },
  {
   "property": "C104",
   "status": "proved",
   "theorems": [
    "C104_report"
   ],
   "note": "Corrected form of C60: the exact faults that remain are hypotheses; everything else the checks rely on is derived from the lexer and parser. Each condition has a crashing file beside the theorem."
  },
  {
   "property": "C105",
   "status": "proved",
   "theorems": [
    "C06_tuple_keeps_args_partial"
   ],
   "note": "Corrected form of C06, which is refuted for switches and at end of input; C105 speaks of the runs that return."
  },
  {
   "property": "C106",
   "status": "proved",
   "theorems": [
    "C07_parse_terminates_partial",
    "C07_file_terminates_partial"
   ],
   "note": "Corrected form of C07 (if(AND#x hangs)."
  },
  {
   "property": "C107",
   "status": "proved",
   "theorems": [
    "C27_intervals_partial"
   ],
   "note": "Corrected form of C27, refuted for nested pragmas."
  },
  {
   "property": "C108",
   "status": "proved",
   "theorems": [
    "C28_status_partial",
    "C28_values"
   ],
   "note": "Corrected form of C28, whose runs with an escaping exception are refuted there."
  },
  {
   "property": "C109",
   "status": "proved",
   "theorems": [
    "C42_single_spaced_partial"
   ],
   "note": "Corrected form of C42, refuted for runs of blanks."
  },
  {
   "property": "C110",
   "status": "proved",
   "theorems": [
    "C47_counts_partial",
    "C47_exact_group"
   ],
   "note": "Corrected form of C47, refuted for counts given as a string of digits."
  },
  {
   "property": "C111",
   "status": "proved",
   "theorems": [
    "C50_block_structure_partial"
   ],
   "note": "Corrected form of C50."
  },
  {
   "property": "C112",
   "status": "proved",
   "theorems": [
    "C69_indentation"
   ],
   "note": "Corrected form of C69: lines without leading blanks are never reported."
  },
  {
   "property": "C113",
   "status": "proved",
   "theorems": [
    "C79_dump_per_command_partial"
   ],
   "note": "Corrected form of C79."
  },
  {
   "property": "C114",
   "status": "proved",
   "theorems": [
    "C82_ends_partial"
   ],
   "note": "Corrected form of C82."
  },
  {
   "property": "C115",
   "status": "proved",
   "theorems": [
    "C83_declared_partial"
   ],
   "note": "Corrected form of C83; special names (the keyword COMMAND and names with a fixed meaning in a specification) are excluded."
  },
  {
   "property": "C116",
   "status": "proved",
   "theorems": [
    "C84_union",
    "C84_unreadable_partial"
   ],
   "note": "Corrected form of C84, refuted for an undecodable file behind the first."
  },
  {
   "property": "C117",
   "status": "proved",
   "theorems": [
    "C117_report"
   ],
   "note": "Exact: under the conditions of C104, with the remarks of the shipped parsers modelled function by function (ParserLint)."
  },
  {
   "property": "C118",
   "status": "proved",
   "theorems": [
    "C118_remarks",
    "C118_places"
   ],
   "note": "Exact in both directions, with place and text of the finding; C118_places says independently where in the file the arguments of a statement begin."
  },
  {
   "property": "C119",
   "status": "proved",
   "theorems": [
    "C119_names"
   ],
   "note": "For every run of lint_file that ends with a result and any meaning of the patterns (lc_re). The parsers are assumed to give only their own codes, which plint_coded proves of the modelled ones. The keyword INTERNAL is compared as written, as the code does."
  },
  {
   "property": "C120",
   "status": "proved",
   "theorems": [
    "C120_empty_docstring"
   ],
   "note": "Exact description of the C0112 findings."
  },
  {
   "property": "C121",
   "status": "proved",
   "theorems": [
    "C121_pragma_remarks"
   ],
   "note": "Exact description of the E0011 and E0012 findings; whether a comment node inside a command is visited is the open parameter lc_cnode."
  },
  {
   "property": "C122",
   "status": "partial",
   "theorems": [
    "C122_pragma_column_refuted",
    "C122_pragma_column_partial"
   ],
   "note": "False as stated: refuted (words with an equals sign are not counted, so later remarks point too far left). Proved when single blanks separate the words and no earlier word has an equals sign."
  },
  {
   "property": "C123",
   "status": "proved",
   "theorems": [
    "C123_custom_parser"
   ],
   "note": "Exact description of the C0201 findings; which nodes are conditional groups is the open parameter lc_cond."
  },
  {
   "property": "C124",
   "status": "proved",
   "theorems": [
    "C124_missing_arguments",
    "C118_places",
    "C124_behind"
   ],
   "note": "Exact description of the E1120 findings, with the remarks of the argument parsers; C118_places and C124_behind give the places."
  },
  {
   "property": "C125",
   "status": "proved",
   "theorems": [
    "C125_half_references"
   ],
   "note": "Exact for all files whose run ends; the text in which references are replaced is that of C30."
  },
  {
   "property": "C126",
   "status": "partial",
   "theorems": [
    "C126_closing_refuted",
    "C126_closing_partial"
   ],
   "note": "False as stated: refuted by set(x \"${CMAKE_BUILD_TYPE\"), reported as missing an open tag, and by set(x \"$nothing ${CMAKE_BUILD_TYPE\"), where the run fails with an UnboundLocalError. Partial: in a run that ends such an argument gets a report that some tag is missing unless its first half reference is $ENV."
  },
  {
   "property": "C127",
   "status": "proved",
   "theorems": [
    "C127_tab_policy"
   ],
   "note": "Exact for all files, all options and all argument parsers whose remarks use their own codes."
  },
  {
   "property": "C128",
   "status": "partial",
   "theorems": [
    "C128_reported_refuted",
    "C128_reported_partial"
   ],
   "note": "False as stated: refuted for C0102, R0914 and W0104, which no file and no options give. Partial: every other code is given by one file."
  },
  {
   "property": "C129",
   "status": "proved",
   "theorems": [
    "C129_first_comment"
   ],
   "note": "For every file without switches; the block is described by its tokens, the lines by their text."
  },
  {
   "property": "C130",
   "status": "partial",
   "theorems": [
    "C130_literal_refuted",
    "C129_first_comment"
   ],
   "note": "False as stated: refuted behind a byte-order mark, where the mark counts as the first token and the comment is reflowed, and by a line that begins with two hash signs. C129 is what holds."
  },
  {
   "property": "C131",
   "status": "proved",
   "theorems": [
    "C131_statements",
    "C131_file"
   ],
   "note": "Unbounded, over the whole parser and the shipped tables; the file version compares the complete output of process_file for both settings."
  },
  {
   "property": "C132",
   "status": "partial",
   "theorems": [
    "C132_annotated_sorted_refuted"
   ],
   "note": "False as stated: refuted by C132_annotated_sorted_refuted. enable_sort is read nowhere, so nothing is sorted unless autosort is set; and add_executable.py 98-101 tests for unsort twice, so a sortable note has no effect there even with autosort."
  },
  {
   "property": "C133",
   "status": "proved",
   "theorems": [
    "C133_dangling"
   ],
   "note": "whole files; the column for child is either the one behind the opening parenthesis or one indentation, as the arguments are wrapped or not; format switches and tab indentation are outside"
  },
  {
   "property": "C134",
   "status": "proved",
   "theorems": [
    "C134_restyle",
    "C134_idempotent"
   ],
   "note": "C134_idempotent for any blanks, C134_restyle for single blanks. Literal comments (first_comment_is_literal, literal_comment_pattern, a first line beginning with #!) are excluded by hypothesis; the explicit trailing pattern must not match a hash followed by a space. settled_source is the file condition of C101."
  },
  {
   "property": "C135",
   "status": "proved",
   "theorems": [
    "C135_vertical"
   ],
   "note": "for files whose formatting succeeds and that contain no format switch; the specification's own limit is that of the parse tree"
  },
  {
   "property": "C136",
   "status": "partial",
   "theorems": [
    "C136_lines_refuted"
   ],
   "note": "False as stated: refuted by a call of the default configuration (limit 2) that is written on three lines; the code compares the difference of the first and last rows with the limit"
  },
  {
   "property": "C137",
   "status": "partial",
   "theorems": [
    "C137_always_wrap_refuted"
   ],
   "note": "False as stated: refuted by get(a b c) with always_wrap = get, which stays on one line; only longer names are affected"
  },
  {
   "property": "C138",
   "status": "partial",
   "theorems": [
    "C138_prefix_refuted"
   ],
   "note": "False as stated: refuted by a name of 16 letters with two long arguments under the default configuration, which stays un-nested on two lines"
  },
  {
   "property": "C139",
   "status": "proved",
   "theorems": [
    "C139_lines_limit"
   ],
   "note": "Positive counterpart of C136. Comments inside the group, format switches, autosort and tab output are outside the statement; the vertical form is the tower of C135."
  },
  {
   "property": "C140",
   "status": "proved",
   "theorems": [
    "C140_python_sections"
   ],
   "note": ""
  },
  {
   "property": "C141",
   "status": "proved",
   "theorems": [
    "C141_python_dump",
    "C141_python_dump_runs_alike",
    "C159_namespace"
   ],
   "note": "pprint's text of a value is taken to denote the value"
  },
  {
   "property": "C142",
   "status": "partial",
   "theorems": [
    "C142_variables_partial",
    "C142_variables_refuted"
   ],
   "note": "False as stated: refuted for names such as keys, which are attributes of dict; proved for all other names and values that are no mappings"
  },
  {
   "property": "C143",
   "status": "partial",
   "theorems": [
    "C143_config_errors_partial",
    "C143_config_errors_refuted"
   ],
   "note": "False as stated: a syntax error in a .yaml file and an unreadable file without ending raise other exceptions; proved for missing files, ValueErrors and python files, and the choice of the notation"
  },
  {
   "property": "C144",
   "status": "proved",
   "theorems": [
    "C144_nesting"
   ],
   "note": "For every file: nests states the text between prefix and arguments (follows), with the first word of the group found behind it."
  },
  {
   "property": "C145",
   "status": "partial",
   "theorems": [
    "C145_formats_partial",
    "C145_formatted_back",
    "C145_literal_exact_partial",
    "C145_clean_partial",
    "C145_refuted",
    "C145_stacked_refuted",
    "C145_dangle_off_refuted"
   ],
   "note": "False as stated: refuted by an unterminated if block (AssertionError), by two aligned trailing bracket comments (ValueError) and by dangle_align = off, a documented choice (ValueError on every command). Proved for every file: with closed blocks, comments the comment formatter can wrap, one of the three working dangle_align values, pass lists that begin with pass 0 and spaces for indentation, the run yields a text; only a format-off region that cuts a character may raise UnicodeError. Conversely a formatted file has closed blocks and wrapped comments; with comment markup off the condition is exact."
  },
  {
   "property": "C146",
   "status": "partial",
   "theorems": [
    "C146_tools_partial",
    "C146_tools_explicit_partial",
    "C146_tools_dashes_partial",
    "C146_only_paths_partial",
    "C146_refuted",
    "C146_silent_refuted",
    "C146_list_refuted"
   ],
   "note": "False as stated: refuted by 'cmake-format --dangle-parens CMakeLists.txt' (the path becomes the value of the boolean, no file is processed and the exit status is 0) and '--always-wrap foo CMakeLists.txt'. Proved: paths in front of the options, paths behind --, and paths anywhere when every option that takes a value is written --name=value, are exactly the files processed"
  },
  {
   "property": "C147",
   "status": "partial",
   "theorems": [
    "C147_option_partial",
    "C147_list_partial",
    "C147_last_wins",
    "C147_effective_partial",
    "C147_refuted",
    "C147_dictionaries_refuted"
   ],
   "note": "False as stated: refuted for vartags and proptags (the command line gives only lists of strings) and for the dictionaries (no option at all). Proved for all booleans, integers, strings and lists of strings; the effective configuration of the first file of the run; the last setting wins"
  },
  {
   "property": "C148",
   "status": "proved",
   "theorems": [
    "C148_reported"
   ],
   "note": "for both programs; abbreviations of option names are accepted by argparse and are not misspellings here"
  },
  {
   "property": "C149",
   "status": "proved",
   "theorems": [
    "C149_types"
   ],
   "note": "for both programs and all 59 variables"
  },
  {
   "property": "C150",
   "status": "proved",
   "theorems": [
    "C150_check"
   ],
   "note": ""
  },
  {
   "property": "C151",
   "status": "proved",
   "theorems": [
    "C151_on_request"
   ],
   "note": ""
  },
  {
   "property": "C152",
   "status": "proved",
   "theorems": [
    "C152_modes",
    "C152_paths"
   ],
   "note": ""
  },
  {
   "property": "C153",
   "status": "partial",
   "theorems": [
    "C153_stdin_partial",
    "C153_refuted",
    "C153_leftover_refuted"
   ],
   "note": "False as stated: refuted by 'cmake-format -i -', which writes -.cmf-temp in the working directory, then fails to copy the mode of - and leaves the file behind (status 1). Proved for command lines without -i / --in-place"
  },
  {
   "property": "C154",
   "status": "partial",
   "theorems": [
    "C154_clean_partial",
    "C154_usage_refuted",
    "C154_refuted",
    "C154_swallowed_refuted"
   ],
   "note": "False as stated: main returns 0 for SystemExit, so every misspelt option gives status 0 without scanning anything (C154_usage_refuted, for every such command line), as do options that take the path for their value (C154_swallowed_refuted). Proved for accepted command lines, for the paths that the parser finds"
  },
  {
   "property": "C155",
   "status": "proved",
   "theorems": [
    "C155_only_report",
    "C155_on_request"
   ],
   "note": ""
  },
  {
   "property": "C156",
   "status": "partial",
   "theorems": [
    "C156_scanned_partial",
    "C156_refuted"
   ],
   "note": "False as stated: with -o a.cmake a.cmake the file is truncated before it is read. Proved when the report is not among the inputs"
  },
  {
   "property": "C157",
   "status": "proved",
   "theorems": [
    "C157_formatted",
    "C157_open_fails",
    "C157_only_if"
   ],
   "note": "Exact for files without switches and stacked bracket comments under literal comments; the direction from open blocks to failure holds in general. The sequence of commands is read off the parse tree."
  },
  {
   "property": "C158",
   "status": "proved",
   "theorems": [
    "C158_paths",
    "C158_only_given"
   ],
   "note": "The corrected form of C146."
  },
  {
   "property": "C159",
   "status": "proved",
   "theorems": [
    "C159_settings",
    "C159_lists",
    "C159_namespace"
   ],
   "note": "The corrected form of C147; the effect on later files of a run is C53."
  },
  {
   "property": "C160",
   "status": "proved",
   "theorems": [
    "C160_only_output",
    "C160_on_request"
   ],
   "note": "The text written is a parameter of the model of the program; see C160_only_output for the file named by the parsed options."
  },
  {
   "property": "C161",
   "status": "partial",
   "theorems": [
    "C161_refuted",
    "C161_broken"
   ],
   "note": "False as stated: refuted by C161_refuted. C161_broken says when: the value is taken for the list of its characters, so the run fails unless the first character is the path of a configuration file."
  },
  {
   "property": "C162",
   "status": "partial",
   "theorems": [
    "C162_input_refuted",
    "C162_output_lost",
    "C162_inputs_partial"
   ],
   "note": "False as stated: refuted by C162_input_refuted (-o a a empties a before it is read) and C162_output_lost (every run that fails to read or annotate its input has emptied the output). Inputs other than the output are unchanged."
  },
  {
   "property": "C163",
   "status": "proved",
   "theorems": [
    "C163_pages",
    "C163_stdin_alone",
    "C163_config"
   ],
   "note": "C163_config: the configuration of an input is that of its configuration files, whatever the options."
  },
  {
   "property": "C164",
   "status": "proved",
   "theorems": [
    "C164_shown"
   ],
   "note": "A browser is modelled by dropping everything from < to >; the texts inside style and script elements count as shown."
  },
  {
   "property": "C165",
   "status": "partial",
   "theorems": [
    "C165_refuted",
    "C165_conversion_partial"
   ],
   "note": "False as stated: refuted by C165_refuted, a trailing comment that is wrapped is aligned with tabs and comes apart in the second run. The conversion itself changes nothing the second time (C165_conversion_partial)."
  },
  {
   "property": "C166",
   "status": "proved",
   "theorems": [
    "C166_only_output",
    "C166_on_request",
    "C166_kept",
    "C166_written"
   ],
   "note": "Reading, decoding and the text of the dump are parameters; the parsing of the command line and everything between reading and dumping is modelled."
  },
  {
   "property": "C167",
   "status": "partial",
   "theorems": [
    "C167_partial",
    "C167_broken",
    "C167_refuted"
   ],
   "note": "False as stated: refuted by C167_refuted, and C167_broken shows that it fails for every list of inputs: main prints the path of each input. C167_partial: it holds without inputs; with -o see C166_written."
  },
  {
   "property": "C168",
   "status": "proved",
   "theorems": [
    "C168_lint",
    "C168_annotate"
   ],
   "note": "The configuration found for a path, decoding and which paths can be opened for writing are parameters and the same in both runs."
  },
  {
   "property": "C169",
   "status": "partial",
   "theorems": [
    "C169_partial",
    "C169_refuted"
   ],
   "note": "False as stated: refuted by C169_refuted, when the output is one of the inputs the second run reads the result of the first. C169_partial: it holds whenever the output is not among the inputs."
  }
 ]
}
