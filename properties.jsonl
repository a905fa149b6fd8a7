{"id": "C01", "title": "Lexing is total", "statement": "Tokenizing any text file succeeds: the lexer never stops in the middle of the file and the 'unparsed characters' error is never raised.", "quantifier": "every unicode string", "why_tests_cant": "The pattern list interacts with look-behind/look-ahead and a catch-all with three alternatives; only a proof covers every code point in every context.", "anchors": ["cmakelang/lex/__init__.py:tokenize"]}
{"id": "C02", "title": "Lexing is lossless", "statement": "Concatenating the spellings of the tokens, in order, gives back exactly the input text (BOM included); no character is dropped, duplicated or reordered and no token is empty.", "quantifier": "every unicode string", "why_tests_cant": "Ranges over every string, including unterminated quotes and brackets.", "anchors": ["cmakelang/lex/__init__.py:tokenize"]}
{"id": "C03", "title": "Token locations are correct", "statement": "Every token's recorded line, column and byte offset are the 1-based line number, 0-based column and UTF-8 byte offset of its first character in the text after the BOM.", "quantifier": "every string, every token of it", "why_tests_cant": "Offsets accumulate over the whole token history; multi-line tokens and multi-byte characters interact.", "anchors": ["cmakelang/lex/__init__.py:tokenize"]}
{"id": "C04", "title": "Every token has the shape its class promises", "statement": "A line-comment token never contains a newline, newline tokens are exactly \\n, \\r\\n or \\r, whitespace tokens contain only blanks, paren tokens are single characters; hence a line comment ends at the first newline. A quoted literal ends at the first quote that is not escaped, a bracket comment at the first matching close bracket, words are made of letters, digits and underscores (the first character is not a digit but may be any ASCII character from A to z), numbers of digits with an optional minus sign.", "quantifier": "every string, every token", "why_tests_cant": "Needs the regexes to be analysed on all strings.", "anchors": ["cmakelang/lex/__init__.py:tokenize"]}
{"id": "C05", "title": "Parsing is lossless", "statement": "For every table of command specifications, whenever parsing succeeds the leaves of the parse tree, left to right, are exactly the token stream (BOM removed).", "quantifier": "every token list, every command-spec table (standard or user-supplied)", "why_tests_cant": "The parser is a family of mutually recursive consuming loops over an open-ended spec language.", "anchors": ["cmakelang/parse/argument_nodes.py:StandardArgTree.parse2", "cmakelang/parse/argument_nodes.py:PositionalGroupNode.parse2", "cmakelang/parse/argument_nodes.py:KeywordGroupNode.parse", "cmakelang/parse/simple_nodes.py:CommentNode.consume", "cmakelang/parse/statement_node.py:StatementNode.consume", "cmakelang/parse/body_nodes.py:BodyNode.consume", "cmakelang/parse/additional_nodes.py:TupleGroupNode.parse"]}
{"id": "C06", "title": "No parser drops an argument: tuple groups", "statement": "The tuple-group parser used for PROPERTIES-like argument lists keeps every token when a format on/off sentinel follows an argument, and does not crash at end of input.", "quantifier": "every token list", "why_tests_cant": "A specific interleaving of sentinel and argument; found only by trying to prove C05.", "anchors": ["cmakelang/parse/additional_nodes.py:TupleGroupNode.parse"]}
{"id": "C07", "title": "Parsing terminates", "statement": "Parsing any token stream against any command-spec table finishes (with a tree or an error); it never loops forever.", "quantifier": "every token list and spec table", "why_tests_cant": "Termination is a liveness property; a timeout cannot distinguish slow from never.", "anchors": ["cmakelang/parse/argument_nodes.py:ConditionalGroupNode.parse", "cmakelang/parse/argument_nodes.py:PositionalGroupNode.parse2", "cmakelang/parse/body_nodes.py:BodyNode.consume"]}
{"id": "C08", "title": "Normalization leaves no trailing blanks and only unix newlines", "statement": "After the input normalization step no newline-terminated line ends with a space, tab, form feed or vertical tab, and there is no carriage return. (A last line without terminator is left alone.)", "quantifier": "every string", "why_tests_cant": "Universal over strings; the regex is greedy and mixes \\r\\n, \\n and lone \\r.", "anchors": ["cmakelang/format/formatter.py:normalize_line_endings"]}
{"id": "C09", "title": "Normalization is idempotent", "statement": "Normalizing the line endings of an already normalized text changes nothing.", "quantifier": "every string", "why_tests_cant": "Universal over strings.", "anchors": ["cmakelang/format/formatter.py:normalize_line_endings"]}
{"id": "C10", "title": "Normalization preserves everything else", "statement": "Normalization only removes trailing blanks and rewrites line terminators: the sequence of non-blank, non-terminator characters and the number of lines are unchanged.", "quantifier": "every string", "why_tests_cant": "Universal over strings.", "anchors": ["cmakelang/format/formatter.py:normalize_line_endings"]}
{"id": "C11", "title": "Line ending detection is a majority vote", "statement": "Automatic line-ending detection answers 'windows' exactly when the text has strictly more CRLF terminators than bare LF terminators, else 'unix'.", "quantifier": "every string", "why_tests_cant": "Universal; str.count on overlapping needles is easy to get wrong.", "anchors": ["cmakelang/format/__main__.py:detect_line_endings"]}
{"id": "C12", "title": "Tab replacement preserves visual indentation and content", "statement": "With tab indentation enabled and policy use-space, every line keeps its content and its indentation measured with tab stops; with round-up the indentation is rounded up to the next tab stop and is made only of tabs.", "quantifier": "every text, every tab size > 0, both policies", "why_tests_cant": "Universal over texts and widths.", "anchors": ["cmakelang/format/formatter.py:replace_with_tabs", "cmakelang/format/formatter.py:count_indentation"]}
{"id": "C13", "title": "Output cursor bookkeeping", "statement": "While writing a layout, after any sequence of writes the output cursor's row/column equals the number of newlines written and the length of the last line, and a positioned write either raises or places the text exactly at the requested row/column preceded only by newlines and spaces.", "quantifier": "every sequence of write operations", "why_tests_cant": "A history property over arbitrary sequences of writes.", "anchors": ["cmakelang/format/formatter.py:CursorFile"]}
{"id": "C14", "title": "Each config file merge keeps unrelated keys and lets later files win", "statement": "Merging a second configuration mapping into a first keeps every key of either, takes the second's value for scalar conflicts and merges nested mappings recursively.", "quantifier": "every pair of nested mappings", "why_tests_cant": "Arbitrary nesting depth.", "anchors": ["cmakelang/format/__main__.py:map_merge"]}
{"id": "C15", "title": "Config includes are resolved transitively, breadth first", "statement": "Loading configuration files visits every file reachable through include lists, breadth first, and merges them in visit order; with no include cycle it terminates.", "quantifier": "every finite include graph", "why_tests_cant": "Graph property; cycles need a non-termination argument.", "anchors": ["cmakelang/format/__main__.py:get_configdict", "cmakelang/format/__main__.py:get_one_config_dict"]}
{"id": "C16", "title": "Nearest configuration file wins", "statement": "The implicit configuration file is found in the nearest ancestor directory that has one, with the documented name priority inside that directory, and the search terminates at the root.", "quantifier": "every directory path and every set of existing files", "why_tests_cant": "Universal over directory trees.", "anchors": ["cmakelang/format/__main__.py:find_config_file"]}
{"id": "C17", "title": "Command-line overrides beat configuration files", "statement": "For every option given on the command line the effective value is the command-line value; options not given (None) never override the file value.", "quantifier": "every argument dictionary and configuration mapping", "why_tests_cant": "Universal over option sets.", "anchors": ["cmakelang/format/__main__.py:get_argdict", "cmakelang/format/__main__.py:onefile_main", "cmakelang/config_util.py:ConfigObject.consume_known"]}
{"id": "C18", "title": "Per-command configuration takes precedence", "statement": "Resolving an option for a command returns the per-command qualified value, else the per-command unqualified value, else the global value, with case-insensitive command names.", "quantifier": "every configuration and command name", "why_tests_cant": "Universal over mappings.", "anchors": ["cmakelang/configuration.py:Configuration.resolve_for_command", "cmakelang/configuration.py:MiscConfig._update_derived"]}
{"id": "C19", "title": "Check mode never writes and exits 1 exactly when a file would change", "statement": "With --check no file is ever modified; the exit status is 1 iff for some input the formatted text differs from the input (or formatting failed).", "quantifier": "every list of input files, every file system state, every formatter outcome", "why_tests_cant": "Histories over several files with failures mixed in.", "anchors": ["cmakelang/format/__main__.py:onefile_main", "cmakelang/format/__main__.py:inner_main"]}
{"id": "C20", "title": "In-place formatting does not touch an unchanged file", "statement": "With --in-place, if the formatted text equals the input no write, rename or chmod of the file happens.", "quantifier": "every file content", "why_tests_cant": "Must hold for all contents and runs.", "anchors": ["cmakelang/format/__main__.py:onefile_main"]}
{"id": "C21", "title": "In-place formatting is crash safe", "statement": "If the process dies at any point during an in-place rewrite, the target file holds either its complete old contents or its complete new contents, never a mixture or an empty file.", "quantifier": "every crash point, every old and new content", "why_tests_cant": "Crash points cannot be enumerated by tests; needs a step-indexed model.", "anchors": ["cmakelang/format/__main__.py:onefile_main"]}
{"id": "C22", "title": "A failing file does not stop or corrupt the others", "statement": "If formatting one file raises a format error, that file is left untouched, the remaining files are still processed, and the exit status is non-zero.", "quantifier": "every list of files and every failure pattern", "why_tests_cant": "All failure patterns.", "anchors": ["cmakelang/format/__main__.py:inner_main", "cmakelang/format/__main__.py:onefile_main"]}
{"id": "C23", "title": "require_valid_layout writes nothing when the layout is invalid", "statement": "When a valid layout is required and the layout does not fit, nothing is written to any output and the exit status is 1.", "quantifier": "every file and configuration", "why_tests_cant": "All inputs whose layout fails.", "anchors": ["cmakelang/format/__main__.py:process_file", "cmakelang/format/__main__.py:onefile_main"]}
{"id": "C24", "title": "disable makes the tool a no-op", "statement": "With formatting disabled the in-place target is never modified.", "quantifier": "every input", "why_tests_cant": "All inputs.", "anchors": ["cmakelang/format/__main__.py:process_file", "cmakelang/format/__main__.py:onefile_main"]}
{"id": "C25", "title": "Disabled lint codes are never reported", "statement": "A lint code listed as disabled never appears in the lint report.", "quantifier": "every sequence of lint records and suppressions", "why_tests_cant": "All histories of the lint context.", "anchors": ["cmakelang/lint/lint_util.py:FileContext.record_lint", "cmakelang/lint/lint_util.py:FileContext.get_lint"]}
{"id": "C26", "title": "Lint report is sorted and complete", "statement": "The report is ordered by location then code then discovery order; it contains each recorded, unsuppressed record exactly once and nothing else.", "quantifier": "every sequence of recorded lint", "why_tests_cant": "All histories.", "anchors": ["cmakelang/lint/lint_util.py:FileContext.get_lint"]}
{"id": "C27", "title": "Suppression pragmas apply to exactly their scope", "statement": "A code suppressed from line a to line b is not reported for lines in [a,b) and a record outside every suppression interval of its code is reported.", "quantifier": "every sequence of suppression events", "why_tests_cant": "Event ordering matters; nested bodies register events out of order.", "anchors": ["cmakelang/lint/lint_util.py:FileContext.suppress", "cmakelang/lint/lint_util.py:FileContext.unsuppress", "cmakelang/lint/lint_util.py:FileContext.get_lint", "cmakelang/lint/basic_checker.py:LintChecker.check_body"]}
{"id": "C28", "title": "Lint exit status", "statement": "cmake-lint returns 1 exactly when some scanned file has unsuppressed lint or could not be read, 0 otherwise.", "quantifier": "every list of files", "why_tests_cant": "All combinations.", "anchors": ["cmakelang/lint/__main__.py:inner_main"]}
{"id": "C29", "title": "Basic line checks are exact", "statement": "Line-length, trailing whitespace, wrong line ending and missing final newline are reported exactly for the lines having that defect.", "quantifier": "every file, every line, every configuration", "why_tests_cant": "All inputs.", "anchors": ["cmakelang/lint/basic_checker.py:LintChecker.check_basics"]}
{"id": "C30", "title": "Variable reference mocking terminates", "statement": "Repeatedly replacing variable references by a dummy terminates for every token and leaves no reference.", "quantifier": "every string, every replacement free of '$'", "why_tests_cant": "Termination over all strings.", "anchors": ["cmakelang/lint/basic_checker.py:mock_varrefs"]}
{"id": "C31", "title": "Argument sorting is a stable permutation", "statement": "Sorting a sortable argument list permutes the arguments, orders them case-insensitively, keeps equal arguments in input order, and keeps leading comments/flags in front and comments attached to their argument.", "quantifier": "every argument list", "why_tests_cant": "Universal over lists.", "anchors": ["cmakelang/format/formatter.py:sort_arguments"]}
{"id": "C32", "title": "Sorting is idempotent", "statement": "Sorting an already sorted argument list changes nothing.", "quantifier": "every argument list", "why_tests_cant": "Universal.", "anchors": ["cmakelang/format/formatter.py:sort_arguments"]}
{"id": "C33", "title": "Layout placement is monotone", "statement": "For every layout tree every written piece starts at or behind the end of the previous one in row-major order, so that pieces do not overlap and the writer's ordering assertion never fires.", "quantifier": "every file that parses, with or without format-off regions, every width/tab/wrap configuration without changed-length spellings", "why_tests_cant": "The layout algorithm tries up to six passes recursively; only induction covers all trees.", "anchors": ["cmakelang/format/formatter.py:LayoutNode.reflow", "cmakelang/format/formatter.py:CursorFile.assert_lt"]}
{"id": "C34", "title": "Formatting preserves the token content", "statement": "The text written by the formatter for an active region is the sequence of the statement's tokens in order, separated only by blanks and newlines, up to the configured letter case of command names and keywords, comment reflow, and argument sorting.", "quantifier": "every parse tree, every configuration", "why_tests_cant": "Universal over programs and configurations.", "anchors": ["cmakelang/format/formatter.py:write_tree", "cmakelang/format/formatter.py:layout_tree"]}
{"id": "C35", "title": "No argument is swallowed by a comment", "statement": "Nothing is ever written after a line comment on the same output line.", "quantifier": "every parse tree, every configuration", "why_tests_cant": "A placement property across all wrap passes.", "anchors": ["cmakelang/format/formatter.py:PargGroupNode._reflow", "cmakelang/format/formatter.py:ArgGroupNode._reflow", "cmakelang/format/formatter.py:StatementNode._reflow", "cmakelang/format/formatter.py:ScalarNode.has_terminal_comment"]}
{"id": "C36", "title": "Accepted layouts respect the line width", "statement": "If the layout is reported valid then no placed piece outside raw (format off) regions extends past line_width columns.", "quantifier": "every file that parses, every configuration", "why_tests_cant": "Universal over trees and widths.", "anchors": ["cmakelang/format/formatter.py:LayoutNode._reflow", "cmakelang/format/__main__.py:process_file"]}
{"id": "C37", "title": "Layout search terminates with the last pass", "statement": "For every node the number of layout attempts is bounded by the configured pass list and the result is the first accepted attempt or the last one.", "quantifier": "every node, every pass list", "why_tests_cant": "Universal.", "anchors": ["cmakelang/format/formatter.py:LayoutNode.reflow"]}
{"id": "C38", "title": "Adjacent arguments stay separate", "statement": "Two distinct argument tokens of a statement that were separated in the input are never joined in the output, and an argument that was a single CMake argument in the input is never split in the output.", "quantifier": "every statement", "why_tests_cant": "Universal; depends on lexer/escape interactions.", "anchors": ["cmakelang/format/formatter.py:PargGroupNode._reflow", "cmakelang/lex/__init__.py:tokenize"]}
{"id": "C39", "title": "Format-off regions are byte exact", "statement": "Text between a format-off and a format-on sentinel in a file body is copied byte for byte from the (normalized) input, for files without a byte-order mark.", "quantifier": "every file, every off/on placement at statement level", "why_tests_cant": "Byte offsets vs code points over all strings.", "anchors": ["cmakelang/format/formatter.py:OnOffSwitchNode", "cmakelang/format/formatter.py:WriteContext"]}
{"id": "C40", "title": "Format-off regions survive a byte-order mark", "statement": "The same holds for files starting with a byte-order mark.", "quantifier": "every file starting with a BOM", "why_tests_cant": "Needs the offset bookkeeping of lexer and writer to agree for all inputs.", "anchors": ["cmakelang/lex/__init__.py:tokenize", "cmakelang/format/formatter.py:WriteContext"]}
{"id": "C41", "title": "Comment reflow never loses words", "statement": "Reflowing a markup comment block preserves the sequence of words of every paragraph and list item; verbatim and fenced lines are preserved up to trailing blanks.", "quantifier": "every comment block", "why_tests_cant": "Universal over comment text.", "anchors": ["cmakelang/markup.py:parse", "cmakelang/markup.py:format_item", "cmakelang/common.py:stable_wrap"]}
{"id": "C42", "title": "Comment wrapping always converges", "statement": "Wrapping a comment paragraph reaches a stable text and never raises the convergence assertion.", "quantifier": "every paragraph and width", "why_tests_cant": "A fixpoint iteration with a hard-coded bound.", "anchors": ["cmakelang/common.py:stable_wrap"]}
{"id": "C43", "title": "Wrapped comment lines respect the width", "statement": "Every reflowed comment line is at most the allotted width unless it is a single word that does not fit.", "quantifier": "every comment block, every width", "why_tests_cant": "Universal.", "anchors": ["cmakelang/markup.py:format_item", "cmakelang/common.py:stable_wrap"]}
{"id": "C44", "title": "All comment text survives formatting", "statement": "Every comment of the input appears in the output (possibly reflowed).", "quantifier": "every file", "why_tests_cant": "Universal over comment placements.", "anchors": ["cmakelang/format/formatter.py:CommentNode", "cmakelang/format/formatter.py:get_comment_lines"]}
{"id": "C45", "title": "Missing arguments do not crash the formatter", "statement": "A call that lacks required positional arguments is still formatted.", "quantifier": "every call and spec", "why_tests_cant": "Universal over specs.", "anchors": ["cmakelang/parse/argument_nodes.py:StandardArgTree.parse2"]}
{"id": "C46", "title": "User command specs are honoured", "statement": "The positional-argument count given for a keyword in a user command spec is the one used by the parser.", "quantifier": "every user spec", "why_tests_cant": "Universal over specs.", "anchors": ["cmakelang/parse/util.py:parse_pspec", "cmakelang/parse/util.py:CommandSpec"]}
{"id": "C47", "title": "Positional counts are interpreted consistently", "statement": "A positional group is considered full exactly when the number of consumed arguments reaches the documented maximum of its count specification, and its minimum never exceeds its maximum.", "quantifier": "every count specification and count", "why_tests_cant": "Universal over specs.", "anchors": ["cmakelang/parse/util.py:pargs_are_full", "cmakelang/parse/util.py:get_min_npargs"]}
{"id": "C48", "title": "HTML annotation preserves the source", "statement": "Removing the tags from the annotated output gives back the source text and the tags are balanced.", "quantifier": "every parse tree", "why_tests_cant": "Universal over trees.", "anchors": ["cmakelang/render.py:get_html"]}
{"id": "C49", "title": "HTML annotation escapes the source", "statement": "Source text containing <, > or & is rendered as text and not as markup.", "quantifier": "every parse tree", "why_tests_cant": "Universal over texts.", "anchors": ["cmakelang/render.py:get_html"]}
{"id": "C50", "title": "Block structure is parsed correctly", "statement": "An if/foreach/while/function/macro block's body ends at its own matching terminator: nested blocks are properly bracketed.", "quantifier": "every token stream", "why_tests_cant": "Arbitrary nesting depth.", "anchors": ["cmakelang/parse/body_nodes.py:FlowControlNode.consume", "cmakelang/parse/body_nodes.py:IfBlockNode.consume"]}
{"id": "C51", "title": "A formatting sentinel is a single comment line", "statement": "A token classified as a format on/off sentinel is one comment line: it never contains a newline.", "quantifier": "every source text", "why_tests_cant": "Universal over source texts; the sentinel pattern allows any whitespace between the words, including line breaks.", "anchors": ["cmakelang/lex/__init__.py:tokenize"]}
{"id": "C52", "title": "Writing to an explicit output path is crash safe", "statement": "If the process dies while writing to the path given with -o, that path holds either its complete old contents or the complete new text.", "quantifier": "every crash point, every old and new content", "why_tests_cant": "Crash points cannot be enumerated by tests.", "anchors": ["cmakelang/format/__main__.py:onefile_main"]}
{"id": "C53", "title": "Command-line options reach every file of a run", "statement": "When several files are given in one run, the options given on the command line apply to each of them.", "quantifier": "every list of files, every set of options, both tools", "why_tests_cant": "Depends on state carried from one file to the next.", "anchors": ["cmakelang/format/__main__.py:inner_main", "cmakelang/format/__main__.py:onefile_main", "cmakelang/config_util.py:ConfigObject.legacy_consume", "cmakelang/lint/__main__.py:inner_main"]}
{"id": "C54", "title": "User commands named like flow commands are honoured", "statement": "A specification the user gives for a command named if, elseif or while is the one its calls are parsed with.", "quantifier": "every user specification table", "why_tests_cant": "Universal over user tables.", "anchors": ["cmakelang/parse/funs/__init__.py:get_funtree"]}
{"id": "C55", "title": "Keywords in user specifications work in any letter case", "statement": "A keyword declared in a user command specification is recognised when a call uses it, whatever the letter case it was declared in, and never makes the parser fail.", "quantifier": "every specification and call", "why_tests_cant": "Universal over specifications and calls.", "anchors": ["cmakelang/parse/util.py:get_normalized_kwarg", "cmakelang/parse/argument_nodes.py:StandardArgTree.parse2"]}
{"id": "C56", "title": "Flags may be given in any order", "statement": "A flag declared for a later positional group does not make the parser fail when it is given first.", "quantifier": "every specification with several positional groups", "why_tests_cant": "Universal over specifications.", "anchors": ["cmakelang/parse/argument_nodes.py:StandardArgTree.parse2"]}
{"id": "C57", "title": "Specification overrides reach standard commands", "statement": "An override_spec entry naming a command of the standard table is accepted, and an out-of-range index is reported as a configuration error.", "quantifier": "every override entry and command", "why_tests_cant": "Universal over entries.", "anchors": ["cmakelang/parse/util.py:apply_overrides", "cmakelang/configuration.py:ParseConfig._update_derived"]}
{"id": "C58", "title": "An unclosed format-off region is kept", "statement": "If a file turns formatting off and never turns it on again at statement level, everything after the sentinel is still in the output.", "quantifier": "every file with a format-off sentinel that has no format-on counterpart", "why_tests_cant": "Loss of text on an unusual input; the existing tests always close the region.", "anchors": ["cmakelang/format/formatter.py:OnOffSwitchNode", "cmakelang/parse/body_nodes.py:BodyNode", "cmakelang/format/formatter.py:WriteContext"]}
{"id": "C59", "title": "A lint pragma covers the rest of its block", "statement": "A comment `# cmake-lint: disable=CODE` in a block switches CODE off for every line from the comment to the end of that block.", "quantifier": "every file, every block, every code", "why_tests_cant": "The line at which the suppression is lifted depends on the last token of every possible block; tests use a few blocks and never look at the last line.", "anchors": ["cmakelang/lint/basic_checker.py:LintChecker.check_body", "cmakelang/lint/lint_util.py:FileContext.get_lint"]}
{"id": "C60", "title": "cmake-lint reports on every file that parses", "statement": "For every file that tokenizes and parses, cmake-lint finishes its checks and yields a list of findings; no check ends in an exception.", "quantifier": "every file that parses, every lint configuration with a fixed line ending", "why_tests_cant": "The checks index into trees built from arbitrary text; tests run them on well-formed samples only.", "anchors": ["cmakelang/lint/__main__.py:process_file", "cmakelang/lint/basic_checker.py:LintChecker.check_parse_tree", "cmakelang/lint/basic_checker.py:LintChecker.check_body", "cmakelang/lint/basic_checker.py:LintChecker.check_tokens", "cmakelang/lint/basic_checker.py:get_scope_of_assignment"]}
{"id": "C61", "title": "Case warnings name builtin variables", "statement": "cmake-lint warns (W0105) about a name that is assigned with set() or list(), or referred to as ${name} in an argument, exactly if the name is a builtin CMake variable written in other letter case.", "quantifier": "every source text and lint configuration", "why_tests_cant": "The table has hundreds of names and templates; a test tries a few misspellings and never the names that merely begin like a builtin.", "anchors": ["cmakelang/lint/basic_checker.py:LintChecker.check_varname", "cmakelang/lint/basic_checker.py:LintChecker.check_variable_assignments", "cmakelang/lint/basic_checker.py:LintChecker.check_variable_references", "cmakelang/parse/variables.py:CASE_INSENSITIVE_REGEX"]}
{"id": "C62", "title": "break and continue outside a loop", "statement": "cmake-lint records E0103 for a break or continue statement exactly when no foreach or while block is open at that point of the file, following the nesting of if, while, foreach, function and macro blocks; the record names the statement and gives its position.", "quantifier": "every file the linter processes, every nesting of blocks, every configuration that does not disable E0103", "why_tests_cant": "The check walks ancestors and block triples of arbitrarily nested trees; tests show a handful of nestings.", "anchors": ["cmakelang/lint/basic_checker.py:LintChecker.check_is_in_loop", "cmakelang/lint/basic_checker.py:LintChecker.check_statement", "cmakelang/parse/body_nodes.py:FlowControlNode.get_block_with"]}
{"id": "C63", "title": "Parameter names of functions and macros", "statement": "For every function or macro definition the linter records E0109 for a parameter that is not a plain word, E0108 for one that repeats an earlier parameter, and C0202 for one that differs from an earlier parameter only in case, and for no other parameter.", "quantifier": "every file the linter processes, every definition, every list of parameters, every configuration that does not disable the code", "why_tests_cant": "Whether a parameter is reported depends on all earlier ones; the number of lists is unbounded.", "anchors": ["cmakelang/lint/basic_checker.py:LintChecker.check_argument_names", "cmakelang/lint/basic_checker.py:LintChecker.check_defn"]}
{"id": "C64", "title": "Repeated keywords are reported", "statement": "In every argument list of every statement, cmake-lint reports E1122 at a keyword (other than AND, OR, COMMAND, PATTERN and REGEX) exactly if the same keyword, up to letter case, has already started an earlier group of the same list; the only other E1122 reports are those of the parsers of single commands.", "quantifier": "every source text and lint configuration", "why_tests_cant": "Statements, nesting and keyword orders are unbounded.", "anchors": ["cmakelang/lint/basic_checker.py:LintChecker.check_arggroup"]}
{"id": "C66", "title": "Size limits of functions and macros", "statement": "A function or macro is reported for too many return statements, branches, statements or parameters exactly when the number in its body (nested blocks included) or parameter list is larger than the configured limit, and the message gives the true number and the limit.", "quantifier": "every file the linter processes, every definition, every limit", "why_tests_cant": "The counts come from a breadth-first search over trees of any shape; a test checks one count.", "anchors": ["cmakelang/lint/basic_checker.py:LintChecker.check_defn", "cmakelang/lint/basic_checker.py:LintChecker.check_argument_names", "cmakelang/lint/basic_checker.py:find_statements_in_subtree"]}
{"id": "C67", "title": "Spacing between statements", "statement": "A statement or block that is not the first thing in its body is recorded as C0321 exactly when no newline stands directly before it, and as C0305 (not enough / too many) exactly when the number of newlines directly before it is below or above the configured bounds, unless a pragma earlier in the body switches the code off.", "quantifier": "every file the linter processes, every body, every value of the spacing options", "why_tests_cant": "Quantifies over all bodies, all kinds of preceding nodes and all option values.", "anchors": ["cmakelang/lint/basic_checker.py:LintChecker.check_body"]}
{"id": "C68", "title": "Unreachable code", "statement": "The linter records W0101 for a return, break or continue statement exactly when some statement follows it in its own block, at any depth, unless a pragma earlier in the block switches the code off.", "quantifier": "every file the linter processes, every block", "why_tests_cant": "Completeness (every case is found) and soundness (nothing else is reported) over all trees.", "anchors": ["cmakelang/lint/basic_checker.py:LintChecker.check_body"]}
{"id": "C69", "title": "Indentation is checked on every line", "statement": "cmake-lint reports C0307 for a line exactly if its indentation is not the tab size times the number of enclosing blocks, or, inside an argument list, is less than that; tabs count as tab size columns.", "quantifier": "every source text and lint configuration", "why_tests_cant": "Depth, line structure and mixtures of tabs and blanks are unbounded.", "anchors": ["cmakelang/lint/basic_checker.py:LintChecker.check_token"]}
{"id": "C70", "title": "Missing comment before a definition", "statement": "The linter records C0111 for a function or macro definition exactly when the two things before it in its body are not a comment followed by whitespace with at most one newline, unless a pragma earlier in the body switches the code off.", "quantifier": "every file the linter processes, every definition", "why_tests_cant": "All possible surroundings of a definition cannot be enumerated.", "anchors": ["cmakelang/lint/basic_checker.py:LintChecker.check_body", "cmakelang/lint/basic_checker.py:get_prefix_comment", "cmakelang/lint/basic_checker.py:statement_is_fundef"]}
{"id": "C71", "title": "line_ending only selects the line terminator", "statement": "For a file without format-off/on sentinels and without use_tabchars, formatting with line_ending=windows gives exactly the line_ending=unix output with every LF turned into CRLF (and fails with the same error if it fails); line_ending=auto is the explicit setting chosen by the majority of CRLF over bare LF in the input.", "quantifier": "every source text, every configuration without tabs, every user command table", "why_tests_cant": "Relates two runs on every input; a test compares finitely many files.", "anchors": ["cmakelang/format/__main__.py:process_file", "cmakelang/format/__main__.py:detect_line_endings", "cmakelang/format/formatter.py:CursorFile"]}
{"id": "C72", "title": "command_case and keyword_case change letter case only", "statement": "Two runs that differ only in format.command_case (any documented value, per command) and format.keyword_case produce texts that are equal up to ASCII letter case, with the same validity, or the same error: no line break, blank or other character depends on these settings.", "quantifier": "every source text, every configuration, every user command table, every pair of settings", "why_tests_cant": "Relates two runs on every input and setting.", "anchors": ["cmakelang/format/formatter.py:ScalarNode.write", "cmakelang/format/__main__.py:process_file"]}
{"id": "C73", "title": "The output is read as the tokens of the input", "statement": "Take a file without format switches whose comments do not mention cmake-format: or cmf: and do not begin like a bracket comment after their hashes, and whose arguments, normalized, each read as one token of a definite class on their own. When cmake-format writes such a file with unix line endings and without tabs, lexing the output again gives exactly the semantic tokens of the input in order (in an order permuted only by argument sorting): parentheses are parentheses, every argument has its normalized text and the class this text has, command names are words equal up to letter case, keywords and flags keep their class and their text up to letter case. No two texts merge, none is split, and no format switch appears. If in addition every argument of the file already has the class of its text, the token types are those of the input. Without the conditions it fails: wrapping a comment can create a format switch, and an argument touching a parenthesis can change its class.", "quantifier": "all files, all configurations with calm markup settings", "why_tests_cant": "Needs every text next to every other text under every layout; tests compare a few outputs with expected strings and never lex them again.", "anchors": ["cmakelang/format/formatter.py:write_tree", "cmakelang/lex/__init__.py:tokenize", "cmakelang/format/__main__.py:process_file"]}
{"id": "C74", "title": "What the formatter writes has the structure of the file", "statement": "For every file the formatter accepts, its output is accepted again by the lexer and the parser, and the parse tree of the output has the same statements, blocks, argument groups, keyword groups and arguments in the same order as the parse tree of the file; only blanks, line breaks, letter case of names and keywords and comments may differ.", "quantifier": "all configurations and all input files", "why_tests_cant": "Tests compare the output with a golden text; whether the output is parsed like the input for every file depends on every parse function ignoring blanks, which no set of examples settles.", "anchors": ["cmakelang/format/__main__.py:process_file", "cmakelang/parse/__init__.py:parse", "cmakelang/parse/body_nodes.py:BodyNode", "cmakelang/parse/argument_nodes.py:StandardParser", "cmakelang/format/formatter.py:write_tree"]}
{"id": "C75", "title": "Formatting a formatted file changes nothing", "statement": "For every file the formatter accepts, running the formatter on its output returns that output unchanged.", "quantifier": "all configurations and all input files", "why_tests_cant": "The test suite formats each sample once; idempotence over all files is a relation between two runs.", "anchors": ["cmakelang/format/__main__.py:process_file", "cmakelang/format/formatter.py:layout_tree", "cmakelang/format/formatter.py:write_tree"]}
{"id": "C76", "title": "Formatting forgets the previous style", "statement": "When a file without comments and format switches is formatted with options A and the output is formatted with options B, the result is the text that options B give for the original file, provided that B fixes the letter case of names and keywords (or that A and B are the same), neither sorts arguments, A indents with spaces and writes unix line ends, the file does not begin with blank lines, and its arguments are plain texts (no escaped or touching arguments, no trailing blanks inside strings).", "quantifier": "all such files, all pairs of configurations with the same command table", "why_tests_cant": "Relates three runs of the formatter under two configurations; tests format samples once with one configuration.", "anchors": ["cmakelang/format/__main__.py:process_file", "cmakelang/format/formatter.py:layout_tree", "cmakelang/format/formatter.py:write_tree", "cmakelang/configuration.py:FormattingConfig"]}
{"id": "C77", "title": "ctest-to reports the tests of a build directory", "statement": "If the CTestTestfile.cmake of a build directory contains add_test statements, ctest-to prints a record for each of them, following subdirs().", "quantifier": "for every directory tree and every content of its test files", "why_tests_cant": "The tool has no unit test at all, and the defect is in how two layers fit: parse_file passes a dictionary where the parser reads attributes. That no file content whatsoever can make the tool report a test is a statement about all inputs.", "anchors": ["cmakelang/ctest_to.py:ParseContext.parse_file", "cmakelang/ctest_to.py:ParseContext.start", "cmakelang/parse/statement_node.py:StatementNode.consume", "cmakelang/parse/body_nodes.py:BodyNode.consume"]}
{"id": "C78", "title": "A dumped configuration runs like the original", "statement": "Running cmake-format with a file written by --dump-config (any notation content, with or without help and defaults) uses, for every option except per_command, the same value as running with the original configuration files and the options given at the time of the dump.", "quantifier": "for every configuration dictionary, every set of command-line options, every option field, both help and default switches (command-line options: namespaces with distinct names, none the name of a section of the configuration; every command line of cmake-format and cmake-lint gives such a namespace)", "why_tests_cant": "The dump passes through section objects, defaults, command-line merging, help entries and the legacy root options; tests compare single dumps with literals. That no combination of set and unset options changes a value on the way back is a statement about all dictionaries.", "anchors": ["cmakelang/format/__main__.py:dump_config", "cmakelang/config_util.py:ConfigObject._as_dict", "cmakelang/config_util.py:ConfigObject.consume_known", "cmakelang/format/__main__.py:get_configdict"]}
{"id": "C79", "title": "A dumped configuration keeps per-command settings", "statement": "The per-command overrides of the user are the same when running with the dumped file.", "quantifier": "for every per_command dictionary and every command", "why_tests_cant": "dump_config pops every key of the default per-command table although the defaults are no longer stored in that dictionary; only a run that overrides one of nine commands would notice.", "anchors": ["cmakelang/format/__main__.py:dump_config", "cmakelang/configuration.py:MiscConfig._update_derived", "cmakelang/parse/funs/standard_funs.py:get_default_config"]}
{"id": "C80", "title": "Undeclared functions are treated as unknown commands", "statement": "A function that neither cmake nor the user's additional_commands declares is parsed and laid out as an unknown command; declaring additional_commands replaces the default value of that option.", "quantifier": "for every user table and every function name", "why_tests_cant": "The demonstration command is added while the section object is constructed, before user values are consumed; tests use the name foo for their own declarations.", "anchors": ["cmakelang/configuration.py:ParseConfig._update_derived", "cmakelang/config_util.py:SubtreeDescriptor.get", "cmakelang/parse/util.py:CommandSpec.add"]}
{"id": "C81", "title": "A tree formatted in place passes --check", "statement": "After cmake-format -i over a list of files has exited with status 0, cmake-format --check over the same files with the same options exits with status 0 and changes nothing.", "quantifier": "for every file system, every list of paths, every configuration", "why_tests_cant": "The guarantee spans two runs of the program and every text the first run can write; tests check single files in a single mode.", "anchors": ["cmakelang/format/__main__.py:main", "cmakelang/format/__main__.py:inner_main", "cmakelang/format/__main__.py:onefile_main"]}
{"id": "C82", "title": "cmake-genparsers ends", "statement": "cmake-genparsers finishes on every file that parses: the expansion of variable references in set() values and in the arguments of cmake_parse_arguments() never loops.", "quantifier": "all CMake source texts that parse", "why_tests_cant": "Only a proof over all texts rules out a value that keeps the expansion loop busy; tests can only sample values.", "anchors": ["cmakelang/genparsers.py:replace_varrefs", "cmakelang/genparsers.py:process_set_statement", "cmakelang/genparsers.py:process_defn_body"]}
{"id": "C83", "title": "generated specifications list the declared keywords", "statement": "For every function or macro that parses its arguments with cmake_parse_arguments(), the output of cmake-genparsers, used as additional_commands, makes calls of that command be read with exactly the options, one-value keywords and multi-value keywords that the call declares.", "quantifier": "all CMake source texts and definitions in them", "why_tests_cant": "Definitions can be written in unboundedly many ways; tests compare a few outputs and never load them back.", "anchors": ["cmakelang/genparsers.py:process_defn", "cmakelang/genparsers.py:process_defn_body", "cmakelang/genparsers.py:process_tree", "cmakelang/parse/util.py:CommandSpec"]}
{"id": "C84", "title": "cmake-genparsers reports unreadable files", "statement": "If some input of cmake-genparsers cannot be opened or decoded, its exit status is not 0; otherwise its output is the union of what it generates for each file, later definitions replacing earlier ones.", "quantifier": "all lists of input files and contents", "why_tests_cant": "The combinations of readable and unreadable files and their order are unbounded; there is no test of the command.", "anchors": ["cmakelang/genparsers.py:main"]}
{"id": "C85", "title": "Files without pair lists parse losslessly", "statement": "For every text and every table of user commands: if no command with pair lists (such as set_target_properties or the PROPERTIES keyword users) is called and the parser accepts the text, then the spellings of the tokens in the parse tree, read from left to right, are the text itself without its byte-order mark. (C05 with the exception that its refutation forces.)", "quantifier": "all texts, all user command tables, all vartags", "why_tests_cant": "Losslessness depends on each of the parser loops and on each of the 443 command parsers; a test compares a handful of trees.", "anchors": ["cmakelang/parse/__init__.py:parse", "cmakelang/parse/argument_nodes.py:StandardParser", "cmakelang/parse/body_nodes.py:BodyNode"]}
{"id": "C86", "title": "Options given on the command line win where they are applied", "statement": "In a run of cmake-format, the configuration of the first file has, for every option given on the command line, the command-line value, and for every other option the value of the configuration files. In a run of cmake-lint this holds of every file for the given options. (C17 and C53 restricted to what the code does.)", "quantifier": "all configuration dictionaries, all argument dictionaries, all lists of files (command-line options: namespaces with distinct names, none the name of a section of the configuration; every command line of cmake-format and cmake-lint gives such a namespace)", "why_tests_cant": "The merge goes through three consuming loops over a registry of sections; tests use one file and one option at a time.", "anchors": ["cmakelang/format/__main__.py:onefile_main", "cmakelang/config_util.py:get_argdict", "cmakelang/lint/__main__.py:inner_main"]}
{"id": "C87", "title": "A file whose configuration disables formatting is left alone", "statement": "If the configuration found for a file sets disable, then cmake-format neither reads nor writes that file, reports no failure for it, and goes on with the other files, in every mode.", "quantifier": "all environments, file systems and command lines", "why_tests_cant": "Absence of effects over all modes and file systems cannot be shown by running examples.", "anchors": ["cmakelang/format/__main__.py:onefile_main"]}
{"id": "C88", "title": "The basic line checks of cmake-lint are exact", "statement": "For every text, lint configuration and line: C0301 is recorded for the line exactly if the characters between two newlines are more than line_width (a carriage return included), C0303 exactly if the line, without a final carriage return, ends in a blank, C0327 exactly if the line ending is not the configured one, C0304 exactly if the text does not end in a newline; nothing is recorded if the code is disabled, and no record names a line that does not exist.", "quantifier": "all texts and all lint configurations", "why_tests_cant": "Exactness in both directions for all lines is an equivalence, which examples can only probe.", "anchors": ["cmakelang/lint/basic_checker.py:LintChecker.check_basics"]}
{"id": "C89", "title": "Formatting keeps every token of a file without switches", "statement": "If use_tabchars is off and the file has no format-off switch, then the output consists of gaps of line breaks and blanks and of texts, and the texts are those of the tokens of the file: parentheses and arguments as they are (line endings inside them normalized), command names, keywords and flags up to letter case, bracket comments as they are, line comments as the comment formatter renders them. The order is that of the file, except that sorting may permute arguments and that comments inside a pair list are moved behind the pair.", "quantifier": "all configurations within run_cfg, all switch-free texts, all comments", "why_tests_cant": "The layout chooses between many arrangements; only a proof covers all of them.", "anchors": ["cmakelang/format/__main__.py:process_file", "cmakelang/format/formatter.py:layout_tree", "cmakelang/format/formatter.py:write_tree"]}
{"id": "C90", "title": "A line comment ends its line", "statement": "If use_tabchars is off, the file has no format-off switch and its comments are plain (aligned runs of line comments, no bracket comment taken for a continuation), then in the output every line of a line comment is followed by a line break, so no argument can become part of a comment.", "quantifier": "all configurations within run_cfg, all such texts", "why_tests_cant": "A single swallowed argument changes the meaning of a build; tests cannot range over the placements of comments.", "anchors": ["cmakelang/format/formatter.py:CommentNode", "cmakelang/format/formatter.py:write_tree", "cmakelang/parse/simple_nodes.py:CommentNode"]}
{"id": "C91", "title": "Format-off regions between statements are copied", "statement": "If use_tabchars is off, the file has no byte-order mark and its switches stand between statements, each off followed by an on, then the text between a pair of switches appears in the output unchanged, between the two switches, in the order of the file.", "quantifier": "all configurations and all such texts", "why_tests_cant": "Regions are copied by byte offsets, so the claim is about every multi-byte text.", "anchors": ["cmakelang/format/formatter.py:write_tree", "cmakelang/format/formatter.py:OnOffNode", "cmakelang/lex/__init__.py:tokenize"]}
{"id": "C92", "title": "Reflowing a plain comment keeps its words", "statement": "If no line of a comment looks like a list item, a fence or a hash ruler, and none consists of blanks only behind its mark, then the words of the formatted comment are the words of the comment, in order, whatever the width, the markup settings and the position of the comment.", "quantifier": "all comments without lists, fences and hash rulers, all widths and markup configurations", "why_tests_cant": "Wrapping is iterated to a fixed point; a loss may need a particular width.", "anchors": ["cmakelang/format/formatter.py:format_comment_lines", "cmakelang/markup.py:parse", "cmakelang/markup.py:format_items"]}
{"id": "C93", "title": "User commands declared with counts are read as declared", "statement": "If the user declares a command with a count of positional arguments, flags and keywords with counts, then calls of that command are read with exactly this count, these flags and these keyword counts, even if the standard table has a command of the same name; the last declaration wins.", "quantifier": "all lists of user commands, all names except if, elseif, while and COMMAND", "why_tests_cant": "The lookup passes through a tree of specifications, letter-case folding and the standard table.", "anchors": ["cmakelang/parse/funs/__init__.py:get_funtree", "cmakelang/parse/util.py:CommandSpec.add", "cmakelang/parse/argument_nodes.py:StandardParser"]}
{"id": "C94", "title": "Case warnings are given exactly for misspelt builtin variables", "statement": "cmake-lint records W0105 for a file exactly for the variables assigned by set or list and the variables referenced in quoted arguments and references whose name is not that of a builtin variable or pattern but matches one when letter case is ignored, the match being a match of a beginning of the name.", "quantifier": "all texts that are linted without failure, all lint configurations", "why_tests_cant": "Equivalence over all names and 386 patterns.", "anchors": ["cmakelang/lint/basic_checker.py:LintChecker.check_varname", "cmakelang/parse/variables.py:CASE_SENSITIVE_REGEX"]}
{"id": "C95", "title": "The HTML annotation shows the source", "statement": "For every text without a less-than sign in which no command with pair lists is called: if the annotator accepts it, then the tags of the result are balanced and removing them gives the text, without its byte-order mark.", "quantifier": "all such texts, all user command tables", "why_tests_cant": "The nesting of spans follows the parse tree, which is unbounded.", "anchors": ["cmakelang/render.py:get_html", "cmakelang/annotate.py:main"]}
{"id": "C96", "title": "cmake-lint does not complain about the lines of a formatted file", "statement": "If the formatter accepts a file within its line width, without a byte-order mark, tabs or windows line endings, and no argument or command name of the file contains a tab or ends with a blank, then cmake-lint with the same line width and unix line endings reports none of C0301 (line too long), C0303 (trailing blanks), C0304 (no final newline), C0306 (wrong indentation character) and C0327 (wrong line ending) for the result, whatever the comments are.", "quantifier": "all texts without format switches and with only ASCII blanks, all configurations and user command tables within the formatter's model", "why_tests_cant": "Blanks at the end of lines can come from layout, from normalization inside quoted and bracket arguments, and from reflowed comments; all texts are meant.", "anchors": ["cmakelang/lint/basic_checker.py:check_basics", "cmakelang/format/__main__.py:process_file", "cmakelang/format/formatter.py:write_tree", "cmakelang/markup.py:format_items"]}
{"id": "C97", "title": "A file written with windows line endings passes the line-ending check", "statement": "If the formatter is configured for windows line endings, cmake-lint with the same setting does not report C0327 for the formatted file.", "quantifier": "all texts, all configurations with windows line endings", "why_tests_cant": "All texts are meant; a single example cannot show that no file passes.", "anchors": ["cmakelang/lint/basic_checker.py:check_basics", "cmakelang/format/formatter.py:CursorFile.getvalue"]}
{"id": "C98", "title": "Commands are indented by their nesting depth", "statement": "In a file formatted by cmake-format (no tabs, no format switches) every command begins its own line, indented by exactly its block nesting depth times tab_size; its name is written in the letter case command_case asks for (canonical: equal up to case) and is followed on the same line by '(' - with one blank between them exactly when separate_ctrl_name_with_space (for if/elseif/else/endif, while, foreach, function, macro and their ends) or separate_fn_name_with_space (for all other commands) is set. The commands appear in the order of the file, none missing and none added.", "quantifier": "every input file that formats, every configuration with a spelling-preserving command table, every nesting depth, command and keyword case, line ending and line width", "why_tests_cant": "Unit tests compare a few nested snippets; they cannot exclude a command landing on the line of its predecessor or at the wrong column for some combination of comments, wrapping, blank lines, nesting and passes.", "anchors": ["cmakelang/format/formatter.py:BodyNode._reflow", "cmakelang/format/formatter.py:FlowControlNode._reflow", "cmakelang/format/formatter.py:StatementNode._reflow", "cmakelang/format/formatter.py:need_paren_space", "cmakelang/format/formatter.py:ScalarNode._write"]}
{"id": "C99", "title": "A formatted file is the lines of its items", "statement": "The text cmake-format writes for a file (no tabs, no format switches) is, after the byte-order mark if one is asked for, the lines of its items in order, joined by the line ending and ended by one. The items are the statements, comments and @-words of the file, its runs of empty lines and the bodies of blocks with nothing in them. A statement begins with its indentation (block depth times tab_size), its name and '('; a line comment gives the lines of the comment formatter for the width left, each indented; a bracket comment is copied behind its indentation; a run of empty lines of any length, or an empty body, gives one empty line. Two empty lines never follow one another between items, and empty lines at the end of the file are dropped.", "quantifier": "every input file that formats, every configuration with a spelling-preserving command table, every line ending, width, tab size and nesting", "why_tests_cant": "Tests show a handful of files with blank lines between commands; they cannot show that no combination of items, nesting and comments loses a line break, adds an empty line or joins two items.", "anchors": ["cmakelang/format/formatter.py:BodyNode._reflow", "cmakelang/format/formatter.py:FlowControlNode._reflow", "cmakelang/format/formatter.py:CommentNode._reflow", "cmakelang/format/formatter.py:create_box_tree", "cmakelang/parse/body_nodes.py:BodyNode.consume", "cmakelang/format/formatter.py:write_tree"]}
{"id": "C100", "title": "A command that fits stays on one line", "statement": "In a file formatted by cmake-format (no tabs, no format switches, argument sorting off, no layout_passes or always_wrap given, max_lines_hwrap not negative) every command without comments inside or behind it, whose arguments do not span lines, whose keyword groups are non-empty, whose groups hold at most max_pargs_hwrap arguments (command lines: max_rows_cmdline at least 1) and at most max_subgroups_hwrap subgroups, and which on one line ends within line_width counted from its indentation, is written on that one line: the words in order, one blank between two words, none behind '(' and none before ')', and equal to the source words up to the letter case of the command name, keywords and flags.", "quantifier": "all texts that parse, all nesting depths, all configurations of the named kind, all documented and user-configured commands", "why_tests_cant": "The decision is taken by a search over layout passes at every node of the tree; tests can only show some commands that stay on one line.", "anchors": ["cmakelang/format/formatter.py:StatementNode._reflow", "cmakelang/format/formatter.py:ArgGroupNode._reflow", "cmakelang/format/formatter.py:PargGroupNode._reflow", "cmakelang/format/formatter.py:KwargGroupNode._reflow", "cmakelang/format/formatter.py:ParenGroupNode._reflow", "cmakelang/format/formatter.py:LayoutNode.reflow"]}
{"id": "C101", "title": "With enable_markup off, formatting is idempotent on files with comments", "statement": "With comment reformatting off (enable_markup false), formatting a file with options A and the output with options B gives the text that B gives for the original file - in particular, formatting with A twice gives the same as once - provided that the file has no format switches and does not begin with blank lines, its comments are line comments on lines of their own, none directly below another one in a different column and none marked as a trailing comment of the command above it, its arguments are plain texts (no escaped or touching arguments, no trailing blanks inside strings), B fixes the letter case of names and keywords (or A and B are the same), neither sorts arguments, A indents with spaces and writes unix line ends.", "quantifier": "all such files with any number of comments at any nesting depth, all pairs of configurations with the same command table", "why_tests_cant": "Relates two or three runs of the formatter on the whole; tests format samples once. Idempotence with comments depends on how the output's comments are grouped and attached when they are read again.", "anchors": ["cmakelang/format/__main__.py:process_file", "cmakelang/format/formatter.py:layout_tree", "cmakelang/format/formatter.py:write_tree", "cmakelang/format/formatter.py:CommentNode._reflow", "cmakelang/format/formatter.py:format_comment_lines", "cmakelang/parse/simple_nodes.py:CommentNode.consume", "cmakelang/parse/body_nodes.py:BodyNode.consume"]}
{"id": "C102", "title": "Formatting is idempotent when its comments are", "statement": "With comment reformatting on, a file as in C101 that is formatted with A and then with B gives what B alone gives, provided each single comment of the file, once rewritten by A at its depth, is written by B as B would have written it at once (and no rewritten line begins with #!, and first_comment_is_literal is off). Nothing else about comments has to be checked: the layout of the file adds no further instability.", "quantifier": "all such files, all pairs of configurations with the same command table, any markup options", "why_tests_cant": "The claim reduces idempotence of a whole file to a check of its single comments; no finite set of samples shows that reduction.", "anchors": ["cmakelang/format/__main__.py:process_file", "cmakelang/format/formatter.py:layout_tree", "cmakelang/format/formatter.py:write_tree", "cmakelang/format/formatter.py:CommentNode._reflow", "cmakelang/format/formatter.py:format_comment_lines", "cmakelang/parse/simple_nodes.py:CommentNode.consume", "cmakelang/parse/body_nodes.py:BodyNode.consume"]}
{"id": "C103", "title": "Formatting twice in place is formatting once", "statement": "After cmake-format -i over a list of distinct files whose only comments stand on lines of their own has exited with status 0, cmake-format --check over the same files with the same options exits with status 0 and changes nothing, and a second cmake-format -i opens no file for writing. The files are those of C101 (enable_markup off) or C102 (each comment stable on its own); require_valid_layout is off.", "quantifier": "for every file system, every list of such files, every command line", "why_tests_cant": "The guarantee spans two runs of the program and every text the first run can write; tests check single files in a single mode.", "anchors": ["cmakelang/format/__main__.py:main", "cmakelang/format/__main__.py:inner_main", "cmakelang/format/__main__.py:onefile_main", "cmakelang/format/__main__.py:process_file"]}
{"id": "C104", "title": "cmake-lint reports on every file without one of five faults", "statement": "For every file that has a token and parses with the shipped commands (and additional commands whose argument counts can be read), cmake-lint finishes its checks and yields a list of findings, unless the file has one of these faults: a literal opens a reference to a variable of cmake without closing it, a block is left open, set or list is called without its variable, or a loop runs over ${ARGN}.", "quantifier": "every file that parses, every lint configuration with a fixed line ending whose parser remarks can be written", "why_tests_cant": "The checks index into trees built from arbitrary text; tests run them on well-formed samples only, and the faults were found by the proof.", "anchors": ["cmakelang/lint/__main__.py:process_file", "cmakelang/lint/basic_checker.py:LintChecker.check_parse_tree", "cmakelang/lint/basic_checker.py:LintChecker.check_body", "cmakelang/parse/body_nodes.py:BodyNode.consume", "cmakelang/parse/util.py:get_min_npargs"]}
{"id": "C105", "title": "Pair lists without switches keep their arguments", "statement": "For every token list without format on/off switches, the tuple-group parser used for PROPERTIES-like lists, for every setting of its counts and flags, accounts for every token it consumes: the tokens it read are those of the groups it returns, up to the place of blanks and comments, and the arguments are in the order of the file.", "quantifier": "every token list without switches, every tuple setting", "why_tests_cant": "A specific interleaving of sentinel and argument; found only by trying to prove C05.", "anchors": ["cmakelang/parse/additional_nodes.py:TupleGroupNode.parse"]}
{"id": "C106", "title": "Parsing ends when AND and OR are words", "statement": "Parsing any token list in which the tokens spelt AND or OR (in any case) are word tokens ends with a tree or an error, for every well-formed command table; in particular for every file and every user table read by the configuration.", "quantifier": "every token list with AND/OR as words, every table", "why_tests_cant": "Termination is a liveness property; a timeout cannot distinguish slow from never.", "anchors": ["cmakelang/parse/argument_nodes.py:ConditionalGroupNode.parse", "cmakelang/parse/argument_nodes.py:PositionalGroupNode.parse2", "cmakelang/parse/body_nodes.py:BodyNode.consume"]}
{"id": "C107", "title": "Suppressions made in line order apply to exactly their scope", "statement": "If the suppression events of a file are recorded in the order of their lines, a lint record with a line is reported exactly if no suppression interval of its code covers the line.", "quantifier": "every event list in line order, every record", "why_tests_cant": "Event ordering matters; nested bodies register events out of order.", "anchors": ["cmakelang/lint/lint_util.py:FileContext.suppress", "cmakelang/lint/lint_util.py:FileContext.unsuppress", "cmakelang/lint/lint_util.py:FileContext.get_lint", "cmakelang/lint/basic_checker.py:LintChecker.check_body"]}
{"id": "C108", "title": "Lint exit status of runs without exception", "statement": "If the paths are distinct and no exception escapes, cmake-lint exits with 1 exactly if some path cannot be read or has unsuppressed lint, and with 0 otherwise; an escaping exception gives status 2, never 0.", "quantifier": "every list of distinct paths, every file system", "why_tests_cant": "All combinations.", "anchors": ["cmakelang/lint/__main__.py:inner_main"]}
{"id": "C109", "title": "Wrapping single-spaced text converges", "statement": "Wrapping a paragraph whose words are separated by single blanks to any positive width reaches a stable text without the convergence assertion, and keeps its words in order.", "quantifier": "every single-spaced paragraph, every positive width", "why_tests_cant": "A fixpoint iteration with a hard-coded bound.", "anchors": ["cmakelang/common.py:stable_wrap"]}
{"id": "C110", "title": "Documented positional counts mean what they say", "statement": "For every count written as an integer, ?, *, + or N+, the minimum is the documented one and does not exceed the maximum, and a group counts as full exactly when the documented maximum is reached; a group with an exact count N never holds more than N arguments and holds fewer only if a closing parenthesis, a comment or the end of the input stopped it.", "quantifier": "every count of the documented forms, every token list", "why_tests_cant": "Universal over specs.", "anchors": ["cmakelang/parse/util.py:pargs_are_full", "cmakelang/parse/util.py:get_min_npargs"]}
{"id": "C111", "title": "Blocks end at their terminator or an if block at the end of the file", "statement": "In every tree the parser returns, for every table and token list, each block consists of its opening statement, bodies, its own separators and its own terminator, and no body contains a terminator of an enclosing block; the only exception is an if block that runs to the end of the file.", "quantifier": "every table and token list", "why_tests_cant": "Arbitrary nesting depth.", "anchors": ["cmakelang/parse/body_nodes.py:FlowControlNode.consume", "cmakelang/parse/body_nodes.py:IfBlockNode.consume"]}
{"id": "C112", "title": "Lines that start with blanks are checked for indentation", "statement": "cmake-lint records C0307 exactly for the tokens that come directly behind the blanks at the start of a line when these blanks are not the tab size times the number of enclosing blocks (in an argument list: fewer than that), tabs counting as tab size columns; each such token gets a record with its position and a message that shows the line.", "quantifier": "every source text and lint configuration with C0307 enabled", "why_tests_cant": "Depth, line structure and mixtures of tabs and blanks are unbounded.", "anchors": ["cmakelang/lint/basic_checker.py:LintChecker.check_token"]}
{"id": "C113", "title": "A dumped configuration keeps the settings of commands without a canonical spelling", "statement": "For every command that is not one of the nine commands with a default per-command setting, every per-command setting has the same value when running with the dumped per_command dictionary as with the original one.", "quantifier": "every per_command dictionary, every other command and setting", "why_tests_cant": "dump_config pops every key of the default per-command table although the defaults are no longer stored in that dictionary; only a run that overrides one of nine commands would notice.", "anchors": ["cmakelang/format/__main__.py:dump_config", "cmakelang/configuration.py:MiscConfig._update_derived", "cmakelang/parse/funs/standard_funs.py:get_default_config"]}
{"id": "C114", "title": "cmake-genparsers ends when set() values have plain references", "statement": "For every file that parses and in whose set() values each dollar sign is part of a plain variable reference or cannot start one, cmake-genparsers ends.", "quantifier": "every such file", "why_tests_cant": "Only a proof over all texts rules out a value that keeps the expansion loop busy; tests can only sample values.", "anchors": ["cmakelang/genparsers.py:replace_varrefs", "cmakelang/genparsers.py:process_set_statement", "cmakelang/genparsers.py:process_defn_body"]}
{"id": "C115", "title": "Generated specifications of plainly written commands are right", "statement": "For every file and every function or macro in it that is defined once and whose body sets its variables and calls cmake_parse_arguments() in the signature form outside nested blocks, the output of cmake-genparsers is accepted as additional_commands, and with it calls of the command are read with exactly the declared options, one-value keywords and multi-value keywords.", "quantifier": "every file, every such definition", "why_tests_cant": "Definitions can be written in unboundedly many ways; tests compare a few outputs and never load them back.", "anchors": ["cmakelang/genparsers.py:process_defn", "cmakelang/genparsers.py:process_defn_body", "cmakelang/genparsers.py:process_tree", "cmakelang/parse/util.py:CommandSpec"]}
{"id": "C116", "title": "cmake-genparsers merges readable files and stops at unopenable ones", "statement": "When all inputs can be read and parsed, cmake-genparsers succeeds and its output maps each command name to the definition in the last file that defines it; when an input cannot be opened, or the first one cannot be decoded, it ends with a failure.", "quantifier": "every list of inputs and every file system", "why_tests_cant": "The combinations of readable and unreadable files and their order are unbounded; there is no test of the command.", "anchors": ["cmakelang/genparsers.py:main"]}
{"id": "C117", "title": "The remarks of the argument parsers break cmake-lint in exactly two cases", "statement": "On a file without the faults of C104, cmake-lint yields its findings exactly if, with the shipped parsers' own remarks taken into account, no build_command call has two tokens behind its parenthesis (or W0106 is disabled) and no add_custom_target call has an argument outside its keyword and positional groups where the parser expects none (or E1122 is disabled). In these two cases the remark is recorded without the arguments that its message needs, and the run ends in an IndexError.", "quantifier": "every file that parses without the faults of C104, every lint configuration with a fixed line ending, every table of additional commands", "why_tests_cant": "The remarks are made while parsing, one per command form; no test lints build_command or a stray argument, and the equivalence covers all remarks of all parsers.", "anchors": ["cmakelang/parse/funs/miscellaneous.py:parse_build_command", "cmakelang/parse/funs/add_xxx.py:parse_add_custom_target", "cmakelang/lint/lint_util.py:FileContext.record_lint"]}
{"id": "C118", "title": "The findings C0113, C0114, E1121, E1125 and E1126 are exactly the prescribed ones", "statement": "A finished run lists a finding with one of these codes exactly if the code is not disabled and the call asks for it: file, list, cmake_policy or add_custom_command whose first word names no form (E1126) or is a variable reference (C0114), at that word; add_custom_command without COMMAND (E1125) or COMMENT (C0113), add_custom_target without COMMENT (C0113); a third word of a keyword group of set that is not FORCE or that has too many words behind it (E1121), at that word; an argument of break, continue, enable_testing or return (E1121). A finding elsewhere, with other text, or for a command that the user redefined is never listed.", "quantifier": "every file whose lint run finishes, every lint configuration, every table of additional commands", "why_tests_cant": "The parsers are spread over many files, each with its own remark; tests look at a handful of calls and not at the absence of further findings.", "anchors": ["cmakelang/parse/funs/file.py:parse_file", "cmakelang/parse/funs/list.py:parse_list", "cmakelang/parse/funs/add_xxx.py:parse_add_custom_command", "cmakelang/parse/funs/set.py:parse_set", "cmakelang/parse/funs/break.py:parse_break", "cmakelang/parse/funs/miscellaneous.py:parse_cmake_policy", "cmakelang/parse/argument_nodes.py:StandardArgTree.check_required_kwargs"]}
{"id": "C119", "title": "Which names cmake-lint finds badly chosen", "statement": "When cmake-lint reports on a file and C0103 is not disabled, the C0103 findings are exactly these. The name of each function or macro definition that does not match the pattern for functions or for macros. Each unquoted parameter of a definition, and each foreach variable, that does not match the pattern for arguments; a parameter whose name, in any letter case, stands before it in the same list gives no such finding. Each variable written by set, or by list with LENGTH, GET, JOIN or SUBLIST, that does not match the pattern for its kind once the references in it are taken out, unless nothing is left of it. Its kind is cache or internal if the call says CACHE, else parent scope if the call says PARENT_SCOPE, else local if the innermost open definition is a function, parent scope if it is a macro, and directory if there is none. The finding stands at the token of the name and gives its kind, its spelling and the pattern.", "quantifier": "for every file, every configuration and every meaning of the patterns", "why_tests_cant": "Depends on every nesting of blocks, every place of keywords in a call and every configuration; tests look at a few names one by one.", "anchors": ["cmakelang/lint/basic_checker.py:check_assignment", "cmakelang/lint/basic_checker.py:check_argument_names", "cmakelang/lint/basic_checker.py:check_name_against_pattern", "cmakelang/lint/basic_checker.py:check_foreach", "cmakelang/lint/basic_checker.py:get_scope_of_assignment"]}
{"id": "C120", "title": "Empty docstrings", "statement": "When cmake-lint reports on a file and C0112 is not disabled, it reports C0112 at the opening word of a function or macro exactly when the last two things before the definition in its block are a comment and at most one line break, every line of that comment says nothing, and no pragma before it in that block disables C0112. A line says nothing when it consists of hash signs that are not a ruler, or, with markup off or for a ruler, when only blanks follow its first character.", "quantifier": "for every file and every configuration", "why_tests_cant": "Depends on every comment text, every position in a block and every markup configuration; tests check a few definitions.", "anchors": ["cmakelang/lint/basic_checker.py:check_body", "cmakelang/format/formatter.py:get_comment_lines"]}
{"id": "C121", "title": "Which remarks cmake-lint gives about its own pragmas", "statement": "When cmake-lint reports on a file, its E0011 and E0012 findings (those not disabled) are exactly these. For each comment between commands with no pragma against the code before it in its block, and each comment inside a command that the checker visits, if its text starts with '# cmake-lint: ': each blank-separated word without an equals sign and each key other than 'disable' gives E0011 with that word or key, and each comma-separated item behind 'disable=' that is no code gives E0012 with that item. The finding is at the line of the comment.", "quantifier": "for every file and every configuration", "why_tests_cant": "Depends on every text of a pragma and every nesting of comments; tests use a few pragmas.", "anchors": ["cmakelang/lint/basic_checker.py:parse_pragmas_from_token", "cmakelang/lint/basic_checker.py:parse_pragmas_from_comment"]}
{"id": "C122", "title": "Remarks about pragmas point at the word", "statement": "The column of each E0011 and E0012 finding is the column at which the word it is about starts.", "quantifier": "for every file and every configuration", "why_tests_cant": "Depends on the words before the faulty one; tests use pragmas with one word.", "anchors": ["cmakelang/lint/basic_checker.py:parse_pragmas_from_token"]}
{"id": "C123", "title": "When cmake-lint recommends cmake_parse_arguments", "statement": "When cmake-lint reports on a file and C0201 is not disabled, it gives at most one C0201 finding for each function or macro definition. It gives one exactly when the body holds no call of cmake_parse_arguments and some foreach or while loop in it, however deeply nested, names ${ARGN} among its arguments and compares its first argument with STREQUAL or MATCHES in more conditions inside the loop than allowed. The finding is at the first such loop, loops nearer to the body first.", "quantifier": "for every file, every configuration and every meaning of conditional group", "why_tests_cant": "Depends on every nesting of loops and conditions; the tests have one example.", "anchors": ["cmakelang/lint/basic_checker.py:check_for_custom_parse_logic", "cmakelang/lint/basic_checker.py:loop_contains_argn"]}
{"id": "C124", "title": "Which missing positional arguments cmake-lint reports", "statement": "When cmake-lint reports on a file and E1120 is not disabled, its E1120 findings are exactly these. Each group of positional arguments that holds fewer words than the count of its command specification asks for, at its first word. Each call of file, list or add_custom_command without any argument, behind its opening parenthesis. Each CACHE of a call of set with fewer than two words behind it, behind those words. Commands that the user has specified give only findings of the first kind.", "quantifier": "for every file, every configuration and every table of user commands", "why_tests_cant": "Depends on every command specification and every way to leave out arguments; tests have a few calls.", "anchors": ["cmakelang/lint/basic_checker.py:check_positional_group", "cmakelang/parse/util.py:get_min_npargs", "cmakelang/parse/funs/set.py:parse_set", "cmakelang/parse/funs/file.py:parse_file", "cmakelang/parse/funs/list.py:parse_list"]}
{"id": "C125", "title": "Incomplete variable references", "statement": "With W0106 enabled and the shipped parsers, the W0106 findings of a cmake-lint run on a file are exactly these: for each quoted, unquoted or bracket argument, after its complete references have been replaced by foo, take the first unescaped dollar sign or opening brace with a name behind it; if that name starts like a builtin variable and the text is not $ENV, there is a finding at the argument saying that an open tag is missing and quoting the text. Otherwise, if there is no such builtin name but the first unescaped ${ is followed by the name of a builtin variable, there is a finding saying that a closing tag is missing, and it quotes the half reference of the last earlier argument that had one.", "quantifier": "every configuration, every file for which the run ends", "why_tests_cant": "the finding of one argument depends on all earlier arguments, on runs of backslashes of any length and on a table of builtin names; tests look at a few literals", "anchors": ["cmakelang/lint/basic_checker.py:check_tokens", "cmakelang/lint/basic_checker.py:mock_varrefs", "cmakelang/parse/variables.py:CASE_SENSITIVE_REGEX"]}
{"id": "C126", "title": "Unclosed references are said to miss the closing tag", "statement": "With W0106 enabled, every argument of a file in which a reference to a builtin variable lacks its closing brace gets a finding that says that a closing tag is missing.", "quantifier": "every configuration, every file", "why_tests_cant": "the result depends on what the other pattern finds first and on a variable left over from earlier arguments", "anchors": ["cmakelang/lint/basic_checker.py:check_tokens"]}
{"id": "C127", "title": "Tab policy of the indentation", "statement": "With C0306 enabled, the C0306 findings of a cmake-lint run are exactly these. Without use_tabchars: one for every line whose indentation contains a tab, at the column of the first tab. With use_tabchars and the policy round-up: one for every line whose indentation contains a space, at the first space. With use_tabchars and another policy: one for every line whose indentation contains a space before a tab, at the first space.", "quantifier": "every configuration, every file for which the run ends, every line", "why_tests_cant": "lines and configurations are unbounded; the three policies interact with carriage returns and mixed indentation", "anchors": ["cmakelang/lint/basic_checker.py:check_basics", "cmakelang/lint/lintdb.py:LINT_DB"]}
{"id": "C128", "title": "Every documented finding is given", "statement": "For every code of the documented lint database there is a file and a configuration for which cmake-lint reports that code.", "quantifier": "every code of the database; the refutation quantifies over every file and configuration", "why_tests_cant": "a test can show that a code is reported, never that no file at all gives it", "anchors": ["cmakelang/lint/lintdb.py:LINT_DB", "cmakelang/lint/basic_checker.py:check_parse_tree"]}
{"id": "C129", "title": "The comment at the top of a file is kept line by line", "statement": "With first_comment_is_literal, with a first line that starts with #!, or with enable_markup off, the block of line comments a file without byte-order mark begins with comes out as its first lines, behind the byte-order mark if one is emitted and behind one empty line if the file began with several line breaks. Every line of the block is one line of the output: without the blanks at its end, and, with markup on, with one hash sign in place of several that are no ruler. Spaces for indentation, no format switches.", "quantifier": "all files, configurations and user command tables", "why_tests_cant": "The block may be of any length and contain any text, including text that looks like lists, rulers or fences.", "anchors": ["cmakelang/format/formatter.py:format_comment_lines", "cmakelang/format/formatter.py:get_comment_lines", "cmakelang/lex/__init__.py:get_first_non_whitespace_token", "cmakelang/parse/simple_nodes.py:CommentNode.consume"]}
{"id": "C130", "title": "first_comment_is_literal keeps the first comment as written", "statement": "With first_comment_is_literal, the first comment block of every file comes out as it was written, apart from blanks at the ends of its lines.", "quantifier": "all files", "why_tests_cant": "The documentation promises it for every file; tests use files without byte-order mark and comments with one hash sign.", "anchors": ["cmakelang/format/formatter.py:format_comment_lines", "cmakelang/lex/__init__.py:get_first_non_whitespace_token", "cmakelang/format/__main__.py:process_file"]}
{"id": "C131", "title": "format.autosort leaves alone every list nobody asked to sort", "statement": "For every file, configuration and user command table in which no argument list is declared sortable: if no comment of the file carries the tag sort or sortable (cmake-format: or cmf:, line or bracket), then the arguments of every command other than add_library and add_executable are laid out in the order of the file whether format.autosort is set or not. If the file also calls neither of these two commands, cmake-format writes the same output, the same validity flag and the same error for both values of format.autosort.", "quantifier": "all files, all configurations over the shipped command table and any user table without sortable lists", "why_tests_cant": "The flag that decides is set in a recursive parser with hand-written branches for fifty commands and a table for the rest; a test sees the few commands and lists it names, not every specification reachable from every command.", "anchors": ["cmakelang/format/formatter.py:LayoutNode.lock", "cmakelang/parse/argument_nodes.py:PositionalGroupNode.parse2", "cmakelang/parse/funs/add_library.py:parse_add_library_standard", "cmakelang/parse/funs/add_executable.py:parse_add_executable_standard"]}
{"id": "C132", "title": "An argument list annotated as sortable is sorted", "statement": "With the default settings (format.enable_sort on) the arguments behind the comment '# cmake-format: sortable' are written in lexicographic order, for every command that takes a list.", "quantifier": "all files with an annotated list", "why_tests_cant": "Tests of sorting set autosort and use set and add_library; no test runs the documented annotation with the default settings or in add_executable.", "anchors": ["cmakelang/configuration.py:FormattingConfig", "cmakelang/format/formatter.py:PargGroupNode.lock", "cmakelang/parse/funs/add_executable.py:parse_add_executable_standard"]}
{"id": "C133", "title": "Dangling parentheses", "statement": "With dangle_parens on, every command of a formatted file is written on one line up to its closing parenthesis, or the closing parenthesis is the first text of its line, in the column that dangle_align names: that of the command (prefix), one indentation further (prefix-indent), or that of the arguments (child). Behind the parenthesis there is nothing but the comment of the command.", "quantifier": "all sources without format switches, all configurations with dangle_parens and blanks for indentation", "why_tests_cant": "The place of the parenthesis is decided in three branches together with the trailing comment, which may move it twice; tests show a few commands, not that none of the combinations leaves the parenthesis at the end of an argument line.", "anchors": ["cmakelang/format/formatter.py:StatementNode", "cmakelang/configuration.py:FormattingConfig"]}
{"id": "C134", "title": "Formatting is idempotent on files whose comments are prose", "statement": "With comment reformatting on and the usual patterns for rulers and fences, a file as in C101 whose comments are plain prose - no word in them looks like a bullet (* or -), a number with a period or colon, a note such as TODO(name, or begins with three punctuation characters, and the words are set apart by ASCII blanks - is not changed by formatting it a second time, whatever the blanks between the words and the line breaks in it are. If the words are set apart by single blanks, formatting with a configuration A and then with B gives what B alone gives, also with another line width.", "quantifier": "all such files, all configurations with the usual markup patterns, any line widths", "why_tests_cant": "Prose is wrapped greedily, repeatedly, and differently at each depth and width; that no wrapped line is read as something else the second time is a statement about all texts.", "anchors": ["cmakelang/format/__main__.py:process_file", "cmakelang/markup.py:parse", "cmakelang/markup.py:format_item", "cmakelang/markup.py:format_items", "cmakelang/common.py:stable_wrap", "cmakelang/format/formatter.py:format_comment_lines", "cmakelang/format/formatter.py:get_comment_lines"]}
{"id": "C135", "title": "Groups above the limits are written one argument per line", "statement": "With the default layout passes, without sorting and tabs, and in a file without format switches: a positional group that is not a command line and has more arguments (comments not counted) than max_pargs_hwrap, or than the limit of its own command specification, and an argument list with more groups than max_subgroups_hwrap, are written vertically: each member begins on its own line below the end of the member before it, and all members begin with their first word in the same column. This holds in every command of the file, at every depth, also if no layout within the line width was found.", "quantifier": "all files without format switches that are formatted without an error, all such configurations, all command specifications", "why_tests_cant": "The layout of a group is found by a search over passes with the width, the limits and the depth as inputs; that no pass leaves an over-limit group horizontal is a statement about all trees and all widths.", "anchors": ["cmakelang/format/formatter.py:PargGroupNode._reflow", "cmakelang/format/formatter.py:ArgGroupNode._reflow", "cmakelang/format/formatter.py:LayoutNode.reflow", "cmakelang/configuration.py:FormattingConfig", "cmakelang/format/__main__.py:process_file"]}
{"id": "C136", "title": "max_lines_hwrap bounds the lines of a wrapped call", "statement": "max_lines_hwrap is documented as: if a candidate layout is wrapped horizontally but it exceeds this many lines, then reject the layout. So a call of plain words that is not written with one argument per line takes at most max_lines_hwrap lines.", "quantifier": "all calls of plain words", "why_tests_cant": "The limit is checked inside the layout search on cursor rows, not on the lines of the output.", "anchors": ["cmakelang/format/formatter.py:PargGroupNode._reflow", "cmakelang/configuration.py:FormattingConfig"]}
{"id": "C137", "title": "Commands in always_wrap are wrapped", "statement": "always_wrap is documented as: a list of command names which should always be wrapped. So a call of a listed command with two or more plain arguments is never written on one line.", "quantifier": "all calls of plain words", "why_tests_cant": "The list is consulted only in one of several validity checks of the layout search.", "anchors": ["cmakelang/format/formatter.py:LayoutNode._validate_layout", "cmakelang/format/formatter.py:StatementNode._reflow", "cmakelang/configuration.py:FormattingConfig"]}
{"id": "C138", "title": "max_prefix_chars forces nesting", "statement": "max_prefix_chars is documented as: if the statement spelling length (including space and parenthesis) is larger than the tab width by more than this amount, then force reject un-nested layouts. So a call of such a command with plain words that does not fit in one line has nothing behind its opening parenthesis.", "quantifier": "all calls of plain words", "why_tests_cant": "Which of the layouts is chosen depends on a search over passes.", "anchors": ["cmakelang/format/formatter.py:StatementNode._reflow", "cmakelang/configuration.py:FormattingConfig"]}
{"id": "C139", "title": "A group of arguments is written one member per line or takes at most max_lines_hwrap line breaks", "statement": "When a file was formatted and a layout within the line width was found, every positional group and every argument list without comments is written either with its members one below the other in one column, or as its words in their order, separated only by blanks and line endings, with at most max_lines_hwrap line endings from its first word to its last (so at most max_lines_hwrap + 1 lines).", "quantifier": "For every file without format switches, every configuration without autosort and tabs and with any layout passes and limits, every group at any depth of any statement, whatever its words.", "why_tests_cant": "A test fixes one call and one limit; which pass is accepted for a group depends on the widths of all its words and of the groups around it, so tests cannot show that no group ever exceeds the limit without being written vertically.", "anchors": ["cmakelang/format/formatter.py:LayoutNode._validate_layout", "cmakelang/format/formatter.py:PargGroupNode._reflow", "cmakelang/format/formatter.py:ArgGroupNode._reflow", "cmakelang/format/formatter.py:LayoutNode.reflow"]}
{"id": "C140", "title": "Configuration scripts mean the nested mapping they spell", "statement": "Running a python-notation configuration file that consists of 'with section(...)' blocks (nested and repeated at will) and assignments of literals, in which no name is used both for a section and for a value in the same place and no top-level section is named like an attribute of dict, succeeds and yields a nested mapping: every option path has the value written last, every section that is opened is present, '-' in a section name is read as '_', and nothing else is in the mapping.", "quantifier": "all scripts of sections and literal assignments", "why_tests_cant": "Scripts have unbounded nesting and order; the interpreter object mixes dict methods, a stack and item access, and tests run one or two flat scripts.", "anchors": ["cmakelang/config_util.py:ExecGlobal.push_section", "cmakelang/config_util.py:ExecGlobal.__setitem__", "cmakelang/format/__main__.py:exec_pyconfig"]}
{"id": "C141", "title": "A configuration dumped in python notation reads back", "statement": "For every configuration, --dump-config python, with or without help texts and with or without defaults, writes a script which runs and yields exactly the dictionary that the dump denotes; a later run that reads it uses the same value for every option as the run that wrote it (per_command up to entries equal to the defaults).", "quantifier": "all configurations and command lines, all four combinations of help and defaults (command-line options: namespaces with distinct names, none the name of a section of the configuration; every command line of cmake-format and cmake-lint gives such a namespace)", "why_tests_cant": "The dumps that tests compare are of the default configuration in one notation; the round trip depends on section and field names not colliding with attributes of dict.", "anchors": ["cmakelang/config_util.py:ConfigObject.dump", "cmakelang/config_util.py:ExecGlobal", "cmakelang/format/__main__.py:dump_config"]}
{"id": "C142", "title": "Variables of a configuration script can be used in its sections", "statement": "A variable that a python-notation configuration file assigns at the top level can be used in any later section, at any depth, and has there the value assigned last, unless one of the enclosing sections has an entry of that name.", "quantifier": "all scripts, variable names and nesting depths", "why_tests_cant": "Depends on which names python's dict happens to have as attributes; a test uses one ordinary name.", "anchors": ["cmakelang/config_util.py:ExecGlobal.__getitem__"]}
{"id": "C143", "title": "Configuration files that cannot be read are reported as user errors", "statement": "A configuration file that is missing or that the reader for its ending rejects is reported as an error of the user, and is never read in another notation than its ending asks for; without a known ending the first notation that accepts it is used, and if there is none that is reported as an error of the user too.", "quantifier": "all paths, contents and behaviours of the three readers", "why_tests_cant": "Each reader has its own exception classes and each ending its own handler.", "anchors": ["cmakelang/format/__main__.py:get_one_config_dict", "cmakelang/format/__main__.py:try_get_configdict"]}
{"id": "C144", "title": "Arguments stand right behind the prefix or nested one tab in, and short prefixes are never nested (min_prefix_chars)", "statement": "Formatting a file without autosort and without off-switches, with spaces for indentation: in the output the arguments of every command begin right behind the opening parenthesis, or on the next line one tab in from the command; the latter only if the name with the parenthesis (and blank) is wider than min_prefix_chars. The arguments of every keyword begin one blank behind the keyword, or on the next line one tab in from the keyword; the latter only if the keyword is wider than min_prefix_chars. Only when the arguments begin with a parenthesis may that parenthesis be moved to a later line, and then it stays in one of these columns.", "quantifier": "all input files the formatter accepts, all configurations with spaces for indentation and without autosort, all commands and keyword groups whose first member has a word", "why_tests_cant": "min_prefix_chars is exercised by two tests on set(); whether any layout pass of any nested group can place arguments elsewhere depends on the whole search over passes", "anchors": ["cmakelang/format/formatter.py:StatementNode._reflow", "cmakelang/format/formatter.py:KWargGroupNode._reflow", "cmakelang/configuration.py:FormattingConfig.min_prefix_chars"]}
{"id": "C145", "title": "A file that parses is formatted", "statement": "When the lexer and the parser accept a file, the formatter writes it: no assertion, index error or value error stops the run in the layout or in the writer.", "quantifier": "every input text, user command table and configuration of the covered class", "why_tests_cant": "Which trees the layout engine cannot handle depends on the nesting of nodes, on every option and on every pass; a suite only shows that its own files are formatted.", "anchors": ["cmakelang/format/__main__.py:process_file", "cmakelang/format/formatter.py:StatementNode._reflow", "cmakelang/format/formatter.py:FlowControlNode._reflow", "cmakelang/format/formatter.py:CommentNode._reflow", "cmakelang/format/formatter.py:layout_tree"]}
{"id": "C146", "title": "Every path on the command line is processed", "statement": "Every file path given on the command line of cmake-format or cmake-lint is in the list of files that are processed: the words which do not start with a dash name the input files, unless they follow an option that requires a value.", "quantifier": "all command lines (lists of strings) that the parser accepts", "why_tests_cant": "Boolean options take an optional value and list options any number of values, so that the meaning of a word depends on everything before it; a test tries single orders of options and paths.", "anchors": ["cmakelang/config_util.py:FieldDescriptor.add_to_argparse", "cmakelang/format/__main__.py:setup_argparser", "cmakelang/lint/__main__.py:setup_argparse", "cmakelang/format/__main__.py:main"]}
{"id": "C147", "title": "A setting on the command line means the same as in a configuration file", "statement": "For every configuration variable and every value it can hold in a configuration file there is an option --name=value that sets the variable to the same value: the effective configuration has this value for the variable and the value from the configuration files for all others, and of several settings of one variable the last one counts.", "quantifier": "all configuration variables, all values, all other contents of configuration files", "why_tests_cant": "The options are generated from the types of the default values; tests set two or three options and cannot show that each text of each value arrives unchanged next to arbitrary configuration files.", "anchors": ["cmakelang/config_util.py:FieldDescriptor.add_to_argparse", "cmakelang/format/__main__.py:setup_argparser", "cmakelang/config_util.py:parse_bool", "cmakelang/format/__main__.py:get_argdict", "cmakelang/format/__main__.py:get_config"]}
{"id": "C148", "title": "Misspelt options are reported, never ignored", "statement": "A command line with a word in front of any -- which starts with two dashes, contains no blank and whose part before the equals sign is not the beginning of any option's name is refused with a usage error: no file is read or written, wherever the word stands and whatever surrounds it.", "quantifier": "all command lines, all positions of the word, both programs", "why_tests_cant": "There are unboundedly many command lines; an option with an optional or repeated value in front of the word might have swallowed it as a value.", "anchors": ["cmakelang/config_util.py:FieldDescriptor.add_to_argparse", "cmakelang/format/__main__.py:setup_argparser", "cmakelang/lint/__main__.py:setup_argparse"]}
{"id": "C149", "title": "Values from the command line have the type of their variable", "statement": "Whatever the command line, when it is accepted, the value that a configuration variable gets from it has the type of the variable's default (boolean, integer, string, list of strings), and is one of the variable's choices if it has any.", "quantifier": "all accepted command lines of both programs, all configuration variables", "why_tests_cant": "Options can be abbreviated, repeated, given with or without values and in any order; the property is about every path through the option parser.", "anchors": ["cmakelang/config_util.py:FieldDescriptor.add_to_argparse", "cmakelang/format/__main__.py:setup_argparser", "cmakelang/lint/__main__.py:setup_argparse"]}
{"id": "C150", "title": "With --check on the command line nothing is written", "statement": "A run of cmake-format whose command line has the word --check (or an abbreviation of it) anywhere in front of --, whatever else the command line says, changes no file. If the command line is accepted and does not ask for a dump of the configuration, nothing is printed to the standard output either, and status 0 means that every file listed is formatted.", "quantifier": "all command lines, all file systems, all configurations and all behaviours of the formatter", "why_tests_cant": "Other options might swallow the word as a value or undo it; there are unboundedly many command lines.", "anchors": ["cmakelang/format/__main__.py:inner_main", "cmakelang/format/__main__.py:setup_argparser", "cmakelang/format/__main__.py:onefile_main"]}
{"id": "C151", "title": "Files are written only on request", "statement": "A run of cmake-format whose command line has, in front of --, no word starting with -i, --in-, -o or --outf changes no file: it only prints.", "quantifier": "all command lines, all file systems, all configurations, all inputs", "why_tests_cant": "Options can be abbreviated and clustered, so that a write could be requested in many spellings; a test tries some.", "anchors": ["cmakelang/format/__main__.py:inner_main", "cmakelang/format/__main__.py:setup_argparser", "cmakelang/format/__main__.py:onefile_main"]}
{"id": "C152", "title": "Contradictory requests are refused before anything is written", "statement": "A command line of cmake-format that asks for two of --in-place, --check and --outfile-path, in any spelling of the options and any order, ends in a usage error with no effect (or prints the help or version text). One that names an output file and not exactly one input, or mixes standard input with other inputs, ends with status 1 before any file is read or written, unless it asks for a dump of the configuration, which only prints.", "quantifier": "all command lines, all positions of the options, all file systems", "why_tests_cant": "The tests exercise no combination of these options; orders and spellings are unbounded.", "anchors": ["cmakelang/format/__main__.py:inner_main", "cmakelang/format/__main__.py:setup_argparser"]}
{"id": "C153", "title": "Formatting standard input never touches the disk", "statement": "When the input is -, cmake-format writes to the standard output and changes no file unless it is refused.", "quantifier": "all command lines whose only path is -, all inputs, all file systems", "why_tests_cant": "The combination of -i with standard input is not tested; the assertions of inner_main look complete.", "anchors": ["cmakelang/format/__main__.py:inner_main", "cmakelang/format/__main__.py:setup_argparser", "cmakelang/format/__main__.py:onefile_main"]}
{"id": "C154", "title": "Status 0 of cmake-lint means that the files named are clean", "statement": "If cmake-lint ends with status 0, every file named on its command line was read and scanned and has no unsuppressed finding, unless only the help, the version or the configuration was asked for.", "quantifier": "all command lines, all file systems, all configurations", "why_tests_cant": "The status of a refused command line and of options that take a path for their value is outside what the tests look at; there are unboundedly many command lines.", "anchors": ["cmakelang/lint/__main__.py:inner_main", "cmakelang/lint/__main__.py:main", "cmakelang/lint/__main__.py:setup_argparse"]}
{"id": "C155", "title": "cmake-lint changes no file but its report", "statement": "cmake-lint changes no file except the one named with -o / --outfile-path; a command line with no word starting with -o or --outf in front of -- changes no file at all.", "quantifier": "all command lines, all file systems, all inputs", "why_tests_cant": "All command lines, including abbreviated and clustered options.", "anchors": ["cmakelang/lint/__main__.py:inner_main", "cmakelang/lint/__main__.py:main", "cmakelang/lint/__main__.py:setup_argparse"]}
{"id": "C156", "title": "cmake-lint does not change the files it scans", "statement": "After a run of cmake-lint every file that was given to it as an input has the contents it had before.", "quantifier": "all command lines, all file systems", "why_tests_cant": "The report file is opened for writing before the inputs are read; no test names one file as both.", "anchors": ["cmakelang/lint/__main__.py:inner_main", "cmakelang/lint/__main__.py:main", "cmakelang/lint/__main__.py:setup_argparse"]}
{"id": "C157", "title": "A file is formatted exactly when none of its blocks is left open", "statement": "Take a file that the lexer and the parser accept, without format switches, in which no bracket comment stands behind other text on its line and a comment on the line below a line comment is a line comment in the same column, with enable_markup off, spaces for indentation, dangle_align prefix, prefix-indent or child, and layout passes that begin with pass 0. It is formatted if and only if no block is left open at its end, where reading the commands in order an if, while, foreach, function or macro opens a block and only the end command of the innermost open block closes it. Whatever the comments and settings, a file with an open block is never formatted, and the only blocks a file that parses can leave open are if blocks.", "quantifier": "all source texts, all user command specifications, all layout settings", "why_tests_cant": "All texts and all nestings of blocks; tests format files whose blocks are closed.", "anchors": ["cmakelang/format/__main__.py:process_file", "cmakelang/format/formatter.py:FlowControlNode._reflow", "cmakelang/parse/body_nodes.py:FlowControlNode.consume", "cmakelang/parse/body_nodes.py:BodyNode.consume"]}
{"id": "C158", "title": "Paths are processed when they stand first, behind -- or beside self-contained options", "statement": "The files cmake-format and cmake-lint process are words of the command line. They are exactly the paths given when the paths stand in front of the first option, and when every option is written --name=value or takes no value; what stands behind -- is processed in any case.", "quantifier": "all command lines", "why_tests_cant": "All command lines; tests use a handful.", "anchors": ["cmakelang/config_util.py:FieldDescriptor.add_to_argparse", "cmakelang/format/__main__.py:setup_argparser", "cmakelang/lint/__main__.py:setup_argparse", "cmakelang/format/__main__.py:main"]}
{"id": "C159", "title": "Scalar and list settings on the command line take effect", "statement": "For every variable that holds a number, a string, a truth value or a choice, --name=value with the notation of a value is accepted by cmake-format and cmake-lint and sets this variable and no other; the last of several settings counts; and cmake-format uses it for the first file in place of the value in the configuration file, all other settings being those of the file. A variable that holds a list of words takes the words behind --name.", "quantifier": "all variables, all values, all configuration files, all command lines in front of the setting", "why_tests_cant": "All values and all configuration files.", "anchors": ["cmakelang/config_util.py:FieldDescriptor.add_to_argparse", "cmakelang/config_util.py:parse_bool", "cmakelang/format/__main__.py:setup_argparser", "cmakelang/format/__main__.py:get_argdict", "cmakelang/format/__main__.py:get_config"]}
{"id": "C160", "title": "cmake-annotate changes no file but its output", "statement": "Whatever the command line, a run of cmake-annotate leaves every file as it was, except the one file named by -o or --outfile-path; when no word in front of -- starts with -o or --o, no file changes at all.", "quantifier": "all command lines, all file systems, all inputs", "why_tests_cant": "The claim is about every command line, including abbreviated and attached options, and every way a run may fail.", "anchors": ["cmakelang/annotate.py:setup_argparser", "cmakelang/annotate.py:main"]}
{"id": "C161", "title": "cmake-annotate uses the configuration file named by -c", "statement": "cmake-annotate -c FILE INPUT runs with the settings of FILE when FILE is a good configuration file.", "quantifier": "all paths and all configuration files", "why_tests_cant": "No test passes -c; the value is a string where a list is expected, and a string can be iterated.", "anchors": ["cmakelang/annotate.py:setup_argparser", "cmakelang/annotate.py:main", "cmakelang/format/__main__.py:get_config", "cmakelang/format/__main__.py:get_configdict"]}
{"id": "C162", "title": "cmake-annotate does not damage its input or, when it fails, the previous output", "statement": "A run of cmake-annotate leaves its inputs as they were, and a run that fails leaves the output file as it was.", "quantifier": "all command lines, all file systems", "why_tests_cant": "The order in which the output is truncated and the input read only matters when they are the same file or when the run fails.", "anchors": ["cmakelang/annotate.py:setup_argparser", "cmakelang/annotate.py:main"]}
{"id": "C163", "title": "cmake-annotate without -o writes the pages of its inputs in order", "statement": "Without -o, a run of cmake-annotate ends with status 0 exactly when for every input the configuration can be loaded and the file be read and annotated, and standard output is then the pages in the order of the inputs, each under its own configuration. Standard input cannot be mixed with files or written to a file: such a run fails before any output.", "quantifier": "all command lines without -o that do not mix - with files, all environments", "why_tests_cant": "All lists of inputs and all failures.", "anchors": ["cmakelang/annotate.py:setup_argparser", "cmakelang/annotate.py:main"]}
{"id": "C164", "title": "What cmake-annotate prints shows the sources", "statement": "When a run of cmake-annotate without -o ends with status 0, a browser shows of its output, for every input in order, the source without its byte-order mark; with -f page and -f iframe the fixed text of the template and the style sheet stands around it. Sources with a less-than sign or commands with pair lists are excluded (C48, C49).", "quantifier": "all command lines without -o, all formats, all inputs and configurations", "why_tests_cant": "All files and all lists of files; tests look at one small file.", "anchors": ["cmakelang/annotate.py:main", "cmakelang/annotate.py:annotate_file", "cmakelang/render.py:get_html", "cmakelang/render.py:dump_html"]}
{"id": "C165", "title": "Formatting twice with use_tabchars is formatting once", "statement": "With use_tabchars, formatting the output of cmake-format again changes nothing whenever this is so without use_tabchars.", "quantifier": "all configurations with use_tabchars, all sources", "why_tests_cant": "The effect needs a wrapped trailing comment, tabs and a second run; tests format once.", "anchors": ["cmakelang/format/formatter.py:replace_with_tabs", "cmakelang/format/__main__.py:process_file", "cmakelang/parse/simple_nodes.py:CommentNode"]}
{"id": "C166", "title": "cmake-genparsers writes its output last and touches nothing else", "statement": "No command line of cmake-genparsers changes a file other than the one named with -o, and without an option beginning with -o or --o it changes none. If a named input is not there or no specification can be generated from it, the run fails and every file, the output of an earlier run included, is as before. If every input can be read and processed, and the dictionary can be written in the chosen format, the run ends with status 0 and the output file is that dictionary - each command with its definition in the last input that defines it - followed by a newline, even when the output is one of the inputs.", "quantifier": "all command lines, file systems, input texts and output formats", "why_tests_cant": "Command lines and file systems are unbounded, and that nothing else is touched is a statement about every path; there is no test of the command.", "anchors": ["cmakelang/genparsers.py:main", "cmakelang/genparsers.py:setup_argparse"]}
{"id": "C167", "title": "Standard output of cmake-genparsers is the generated configuration", "statement": "Without -o, what a run of cmake-genparsers that ends with status 0 writes to standard output is the generated dictionary in the chosen format and a newline, nothing else, so that it can be redirected to a configuration file.", "quantifier": "all command lines without -o, all inputs", "why_tests_cant": "The input lists are unbounded; there is no test of the command.", "anchors": ["cmakelang/genparsers.py:main"]}
{"id": "C168", "title": "Running cmake-lint or cmake-annotate again gives the same result", "statement": "Running the same command line of cmake-lint or cmake-annotate a second time, on the files the first run left and with the same configuration and standard input, has the same effects and the same exit status or exception, and leaves every file as the first run left it, whatever the command line is: reports and pages are replaced, never extended.", "quantifier": "all command lines, file systems, configurations and input texts", "why_tests_cant": "A statement about two runs on every file system, also when the output is one of the inputs.", "anchors": ["cmakelang/lint/__main__.py:main", "cmakelang/annotate.py:main"]}
{"id": "C169", "title": "Running cmake-genparsers again gives the same result", "statement": "Running the same command line of cmake-genparsers a second time on the files the first run left has the same effects and the same exit status or exception, and leaves every file as the first run left it.", "quantifier": "all command lines, file systems and input texts", "why_tests_cant": "A statement about two runs on every file system.", "anchors": ["cmakelang/genparsers.py:main"]}
