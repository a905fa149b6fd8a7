# Formal model of cmake_format (cmakelang)

Source under study: `/repo/cmakelang` (python), read as text only.  All line
numbers in the Coq comments refer to that tree.

## Approach

* Every modelled python function is a total, computable Gallina function with
  the same control flow.  Exceptions are values (`res`, constructors `Ok`,
  `Err e`, `OutOfFuel`).  `while` loops whose termination is itself a question
  take fuel; `OutOfFuel` is a distinct outcome, and the termination theorems say
  when it cannot occur (or that it occurs for every fuel).
* Text is `list N` (unicode code points).  Integers are `Z`.
* Python `re` patterns are transcribed into a regex AST (`Regex.v`) with an
  executable backtracking matcher; soundness and completeness with respect to a
  declarative relation are proved once.
* External behaviour that is not part of the repository is either a parameter
  the theorems quantify over (user-supplied regexes, the file system, argparse
  results) or modelled exactly (the slice of `textwrap` that is used).
* Specifications are stated with small definitions separate from the model
  (`Spec` sections next to each theorem); every theorem has an `Example`
  exhibiting a non-trivial instance.
* If a property is false of the code, there is a theorem `…_refuted` with a
  concrete witness evaluated by the kernel, and the strongest true restriction
  is proved separately.

## Plan per property

| id | what is modelled | how |
|----|------------------|-----|
| C01–C04 | `lex.tokenize`: all 20 patterns, BOM, location loop | regex soundness/completeness + induction on the scan loop |
| C05, C07, C45, C50 | all parser loops as an interpreter over a datatype of parsers; command table arbitrary | one induction on fuel over all loops |
| C06 | `TupleGroupNode.parse` | witness, plus C05 restricted |
| C08–C10 | `normalize_line_endings` via the regex matcher | induction on the substitution loop |
| C11 | `detect_line_endings` | induction |
| C12 | `count_indentation`, `replace_with_tabs` | induction on lines |
| C13 | `CursorFile` as a state machine | invariant over operation sequences |
| C14–C18 | `map_merge`, include loop, `find_config_file`, argument filtering, `resolve_for_command` | induction / well-founded measure |
| C19–C24 | `onefile_main`/`inner_main` over an abstract file system with crash points | trace invariants |
| C25–C30 | lint context, basic checks, `mock_varrefs` | invariants, sortedness, measures |
| C31, C32 | `sort_arguments` | permutation / stability proofs |
| C33–C38 | layout tree, reflow of every node class, write pass | induction on layout trees |
| C39, C40 | on/off raw copy through byte offsets | offset lemma of C03 + writer |
| C41–C44 | markup parse/format, `textwrap` slice, `stable_wrap` | induction, measures, witnesses |
| C46, C47 | `parse_pspec`, `pargs_are_full`, `get_min_npargs` | case analysis |
| C48, C49 | `render.get_html` | induction on trees |

C50–C169 were added while the model grew; the table of contents below says where
each is proved.

## Trusted base

1. The Coq 8.16.1 kernel (and `coqchk`, which re-checks the compiled files).  The
   `vm_compute` evaluator is used for the examples, for the refutations and for
   finite facts about the shipped tables.
2. The transcription of the python code into Gallina.  Every definition cites the
   file and lines it transcribes.  Nothing was extracted or executed; the python
   files were read as text.  The command tables (`StdSpecs.v`, `StdDb.v`), the lint
   messages and the builtin variables (`LintDb.v`) were translated mechanically from
   the python literals.
3. The python semantics assumed by the transcription: `re` (ordered alternation,
   greedy and lazy repetition, look-around of one character, one group with
   back-reference), `re.Scanner`, `str` methods, `sorted` (stable), `dict`
   (insertion order), `textwrap.TextWrapper` with the options used.

No axioms: `Print Assumptions` answers "Closed under the global context" for every
theorem named in `MANIFEST.json`.  The checker lists seven axioms that belong to
`Coq.ssr.ssrunder`, a file of the standard library that is loaded indirectly; no
theorem depends on them.  There are no `Admitted` proofs, no own axioms, no
switched-off kernel checks, no module types, functors or plugins.

## What is modelled, by file

| python | Coq | covered |
|--------|-----|---------|
| `lex/__init__.py` `tokenize` | `Regex`, `Lex` | all patterns, byte-order mark, locations |
| `parse/__init__.py`, `body_nodes.py`, `statement_node.py`, `simple_nodes.py`, `argument_nodes.py`, `additional_nodes.py`, `util.py`, `common.py` | `Tree`, `Parse` | all loops; positional counts; break stacks; comments; flow blocks |
| `parse/funs/*.py` | `StdSpecs`, `StdDb` | the whole table of 443 commands: 30 builtin and 316 module specifications and every hand-written parser |
| user specifications (`parse/funs/__init__.py`, `util.py`) | `CmdSpec` | declarations to parsers, override_spec |
| `format/formatter.py` | `TextOps`, `Layout`, `Markup` | every node class, all passes, sorting, the writer, format-off regions, comments |
| `markup.py`, `common.py` `stable_wrap` | `Markup` | parsing and formatting of comment markup, the slice of `textwrap` used |
| `format/__main__.py` | `Pipeline`, `Config`, `MainLoop`, `Dump`, `PyConfig`, `Entry` | `process_file`, configuration files, option handling, `--dump-config` as a dictionary and as a python script, scripts of sections and assignments, choice of the notation, main loop with crash points, `inner_main` with its assertions |
| `config_util.py`, `format/__main__.py`, `lint/__main__.py` (options) | `CmdLine` | `parse_bool`, `add_to_argparse`, `setup_argparser`, `setup_argparse` and the algorithm of `argparse.parse_args`: abbreviations, `--name=value`, clusters of short flags, `--`, numbers of values, choices, exclusive groups; not the texts of error messages, help and version, and integers in ASCII digits only |
| `configuration.py`, `config_util.py` | `Config`, `Layout` | merging, legacy names, `resolve_for_command`, command and keyword case |
| `lint/lint_util.py`, `basic_checker.py`, `lintdb.py`, `lint/__main__.py` | `LintDb`, `Lint` | all checkers, suppression, report, exit status |
| `render.py`, `annotate.py` | `Render`, `AnnotEntry`, `AnnotPage` | HTML output in the three formats (jinja2 is taken to be installed, the style sheet is a parameter); the command line and file handling of cmake-annotate |
| `ctest_to.py` | `CTest` | `start`, `parse_file` and the parser as it runs with the dictionary that `parse_file` passes for its context; not the output formats |
| `genparsers.py` | `Genparsers`, `GenEntry` | everything, the command line included, except the output formats (the text of the dump is a parameter), the log and what a failing run has printed; the expansion loop is fuelled |

Not modelled: `doc/`, `tools/`, `contrib/`, `pypi/`,
`lint/gendocs.py`, `lint/tools/`, `parse/printer.py` (debugging dumps), `--dump`
modes, logging, the notations of configuration dumps (json and yaml are taken to denote
the dumped dictionary, pprint's text of a value in a python dump the value), help
texts. The options of cmake-format and cmake-lint and the part of python's `argparse` they
use are modelled in `CmdLine`, the `inner_main` functions from the command line to their effects in
`Entry`, `LintEntry` and `AnnotEntry`; most theorems about whole runs take the parsed options as an input. `argparse` is not part of the repository: its model follows the text of python
3.11's `argparse.py` and agreed with it on 4500 random command lines.

## Simplifications

* `str.upper`/`str.lower` change ASCII letters only; the lint regexes use ASCII
  word characters.  White space: the lexer uses python's ASCII and unicode blanks as
  a fixed set (`is_aspace`), the text utilities `is_uspace`.
* Texts are decoded before the model starts; decoding and encoding can fail in
  `MainLoop` but are otherwise the identity.  A byte-order mark is a character.
* Deep recursion (python's recursion limit) and memory are unlimited.
* Parser functions are data (`parser`), not closures.  The shapes cover all
  functions of the code base.
* `Token.end` is not a field: it is the begin of the next token.
* The positions of a `Token` are exact integers, negative columns cannot occur
  (`LayoutCols`).
* In the layout, the in-place mutation of node attributes is replaced by passing
  the new node; attributes that a later pass reads are all kept.
* Lint: five inputs are arbitrary functions which the theorems quantify over:
  `lc_re` (user regexes), `lc_plint` (records made by parser functions), `lc_cnode`,
  `lc_cond` (dynamic type tests on nodes), `lc_stackmsg` (text of a node stack).
  `ParserLint.plint` is the `lc_plint` of the shipped parsers (every `record_lint` call
  below `parse/`); C117 and C118 are stated with it.
  A parse error is taken to win over records made while parsing.  The theorems about
  `set` and `list` statements assume that the user has not replaced these two
  commands (`parsers_ok`).
* Configuration: paths are lists of components; in `Config` loading of configuration
  files is a function from paths to dictionaries.  `PyConfig` models scripts of
  sections and assignments whose right sides are literals or names; a name whose value
  is a mapping gives a copy; `get_one_config_dict` takes the json, yaml and python
  readers as functions that return a value or one of three classes of exceptions.

## Hypotheses of the file theorems (`run_cfg`, `PropFile.v`)

The theorems about whole files hold for the shipped table together with every user
table such that keywords are single lines and the configured spelling of a command
differs from its name in letter case only; for every command and keyword case
setting; for every markup configuration whose bullet, fence and ruler characters are
single lines; for a tab size that is not negative; for LF and CR LF.  Where a theorem
needs more, it says so:

* `no_switch`: the file has no `cmake-format: off/on` sentinel,
* `p_usetabs c = false`: `use_tabchars` is off,
* `comments_plain`: no bracket comment is taken for the continuation of a trailing
  comment, and comments on consecutive lines among arguments begin in the same
  column (the refutations `C35_*_refuted`, `C44_bracket_refuted` show that the
  conclusion fails otherwise),
* `plain_command`: no command with pair lists is called,
* `steady`, `settled`, `level`: every argument, keyword and flag has a text that reads
  as one token of its own class wherever it stands, and that `normalize` keeps,
* `loops_full`: no `foreach(x )`, in which the parser takes a blank for the values,
* `tags_quiet`: no name, keyword or flag matches a `vartags` pattern in one casing only,
* `table_nb`: no keyword of the user's commands consists of blanks,
* `case_blind`: the configured case of a command, and its spelling, are the same for
  every casing of its name,
* `plain_passes`: `layout_passes` has no entry for bodies, blocks and blank lines,
* `starts_low`: the file begins with at most one line break,
* `apart`: comments are line comments on lines of their own outside commands, and none
  stands directly below one in another column (`C102_twins_refuted`),
* `redone`: a single comment which the first run has rewritten is written by the second
  run as it would have been written at once.

## Where the theorems are

`PropLex` C01–C04, C51; `PropParse`, `PropStd`, `PropTerm` C05–C07; `PropText`
C08–C13; `PropConfig` C14–C18, C53; `PropMain` C19–C24, C52; `PropLint` C25–C28,
C59; `PropLintText` C29, C30; `PropSort` C31, C32; `PropLayout`, `PropFile` C33–C36,
C38, C44; `PropPass` C37; `PropOff` C39, C40, C58; `PropMarkup` C41–C43; `PropSpec`
C45–C47, C54–C57; `Render` C48, C49; `PropBlocks` C50; `PropLintChecks`,
`PropLintDefs`, `PropLintMore` C61–C70; `PropEol` C71; `PropCase` C72;
`Reread` (what the lexer does on a text in any surroundings), `WordShape`,
`CommentFree` and `PropReread` C73; `ParseBlank`, `ParseSame`, `BodySame`, `StdSame`
(two token lists that differ in blanks and letter case, and outside statements in
comments, are parsed alike, for every parse function and for the shipped table),
`OutSame` (a tree with no comment inside a statement keeps all tokens in order) and
`PropSame` C74; `PropClean` C96, C97; `PropIndent` C98; `Walk`, `PropLines` C99; `OneLine`, `PropOneLine` C100; `PropLintCrash` C60; `LintShape`, `PropReport` C104; `ParserLint`, `PropRemarks` C117, C118; `PropNames` C119; `PropLintRest` C120–C124; `PropHalf` C125, C126; `PropLintCodes` C127, C128; `PropPlaces` places for C118, C124; `PropFirst` C129, C130; `PropAutosort` C131, C132; `PropDangle` C133; `PropProse` C134; `PropTall` C135; `PropLimits` C136–C138; `PropSpan` C139; `PropPyConfig` C140–C143; `PropNest` C144; `PropTotal` C145; `PropClosed` C157; `CmdLine`, `PropCmd` C146–C149, C158, C159; `Entry`, `PropEntry` C150–C153; `LintEntry`, `PropLintEntry` C154–C156; `AnnotEntry`, `PropAnnotEntry` C160–C163; `AnnotPage` C164; `PropTabs` C165; `GenEntry` C166, C167; `PropAgain` C168, C169; `LaySame`,
`LayBlock` (the layout depends only on the form of a tree and the texts of its
words), `Places` (the lines on which the tokens of the output stand), `ParseLines`
(the lines of the statements of a parsed file), `StmtSame` (a statement and its
formatted text have the same form), `IdemCore` (blocks of a file and of its output
are laid out alike) and `PropIdem` C75, C76; `Places2`, `ParseLines2`, `LayBlock2`,
`IdemCore2` (the same for files with comments) and `PropIdem2` C101, C102; `PropCheckFile2` C103 (C81 for those files); `PropTexts` the arguments whose text changes
(C34); `CTest` C77; `Dump` C78, C79;
`PropDemo` C80, `PropCheck`, `PropCheckFile` C81;
`Genparsers`, `PropGen` C82–C84.

C85–C95 are corrected forms of properties that are false as first stated (C05, C17,
C24, C29, C34, C35, C39, C41, C46, C61, C48): they name the exception which the
refutation of the original forces, and the theorems are the positive theorems proved
beside those refutations.  C104 is the corrected form of C60,
C105–C116 are those of C06, C07, C27, C28, C42, C47, C50, C69, C79, C82, C83 and C84.

## Mutation tests

`seeded/LOG.jsonl` records edits of the model that imitate realistic bugs, the
theorems that stopped proving, and the theorems that were tightened because they did
not.
