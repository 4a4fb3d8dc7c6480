{"id": "C01", "title": "Span identifiers never collide", "statement": "The printed form of a span (`path:line:col-line:col`), which is the database key, determines the span: two candidates of one project with the same printed form are the same candidate. The removal id (the value of NECESSIST_REMOVAL) is a function of the printed form alone, so two candidates share an id only if the hash collides on their printed forms.", "quantifier": "all pairs of spans (any relative paths, any lines and columns)", "why_tests_cant": "Injectivity is a statement about all pairs of spans; a test compares a few.", "anchors": ["core/src/span.rs: Span::id, Span::to_string_with_path", "core/src/source_file.rs: Display"]}
{"id": "C02", "title": "Printed spans read back", "statement": "Parsing the printed form of a span gives back exactly that span.", "quantifier": "all spans: every relative path, every line and column", "why_tests_cant": "The property ranges over all file names, including ones with separators in them, and all numbers.", "anchors": ["core/src/span.rs: Span::parse, Display", "core/src/sqlite.rs: into_internal_removal"]}
{"id": "C03", "title": "Candidate text is the exact slice", "statement": "The text stored and printed for a candidate is exactly the characters of the source file between the span's start and end: the file is prefix ++ text ++ suffix, where the prefix ends at the start position and prefix ++ text ends at the end position.", "quantifier": "all file contents (any Unicode text, any line structure) and all spans inside the file", "why_tests_cant": "Line/column to offset arithmetic must be right for every text.", "anchors": ["core/src/span.rs: Span::source_text", "core/src/source_file.rs: SourceFile::offset_calculator"]}
{"id": "C04", "title": "Explicit removal deletes the candidate and nothing else", "statement": "While a candidate is explicitly removed the file on disk is the original with exactly the candidate's text deleted: everything before and after the span is unchanged, and the deleted text is the candidate text that gets reported.", "quantifier": "all file contents and all spans inside the file", "why_tests_cant": "Quantifies over all texts and positions.", "anchors": ["core/src/span.rs: Span::remove"]}
{"id": "C05", "title": "Instrumentation is equivalent to removing one statement", "statement": "Running an instrumented file with NECESSIST_REMOVAL set to the id of one of the instrumented statements executes exactly the source text that explicit removal of that statement would leave, and with NECESSIST_REMOVAL set to any other value it executes the whole original text; source characters are never changed by instrumentation.", "quantifier": "all files, all nested families of candidate statements and all values of NECESSIST_REMOVAL", "why_tests_cant": "The insertions interact: nested and adjacent statements share insertion points; only an induction over all nestings covers them.", "anchors": ["core/src/core.rs: instrument_statements", "core/src/source_file.rs: SourceFile::insert", "backends/src/rust/mod.rs: statement_prefix_and_suffix", "backends/src/go/mod.rs: statement_prefix_and_suffix"]}
{"id": "C06", "title": "Source files are always restored", "statement": "Whenever a run ends - normally, with an error, with a panic that unwinds, or after Ctrl-C - every source file holds exactly the contents it had when the run began.", "quantifier": "all candidate sets, all backend behaviours (dry-run, build and test outcomes, failures, panics), all Ctrl-C arrival points and database failures", "why_tests_cant": "The exit can happen at any of the many `?`s and at any iteration; tests exercise a handful.", "anchors": ["core/src/core.rs: run, instrument_statements", "core/src/span.rs: Span::remove", "core/src/lib.rs: Backup"]}
{"id": "C07", "title": "A test never runs against another candidate's removal", "statement": "Whenever a test is executed for a candidate, the file on disk is either the instrumented file (with NECESSIST_REMOVAL naming the candidate) or the original with exactly that candidate removed; every other source file is unmodified.", "quantifier": "all runs: all candidate sets, past removals and backend behaviours", "why_tests_cant": "Requires an invariant over every reachable state of the run loop.", "anchors": ["core/src/core.rs: run"]}
{"id": "C08", "title": "Each candidate is recorded at most once, with its own outcome", "statement": "In a run that starts from an empty database every candidate gets at most one row, every row belongs to a candidate and carries that candidate's text, and its outcome is the one its tests determined (or `skipped` if the file's dry run failed). In a run that ends normally exactly the candidates whose outcome was determined have a row.", "quantifier": "all candidate sets and all backend behaviours", "why_tests_cant": "Ranges over all histories of the run loop.", "anchors": ["core/src/core.rs: run, emit, skip_present_spans", "core/src/sqlite.rs: insert"]}
{"id": "C09", "title": "Interrupted runs can be resumed", "statement": "If a run is interrupted at any point and then resumed with --resume (source, configuration and test behaviour unchanged), the resumed run neither re-executes a recorded candidate nor fails, and the final database equals that of an uninterrupted run.", "quantifier": "all candidate sets (statements and method calls in any arrangement), all interruption points, all outcomes", "why_tests_cant": "The interruption point and the candidate arrangement are unbounded.", "anchors": ["core/src/core.rs: run, skip_past_removals, sqlite_and_past_removals_init_lazy"]}
{"id": "C10", "title": "Skipping recorded candidates is a merge", "statement": "Given candidates in ascending order and recorded removals in ascending order, the skipping procedure never skips a candidate that has no record, stops at the first candidate without a record, and leaves exactly the records that come after it.", "quantifier": "all ascending candidate sequences and all ascending record sequences", "why_tests_cant": "Quantifies over all pairs of sequences.", "anchors": ["core/src/core.rs: skip_past_removals"]}
{"id": "C11", "title": "Change warnings are sound", "statement": "The `configuration or source files have changed` warning reports `missing` only for a record matching no remaining candidate and `unexpected` only when a candidate without a record precedes a record; an unchanged project resumed after an uninterrupted prefix produces no warning while records remain.", "quantifier": "all candidate sequences and record sequences in ascending order", "why_tests_cant": "Quantifies over all pairs of sequences.", "anchors": ["core/src/core.rs: skip_past_removals, update_progress"]}
{"id": "C12", "title": "Ctrl-C stops the run without recording the interrupted candidate", "statement": "Once Ctrl-C is seen the run executes nothing more for any other candidate, records no row for the candidate being executed, returns an error, and leaves earlier rows in place.", "quantifier": "all runs and all arrival times of Ctrl-C", "why_tests_cant": "The signal can arrive at any time.", "anchors": ["core/src/core.rs: run, CTRLC"]}
{"id": "C13", "title": "The outcome of a candidate is decided by its tests in order", "statement": "A candidate is `passed` iff every one of its tests passed; otherwise its outcome is that of the first test that did not pass, and no later test is executed; if that test could not be judged (it reported that it was not run) the candidate gets no outcome.", "quantifier": "all test lists and all execution results", "why_tests_cant": "Quantifies over all sequences of results.", "anchors": ["core/src/core.rs: run (try_fold), perform_exec"]}
{"id": "C14", "title": "Outcome classification of one execution", "statement": "An execution that exits successfully within the timeout is `passed`, one that exits unsuccessfully is `failed`, one that outlives the timeout is `timed-out` and its process tree is killed and reaped; with --timeout 0 nothing is ever `timed-out`, and the default timeout is 60 seconds.", "quantifier": "all timeouts, execution durations, exit statuses and postprocessor answers", "why_tests_cant": "Ranges over all durations and timeouts.", "anchors": ["core/src/core.rs: perform_exec, timeout"]}
{"id": "C15", "title": "The thread limit is restored", "statement": "The process of a test is started with a soft process limit of 1024 more than the processes that exist, or the hard limit if that is less. After each execution that was started and waited for, the soft process limit is what it was before, and it never exceeds the hard limit in between.", "quantifier": "all initial limits and all execution results", "why_tests_cant": "Depends on every exit path of the function.", "anchors": ["core/src/core.rs: perform_exec, rlimit::set_soft_rlimit"]}
{"id": "C16", "title": "Killing a timed-out test kills its whole process tree", "statement": "When a test times out, the kill procedure terminates and signals the test process and every one of its descendants exactly once, children before their parents, and signals nothing else.", "quantifier": "all finite process trees", "why_tests_cant": "Tree shapes and depths are unbounded.", "anchors": ["core/src/core.rs: transitive_kill, child_processes"]}
{"id": "C17", "title": "Console output is the recorded removals the flags ask for", "statement": "A run or dump prints a removal iff not --quiet and (--verbose or the outcome is `passed`); --no-lines-or-columns changes only the location; --dump prints the recorded removals in span order.", "quantifier": "all options and all removal lists", "why_tests_cant": "Quantifies over all removals and flag combinations.", "anchors": ["core/src/core.rs: emit_to_console, dump"]}
{"id": "C18", "title": "Database opening protocol", "statement": "Without --dump, --reset or --resume an existing database is never touched and the run is refused; --reset empties it; --resume and --dump preserve every row and return all of them; --dump never creates a database; --resume and --reset create one if there is none (unless the warning about it is denied: then nothing is created). However many invocations without --reset follow one another, and wherever they are stopped, no row is lost or changed.", "quantifier": "all prior database states and flag combinations", "why_tests_cant": "All states times all flags.", "anchors": ["core/src/sqlite.rs: init"]}
{"id": "C19", "title": "Outcome names round-trip and are accepted by the schema", "statement": "Every outcome's stored name parses back to the same outcome, distinct outcomes have distinct names, and the table's CHECK constraint accepts exactly the names of the outcomes.", "quantifier": "all outcomes and all strings", "why_tests_cant": "`Exactly` ranges over all strings.", "anchors": ["core/src/outcome.rs", "core/src/create_table_removal.sql"]}
{"id": "C20", "title": "Denied warnings are errors, allowed warnings are silent", "statement": "A warning named by --deny (or by --deny all) always makes the operation fail, even if it is also allowed; otherwise a warning named by --allow (or all) prints nothing; otherwise it is printed (unless --quiet); the operation continues in the last two cases.", "quantifier": "all allow/deny lists, warnings, flags and warning histories", "why_tests_cant": "State machine over histories of warnings.", "anchors": ["core/src/warn.rs: warn_internal"]}
{"id": "C21", "title": "Once-only warnings and notes", "statement": "In one process, a warning raised with the once flag is printed at most once per warning kind, the `Silence this warning with` advice is printed at most once per warning kind, and the bug-report advice at most once per warning kind, regardless of how often and in which order warnings are raised.", "quantifier": "all sequences of warnings", "why_tests_cant": "Ranges over all histories.", "anchors": ["core/src/warn.rs: warn_internal, WARNING_STATE"]}
{"id": "C22", "title": "Quiet runs print nothing", "statement": "With --quiet no warning, note, progress line or removal is printed on any path.", "quantifier": "all sequences of output events", "why_tests_cant": "Ranges over all histories.", "anchors": ["core/src/core.rs: necessist, emit_to_console", "core/src/warn.rs: warn_internal"]}
{"id": "C23", "title": "Incompatible options are always rejected", "statement": "The command line is accepted iff no two options that contradict each other are given (two modes of operation; --no-sqlite with an option about the database; --quiet with an option that prints its answer; --quiet with --verbose) and --write is given only with --check-skill or --find-skill; a refusal names a contradicting pair that was given.", "quantifier": "all option combinations", "why_tests_cant": "2^n combinations, and the macro recursion must cover every pair.", "anchors": ["core/src/core.rs: process_options, incompatible!"]}
{"id": "C24", "title": "Only files under the root are accepted", "statement": "Every source file handed to the parser is the canonicalization of a path the user named and lies under the root; if any named path cannot be canonicalized or lies outside, the whole invocation fails before anything is parsed.", "quantifier": "all path lists and all canonicalization behaviours", "why_tests_cant": "Quantifies over all paths.", "anchors": ["core/src/core.rs: canonicalize_source_files"]}
{"id": "C25", "title": "Framework auto-detection is unambiguous", "statement": "With `auto`, a framework is chosen iff no applicability check fails and exactly one framework is applicable, and it is that one; with none or several the invocation fails; an explicitly named framework is used without any applicability check.", "quantifier": "all subsets of applicable frameworks", "why_tests_cant": "All subsets, and detection errors.", "anchors": ["core/src/framework/auto.rs", "core/src/core.rs: backend_for_framework", "core/src/framework/union.rs"]}
{"id": "C26", "title": "Ignore patterns are globs", "statement": "An ignored function/macro/walkable-function pattern matches a name iff the name is obtained from the pattern by replacing each `*` with some newline-free string; every other character, including `.`, matches only itself; an ignored method pattern additionally matches when the matched name is preceded by dot-terminated path segments; a pattern with any character other than letters, digits, `.`, `_`, `*` is rejected as an error.", "quantifier": "all patterns and all names", "why_tests_cant": "All pairs of strings; escaping must be right for every character.", "anchors": ["core/src/config.rs: compile_pattern, escape, compile"]}
{"id": "C27", "title": "Configuration in effect", "statement": "The configuration a run uses is the framework's own ignore patterns followed by the user's, plus the user's tests, walkable functions and options: a name is ignored iff a framework or user pattern matches it, nothing is lost or invented, and combining them never panics; a kind of pattern the framework does not support is warned about iff the user gave one. In general, merging two configurations is refused iff they set the same option differently and otherwise concatenates the lists. (That a merge keeps an option set only on the left is refuted.) Whatever the user's configuration, each framework ignores the functions, macros and methods that its section of the README lists, those the user's patterns match, and no others.", "quantifier": "all pairs of configurations and all names", "why_tests_cant": "All pairs of lists and optional fields, and all names.", "anchors": ["core/src/config.rs: Toml::merge, compile, Compiled", "backends/src/parsing.rs: check_config!, compile_config"]}
{"id": "C28", "title": "`necessist:` comments", "statement": "A candidate is suppressed by a skip comment iff the line directly above the candidate's first line of code is a comment `// necessist: skip` (possibly followed by more text after a word boundary); a file is left out as a whole iff it has a comment `// necessist: skip-file` preceded only by blank lines, comments and `<?php`; a misplaced skip-file comment and a `necessist:` comment that says neither are each warned about once, at their position, and denying a warning makes the first of that kind an error.", "quantifier": "all files, all layouts of comments and code, all candidates, all sets of denied warnings", "why_tests_cant": "All layouts of comments and code.", "anchors": ["backends/src/directives.rs: collect, skip, span_code_start_line"]}
{"id": "C29", "title": "The last statement of a test is never removed", "statement": "No statement that is the last statement of a test's body is a candidate because of that test.", "quantifier": "all test files", "why_tests_cant": "All program shapes.", "anchors": ["backends/src/generic_visitor.rs: is_last, visit_statement_post, visit_call"]}
{"id": "C30", "title": "Declarations and control statements are never removed", "statement": "No local declaration, break, continue or return-like statement is a statement candidate.", "quantifier": "all test files", "why_tests_cant": "All program shapes.", "anchors": ["backends/src/generic_visitor.rs: statement_is_removable, visit_statement_post"]}
{"id": "C31", "title": "Ignored calls are never removed", "statement": "No statement candidate is a call of an ignored function or macro, an ignored method on a plain receiver, or a chain of method calls that starts with one of those; no method-call candidate is a call of an ignored method or part of such a chain. (A statement `foo().m();` with m ignored but foo not is still a statement candidate, as the valid_pattern fixture documents.)", "quantifier": "all test files and all configurations", "why_tests_cant": "All programs times all configurations.", "anchors": ["backends/src/generic_visitor.rs: visit_call, visit_macro_call, call_info_inner"]}
{"id": "C32", "title": "A statement containing candidates is not a candidate", "statement": "A statement other than a call that contains another statement is never a candidate.", "quantifier": "all test files and nesting depths", "why_tests_cant": "Nesting is unbounded.", "anchors": ["backends/src/generic_visitor.rs: visit_statement, visit_statement_post"]}
{"id": "C33", "title": "Candidates are complete", "statement": "Every removable call statement or leaf statement in the body of a test that differs from the test's last statement and is neither declaration, control, ignored nor skipped is a candidate of that test; likewise for method calls and for the statements of local functions that the test calls directly; and if local functions are called from tests only, the statements of every local function reached from a test are candidates. (Refuted beyond that: Rust statements textually equal to the last one, functions also called outside tests.)", "quantifier": "all test files", "why_tests_cant": "A completeness claim over all program shapes.", "anchors": ["backends/src/generic_visitor.rs"]}
{"id": "C34", "title": "Every candidate has a test that reaches it", "statement": "Each candidate is associated with a non-empty, duplicate-free list of tests, and each of those tests contains the candidate or calls, directly or through other local functions, a local function that contains it, provided that functions are told apart (refuted for Rust functions with identical bodies).", "quantifier": "all test files", "why_tests_cant": "All programs and call graphs.", "anchors": ["backends/src/generic_visitor.rs: register_span, visit_test, next_local_function"]}
{"id": "C35", "title": "Local functions are walked at most once and the walk ends", "statement": "Each local function's body is walked at most once and only if it is called from the file or from a walked function, and walking ends even for recursive and mutually recursive functions. A name that several local functions of a file share is warned of as ambiguous if a test calls it, directly or through other local functions, and no other name is.", "quantifier": "all finite call graphs", "why_tests_cant": "Call graphs are unbounded and cyclic.", "anchors": ["backends/src/generic_visitor.rs: next_local_function, callee_is_walkable_function", "backends/src/parsing.rs: ParseAdapter::parse"]}
{"id": "C36", "title": "Walking never panics", "statement": "The internal assertions of the walker (balanced test and statement bookkeeping) hold on every source file without nested tests in which the call a statement performs is one the traversal visits. (Refuted without these provisos: Solidity `foo().x;`, TypeScript `await it(..)`, a test inside a test.)", "quantifier": "all test files", "why_tests_cant": "All program shapes.", "anchors": ["backends/src/generic_visitor.rs: visit_test, visit_test_post, visit_statement, visit_statement_post, results"]}
{"id": "C37", "title": "Method calls that are whole statements", "statement": "A statement of a test that is a non-ignored method call and not the last statement yields two candidates: the statement and the method call. (README says that the primary-effect method call of a statement is not removed in addition; this is refuted.)", "quantifier": "all test files", "why_tests_cant": "All program shapes.", "anchors": ["README.md", "backends/src/generic_visitor.rs: visit_call"]}
{"id": "C38", "title": "Arguments of ignored calls are left alone", "statement": "A statement or method call that appears in the argument list of an ignored function, method or macro is not a candidate, unless the ignored call is the call of the test's last statement or of an unremovable statement (for which it is refuted) or visit_ignored_arguments is set.", "quantifier": "all test files and configurations", "why_tests_cant": "All programs and nestings.", "anchors": ["README.md", "backends/src/generic_visitor.rs: visit_call, visit_macro_call"]}
{"id": "C39", "title": "Parsing several files merges without loss", "statement": "Parsing a set of source files yields for each file exactly the candidates that parsing it alone yields, in the order of the paths; only the set of files looked at matters, not order nor repetition; the parse succeeds iff each file's does; a file is listed iff it is not marked to be skipped and its parser accepts it; its candidates are those of the walk over its tree with the patterns, options and skip comments in force; the number of tests reported is the sum over the files looked at. The warnings of a parse are those about the configuration and about the files looked at; the first that is denied is the last, and ends the parse.", "quantifier": "all lists of files", "why_tests_cant": "All file lists, with repetitions.", "anchors": ["backends/src/parsing.rs: ParseAdapter::parse, extend"]}
{"id": "C40", "title": "Tree walking visits exactly the subtree", "statement": "The walk with the bounded tree cursor over a test's body or a local function looks at every node below it exactly once, in preorder, and at no other node (except those in parts the visitor asks to skip), calls the visitor's enter and leave around exactly the node's subtree, and ends with the cursor back at its start; provided every statement and call has children.", "quantifier": "all trees, all starting nodes, all visitors", "why_tests_cant": "Tree shapes are unbounded.", "anchors": ["backends/src/tree_sitter_utils.rs: BoundedCursor", "backends/src/go/visitor.rs: walk_nodes", "backends/src/php/visitor.rs"]}
{"id": "C41", "title": "Byte positions are converted to character columns", "statement": "A backend position (byte offset or row and byte column) is converted to the line and character column that denote the same place in the text, for any Unicode text.", "quantifier": "all texts and all positions on character boundaries", "why_tests_cant": "All Unicode texts.", "anchors": ["backends/src/tree_sitter_utils.rs: to_line_column", "backends/src/foundry/mod.rs: offset_to_line_column", "backends/src/rust/mod.rs"]}
{"id": "C42", "title": "Trimming a span removes only leading whitespace", "statement": "Trimming a span's start yields a span with the same end whose text is the original text without its leading whitespace.", "quantifier": "all texts and spans", "why_tests_cant": "All texts, including ones with line breaks in the whitespace.", "anchors": ["core/src/span.rs: Span::trim_start"]}
{"id": "C43", "title": "Skill checking classifies correctly", "statement": "--check-skill reports nonexistent, old, current or newer exactly according to the presence of the file and the order of its version and the built-in one, and fails (writing nothing) if the file is not a skill named necessist-audit with a version; without --write no file changes; with --write only an old or (for --check-skill) nonexistent skill file is written, with the built-in contents, after which the reported status is current; newer and current files are never changed.", "quantifier": "all file contents and versions", "why_tests_cant": "All contents and versions.", "anchors": ["core/src/skill.rs: check_impl, maybe_write, maybe_update"]}
{"id": "C44", "title": "Skill finding never creates files and reports the worst status", "statement": "--find-skill changes files at the well-known places only, only with --write, and never creates one; it exits with success iff, when it is done, every well-known place holds a current or newer skill; with --write every outdated skill is updated, if every file there is a necessist-audit skill and the system calls succeed. It prints one line per well-known place, Claude first, then Codex, saying how the file there stands, and stops at a file that is not a necessist-audit skill.", "quantifier": "all states of the well-known paths", "why_tests_cant": "All combinations of states.", "anchors": ["core/src/skill.rs: find_impl, well_known_paths, exit_code"]}
{"id": "C45", "title": "One instance per root", "statement": "Two live invocations on the same root are never both past locking, their work on it is never interleaved, and the lock is never left behind, whatever the order in which invocations start, end or are killed.", "quantifier": "all interleavings of any number of invocations starting and ending", "why_tests_cant": "Schedules are unbounded.", "anchors": ["core/src/core.rs: lock_root", "core/src/flock.rs"]}
{"id": "C46", "title": "Recorded URLs point at the candidate", "statement": "The URL stored with a row is the web location of the repository's remote, the commit, the candidate's path relative to the repository's working directory, and its line range; it is empty when no repository is known.", "quantifier": "all spans, roots and remotes", "why_tests_cant": "All strings.", "anchors": ["core/src/sqlite.rs: url_from_span"]}
{"id": "C47", "title": "Candidate counts are consistent", "statement": "--dump-candidates prints one line per candidate, with its location and its text; --dump-candidate-counts prints one line per source file in ascending order of count, whose numbers sum to the number of lines --dump-candidates prints. The number a run announces counts a candidate once per test, hence equals that sum iff every candidate has exactly one test.", "quantifier": "all candidate maps", "why_tests_cant": "All maps.", "anchors": ["core/src/core.rs: dump_candidates, dump_candidate_counts, prepare"]}
{"id": "C48", "title": "Test-name lookup failures are reported once per test", "statement": "For frameworks whose dry run collects test names, an unknown test name yields a warning once per name and such candidates are not executed.", "quantifier": "all sequences of lookups", "why_tests_cant": "Histories.", "anchors": ["backends/src/ts/inner/mod.rs: exec, dry_run"]}
{"id": "C49", "title": "A run that did not execute the intended test is not counted", "statement": "For frameworks with an output check, an execution is judged only if its output shows the intended test was run; otherwise a warning is raised, the candidate gets no outcome and no row.", "quantifier": "all outputs", "why_tests_cant": "All outputs.", "anchors": ["backends/src/running.rs: exec", "core/src/core.rs: perform_exec"]}
{"id": "C50", "title": "How a Rust source file's tests are named and located", "statement": "For a Rust source file, the package is the innermost workspace package whose directory contains the file; its module path is the one Cargo's layout gives it (src/a/b.rs -> a::b, src/lib.rs -> the root, tests/x.rs -> the root, src/bin/x.rs -> the root, a/mod.rs -> a) -- except that a file named lib.rs or main.rs that is not a crate root wrongly loses its last component, which is refuted as a fault; a file outside src and tests has no known path. The tests found in it are exactly its #[test] functions in order, named by the file's module path, the enclosing modules and the function's name, and listed by cargo; a test nested in a test's body fails an assertion. The cargo flags select the file's own target. Caching these answers never changes them.", "quantifier": "all sets of workspace packages, all paths, all files' item trees, all sets of tests cargo lists", "why_tests_cant": "Ranges over every directory layout and every nesting of modules; tests sample a few layouts.", "anchors": ["backends/src/rust/storage.rs: fs_module_path, relative_path, cached", "backends/src/rust/mod.rs: Test::new, source_file_flags, cached_test_file_fs_module_path", "backends/src/rust/visitor.rs: visit_item_fn, visit_item_mod, is_test"]}
{"id": "C51", "title": "Test identifiers lead back to their test paths", "statement": "Within a run, looking an identifier up returns the test path it was reserved for, and goes on doing so after any further reservations; different reservations get different identifiers. That equal paths get equal identifiers, which the code's map is there to ensure, is refuted: the map is never filled.", "quantifier": "all sequences of reservations", "why_tests_cant": "Ranges over histories of reservations.", "anchors": ["backends/src/rust/mod.rs: reserve_test_path_id"]}
{"id": "C52", "title": "Go imports and prefixes", "statement": "Instrumenting a Go file inserts exactly one line `import \"os\"`, directly after the first line starting with `package `, iff there is something to instrument and the text does not import os already (in one of the four ways of writing it); it fails if there is no such line; nothing else of the file is changed but for the guards. If the file imports os under a name outside parentheses, the guards use the name of the first such import. (For a named import within parentheses this last claim is false: only the last letter of the name and the digits after it are used.)", "quantifier": "all file contents", "why_tests_cant": "All texts.", "anchors": ["backends/src/go/mod.rs: instrument_source_file, imports_os, package_line"]}
{"id": "C53", "title": "Foundry: statements after vm.prank and vm.expect* are left alone", "statement": "In a Foundry test file, a statement that directly follows vm.prank(..) or vm.expect..(..) in its block -- or is anywhere inside such a statement -- is never a removal candidate, nor are its method calls, in tests and local functions alike; declarations, break, continue, emit, return and revert are never candidates. Every other statement of a test function (named test.., not pure, with a body) that is a non-ignored, non-local call or a leaf statement is a candidate of it, unless it is the test's last statement or skipped. Refuted: that calls of local functions are always followed -- a call inside an assignment is not.", "quantifier": "all Solidity syntax trees, all configurations", "why_tests_cant": "Ranges over all nestings of blocks and all sequences of cheatcodes and statements; the fixtures contain a handful.", "anchors": ["backends/src/foundry/visitor/mod.rs: filter_statements, is_prefix_cheatcode, is_test_function, collect_local_functions, visit_statement, visit_expression", "backends/src/foundry/mod.rs: statement_is_control, statement_is_declaration, call_callee"]}
{"id": "C54", "title": "Progress counts every candidate once", "statement": "However candidates are disposed of (tested, recorded before, skipped because the dry run failed), progress never exceeds the number of candidates and equals it when the run completes.", "quantifier": "all candidate maps, past rows and behaviours of the outside world", "why_tests_cant": "it is an invariant over all interleavings of skipping, testing and failing", "anchors": ["core/src/core.rs: run", "core/src/core.rs: update_progress", "core/src/core.rs: skip_present_spans"]}
{"id": "C55", "title": "What one process stores another reads back", "statement": "Rows recorded for removals are read back by a later process as the same removals in the same order; the database accepts a row iff no row has the same span, and refuses it without change otherwise.", "quantifier": "all removals whose files exist and whose paths have no colon, all roots and remotes", "why_tests_cant": "The round trip must hold for every path, position, text and outcome.", "anchors": ["core/src/sqlite.rs: init, insert", "core/src/create_table_removal.sql", "core/src/span.rs"]}
{"id": "C56", "title": "What each mode leaves alone", "statement": "With --dump, --dump-candidates or --dump-candidate-counts nothing on disk changes at any moment and no test is run. --default-config writes necessist.toml only if there is none, and touches nothing else. --check-skill and --find-skill touch nothing under the root, and nothing at all without --write. A command line that is refused, a root that cannot be found, or a locked root: nothing happens and the exit code is 2. Tests are run, the database is created, emptied (--reset) or added to, and sources are written only after the command line was accepted, the root locked, the configuration read, the framework chosen, the named files found in the root and the candidates found. Exit code 1 only comes from the skill modes; 0 from a run means the run went through.", "quantifier": "all option combinations, contents of the disk, and outcomes of every system call, parser, test and SQL statement", "why_tests_cant": "the number of combinations of options, failures and disk states is unbounded; a test shows single paths", "anchors": ["core/src/core.rs: necessist, prepare, run, default_config, dump", "core/src/config.rs: Toml::read", "necessist/src/main.rs: main"]}
{"id": "C57", "title": "What an invocation leaves behind, and any sequence of invocations", "statement": "After any invocation, however it ended, all sources, the configuration (if present) and the skills (without --write) are as before; the database keeps all earlier rows unchanged unless --reset was given, is untouched with --no-sqlite, and a plain run with an existing database is refused with nothing changed. After a run the rows are the old ones (none with --reset) followed by one row per recorded removal in order; a successful run on a new or reset database has a row for every candidate whose tests said how they ended and for nothing else. All of this also holds over any sequence of invocations.", "quantifier": "all sequences of invocations with any options, disks, outcomes and failures", "why_tests_cant": "quantifies over unbounded histories and every failure point", "anchors": ["core/src/core.rs: necessist, prepare, run, sqlite_and_past_removals_init_lazy", "core/src/sqlite.rs: init, insert", "core/src/span.rs: Span::remove"]}
{"id": "C58", "title": "Test commands select the test in question", "statement": "For the Rust, Go, PHP and Foundry back ends: the command executed to build a test runs no test, and the command executed to run a test runs, of all the tests there may be, that test and no other; the check of the output succeeds iff the test is among them; and the names of Rust tests that necessist knows are those the test binaries contain. Provided the user's additional arguments do not select tests themselves. False in part: Rust arguments containing `--` make necessist see no test at all; a `-run` given by the user also replaces the pattern of Go's build command; PHPUnit tests with data providers are never selected; Foundry also runs every test whose signature contains the name, and no test if the name contains `$`.", "quantifier": "every package, source file, test name, list of additional arguments, set of tests and output that the tools' documentation allows", "why_tests_cant": "Whether another test is selected, too, depends on all names there may be in a project; tests see a few.", "anchors": ["backends/src/running.rs: RunAdapter::exec, dry_run, build_source_file", "backends/src/rust/mod.rs: command_to_run_test, cached_source_file_test_names", "backends/src/go/mod.rs: command_to_run_test, source_file_package_path", "backends/src/php/mod.rs: command_to_run_test", "backends/src/foundry/mod.rs: command_to_run_test, test_command"]}
{"id": "C59", "title": "Tests reported by Mocha, Vitest and Anchor are known", "statement": "A test that the dry run of its TypeScript source file reports as run is known from then on: when it is its turn it is executed, without a warning, whatever else the output contains. With Mocha, the message read from a test's line is the test's title, with or without a duration or gas figure behind it; with Vitest, the messages are exactly the titles of the assertion results in the test results, and for Anchor the JSON text is what follows the first five lines. False in part for Mocha: a title that itself ends like a figure, as in `adds (5ms)`, loses that end unless a figure follows; and pending tests and titles of suites are taken for tests that ran. Output that is not UTF-8 is an error.", "quantifier": "every output, indentation, mark, title and figure", "why_tests_cant": "Titles are arbitrary texts; that the regular expressions, with backtracking and in their order, cut each of them in the right place is a statement about all of them.", "anchors": ["backends/src/ts/mocha.rs: it_message_extractor", "backends/src/ts/vitest.rs: extract_it_messages", "backends/src/anchor/mod.rs: json_extractor", "backends/src/ts/inner/mod.rs: dry_run, exec"]}
{"id": "C60", "title": "Anchor.toml is restored, and patched as intended while a test runs", "statement": "With the Anchor framework, the `scripts.test` entry of Anchor.toml is taken apart at its last word ending in `.ts`; a test script from which this is not possible, or which names neither mocha nor vitest before that word, is rejected. Every `anchor test` the tool starts finds Anchor.toml with exactly that word replaced by the absolute path of the source file in question (and runner arguments appended), and after every operation of the back end - a dry run, a build check, an execution with or without success, or a failure of the backup, the write, the start of the command, the install or the extraction of messages - Anchor.toml has the contents it had before, whatever the command did to it. A test is executed only after a check of its source file has succeeded; with Mocha the check is a --dry-run. (False for Vitest: the check runs the tests.)", "quantifier": "all test scripts, documents, sequences of back end operations, failure points, and commands that modify Anchor.toml", "why_tests_cant": "the repository's tests run one Anchor project; failures between backup and restore, commands that rewrite Anchor.toml and unusual scripts are not sampled", "anchors": ["backends/src/anchor/mod.rs: Anchor::new, parse_test_value, TEST_RE, patch_anchor_toml, check, dry_run, build_source_file, exec", "core/src/core.rs: perform_exec"]}
{"id": "C61", "title": "What a recorded row means, end to end", "statement": "Every removal that an invocation writes to the database or prints is a candidate the back end found in a source file, with the text the file has between the candidate's positions. If it is recorded as passed then each of the candidate's tests was run while the files on disk were the user's files without exactly that text (deleted, or guarded so that with NECESSIST_REMOVAL set as it was, everything but that text executes), and its process ended within the time limit with status 0, and its output, where the back end looks at it, showed the test had been run. Failed, timed-out and nonbuildable likewise: the tests before the first that did not pass passed, and that one failed, timed out or did not build; skipped: the file's dry run failed. The database afterwards holds the rows that were there (none with --reset) followed by those.", "quantifier": "all options, projects, disks, back end answers, operating system behaviours", "why_tests_cant": "it composes parsing of spans, rewriting, instrumentation, the run loop, the execution of processes and the database for every project and every behaviour of the tests", "anchors": ["core/src/core.rs: necessist, prepare, run, instrument_statements, perform_exec, emit", "core/src/span.rs: Span::remove, Span::source_text, Span::id", "core/src/sqlite.rs: init, insert"]}
{"id": "C62", "title": "A project can be worked through in several invocations, whatever interrupts them", "statement": "Take a project whose sources, candidates and tests' behaviour stay the same, and any sequence of necessist invocations on it, with any options, each of which may end normally, fail, panic, be interrupted by Ctrl-C, or be killed at any point while preparing or between two committed rows. Then in the database left behind: every row names a candidate, has that candidate's source text, and the outcome that its tests have; and no candidate has two rows. If furthermore the candidates come in the order of their positions (otherwise C09 fails), an invocation without --reset never runs a test for a candidate that has a row; and an invocation that runs tests and exits with success leaves exactly one row for each candidate whose tests say how they end, so two such invocations leave the same span, text and outcome columns in the same order, whatever happened before each of them.", "quantifier": "for all projects, sources, behaviours of tests, options, sequences of invocations, interruption and kill points, and failures of back end, disk and database", "why_tests_cant": "the histories are unbounded: any number of invocations, each stopped at any point; a test runs one history", "anchors": ["necessist/src/main.rs:16-32", "core/src/core.rs:120-433 necessist, prepare, run", "core/src/core.rs:583-648 skip_past_removals, skip_present_spans", "core/src/sqlite.rs:70-179 init, insert"]}
{"id": "C63", "title": "An invocation fails only for a reason, and a denied warning is one", "statement": "If everything needed to start a run is in order (accepted options, root, lock, configuration or none, framework, source files, a successful parse, the signal handler), the database is unwanted, absent, to be reset, or to be resumed with rows of earlier invocations on the same project, and nothing outside the tests goes wrong (no signal, no failing disk, database or back end), then the invocation exits with 0 unless it issues a warning that the user denied by name or with --deny all, and then it exits with 2. Whatever else happens, after a denied warning of the run nothing is done but to put files back, and the exit code is 2.", "quantifier": "for all options, settings, candidate sets, sources, tests' behaviours and schedules of back end answers", "why_tests_cant": "it excludes every other cause of failure, for every option combination and every sequence of events", "anchors": ["core/src/core.rs:120-433 necessist, prepare, run", "core/src/warn.rs:92-156 warn", "core/src/config.rs:77-96 Toml::read", "core/src/sqlite.rs:70-153 init"]}
{"id": "C64", "title": "Go: which functions are tests and which statements are candidates", "statement": "For every Go syntax tree: the tests are exactly the functions whose names start with Test, but for TestMain and ignored ones. A statement that is a candidate of a test is a statement of its body other than the last, or of a function of the file that it calls (directly or through such functions); it is not a return, break, continue or defer, nor a declaration; it is a call that is not ignored, or contains no statement outside of the arguments of ignored calls. A method call that is a candidate is a call base.p1...pn(..) there that is not ignored. Conversely every plain statement, every call statement that is neither ignored nor of a function of the file, and every method call that is not ignored, of a test or of a function it calls by name, is a candidate. The walk ends, and never panics if positions are consistent.", "quantifier": "all tree-sitter syntax trees, configurations (ignored names, walkable functions, spans to skip), and results of the walk", "why_tests_cant": "there are infinitely many syntax trees; a fixture fixes a handful of shapes and one configuration", "anchors": ["backends/src/go/mod.rs: test_statements, statement_is_expression, statement_is_control, statement_is_declaration, field/call accessors", "backends/src/go/visitor.rs: visit, collect_local_functions, visit_tree, visit_test_function_declaration, visit_local_function, visit_current_node", "backends/src/generic_visitor.rs", "backends/src/tree_sitter_utils.rs"]}
{"id": "C65", "title": "PHP: which methods are tests and which statements are candidates", "statement": "For every PHP syntax tree: the tests are exactly the methods whose names start with test, but for ignored ones. A statement that is a candidate of a test is a statement of a block in braces in its body, and not the last of the body; it is not a return, break, continue or throw, nor a declaration; it is a call that is not ignored, or contains no statement of such a block outside of the arguments of ignored calls. A method call that is a candidate is a call base->p1...->pn(..) (or ?->, ::) of the body that is not ignored. Conversely every plain statement of such a block, every call statement that is not ignored, and every method call that is not ignored, is a candidate. The walk ends, and never panics if positions are consistent. (Statements that are not in braces, such as those of a switch, are not candidates: refuted for them.)", "quantifier": "all tree-sitter syntax trees, configurations (ignored names, spans to skip), and results of the walk", "why_tests_cant": "there are infinitely many syntax trees; a fixture fixes a handful of shapes and one configuration", "anchors": ["backends/src/php/mod.rs: test_statements, statement_is_expression, statement_is_control, statement_is_declaration, expression_is_field, expression_is_call, field_base, call_callee, MaybeNamed", "backends/src/php/visitor.rs: visit, visit_tree, visit_test_method_declaration, visit_current_node"]}
{"id": "C66", "title": "What the looking modes print, from the command line to the console", "statement": "When --dump, --dump-candidates or --dump-candidate-counts is given with options that do not contradict each other, in a project whose root, lock and configuration are in order: --dump prints one line for each stored row in the order of the spans (only rows with outcome passed unless --verbose is given, with a note exactly if something was left out) and exits with 0, and it exits with 2 and prints nothing if there is no database; --dump-candidates exits with 0 exactly if the text of every candidate can be read, and then prints one line per candidate, in the order in which a run would remove them; --dump-candidate-counts exits with 0 and prints one aligned line per file in ascending order of counts, the counts adding up to the number of candidates. After any history of runs whose last one completed, --dump prints exactly the rows that the tests' behaviour dictates, one for each candidate that gets one.", "quantifier": "all option settings, projects, disks, databases, consoles, and all histories of earlier invocations", "why_tests_cant": "The options, the rows and the candidates are unbounded, and the connection between the options and the lines runs through all of the program's branches.", "anchors": ["core/src/core.rs: necessist, prepare, dump, dump_candidates, dump_candidate_counts", "core/src/sqlite.rs: init"]}
{"id": "C67", "title": "Rust: which functions are tests and which statements are candidates", "statement": "For every Rust syntax tree: the tests found are functions marked #[test] or #[tokio::test] that Cargo lists under the name given by the file's place and the modules around the function, and that are not ignored; all of those outside of other functions are found. A statement that is a candidate of a test is a statement of the test's body, not equal to its last statement, or of a function of the file the test calls, directly or through such functions; it is outside of macros and of inner functions that are not tests; it is not a block's value (an expression without semicolon and without a block of its own), not a let, an item, a break, continue or return; it is a call (seen through .await and fields) or macro call that is not ignored, or contains no statement outside of the arguments of ignored calls. A method call that is a candidate is a call base.p1...pn(..) of such code that is not ignored. Conversely every plain statement of a test whose text is not that of its last statement, every call statement that is not ignored and not of a function of the file, every such method call, and every such statement of a function that the test calls, is a candidate. The walk ends, and does not panic if no test is inside of a function and positions are consistent. (A match statement without semicolon is not a candidate even without statements inside: refuted.)", "quantifier": "all syntax trees (any shape and size), all configurations, all module paths, all sets of listed tests, all sets of walkable names", "why_tests_cant": "Fixture files exercise some dozens of shapes; the claim ranges over every nesting of modules, functions, statements, awaits, fields, calls and macros.", "anchors": ["backends/src/rust/mod.rs: statement_is_removable, statement_is_control, statement_is_declaration, expression_is_*, call_callee, test_statements", "backends/src/rust/visitor.rs: collect_local_functions, visit_item_mod, visit_item_fn, visit_stmt, visit_expr_call, is_test", "backends/build/syn.rs: expression_with_block", "backends/src/generic_visitor.rs"]}
{"id": "C68", "title": "TypeScript: which statements are tests and which are candidates", "statement": "For every TypeScript syntax tree in which no statement is a call of it() wrapped in await or members: the tests found are the statements it(\"m\", f) with exactly a string literal and a function with a block body whose message m is not ignored; all of those outside of other such statements are found, however deeply nested in describe calls. A statement that is a candidate of a test is a statement of the test (not the last of its body), or of a function declaration of the file that the test calls, directly or through such functions; it is not a declaration, break, continue, return or throw and not itself a test; it is a call (seen through await and members) that is not ignored, or contains no statement outside of tests and of the arguments of ignored calls. A method call that is a candidate is a call base.p1...pn(..) of such code that is not ignored. Conversely every plain statement of a test but the last, every call statement that is not ignored and not of a function of the file, every such method call, and every such statement of a function that the test calls, is a candidate. The walk ends, and does not panic if no test is inside of a test or function and positions are consistent. (Refuted: it(..).timeout(n) is a test; a file with await it(..) is parsed without panic.)", "quantifier": "all syntax trees (any shape and size), all configurations, all sets of walkable names", "why_tests_cant": "Fixture files exercise some dozens of shapes; the claim ranges over every nesting of describe/it calls, functions, statements, awaits, members and calls.", "anchors": ["backends/src/ts/inner/mod.rs:175-530", "backends/src/ts/inner/visitor.rs", "backends/src/generic_visitor.rs"]}
{"id": "C69", "title": "Foundry: which functions are tests, and which tests a candidate belongs to", "statement": "In a Solidity file the tests found are exactly the functions with a body whose name starts with `test`, that are not `pure`, and whose name the configuration does not ignore. A statement listed for a test is one that the test runs: a statement of the test itself other than its last, or one of the first non-pure function with the called name that the test calls, directly or through other functions of the file (`walkable` names only, call options peeled). It is no declaration, break, continue, emit, return or revert, and nothing it is inside of directly follows a cheatcode; it is a call that is not ignored, or it has no statement inside. A method call listed for a test lies in code the test runs, is not ignored, and its span is what follows the receiver. Conversely, every other removable statement and every method call reached through call arguments of a test is listed for it, and so are the removable statements of the functions it calls from there. The walk ends without panic when the spans of the method calls can be computed. Refuted: a call of an ignored function written with call options (`cb{value: 1}();`) is still a candidate.", "quantifier": "all Solidity syntax trees (in which no statement has the form `f().x;`), all configurations (ignored functions, methods, tests; walkable names), all directives", "why_tests_cant": "a test looks at a few contracts; which test a statement of a shared helper is attributed to depends on the whole call structure of the file, and on the nesting of blocks and cheatcodes", "anchors": ["backends/src/foundry/visitor/mod.rs:38-216", "backends/src/foundry/mod.rs:121-145", "backends/src/foundry/mod.rs:212-385", "backends/src/generic_visitor.rs:216-327", "backends/src/parsing.rs:420-424"]}
{"id": "C70", "title": "Which files are read", "statement": "With no source files named, the files that get candidates are exactly the framework's test files below the project root (Rust: *.rs outside `target`; Go: *_test.go; PHP: *Test.php outside `vendor`; Foundry: *.t.sol under `test`; Hardhat: *.js and *.ts under `test`; Vitest: *.js and *.ts except *.test-d.ts; Anchor: those under `tests`) that no ignore rule excludes on the way, that carry no skip-file comment and that parse. A file that is named is read whatever its name; a directory that is named contributes the test files found from it. Each file is read once per source. A run fails to look for files exactly when a directory on the way cannot be read or the framework's test directory is missing. It is NOT true that naming the directory that holds the tests reads them: back ends with a test directory look for it below every directory they are given.", "quantifier": "all directory trees with distinct names, all ignore rules, all back ends, all lists of named sources, all configurations, all file contents and all parsers", "why_tests_cant": "There are unboundedly many directory trees, names and ignore rules; a fixture has one of each.", "anchors": ["backends/src/rust/mod.rs walk_dir", "backends/src/go/mod.rs walk_dir", "backends/src/php/mod.rs walk_dir", "backends/src/foundry/mod.rs walk_dir", "backends/src/ts/inner/mod.rs walk_dir", "backends/src/ts/vitest.rs path_predicate", "backends/src/parsing.rs parse"]}
{"id": "C71", "title": "What is executed for a source file, and in which order", "statement": "For the Rust, Go, PHP, Foundry, Hardhat and Vitest back ends: a dry run first installs what is missing (Node packages with the package manager whose lock file is there, Composer packages), then (Hardhat) compiles, then runs the file's tests, each only if everything before it succeeded, and it succeeds iff all did and, where test names are collected, the output could be read. Checking a changed file is one command, which alone decides. A test is executed after its check command succeeded (Vitest has none), with the removal's id in the environment, and with Hardhat and Vitest only if an earlier successful dry run of that same file reported it; a check that ends without success makes the candidate nonbuildable and nothing is run. A test that is asked for although no dry run has shown its name is warned about exactly once, and no other is. Once an installation has succeeded nothing is installed again. False: a test's command runs that test alone (Hardhat and Vitest run the whole file, Vitest also files whose path contains the file's); additional arguments go only to test commands (they also go to `hardhat compile` and `forge build`).", "quantifier": "all back ends named, all sequences of dry runs, checks and executions for any files and tests, all behaviours of the commands and of the file system, all additional arguments", "why_tests_cant": "The order of commands must hold for every combination of missing packages, failing commands and earlier requests, which are unbounded sequences.", "anchors": ["backends/src/running.rs RunAdapter", "backends/src/hardhat/mod.rs", "backends/src/vitest/mod.rs", "backends/src/ts/utils.rs install_node_modules", "backends/src/ts/inner/mod.rs dry_run, exec", "backends/src/php/mod.rs install_dependencies", "backends/src/foundry/mod.rs install_dependencies"]}
{"id": "C72", "title": "A killed run loses no source", "statement": "Whenever a run is killed outright (SIGKILL, power loss), even in the middle of writing or restoring a file, at most one source file differs from what it was before the run, and a copy of that file's original contents, made before anything was written to it, still exists. A killed run may leave its source file changed, and running again does not repair it: every later run ends with the disk it began with.", "quantifier": "every project, every behaviour of back ends, tests and file system, every point at which the run dies, including inside a write", "why_tests_cant": "The crash points of a run are as many as its events, and a torn write may leave anything; a test can kill a run at a few points only.", "anchors": ["core/src/core.rs: run, instrument_statements", "core/src/span.rs: remove", "core/src/source_file.rs: insert"]}
{"id": "C73", "title": "A command line means what it says", "statement": "A command line is accepted exactly if it consists of known options, each flag and each single-valued option at most once, with readable values, test files or directories, and perhaps `--` followed by arguments; then every option has the value written, `--allow` and `--deny` accumulate in order, and everything after `--` is handed on unread. `--framework` accepts exactly `auto` (the default) and the names of the frameworks. Advice that necessist prints can be followed: the words `--allow NAME` that a warning ends with are accepted and silence that warning and nothing else, and each name listed when several frameworks apply is accepted by `--framework` and selects that framework.", "quantifier": "every list of words; every warning, message and state of the warnings; every set of applicable frameworks; every pair of name lists for the union of two sets of names", "why_tests_cant": "The command lines are infinitely many, and the advice must be right for every warning and every set of frameworks.", "anchors": ["core/src/cli.rs: Opts, From<Opts>", "core/src/framework/union.rs: value_variants, from_str", "core/src/framework/auto.rs: Singleton, Auto", "core/src/warn.rs: Warning, warn_internal", "necessist/src/main.rs: main"]}
{"id": "C74", "title": "The candidates parsing yields are fit to be removed", "statement": "Whatever the files of a project contain, the candidates a parse yields are such that the rest of the program can act on them: each candidate is attributed to the file it was read from and its start and end positions delimit a piece of the text of that file as it was read, with character positions on line/column boundaries; the statement candidates of a file are listed in ascending order, without repetition, and of any two of them one ends before the other begins or one lies inside of the other. Hence instrumentation, removal and restoration of the files of an invocation do what C05, C07, C57, C61 and C63 say, and a row `passed` means that every test of that candidate was run on the text without it and exited with status 0 in time. What is supposed is only that each language's parser yields a tree whose eligible statements and method calls lie in the text it was given, pairwise disjoint or nested.", "quantifier": "every project tree, configuration, framework, parser satisfying the stated placement contract, list of test files, options and disk; every candidate and every row of every invocation", "why_tests_cant": "tests check particular test suites; the guarantee must hold for every parsed file and every history of an invocation, including configurations that change which statements are candidates", "anchors": ["backends/src/parsing.rs: parse", "backends/src/generic_visitor.rs: visit_statement, visit_call", "backends/src/lib.rs: to_implementation", "core/src/core.rs: prepare, instrument_statements"]}
{"id": "C75", "title": "The command line bounds what the program can do, and the exit code tells the outcome", "statement": "For any words on the command line: if they do not form a command line of the documented grammar, or options contradict each other, or --write comes without --check-skill or --find-skill, then nothing on disk changes, no test is run and the exit code is 2 (0 only if a word before any `--` asks for help or the version). Otherwise, however the program ends by itself, source files are as they were; necessist.toml is created only with --default-config and only if there was none; skill files change only with --write and --check-skill or --find-skill; the database changes only if no mode other than --reset or --resume is asked for and --no-sqlite is not, and without --reset no row is lost; tests are run only if no mode other than --reset or --resume is asked for; the exit code is 0, 1, 2 or that of a panic, and 1 only for --check-skill or --find-skill.", "quantifier": "every list of words, every setting (environment, file system and tool behaviour) and every initial disk", "why_tests_cant": "tests run some command lines in some environments; the bounds must hold for every combination of options, including ones no test uses, and for every failure of the environment", "anchors": ["necessist/src/main.rs: main", "core/src/cli.rs: Opts", "core/src/core.rs: necessist, process_options, prepare, run"]}
{"id": "C76", "title": "Parsers that place their nodes properly suffice for candidates that are fit to be removed", "statement": "If each language's parser (tree-sitter for Go and PHP, syn for Rust, swc for TypeScript, solang for Solidity) gives a syntax tree whose nodes are pieces of the file it read, children lying within their parent, siblings that contain statements not overlapping, statements being non-empty and beginning before the statements in them, then every source file read by any of the seven frameworks gives candidates fit to be removed: each is a piece of the file, and the statement candidates are pairwise disjoint or strictly nested; and consequently every recorded row 'passed' means that each of the candidate's tests was executed on a copy of the sources without exactly that candidate's text and ended in time and with success.", "quantifier": "all seven frameworks, all parsers with that property, all source files and syntax trees, all configurations, options, projects and executions", "why_tests_cant": "Syntax trees are unbounded, and the property relates every node that each front end makes of any tree to its position in any text; tests can only look at sample files.", "anchors": ["backends/src/lib.rs:to_implementation", "backends/src/parsing.rs:ParseAdapter", "backends/src/go/mod.rs", "backends/src/php/mod.rs", "backends/src/rust/mod.rs", "backends/src/ts/inner/mod.rs", "backends/src/foundry/mod.rs"]}
{"id": "C77", "title": "Every recorded removal is a statement or method call of its test by the rules of the language, and what the rules require is tried", "statement": "Whatever the framework, every removal that an invocation records or reports is attributed to a file of the project and, for each of the tests it is tried with, denotes there either a statement (not the test's last one, not of a kind that is kept, not an ignored call, with no statements in it if it is no call) or the rest of a method call after its receiver and the space that follows it (not ignored), in the test's body or in a function of the file the test reaches through functions that the configuration says to enter; tests the configuration ignores and places marked with a skip comment never occur. Conversely each statement of a test of a file that was read which is not its last, is no call and has no statements in it, or is a call that is not ignored and not of a function to be entered; each such statement of a function that the test calls directly and that is to be entered; and each method call of the test that is not ignored, is a candidate.", "quantifier": "all seven frameworks, all projects, source files and syntax trees, all configurations and skip comments, all options and executions", "why_tests_cant": "It relates every row of every run to the syntax tree of an arbitrary source file under an arbitrary configuration; tests compare a few fixtures.", "anchors": ["backends/src/parsing.rs:ParseAdapter::parse", "backends/src/generic_visitor.rs:GenericVisitor", "backends/src/go/visitor.rs", "backends/src/php/visitor.rs", "backends/src/rust/visitor.rs", "backends/src/ts/inner/visitor.rs", "backends/src/foundry/visitor/mod.rs", "core/src/core.rs:run"]}
{"id": "C78", "title": "Functions that tests reach are searched, too", "statement": "With `walkable_functions` set, every removable statement and method call of a function of the same file that a test reaches through any number of calls of such functions is a candidate for some test, in Go, Rust and Foundry projects: those of the function a test calls itself for that test, the others for whichever test reaches the function first. A statement of the function is never exempted for being its last. In TypeScript projects this holds only for functions that a test calls itself; the statements of a function that is reached through another function may be missed, depending on the order of the declarations.", "quantifier": "every source file and syntax tree, every configuration, every chain of calls from a test, every function of the file", "why_tests_cant": "the order in which functions are found and left for later is a worklist over the whole file; a function that is forgotten on one call graph shows up only for that graph", "anchors": ["backends/src/generic_visitor.rs: next_local_function, visit_call, visit_local_function", "backends/src/ts/inner/visitor.rs", "README.md: walkable_functions"]}
{"id": "C79", "title": "Where Solidity statements are looked for", "statement": "In a Foundry project, the statements that necessist considers for removal are those that stand, at any depth, in blocks, in either branch of an `if`, in the body of a `while` or `do`..`while`, in the initialisation and the body of a `for`, in the block after `try`..`returns`, and in any `catch`, of the functions in the file or in its contracts, except for a statement directly after `vm.prank(..)` or `vm.expect..(..)` and what is in it. Tests are the functions named `test..` with a body that are not `pure`. Of those statements in a test, every one that is not a block, a declaration, a `break`, `continue`, `emit`, `return` or `revert`, is not a call, holds no other statement and is not the last of the test's body, is a candidate for the test, unless the test or the line is excluded by the configuration or a comment; conversely, every statement candidate stands at such a place. (A modifier named `test..` is taken for a test, and a call with named arguments is removed though its function is ignored.)", "quantifier": "every Solidity syntax tree of the parser's grammar, every configuration, every file contents", "why_tests_cant": "syntax trees are unbounded, and the walk over them is generated from the parser's type declarations: a constructor or a field that is missed shows only on programs that nest statements just there", "anchors": ["backends/build/solang.rs: generation of visit.rs", "backends/src/foundry/visitor/visit.rs", "backends/src/foundry/visitor/mod.rs", "backends/assets/solang_parser_pt.rs", "backends/src/foundry/mod.rs"]}
{"id": "C80", "title": "Which Solidity calls are looked at", "statement": "In a Foundry project, the calls that are considered for removal are those that make up an expression standing directly in a statement (a statement's own expression; the condition of an `if`, `while`, `do` or `for`; the step of a `for`; the value of a declaration; what is returned, emitted, reverted with or tried; types and annotations of parameters) or in a function's head (modifier arguments, parameters), and the callees and arguments of such calls, at any depth, but not through the arguments of ignored calls (unless `visit_ignored_arguments` is set). There, every method call of a test that is not ignored and is not the test's last statement is a candidate for the test, every call statement that is not ignored and not of a function to be searched is one, and the same holds for the functions that the test calls, which are found by name: the first one of the file that is not `pure`. Conversely, every method call candidate is at such a place and not ignored. Method calls inside an assigned value, or on whose result another method is called, are passed over.", "quantifier": "every Solidity syntax tree of the parser's grammar, every configuration, every file contents, every test and function", "why_tests_cant": "expressions nest without bound and the visitor stops at expressions that are not calls: whether a call is found depends on every construct around it", "anchors": ["backends/src/foundry/visitor/mod.rs: visit_expression, visit_statement", "backends/build/solang.rs", "backends/src/foundry/mod.rs: call_callee", "backends/src/generic_visitor.rs: visit_call"]}
{"id": "C81", "title": "A file's tests are tried before anything is done to the file", "statement": "Whenever a run backs up or overwrites a source file, builds or tests a change of it, or reports a result on it, the latest dry run is that of this very file: it was made when every source file was as it was when the run began, and it succeeded. Files are dry run in the order of the run, each at most once, and only files that have candidates. A file whose dry run fails is not touched.", "quantifier": "all candidate sets, all behaviours of the back end, the disk, the database and the user, every moment of the run", "why_tests_cant": "Every moment of every history.", "anchors": ["core/src/core.rs:317-361 run", "core/src/core.rs:626-648 skip_present_spans"]}
{"id": "C82", "title": "The console of a run agrees with its database", "statement": "When an invocation tests candidates and keeps a database, the result lines on the console are exactly the lines of the rows that the run adds to the database, in the same order, minus the rows recorded as skipped (never printed, not even with --verbose) and, without --verbose, minus those whose outcome is not passed. Without a database every result line is still that of a candidate with its own text and the outcome its tests determined. Every result line stands in its file's block: after `<file>: dry running`, then at most warnings, then `<file>: mutilating`, then only warnings and results of that same file. The warning that sources changed since the database was made appears at most once. With --quiet nothing is printed.", "quantifier": "every setting, set of options, framework choice, prior disk state (sources, configuration, database), every behaviour of the tests, builds, Ctrl-C and of the back end's own warnings", "why_tests_cant": "Console lines and database rows are produced by two independent code paths interleaved with warnings, interrupts and failures over an unbounded number of files and candidates; tests compare a few fixed transcripts.", "anchors": ["core/src/core.rs: necessist (147-205), run (310-433), update_progress (650-676), instrument_statements (785-800), emit (871-887), emit_to_console (889-914)", "core/src/sqlite.rs: init (80-112)", "core/src/warn.rs: warn, source_warn (92-156)"]}
{"id": "C83", "title": "Options on the output or the database do not change what is tested", "statement": "--allow, --quiet, --verbose and --no-lines-or-columns have no influence on what necessist does: two accepted command lines that differ in them only leave the disk in the same states, test the same removals in the same order with the same outcomes, and exit with the same code. And a complete run in a project without a database, repeated with --no-sqlite, is again complete, does the same in the same order apart from storing rows, leaves the source files the same and creates no database.", "quantifier": "all settings, framework selections, disks and pairs of accepted command lines that differ only in the named options; for --no-sqlite: all surroundings whose behaviour does not depend on the stored rows", "why_tests_cant": "a hyperproperty: it compares two executions of every invocation, for every pair of command lines", "anchors": ["core/src/core.rs: necessist, run, process_options, emit, emit_to_console", "core/src/sqlite.rs"]}
{"id": "C84", "title": "Naming source files gives, for these files, what a run on all of them gives", "statement": "If necessist succeeds on a project without naming source files, starting with an empty database (or with --no-sqlite), then the same command with some of the source files that were found named succeeds as well: it tests exactly the removals of the first run that are in these files, in the same order and with the same outcomes, reports exactly these, and its database holds exactly the rows of the first one that are about these files.", "quantifier": "all settings, disks, accepted command lines, projects and non-empty lists of named files below the root; for surroundings in which what happens with a source file depends only on what has happened with this file before, and nobody presses Ctrl-C", "why_tests_cant": "a hyperproperty: it compares two executions, for every project and every choice of files, and depends on the absence of any state carried from one source file to the next", "anchors": ["core/src/core.rs: necessist, run, skip_past_removals, canonicalize_source_files, instrument_statements", "backends/src/parsing.rs: parse"]}
{"id": "C85", "title": "Ignoring more only takes candidates away, but for statements around the calls newly ignored", "statement": "If patterns are added to ignored_functions, ignored_macros, ignored_methods or names to ignored_tests (and no local functions are walked, the default), then the same files are looked at, and every removal that is now a candidate for some test was one for this test before, except that a statement may become a candidate if it contains a newly ignored call among whose parts there is another statement. There is no exception if arguments are visited regardless, nor for method calls. If only names of tests are added, then exactly the candidates of these tests disappear. Nothing else is ever reported or recorded by a run.", "quantifier": "all projects, frameworks, source texts, pairs of configurations related in this way, source files named and invocations", "why_tests_cant": "a hyperproperty: it compares two walks over every syntax tree, and the walk depends on state (numbers of leaf statements, the call of the current statement) that ignoring a call changes", "anchors": ["backends/src/generic_visitor.rs: visit_call, visit_macro_call, visit_maybe_macro_call!, visit_statement_post, call_info_inner", "backends/src/parsing.rs: parse, compile_config", "core/src/config.rs: Toml, Compiled"]}
{"id": "C86", "title": "A longer time limit changes nothing but removals that timed out", "statement": "A test execution that ends within the time limit ends the same way, with the same handling of limits and processes, under any longer limit (or none). Hence two complete invocations that differ only in --timeout, with deterministic tests, store and report the same removals with the same text and outcome, but for those that the shorter limit reported as timed-out: these may get another outcome, or none if the test says it did not run; no other removal appears or disappears. Resuming with a longer limit keeps the rows already stored, the timed-out ones too, and does not test them again.", "quantifier": "all pairs of time limits of which the second gives at least as much time (default 60 s, 0 no limit), all behaviours of the operating system and of the tests that are fixed between the runs, all projects, databases, options", "why_tests_cant": "relates two executions, for every pair of limits and every way a process can run", "anchors": ["core/src/core.rs: perform_exec 820-869, timeout 1003-1009, run 310-433", "core/src/cli.rs: timeout"]}
{"id": "C87", "title": "A comment put into a test file only hides what it names", "statement": "If a line `// necessist: skip` is put into a source file, the candidates whose code begins on the line directly below disappear; every other candidate of the file, and every candidate of every other file, is still there with the same tests, at the same place or one line further down, and no test goes missing. A line put in that is blank or an ordinary comment hides nothing: the candidates only move (unless it is put between a skip directive and what that hides).", "quantifier": "every project, configuration, file and line number; every directive line (indented or not, with text after it, LF or CR LF); every tree a parser properly makes of the file, the tree of the changed file being the same with positions moved; lines not put between a receiver and the name of the method called on it", "why_tests_cant": "the number of files, trees, places for the line and combinations with other directives is unbounded; a test shows one file with one directive, not that everything else keeps its place, order and tests", "anchors": ["backends/src/directives.rs:18-131 collect, skip", "backends/src/generic_visitor.rs:100-171, 230-300, 466-559", "backends/src/parsing.rs:370-482 parse", "core/src/span.rs trim_start, source_text"]}
{"id": "C88", "title": "Where a project is on the disk does not matter", "statement": "If a project is copied to another directory and necessist is invoked there with the same options (the root and the source files given in whatever way, as long as they mean the corresponding files), it finds the same candidates with the same tests, runs the same tests with the same removals, records the same rows, leaves the corresponding files with the same texts and ends with the same exit code. If it is started from the corresponding directory, so that files are shown under the same names, it also prints the same.", "quantifier": "every project tree, contents, configuration, framework, options, two roots, every way to give the root and the source files, every state of the database, and every behaviour of the tests", "why_tests_cant": "tests run in one place; the names of the directories above the project, and the ways to name files in it, are unbounded", "anchors": ["core/src/core.rs:120-208 necessist, 212-308 prepare, 559-581 canonicalize_source_files", "backends/src/parsing.rs:370-482 parse", "backends/src/*/mod.rs walk_dir", "core/src/source_file.rs:41-127", "core/src/util.rs:53-58 strip_current_dir"]}
{"id": "C89", "title": "Denying warnings changes nothing but that what would be warned about fails", "statement": "With more warnings denied and all else the same, an invocation does exactly what it does without (the same removals, rows, files, output and exit code), or it fails with exit code 2: then it did the same up to some moment, ran no test differently or besides, recorded the rows the other recorded first, and after that only put files back. So an invocation that succeeds with `--deny all` does exactly what it does with nothing denied.", "quantifier": "every project, options, two sets of denied warnings one of which covers the other, every state of the disk and database, every behaviour of tests, builds, signals and the database engine; the back ends may report any error in place of a command or of a test's result", "why_tests_cant": "the warnings can come from many places and at any moment of a run, in any combination; a test shows one warning denied at one place", "anchors": ["core/src/warn.rs:92-156 warn_internal", "core/src/core.rs:162-169, 310-433, 650-676, 736-804", "core/src/sqlite.rs:84-108", "backends/src/parsing.rs:370-556", "backends/src/directives.rs:18-58 collect"]}
{"id": "C90", "title": "Starting over is starting over", "statement": "Where there is nothing recorded to take up, it does not matter how necessist is told so: a run with --reset on any table of removals, with --resume on an empty table or where there is no database, or with neither where there is no database, runs the same tests with the same removals, ends in the same way and leaves the same disk, the database included. In particular --reset is the same as deleting necessist.db first. (With the warning about a missing database denied, --reset and --resume need one; a file without a table is refused whatever the options, see C18.)", "quantifier": "all options that run tests, projects, configurations, recorded rows and behaviours of tests, builds and signals, with a database engine that works", "why_tests_cant": "the rows there are, the options and what happens during the run are unbounded; tests compare single pairs", "anchors": ["core/src/core.rs:310-433 run, 916-966", "core/src/sqlite.rs:70-153 init"]}
{"id": "C91", "title": "Saying what is the default anyway changes nothing", "statement": "Naming the framework that the project alone shows signs of gives what leaving the choice to necessist gives. The deprecated --no-local-functions has no effect but its warning. After a successful --default-config, which adds necessist.toml to the project and changes nothing else, every invocation does what it does without that file.", "quantifier": "all options, projects, states of the disk and the database, and behaviours of the tests", "why_tests_cant": "the projects, options and states are unbounded; tests compare single pairs", "anchors": ["core/src/core.rs:120-208 necessist (162-169), 212-308 prepare, 521-534 default_config, 548-557 backend_for_framework", "core/src/config.rs:77-96 Toml::read", "core/src/framework/auto.rs:10-92"]}
{"id": "C92", "title": "An interrupted run did what it would have done anyway, and records nothing after that", "statement": "Take two invocations with the same options, disk and surroundings, except that Ctrl-C arrives at some moment of the second, after which the dry runs, builds and tests that are running or started may answer anything. Then either both do exactly the same, or the second did what the first did up to a moment at which the signal had come; after that moment it recorded and printed no removal and ran tests with at most one removal in place. The rows it leaves are an initial part of the rows that the first leaves.", "quantifier": "all projects, options, disks, back end behaviours, moments at which the signal arrives, and answers of the child processes after it", "why_tests_cant": "Ctrl-C can arrive between any two steps, and reaches the child processes too, which then may fail, be killed or go on: a test can only try a few moments", "anchors": ["core/src/core.rs: run, perform_exec, instrument_statements, emit", "core/src/core.rs:311, 345-347, 418-420 (CTRLC)"]}
{"id": "C93", "title": "How source files are named does not matter", "statement": "Two invocations that differ only in how the source files are named on the command line, and look at the same files, do exactly the same: the same tests with the same removals, the same output (but for the number of tests in the message before a run), the same database and files, the same exit code; or both come to nothing. In particular neither the order of the names matters, nor whether a file is named several times or under several names, nor whether files below a directory that is named are named as well.", "quantifier": "all projects, options, disks, back end behaviours and pairs of lists of names", "why_tests_cant": "the names, their order and repetition, relative and absolute paths, links and directories can be combined in unboundedly many ways", "anchors": ["core/src/core.rs: canonicalize_source_files, prepare", "backends/src/generic_visitor.rs / parsing.rs: parse (370-482)"]}
