# Formal model of trailofbits/necessist in Rocq (Coq 8.16.1)

This file is the plan and the statement of the trusted base.  The list of
properties is `properties.jsonl`; the status of each is `MANIFEST.json`; wrong
programs tried against the theorems are in `seeded/LOG.jsonl`.

## Method

* The code is read as text and re-expressed, function by function, as total
  Gallina functions.  Every definition cites the file and lines it models and
  says what was simplified.  `Result` is `res` (`Ok`/`Err`), a panic is the
  explicit value `Panic`, `&mut` state is passed and returned.
* External things (the `rewriter` crate, `flock`, SQLite, the file system, child
  processes, the language parsers) are modelled by small explicit state machines
  or are parameters the theorems quantify over ("for every backend behaviour").
* Specifications are separate from the model: they are written over lists,
  strings and relations, without the model's helpers.
* Files `P_*.v` contain only property theorems, each closed by `exact`, followed
  by `Print Assumptions`, and non-vacuity examples.  `M_*.v` are models, `S_*.v`
  specifications, `L_*.v` proofs.
* If the full property is false of the faithful model, a `..._refuted` theorem gives
  the witness and a `..._partial` theorem proves what does hold.

## Plan per property

`M_*` = model, `S_*` = specification used in the statements, `P_*` = theorems.  Where no `S_*` file is named
the few specification predicates stand at the head of the `P_*` file.

| property | model | specification and proof |
|---|---|---|
| C01 span ids | `M_Span` (Display; id over an arbitrary hash) | decimal printing is injective and free of `:`/`-`; split from the right |
| C02 span parse | `M_Span` (`SPAN_RE` as a greedy matcher by class, `usize` parse, column underflow) | round trip iff no `:` in the relative path; `_refuted` witness with a `:` |
| C03, C04, C42 | `M_Text` (chars, UTF-8, lines, offsets), `M_Span`, `M_Rewriter` | `S_Text` (`pos`, `between`); induction on the text; UTF-8 decode∘encode |
| C05 | `M_Instr` (insertion map, rewriter, guard texts per language) | `S_Instr` (evaluator of guarded text); induction over nested span forests, bracket matching |
| C06–C09, C12, C13 | `M_Run` (run loop as an effectful program over an arbitrary back end oracle; Ctrl-C and panics at every point) | `S_Run` (traces, `history`, `verdict`); loop invariants over all executions, total-state histories for resuming |
| C10, C11 | `M_Run` (`skip_past_removals`) | induction over both sequences |
| C14–C16 | `M_Exec` (`perform_exec`, rlimit, `transitive_kill`) | `S_Exec`; case analysis; stack-invariant induction over finite process forests |
| C17, C22, C47, C54 | `M_Output` (printing, filters, progress bar, `--dump*`) | `S_Output`; induction over output events |
| C18, C19, C46, C55 | `M_Sqlite` (open protocol, schema, rows, URLs) | case analysis over all states; decode∘encode of rows |
| C20, C21 | `M_Output` (warn/note with flags) | invariant over histories of printing operations |
| C23–C25 | `M_Options` | case analysis / induction over lists |
| C26, C27 | `M_Config` (pattern compiler to regex text, parser of the emitted subset, denotational matching; merge) | `glob` relation; induction over patterns |
| C28 | `M_Directives` (line scan, comment scan) | `S_Directives` (lines, blank lines, comments); induction over lines |
| C29–C38 | `M_Visitor` (generic visitor state machine driven by a syntax-tree walk, for every framework record) | `S_Visitor`, `S_Walk`, `S_Candidates`; mutual induction over syntax trees with a bookkeeping invariant |
| C39 | `M_Parsing` | induction over file lists |
| C40 | `M_Cursor` (tree-sitter cursor as zipper) | induction over trees |
| C41 | `M_Text`, `M_Positions` | induction over the text; `_refuted` for the byte-column back end |
| C43, C44 | `M_Skill` | case analysis |
| C45 | `M_Lock` (flock state machine, any number of processes) | invariant over all interleavings |
| C48, C49 | `M_Exec` (it-message maps, postprocessing of output) | invariants over histories / folds over output lines |
| C50, C51 | `M_Rust` (test naming, flags, caches) | induction over paths |
| C52 | `M_Go` (regular expressions as programs for a backtracking engine) | `S_Go` (denotation of regular expressions); soundness, completeness, leftmost-first |
| C53 | `M_Foundry` (classification of Solidity syntax, ignored cheatcodes) | `S_Foundry` (exposed/protected statements); instantiates the visitor theorems |
| C56, C57 | `M_Main` (whole invocations: disk, database, exit code) | case analysis + composition of the other models; induction over sequences of invocations |
| C58 | `M_Select` (the commands each back end builds) | `S_Select` (what cargo/libtest, go test, phpunit, forge select); regex/glob semantics |
| C59 | `M_Ts` (message extraction from Mocha/Vitest/Anchor output) | line formats in `P_Ts`; the engine of `M_Go` |
| C60 | `M_Anchor` (Anchor.toml: parse, patch, backup) | `P_Anchor` (`parts`, `last_parts`); induction over sequences of operations |
| C61 | nothing new (`M_Main`, `M_Run`, `M_Span`, `M_Instr`, `M_Exec`) | `P_EndToEnd` (`without`, `tested`, `first_other`); composition of C57, C13, C07, C05, C04, C03, C14 |
| C62 | nothing new (`M_Main`, `M_Run`, `M_Sqlite`); `leaves`, `usual`, `reachable` in `P_Resume` say what databases a sequence of invocations, each ended or killed anywhere, can produce | `P_Resume`: reachable databases stand for histories of the run loop (`L_History`); composition of C57, C55, C09; uniqueness by `L_Unique` (primary key) |
| C63 | nothing new (`M_Main`, `M_Run`) | `L_Denied` (every function of the run loop: `Err WarnDenied` exactly if a denied warning was issued, then only restores; otherwise the run equals the run with nothing denied; no key conflict on an empty table), `L_Total`; `P_Progress` (`meets_denied`, `database_ready`) |
| C64 | `M_Tree` (raw tree-sitter trees: kinds, fields, named/extra flags; Go's and PHP's queries, accessors, classification and walk, producing the labelled trees of `M_Visitor`) | `S_Tree` says in terms of raw nodes what a test, a statement, a call, an ignored call is; `L_Tree` (the labelled tree has the shape of the raw one; origin and completeness of candidates through C29–C38); `P_GoTree` |
| C65 | `M_Tree` (PHP part; a statement is a named child of a `compound_statement`, a method call's callee is a virtual field) | `S_Tree` (`php_*`); `P_Php` (the shapes of translated nodes: `pnode`), through C29–C38 |
| C66 | `M_Main` with `M_Output` and `M_Sqlite`: the branches of an invocation that only look | `P_Look`: options decide the branch (C23), then C17, C18, C47; `C66_dump_after` through C62 |
| C67 | `M_Syn`: syn's trees (kinds of statements, expressions, items), which function is a test, module paths, local functions, and the translation to `M_Visitor`'s trees with the virtual field of a method call and the virtual macro of a macro statement | `S_Syn` (what a reader sees in the tree: `rs_*`, `through` for modules); `L_Syn` (the shapes of translated nodes), `P_Syn`, through C29–C38 |
| C68 | `M_Swc`: swc's trees (statements, await, members, calls, identifiers, string literals, functions), which statement is a test, function declarations, and the translation to `M_Visitor`'s trees (a test's node has a virtual group for what precedes the body) | `S_Swc` (what a reader sees in the tree: `js_*`); `L_Swc` (the shapes of translated nodes), `P_Swc`, through C29–C38; two refutations by computation |
| C69 | `M_Foundry` (as for C53) | `S_Sol` says what a reader sees in a Solidity tree: method calls, ignored calls, the first non-pure function with a name, what a test runs, the last statement. `P_Sol` carries the visitor's theorems (C33–C36) over: tests are characterised by an iff, candidates by their origin, and the converse for statements, method calls and called functions. Refuted: `cb{value: 1}()` is not ignored when `cb` is |
| C70 | M_Find: directory trees, the filter of each back end's `walk_dir`, the walk of the crate `ignore` (its own rules are a predicate), on top of M_Parsing's `parse` | S_Find says what a test file is; C70_found: the walk yields exactly those (induction on trees); C70_listed(_named): exactly those unmarked and parseable get an entry, by C39; C70_fails(_named); C70_each_once; C70_directory_refuted. Not modelled: non-UTF-8 names, link cycles, what `ignore` reads its rules from |
| C71 | `M_Commands`: `RunAdapter`, Hardhat, Vitest, installation of dependencies, as functions on the list of commands executed so far, with arbitrary answers of the file system and of commands | `S_Commands` spells out the commands and what it means to carry out a plan until something fails; C71_dry_run, C71_build, C71_exec by cases, C71_executed, C71_warned and C71_installed_once by induction on the requests. Refuted: C71_alone, C71_arguments, C71_vitest_other |
| C72 | no new model: `S_Crash` reads the trace of `M_Run.run` as a story about a disk (a write may leave anything in its file; a backup copies; a restore copies back) and lets the run die between two events or in the middle of a write or restore | invariant "backups are not nested, every write and restore is of the file that is backed up" through every action of `M_Run`; C72_recoverable follows by induction on the trace, C72_disks ties the story to the disks the model records, C06_restored_always is a corollary. Refuted: C72_intact (a killed run leaves a changed source, and no later run repairs it) |
| C73 | `M_Cli`: `cli::Opts`, its conversion, `Union`/`Auto` as value lists, the values of `--allow`/`--deny`; clap itself by its documented contract (Unicode arguments; texts of usage errors and help not modelled) | `S_Cli` is a grammar of command lines (items, `--`, arguments) and a field-by-field meaning; C73_command_line is an equivalence between being accepted and being written and meaningful, by an invariant on what has been read; C73_rest, C73_allow_advice, C73_framework_advice are consequences; C73_union is about `Union` in general |
| C74 | `M_Project`: `to_implementation` and `parse` of the chosen back end (M_Parsing over M_Find's files and the texts of the disk) plugged into the invocation of M_Main; the parser of each language is a parameter | `S_Placed.proper` states what is expected of a tree: eligible statements and method calls lie in the text, pairwise disjoint or nested (hypothesis, satisfied by a concrete parser in `C74_nonvacuous`). From the origin theorems (`L_Candidates`) every candidate is such a node, whence `layout`, `paths_ok`, `between`: the hypotheses of C05/C07/C57/C61/C63; `C74_passed` is C61 with those hypotheses discharged |
| C75 | `M_Program`: `main` = `M_Cli.command_line` then `M_Main.necessist`, exit codes as in necessist/src/main.rs | composes C73 (grammar and meaning of lines) with C56/C57 (what each mode leaves alone); `asked`, `clash` and `help_asked` are stated on the words |
| C76 | `M_Lang`: the parsed file each front end makes of its parser's tree (`go_pfile`, `php_pfile`, `rs_pfile`, `js_pfile`, `sol_pfile`), `parser_of` over the seven frameworks; parsers are parameters | `S_Layout`/`S_Lang`: `placed`, on language trees; `drawn` (L_Layout) relates the visitor's node tree to the placement of the source tree, proved by induction for each translation; `drawn_proper` gives C74's `proper` |
| C77 | `M_Parsing.parse` with `M_Lang.parser_of`, inside `M_Main.necessist` | `S_Source`: `is_candidate` (what a candidate may be) and `must_be_candidate` (what must be one), per language, under `rules` (framework's lists, configuration, skip comments); `L_Ext` shows that the walk depends on local functions only pointwise, so `parse`'s walk is the one of C64/C65/C67/C68/C69; `rest_of_call` is proved equivalent to the computed span of a method call |
| C78 | the walk `M_Visitor.visit_file` with the worklist of local functions, over the trees of `M_Tree`, `M_Syn`, `M_Foundry`, `M_Swc` | `go_entered`, `rs_entered`, `sol_entered`, `js_entered`: the functions reached from tests, by induction over the calls; `L_Candidates.reached_walked` shows by an invariant of the worklist that each of them is walked before the end; `S_Source.must_be_found` states it for an invocation; refuted for TypeScript |
| C79 | `M_Solang`: the syntax trees of the parser (`assets/solang_parser_pt.rs`; types, `YulBlock`s and annotations are left out, they contain no statements) and what the generated visitor comes to on them (`build/solang.rs`), as a translation into the trees of `M_Foundry` | `S_Solang` says where statements stand in a Solidity file; `C79_positions`, `C79_reached`, `C79_functions`, `C79_tests` show by induction over trees that the translation keeps precisely those; `C79_statements_of_tests` and `C79_statement_candidates` carry C69 over to syntax trees, `C79_invocation` to an invocation |
| C80 | as C79 | `S_SolangCalls` says where calls stand, what is called, and what is ignored, on the parser's trees; `C80_places` shows that the walk comes to exactly those calls (an invariant of the walk: at each step it is at a statement or a call of that description, or where nothing is below); the others carry C69 over |
| C81 | nothing new (`M_Run`, `M_Main`) | `S_DryRun` (what it is for a trace to try every file as it is first); `L_DryRun`: an invariant over the run loop's trace; `P_DryRun`: C81_tried_first, C81_once, lifted to an invocation by C81_invocation |
| C82 | `M_Console`: every printing call of an invocation that tests candidates, tied to the trace event it follows (announcement, dry running, mutilating, results, warnings of the run loop); the back end's own warnings and error texts are arbitrary | `L_Console`: what is reported is what is recorded (fold over the run loop); `P_Console`: C82_printed_is_recorded and C82_printed_without_database (with C17_removal_lines), C82_blocks (with C81_tried_first), C82_changed_once, C82_quiet |
| C83 | Nothing new: two executions of `M_Main.necessist` (and of `M_Run.run`) are compared; `S_Indep` says what may differ | `L_Indep`: a simulation, function by function, between a run with a database and the same run without one; `P_Indep`: C83_run_without_database, C83_no_sqlite; C83_output by comparing every branch of the invocation |
| C84 | Nothing new: `M_Main.necessist` with two lists of named files; `S_Part` says what of a run concerns given files and what it means that each file is treated on its own | `L_Part`: a simulation between the run on all files and the run on some (parts of the trace about other files are not seen by the oracle); `P_Part`: C84_run, C84_parse (the parser's result for named files is the restriction), C84_invocation, C84_named |
| C85 | Nothing new: two walks (`M_Visitor.visit_file`), two parses, two invocations; `S_Ignore` relates the configurations | `L_Ignore`: over the declarative description of the walk (C33_exact): ignored calls are decidable, what is looked into with more ignored was looked into before, and the converse up to a newly ignored call; `P_Ignore`: C85_file, C85_tests, C85_arguments, C85_parse, C85_prepared, C85_invocation; the unrestricted claim is refuted |
| C86 | Two executions / runs / invocations (`perform_exec`, `run_from`, `necessist`) that differ in the time limit; S_Patience says what a fixed nature of the tests is, and what it means that rows differ only where the first timed out. Monotonicity of `timeout` and the classification C14, then the verdict, then the rows (C08, C13), then the database of the invocation. That tests are deterministic is a hypothesis (`seen_with`). |
| C87 | `S_Move`, `L_Move`, `L_MoveText`, `P_Move`, `P_MoveProject` | The walk is simulated step by step on the tree with moved positions (states correspond by moving every span and dropping what is newly skipped); a file is split at the line put in, and code offsets and lines are followed through the split. Hypotheses: the parser's tree of the changed file is the old one moved; the line does not come between a receiver and its method's name. |
| C88 | `S_Place`, `P_Place` | The two walks over the tree are related entry by entry (each filter looks only at the last name of a path), then the visits of files by equality of states; the invocation is followed through `prepare`, the environment being looked at only when something is shown. Hypotheses: the tests behave the same, and corresponding paths are ignored. |
| C89 | `S_Deny`, `L_Deny`, `P_Deny` | A relation between computations of the run (equal on a state, or the stricter one ends in an error at a state that the other passes through, up to restores) is preserved by sequencing and by clean-up, and so by every function of the run; parsing likewise, by equality or failure; then the invocation is followed through `prepare`. |
| C90 | `S_Over`, `P_Over` | Opening the database by cases: whenever the invocation starts over it gives no past removals and leaves an empty table; everything else is equal by equality of the options it looks at. |
| C91 | `P_Default` | The invocation is followed through `prepare` with the two settings side by side; the configuration file is looked at only by reading it, so a file that reads as the default can be carried along unchanged. |
| C92 | `M_Run`, `M_Main` (two invocations, one with Ctrl-C at any moment) | `S_Struck` (the same surroundings until the signal, child processes answering anything after it); simulation of the run by itself up to the signal (`L_Struck`), and from there on that nothing is recorded before the next look at the flag, which ends the run; lifted to invocations |
| C93 | `M_Options`, `M_Parsing`, `M_Find`, `M_Main` | Parsing by its set of files looked at (C39_only_the_set, C39_succeeds_iff), canonical names by C24; the two invocations are followed side by side (`P_Names`) |

Added to earlier rows as the model grew: C02_reads (`S_SpanRead.written`: exactly which texts are read as spans); C73_info (exactly when help or the
version is shown); C56_check_skill_code and C56_find_skill_code (exit codes of the skill modes); C60_dry_run (Anchor's dry run); C48_known_tests_run and
C48_run_is_history (it-messages in whole runs); C64_child (children of translated trees); C66_deleted_file and C09_deleted_file (`P_Deleted`: rows whose file is
gone); C35_ambiguous, C39_warnings, C59_output, C27_builtins, C43_message, C42_whitespace, C15_limit_for_the_test.

## Trusted base

**Kernel and axioms.**  Coq 8.16.1's kernel (and its virtual machine, used by `vm_compute` in the examples).  For every
theorem of `MANIFEST.json` the command `Print Assumptions` (it follows each theorem in the `P_*` files, after the end of
a section where there is one) answers "Closed under the global context": no axioms, neither own nor of a library.
`vcheck` lists seven constants `Coq.ssr.ssrunder.Under_rel.*` as library axioms: they are the parameters of a sealed
module of the standard library's ssreflect that is loaded with the libraries; no theorem here uses them.
No `Admitted`, no functors or module types, no plugins, no disabled checks.  Section variables become universally
quantified premises of the theorems; the hypotheses among them are listed below under "Hypotheses of theorems".

**The reading of the code.**  That the definitions `M_*` say what the cited lines say is a matter of reading.  Every
definition carries file and lines and its simplifications.

**Contracts of things outside the repository** (modelled by small definitions or parameters):

| thing | how it appears |
|---|---|
| crate `rewriter` (`LineColumn`, `Rewriter`, `Backup`, byte/char offsets) | `M_Rewriter`, `M_Text`: offsets count from line starts; `Backup` restores the saved contents when dropped, on every exit from the scope including panics; it is not restored when the process is killed |
| SHA-256 and truncation to 16 digits | parameter `hash16`; C01, C05 speak about printed forms and distinct ids |
| SQLite / diesel | `M_Sqlite`: a table or none, autocommit, CHECK constraint as in the schema text; statements may fail at any point |
| `flock(2)`, process table, `wait`, `kill`, `setrlimit` | `M_Lock`, `M_Exec`: state machines; the process tree does not change while it is walked (C16); every call may fail |
| file system, `canonicalize`, `walkdir` | parameters / oracles |
| crate `regex` | `M_Config` parses the subset of the syntax the tool emits and gives it the documented semantics; `M_Go` gives a backtracking engine for the constant expressions (leftmost-first as documented), proved sound and complete against a denotation; Unicode `\w` and `char::is_alphanumeric` are parameters |
| YAML, TOML, JSON, semver | parameters (`M_Skill`, `M_Config`, `M_Anchor`, `M_Ts`) |
| cargo / libtest, go test, phpunit, forge, mocha, vitest | inputs and outputs; what their command lines select is specified in `S_Select.v` and `P_Ts.v` from their documentation |
| tree-sitter's cursor, node identity | `M_Cursor`: a zipper over a tree |
| language parsers (syn, solang-parser, swc, tree-sitter grammars) | not modelled: syntax trees are inputs |
| target languages | `S_Instr`: a conditional on the environment variable behaves as a conditional; nothing else of their semantics |

**Hypotheses of theorems** (each has an example that satisfies it): paths of spans are well formed (`wf_path`: nonempty
components without `/` and NUL); files consist of Unicode scalar values (`scalars`); back ends do not modify source files
(`M_Run`'s oracle has no such effect); candidates are attributed to the file they are in (`parses_well`, C57); `history`,
`follows`, `healthy` in C09/C11 (the project does not change between the runs; candidates in ascending order where the
theorem says so); in C29–C38 the visitor's framework record is arbitrary except for the premises in the statements
(e.g. an expression statement that is a call is never classified as declaration); `edits` (C60); `word`-class facts such
as "`s` is a word character" (C52, C58–C60).

**What is modelled, by file of /repo**

| file | modelled | not modelled |
|---|---|---|
| `core/src/core.rs` | everything except the formatting of `progress` and log output | `is_terminal`, colours |
| `core/src/span.rs`, `source_file.rs`, `offset_based_rewriter`/`rewriter` use | spans, ids, parsing, source text, removal, instrumentation, ordering | interning of `SourceFile`s beyond equality |
| `core/src/sqlite.rs` | open, insert, read, URL construction | SQL syntax |
| `core/src/config.rs`, `warn.rs`, `note.rs`, `outcome.rs`, `skill.rs`, `util.rs`, `light_context.rs` | yes | error texts beyond the facts stated |
| `backends/src/generic_visitor.rs`, `parsing.rs`, `running.rs`, `directives.rs`, `tree_sitter_utils.rs` | yes | own errors/warnings of back ends during the walk (M_Parsing); a panic of `source_text` in a skip directive counts as not skipped |
| `backends/src/rust` | tests, statements, calls, macros and local functions from syn's trees (C67); test names, module paths, flags, caches, commands | syn's parser and its default visitor's order beyond "all children"; errors of Cargo during the walk |
| `backends/src/go`, `php` | tests, statements, calls and fields from raw tree-sitter trees; imports/prefixes (Go), commands, output checks | the tree-sitter parser and its query engine: a query is modelled as the set of nodes its pattern describes |
| `backends/src/foundry` | classification and cheatcodes, commands, output check, positions | pragma handling of solang; statements `f().x;` (the walker panics: C36) |
| `backends/src/ts`, `anchor`, `hardhat`, `vitest` | tests, statements, calls and functions from swc's trees (C68); message extraction and lookup, commands, Anchor.toml | swc's parser and its default visitor's order beyond "all children" |
| `necessist/src/main.rs`, `cli` | exit codes, framework selection, option conflicts | clap's own parsing |

`M_Main` leaves the url column abstract and omits the temporary states during the run (they are in `M_Run`); a process
killed in the middle of a run is covered by C09/C12/C18, not by C57.
