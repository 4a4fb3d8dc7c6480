{"claims": [
 {"property": "C01", "status": "proved", "theorems": ["C01_printed_form_injective", "C01_id_collision_is_hash_collision"], "note": "Hash is a parameter; ids collide only if the hash does."},
 {"property": "C02", "status": "partial", "theorems": ["C02_parse_display_iff_partial", "C02_parse_display_refuted", "C02_reads"], "note": "Exact extent proved (path without colon); the unrestricted claim is refuted by a file name with a colon. C02_reads: exactly which texts are read as which span, whoever wrote them."},
 {"property": "C03", "status": "proved", "theorems": ["C03_source_text_exact", "C03_source_text_never_not_utf8", "C03_position_unique"], "note": ""},
 {"property": "C04", "status": "proved", "theorems": ["C04_remove_exact"], "note": "Over the written contract of the external rewriter crate."},
 {"property": "C05", "status": "proved", "theorems": ["C05_instrumentation_equivalent", "C05_same_as_explicit_removal", "C05_guards"], "note": "For statement candidates with distinct starts (needed: C05_same_start_misnests), disjoint or nested. The target language's conditional is taken to behave as a conditional."},
 {"property": "C06", "status": "proved", "theorems": ["C06_files_restored", "C06_restored_always"], "note": "Every end of a run: normal, error, unwinding panic, Ctrl-C. C06_restored_always needs no assumption on the candidates. Back ends are assumed not to modify source files themselves; Backup's restore-on-drop is a contract of the rewriter crate."},
 {"property": "C07", "status": "proved", "theorems": ["C07_own_removal_only"], "note": "For every test executed: environment names the candidate, other files untouched, and its file is the original minus the candidate or an instrumented file that evaluates to it (C05)."},
 {"property": "C08", "status": "proved", "theorems": ["C08_one_row_per_candidate", "C08_rows_unique"], "note": ""},
 {"property": "C09", "status": "partial", "theorems": ["C09_resume_partial", "C09_same_database_partial", "C09_resume_ends_partial", "C09_resume_unjudged_partial", "C09_resume_refuted", "C09_skip_refuted", "C09_deleted_file"], "note": "The property as stated is false of the code (C09_resume_refuted: method calls interleaved with statements; C09_skip_refuted). Proved for projects whose candidates come in ascending order, over histories of any number of runs stopped after any event. C09_deleted_file: in the same situation --resume runs no test, leaves the disk alone and exits 2, even if the missing file is not among the files looked at."},
 {"property": "C10", "status": "proved", "theorems": ["C10_skip_is_merge"], "note": ""},
 {"property": "C11", "status": "proved", "theorems": ["C11_mismatch_meaning", "C11_warnings_sound", "C11_no_false_warning"], "note": "Ascending order as the property says; Example C11_unjudged_warns shows a warning without a change when a candidate was never judged."},
 {"property": "C12", "status": "proved", "theorems": ["C12_ctrlc_result", "C12_ctrlc_stops", "C12_rows_stay"], "note": "The code looks at the flag twice per candidate; a signal that arrives after the last look before an insertion does not prevent that insertion (stated in the theorem)."},
 {"property": "C13", "status": "proved", "theorems": ["C13_outcome_justified", "C13_passed_iff_all_passed", "C13_tests_in_order", "C13_outcome_is_verdict"], "note": ""},
 {"property": "C14", "status": "proved", "theorems": ["C14_classification", "C14_returns", "C14_no_timeout", "C14_timed_out_is_killed_and_reaped", "C14_in_time_is_not_killed"], "note": "perform_exec over every duration, timeout, exit status and postprocessor answer, with every system call allowed to fail"},
 {"property": "C15", "status": "proved", "theorems": ["C15_limit_restored", "C15_result_means_restored", "C15_never_above_hard_limit", "C15_limit_for_the_test"], "note": "C15_start_failure shows that the limit stays changed when the process cannot be started, which the statement excludes"},
 {"property": "C16", "status": "proved", "theorems": ["C16_whole_tree_killed"], "note": "process tree fixed while it is walked"},
 {"property": "C17", "status": "proved", "theorems": ["C17_removal_lines", "C17_run", "C17_dump", "C17_file_name"], "note": "exact lines, filter by options, span order for --dump, note iff something is left out"},
 {"property": "C18", "status": "proved", "theorems": ["C18_existing_refused", "C18_preserved", "C18_all_rows", "C18_dump_no_create", "C18_reset", "C18_created", "C18_denied_untouched", "C18_rows_survive", "C18_reset_recovers_refuted"], "note": "The refuted theorem: a process stopped between DROP TABLE and CREATE TABLE leaves a database every later invocation refuses."},
 {"property": "C19", "status": "proved", "theorems": ["C19_round_trip", "C19_parse_only_names", "C19_check_exact", "C19_names"], "note": ""},
 {"property": "C20", "status": "proved", "theorems": ["C20_deny_allow", "C20_names_distinct", "C20_names"], "note": "after any history of printing operations"},
 {"property": "C21", "status": "proved", "theorems": ["C21_exact", "C21_once_at_most_once"], "note": "exact contents of each printed warning in terms of the history"},
 {"property": "C22", "status": "proved", "theorems": ["C22_quiet", "C22_printer_total"], "note": "over all sequences of printing operations in the contexts the process builds; --check-skill/--find-skill print but are incompatible with --quiet (C23)"},
 {"property": "C23", "status": "proved", "theorems": ["C23_accepted_iff", "C23_refusal_names_pair"], "note": ""},
 {"property": "C24", "status": "proved", "theorems": ["C24_accepted_iff", "C24_refusal", "C24_total"], "note": "Canonicalization is a parameter."},
 {"property": "C25", "status": "proved", "theorems": ["C25_named", "C25_auto_unique", "C25_none", "C25_several", "C25_undetermined"], "note": ""},
 {"property": "C26", "status": "proved", "theorems": ["C26_accepted_iff", "C26_refusal", "C26_pattern", "C26_method_pattern", "C26_compiled", "C26_star_any_string_refuted"], "note": "The regex strings are built as the code builds them, parsed and given the regex crate's documented semantics. The README's 'a * matches any string' is refuted for strings with a newline."},
 {"property": "C27", "status": "proved", "theorems": ["C27_merge", "C27_effective", "C27_unsupported_warned", "C27_merge_keeps_refuted", "C27_builtins"], "note": "Merge loses an option set on the left only (refuted); unreachable in the program, where the left side is the framework's own, optionless configuration (C27_effective)."},
 {"property": "C28", "status": "proved", "theorems": ["C28_skip_iff", "C28_next_line", "C28_skip_file_iff", "C28_warnings", "C28_denied"], "note": "char::is_alphanumeric is a parameter; lines and positions as the standard library splits them (LF, CR LF)."},
 {"property": "C29", "status": "proved", "theorems": ["C29_last_statement_kept", "C29_last_statement_never"], "note": "a statement shared with a local function the test reaches may still be a candidate through the function"},
 {"property": "C30", "status": "proved", "theorems": ["C30_not_declaration_nor_control", "C30_never"], "note": "assumes the classification never calls an expression statement that is a call a declaration or control statement (true of all five ParseLow implementations by reading)"},
 {"property": "C31", "status": "proved", "theorems": ["C31_ignored_statement", "C31_ignored_method", "C31_never"], "note": "model reproduces the 23 candidates of fixtures/valid_pattern (Example valid_pattern)"},
 {"property": "C32", "status": "proved", "theorems": ["C32_leaf_or_call", "C32_never", "C32_call_refuted"], "note": "for call statements the rule does not hold: C32_call_refuted"},
 {"property": "C33", "status": "proved", "theorems": ["C33_statements_of_tests", "C33_method_calls_of_tests", "C33_statements_of_called_functions", "C33_statements_of_reached_functions", "C33_exact", "C33_equal_to_last_refuted", "C33_called_outside_tests_refuted", "C33_method_calls_of_called_functions", "C33_method_calls_of_reached_functions"], "note": "C33_exact characterises all candidates; two refutations show what is lost"},
 {"property": "C34", "status": "proved", "theorems": ["C34_tests_nonempty", "C34_tests_reach", "C34_same_body_refuted"], "note": "refuted for Rust functions with identical bodies"},
 {"property": "C35", "status": "proved", "theorems": ["C35_walked_once", "C35_walk_ends", "C35_ambiguous"], "note": ""},
 {"property": "C36", "status": "proved", "theorems": ["C36_no_panic", "C36_panics_refuted"], "note": "provisos shown necessary by C36_panics_refuted"},
 {"property": "C37", "status": "proved", "theorems": ["C37_both_candidates", "C37_primary_effect_refuted"], "note": "contradicts README.md:264-266"},
 {"property": "C38", "status": "proved", "theorems": ["C38_arguments_left_alone", "C38_last_statement_refuted"], "note": "README's unconditional claim is refuted for the last statement"},
 {"property": "C39", "status": "proved", "theorems": ["C39_each_file_alone", "C39_only_the_set", "C39_succeeds_iff", "C39_number_of_tests", "C39_from_files_to_candidates", "C39_files_listed", "C39_nothing_under_skip", "C39_number_of_tests_refuted", "C39_warnings"], "note": "The parsers and the file system are parameters. The number of tests counts a file named twice twice: C39_number_of_tests_refuted."},
 {"property": "C40", "status": "proved", "theorems": ["C40_walk", "C40_once_each_in_preorder", "C40_go_and_php", "C40_childless_never_ends", "C40_childless_refuted"], "note": "Without the proviso the claim is wrong (C40_childless_refuted): a childless statement makes the walk escape its bound and panic. tree-sitter's cursor and node identity are modelled, its parser is not."},
 {"property": "C41", "status": "partial", "theorems": ["C41_tree_sitter_points", "C41_tree_sitter_eof_refuted", "C41_foundry_offsets_partial", "C41_foundry_refuted", "C41_foundry_semicolon"], "note": "Tree-sitter points inside the file are exact; end of file panics; Foundry columns are byte columns, exact iff the line is ASCII up to the offset."},
 {"property": "C42", "status": "proved", "theorems": ["C42_trim_start", "C42_whitespace"], "note": ""},
 {"property": "C43", "status": "proved", "theorems": ["C43_check", "C43_warning", "C43_safe", "C43_write_then_check", "C43_one_line", "C43_message"], "note": "YAML and semver (dependencies) are parameters; symbolic links are modelled."},
 {"property": "C44", "status": "proved", "theorems": ["C44_no_creation", "C44_exit_status", "C44_updates", "C44_one_directory_suffices_refuted", "C44_all_outdated_updated_refuted", "C44_lines"], "note": "Refuted: one up-to-date directory does not suffice; a foreign file at the first place hides the second."},
 {"property": "C45", "status": "proved", "theorems": ["C45_exclusive", "C45_no_interleaving", "C45_not_left_behind", "C45_held", "C45_nested_roots_refuted"], "note": "flock(2) is the trusted part; nested roots are not kept apart (refuted theorem)."},
 {"property": "C46", "status": "proved", "theorems": ["C46_url", "C46_stored_url", "C46_port_refuted"], "note": "ssh:// remotes with a user name and a port get a wrong location (refuted theorem); recording panics if the file is outside the working directory."},
 {"property": "C47", "status": "proved", "theorems": ["C47_candidates", "C47_counts", "C47_announced", "C47_announced_refuted", "C47_announcement"], "note": "the refuted theorem shows the announced number is not the number of candidates"},
 {"property": "C48", "status": "proved", "theorems": ["C48_warned_once", "C48_known_or_refused", "C48_only_known_tests_run", "C48_unknown_name_refuted", "C48_known_tests_run", "C48_run_is_history"], "note": "C48_unknown_name_refuted: what necessist intends (such candidates are nonbuildable) is false for instrumented statements, the run panics C48_known_tests_run: the converse in a whole run: a request for a test the dry run printed is granted."},
 {"property": "C49", "status": "proved", "theorems": ["C49_output_judged", "C49_judged_only_if_run", "C49_no_row", "C49_checks"], "note": ""},
 {"property": "C50", "status": "proved", "theorems": ["C50_package", "C50_module_path", "C50_module_lib_refuted", "C50_module_unknown", "C50_tests", "C50_tests_unknown", "C50_flags", "C50_cache_transparent"], "note": "cargo metadata and the output of cargo test --list are inputs; shared modules tests/x/mod.rs, which have no path of their own in Cargo's layout, are outside crate_module. C50_module_lib_refuted: a submodule file named lib.rs or main.rs gets its parent's path."},
 {"property": "C51", "status": "proved", "theorems": ["C51_identifiers", "C51_equal_paths_refuted"], "note": "The second theorem refutes the intended 'equal paths, equal identifiers': the map from paths to identifiers is never filled. Harmless: the identifiers still lead to the right paths."},
 {"property": "C52", "status": "proved", "theorems": ["C52_import_detected", "C52_import_name", "C52_parenthesized_name_refuted", "C52_what_is_inserted", "C52_inserted_once", "C52_file", "C52_file_with_import"], "note": "The regular expressions are run by a modelled backtracking engine, proved sound, complete, leftmost and greedy; \\w is a parameter containing the letter i. Refuted part: a parenthesized named import is used under a truncated name. Text in comments counts as an import (C52_comment_example)."},
 {"property": "C53", "status": "proved", "theorems": ["C53_candidates_exposed", "C53_exposed_or_protected", "C53_protected_never", "C53_exposed_statements", "C53_method_calls_exposed", "C53_call_in_assignment_refuted"], "note": "The solang parser is not modelled: files are syntax trees. Statements of the form f().x; are excluded (the walker panics on them, C36). C53_call_in_assignment_refuted records that calls within assignments and operators are not followed."},
 {"property": "C54", "status": "proved", "theorems": ["C54_progress", "C54_full_refuted"], "note": "the refuted theorem shows that the bar, whose length is the announced number, need not fill up"},
 {"property": "C55", "status": "proved", "theorems": ["C55_stored_rows_read_back", "C55_insert_refines"], "note": "Under the exact condition of C02 (no colon in paths)."},
 {"property": "C56", "status": "proved", "theorems": ["C56_looking_changes_nothing", "C56_default_config", "C56_skill_modes", "C56_only_after_preparation", "C56_refused", "C56_exit_codes", "C56_check_skill_code", "C56_find_skill_code"], "note": "over the model of whole invocations M_Main; parsers, SQLite and system calls are oracles that may fail at any point The skill modes' exit codes are given exactly."},
 {"property": "C57", "status": "proved", "theorems": ["C57_invocation_leaves", "C57_existing_database_refused", "C57_rows_after", "C57_success_complete", "C57_history"], "note": "assumes the back end attributes each candidate to the file it is in; a process killed during the run is not covered here (see C18, C12)"},
 {"property": "C58", "status": "proved", "theorems": ["C58_rust_run", "C58_rust_listed", "C58_rust_dashes_refuted", "C58_go_run", "C58_go_package", "C58_go_user_run_refuted", "C58_php_run", "C58_php_data_provider_refuted", "C58_foundry_run", "C58_foundry_only_refuted", "C58_foundry_dollar_refuted"], "note": "Against a specification of cargo test/libtest, go test, phpunit and forge test in S_Select.v (from their documentation; trusted). The parts of the statement that are false are the theorems named _refuted."},
 {"property": "C59", "status": "proved", "theorems": ["C59_mocha_line", "C59_mocha_found", "C59_mocha_figure_refuted", "C59_mocha_pending_refuted", "C59_mocha_suite_refuted", "C59_vitest", "C59_anchor_json", "C59_output"], "note": "The lines of Mocha's spec reporter are specified in P_Ts.v (test_line); serde_json's parser is a parameter. The false parts are the theorems named _refuted."},
 {"property": "C60", "status": "proved", "theorems": ["C60_parse", "C60_restored", "C60_scripts", "C60_checked", "C60_mocha_check", "C60_vitest_check_refuted", "C60_dry_run"], "note": "TOML documents are a parameter with the hypothesis `edits` (toml_edit renders a document so that the script set is read back). Restoring on drop is the contract of rewriter::Backup. C60_vitest_check_refuted shows that with Vitest the check before an execution is the execution itself. C60_dry_run: the dry run succeeds exactly if each step did."},
 {"property": "C61", "status": "proved", "theorems": ["C61_row_meaning", "C61_passed", "C61_rows"], "note": "Composes C57, C13, C07, C05, C04, C03 and C14. Hypotheses: parses_well (candidates lie in the file they are listed under), instruments (guards of the back ends, statements disjoint or nested, distinct 64-bit ids), executes (the oracle answers are those of perform_exec)."},
 {"property": "C62", "status": "proved", "theorems": ["C62_rows_right", "C62_rows_distinct", "C62_not_again", "C62_complete", "C62_in_order", "C62_same_table", "C62_finished"], "note": "Over M_Main invocations; the candidates' spans ascend (as the run presents them) and can be read back (C02). Same columns except url (it depends on the git remote). C62_finished: once an invocation has succeeded, going on from its database runs no test."},
 {"property": "C63", "status": "proved", "theorems": ["C63_succeeds", "C63_denied_ends", "C63_resume_succeeds"], "note": "C63_succeeds for runs that start without rows; C63_resume_succeeds for resumed ones (candidates in ascending order, tests that say how they end; C09 shows why)."},
 {"property": "C64", "status": "proved", "theorems": ["C64_tests", "C64_statement_candidates", "C64_method_candidates", "C64_statements_of_tests", "C64_method_calls_of_tests", "C64_statements_of_called_functions", "C64_no_panic", "C64_result", "C64_convention_refuted", "C64_method_calls_of_called_functions", "C64_child"], "note": "Stated over raw tree-sitter trees (kinds, fields, supertype membership, text), with the translation to the visitor's trees modelled from go/mod.rs and go/visitor.rs. C64_convention_refuted: a function Testify, which go test does not take for a test, is one for Necessist."},
 {"property": "C65", "status": "proved", "theorems": ["C65_tests", "C65_statement_candidates", "C65_method_candidates", "C65_statements_of_tests", "C65_method_calls_of_tests", "C65_no_panic", "C65_result", "C65_switch_refuted"], "note": "Over raw tree-sitter trees; the parser itself is not modelled. C65_switch_refuted: statements of switch cases (and others that are not in braces) are not candidates."},
 {"property": "C66", "status": "proved", "theorems": ["C66_dump", "C66_dump_nothing", "C66_candidates", "C66_counts", "C66_dump_after", "C66_deleted_file"], "note": "Whole invocations (M_Main); C66_dump_after joins them to the histories of C62. C66_deleted_file: if every row is a written span and the file of one of them is gone, --dump prints nothing and exits 2 (finding 15)."},
 {"property": "C67", "status": "proved", "theorems": ["C67_tests", "C67_statement_candidates", "C67_method_candidates", "C67_statements_of_tests", "C67_method_calls_of_tests", "C67_statements_of_called_functions", "C67_no_panic", "C67_result", "C67_match_refuted", "C67_method_calls_of_called_functions"], "note": "Stated on syn's trees (M_Syn) and a separate vocabulary (S_Syn), proved through C29-C38. C67_nonvacuous: a file with two tests, a function and a module. The last statement and functions are compared structurally by the program, so the theorems say 'equal but for positions' (alike) or 'same text' (tokens). C67_match_refuted: a match statement without semicolon is never a candidate."},
 {"property": "C68", "status": "proved", "theorems": ["C68_tests", "C68_statement_candidates", "C68_method_candidates", "C68_statements_of_tests", "C68_method_calls_of_tests", "C68_statements_of_called_functions", "C68_no_panic", "C68_result", "C68_await_refuted", "C68_timeout_refuted", "C68_method_calls_of_called_functions"], "note": "Stated on swc's trees (M_Swc) and a separate vocabulary (S_Swc), proved through C29-C38. C68_nonvacuous: a file with two tests (one in describe) and a function. js_regular excludes statements such as `await it(..)`, on which the program panics (C68_await_refuted); `it(..).timeout(5)` is not found (C68_timeout_refuted)."},
 {"property": "C69", "status": "proved", "theorems": ["C69_tests", "C69_statement_candidates", "C69_method_candidates", "C69_statements_of_tests", "C69_method_calls_of_tests", "C69_statements_of_called_functions", "C69_no_panic", "C69_result", "C69_options_refuted", "C69_method_calls_of_called_functions"], "note": "over the syntax trees of M_Foundry (solang's parser itself is not modelled); that every call a test makes is followed is false (C53_call_in_assignment_refuted), so the converse speaks of calls reached through call arguments"},
 {"property": "C70", "status": "proved", "theorems": ["C70_found", "C70_fails", "C70_each_once", "C70_listed_named", "C70_listed", "C70_fails_named", "C70_directory_refuted"], "note": "What the ignore crate leaves out by itself (hidden files, .gitignore) is a parameter; links to directories are entries that are not descended into. C70_directory_refuted: `necessist test` in a Foundry project fails although `necessist` reads test/*.t.sol."},
 {"property": "C71", "status": "proved", "theorems": ["C71_dry_run", "C71_build", "C71_exec", "C71_executed", "C71_installed_once", "C71_warned", "C71_vitest_file", "C71_alone_refuted", "C71_arguments_refuted", "C71_vitest_other_refuted"], "note": "C71_installed_once assumes that a successful installation makes the directory looked for exist and that it stays. Anchor is C60. Windows is not modelled."},
 {"property": "C72", "status": "proved", "theorems": ["C72_recoverable", "C72_disks", "C72_intact_refuted"], "note": "Death between any two events or inside a write or restore. That the saved copy outlives the process (a temporary file beside the source) is the contract of the rewriter crate's Backup. The last sentence of the claim is C72_intact_refuted."},
 {"property": "C73", "status": "proved", "theorems": ["C73_command_line", "C73_rest", "C73_union", "C73_allow_advice", "C73_framework_advice", "C73_info"], "note": "Arguments are Unicode; what clap does with the declarations is taken from its documented contract. C73_info: exactly when help or the version is shown."},
 {"property": "C74", "status": "proved", "theorems": ["C74_fit_to_run", "C74_invocation", "C74_passed"], "note": "Under the contract `proper` on each language's parser (S_Placed.v), which is a hypothesis of the theorems: the parsers themselves (syn, swc, solang, tree-sitter) are not modelled."},
 {"property": "C75", "status": "proved", "theorems": ["C75_not_accepted", "C75_contradiction", "C75_effects"], "note": "clap by its documented contract (as C73); kill -9 is the subject of C72."},
 {"property": "C76", "status": "proved", "theorems": ["C76_proper", "C76_invocation", "C76_passed"], "note": "The parsers are parameters; parsers_place (S_Lang, S_Layout) states where they must place their nodes, on the languages' own syntax trees. TypeScript: no statement `await it(..)`; Solidity: no statement `f().x` (the visitor fails on these: C68, C36). C76_nonvacuous checks the placement for the example trees of C64, C65, C67, C68 and C69 with a decision procedure proved sound."},
 {"property": "C77", "status": "proved", "theorems": ["C77_sound", "C77_complete", "C77_row"], "note": "The exact rules per language are in S_Source (is_candidate, must_be_candidate). Assumes parsers that place their nodes (C76), nodes with identities of their own, and, for Rust, no two functions of a file with the same text (parsers_distinct). C77_nonvacuous runs an invocation on the Rust file of C67."},
 {"property": "C78", "status": "proved", "theorems": ["C78_go_statements", "C78_go_method_calls", "C78_rust_statements", "C78_rust_method_calls", "C78_foundry_statements", "C78_foundry_method_calls", "C78_invocation", "C78_typescript_refuted"], "note": "Per language over the syntax trees of C64/C67/C69, and C78_invocation for a whole invocation (which parser, configuration and comments apply is part of the statement). For Rust and Foundry no function may be called outside of tests and functions of the file (rs_calls_in_tests, sol_calls_in_functions); Go needs no such condition. Functions called by a test itself: C64/C67/C68/C69 *_of_called_functions, for that test, and C77_complete. TypeScript: C78_typescript_refuted has a file in which a statement of a helper's helper is not a candidate."},
 {"property": "C79", "status": "proved", "theorems": ["C79_positions", "C79_reached", "C79_functions", "C79_tests", "C79_statements_of_tests", "C79_statement_candidates", "C79_invocation", "C79_modifier_refuted", "C79_named_arguments_refuted"], "note": "On the parser's syntax trees; C79_invocation states it for an invocation. The two refuted theorems are about the parenthesis in the statement."},
 {"property": "C80", "status": "proved", "theorems": ["C80_places", "C80_call_statements", "C80_method_calls_of_tests", "C80_statements_of_called_functions", "C80_method_calls_of_called_functions", "C80_method_candidates", "C80_statement_candidates", "C80_invocation", "C80_assigned_refuted", "C80_chain_refuted"], "note": "On the parser's syntax trees; C80_invocation states the method call part for an invocation. The refuted theorems show the two cases named in the last sentence of the statement."},
 {"property": "C81", "status": "proved", "theorems": ["C81_tried_first", "C81_once", "C81_invocation"], "note": "For a run and for a whole invocation."},
 {"property": "C82", "status": "proved", "theorems": ["C82_printed_is_recorded", "C82_printed_without_database", "C82_blocks", "C82_changed_once", "C82_quiet"], "note": "The back end warnings (chatter) and what was printed while parsing are arbitrary lists of warnings; error texts are arbitrary."},
 {"property": "C83", "status": "proved", "theorems": ["C83_output", "C83_no_sqlite", "C83_run_without_database"], "note": "C83_output is about whole invocations and every mode. C83_no_sqlite takes surroundings that do not look at the database (database_blind: what the tests, the build and the keyboard do is the same whether or not rows were stored) and a run that ends with exit code 0; C83_run_without_database is the statement for a run that may also end with an error that is not the database's."},
 {"property": "C84", "status": "proved", "theorems": ["C84_run", "C84_parse", "C84_invocation", "C84_named"], "note": "C84_run is about the loop over the source files: any sublist of the files, without a database or with an empty one; C84_parse about finding and parsing; C84_invocation joins them for whole invocations with any parser, C84_named instantiates it with the back ends' parser as modelled and states everything in terms of the file names given. Assumed: each source file is treated on its own (each_on_its_own in S_Part: answers about a file depend on what happened with that file only), nobody presses Ctrl-C and the database can be written (undisturbed), and the run without named files starts without rows (afresh). Non-vacuity: C84_nonvacuous, a project of two files."},
 {"property": "C85", "status": "proved", "theorems": ["C85_file", "C85_tests", "C85_arguments", "C85_parse", "C85_prepared", "C85_invocation", "C85_never_adds_refuted"], "note": "The walk over one file (C85_file, C85_tests, C85_arguments), all files of a project with two configurations as the user writes them (C85_parse), two invocations that find these configurations (C85_prepared), and the rows and reports of the second (C85_invocation). Finding: without the exception the claim is false (C85_never_adds_refuted: ignoring retry makes `x = retry(|| { attempt(); });` itself a candidate, whose inner statement was one before). Assumed: no local functions are walked (walkable_functions is empty, the default), the parsers yield proper trees (S_Placed). Non-vacuity: C85_nonvacuous, i_more, i_cands."},
 {"property": "C86", "status": "proved", "theorems": ["C86_execution", "C86_outcome", "C86_row", "C86_run", "C86_in_order", "C86_resumed", "C86_invocation"], "note": "S_Patience, P_Patience. C86_in_order and C86_resumed are for candidates in ascending order (see C09 for why); C86_row, C86_run, C86_invocation for any. Example C86_nonvacuous: limits of one and three seconds on a test that takes two."},
 {"property": "C87", "status": "proved", "theorems": ["C87_directives_select", "C87_moved", "C87_skip_comment", "C87_plain_line", "C87_project"], "note": "Over the model of the walk, the directives and parsing. C87_directives_select: skipping selects among the candidates there would be without directives. C87_moved: a tree with other positions in the same order gives the same candidates there. C87_skip_comment / C87_plain_line: one file with a line put in. C87_project: parsing a whole project of which one file was so changed. That the parser makes of the changed file the same tree with positions moved is a hypothesis (tree-sitter, syn, swc and solang are not modelled), as is that the original tree is proper (shown for the modelled back ends in C74). A comment put between a receiver and `.method()` is excluded: there the method call's span begins with the comment. C87_nonvacuous gives a file where the directive hides a statement and the method call in it."},
 {"property": "C88", "status": "proved", "theorems": ["C88_candidates", "C88_display", "C88_anywhere"], "note": "Over the models of finding files, parsing and a whole invocation. C88_candidates: parsing the same tree below another root gives the same result, with paths relative to the root. C88_display: environments started in a directory that was moved along with the project show files under the same names. C88_anywhere: two invocations whose settings differ only in the place (root, how it is found, current directory, lock, canonicalization, which paths are ignored) leave the same states, trace and end, and the same output when files are shown under the same names. Hypotheses: `ignore` leaves out corresponding paths, links lead to corresponding places or outside both roots, the lock is obtained in both or neither, and what the tests do (the oracle) is the same. C88_nonvacuous and C88_both give a project in /w and a copy of it in /home/u/c with its source file named by its absolute path, whose run records three rows."},
 {"property": "C89", "status": "proved", "theorems": ["C89_run", "C89_parse", "C89_invocation", "C89_deny_all"], "note": "Over the models of the run, parsing and a whole invocation. C89_run: the run in stricter surroundings is the same, or ends with an error having done the same up to a moment and then only restored files. C89_parse: parsing with more denied gives the same or fails. C89_invocation composes them with the options and the database; C89_deny_all is the consequence for `--deny all`. Warnings of the back ends outside the models (Rust's unknown module paths; it-message-not-found, output-invalid, run-test-failed) are covered as errors the back end may report in place of an answer; dry runs and builds issue no warnings in the code, so they are taken to answer the same. C89_nonvacuous: a run whose instrumented file does not build warns and records three rows; with everything denied it fails and records none; with a build that works both record three."},
 {"property": "C90", "status": "proved", "theorems": ["C90_starting_over"], "note": "Over the model of a whole invocation. Two invocations with the same options but --reset and --resume, on disks that differ only in the database, each of which starts over: same trace, output and end; same final disk, or both ended before looking at the database (then neither changed anything and neither succeeded). Hypotheses: acceptable options that run tests, no --no-sqlite, and an engine that does what it is told. C90_nonvacuous: a first run, a second with --reset on what it left, and one with --resume without a database, each of which leaves three rows."},
 {"property": "C91", "status": "proved", "theorems": ["C91_framework_named", "C91_deprecated", "C91_default_config", "C91_written"], "note": "Over the model of a whole invocation. C91_framework_named: equal answers when exactly one framework is marked. C91_deprecated: equal answers with and without the deprecated option, unless its warning is denied. C91_default_config: with the default configuration in necessist.toml, the same states (with that file in each), trace, output and end as without, for all options but --default-config itself; C91_written: that file is what a successful --default-config adds. Hypothesis: what the toml crate writes of the default configuration it reads back as the default configuration (serialization is not modelled). C91_nonvacuous meets the hypotheses of each."},
 {"property": "C92", "status": "proved", "theorems": ["C92_run", "C92_nothing_new", "C92_invocation", "C92_ends_with_ctrlc_refuted"], "note": "Two executions are compared, one of which is interrupted; C12 says what the interrupted one does by itself. The signal may change every answer of a child process from the moment it arrives (also of the process that is running). That writing files, the database and the reading of contents do not fail because of the signal is an assumption, in the record `interrupted`. What is executed after the moment may include tests of one more removal that the other run would not have run (a test that goes on in spite of the signal). That it ends with the error of Ctrl-C if it came to look at the flag is C12_ctrlc_result. FINDING (C92_ends_with_ctrlc_refuted): an interrupted run can end with a panic instead of the error \"Ctrl-C detected\": the test is built again before it is run, and if the signal stops this build while the removal is by instrumentation, the assertion \"instrumentation failed to build after it was verified to\" (core.rs:406) fails."},
 {"property": "C93", "status": "proved", "theorems": ["C93_parse", "C93_invocation", "C93_same_files", "C93_below", "C93_within", "C93_root"], "note": "The names mean canonical paths (as in C24). If parsing fails, which of several errors is reported first may depend on the order: hence \"or both come to nothing\". The number of tests that parsing counts does depend on repetition (C39_number_of_tests_refuted), but nothing that an invocation does depends on it except a message that is not modelled. C93_within generalises C93_below to directories. C93_root: naming the root is naming nothing."}
]}
