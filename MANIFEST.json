{
 "claims": [
  {
   "property": "C01",
   "status": "partial",
   "theorems": [
    "C01_mutant_file_partial",
    "C01_mutation_edits_only_the_span_partial",
    "C01_lone_cr_refuted"
   ],
   "note": "Proved for every text whose part before the edit on the edited line has no lone carriage return; for a lone CR the claim is refuted (edit lands one character late)."
  },
  {
   "property": "C02",
   "status": "partial",
   "theorems": [
    "C02_extract_agrees_with_replace_partial",
    "C02_every_span_partial",
    "C02_lone_cr_refuted"
   ],
   "note": "Proved for every text and every span whose ends are places of the text and whose start does not share its place with a carriage return, and for the parser's spans on lines without carriage returns. Refuted for a lone carriage return on the line: the replacement can go in twice."
  },
  {
   "property": "C03",
   "status": "proved",
   "theorems": [
    "C03_shards_partition"
   ],
   "note": ""
  },
  {
   "property": "C04",
   "status": "proved",
   "theorems": [
    "C04_shard_argument",
    "C04_accepted_shard_selects"
   ],
   "note": ""
  },
  {
   "property": "C05",
   "status": "partial",
   "theorems": [
    "C05_selects_touched_partial",
    "C05_empty_diff",
    "C05_subset",
    "C05_repeated_file",
    "C05_unprefixed_b_refuted",
    "C05_parser_input",
    "C05_visible_not_blank",
    "C05_accepted",
    "C05_unreadable",
    "C05_refused",
    "C05_white_space"
   ],
   "note": "For diffs whose hunks are well formed and in order; the diff parser is an oracle. With a diff without a/ b/ prefixes a file under a top directory 'b' is missed (refuted)."
  },
  {
   "property": "C06",
   "status": "partial",
   "theorems": [
    "C06_changed_lines_partial",
    "C06_sorted",
    "C06_zero_context_refuted"
   ],
   "note": "Exact for every hunk with a non-empty new range. Refuted for removal-only hunks without context (diff -U0), where the line number is off by one."
  },
  {
   "property": "C07",
   "status": "partial",
   "theorems": [
    "C07_quoted_lines_match_partial",
    "C07_stale_rejected_partial",
    "C07_no_false_alarm",
    "C07_blank_past_end_refuted"
   ],
   "note": "Exact except for blank lines quoted past the end of the file, which are accepted (refuted)."
  },
  {
   "property": "C08",
   "status": "proved",
   "theorems": [
    "C08_run",
    "C08_counts_partition",
    "C08_printed"
   ],
   "note": ""
  },
  {
   "property": "C09",
   "status": "partial",
   "theorems": [
    "C09_run",
    "C09_exit_code",
    "C09_exit_zero_partial",
    "C09_exit_zero_refuted"
   ],
   "note": "The exit code table is proved. The documented meaning of 0 is refuted: a mutant whose tests die from a signal is neither caught nor missed and leaves exit code 0."
  },
  {
   "property": "C10",
   "status": "proved",
   "theorems": [
    "C10_recorded",
    "C10_verdict",
    "C10_baseline",
    "C10_verdict_check",
    "C10_phases_in_order",
    "C10_caught_missed",
    "C10_flags_total"
   ],
   "note": ""
  },
  {
   "property": "C11",
   "status": "partial",
   "theorems": [
    "C11_lists_partial",
    "C11_lists_at_end_partial",
    "C11_failing_writes",
    "C11_exact_if_ok",
    "C11_joined_lines_refuted",
    "C11_exclusive",
    "C11_one_list"
   ],
   "note": "If writes to mutants.out do not fail the lists are exact at every point of every schedule, except that the outcome being recorded by the thread holding the lock may not be written yet or lack its newline. If they may fail, the lists are still beginnings of the right lines in the right order, cut short at most once for each failed thread, and exact at the end of every run that ends without an error; a line may then join two names (refuted)."
  },
  {
   "property": "C12",
   "status": "proved",
   "theorems": [
    "C12_all_tested",
    "C12_accounted",
    "C12_all_recorded",
    "C12_no_double",
    "C12_progress",
    "C12_terminates",
    "C12_no_panic",
    "C12_in_order",
    "C12_ends_when_empty"
   ],
   "note": "Every schedule, including worker errors; also progress, termination (a step bound) and absence of panics when all names exist."
  },
  {
   "property": "C13",
   "status": "partial",
   "theorems": [
    "C13_file",
    "C13_cargo_sees_one_mutant",
    "C13_back",
    "C13_back_after_error",
    "C13_back_at_end",
    "C13_back_at_any_end",
    "C13_exact_unix_partial",
    "C13_crlf_refuted"
   ],
   "note": "Proved for the text as the tool loads it (CRLF read as LF), and byte for byte for files without CRLF. Refuted byte for byte for a CRLF file tested in place, which is rewritten with LF. Failed writes of the source file itself are reported as errors and are outside the claim."
  },
  {
   "property": "C14",
   "status": "proved",
   "theorems": [
    "C14_only_after_baseline",
    "C14_failed_baseline"
   ],
   "note": ""
  },
  {
   "property": "C15",
   "status": "proved",
   "theorems": [
    "C15_own_directory",
    "C15_at_most_jobs"
   ],
   "note": ""
  },
  {
   "property": "C16",
   "status": "proved",
   "theorems": [
    "C16_new_log_under_any_schedule",
    "C16_logs_distinct",
    "C16_each_has_one",
    "C16_no_slash",
    "C16_paths",
    "C16_files_distinct"
   ],
   "note": "Names as strings; file systems that fold case or limit name length are outside the model."
  },
  {
   "property": "C17",
   "status": "proved",
   "theorems": [
    "C17_rotation",
    "C17_last_two_runs",
    "C17_refused",
    "C17_fresh",
    "C17_error_keeps"
   ],
   "note": "The rotated directory's lock.json is rewritten by the next run; all else is kept. Symbolic links and I/O errors are outside the model."
  },
  {
   "property": "C18",
   "status": "partial",
   "theorems": [
    "C18_own_directory",
    "C18_others_wait_partial",
    "C18_places",
    "C18_alone",
    "C18_second_waiter_refuted",
    "C18_deleted_while_running_refuted",
    "C18_two_process_race_refuted"
   ],
   "note": "No two running processes hold the same directory, and later starters wait (C18_others_wait_partial). Every directory that ever was is at one place only: mutants.out, mutants.out.old or deleted, whatever the processes do (C18_places). Refuted in general: a second waiter, or a process in the gap between unlock and rename, moves away or deletes the directory of a running process."
  },
  {
   "property": "C19",
   "status": "partial",
   "theorems": [
    "C19_exact_partial",
    "C19_never_again_partial",
    "C19_read",
    "C19_read_none",
    "C19_main"
   ],
   "note": "For series of runs without a crash in the rotation window (see C49) and for names that take one line (see C20)."
  },
  {
   "property": "C20",
   "status": "partial",
   "theorems": [
    "C20_round_trip_partial",
    "C20_appended",
    "C20_names_take_one_line",
    "C20_newline_refuted"
   ],
   "note": "Proved for names without a line break; refuted for a name with one."
  },
  {
   "property": "C21",
   "status": "proved",
   "theorems": [
    "C21_files",
    "C21_names",
    "C21_tree"
   ],
   "note": "File and name filters for every combination, and over a whole tree; the regular expression engine is an oracle."
  },
  {
   "property": "C22",
   "status": "proved",
   "theorems": [
    "C22_single_values",
    "C22_lists",
    "C22_skip_calls",
    "C22_test_packages",
    "C22_accepted",
    "C22_flags",
    "C22_panic",
    "C22_error"
   ],
   "note": "All merging in Options::new; clap and serde parsing are outside the model."
  },
  {
   "property": "C23",
   "status": "partial",
   "theorems": [
    "C23_explicit_test",
    "C23_explicit_build",
    "C23_no_build_limit",
    "C23_baseline_limits",
    "C23_rounding",
    "C23_auto_test",
    "C23_auto_test_any_rounding",
    "C23_auto_test_monotone",
    "C23_build_multiplier_partial",
    "C23_skipped_baseline",
    "C23_limits_exist_partial",
    "C23_panic",
    "C23_negative_multiplier_refuted",
    "C23_check_ignores_build_multiplier_refuted"
   ],
   "note": "With 64-bit floats (round to nearest even): the limit is exact but for a relative error of 2^-51, monotone, and panics are described. Negative, infinite and NaN multipliers panic and --check ignores the build multiplier (refuted)."
  },
  {
   "property": "C24",
   "status": "partial",
   "theorems": [
    "C24_complete",
    "C24_timeout_reported",
    "C24_success_is_real",
    "C24_failure_is_real",
    "C24_hung_child_times_out_partial",
    "C24_timeout_bound_partial",
    "C24_no_limit_no_timeout",
    "C24_sigterm_ignored_blocks",
    "C24_sigterm_ignored_refuted",
    "C24_late_poll_refuted"
   ],
   "note": "Proved for children that die on SIGTERM. Refuted for a child ignoring SIGTERM (the run blocks) and for exits seen only after the limit."
  },
  {
   "property": "C25",
   "status": "partial",
   "theorems": [
    "C25_program",
    "C25_selection_partial",
    "C25_features",
    "C25_profile_partial",
    "C25_user_args_last",
    "C25_test_args",
    "C25_executes",
    "C25_tool",
    "C25_build_as_test",
    "C25_selection_refuted",
    "C25_check_profile_refuted"
   ],
   "note": "All clauses for cargo_argv; refuted: no package selection when no --test-package name is known; cargo check gets --cargo-profile with nextest."
  },
  {
   "property": "C26",
   "status": "partial",
   "theorems": [
    "C26_capped_partial",
    "C26_off",
    "C26_inherited",
    "C26_insta",
    "C26_blanks_refuted",
    "C26_config_refuted"
   ],
   "note": "Proved for flags separated by spaces; refuted for other blanks in RUSTFLAGS and for flags from cargo's configuration files."
  },
  {
   "property": "C27",
   "status": "proved",
   "theorems": [
    "C27_skipped_iff_leaves_tree",
    "C27_skipped_not_read",
    "C27_loaded_is_inside",
    "C27_ascent"
   ],
   "note": ""
  },
  {
   "property": "C28",
   "status": "partial",
   "theorems": [
    "C28_document_partial",
    "C28_config_document",
    "C28_idempotent",
    "C28_manifest_file_partial",
    "C28_config_file",
    "C28_other_tables_refuted"
   ],
   "note": "For [dependencies], [replace] and [patch] of the root manifest and paths of .cargo/config.toml; refuted for dev-, build-, target- and workspace dependencies, which are left relative. TOML parser and printer are assumed to round trip."
  },
  {
   "property": "C29",
   "status": "partial",
   "theorems": [
    "C29_declared",
    "C29_visits",
    "C29_breadth_first",
    "C29_compiler_partial",
    "C29_terminates_partial",
    "C29_errors",
    "C29_files",
    "C29_once_refuted",
    "C29_ends_refuted"
   ],
   "note": "Visited files, order, termination, errors and listed files proved for every file system and parser; agreement with the compiler's choice of files proved for modules without path attributes, and false with them (C47). Visiting a file once is false (C29_once_refuted), a cycle never ends (C29_ends_refuted)."
  },
  {
   "property": "C30",
   "status": "partial",
   "theorems": [
    "C30_identifiers",
    "C30_mutants",
    "C30_inside_skipped",
    "C30_attributes",
    "C30_cfg_partial",
    "C30_every_body",
    "C30_other_items_refuted",
    "C30_nested_cfg_refuted",
    "C30_cfg_attr_refuted",
    "C30_unsafe_impl_refuted",
    "C30_absolute_path_refuted"
   ],
   "note": "Exact for every tree: the mutants are those at positions with no skipped node above, skipped nodes are inert in any context, every other body is covered. Refuted parts: attributes on items other than files, fns, impls, traits and modules are not looked at; nested cfg such as all(test, ..) and cfg_attr with a non-path condition are not recognised; unsafe impl and unsafe trait are not skipped; an inline module with an absolute path attribute is dropped."
  },
  {
   "property": "C31",
   "status": "proved",
   "theorems": [
    "C31_no_panic",
    "C31_function",
    "C31_order"
   ],
   "note": "For every syntax tree: no nesting check fails, the function of each mutant is the innermost one, names are those of everything around it, and mutants come in the order of nodes."
  },
  {
   "property": "C32",
   "status": "proved",
   "theorems": [
    "C32_same_kind",
    "C32_distinct",
    "C32_table",
    "C32_compound",
    "C32_in_file",
    "C32_unary"
   ],
   "note": "The whole table, with compound assignments, and the same in any file."
  },
  {
   "property": "C33",
   "status": "proved",
   "theorems": [
    "C33_arms",
    "C33_guards",
    "C33_complete"
   ],
   "note": "Both directions, for every match at any position."
  },
  {
   "property": "C34",
   "status": "partial",
   "theorems": [
    "C34_values_have_type_partial",
    "C34_no_return_type",
    "C34_one_tuple_refuted",
    "C34_nonzero_refuted",
    "C34_box_str_refuted",
    "C34_mut_str_refuted",
    "C34_array_refuted"
   ],
   "note": "For every type built from the known types at any nesting (predicate fits). Refuted for one-element tuples, NonZero types, Box<str> and the like, &mut str and arrays of types that cannot be copied. Generic containers of unknown name, lifetimes and trait bounds are outside the typing relation."
  },
  {
   "property": "C35",
   "status": "proved",
   "theorems": [
    "C35_table",
    "C35_return",
    "C35_no_value",
    "C35_distinct",
    "C35_nonzero",
    "C35_no_stray_comma"
   ],
   "note": "The error values given by the user are assumed different for the distinctness claim."
  },
  {
   "property": "C36",
   "status": "partial",
   "theorems": [
    "C36_lexed_partial",
    "C36_injective_partial",
    "C36_split_number_refuted",
    "C36_layout_partial",
    "C36_spacing_partial",
    "C36_tokens_recovered_partial",
    "C36_distinct_partial",
    "C36_no_trailing_space_partial",
    "C36_invisible_group_refuted",
    "C36_trailing_space_refuted"
   ],
   "note": "For every token stream without invisible groups (source text contains none); refuted for streams with invisible groups, where two words can be joined and the debug assertion can fail. A lexer reads the printed text back as the tokens, so printing is injective, for identifiers, numbers and strings; refuted for numbers cut at a dot."
  },
  {
   "property": "C37",
   "status": "proved",
   "theorems": [
    "C37_last_line",
    "C37_read",
    "C37_decoding",
    "C37_unique",
    "C37_partial_writes_refuted"
   ],
   "note": "For writers that write whole lines, as the property says, whatever the bytes; a line that arrives in two writes is shown wrongly (C37_partial_writes_refuted)."
  },
  {
   "property": "C38",
   "status": "partial",
   "theorems": [
    "C38_copy",
    "C38_succeeds",
    "C38_everything",
    "C38_directories_refuted"
   ],
   "note": "For every finite tree with distinct names in each directory, every option setting, with git's ignore rules, UTF-8 validity of names and readability as oracles; devices, sockets and pipes are not copied; a plain file with a version control name is also left out (C38_directories_refuted). Windows symlinks, interrupts and permission bits of directories are not modelled."
  },
  {
   "property": "C39",
   "status": "partial",
   "theorems": [
    "C39_no_slash_partial",
    "C39_slash_partial",
    "C39_class_read",
    "C39_set",
    "C39_error",
    "C39_empty_refuted",
    "C39_class_refuted"
   ],
   "note": "Globs of literals, ?, *, ** and classes: proved to match as documented, and the set and error behaviour. Refuted for the empty glob and for negated classes (which match a slash). Braces and Windows separators are not modelled."
  },
  {
   "property": "C40",
   "status": "partial",
   "theorems": [
    "C40_counters_partial",
    "C40_all_runs",
    "C40_final_partial",
    "C40_active_partial",
    "C40_drawn_partial",
    "C40_rounding",
    "C40_estimate",
    "C40_log_refuted",
    "C40_line_partial",
    "C40_colored",
    "C40_text"
   ],
   "note": "Counters, the scenarios displayed and their phases, the drawn numbers and the last line of text, for all schedules when logs are UTF-8; false otherwise (C40_log_refuted). For the search and the copy see C64."
  },
  {
   "property": "C41",
   "status": "partial",
   "theorems": [
    "C41_packages_partial",
    "C41_workspace",
    "C41_named_partial",
    "C41_auto",
    "C41_choice",
    "C41_duplicates_refuted",
    "C41_outside_refuted"
   ],
   "note": "Proved for members under the workspace root and names given once; refuted for repeated names and for members outside the root."
  },
  {
   "property": "C42",
   "status": "partial",
   "theorems": [
    "C42_which_tests",
    "C42_baseline",
    "C42_default_partial",
    "C42_baseline_refuted"
   ],
   "note": "Selection of tests and baseline proved; the last clause holds by default and is refuted for --test-package and --test-workspace."
  },
  {
   "property": "C43",
   "status": "proved",
   "theorems": [
    "C43_root_cause",
    "C43_failed_worker",
    "C43_failed_baseline",
    "C43_interrupted_worker_stops",
    "C43_error_has_cause",
    "C43_interrupted_process"
   ],
   "note": "Internal errors and interrupts noticed while running cargo are nondeterministic steps of the model."
  },
  {
   "property": "C44",
   "status": "partial",
   "theorems": [
    "C44_same",
    "C44_compared",
    "C44_lines",
    "C44_chosen",
    "C44_shards_partial",
    "C44_bad_diff",
    "C44_files",
    "C44_end_to_end",
    "C44_iterate_shard_refuted"
   ],
   "note": "Proved: the listing and the test run with the same arguments agree, the order of the filters, the shards of one selection divide it, and a run that ends normally records exactly the listed names. Refuted: --iterate with --shard does not keep to the same division. The JSON listing is in C53 and colors in C56."
  },
  {
   "property": "C45",
   "status": "partial",
   "theorems": [
    "C45_name_identifies_partial",
    "C45_description_identifies",
    "C45_colon_in_path_refuted"
   ],
   "note": "Proved for mutants in files whose tree-relative path has no colon and whose line and column are printed; with a colon in a path two different mutants can share a name (refuted)."
  },
  {
   "property": "C46",
   "status": "proved",
   "theorems": [
    "C46_quoted_argv_decodes",
    "C46_quoted_argv_one_line",
    "C46_quoting",
    "C46_words",
    "C46_empty_first_refuted"
   ],
   "note": "For any argument vector whose first element (the program) is not empty; a leading empty argument leaves no trace (C46_empty_first_refuted)."
  },
  {
   "property": "C47",
   "status": "partial",
   "theorems": [
    "C47_as_compiler_partial",
    "C47_next_place",
    "C47_attribute_place",
    "C47_relative",
    "C47_inline_attribute_refuted",
    "C47_below_attribute_refuted"
   ],
   "note": "Same places as the compiler, name.rs first, proved except for two kinds of path attributes, which are refuted: an inline module with a path attribute in a file like foo.rs, and modules below a file that was itself found through a path attribute. Absolute paths are refused."
  },
  {
   "property": "C48",
   "status": "proved",
   "theorems": [
    "C48_clean_names",
    "C48_clean_keeps_ordinary"
   ],
   "note": ""
  },
  {
   "property": "C49",
   "status": "partial",
   "theorems": [
    "C49_lists_at_crash_partial",
    "C49_lists_at_half_line",
    "C49_setup",
    "C49_setup_end",
    "C49_rotation_window_refuted",
    "C49_any_crash_point_partial"
   ],
   "note": "Proved for every crash point of every schedule once the old names are copied (no write errors, names without newline). Refuted for a crash between rotation and that copy: the earlier names are then only in mutants.out.old and are forgotten."
  },
  {
   "property": "C50",
   "status": "proved",
   "theorems": [
    "C50_crlf_normalised",
    "C50_crlf_file",
    "C50_restore_exact_iff",
    "C50_one_pass_refuted"
   ],
   "note": "One pass of replacement leaves \\r\\n in a file with \\r\\r\\n (refuted for the idempotence reading)."
  },
  {
   "property": "C51",
   "status": "partial",
   "theorems": [
    "C51_manifest_partial",
    "C51_dir",
    "C51_bare_name_refuted"
   ],
   "note": "Proved for every path with at least two components; refuted for a bare file name (--manifest-path Cargo.toml is refused)."
  },
  {
   "property": "C52",
   "status": "proved",
   "theorems": [
    "C52_diff_header"
   ],
   "note": "Labels handed to the diff library; the body of the diff is computed by the similar crate and not modelled."
  },
  {
   "property": "C53",
   "status": "partial",
   "theorems": [
    "C53_round_trip",
    "C53_mutants",
    "C53_same",
    "C53_list",
    "C53_files",
    "C53_order",
    "C53_outcomes",
    "C53_end_partial",
    "C53_end_cut",
    "C53_end_refuted"
   ],
   "note": "Proved for all texts and lists: the files are read back by an independent JSON reader and describe the mutants, files and outcomes. At the end of a run: exact if writes do not fail; if they may, the lists are exact and outcomes.json is a beginning of the right text (C53_end_cut), of which the rest can be missing without an error (C53_end_refuted). The digits of a duration are an oracle that prints JSON numbers."
  },
  {
   "property": "C54",
   "status": "partial",
   "theorems": [
    "C54_written_partial",
    "C54_reported_refuted"
   ],
   "note": "Refuted: an error while writing the last bytes (up to the size of the buffer) is not reported, because the BufWriter is dropped without a flush. Proved: what is missing is at the end and never longer than the buffer; without disk errors the file is whole; the file is always a beginning of the text."
  },
  {
   "property": "C55",
   "status": "partial",
   "theorems": [
    "C55_nothing_lost",
    "C55_entries",
    "C55_results",
    "C55_whole_partial",
    "C55_existing",
    "C55_words",
    "C55_readable",
    "C55_diff",
    "C55_error",
    "C55_panic",
    "C55_mixed_refuted"
   ],
   "note": "Proved for every interleaving: nothing is lost, the tool's part and the results are exact; with commands that write only while they run the whole log is exact and is read back by cutting it at the marks. Refuted in general: a process that outlives its command can write into the middle of a message. The tool panics only over a mutant without a name (C55_panic); whole programs have none (C75_names)."
  },
  {
   "property": "C56",
   "status": "partial",
   "theorems": [
    "C56_name",
    "C56_list",
    "C56_message",
    "C56_colors",
    "C56_run_partial",
    "C56_always",
    "C56_panics"
   ],
   "note": "The message for every outcome word for word, names and listings with and without colors, and what is printed over a run without errors. Over a run the logs to be printed must be UTF-8 (else the display panics, C40_log_refuted). Durations as text are an argument here; C77 fills it in."
  },
  {
   "property": "C57",
   "status": "partial",
   "theorems": [
    "C57_colors",
    "C57_stderr_refuted"
   ],
   "note": "Proved for listings, messages and the trace. Refuted for the progress display on stderr."
  },
  {
   "property": "C58",
   "status": "partial",
   "theorems": [
    "C58_one_file",
    "C58_inside_partial",
    "C58_copy_partial",
    "C58_restored",
    "C58_link_refuted",
    "C58_shared_refuted"
   ],
   "note": "Proved for build directories without symbolic links, in particular copies of trees without links; that one existing file is changed and that the disk is restored hold in any case. Refuted with a link to an absolute path."
  },
  {
   "property": "C59",
   "status": "proved",
   "theorems": [
    "C59_still_a_run",
    "C59_no_false_verdict",
    "C59_error",
    "C59_baseline_error",
    "C59_one_more",
    "C59_one_more_baseline",
    "C59_soon",
    "C59_soon_baseline",
    "C59_progress",
    "C59_restored"
   ],
   "note": "Over the machine of C12 with the flag beside it, set at any time. The check while copying a tree is left out, so a copy may still end well after the interrupt. The first copy of the tree, the discovery of mutants and waiting for the lock come before the machine begins."
  },
  {
   "property": "C60",
   "status": "proved",
   "theorems": [
    "C60_nothing_left",
    "C60_in_use",
    "C60_deleted",
    "C60_leaked",
    "C60_prompt",
    "C60_bounded",
    "C60_every_run"
   ],
   "note": "Over the machine of C12. A BuildDir's TempDir deletes its directory when the owner (the main thread until a worker takes it, then that worker) ends. Copying is one step, so a copy that fails leaves nothing; deleting is assumed to succeed, because the tempfile crate ignores errors. A process that is killed leaves its directories: outside the model."
  },
  {
   "property": "C61",
   "status": "partial",
   "theorems": [
    "C61_as_alone",
    "C61_same_results",
    "C61_line_ends_refuted"
   ],
   "note": "Proved when results do not depend on line ends (CRLF or LF): every recorded outcome is that of the mutant alone, and two complete runs agree. Refuted if they do: a mutated CRLF file is put back with LF, and later mutants of other files in the same build directory are tested with it."
  },
  {
   "property": "C62",
   "status": "partial",
   "theorems": [
    "C62_tokens_partial",
    "C62_printed_distinct_partial",
    "C62_file",
    "C62_values_partial",
    "C62_tree_partial",
    "C62_errors_refuted"
   ],
   "note": "For one file: if the spans of its nodes are different and the values print differently; the latter proved for types made of identifiers, numbers and strings. For a tree: if no file is visited twice (C29_once_refuted says when it is). Refuted for two configured errors that are different tokens but print alike."
  },
  {
   "property": "C63",
   "status": "proved",
   "theorems": [
    "C63_status",
    "C63_scope",
    "C63_listed",
    "C63_information",
    "C63_zero",
    "C63_unsettled",
    "C63_options",
    "C63_early_panic",
    "C63_discovery",
    "C63_search_fails",
    "C63_lab_status"
   ],
   "note": "Disk, cargo, clap and the parsers of other crates are parameters. An interrupt or a failing disk may end the program at any time with an error. Discovery must come to an end (C29_ends_refuted)."
  },
  {
   "property": "C64",
   "status": "partial",
   "theorems": [
    "C64_shown",
    "C64_total",
    "C64_exact",
    "C64_excluded_refuted",
    "C64_line",
    "C64_copied",
    "C64_copied_all",
    "C64_mb",
    "C64_drawn"
   ],
   "note": "Refuted: mutants in files that the globs leave out are counted as found."
  },
  {
   "property": "C65",
   "status": "partial",
   "theorems": [
    "C65_lab",
    "C65_command",
    "C65_environment",
    "C65_flags_partial",
    "C65_limits",
    "C65_given_limits",
    "C65_auto_limit",
    "C65_progress",
    "C65_terminates",
    "C65_once",
    "C65_parts",
    "C65_verdict",
    "C65_no_panic_partial",
    "C65_panic_refuted"
   ],
   "note": "For all schedules: commands, environment, limits, files, order and verdicts. Missing: RUSTFLAGS with white space other than blanks (C26), and multipliers that are not finite numbers from 0 on panic after the baseline (refuted)."
  },
  {
   "property": "C66",
   "status": "proved",
   "theorems": [
    "C66_name",
    "C66_message",
    "C66_scenario",
    "C66_copy",
    "C66_line",
    "C66_scenario_named"
   ],
   "note": "For all messages and lines of the display; the words for durations and the console crate's choice of codes are as modelled in PrintM."
  },
  {
   "property": "C67",
   "status": "proved",
   "theorems": [
    "C67_ends",
    "C67_package",
    "C67_context",
    "C67_processes",
    "C67_status",
    "C67_distinct",
    "C67_zero"
   ],
   "note": "For all runs and schedules, also when a mutant is in the list twice. What the lab is given is that of main; cargo itself is arbitrary."
  },
  {
   "property": "C68",
   "status": "proved",
   "theorems": [
    "C68_command",
    "C68_information",
    "C68_help",
    "C68_usage",
    "C68_one",
    "C68_console",
    "C68_program",
    "C68_order",
    "C68_variables",
    "C68_exact",
    "C68_line",
    "C68_consistent",
    "C68_processes",
    "C68_status",
    "C68_zero"
   ],
   "note": "All words and variables, from the name of the program on (C68_program). Left out: arguments that are not UTF-8, texts of help and errors; clap's own code is trusted to be as in ClapM."
  },
  {
   "property": "C69",
   "status": "proved",
   "theorems": [
    "C69_settings",
    "C69_accepted",
    "C69_order",
    "C69_integers",
    "C69_in_force",
    "C69_no_file",
    "C69_wrong"
   ],
   "note": "All files that are TOML, and what the options of a run are because of them. The TOML parser is an oracle; so is what the toml crate makes of a table as the name of a test tool."
  },
  {
   "property": "C70",
   "status": "partial",
   "theorems": [
    "C70_selects_edited",
    "C70_any_context",
    "C70_widths",
    "C70_changed_lines",
    "C70_no_context_refuted",
    "C70_scope",
    "C70_zero"
   ],
   "note": "C70_selects_edited: a diff that was written for a script of changes is accepted and selects exactly the mutants with a changed line; C70_any_context: two such diffs of the same changes select the same; C70_widths and C70_changed_lines: the hunks for any width of context from 1 are such hunks; C70_scope and C70_zero: the same of whole runs and their cargo processes. Partial: false for width 0 (C70_no_context_refuted, as C06_zero_context_refuted). That the patch crate reads the text of the diff as these hunks is not shown: it is an oracle."
  },
  {
   "property": "C71",
   "status": "proved",
   "theorems": [
    "C71_logs",
    "C71_one_each",
    "C71_so_far",
    "C71_any_log",
    "C71_every_run",
    "C71_not_ahead",
    "C71_json",
    "C71_paths"
   ],
   "note": "Everything in the statement. The last part for output is under the condition of the statement (tidy); without it see C55_mixed_refuted. Before the mutation is applied the log is a beginning of its heading (C71_not_ahead). The paths in outcomes.json are functions of the outcome in JsonM; C71_paths shows that there is such a function when no mutant is listed twice. start_scenario is one step (it holds the lock)."
  },
  {
   "property": "C72",
   "status": "proved",
   "theorems": [
    "C72_processes",
    "C72_in_range",
    "C72_unclassified",
    "C72_why",
    "C72_baseline",
    "C72_generated",
    "C72_viable",
    "C72_workers",
    "C72_error",
    "C72_so_far",
    "C72_every_run",
    "C72_shown",
    "C72_zero",
    "C72_program"
   ],
   "note": "Everything in the statement. A report is made in the step of what it is about, so the theorems say nothing about the order between threads. That the error of a thread is an interrupt is an oracle. The words are not modelled. The warnings about timeouts are in C23; those of discovery and options are in C44, C58 and others."
  },
  {
   "property": "C73",
   "status": "proved",
   "theorems": [
    "C73_same",
    "C73_partition",
    "C73_even",
    "C73_processes",
    "C73_statuses",
    "C73_together",
    "C73_worst",
    "C73_zero"
   ],
   "note": "Everything in the statement. That the runs see the same tree and the same answers of cargo metadata is an assumption, which is what the manual asks for; --iterate is left out because it depends on the output directory of each run."
  },
  {
   "property": "C74",
   "status": "proved",
   "theorems": [
    "C74_listed",
    "C74_kept",
    "C74_never_again",
    "C74_next",
    "C74_zero"
   ],
   "note": "A series of runs (RoundM), each finding the output directory as the one before has left it, whether that one has ended or was killed while testing, with other trees and arguments each time and changes to other files between them. C74_listed: whatever stands in the lists that the next run reads was there before, or cargo processes of one of the runs show it. C74_kept, C74_never_again: nothing recorded by a run that has ended is forgotten or tested again. C74_next: nothing else is left out. C74_zero: what status 0 of the last run says about all mutants of the packages. Conditions: names take one line each (C49), writes in the output directory do not fail, and runs are not killed while setting up the directory (C49_rotation_window_refuted)."
  },
  {
   "property": "C75",
   "status": "proved",
   "theorems": [
    "C75_names",
    "C75_early",
    "C75_goes_on",
    "C75_panic",
    "C75_must_panic",
    "C75_no_panic",
    "C75_logs",
    "C75_interrupted"
   ],
   "note": "Everything in the statement. That the root of the workspace is not a readable file and that the search ends are hypotheses (the search need not end: C29_ends_refuted). Writing to a closed standard output, which panics at any time, is in WholeM and is not counted here."
  },
  {
   "property": "C76",
   "status": "proved",
   "theorems": [
    "C76_search",
    "C76_search_iff",
    "C76_search_ends",
    "C76_lock",
    "C76_program",
    "C76_ends",
    "C76_at_once",
    "C76_listed",
    "C76_copy",
    "C76_copy_at_once"
   ],
   "note": "Everything in the statement. The flag is modelled by the number of checks that still find it clear. What is on disk besides the copied tree when an interrupt ends the program while it waits for a lock is in LockM; interrupts while testing are C59; that the copied part of a tree is deleted is C60."
  },
  {
   "property": "C77",
   "status": "partial",
   "theorems": [
    "C77_words",
    "C77_calendar",
    "C77_distinct",
    "C77_rounding",
    "C77_secs",
    "C77_day",
    "C77_whole",
    "C77_order",
    "C77_line_partial",
    "C77_message",
    "C77_colors"
   ],
   "note": "Everything in the statement for all durations; the last line of the display (C77_line_partial) as in C40, when logs are UTF-8. The text of humantime and of decimal formatting are modelled from the documented behaviour of these versions; where a time is drawn (while copying or testing) see PrintM."
  },
  {
   "property": "C78",
   "status": "proved",
   "theorems": [
    "C78_holder",
    "C78_one",
    "C78_exclusive",
    "C78_others",
    "C78_beginning",
    "C78_gets",
    "C78_released"
   ],
   "note": "Everything in the statement. One lock.json is modelled, as a file that stays the same file when its directory is renamed; directories and their renaming are in LockM (C18). The start time is any text. The lock of the system (flock) is taken to exclude other processes."
  },
  {
   "property": "C79",
   "status": "proved",
   "theorems": [
    "C79_opens",
    "C79_mutants",
    "C79_order",
    "C79_kept",
    "C79_lists",
    "C79_outcomes",
    "C79_none"
   ],
   "note": "A failing write of mutants.json itself, and debug.log after it has been opened, are not modelled. outcomes.json is read in full if no write fails, otherwise a beginning of it (C53_end_refuted)."
  },
  {
   "property": "C80",
   "status": "proved",
   "theorems": [
    "C80_so_far",
    "C80_every_run",
    "C80_end",
    "C80_lists",
    "C80_main",
    "C80_baseline"
   ],
   "note": "Colors, and each call of print! being one atomic write, are taken from PrintM; warnings and the display go to standard error and are not part of the text. That names are shown as in the lists is stated for runs without times and logs, and for names without line breaks."
  }
 ]
}