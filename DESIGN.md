# Formal model of cargo-mutants: design

This directory holds a Rocq (Coq 8.16.1) model of cargo-mutants, at the commit
checked out in `/repo`, and machine-checked proofs of the properties listed in
`properties.jsonl`.  The code is modelled function by function as total
Gallina functions, and where threads or processes interleave as transition
systems; nothing is executed from `/repo`.

## Layout

For each part `X` of the program (in `rocq/theories/`):

* `XM.v` - the model. Only definitions, each with a comment citing the file and
  lines modelled and any simplification.
* `XS.v` - an independent specification: what the property means, without the
  model's functions (data types such as `mutant` or `options` are shared).
* `XP.v` - lemmas and proofs.
* `XT.v` - the property theorems, followed by `Print Assumptions` and by
  `Example`s which compute a concrete non-trivial case.

`Text.v` holds the common string library (texts are lists of code points),
`Sort.v` insertion sort, `Utf8M.v` UTF-8 as the Rust library reads and writes it.

`tools/manifest.py` writes `MANIFEST.json` and the list of properties below from
the theorem files and `tools/status.json`. `seeded/LOG.jsonl` records wrong
programs against which the theorems were tried.

Conventions:

* A panic or error of the program is an explicit result (`None`, an error
  constructor), so that "does not panic" is a statement that can fail.
* What the program gets from outside (the disk, cargo, parsers of other crates,
  regular expressions) is a parameter of the function, so that theorems hold for
  every behaviour of it; conditions on it are hypotheses of the theorem.
* Suffix `_partial`: the theorem covers part of the property; its comment says
  what is missing. Suffix `_refuted`: the property is false of the model; the
  theorem gives the witness.

## Trusted base

* Coq 8.16.1's kernel, including `vm_compute` (used in `Example`s and in
  witnesses of refutations).
* Axioms: none. `Print Assumptions` is run after every theorem in the `*T.v`
  files and says "Closed under the global context" for each of them, without
  exception. Only the standard library is imported. (`Lia` and other standard
  tactics load `Coq.ssr.ssrunder`, whose module-type fields a checker of loaded
  libraries may list; no theorem depends on them.)
* That the model says what the code does. This was checked by reading; the
  comments give the lines. The lists of what is not modelled are below.
* That the specifications (`*S.v`) say what the English properties say.

### What is modelled

| source file | model | not modelled |
| --- | --- | --- |
| `build_dir.rs` | `LabM`, `CopyM`, `ManifestM`, `DiskM`, `TempM` | the random part of the names of temporary directories |
| `cargo.rs` | `CargoM`, `LaunchM`, `ProcessM`, `OutcomeM`, `NoticeM` | the words of messages; `INSTA_*` variables are constants |
| `config.rs` | `ConfigM` (from TOML values), `OptionsM`, `WholeM` (which file) | the TOML parser; tables as the name of a test tool |
| `console.rs` | `ConsoleM` (counters, estimate, panics), `ProgressM` (search, copy), `PrintM` (messages, drawn text, colors), `OutcomeM` (summary line), `TimesM` and `F32M` (times as text), `StdoutM` (standard output of a run) | tracing, how nutmeg draws |
| `copy_tree.rs`, `copy_tree/unix.rs` | `CopyM` | the `ignore` crate is an oracle; Windows; reflinks |
| `exit_code.rs` | `OutcomeM` | |
| `fnvalue.rs` | `FnValueM` | arguments of earlier path segments (not looked at by the code) |
| `glob.rs` | `GlobM` with the part of `globset` it uses | alternates `{a,b}`, Windows separators |
| `in_diff.rs` | `InDiffM` | the `patch` crate's parser is an oracle |
| `interrupt.rs` | `InterruptM` (while testing), `StopM` (while opening, searching, waiting and copying), `ProcessM` (interrupts may come at any step) | |
| `lab.rs` | `LabM` (interleaving), `LaunchM` (with commands, limits and polls), `OutcomeM` (phases), `NoticeM` (warnings and errors) | the jobserver but for its variables; the words of warnings |
| `list.rs`, `main.rs` | `MainM`, `WholeM` (all of `main`), `EndM` (with the processes), `ClapM` (`Args` and what clap does with them), `JsonM`, `PrintM` | the texts of `--help`, `--completions`, `--version` and of usage errors; arguments that are not UTF-8 |
| `manifest.rs` | `ManifestM` | TOML parser and printer are oracles |
| `mutant.rs` | `MutantM`, `SpanM`, `JsonM`, `PrintM` | diff body |
| `options.rs` | `OptionsM`, `CargoM`, `PrintM` (colors), `ClapM` (names of the enums) | |
| `outcome.rs` | `OutcomeM`, `JsonM`, `NoticeM` (the warning) | the digits of a number of seconds |
| `output.rs` | `OutputM`, `LockM`, `IterateM`, `LabM`, `JsonM`, `LogM`, `LogsM` (all logs of a run), `RoundM` (several runs), `OwnerM` (contents of lock.json), `FilesM` (all files of a run) | what is in `debug.log` |
| `package.rs`, `workspace.rs` | `PackageM`, `WholeM` (opening) | running `cargo metadata` and `locate-project` (their output is input) |
| `path.rs`, `source.rs` | `PathM` | Windows paths |
| `pretty.rs` | `PrettyM` | |
| `process.rs`, `process/unix.rs`, `scenario.rs` | `ProcessM`, `LogM` | Windows |
| `shard.rs`, `span.rs`, `tail_file.rs`, `timeouts.rs` | `ShardM` (several runs: `TogetherM`), `SpanM`, `TailM`, `TimeoutM` with `F64M` | messages about the limits |
| `visit.rs` | `VisitM` (one file), `WalkM` (files of a tree) | syn's parser is an oracle; syntax trees keep what the visitor looks at |

### Simplifications that matter

* Texts are lists of Unicode code points; files are texts except where bytes
  matter (`TailM`, `CopyM`). Numbers are unbounded except where overflow is an
  observable result (parsing of `--shard`).
* Lab machine: cargo changes no source files; symbolic links inside the tree are
  not followed; temporary directory names are distinct; writes may fail when the
  parameters `pa_faults` (output directory) and `pa_write_faults` (source files)
  say so; a crash is any reachable state. `--in-place` excludes `--jobs`
  (src/main.rs:207-214). For C61 (`DetS`) cargo's exit is in addition a function
  of the source files: no state in target directories, no effect of load or time.
* `f64` arithmetic is rational arithmetic, rounded to nearest even after each
  operation (`rnd64`, proved to be that); overflow to infinity within an
  operation and the sign of zero are left out. Infinite and NaN multipliers are
  modelled. Theorems about `rnd` hold for any rounding.
* In `WholeM` an interrupt or an error of the disk may end the program at any time
  with an error, and a closed standard output with a panic.
* The lexer of `LexS` is a specification: identifiers, numbers, strings and one-
  character punctuation as in the Rust reference, without raw identifiers, raw
  strings, byte and character literals and lifetimes.
* serde and toml are not part of /repo either: `ConfigM` is what the code derived by serde
  1.0.209 does with the values of toml 0.8.0 (an integer where a float is expected is
  converted, nothing else is; unknown and repeated fields are errors).
* clap is not part of /repo: `ClapM` is what `clap_builder` 4.5.27 and `clap_lex` 0.7.4
  (Cargo.lock) do with the attributes of `Args`, as far as these use it. Relied on: an option
  that may be given once and is given twice is an error; a variable counts as given
  when conflicts are looked for; the arguments of a group exclude each other; an
  option that waits for its value takes the next word unless that begins with a dash (a single
  dash is a value; `allow_hyphen_values` takes any word); help is answered at once, other
  errors in reading come before it only if they are before it in the line.
* The operating system's scheduling, signals and clocks are nondeterministic.

## Properties

<!-- properties -->
* **C01 A mutation edits only the spanned text** (partial). Plan: `Span::replace` char loop as a fold with state (line, col, output). Spec: positions defined by prefix (`pos_of prefix`); theorem: for text = a++b++c with start/end the positions of a and a++b (and no lone CR problem), output = a ++ repl ++ c. Refutation for a CR at the start column.
  Result: Proved for every text whose part before the edit on the edited line has no lone carriage return; for a lone CR the claim is refuted (edit lands one character late).
  Theorems: `C01_mutant_file_partial`, `C01_mutation_edits_only_the_span_partial`, `C01_lone_cr_refuted`.
* **C02 Extract and replace agree on the span** (partial). Plan: `Span::extract` fold with early break; theorem: extracts what replace removes, for every span; putting it back is the identity.
  Result: Proved for every text and every span whose ends are places of the text and whose start does not share its place with a carriage return, and for the parser's spans on lines without carriage returns. Refuted for a lone carriage return on the line: the replacement can go in twice.
  Theorems: `C02_extract_agrees_with_replace_partial`, `C02_every_span_partial`, `C02_lone_cr_refuted`.
* **C03 Shards partition the work** (proved). Plan: `Shard::select` as filter on enumerate. Spec: count of each index over all k; order by subsequence; sizes by division.
  Theorems: `C03_shards_partition`.
* **C04 Shard argument validation** (proved). Plan: `from_str` on texts, with Rust's usize parser (optional leading +, overflow). Theorem: accepted iff grammar; result k<n.
  Theorems: `C04_shard_argument`, `C04_accepted_shard_selects`.
* **C05 --in-diff selects exactly the overlapping mutants** (partial). Plan: `diff_filter` over parsed patches (the `patch` crate's parser is an oracle with what it is given specified). Theorem: equals the filter by the overlap relation, given sorted affected lines which C06 gives for well-formed patches.
  Result: For diffs whose hunks are well formed and in order; the diff parser is an oracle. With a diff without a/ b/ prefixes a file under a top directory 'b' is missed (refuted).
  Theorems: `C05_selects_touched_partial`, `C05_empty_diff`, `C05_subset`, `C05_repeated_file`, `C05_unprefixed_b_refuted`, `C05_parser_input`, `C05_visible_not_blank`, `C05_accepted`, `C05_unreadable`, `C05_refused`, `C05_white_space`.
* **C06 Which lines a diff changes** (partial). Plan: `affected_lines` loop; spec relation on hunk lines (added / adjacent to a removal); iff theorem for all hunks.
  Result: Exact for every hunk with a non-empty new range. Refuted for removal-only hunks without context (diff -U0), where the line number is off by one.
  Theorems: `C06_changed_lines_partial`, `C06_sorted`, `C06_zero_context_refuted`.
* **C07 A stale diff is rejected** (partial). Plan: `check_diff_new_text_matches` and `partial_new_file`; theorem: Ok implies every quoted new-side line equals the source line.
  Result: Exact except for blank lines quoted past the end of the file, which are accepted (refuted).
  Theorems: `C07_quoted_lines_match_partial`, `C07_stale_rejected_partial`, `C07_no_false_alarm`, `C07_blank_past_end_refuted`.
* **C08 The summary counts partition the tested mutants** (proved). Plan: `LabOutcome::add` folded over any list; counters equal counts by class.
  Theorems: `C08_run`, `C08_counts_partition`, `C08_printed`.
* **C09 Exit code meaning** (partial). Plan: `exit_code` table over folded outcomes; refutation of the documented meaning of 0 for signalled test processes.
  Result: The exit code table is proved. The documented meaning of 0 is refuted: a mutant whose tests die from a signal is neither caught nor missed and leaves exit code 0.
  Theorems: `C09_run`, `C09_exit_code`, `C09_exit_zero_partial`, `C09_exit_zero_refuted`.
* **C10 Each scenario gets exactly one verdict, from the phases that ran** (proved). Plan: `run_one_scenario` phase loop with cargo as oracle plus `summary`; iff theorems per verdict.
  Theorems: `C10_recorded`, `C10_verdict`, `C10_baseline`, `C10_verdict_check`, `C10_phases_in_order`, `C10_caught_missed`, `C10_flags_total`.
* **C11 The text lists agree with the recorded outcomes** (partial). Plan: Invariant of the concurrent lab machine: list files are images of recorded outcomes, at every reachable state.
  Result: If writes to mutants.out do not fail the lists are exact at every point of every schedule, except that the outcome being recorded by the thread holding the lock may not be written yet or lack its newline. If they may fail, the lists are still beginnings of the right lines in the right order, cut short at most once for each failed thread, and exact at the end of every run that ends without an error; a line may then join two names (refuted).
  Theorems: `C11_lists_partial`, `C11_lists_at_end_partial`, `C11_failing_writes`, `C11_exact_if_ok`, `C11_joined_lines_refuted`, `C11_exclusive`, `C11_one_list`.
* **C12 Every mutant is tested exactly once** (proved). Plan: Concurrent lab machine (shared queue, workers as program counters), invariant over all schedules; exactly-once at termination.
  Result: Every schedule, including worker errors; also progress, termination (a step bound) and absence of panics when all names exist.
  Theorems: `C12_all_tested`, `C12_accounted`, `C12_all_recorded`, `C12_no_double`, `C12_progress`, `C12_terminates`, `C12_no_panic`, `C12_in_order`, `C12_ends_when_empty`.
* **C13 Each mutant is tested alone and the tree is restored** (partial). Plan: File-tree state per build directory in the lab machine; invariant: tree = source with only the current mutant; restored on exit. CRLF refutation.
  Result: Proved for the text as the tool loads it (CRLF read as LF), and byte for byte for files without CRLF. Refuted byte for byte for a CRLF file tested in place, which is rewritten with LF. Failed writes of the source file itself are reported as errors and are outside the claim.
  Theorems: `C13_file`, `C13_cargo_sees_one_mutant`, `C13_back`, `C13_back_after_error`, `C13_back_at_end`, `C13_back_at_any_end`, `C13_exact_unix_partial`, `C13_crlf_refuted`.
* **C14 A failing baseline stops the run** (proved). Plan: Lab machine: baseline state gates the start of workers.
  Theorems: `C14_only_after_baseline`, `C14_failed_baseline`.
* **C15 Workers are isolated and bounded** (proved). Plan: Lab machine: injective worker->directory map; number of active scenarios bounded.
  Theorems: `C15_own_directory`, `C15_at_most_jobs`.
* **C16 No scenario overwrites another's log** (proved). Plan: `start_scenario` naming over any history; injectivity by decomposition from the right; NoDup of names.
  Result: Names as strings; file systems that fold case or limit name length are outside the model.
  Theorems: `C16_new_log_under_any_schedule`, `C16_logs_distinct`, `C16_each_has_one`, `C16_no_slash`, `C16_paths`, `C16_files_distinct`.
* **C17 Output directory rotation** (proved). Plan: Directory as finite map; `OutputDir::new` rotation; induction over the list of runs.
  Result: The rotated directory's lock.json is rewritten by the next run; all else is kept. Symbolic links and I/O errors are outside the model.
  Theorems: `C17_rotation`, `C17_last_two_runs`, `C17_refused`, `C17_fresh`, `C17_error_keeps`.
* **C18 Two runs never write the same output directory at once** (partial). Plan: Interleaving machine of any number of processes running the steps of `OutputDir::new`; refutation traces; partial: exclusion when the first process holds the lock in the directory the second one opens.
  Result: No two running processes hold the same directory, and later starters wait (C18_others_wait_partial). Every directory that ever was is at one place only: mutants.out, mutants.out.old or deleted, whatever the processes do (C18_places). Refuted in general: a second waiter, or a process in the gap between unlock and rename, moves away or deletes the directory of a running process.
  Theorems: `C18_own_directory`, `C18_others_wait_partial`, `C18_places`, `C18_alone`, `C18_second_waiter_refuted`, `C18_deleted_while_running_refuted`, `C18_two_process_race_refuted`.
* **C19 --iterate never re-tests a caught mutant and never forgets one** (partial). Plan: Run history machine: load, filter, test, write; induction over runs.
  Result: For series of runs without a crash in the rotation window (see C49) and for names that take one line (see C20).
  Theorems: `C19_exact_partial`, `C19_never_again_partial`, `C19_read`, `C19_read_none`, `C19_main`.
* **C20 Names written for --iterate read back exactly** (partial). Plan: `writeln!`/`lines` round trip on names with no newline and no final CR; refutations otherwise; names of modelled mutants satisfy it under stated token conditions.
  Result: Proved for names without a line break; refuted for a name with one.
  Theorems: `C20_round_trip_partial`, `C20_appended`, `C20_names_take_one_line`, `C20_newline_refuted`.
* **C21 File and name filters** (proved). Plan: `allows_source_file_path`, `allows_mutant` with matchers as oracles; `walk_package` filter placement.
  Result: File and name filters for every combination, and over a whole tree; the regular expression engine is an oracle.
  Theorems: `C21_files`, `C21_names`, `C21_tree`.
* **C22 Command line takes precedence over configuration** (proved). Plan: `Options::new` field by field, all fields.
  Result: All merging in Options::new; clap and serde parsing are outside the model.
  Theorems: `C22_single_values`, `C22_lists`, `C22_skip_calls`, `C22_test_packages`, `C22_accepted`, `C22_flags`, `C22_panic`, `C22_error`.
* **C23 Timeout selection** (partial). Plan: `Timeouts` over 64-bit floats modelled as rationals rounded after each operation; error bound and monotonicity for the real rounding, some bounds for any rounding.
  Result: With 64-bit floats (round to nearest even): the limit is exact but for a relative error of 2^-51, monotone, and panics are described. Negative, infinite and NaN multipliers panic and --check ignores the build multiplier (refuted).
  Theorems: `C23_explicit_test`, `C23_explicit_build`, `C23_no_build_limit`, `C23_baseline_limits`, `C23_rounding`, `C23_auto_test`, `C23_auto_test_any_rounding`, `C23_auto_test_monotone`, `C23_build_multiplier_partial`, `C23_skipped_baseline`, `C23_limits_exist_partial`, `C23_panic`, `C23_negative_multiplier_refuted`, `C23_check_ignores_build_multiplier_refuted`.
* **C24 A hung command is stopped and reported as a timeout** (partial). Plan: Process loop as a machine over an arbitrary environment trace (clock, exit, interrupt).
  Result: Proved for children that die on SIGTERM. Refuted for a child ignoring SIGTERM (the run blocks) and for exits seen only after the limit.
  Theorems: `C24_complete`, `C24_timeout_reported`, `C24_success_is_real`, `C24_failure_is_real`, `C24_hung_child_times_out_partial`, `C24_timeout_bound_partial`, `C24_no_limit_no_timeout`, `C24_sigterm_ignored_blocks`, `C24_sigterm_ignored_refuted`, `C24_late_poll_refuted`.
* **C25 Cargo command construction** (partial). Plan: `cargo_argv` as a function to lists; structural theorems.
  Result: All clauses for cargo_argv; refuted: no package selection when no --test-package name is known; cargo check gets --cargo-profile with nextest.
  Theorems: `C25_program`, `C25_selection_partial`, `C25_features`, `C25_profile_partial`, `C25_user_args_last`, `C25_test_args`, `C25_executes`, `C25_tool`, `C25_build_as_test`, `C25_selection_refuted`, `C25_check_profile_refuted`.
* **C26 User compiler flags survive** (partial). Plan: `encoded_rustflags`: join/split on 0x1f and space.
  Result: Proved for flags separated by spaces; refuted for other blanks in RUSTFLAGS and for flags from cargo's configuration files.
  Theorems: `C26_capped_partial`, `C26_off`, `C26_inherited`, `C26_insta`, `C26_blanks_refuted`, `C26_config_refuted`.
* **C27 Files outside the tree are never read for mutation** (proved). Plan: `ascent` over path components; equivalence with prefix depth.
  Theorems: `C27_skipped_iff_leaves_tree`, `C27_skipped_not_read`, `C27_loaded_is_inside`, `C27_ascent`.
* **C28 Manifest rewriting touches only escaping relative paths** (partial). Plan: TOML values as trees; `fix_*` functions; frame theorem and idempotence; `fix_manifest`/`fix_cargo_config` on files with the TOML parser and printer as oracles.
  Result: For [dependencies], [replace] and [patch] of the root manifest and paths of .cargo/config.toml; refuted for dev-, build-, target- and workspace dependencies, which are left relative. TOML parser and printer are assumed to round trip.
  Theorems: `C28_document_partial`, `C28_config_document`, `C28_idempotent`, `C28_manifest_file_partial`, `C28_config_file`, `C28_other_tables_refuted`.
* **C29 Every module file is found** (partial). Plan: `walk_package` BFS with fuel over files, parser as an oracle; reachability relation; breadth-first order; termination for finite graphs without cycles; refuted termination for cycles.
  Result: Visited files, order, termination, errors and listed files proved for every file system and parser; agreement with the compiler's choice of files proved for modules without path attributes, and false with them (C47). Visiting a file once is false (C29_once_refuted), a cycle never ends (C29_ends_refuted).
  Theorems: `C29_declared`, `C29_visits`, `C29_breadth_first`, `C29_compiler_partial`, `C29_terminates_partial`, `C29_errors`, `C29_files`, `C29_once_refuted`, `C29_ends_refuted`.
* **C30 Skipped code is never mutated** (partial). Plan: Abstract Rust syntax tree (items, fns, impls, traits, mods, exprs) and visitor as a recursive function; theorem by mutual induction.
  Result: Exact for every tree: the mutants are those at positions with no skipped node above, skipped nodes are inert in any context, every other body is covered. Refuted parts: attributes on items other than files, fns, impls, traits and modules are not looked at; nested cfg such as all(test, ..) and cfg_attr with a non-path condition are not recognised; unsafe impl and unsafe trait are not skipped; an inline module with an absolute path attribute is dropped.
  Theorems: `C30_identifiers`, `C30_mutants`, `C30_inside_skipped`, `C30_attributes`, `C30_cfg_partial`, `C30_every_body`, `C30_other_items_refuted`, `C30_nested_cfg_refuted`, `C30_cfg_attr_refuted`, `C30_unsafe_impl_refuted`, `C30_absolute_path_refuted`.
* **C31 A mutant names the function that contains it** (proved). Plan: Same visitor: contexts of mutants; stack balance.
  Result: For every syntax tree: no nesting check fails, the function of each mutant is the innermost one, names are those of everything around it, and mutants come in the order of nodes.
  Theorems: `C31_no_panic`, `C31_function`, `C31_order`.
* **C32 Operator replacements always differ** (proved). Plan: Operator tables; finite case analysis (complete).
  Result: The whole table, with compound assignments, and the same in any file.
  Theorems: `C32_same_kind`, `C32_distinct`, `C32_table`, `C32_compound`, `C32_in_file`, `C32_unary`.
* **C33 Match arms are removed only when a wildcard remains** (proved). Plan: Match arms model; theorem over all lists of arms.
  Result: Both directions, for every match at any position.
  Theorems: `C33_arms`, `C33_guards`, `C33_complete`.
* **C34 Replacement values fit the return type** (partial). Plan: Type AST, expression AST, a typing relation independent of the generator; soundness with refuted corner cases.
  Result: For every type built from the known types at any nesting (predicate fits). Refuted for one-element tuples, NonZero types, Box<str> and the like, &mut str and arrays of types that cannot be copied. Generic containers of unknown name, lifetimes and trait bounds are outside the typing relation.
  Theorems: `C34_values_have_type_partial`, `C34_no_return_type`, `C34_one_tuple_refuted`, `C34_nonzero_refuted`, `C34_box_str_refuted`, `C34_mut_str_refuted`, `C34_array_refuted`.
* **C35 Replacement values are complete and distinct** (proved). Plan: Counting and membership theorems on the same generator.
  Result: The error values given by the user are assumed different for the distinctness claim.
  Theorems: `C35_table`, `C35_return`, `C35_no_value`, `C35_distinct`, `C35_nonzero`, `C35_no_stray_comma`.
* **C36 Printed code keeps the tokens** (partial). Plan: Token trees; pretty printer; erasure of spaces.
  Result: For every token stream without invisible groups (source text contains none); refuted for streams with invisible groups, where two words can be joined and the debug assertion can fail. A lexer reads the printed text back as the tokens, so printing is injective, for identifiers, numbers and strings; refuted for numbers cut at a dot.
  Theorems: `C36_lexed_partial`, `C36_injective_partial`, `C36_split_number_refuted`, `C36_layout_partial`, `C36_spacing_partial`, `C36_tokens_recovered_partial`, `C36_distinct_partial`, `C36_no_trailing_space_partial`, `C36_invisible_group_refuted`, `C36_trailing_space_refuted`.
* **C37 The progress line shows the last output line** (proved). Plan: TailFile machine over bytes, arbitrary write and poll schedules, with the UTF-8 lossy decoder.
  Result: For writers that write whole lines, as the property says, whatever the bytes; a line that arrives in two writes is shown wrongly (C37_partial_writes_refuted).
  Theorems: `C37_last_line`, `C37_read`, `C37_decoding`, `C37_unique`, `C37_partial_writes_refuted`.
* **C38 The copy omits only what it should** (partial). Plan: Directory trees; `copy_tree` filter; theorem on which paths exist in the copy.
  Result: For every finite tree with distinct names in each directory, every option setting, with git's ignore rules, UTF-8 validity of names and readability as oracles; devices, sockets and pipes are not copied; a plain file with a version control name is also left out (C38_directories_refuted). Windows symlinks, interrupts and permission bits of directories are not modelled.
  Theorems: `C38_copy`, `C38_succeeds`, `C38_everything`, `C38_directories_refuted`.
* **C39 Globs without a slash match at any depth** (partial). Plan: `build_glob_set` rewriting over glob syntax with component matching.
  Result: Globs of literals, ?, *, ** and classes: proved to match as documented, and the set and error behaviour. Refuted for the empty glob and for negated classes (which match a slash). Braces and Windows separators are not modelled.
  Theorems: `C39_no_slash_partial`, `C39_slash_partial`, `C39_class_read`, `C39_set`, `C39_error`, `C39_empty_refuted`, `C39_class_refuted`.
* **C40 Progress counters are consistent** (partial). Plan: Console model driven by the lab machine; invariant over all schedules.
  Result: Counters, the scenarios displayed and their phases, the drawn numbers and the last line of text, for all schedules when logs are UTF-8; false otherwise (C40_log_refuted). For the search and the copy see C64.
  Theorems: `C40_counters_partial`, `C40_all_runs`, `C40_final_partial`, `C40_active_partial`, `C40_drawn_partial`, `C40_rounding`, `C40_estimate`, `C40_log_refuted`, `C40_line_partial`, `C40_colored`, `C40_text`.
* **C41 Package selection** (partial). Plan: Package selection functions.
  Result: Proved for members under the workspace root and names given once; refuted for repeated names and for members outside the root.
  Theorems: `C41_packages_partial`, `C41_workspace`, `C41_named_partial`, `C41_auto`, `C41_choice`, `C41_duplicates_refuted`, `C41_outside_refuted`.
* **C42 Which tests run for a mutant** (partial). Plan: Test selection functions; subset of baseline selection.
  Result: Selection of tests and baseline proved; the last clause holds by default and is refuted for --test-package and --test-workspace.
  Theorems: `C42_which_tests`, `C42_baseline`, `C42_default_partial`, `C42_baseline_refuted`.
* **C43 Errors are reported, not swallowed** (proved). Plan: `join_threads`, `check_interrupted` in the lab machine.
  Result: Internal errors and interrupts noticed while running cargo are nondeterministic steps of the model.
  Theorems: `C43_root_cause`, `C43_failed_worker`, `C43_failed_baseline`, `C43_interrupted_worker_stops`, `C43_error_has_cause`, `C43_interrupted_process`.
* **C44 Listing equals testing** (partial). Plan: `main` after option parsing as one function with the world as oracles; list and test run share the selection; the run is the lab machine of C12.
  Result: Proved: the listing and the test run with the same arguments agree, the order of the filters, the shards of one selection divide it, and a run that ends normally records exactly the listed names. Refuted: --iterate with --shard does not keep to the same division. The JSON listing is in C53 and colors in C56.
  Theorems: `C44_same`, `C44_compared`, `C44_lines`, `C44_chosen`, `C44_shards_partial`, `C44_bad_diff`, `C44_files`, `C44_end_to_end`, `C44_iterate_shard_refuted`.
* **C45 Mutant names identify mutants** (partial). Plan: `Mutant::name(true)` injectivity.
  Result: Proved for mutants in files whose tree-relative path has no colon and whose line and column are printed; with a colon in a path two different mutants can share a name (refuted).
  Theorems: `C45_name_identifies_partial`, `C45_description_identifies`, `C45_colon_in_path_refuted`.
* **C46 Logged command lines are readable back** (proved). Plan: `quote_argv` decode function and round trip.
  Result: For any argument vector whose first element (the program) is not empty; a leading empty argument leaves no trace (C46_empty_first_refuted).
  Theorems: `C46_quoted_argv_decodes`, `C46_quoted_argv_one_line`, `C46_quoting`, `C46_words`, `C46_empty_first_refuted`.
* **C47 Module path resolution stays in the module's directory tree** (partial). Plan: `find_mod_source` candidates.
  Result: Same places as the compiler, name.rs first, proved except for two kinds of path attributes, which are refuted: an inline module with a path attribute in a file like foo.rs, and modules below a file that was itself found through a path attribute. Absolute paths are refused.
  Theorems: `C47_as_compiler_partial`, `C47_next_place`, `C47_attribute_place`, `C47_relative`, `C47_inline_attribute_refuted`, `C47_below_attribute_refuted`.
* **C48 Generated file names are safe** (proved). Plan: `clean_filename` characters.
  Theorems: `C48_clean_names`, `C48_clean_keeps_ordinary`.
* **C49 Crash during a run leaves usable results** (partial). Plan: Lab machine prefixes (every reachable state is a possible crash point).
  Result: Proved for every crash point of every schedule once the old names are copied (no write errors, names without newline). Refuted for a crash between rotation and that copy: the earlier names are then only in mutants.out.old and are forgotten.
  Theorems: `C49_lists_at_crash_partial`, `C49_lists_at_half_line`, `C49_setup`, `C49_setup_end`, `C49_rotation_window_refuted`, `C49_any_crash_point_partial`.
* **C50 Line ending normalisation** (proved). Plan: CRLF normalisation function.
  Result: One pass of replacement leaves \r\n in a file with \r\r\n (refuted for the idempotence reading).
  Theorems: `C50_crlf_normalised`, `C50_crlf_file`, `C50_restore_exact_iff`, `C50_one_pass_refuted`.
* **C51 Start directory** (partial). Plan: `start_dir`, `canonical` of main.rs with the disk as an oracle satisfying stated laws.
  Result: Proved for every path with at least two components; refuted for a bare file name (--manifest-path Cargo.toml is refused).
  Theorems: `C51_manifest_partial`, `C51_dir`, `C51_bare_name_refuted`.
* **C52 Header of a mutant's diff** (proved). Plan: `Mutant::diff` header labels as texts; the body is computed by the `similar` crate.
  Result: Labels handed to the diff library; the body of the diff is computed by the similar crate and not modelled.
  Theorems: `C52_diff_header`.
* **C53 Result files describe the results** (partial). Plan: serde_json's pretty printer and string escapes, the derived and written Serialize instances as JSON values; an independent reader of RFC 8259; round trip by induction; the data of each object stated field by field.
  Result: Proved for all texts and lists: the files are read back by an independent JSON reader and describe the mutants, files and outcomes. At the end of a run: exact if writes do not fail; if they may, the lists are exact and outcomes.json is a beginning of the right text (C53_end_cut), of which the rest can be missing without an error (C53_end_refuted). The digits of a duration are an oracle that prints JSON numbers.
  Theorems: `C53_round_trip`, `C53_mutants`, `C53_same`, `C53_list`, `C53_files`, `C53_order`, `C53_outcomes`, `C53_end_partial`, `C53_end_cut`, `C53_end_refuted`.
* **C54 Errors writing result files are reported** (partial). Plan: std's BufWriter over a disk that may fail at any write, with any sequence of chunks.
  Result: Refuted: an error while writing the last bytes (up to the size of the buffer) is not reported, because the BufWriter is dropped without a flush. Proved: what is missing is at the end and never longer than the buffer; without disk errors the file is whole; the file is always a beginning of the text.
  Theorems: `C54_written_partial`, `C54_reported_refuted`.
* **C55 A scenario's log tells what was run** (partial). Plan: A transition system of one scenario's log with file handles (append mode, position), writes in parts, errors, and commands writing at any time; seen as a trace of writes.
  Result: Proved for every interleaving: nothing is lost, the tool's part and the results are exact; with commands that write only while they run the whole log is exact and is read back by cutting it at the marks. Refuted in general: a process that outlives its command can write into the middle of a message. The tool panics only over a mutant without a name (C55_panic); whole programs have none (C75_names).
  Theorems: `C55_nothing_lost`, `C55_entries`, `C55_results`, `C55_whole_partial`, `C55_existing`, `C55_words`, `C55_readable`, `C55_diff`, `C55_error`, `C55_panic`, `C55_mixed_refuted`.
* **C56 What is printed for an outcome** (partial). Plan: Messages and styles as text functions; a reader that drops escape codes as specification.
  Result: The message for every outcome word for word, names and listings with and without colors, and what is printed over a run without errors. Over a run the logs to be printed must be UTF-8 (else the display panics, C40_log_refuted). Durations as text are an argument here; C77 fills it in.
  Theorems: `C56_name`, `C56_list`, `C56_message`, `C56_colors`, `C56_run_partial`, `C56_always`, `C56_panics`.
* **C57 When colors are used** (partial). Plan: The decision as a function of environment, option and terminals.
  Result: Proved for listings, messages and the trace. Refuted for the progress display on stderr.
  Theorems: `C57_colors`, `C57_stderr_refuted`.
* **C58 Mutants are written only in the build directory** (partial). Plan: A disk with links and path resolution; the copy of C38 inside it.
  Result: Proved for build directories without symbolic links, in particular copies of trees without links; that one existing file is changed and that the disk is restored hold in any case. Refuted with a link to an absolute path.
  Theorems: `C58_one_file`, `C58_inside_partial`, `C58_copy_partial`, `C58_restored`, `C58_link_refuted`, `C58_shared_refuted`.
* **C59 Ctrl-C stops the run without false verdicts** (proved). Plan: a flag beside the lab machine; when it is set no thread passes the check after a cargo command.
  Result: Over the machine of C12 with the flag beside it, set at any time. The check while copying a tree is left out, so a copy may still end well after the interrupt. The first copy of the tree, the discovery of mutants and waiting for the lock come before the machine begins.
  Theorems: `C59_still_a_run`, `C59_no_false_verdict`, `C59_error`, `C59_baseline_error`, `C59_one_more`, `C59_one_more_baseline`, `C59_soon`, `C59_soon_baseline`, `C59_progress`, `C59_restored`.
* **C60 Temporary build directories** (proved). Plan: owners of build directories beside the lab machine; a directory with a TempDir goes when its owner does.
  Result: Over the machine of C12. A BuildDir's TempDir deletes its directory when the owner (the main thread until a worker takes it, then that worker) ends. Copying is one step, so a copy that fails leaves nothing; deleting is assumed to succeed, because the tempfile crate ignores errors. A process that is killed leaves its directories: outside the model.
  Theorems: `C60_nothing_left`, `C60_in_use`, `C60_deleted`, `C60_leaked`, `C60_prompt`, `C60_bounded`, `C60_every_run`.
* **C61 Results do not depend on the schedule** (partial). Plan: Restrict the lab machine to runs in which cargo's exit is a function of the source files; compare each recorded outcome with a direct evaluation on a fresh tree.
  Result: Proved when results do not depend on line ends (CRLF or LF): every recorded outcome is that of the mutant alone, and two complete runs agree. Refuted if they do: a mutated CRLF file is put back with LF, and later mutants of other files in the same build directory are tested with it.
  Theorems: `C61_as_alone`, `C61_same_results`, `C61_line_ends_refuted`.
* **C62 No mutant is generated twice** (partial). Plan: The places of a tree listed independently of the visitor; printed values told apart by a lexer.
  Result: For one file: if the spans of its nodes are different and the values print differently; the latter proved for types made of identifiers, numbers and strings. For a tree: if no file is visited twice (C29_once_refuted says when it is). Refuted for two configured errors that are different tokens but print alike.
  Theorems: `C62_tokens_partial`, `C62_printed_distinct_partial`, `C62_file`, `C62_values_partial`, `C62_tree_partial`, `C62_errors_refuted`.
* **C63 The exit status says how the program ended** (proved). Plan: Compose the models of all stages of main into one relation from worlds and command lines to endings.
  Result: Disk, cargo, clap and the parsers of other crates are parameters. An interrupt or a failing disk may end the program at any time with an error. Discovery must come to an end (C29_ends_refuted).
  Theorems: `C63_status`, `C63_scope`, `C63_listed`, `C63_information`, `C63_zero`, `C63_unsettled`, `C63_options`, `C63_early_panic`, `C63_discovery`, `C63_search_fails`, `C63_lab_status`.
* **C64 The counts shown while the tree is searched and copied are right** (partial). Plan: Collect the calls that the search makes to the display; sum them and compare with the result of the search.
  Result: Refuted: mutants in files that the globs leave out are counted as found.
  Theorems: `C64_shown`, `C64_total`, `C64_exact`, `C64_excluded_refuted`, `C64_line`, `C64_copied`, `C64_copied_all`, `C64_mb`, `C64_drawn`.
* **C65 Every cargo process of a run is the right one, and verdicts are what those processes did** (partial). Plan: Transition system of the lab joined with the models of commands, limits and polls; invariants tie the log of processes to the outcomes.
  Result: For all schedules: commands, environment, limits, files, order and verdicts. Missing: RUSTFLAGS with white space other than blanks (C26), and multipliers that are not finite numbers from 0 on panic after the baseline (refuted).
  Theorems: `C65_lab`, `C65_command`, `C65_environment`, `C65_flags_partial`, `C65_limits`, `C65_given_limits`, `C65_auto_limit`, `C65_progress`, `C65_terminates`, `C65_once`, `C65_parts`, `C65_verdict`, `C65_no_panic_partial`, `C65_panic_refuted`.
* **C66 A terminal shows messages and progress in the right colors and nothing leaks** (proved). Plan: A terminal as a specification (screen); each printed text is a concatenation of pieces that leave it in its usual state.
  Result: For all messages and lines of the display; the words for durations and the console crate's choice of codes are as modelled in PrintM.
  Theorems: `C66_name`, `C66_message`, `C66_scenario`, `C66_copy`, `C66_line`, `C66_scenario_named`.
* **C67 The exit status of a whole run is a true account of its cargo processes** (proved). Plan: Join the model of the program (WholeM) with that of the cargo processes (LaunchM): the lab is given the options and mutants of main, and the package of each mutant is the one it was found in; then C63 and C65 combine.
  Result: For all runs and schedules, also when a mutant is in the list twice. What the lab is given is that of main; cargo itself is arbitrary.
  Theorems: `C67_ends`, `C67_package`, `C67_context`, `C67_processes`, `C67_status`, `C67_distinct`, `C67_zero`.
* **C68 The command line is understood as the options say** (proved). Plan: A table of the options and an inductive relation of how words are read as uses, independent of the parser; the parser is proved sound and complete for it, and the fields are read off the uses.
  Result: All words and variables, from the name of the program on (C68_program). Left out: arguments that are not UTF-8, texts of help and errors; clap's own code is trusted to be as in ClapM.
  Theorems: `C68_command`, `C68_information`, `C68_help`, `C68_usage`, `C68_one`, `C68_console`, `C68_program`, `C68_order`, `C68_variables`, `C68_exact`, `C68_line`, `C68_consistent`, `C68_processes`, `C68_status`, `C68_zero`.
* **C69 The configuration file is taken as it is written or not at all** (proved). Plan: Model the derived deserialiser as a loop over entries; specification by what each entry means, field by field; then combine with the precedence of C22 and the opening of the workspace of C63.
  Result: All files that are TOML, and what the options of a run are because of them. The TOML parser is an oracle; so is what the toml crate makes of a table as the name of a test tool.
  Theorems: `C69_settings`, `C69_accepted`, `C69_order`, `C69_integers`, `C69_in_force`, `C69_no_file`, `C69_wrong`.
* **C70 With --in-diff what is tested is what was changed, however the diff is written** (partial). Plan: A script of kept, removed and added lines says how a file came about; hunks_of says which hunks a diff of it may have, unified computes those for a width. The loop of affected_lines over all hunks is shown to be the same as over the whole script, so where the cuts are makes no difference; then C05's proof for the selection, and C63 and C67 for whole runs.
  Result: C70_selects_edited: a diff that was written for a script of changes is accepted and selects exactly the mutants with a changed line; C70_any_context: two such diffs of the same changes select the same; C70_widths and C70_changed_lines: the hunks for any width of context from 1 are such hunks; C70_scope and C70_zero: the same of whole runs and their cargo processes. Partial: false for width 0 (C70_no_context_refuted, as C06_zero_context_refuted). That the patch crate reads the text of the diff as these hunks is not shown: it is an oracle.
  Theorems: `C70_selects_edited`, `C70_any_context`, `C70_widths`, `C70_changed_lines`, `C70_no_context_refuted`, `C70_scope`, `C70_zero`.
* **C71 The log of every outcome is the record of its cargo processes** (proved). Plan: Run the systems of LaunchM and LogM together: threads go on when their logs have come to where they should be, and leftover processes write at any time. An invariant ties every recorded outcome and every thread to a log of its own; then C55 says what is in it and C65 which processes the outcome was made from. Every run of LaunchM is shown to be one of these.
  Result: Everything in the statement. The last part for output is under the condition of the statement (tidy); without it see C55_mixed_refuted. Before the mutation is applied the log is a beginning of its heading (C71_not_ahead). The paths in outcomes.json are functions of the outcome in JsonM; C71_paths shows that there is such a function when no mutant is listed twice. start_scenario is one step (it holds the lock).
  Theorems: `C71_logs`, `C71_one_each`, `C71_so_far`, `C71_any_log`, `C71_every_run`, `C71_not_ahead`, `C71_json`, `C71_paths`.
* **C72 A run warns of what its exit status does not say, and of nothing else** (proved). Plan: Collect the reports of every step of LaunchM's runs; show by invariants that those about processes are a function of the processes, those about outcomes of the outcomes, and that the step that ends the run has the state that its reports describe; turn outcomes into processes by C65_parts. For the exit status go through the account of C67.
  Result: Everything in the statement. A report is made in the step of what it is about, so the theorems say nothing about the order between threads. That the error of a thread is an interrupt is an oracle. The words are not modelled. The warnings about timeouts are in C23; those of discovery and options are in C44, C58 and others.
  Theorems: `C72_processes`, `C72_in_range`, `C72_unclassified`, `C72_why`, `C72_baseline`, `C72_generated`, `C72_viable`, `C72_workers`, `C72_error`, `C72_so_far`, `C72_every_run`, `C72_shown`, `C72_zero`, `C72_program`.
* **C73 The runs of all shards are together one run of all mutants** (proved). Plan: Discovery does not depend on the fuel of the walk or the output directory, so every run selects from the same list (C03 for the parts). The account of C67 of each run gives its tests; put them together and compare the statuses.
  Result: Everything in the statement. That the runs see the same tree and the same answers of cargo metadata is an assumption, which is what the manual asks for; --iterate is left out because it depends on the output directory of each run.
  Theorems: `C73_same`, `C73_partition`, `C73_even`, `C73_processes`, `C73_statuses`, `C73_together`, `C73_worst`, `C73_zero`.
* **C74 Repeated runs with --iterate lose nothing and repeat nothing** (proved). Plan: RoundM, RoundS, RoundP, RoundT: one run from the directory that it finds to the one that it leaves (after, set_up, rreachable), then induction over the series.
  Result: A series of runs (RoundM), each finding the output directory as the one before has left it, whether that one has ended or was killed while testing, with other trees and arguments each time and changes to other files between them. C74_listed: whatever stands in the lists that the next run reads was there before, or cargo processes of one of the runs show it. C74_kept, C74_never_again: nothing recorded by a run that has ended is forgotten or tested again. C74_next: nothing else is left out. C74_zero: what status 0 of the last run says about all mutants of the packages. Conditions: names take one line each (C49), writes in the output directory do not fail, and runs are not killed while setting up the directory (C49_rotation_window_refuted).
  Theorems: `C74_listed`, `C74_kept`, `C74_never_again`, `C74_next`, `C74_zero`.
* **C75 The program goes on to its end and panics only over paths, options and time limits** (proved). Plan: Offered mutants of function values are inside their function, so they have names; this removes the panics of the filters, of --iterate and of the listings. The measure of LabM and its progress theorem then apply to whole programs, and the limits are the only panic that LaunchM adds.
  Result: Everything in the statement. That the root of the workspace is not a readable file and that the search ends are hypotheses (the search need not end: C29_ends_refuted). Writing to a closed standard output, which panics at any time, is in WholeM and is not counted here.
  Theorems: `C75_names`, `C75_early`, `C75_goes_on`, `C75_panic`, `C75_must_panic`, `C75_no_panic`, `C75_logs`, `C75_interrupted`.
* **C76 An interrupt soon ends searching, waiting and copying, and leaves no part result** (proved). Plan: StopM adds the checks of src/interrupt.rs to WalkM, WholeM, MainM and CopyM; the search without interrupts is proved to be that of WalkM, and a search with one is the same or cut at a file; then the program up to the tests, the lock and the copy.
  Result: Everything in the statement. The flag is modelled by the number of checks that still find it clear. What is on disk besides the copied tree when an interrupt ends the program while it waits for a lock is in LockM; interrupts while testing are C59; that the copied part of a tree is deleted is C60.
  Theorems: `C76_search`, `C76_search_iff`, `C76_search_ends`, `C76_lock`, `C76_program`, `C76_ends`, `C76_at_once`, `C76_listed`, `C76_copy`, `C76_copy_at_once`.
* **C77 The times shown are the times that were measured** (partial). Plan: TimesM: humantime's words and Rust's one decimal of a 32-bit float; readers for both as specification; errors of the three roundings added up.
  Result: Everything in the statement for all durations; the last line of the display (C77_line_partial) as in C40, when logs are UTF-8. The text of humantime and of decimal formatting are modelled from the documented behaviour of these versions; where a time is drawn (while copying or testing) see PrintM.
  Theorems: `C77_words`, `C77_calendar`, `C77_distinct`, `C77_rounding`, `C77_secs`, `C77_day`, `C77_whole`, `C77_order`, `C77_line_partial`, `C77_message`, `C77_colors`.
* **C78 lock.json says which process has the output directory** (proved). Plan: OwnerM: processes that open, lock, empty and write one file, with short writes and crashes; invariant over all reachable states; the JSON reader of C53 as specification.
  Result: Everything in the statement. One lock.json is modelled, as a file that stays the same file when its directory is renamed; directories and their renaming are in LockM (C18). The start time is any text. The lock of the system (flock) is taken to exclude other processes.
  Theorems: `C78_holder`, `C78_one`, `C78_exclusive`, `C78_others`, `C78_beginning`, `C78_gets`, `C78_released`.
* **C79 The files of a whole run agree with each other and with the exit status** (proved). Plan: FilesM: lab_open on the directory that MainM has set up, then the lab of LabM/LaunchM; invariant that the lab changes no other file; C11, C12, C14, C09 and C53 joined for the run from the command line on, without their hypotheses about names; C79_order: the order in mutants.json is the order in which workers take them.
  Result: A failing write of mutants.json itself, and debug.log after it has been opened, are not modelled. outcomes.json is read in full if no write fails, otherwise a beginning of it (C53_end_refuted).
  Theorems: `C79_opens`, `C79_mutants`, `C79_order`, `C79_kept`, `C79_lists`, `C79_outcomes`, `C79_none`.
* **C80 What a whole run prints to standard output** (proved). Plan: StdoutM: the text grows with the steps of ConsoleM; invariant that it is the first line, the messages of the finished scenarios and the summary; then C40_final, C56_run, C08_counts_partition and C11_exact_if_ok; C80_baseline from C80_end and the exit status of C79.
  Result: Colors, and each call of print! being one atomic write, are taken from PrintM; warnings and the display go to standard error and are not part of the text. That names are shown as in the lists is stated for runs without times and logs, and for names without line breaks.
  Theorems: `C80_so_far`, `C80_every_run`, `C80_end`, `C80_lists`, `C80_main`, `C80_baseline`.
<!-- end of properties -->

## Findings

Where a property is false of the model, the theorem named here has the witness.
Findings without a theorem were seen while modelling.

Editing and reading source:

1. A carriage return that is not part of CRLF is whitespace to Rust and counts as
   a column for the parser, but `Span::replace` skips it: the edit lands one
   character late (`C01_lone_cr_refuted`). It can also put the replacement in
   twice so that putting the original back does not restore the file
   (`C02_lone_cr_refuted`, e.g. `\ra+\rb`).
2. CRLF is replaced in one pass, so `\r\r\n` leaves a CRLF
   (`C50_one_pass_refuted`); a CRLF file tested with `--in-place` is left with LF
   line ends (`C13_crlf_refuted`, `C50_restore_exact_iff`). In a copied tree the
   file also stays with LF, so if tests depend on line ends (multi-line string
   literals) a later mutant of another file is tested with changed code and may get
   another verdict (`C61_line_ends_refuted`).
3. A failed write while applying or reverting a mutant in place leaves a partly
   written source file (excluded by `pa_write_faults` in C13).
4. `BuildDir::overwrite_file` follows symbolic links although its comment says it
   does not. If a source file is a link to an absolute path, mutants are written to
   the source tree although the build directory is a copy (`C58_link_refuted`), and
   jobs running at the same time share the file, so that one tests the mutant of
   another (`C58_shared_refuted`).

Verdicts and exit code:

5. A mutant whose tests are killed by a signal is neither caught nor missed; the
   exit code is 0 (`C09_exit_zero_refuted`).
6. A command that ignores SIGTERM blocks the run for ever
   (`C24_sigterm_ignored_refuted`); a command that ended in time but is polled
   late is reported as a timeout (`C24_late_poll_refuted`).
7. A negative, infinite or NaN timeout multiplier panics (`C23_negative_multiplier_refuted`);
   `--check` ignores the build timeout multiplier
   (`C23_check_ignores_build_multiplier_refuted`).
8. The display's count of timeouts includes a baseline that timed out; the
   reported total does not.
9. The display panics when the log of a failed baseline (or any log with
   `--all-logs`) is not UTF-8 (`C40_log_refuted`).

Diffs:

10. In a hunk that only removes lines and has no context (`diff -U0`) the lines
    marked are off by one (`C06_zero_context_refuted`,
    `C70_no_context_refuted` for a diff made from an edit).
11. With a diff made without prefixes, files under a top directory `b` are missed
    (`C05_unprefixed_b_refuted`).
12. A blank line quoted past the end of the file is accepted
    (`C07_blank_past_end_refuted`). The staleness check covers only files that
    still have mutants after `--iterate` has removed some.
13. `--list-files` ignores `--in-diff` and `--shard`.

Output directory and `--iterate`:

14. The lock is taken on a file inside the directory that is then renamed: a
    second waiter, or a process that starts between unlock and rename, moves away
    or deletes the directory of a running process
    (`C18_second_waiter_refuted`, `C18_deleted_while_running_refuted`,
    `C18_two_process_race_refuted`). The `lock.json` in the rotated directory is
    overwritten by the next run.
15. A crash between rotation and the writing of `previously_caught.txt` forgets
    all earlier results (`C49_rotation_window_refuted`).
16. Names with a line break do not read back (`C20_newline_refuted`).
17. If writing the newline after a name fails, the next name joins its line
    (`C11_joined_lines_refuted`).
18. `--iterate` with `--shard` does not keep to one division: mutants may be
    tested by no shard (`C44_iterate_shard_refuted`).
19. A colon in a path makes names ambiguous (`C45_colon_in_path_refuted`).
20. A leading empty argument leaves no trace in the logged command
    (`C46_empty_first_refuted`).
21. The last line shown is wrong when lines arrive in parts
    (`C37_partial_writes_refuted`; documented in the code).

Cargo commands and packages:

22. If no `--test-package` name is known, no package is selected at all
    (`C25_selection_refuted`). `-p` names are not split at commas; `-p` takes
    precedence over `--workspace`.
23. With nextest and a profile, `cargo check` is given `--cargo-profile`, which it
    does not know (`C25_check_profile_refuted`).
24. Blanks other than spaces in RUSTFLAGS are kept in flags (`C26_blanks_refuted`);
    flags from cargo's configuration files are lost with lint capping
    (`C26_config_refuted`).
25. `-p a -p a` walks the package twice (`C41_duplicates_refuted`); members outside
    the workspace root are dropped or an error (`C41_outside_refuted`).
26. With `--test-package` or `--test-workspace` a mutant may be tested only by tests
    that the baseline did not run (`C42_baseline_refuted`).
27. `--manifest-path Cargo.toml` is refused (`C51_bare_name_refuted`).
28. Relative paths in `dev-dependencies`, `build-dependencies`, `target.*` and
    `workspace.dependencies` are left relative in the copy
    (`C28_other_tables_refuted`), as are those in manifests of members. A path
    that leaves the tree and comes back points at the original tree. A NaN in the
    manifest makes the file be rewritten although nothing changed.

Discovery:

29. A file that names itself as a module is visited for ever
    (`C29_ends_refuted`); a module declared by two targets is visited twice and
    its mutants are listed twice (`C29_once_refuted`).
30. `#[path]` on an inline module in a file that is not `mod.rs`, and modules below
    a file found through `#[path]`, are looked for in the wrong place
    (`C47_inline_attribute_refuted`, `C47_below_attribute_refuted`). `..` in path
    attributes is not resolved, so a file may be visited under two names.
31. Attributes on const, static, struct, statements, arms and blocks are not looked
    at (`C30_other_items_refuted`); `cfg(all(test, ..))` and `cfg_attr` with a
    condition that is not a path are not recognised (`C30_nested_cfg_refuted`,
    `C30_cfg_attr_refuted`); `unsafe impl` and `unsafe trait` are not skipped
    (`C30_unsafe_impl_refuted`); an inline module with an absolute path attribute
    is dropped (`C30_absolute_path_refuted`). A method call on the skip list also
    skips its receiver. Array lengths in signatures get operator mutants.
32. Replacement values that are not of the type: `(x)` for one-element tuples, `1`
    for NonZero types, values for `Box<str>`, `Arc<str>`, `Box<[T]>`, `&mut str`,
    `[String; 2]` (`C34_*_refuted`).
33. The pretty printer joins words at invisible groups and can leave a trailing
    space (`C36_invisible_group_refuted`, `C36_trailing_space_refuted`). Two streams
    of tokens can be printed alike, `1.5` and `1` `.` `5`
    (`C36_split_number_refuted`), so two configured errors can give one mutant twice
    (`C62_errors_refuted`).
34. The empty glob matches every file (`C39_empty_refuted`); a negated class matches
    a slash (`C39_class_refuted`).
35. Plain files named like version control directories, and `.git` files, are left
    out of the copy (`C38_directories_refuted`); relative symbolic links are copied
    as they are and may point elsewhere.
36. The documentation's table for `<` and `>` leaves out `<=` and `>=`.
37. `outcomes.json` and `mutants.json` are written through a `BufWriter` that is
    dropped without a flush: an error writing the last 8192 bytes is not reported
    (`C54_reported_refuted`); the run then ends with its usual status (`C53_end_refuted`).
38. The tool's messages in a log are written in three pieces (or more): a process
    left behind by a command can write between them (`C55_mixed_refuted`).
39. The progress display on stderr has no colors when only stdout is redirected,
    against book/src/output.md:15 (`C57_stderr_refuted`): it is made with `style`,
    which looks at stdout, never with `for_stderr`.
40. Exit status 1 is documented as a usage error but is also the status of every
    other error, for instance an interrupt or a full disk in the middle of a run
    (`C63_status`); 70 and 101 (a panic) are not documented. A run that finds no
    mutants exits with 0 without testing the baseline.
41. "mutants found", shown while the tree is searched, also counts mutants in files
    that `--file`, `--exclude` or the configuration leaves out
    (`C64_excluded_refuted`): src/visit.rs:103-105 counts before the globs are
    looked at.
42. A multiplier of limits that is infinite, NaN or negative is accepted by clap and
    by the configuration; the program copies the tree, builds and tests the baseline
    and only then panics (`C65_panic_refuted`; the panic itself is finding 7).
43. `--gitignore=…` and `--no-copy-target` cannot be given together (`C68_case_copy`):
    src/main.rs:204 and 274 put both in a group so that `--in-place` can exclude them, and the
    arguments of a clap group exclude each other unless it says `multiple`. The second has been
    without effect for some time and is kept only so that old command lines work.
44. With `CARGO_MUTANTS_JOBS` in the environment `--in-place` is a usage error
    (`C68_case_variable`), and there is no option that takes the variable back.
