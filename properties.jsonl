{"id": "C01", "title": "A mutation edits only the spanned text", "statement": "Testing a mutant writes a source file that equals the original text with exactly the characters between the reported start and end positions replaced by the replacement text followed by the change marker; every character before the start and from the end onward is preserved, in order.", "quantifier": "every source text, every start/end position pair that the parser can report for it, every replacement text", "why_tests_cant": "Texts, positions and newline conventions are unbounded; a handful of literals cannot exclude an off-by-one at some line length, at end of file or after a carriage return.", "anchors": ["src/span.rs: Span::replace", "src/span.rs: LineColumn", "src/mutant.rs: Mutant::mutated_code"]}
{"id": "C02", "title": "Extract and replace agree on the span", "statement": "The text shown as the original code of a mutant is exactly the text that the edit removes; putting that text back at the same span reproduces the original file.", "quantifier": "every source text and every valid span", "why_tests_cant": "Two separately written character scanners must agree on every input.", "anchors": ["src/span.rs: Span::extract", "src/span.rs: Span::replace", "src/mutant.rs: Mutant::original_text"]}
{"id": "C03", "title": "Shards partition the work", "statement": "For every n >= 1, running `--shard 0/n` .. `--shard (n-1)/n` tests every mutant of the unsharded run exactly once, keeps their order inside a shard, and the sizes of any two shards differ by at most one.", "quantifier": "every list of mutants and every shard count n", "why_tests_cant": "All list lengths and all n; tests exercise a few.", "anchors": ["src/shard.rs: Shard::select", "src/main.rs: main"]}
{"id": "C04", "title": "Shard argument validation", "statement": "The shard argument is accepted exactly when it is two decimal machine integers separated by the first slash with k < n; everything else is rejected with an error and no accepted value can select from zero shards or divide by zero.", "quantifier": "every argument string", "why_tests_cant": "The input space of strings is infinite.", "anchors": ["src/shard.rs: Shard::from_str"]}
{"id": "C05", "title": "--in-diff selects exactly the overlapping mutants", "statement": "When the diff is accepted, the selected mutants are exactly those whose span of lines contains a line changed by the diff in that file, in the original order; nothing is invented, duplicated or reordered.", "quantifier": "every mutant list and every well-formed multi-file diff", "why_tests_cant": "The selection uses a binary search over a list whose sortedness depends on the shape of every hunk.", "anchors": ["src/in_diff.rs: diff_filter", "src/in_diff.rs: affected_lines", "src/in_diff.rs: strip_patch_path"]}
{"id": "C06", "title": "Which lines a diff changes", "statement": "A line of the new file counts as changed exactly when it was added, or is the last surviving line before a removed line, or is the first surviving line after a removed line within the hunk; a line separated from every insertion and removal is never selected.", "quantifier": "every hunk: any sequence of context, removal and addition lines, any starting line", "why_tests_cant": "The scanner carries state between lines; all interleavings of edits must be considered.", "anchors": ["src/in_diff.rs: affected_lines"]}
{"id": "C07", "title": "A stale diff is rejected", "statement": "If the diff is accepted then every line it quotes on the new side for a known source file is byte for byte the line at that position in the file that will be mutated; otherwise the run ends with an error before any mutant is tested.", "quantifier": "every diff and every source tree", "why_tests_cant": "Has to hold for every position and hunk layout.", "anchors": ["src/in_diff.rs: check_diff_new_text_matches", "src/in_diff.rs: partial_new_file", "src/in_diff.rs: diff_filter"]}
{"id": "C08", "title": "The summary counts partition the tested mutants", "statement": "In the final summary the counts of missed, caught, unviable, timeout and succeeded mutants add up to the total except for mutants whose outcome could not be classified; the baseline is never counted; each count equals the number of recorded outcomes of that class.", "quantifier": "every sequence of scenario outcomes, in every order", "why_tests_cant": "Histories are unbounded; the counters are updated incrementally from concurrent workers.", "anchors": ["src/outcome.rs: LabOutcome::add", "src/outcome.rs: ScenarioOutcome::summary"]}
{"id": "C09", "title": "Exit code meaning", "statement": "The process exit code is 4 if the baseline did not succeed, otherwise 3 if some mutant timed out, otherwise 2 if some mutant was missed, otherwise 0; exit code 0 means every viable mutant that was tested was caught by a test.", "quantifier": "every sequence of scenario outcomes", "why_tests_cant": "Priority between simultaneous conditions over all histories.", "anchors": ["src/outcome.rs: LabOutcome::exit_code", "src/exit_code.rs", "src/main.rs: main"]}
{"id": "C10", "title": "Each scenario gets exactly one verdict, from the phases that ran", "statement": "The phases of a scenario run in order and stop at the first one that does not succeed. A mutant is caught iff its build passed and its tests exited non-zero, missed iff build and tests all passed, unviable iff check or build exited non-zero, timeout iff a phase exceeded its limit. The verdicts exclude each other.", "quantifier": "every combination of phases and process results", "why_tests_cant": "Needs all phase/exit combinations, including signals and codes.", "anchors": ["src/outcome.rs: ScenarioOutcome::summary", "src/lab.rs: Worker::run_one_scenario", "src/options.rs: Options::phases"]}
{"id": "C11", "title": "The text lists agree with the recorded outcomes", "statement": "At every moment of a run caught.txt, missed.txt, timeout.txt and unviable.txt hold exactly the names of the mutants recorded so far with that verdict, one per line in the order they finished; no mutant is in two lists and the baseline is in none.", "quantifier": "every interleaving of workers, every prefix of the run", "why_tests_cant": "Concurrent schedules and crash points.", "anchors": ["src/output.rs: OutputDir::add_scenario_outcome", "src/lab.rs: Worker::run_one_scenario"]}
{"id": "C12", "title": "Every mutant is tested exactly once", "statement": "Under every schedule of the worker threads no mutant is taken by two workers or twice, and if the run finishes without an error each mutant in the list has exactly one recorded outcome.", "quantifier": "every mutant list, every number of jobs, every interleaving, every pattern of failures", "why_tests_cant": "The space of schedules is exponential and not controllable from a test.", "anchors": ["src/lab.rs: test_mutants", "src/lab.rs: Worker::run_queue", "src/lab.rs: join_threads"]}
{"id": "C13", "title": "Each mutant is tested alone and the tree is restored", "statement": "Every cargo command for a mutant runs in a tree in which that mutant is the only difference from the source, and after the scenario ends normally (whatever the verdict) or because a phase returned an error the tree is back to the text it had before.", "quantifier": "every tree, every sequence of mutants in one build directory, every phase result", "why_tests_cant": "Accumulated residue shows only after particular histories.", "anchors": ["src/lab.rs: Worker::run_one_scenario", "src/mutant.rs: Mutant::apply", "src/mutant.rs: Mutant::revert", "src/build_dir.rs: BuildDir::overwrite_file"]}
{"id": "C14", "title": "A failing baseline stops the run", "statement": "If the unmutated tree does not build and pass its tests, no mutant is built or tested, no mutant is reported caught, and the exit code is 4; a mutant scenario starts only after a successful baseline or an explicit skip.", "quantifier": "every baseline result, every option combination, every mutant list", "why_tests_cant": "All results of the baseline including signals and timeouts have to be excluded.", "anchors": ["src/lab.rs: test_mutants", "src/lab.rs: Lab::run_baseline", "src/outcome.rs: LabOutcome::exit_code"]}
{"id": "C15", "title": "Workers are isolated and bounded", "statement": "No two scenarios that overlap in time use the same build directory, and at any moment at most min(jobs, number of mutants) (at least one) scenarios are active.", "quantifier": "every interleaving and every jobs value", "why_tests_cant": "Needs every schedule.", "anchors": ["src/lab.rs: test_mutants", "src/lab.rs: Lab::make_worker"]}
{"id": "C16", "title": "No scenario overwrites another's log", "statement": "In one run every scenario, baseline included, gets a log file and diff file of its own: however many mutants share a file, line and column, the generated names are pairwise different.", "quantifier": "every sequence of scenarios and all file names", "why_tests_cant": "Uniqueness after suffixing must hold for all histories and adversarial file names.", "anchors": ["src/output.rs: OutputDir::start_scenario", "src/output.rs: clean_filename", "src/mutant.rs: Mutant::log_file_name_base"]}
{"id": "C17", "title": "Output directory rotation", "statement": "Starting a run moves an existing mutants.out to mutants.out.old, replacing any older one, and starts with an empty mutants.out; after any number of runs exactly the last two runs' results exist and nothing else in the parent directory changes.", "quantifier": "every history of runs and every prior directory content", "why_tests_cant": "Histories are unbounded.", "anchors": ["src/output.rs: OutputDir::new"]}
{"id": "C18", "title": "Two runs never write the same output directory at once", "statement": "While one run is using a mutants.out directory another run with the same output location either waits or uses a directory of its own; the first run's files are not removed while it is active.", "quantifier": "every interleaving of file system steps of two or more processes", "why_tests_cant": "A race that needs a particular interleaving.", "anchors": ["src/output.rs: LockFile::acquire_lock", "src/output.rs: OutputDir::new"]}
{"id": "C19", "title": "--iterate never re-tests a caught mutant and never forgets one", "statement": "Over any series of `--iterate` runs a mutant recorded as caught or unviable in an earlier run is never tested again, and a mutant that was missed, timed out or was never tested is tested in the next run.", "quantifier": "every history of runs and every assignment of verdicts", "why_tests_cant": "A property of whole histories, carried through files on disk.", "anchors": ["src/visit.rs: Discovered::remove_previously_caught", "src/output.rs: load_previously_caught", "src/output.rs: OutputDir::write_previously_caught"]}
{"id": "C20", "title": "Names written for --iterate read back exactly", "statement": "The names of mutants written to the lists are read back as the same set of names, so the exclusion matches precisely the mutants that were recorded.", "quantifier": "every set of mutant names", "why_tests_cant": "Names contain arbitrary printed Rust code; the round trip must hold for all of it.", "anchors": ["src/output.rs: OutputDir::add_scenario_outcome", "src/output.rs: load_previously_caught", "src/pretty.rs: to_pretty_string"]}
{"id": "C21", "title": "File and name filters", "statement": "A mutant is kept iff its file matches some include glob (or none are given) and no exclude glob, and its name matches some include regex (or none are given) and no exclude regex; excluded files are still searched for further modules.", "quantifier": "every combination of filters, every file and name", "why_tests_cant": "All combinations of present/absent filters and matchers.", "anchors": ["src/options.rs: Options::allows_source_file_path", "src/options.rs: Options::allows_mutant", "src/visit.rs: walk_package"]}
{"id": "C22", "title": "Command line takes precedence over configuration", "statement": "For each option that exists in both places the documented merge holds: a command line value wins where given, filter lists are replaced rather than merged, and argument lists are concatenated.", "quantifier": "every combination of command line and configuration values", "why_tests_cant": "The product of all option values is far too large to enumerate.", "anchors": ["src/options.rs: Options::new", "src/options.rs: or_slices", "src/options.rs: join_slices"]}
{"id": "C23", "title": "Timeout selection", "statement": "An explicit timeout is always used as given; otherwise the test timeout is the baseline test time times the multiplier rounded up, but never below the minimum; with no measured baseline it is 300 seconds; build has a limit only if requested; the baseline itself has no automatic limit.", "quantifier": "every combination of options and every baseline duration", "why_tests_cant": "Durations are unbounded and the options interact.", "anchors": ["src/timeouts.rs: Timeouts"]}
{"id": "C24", "title": "A hung command is stopped and reported as a timeout", "statement": "A command that is still running when it is polled after its limit is terminated and reported as a timeout, never as success or failure; a command reported as success really exited with status 0 and was seen doing so at a poll not later than the limit; without a limit no timeout is ever reported.", "quantifier": "every schedule of polls, exits, interrupts and limits", "why_tests_cant": "Timing schedules cannot be enumerated by tests.", "anchors": ["src/process.rs: Process::poll", "src/process.rs: Process::run", "src/process/unix.rs: Exit from ExitStatus"]}
{"id": "C25", "title": "Cargo command construction", "statement": "Every cargo command line begins with the cargo program, carries exactly one package selection, passes the user's test arguments last and only in the test phase, passes feature and extra cargo arguments in every phase, and only the test phase executes tests.", "quantifier": "every option set, phase, and package selection", "why_tests_cant": "Product of all options.", "anchors": ["src/cargo.rs: cargo_argv", "src/cargo.rs: run_cargo"]}
{"id": "C26", "title": "User compiler flags survive", "statement": "With lint capping on, the flags given to rustc are exactly the user's flags from the environment (encoded variable first, then the plain one) followed by the cap; with it off the environment is not overridden.", "quantifier": "every value of both environment variables", "why_tests_cant": "All strings, including separators.", "anchors": ["src/cargo.rs: encoded_rustflags", "src/cargo.rs: rustflags"]}
{"id": "C27", "title": "Files outside the tree are never read for mutation", "statement": "A source file whose path, relative to the tree, climbs above the tree root at any point is never loaded or mutated.", "quantifier": "every relative path with any mix of `.`, `..` and names", "why_tests_cant": "Path shapes are unbounded.", "anchors": ["src/path.rs: ascent", "src/source.rs: SourceFile::load"]}
{"id": "C28", "title": "Manifest rewriting touches only escaping relative paths", "statement": "When the tree is copied, the root manifest and cargo configuration change only in dependency, replace and patch paths (and config `paths`) that leave the tree; each is replaced by the path resolved against the original location; rewriting twice equals rewriting once; everything else is unchanged.", "quantifier": "every manifest document", "why_tests_cant": "Documents are unbounded trees.", "anchors": ["src/manifest.rs: fix_manifest_toml", "src/manifest.rs: fix_dependency_table", "src/manifest.rs: fix_cargo_config_toml", "src/manifest.rs: fix_path"]}
{"id": "C29", "title": "Every module file is found", "statement": "Discovery visits the top source file of each selected target and every file named by a module declaration reachable from it that is not excluded and exists, looking in the places the compiler does; files are visited in breadth-first order; discovery terminates for every finite acyclic module graph.", "quantifier": "every finite module graph", "why_tests_cant": "Graph shapes are unbounded; missing files must be tolerated.", "anchors": ["src/visit.rs: walk_package", "src/visit.rs: walk_file", "src/visit.rs: find_mod_source"]}
{"id": "C30", "title": "Skipped code is never mutated", "statement": "No mutant is produced anywhere inside an item marked as a test, configured for tests only, marked mutants::skip, declared unsafe, or inside the arguments of a call whose name is on the skip list; every other function body is considered.", "quantifier": "every syntax tree and every nesting depth", "why_tests_cant": "The tree is recursive; exclusion must be inherited at any depth.", "anchors": ["src/visit.rs: DiscoveryVisitor", "src/visit.rs: attrs_excluded", "src/visit.rs: fn_sig_excluded", "src/visit.rs: block_is_empty"]}
{"id": "C31", "title": "A mutant names the function that contains it", "statement": "The function name, return type and span attached to a mutant are those of the innermost enclosing function, with its enclosing modules, traits and impl blocks as the path; discovery never panics on its internal nesting checks.", "quantifier": "every syntax tree", "why_tests_cant": "Stack discipline over arbitrary recursion.", "anchors": ["src/visit.rs: DiscoveryVisitor::enter_function", "src/visit.rs: DiscoveryVisitor::leave_function", "src/visit.rs: DiscoveryVisitor::in_namespace"]}
{"id": "C32", "title": "Operator replacements always differ", "statement": "Each operator mutant replaces an operator by a different operator of the same kind (comparison, arithmetic, logical or assignment), the alternatives for one operator are pairwise different, and the compound assignments follow the plain operators.", "quantifier": "every operator", "why_tests_cant": "A completeness statement about a whole table.", "anchors": ["src/visit.rs: visit_expr_binary", "src/visit.rs: visit_expr_unary"]}
{"id": "C33", "title": "Match arms are removed only when a wildcard remains", "statement": "A match arm is offered for deletion only if the match contains an unguarded or guarded wildcard arm, the wildcard arm itself is never deleted, guarded arms are never deleted but get their guard replaced by true and by false.", "quantifier": "every match expression", "why_tests_cant": "Any number and order of arms.", "anchors": ["src/visit.rs: visit_expr_match"]}
{"id": "C34", "title": "Replacement values fit the return type", "statement": "For every return type built from the known types, each generated value is an expression of that type (up to unknown leaves filled by Default::default()).", "quantifier": "every type expression, arbitrarily nested", "why_tests_cant": "Types nest without bound; the generator is recursive.", "anchors": ["src/fnvalue.rs: return_type_replacements", "src/fnvalue.rs: type_replacements"]}
{"id": "C35", "title": "Replacement values are complete and distinct", "statement": "The replacement set follows the documented table at any nesting: at least one value for every returning type except never and opaque types, both None and every Some for options, every configured error for results, the full product for tuples and maps; NonZero types never get zero.", "quantifier": "every type expression and list of error values", "why_tests_cant": "Products of unbounded nesting.", "anchors": ["src/fnvalue.rs: return_type_replacements", "src/fnvalue.rs: type_replacements"]}
{"id": "C36", "title": "Printed code keeps the tokens", "statement": "The text shown in mutant names and inserted as replacement contains the tokens of the code in order with only spaces added, and two adjacent identifiers or literals are always separated.", "quantifier": "every token stream", "why_tests_cant": "Spacing decisions depend on all pairs of adjacent tokens at all nesting depths.", "anchors": ["src/pretty.rs: to_pretty_string"]}
{"id": "C37", "title": "The progress line shows the last output line", "statement": "However the log grows between polls, the progress display shows the last non-blank line written when writes are whole lines.", "quantifier": "every sequence of writes and polls", "why_tests_cant": "Polling schedules are unbounded.", "anchors": ["src/tail_file.rs: TailFile::last_line"]}
{"id": "C38", "title": "The copy omits only what it should", "statement": "The copied tree contains every entry of the source except version control directories (unless requested), mutants.out and mutants.out.old, and entries hidden by gitignore when enabled; contents are unchanged, and symlinks stay symlinks.", "quantifier": "every finite directory tree and option setting", "why_tests_cant": "Directory trees are unbounded.", "anchors": ["src/copy_tree.rs: copy_tree", "src/copy_tree/unix.rs: copy_symlink"]}
{"id": "C39", "title": "Globs without a slash match at any depth", "statement": "A filter glob without a slash matches a file iff some component of its path matches the glob; a glob with a slash is matched against the whole path only.", "quantifier": "every path and every glob", "why_tests_cant": "Paths are unbounded.", "anchors": ["src/glob.rs: build_glob_set"]}
{"id": "C40", "title": "Progress counters are consistent", "statement": "At each moment the counters shown equal the finished outcomes of each kind, the number done never exceeds the total, and the remaining time estimate is never negative, so the display cannot fail.", "quantifier": "every interleaving of scenario events", "why_tests_cant": "Schedules are unbounded.", "anchors": ["src/console.rs: Console::scenario_finished", "src/console.rs: LabModel"]}
{"id": "C41", "title": "Package selection", "statement": "The packages mutated are exactly those selected: all for --workspace, the named ones for --package, otherwise the package containing the start directory or the default members; result sorted by name without duplicates.", "quantifier": "every workspace and every selection", "why_tests_cant": "All sets of packages and names.", "anchors": ["src/workspace.rs: Workspace", "src/workspace.rs: filter_packages", "src/package.rs: packages_from_metadata"]}
{"id": "C42", "title": "Which tests run for a mutant", "statement": "By default a mutant is tested with the tests of its own package, with --test-workspace by all, with --test-package by the named ones; the baseline runs tests of all packages with mutants to be tested; so a mutant is never tested only by tests that were not run on the baseline.", "quantifier": "every option set and mutant list", "why_tests_cant": "Product of options and mutants.", "anchors": ["src/lab.rs: Worker::run_one_scenario", "src/options.rs: TestPackages", "src/lab.rs: Lab::run_baseline"]}
{"id": "C43", "title": "Errors are reported, not swallowed", "statement": "If any worker fails with an internal error the run ends with an error rather than a success code, and after an interrupt no further scenario is started by a worker that has noticed it.", "quantifier": "every set of worker results and schedules", "why_tests_cant": "Combinations of failures over threads.", "anchors": ["src/lab.rs: join_threads", "src/interrupt.rs: check_interrupted", "src/main.rs: main"]}
{"id": "C44", "title": "Listing equals testing", "statement": "`--list` with given filters prints exactly the mutants that a test run with the same arguments would test (apart from order when shuffled); filters compose in a fixed order.", "quantifier": "every mutant list and every combination of filters", "why_tests_cant": "All combinations of filters.", "anchors": ["src/main.rs: main", "src/list.rs: list_mutants"]}
{"id": "C45", "title": "Mutant names identify mutants", "statement": "Two mutants in one tree with the same displayed name with line and column have the same file, position and description, so excluding or re-testing by name is unambiguous up to that.", "quantifier": "every pair of mutants", "why_tests_cant": "Injectivity over all strings.", "anchors": ["src/mutant.rs: Mutant::name", "src/mutant.rs: Mutant::styled_parts"]}
{"id": "C46", "title": "Logged command lines are readable back", "statement": "The command line recorded in the log determines the argument vector that was run (provided no argument is empty), and never contains a raw newline.", "quantifier": "every argument vector", "why_tests_cant": "All strings.", "anchors": ["src/process.rs: quote_argv"]}
{"id": "C47", "title": "Module path resolution stays in the module's directory tree", "statement": "A module declaration without a path attribute is only looked up under the directory belonging to its parent module, as name.rs before name/mod.rs; with path attributes it resolves relative to the containing file's directory as the compiler does; absolute paths are refused.", "quantifier": "every chain of nested modules and path attributes", "why_tests_cant": "Arbitrary nesting of inline modules.", "anchors": ["src/visit.rs: find_mod_source", "src/visit.rs: find_path_attribute"]}
{"id": "C48", "title": "Generated file names are safe", "statement": "Log and diff file names never contain a path separator, space or other special character, whatever the source file is called, so files land in the log and diff directories.", "quantifier": "every source path", "why_tests_cant": "All strings.", "anchors": ["src/output.rs: clean_filename", "src/mutant.rs: Mutant::log_file_name_base"]}
{"id": "C49", "title": "Crash during a run leaves usable results", "statement": "If the process is killed at any point of a run, every line present in caught.txt or unviable.txt belongs to a mutant that really finished with that verdict, and no verdict recorded before the crash is lost from the lists.", "quantifier": "every crash point of every schedule", "why_tests_cant": "Crash points cannot be enumerated by tests.", "anchors": ["src/output.rs: OutputDir::add_scenario_outcome", "src/output.rs: OutputDir::write_previously_caught"]}
{"id": "C50", "title": "Line ending normalisation", "statement": "Loading a source file removes each carriage return that precedes a newline and changes nothing else; for files with Unix line endings restoring after a mutant is byte exact.", "quantifier": "every file content", "why_tests_cant": "All texts.", "anchors": ["src/source.rs: SourceFile::load", "src/mutant.rs: Mutant::revert"]}
{"id": "C51", "title": "Start directory", "statement": "With --manifest-path naming a file, the run starts in the directory that holds the file; with --dir in that directory; otherwise in the current directory.", "quantifier": "every path and every state of the disk", "why_tests_cant": "All shapes of path, absolute and relative, with any number of components.", "anchors": ["src/main.rs: main", "src/workspace.rs: locate_project"]}
{"id": "C52", "title": "Header of a mutant's diff", "statement": "The diff stored for a mutant is headed by the path of the file in the tree and by the description of the change; the description takes one line whatever the replacement holds.", "quantifier": "every mutant", "why_tests_cant": "All replacement texts, with any line breaks.", "anchors": ["src/mutant.rs: Mutant::diff"]}
{"id": "C53", "title": "Result files describe the results", "statement": "mutants.json, outcomes.json and the output of --list --json and --list-files --json are JSON texts, and a reader gets from them exactly the mutants (package, file, function, span, replacement, genre, and the diff if asked for), the files, and for each outcome its scenario, verdict, paths, phases, exit statuses and command lines, with the totals. At the end of a run outcomes.json describes exactly the recorded outcomes.", "quantifier": "all names and replacement texts, with any characters, all lists of mutants and outcomes, all schedules", "why_tests_cant": "Escapes and nesting for all texts; agreement of the files with the results in all runs.", "anchors": ["src/mutant.rs: impl Serialize for Mutant", "src/outcome.rs: impl Serialize for ScenarioOutcome", "src/output.rs: write_lab_outcome, write_mutants_list", "src/list.rs: list_mutants, list_files"]}
{"id": "C54", "title": "Errors writing result files are reported", "statement": "When writing a JSON result file reports success, the file holds the whole text; otherwise it holds a beginning of the text.", "quantifier": "all texts, all sequences of writes by the serializer, all errors of the disk", "why_tests_cant": "All points at which the disk can fail.", "anchors": ["src/output.rs: write_lab_outcome, write_mutants_list"]}
{"id": "C55", "title": "A scenario's log tells what was run", "statement": "Nothing written to a scenario's log is lost or overwritten, by the tool or by the commands. The log names the scenario, shows a mutant's diff (the same as in the diff file), and then for each phase in order, up to the first that fails, the command line, its output and its result.", "quantifier": "all scenarios, all outputs of the commands written in any pieces at any time, all errors of the disk and interruptions", "why_tests_cant": "All interleavings of the writes of the tool and of the processes of each command.", "anchors": ["src/output.rs: ScenarioOutput", "src/process.rs: Process::run, Process::start", "src/lab.rs: run_one_scenario"]}
{"id": "C56", "title": "What is printed for an outcome", "statement": "When a scenario ends, the verdict and the name (and, if asked, the times and the log) are printed exactly as stated; a mutant that is missed or timed out is always printed, caught or unviable ones only if asked. Over a run each recorded outcome is printed once. With colors the same text is read.", "quantifier": "all outcomes, options and logs, all schedules", "why_tests_cant": "All combinations of options, verdicts and schedules.", "anchors": ["src/console.rs: scenario_finished, style_outcome", "src/mutant.rs: to_styled_string", "src/list.rs: list_mutants"]}
{"id": "C57", "title": "When colors are used", "statement": "NO_COLOR and then CLICOLOR_FORCE, set to other than 0, decide; otherwise the option; otherwise whether the stream is a terminal with colors, for stdout and stderr independently.", "quantifier": "all environments, options and terminals", "why_tests_cant": "All combinations; needs real terminals.", "anchors": ["src/options.rs: Colors", "src/console.rs: enable_console_colors, setup_global_trace"]}
{"id": "C58", "title": "Mutants are written only in the build directory", "statement": "Applying a mutant changes the contents of exactly one file, which is the file of that path in the build directory. Unless --in-place is given the source tree is not written. Putting the code back restores the disk.", "quantifier": "all disks with links, all source trees and copies, all paths", "why_tests_cant": "All trees and all links.", "anchors": ["src/build_dir.rs: overwrite_file", "src/copy_tree.rs: copy_symlink"]}
{"id": "C59", "title": "Ctrl-C stops the run without false verdicts", "statement": "After an interrupt no verdict is recorded for a scenario whose commands had not all ended before it, each worker begins at most one more mutant, the run comes to an end in a number of steps that does not depend on the mutants left, the source files are put back, and if a mutant was waiting or being tested the exit code is that of an error.", "quantifier": "every moment of the interrupt, every schedule, every list of mutants", "why_tests_cant": "Every moment in every interleaving.", "anchors": ["src/interrupt.rs", "src/cargo.rs: run_cargo", "src/lab.rs: run_one_scenario", "src/process.rs: poll"]}
{"id": "C60", "title": "Temporary build directories", "statement": "Without --leak-dirs no copy of the source tree is left on disk when the run has ended, well or not; no directory is deleted while a thread uses it; only copies made by this run are deleted, never the source tree; there are never more copies than worker threads. With --leak-dirs nothing is deleted.", "quantifier": "all runs, schedules, lists of mutants, numbers of jobs, with and without --in-place", "why_tests_cant": "All interleavings and all ends of a run.", "anchors": ["src/build_dir.rs: BuildDir, copy_from, in_place", "src/lab.rs: test_mutants", "src/copy_tree.rs: copy_tree"]}
{"id": "C61", "title": "Results do not depend on the schedule", "statement": "If the project's builds and tests are deterministic (their result depends only on the source files), the verdict of each mutant is the one of testing it alone in a fresh copy of the tree; so the outcomes, counts and exit code of a complete run do not depend on the number of jobs, on how the threads interleave, on the order of the mutants or on what was tested before in the same build directory.", "quantifier": "all projects with deterministic tests, all mutants and orders, all numbers of jobs, all schedules", "why_tests_cant": "Compares all schedules and all orders with each other.", "anchors": ["src/lab.rs: test_mutants, Worker::run_queue, run_one_scenario", "src/build_dir.rs: overwrite_file", "src/mutant.rs: apply, revert"]}
{"id": "C62", "title": "No mutant is generated twice", "statement": "The list of mutants has no duplicates: no two mutants of a file replace the same span by the same text, also as it is printed into the file, so no mutant is tested or counted twice.", "quantifier": "all syntax trees with different spans, all configured error values that print differently, all file systems in which no file is visited twice", "why_tests_cant": "Ranges over all source files and all types; snapshot tests list the mutants of a few files.", "anchors": ["src/visit.rs: DiscoveryVisitor::collect_mutant, collect_fn_mutants, walk_file, walk_package", "src/fnvalue.rs: type_replacements", "src/pretty.rs: to_pretty_string"]}
{"id": "C63", "title": "The exit status says how the program ended", "statement": "From the command line to the exit: the status is 0 for help, version, listings and runs in which every selected mutant has a verdict and none was missed or timed out; 2, 3 and 4 only for missed mutants, timeouts and a failing baseline; 1 for usage errors and errors, 70 for other errors of clap, 101 for panics. The mutants that a run is about are exactly those of the selected packages of the workspace around the start directory that the filters of the options (command line over the configuration at the workspace root) allow; so status 0 of a full run means that each of them was dealt with.", "quantifier": "all worlds (disk, cargo's answers, parsers), all command lines, all schedules of the run", "why_tests_cant": "Composes every stage of the program for all inputs; end-to-end tests see a few trees.", "anchors": ["src/main.rs: main", "src/exit_code.rs", "src/workspace.rs: Workspace::open, discover, locate_project", "src/config.rs: Config::read_tree_config", "src/options.rs: Options::new, parsed_error_exprs"]}
{"id": "C64", "title": "The counts shown while the tree is searched and copied are right", "statement": "While the tree is searched the display says how many files have been read and how many mutants found: updating it never panics, at every moment the numbers are the sums of what has been reported, and when the search succeeds they are the numbers of files of the packages and of mutants in them that pass the filters. While a tree is copied the bytes shown are the running sums of the sizes of the files, ending with the size of the copy.", "quantifier": "all file systems, syntax trees, options and packages; every moment of the search, also of one that ends with an error; all trees copied", "why_tests_cant": "Nothing tests the display; trees and filters are unbounded.", "anchors": ["src/console.rs: WalkProgress, WalkModel, CopyModel", "src/visit.rs: walk_tree, walk_package", "src/copy_tree.rs: copy_tree"]}
{"id": "C65", "title": "Every cargo process of a run is the right one, and verdicts are what those processes did", "statement": "Each time a run starts cargo, in any schedule of its threads, it is with the command for the phase, the packages to test for that scenario, the user's environment with only the documented variables changed, and the limit that was derived from the baseline of the same run. Each phase of a scenario is run once; outcomes record exactly what the processes did; a mutant's verdict follows from how its own processes ended, in a directory that holds the workspace with that one mutation. Runs do not panic after the baseline if multipliers are finite and not negative.", "quantifier": "all options, environments, metadata, mutants, schedules of any number of threads, and behaviours of the processes at every poll", "why_tests_cant": "The combination of schedules, options and process behaviours is unbounded; tests look at one command line at a time.", "anchors": ["src/lab.rs: test_mutants, Lab::run_baseline, Worker::run_queue, Worker::run_one_scenario", "src/cargo.rs: run_cargo", "src/process.rs: Process::run", "src/timeouts.rs"]}
{"id": "C66", "title": "A terminal shows messages and progress in the right colors and nothing leaks", "statement": "Read by a terminal (the graphic rendition codes of ECMA-48), the message about each scenario shows the verdict in its color - red and bold for missed, timeout and failure, green for caught and ok, blue for unviable - then the name, times and phases in theirs; names of mutants, the lines for scenarios, copies and counts likewise. After each of these texts the terminal is back to its usual look, whatever follows. Without colors the same texts are shown with the usual look only.", "quantifier": "all mutants, outcomes, options, logs and following texts, none of which contains an escape character itself", "why_tests_cant": "Tests run without a terminal and see no colors; a code that is not reset shows only in later output.", "anchors": ["src/console.rs: style_outcome, ScenarioModel::render, CopyModel::render, LabModel::render", "src/mutant.rs: to_styled_string, styled_parts"]}
{"id": "C67", "title": "The exit status of a whole run is a true account of its cargo processes", "statement": "For a run from the command line to the end: with status 0 cargo was run for every mutant of the run (for a run of the whole tree: every mutant that the selected packages offer and the filters allow), in a tree with exactly that mutation, with a command that tests the package the mutant was found in (or what the options say), and the tests failed or did not build, while without mutations they passed; with status 2 there is a mutant for which they passed, with 3 one for which they took too long, with 4 they failed without mutations and nothing else was run.", "quantifier": "all worlds (disk, cargo, parsers), command lines, configurations, schedules of workers, and behaviours of the cargo processes, for lists of mutants without duplicates and trees that do not change between discovery and copying", "why_tests_cant": "Needs every stage at once: discovery, filters, queueing, interleaved workers, processes and the exit code; a test sees one tree and one schedule.", "anchors": ["src/main.rs: main", "src/lab.rs: test_mutants, Lab::run_baseline, Worker::run_queue, run_one_scenario", "src/source.rs: SourceFile::load", "src/outcome.rs: LabOutcome::exit_code"]}
{"id": "C68", "title": "The command line is understood as the options say", "statement": "The program starts to work with given arguments exactly if the words after `mutants` (and the five environment variables) can be read, in the one way that is possible, as uses of the options that fit together: each at most once unless it may be repeated, values of the right form, no two that exclude each other; and then every field of the arguments is what these uses say, whatever their order and spelling, a variable counting as its option. It shows help if that is asked for after words that are right so far, version or completions if asked to, and everything else is a usage error with exit status 1. Exactly the consistent arguments can be asked for, and for each of them there is a line. With C67: what the exit status of a run says about its cargo processes holds for every command line.", "quantifier": "all lists of words and all environments; for the last part all worlds, schedules and behaviours of cargo", "why_tests_cant": "Words, spellings, orders and variables combine without bound; that nothing else is accepted and that no reading is ambiguous are statements about all of them.", "anchors": ["src/main.rs: Args, Features, main", "src/options.rs: Colors, TestTool", "src/shard.rs: Shard::from_str"]}
{"id": "C69", "title": "The configuration file is taken as it is written or not at all", "statement": "A configuration file that is TOML is accepted exactly if no setting comes twice, every setting is one of the 19 known ones and its value is of the right kind; then each field of the configuration is what its entry says and unset if there is none, whatever the order. In a run, every setting of the file is in force unless the command line says otherwise; a file that cannot be read, is not TOML, or has an unknown setting or a wrong value is never ignored: the run ends with an error before it looks for mutants. Without a file, or with --no-config, everything is as with an empty file.", "quantifier": "all tables of TOML values, all command lines and worlds", "why_tests_cant": "Files combine settings without bound; that no misspelt or ill-typed setting is ever silently dropped, and that each setting acts only on its own option, are statements about all files.", "anchors": ["src/config.rs: Config, read_file, read_tree_config, from_str", "src/options.rs: TestTool, Options::new", "src/main.rs: main"]}
{"id": "C70", "title": "With --in-diff what is tested is what was changed, however the diff is written", "statement": "If the diff given with --in-diff is a unified diff from an older state of some files to the tree as it is, with at least one line of context where there is one, then it is accepted, and the mutants of the run are those with a line that was added or is next to removed lines, in their order; how wide the context is and how the lines are put into hunks makes no difference. So if the run of a whole tree with such a diff ends with status 0, cargo was run for every mutant with a changed line, and for no other, and did not build it or its tests failed.", "quantifier": "all scripts of kept, removed and added lines for any number of files, all ways to cut them into hunks, all widths of context from 1, all mutants, worlds, schedules of workers and behaviours of cargo", "why_tests_cant": "Edits and ways to write them combine without bound; that the width of the context makes no difference and that no edited line is lost between hunks are statements about all of them.", "anchors": ["src/in_diff.rs: diff_filter, affected_lines, partial_new_file, check_diff_new_text_matches", "src/main.rs: main"]}
{"id": "C71", "title": "The log of every outcome is the record of its cargo processes", "statement": "In every run, every recorded outcome has a log of its own, which outcomes.json names: it begins with the name of the scenario and for a mutant the diff, and then has for each cargo process from which the outcome was made, in order and for no other process, the command line as it was run, what the process wrote, and its result. Nothing that was written to a log is lost, however many jobs write logs at the same time; if processes write only while their command runs, their output stands between their command line and their result. When the run ends well, every log belongs to exactly one outcome.", "quantifier": "all lists of mutants, options, schedules of workers and interleavings of their writes and those of commands and leftover processes, all outputs, results and errors of commands, all failures to write", "why_tests_cant": "Interleavings of writes from several jobs and processes and their outputs are unbounded; that logs are never mixed up is a statement about all of them.", "anchors": ["src/lab.rs: run_one_scenario", "src/output.rs: OutputDir::start_scenario, ScenarioOutput, OutputDir::add_scenario_outcome", "src/cargo.rs: run_cargo", "src/process.rs: Process::run, Process::start", "src/outcome.rs: ScenarioOutcome::new"]}
{"id": "C72", "title": "A run warns of what its exit status does not say, and of nothing else", "statement": "The warnings and errors that a run reports are exactly those that its cargo processes and threads call for: one for each process that could not be run and for each failure of nextest itself, one for each mutant whose outcome is none of the four verdicts, the failed phase if the unmodified tree failed, that nothing was viable exactly if every process for mutants was a build or check that failed, and the errors of threads other than interrupts. If exit status 0 comes without a warning about verdicts, then, as the manual says of status 0, every mutant was tested, every one that could be built was caught, and at least one was.", "quantifier": "all command lines, workspaces, lists of mutants, options, schedules of workers, exits, polls, errors and failures to write", "why_tests_cant": "The runs, with their numbers of mutants, jobs and processes, are unbounded; tests see single messages in single runs, and that no warning is missing or false is a statement about all.", "anchors": ["src/lab.rs: test_mutants, join_threads, Worker::run_one_scenario", "src/cargo.rs: run_cargo, NEXTEST_ALLOWED_CODES", "src/outcome.rs: LabOutcome::add", "src/console.rs: Console::setup_global_trace"]}
{"id": "C73", "title": "The runs of all shards are together one run of all mutants", "statement": "If the program is run once for each shard k/n of the same tree with the same arguments, whatever the output directories, environments and schedules, then together they test exactly the mutants that one run without --shard would, each as often, and no shard has more than one mutant more than another. If none finds that the tests fail without mutations, the processes of all are, but for those without mutations, exactly one test of each mutant, and the worst of their exit statuses is the status for all verdicts. If all end with status 0, then every mutant that the packages offer and the filters allow was built and tested by one of them and did not build or made the tests fail.", "quantifier": "all numbers of shards, trees, command lines without --iterate, options, environments, output directories and schedules of each run", "why_tests_cant": "The number of shards, mutants, jobs and schedules is unbounded, and the runs are independent of each other; tests look at lists of single shards and not at what several runs of cargo processes add up to.", "anchors": ["book/src/shards.md", "src/shard.rs: Shard::select", "src/main.rs: main", "src/lab.rs: test_mutants", "src/exit_code.rs"]}
{"id": "C74", "title": "Repeated runs with --iterate lose nothing and repeat nothing", "statement": "In a series of runs with the same output directory, ending or killed at any time while testing, a run with --iterate never runs cargo for a mutant whose name an earlier run that has ended recorded as caught or unviable, if all runs since were with --iterate; and it leaves out no mutant but those whose names were listed before the series or for which cargo processes of an earlier run show that a mutant of that name was caught or unviable. If a run with --iterate ends with status 0, then for every mutant that the packages now offer and the filters allow, this run or an earlier one of the series has run cargo for a mutant of that name and it did not build or its tests failed, unless the name was listed before the series. Names are assumed to take one line, and writes into the output directory not to fail.", "quantifier": "all numbers of runs, trees and command lines that may differ from run to run, schedules, points at which runs are killed, and earlier contents of the output directory", "why_tests_cant": "The number of runs and the points where each may be killed are unbounded, and what a later run leaves out depends on the files of all earlier ones; tests make two or three runs that end well.", "anchors": ["book/src/iterate.md", "src/main.rs: main", "src/output.rs: OutputDir::new, load_previously_caught, OutputDir::write_previously_caught, OutputDir::add_scenario_outcome", "src/lab.rs: test_mutants"]}
{"id": "C75", "title": "The program goes on to its end and panics only over paths, options and time limits", "statement": "Every mutant that the search finds has a name. Before anything is tested, a program with an accepted command line panics exactly if cargo names the manifest of the workspace or of the package by a path that is not absolute, or Options::new cannot represent the options; never because of the sources, a diff, an earlier output directory or a shard. A run that has come to testing is never stuck: at every moment it has ended or has a next step, it can come to its end, and every way of going on ends within a number of steps that depends only on the numbers of mutants and jobs, also with interrupts. While testing, it panics only if the tests without mutations have passed and no time limit for the mutants can be computed from the time they took; then it always does, and no mutant has been tested. Every run has the logs of C71.", "quantifier": "all worlds (file systems, cargo answers, sources, diffs, earlier output), command lines, schedules of any number of workers, results and times of processes, disk faults and interrupts", "why_tests_cant": "A panic or a hang shows only for the one schedule, source file or option value that causes it; the absence of others is a statement about all of them, and the parts (visitor, filters, listing, lab, logs) each rely on what the others establish, such as that a mutant of a function's value knows its function.", "anchors": ["src/main.rs: main", "src/visit.rs: walk_tree, DiscoveryVisitor", "src/mutant.rs: Mutant::name, Mutant::describe_change", "src/lab.rs: test_mutants, Worker::run_queue", "src/timeouts.rs: Timeouts", "src/workspace.rs: Workspace::open, Workspace::discover"]}
{"id": "C76", "title": "An interrupt soon ends searching, waiting and copying, and leaves no part result", "statement": "If ctrl-c is pressed before the tests begin, the program either does exactly what it would have done (the whole list, all mutants, the same error), or ends with an error. After the signal at most one more source file is read and none is parsed; the search ends even if it would otherwise go on for ever; waiting for the lock of an output directory ends at the next failed attempt. A copy of the tree is whole or is reported as an error, and after the signal no further entry is copied.", "quantifier": "all worlds (sources, module graphs with cycles too, packages, command lines), all points at which the signal comes, all times at which locks become free, all trees to copy", "why_tests_cant": "A test can send a signal at a few moments; whether it is noticed in every loop, also in one that never ends by itself, and whether a list cut short can be taken for a whole one, concerns every moment and every tree.", "anchors": ["src/interrupt.rs: check_interrupted", "src/workspace.rs: Workspace::open", "src/visit.rs: walk_tree, walk_package", "src/output.rs: LockFile::acquire_lock", "src/copy_tree.rs: copy_tree", "src/main.rs: main"]}
{"id": "C77", "title": "The times shown are the times that were measured", "statement": "Times in words in the display (since the start, estimate of what is left) read word by word give exactly the whole seconds of the time, with units from the largest to the smallest, none of them 0 and none more than fits in the next larger; so different numbers of seconds are shown differently. Times in seconds in messages (of the phases) can be read and are wrong by at most half a tenth and one part in four million, so by less than a tenth for a day; whole seconds are exact and longer times are never shown as shorter ones for 194 days. The message about an outcome has the times of its phases in order, with and without colors.", "quantifier": "all durations in nanoseconds, all outcomes, all states of the display", "why_tests_cant": "Rounding (twice to 32-bit floats, then to a decimal) and the borders of units are right for sampled values and can be wrong at the borders; tests of the tool replace times by a placeholder before comparing.", "anchors": ["src/console.rs: style_secs, style_duration, LabModel::render, scenario_finished"]}
{"id": "C78", "title": "lock.json says which process has the output directory", "statement": "While a process has the lock of an output directory, lock.json is read as JSON with exactly the version, start time, host name and user name of that process, whatever was in the file before (for example a longer text) and whatever other processes do that wait, give up, fail or crash at any point. At any time the file holds what was there before or the first bytes of what one process says that has or had the lock, never a mixture. One process at a time has the lock; it is free when that process is gone; and a waiting process can then get it and write the file without the others.", "quantifier": "all numbers of processes, all interleavings, all short writes and crashes, all earlier contents, all names of hosts and users", "why_tests_cant": "A test has one or two processes and one order of events; a leftover tail of a longer text, or a waiting process that empties the file, only shows for certain lengths and interleavings.", "anchors": ["src/output.rs: LockFile, LockFile::acquire_lock"]}
{"id": "C79", "title": "The files of a whole run agree with each other and with the exit status", "statement": "From the command line on, for every run that comes to testing: mutants.json is there at any later time (also if the run is killed or fails) and describes exactly the selected mutants, in the order in which they are taken, which is the order of the selection unless --shuffle is given. lock.json and previously_caught.txt stay as they were written at the start. When the run ends with a result, the four lists have exactly the mutants with the four verdicts; either the tests failed without mutants, the lists are empty and the status is 4, or each selected mutant has exactly one verdict and the exit status can be told from the lists alone: 3 if timeout.txt is not empty, else 2 if missed.txt is not empty, else 0. outcomes.json describes the same outcomes. With no mutants the status is 0, mutants.json is an empty array, and there is no outcomes.json.", "quantifier": "all trees, command lines, selections, orders, interleavings of any number of jobs, results of cargo, failing writes to mutants.out, and times at which the run is looked at", "why_tests_cant": "Each test looks at one or two files after one run with one interleaving; that all files of all runs tell the same story is a relation between five writers at different times.", "anchors": ["src/lab.rs: test_mutants", "src/output.rs: open_debug_log, write_mutants_list, add_scenario_outcome", "src/outcome.rs: LabOutcome::exit_code", "src/main.rs: main"]}
{"id": "C80", "title": "What a whole run prints to standard output", "statement": "At any time of a run standard output has the line with the number of mutants to test, then one message for each scenario that has ended and is to be reported, in the order in which they have ended, and nothing else. If the run ends without an error, then either the tests failed without mutants and the text ends with the message about that and its log, or the messages are those of all recorded outcomes, once each, and one last line follows, with the same number of mutants as the first line and how often each verdict was recorded, leaving out those that were not. Without times and logs, the names shown after a verdict that is reported are exactly the lines of that verdict's list in mutants.out. From the command line on, with --no-times and without --all-logs, the exit status can be told from the lines: 3 if one reports a timeout, else 2 if one reports a missed mutant, else 0. If no mutant was tested because the tests do not pass without mutants, the exit status is 4 and after the first line there is only the message that the baseline failed or timed out, with its log, and no last line.", "quantifier": "all numbers of mutants and jobs, all interleavings, all results of cargo, all options for what is printed, all logs and times", "why_tests_cant": "Tests compare the output of a few runs, mostly with one job; a message lost or repeated in some interleaving, or a count that does not fit the messages, would not be seen.", "anchors": ["src/console.rs: Console::discovered_mutants, scenario_finished, lab_finished", "src/outcome.rs: LabOutcome::summary_string", "src/lab.rs: test_mutants", "src/options.rs: Options::new"]}
