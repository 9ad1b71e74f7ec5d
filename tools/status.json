{
 "C01": {
  "status": "partial",
  "note": "Proved for every text whose part before the edit on the edited line has no lone carriage return; for a lone CR the claim is refuted (edit lands one character late).",
  "plan": "`Span::replace` char loop as a fold with state (line, col, output). Spec: positions defined by prefix (`pos_of prefix`); theorem: for text = a++b++c with start/end the positions of a and a++b (and no lone CR problem), output = a ++ repl ++ c. Refutation for a CR at the start column."
 },
 "C02": {
  "status": "partial",
  "note": "Proved for every text and every span whose ends are places of the text and whose start does not share its place with a carriage return, and for the parser's spans on lines without carriage returns. Refuted for a lone carriage return on the line: the replacement can go in twice.",
  "plan": "`Span::extract` fold with early break; theorem: extracts what replace removes, for every span; putting it back is the identity."
 },
 "C03": {
  "status": "proved",
  "note": "",
  "plan": "`Shard::select` as filter on enumerate. Spec: count of each index over all k; order by subsequence; sizes by division."
 },
 "C04": {
  "status": "proved",
  "note": "",
  "plan": "`from_str` on texts, with Rust's usize parser (optional leading +, overflow). Theorem: accepted iff grammar; result k<n."
 },
 "C05": {
  "status": "partial",
  "note": "For diffs whose hunks are well formed and in order; the diff parser is an oracle. With a diff without a/ b/ prefixes a file under a top directory 'b' is missed (refuted).",
  "plan": "`diff_filter` over parsed patches (the `patch` crate's parser is an oracle with what it is given specified). Theorem: equals the filter by the overlap relation, given sorted affected lines which C06 gives for well-formed patches."
 },
 "C06": {
  "status": "partial",
  "note": "Exact for every hunk with a non-empty new range. Refuted for removal-only hunks without context (diff -U0), where the line number is off by one.",
  "plan": "`affected_lines` loop; spec relation on hunk lines (added / adjacent to a removal); iff theorem for all hunks."
 },
 "C07": {
  "status": "partial",
  "note": "Exact except for blank lines quoted past the end of the file, which are accepted (refuted).",
  "plan": "`check_diff_new_text_matches` and `partial_new_file`; theorem: Ok implies every quoted new-side line equals the source line."
 },
 "C08": {
  "status": "proved",
  "note": "",
  "plan": "`LabOutcome::add` folded over any list; counters equal counts by class."
 },
 "C09": {
  "status": "partial",
  "note": "The exit code table is proved. The documented meaning of 0 is refuted: a mutant whose tests die from a signal is neither caught nor missed and leaves exit code 0.",
  "plan": "`exit_code` table over folded outcomes; refutation of the documented meaning of 0 for signalled test processes."
 },
 "C10": {
  "status": "proved",
  "note": "",
  "plan": "`run_one_scenario` phase loop with cargo as oracle plus `summary`; iff theorems per verdict."
 },
 "C11": {
  "status": "partial",
  "note": "If writes to mutants.out do not fail the lists are exact at every point of every schedule, except that the outcome being recorded by the thread holding the lock may not be written yet or lack its newline. If they may fail, the lists are still beginnings of the right lines in the right order, cut short at most once for each failed thread, and exact at the end of every run that ends without an error; a line may then join two names (refuted).",
  "plan": "Invariant of the concurrent lab machine: list files are images of recorded outcomes, at every reachable state."
 },
 "C12": {
  "status": "proved",
  "note": "Every schedule, including worker errors; also progress, termination (a step bound) and absence of panics when all names exist.",
  "plan": "Concurrent lab machine (shared queue, workers as program counters), invariant over all schedules; exactly-once at termination."
 },
 "C13": {
  "status": "partial",
  "note": "Proved for the text as the tool loads it (CRLF read as LF), and byte for byte for files without CRLF. Refuted byte for byte for a CRLF file tested in place, which is rewritten with LF. Failed writes of the source file itself are reported as errors and are outside the claim.",
  "plan": "File-tree state per build directory in the lab machine; invariant: tree = source with only the current mutant; restored on exit. CRLF refutation."
 },
 "C14": {
  "status": "proved",
  "note": "",
  "plan": "Lab machine: baseline state gates the start of workers."
 },
 "C15": {
  "status": "proved",
  "note": "",
  "plan": "Lab machine: injective worker->directory map; number of active scenarios bounded."
 },
 "C16": {
  "status": "proved",
  "note": "Names as strings; file systems that fold case or limit name length are outside the model.",
  "plan": "`start_scenario` naming over any history; injectivity by decomposition from the right; NoDup of names."
 },
 "C17": {
  "status": "proved",
  "note": "The rotated directory's lock.json is rewritten by the next run; all else is kept. Symbolic links and I/O errors are outside the model.",
  "plan": "Directory as finite map; `OutputDir::new` rotation; induction over the list of runs."
 },
 "C18": {
  "status": "partial",
  "note": "No two running processes hold the same directory, and later starters wait (C18_others_wait_partial). Every directory that ever was is at one place only: mutants.out, mutants.out.old or deleted, whatever the processes do (C18_places). Refuted in general: a second waiter, or a process in the gap between unlock and rename, moves away or deletes the directory of a running process.",
  "plan": "Interleaving machine of any number of processes running the steps of `OutputDir::new`; refutation traces; partial: exclusion when the first process holds the lock in the directory the second one opens."
 },
 "C19": {
  "status": "partial",
  "note": "For series of runs without a crash in the rotation window (see C49) and for names that take one line (see C20).",
  "plan": "Run history machine: load, filter, test, write; induction over runs."
 },
 "C20": {
  "status": "partial",
  "note": "Proved for names without a line break; refuted for a name with one.",
  "plan": "`writeln!`/`lines` round trip on names with no newline and no final CR; refutations otherwise; names of modelled mutants satisfy it under stated token conditions."
 },
 "C21": {
  "status": "proved",
  "note": "File and name filters for every combination, and over a whole tree; the regular expression engine is an oracle.",
  "plan": "`allows_source_file_path`, `allows_mutant` with matchers as oracles; `walk_package` filter placement."
 },
 "C22": {
  "status": "proved",
  "note": "All merging in Options::new; clap and serde parsing are outside the model.",
  "plan": "`Options::new` field by field, all fields."
 },
 "C23": {
  "status": "partial",
  "note": "With 64-bit floats (round to nearest even): the limit is exact but for a relative error of 2^-51, monotone, and panics are described. Negative, infinite and NaN multipliers panic and --check ignores the build multiplier (refuted).",
  "plan": "`Timeouts` over 64-bit floats modelled as rationals rounded after each operation; error bound and monotonicity for the real rounding, some bounds for any rounding."
 },
 "C24": {
  "status": "partial",
  "note": "Proved for children that die on SIGTERM. Refuted for a child ignoring SIGTERM (the run blocks) and for exits seen only after the limit.",
  "plan": "Process loop as a machine over an arbitrary environment trace (clock, exit, interrupt)."
 },
 "C25": {
  "status": "partial",
  "note": "All clauses for cargo_argv; refuted: no package selection when no --test-package name is known; cargo check gets --cargo-profile with nextest.",
  "plan": "`cargo_argv` as a function to lists; structural theorems."
 },
 "C26": {
  "status": "partial",
  "note": "Proved for flags separated by spaces; refuted for other blanks in RUSTFLAGS and for flags from cargo's configuration files.",
  "plan": "`encoded_rustflags`: join/split on 0x1f and space."
 },
 "C27": {
  "status": "proved",
  "note": "",
  "plan": "`ascent` over path components; equivalence with prefix depth."
 },
 "C28": {
  "status": "partial",
  "note": "For [dependencies], [replace] and [patch] of the root manifest and paths of .cargo/config.toml; refuted for dev-, build-, target- and workspace dependencies, which are left relative. TOML parser and printer are assumed to round trip.",
  "plan": "TOML values as trees; `fix_*` functions; frame theorem and idempotence; `fix_manifest`/`fix_cargo_config` on files with the TOML parser and printer as oracles."
 },
 "C29": {
  "status": "partial",
  "note": "Visited files, order, termination, errors and listed files proved for every file system and parser; agreement with the compiler's choice of files proved for modules without path attributes, and false with them (C47). Visiting a file once is false (C29_once_refuted), a cycle never ends (C29_ends_refuted).",
  "plan": "`walk_package` BFS with fuel over files, parser as an oracle; reachability relation; breadth-first order; termination for finite graphs without cycles; refuted termination for cycles."
 },
 "C30": {
  "status": "partial",
  "note": "Exact for every tree: the mutants are those at positions with no skipped node above, skipped nodes are inert in any context, every other body is covered. Refuted parts: attributes on items other than files, fns, impls, traits and modules are not looked at; nested cfg such as all(test, ..) and cfg_attr with a non-path condition are not recognised; unsafe impl and unsafe trait are not skipped; an inline module with an absolute path attribute is dropped.",
  "plan": "Abstract Rust syntax tree (items, fns, impls, traits, mods, exprs) and visitor as a recursive function; theorem by mutual induction."
 },
 "C31": {
  "status": "proved",
  "note": "For every syntax tree: no nesting check fails, the function of each mutant is the innermost one, names are those of everything around it, and mutants come in the order of nodes.",
  "plan": "Same visitor: contexts of mutants; stack balance."
 },
 "C32": {
  "status": "proved",
  "note": "The whole table, with compound assignments, and the same in any file.",
  "plan": "Operator tables; finite case analysis (complete)."
 },
 "C33": {
  "status": "proved",
  "note": "Both directions, for every match at any position.",
  "plan": "Match arms model; theorem over all lists of arms."
 },
 "C34": {
  "status": "partial",
  "note": "For every type built from the known types at any nesting (predicate fits). Refuted for one-element tuples, NonZero types, Box<str> and the like, &mut str and arrays of types that cannot be copied. Generic containers of unknown name, lifetimes and trait bounds are outside the typing relation.",
  "plan": "Type AST, expression AST, a typing relation independent of the generator; soundness with refuted corner cases."
 },
 "C35": {
  "status": "proved",
  "note": "The error values given by the user are assumed different for the distinctness claim.",
  "plan": "Counting and membership theorems on the same generator."
 },
 "C36": {
  "status": "partial",
  "note": "For every token stream without invisible groups (source text contains none); refuted for streams with invisible groups, where two words can be joined and the debug assertion can fail. A lexer reads the printed text back as the tokens, so printing is injective, for identifiers, numbers and strings; refuted for numbers cut at a dot.",
  "plan": "Token trees; pretty printer; erasure of spaces."
 },
 "C37": {
  "status": "proved",
  "note": "For writers that write whole lines, as the property says, whatever the bytes; a line that arrives in two writes is shown wrongly (C37_partial_writes_refuted).",
  "plan": "TailFile machine over bytes, arbitrary write and poll schedules, with the UTF-8 lossy decoder."
 },
 "C38": {
  "status": "partial",
  "note": "For every finite tree with distinct names in each directory, every option setting, with git's ignore rules, UTF-8 validity of names and readability as oracles; devices, sockets and pipes are not copied; a plain file with a version control name is also left out (C38_directories_refuted). Windows symlinks, interrupts and permission bits of directories are not modelled.",
  "plan": "Directory trees; `copy_tree` filter; theorem on which paths exist in the copy."
 },
 "C39": {
  "status": "partial",
  "note": "Globs of literals, ?, *, ** and classes: proved to match as documented, and the set and error behaviour. Refuted for the empty glob and for negated classes (which match a slash). Braces and Windows separators are not modelled.",
  "plan": "`build_glob_set` rewriting over glob syntax with component matching."
 },
 "C40": {
  "status": "partial",
  "note": "Counters, the scenarios displayed and their phases, the drawn numbers and the last line of text, for all schedules when logs are UTF-8; false otherwise (C40_log_refuted). For the search and the copy see C64.",
  "plan": "Console model driven by the lab machine; invariant over all schedules."
 },
 "C41": {
  "status": "partial",
  "note": "Proved for members under the workspace root and names given once; refuted for repeated names and for members outside the root.",
  "plan": "Package selection functions."
 },
 "C42": {
  "status": "partial",
  "note": "Selection of tests and baseline proved; the last clause holds by default and is refuted for --test-package and --test-workspace.",
  "plan": "Test selection functions; subset of baseline selection."
 },
 "C43": {
  "status": "proved",
  "note": "Internal errors and interrupts noticed while running cargo are nondeterministic steps of the model.",
  "plan": "`join_threads`, `check_interrupted` in the lab machine."
 },
 "C44": {
  "status": "partial",
  "note": "Proved: the listing and the test run with the same arguments agree, the order of the filters, the shards of one selection divide it, and a run that ends normally records exactly the listed names. Refuted: --iterate with --shard does not keep to the same division. The JSON listing is in C53 and colors in C56.",
  "plan": "`main` after option parsing as one function with the world as oracles; list and test run share the selection; the run is the lab machine of C12."
 },
 "C45": {
  "status": "partial",
  "note": "Proved for mutants in files whose tree-relative path has no colon and whose line and column are printed; with a colon in a path two different mutants can share a name (refuted).",
  "plan": "`Mutant::name(true)` injectivity."
 },
 "C46": {
  "status": "proved",
  "note": "For any argument vector whose first element (the program) is not empty; a leading empty argument leaves no trace (C46_empty_first_refuted).",
  "plan": "`quote_argv` decode function and round trip."
 },
 "C47": {
  "status": "partial",
  "note": "Same places as the compiler, name.rs first, proved except for two kinds of path attributes, which are refuted: an inline module with a path attribute in a file like foo.rs, and modules below a file that was itself found through a path attribute. Absolute paths are refused.",
  "plan": "`find_mod_source` candidates."
 },
 "C48": {
  "status": "proved",
  "note": "",
  "plan": "`clean_filename` characters."
 },
 "C49": {
  "status": "partial",
  "note": "Proved for every crash point of every schedule once the old names are copied (no write errors, names without newline). Refuted for a crash between rotation and that copy: the earlier names are then only in mutants.out.old and are forgotten.",
  "plan": "Lab machine prefixes (every reachable state is a possible crash point)."
 },
 "C50": {
  "status": "proved",
  "note": "One pass of replacement leaves \\r\\n in a file with \\r\\r\\n (refuted for the idempotence reading).",
  "plan": "CRLF normalisation function."
 },
 "C51": {
  "status": "partial",
  "note": "Proved for every path with at least two components; refuted for a bare file name (--manifest-path Cargo.toml is refused).",
  "plan": "`start_dir`, `canonical` of main.rs with the disk as an oracle satisfying stated laws."
 },
 "C52": {
  "status": "proved",
  "note": "Labels handed to the diff library; the body of the diff is computed by the similar crate and not modelled.",
  "plan": "`Mutant::diff` header labels as texts; the body is computed by the `similar` crate."
 },
 "C53": {
  "status": "partial",
  "note": "Proved for all texts and lists: the files are read back by an independent JSON reader and describe the mutants, files and outcomes. At the end of a run: exact if writes do not fail; if they may, the lists are exact and outcomes.json is a beginning of the right text (C53_end_cut), of which the rest can be missing without an error (C53_end_refuted). The digits of a duration are an oracle that prints JSON numbers.",
  "plan": "serde_json's pretty printer and string escapes, the derived and written Serialize instances as JSON values; an independent reader of RFC 8259; round trip by induction; the data of each object stated field by field."
 },
 "C54": {
  "status": "partial",
  "note": "Refuted: an error while writing the last bytes (up to the size of the buffer) is not reported, because the BufWriter is dropped without a flush. Proved: what is missing is at the end and never longer than the buffer; without disk errors the file is whole; the file is always a beginning of the text.",
  "plan": "std's BufWriter over a disk that may fail at any write, with any sequence of chunks."
 },
 "C55": {
  "status": "partial",
  "note": "Proved for every interleaving: nothing is lost, the tool's part and the results are exact; with commands that write only while they run the whole log is exact and is read back by cutting it at the marks. Refuted in general: a process that outlives its command can write into the middle of a message. The tool panics only over a mutant without a name (C55_panic); whole programs have none (C75_names).",
  "plan": "A transition system of one scenario's log with file handles (append mode, position), writes in parts, errors, and commands writing at any time; seen as a trace of writes."
 },
 "C56": {
  "status": "partial",
  "note": "The message for every outcome word for word, names and listings with and without colors, and what is printed over a run without errors. Over a run the logs to be printed must be UTF-8 (else the display panics, C40_log_refuted). Durations as text are an argument here; C77 fills it in.",
  "plan": "Messages and styles as text functions; a reader that drops escape codes as specification."
 },
 "C57": {
  "status": "partial",
  "note": "Proved for listings, messages and the trace. Refuted for the progress display on stderr.",
  "plan": "The decision as a function of environment, option and terminals."
 },
 "C58": {
  "status": "partial",
  "note": "Proved for build directories without symbolic links, in particular copies of trees without links; that one existing file is changed and that the disk is restored hold in any case. Refuted with a link to an absolute path.",
  "plan": "A disk with links and path resolution; the copy of C38 inside it."
 },
 "C59": {
  "status": "proved",
  "note": "Over the machine of C12 with the flag beside it, set at any time. The check while copying a tree is left out, so a copy may still end well after the interrupt. The first copy of the tree, the discovery of mutants and waiting for the lock come before the machine begins.",
  "plan": "a flag beside the lab machine; when it is set no thread passes the check after a cargo command."
 },
 "C60": {
  "status": "proved",
  "note": "Over the machine of C12. A BuildDir's TempDir deletes its directory when the owner (the main thread until a worker takes it, then that worker) ends. Copying is one step, so a copy that fails leaves nothing; deleting is assumed to succeed, because the tempfile crate ignores errors. A process that is killed leaves its directories: outside the model.",
  "plan": "owners of build directories beside the lab machine; a directory with a TempDir goes when its owner does."
 },
 "C61": {
  "status": "partial",
  "note": "Proved when results do not depend on line ends (CRLF or LF): every recorded outcome is that of the mutant alone, and two complete runs agree. Refuted if they do: a mutated CRLF file is put back with LF, and later mutants of other files in the same build directory are tested with it.",
  "plan": "Restrict the lab machine to runs in which cargo's exit is a function of the source files; compare each recorded outcome with a direct evaluation on a fresh tree."
 },
 "C62": {
  "status": "partial",
  "note": "For one file: if the spans of its nodes are different and the values print differently; the latter proved for types made of identifiers, numbers and strings. For a tree: if no file is visited twice (C29_once_refuted says when it is). Refuted for two configured errors that are different tokens but print alike.",
  "plan": "The places of a tree listed independently of the visitor; printed values told apart by a lexer."
 },
 "C63": {
  "status": "proved",
  "note": "Disk, cargo, clap and the parsers of other crates are parameters. An interrupt or a failing disk may end the program at any time with an error. Discovery must come to an end (C29_ends_refuted).",
  "plan": "Compose the models of all stages of main into one relation from worlds and command lines to endings."
 },
 "C64": {
  "status": "partial",
  "note": "Refuted: mutants in files that the globs leave out are counted as found.",
  "plan": "Collect the calls that the search makes to the display; sum them and compare with the result of the search."
 },
 "C65": {
  "status": "partial",
  "note": "For all schedules: commands, environment, limits, files, order and verdicts. Missing: RUSTFLAGS with white space other than blanks (C26), and multipliers that are not finite numbers from 0 on panic after the baseline (refuted).",
  "plan": "Transition system of the lab joined with the models of commands, limits and polls; invariants tie the log of processes to the outcomes."
 },
 "C66": {
  "status": "proved",
  "note": "For all messages and lines of the display; the words for durations and the console crate's choice of codes are as modelled in PrintM.",
  "plan": "A terminal as a specification (screen); each printed text is a concatenation of pieces that leave it in its usual state."
 },
 "C67": {
  "status": "proved",
  "note": "For all runs and schedules, also when a mutant is in the list twice. What the lab is given is that of main; cargo itself is arbitrary.",
  "plan": "Join the model of the program (WholeM) with that of the cargo processes (LaunchM): the lab is given the options and mutants of main, and the package of each mutant is the one it was found in; then C63 and C65 combine."
 },
 "C68": {
  "status": "proved",
  "note": "All words and variables, from the name of the program on (C68_program). Left out: arguments that are not UTF-8, texts of help and errors; clap's own code is trusted to be as in ClapM.",
  "plan": "A table of the options and an inductive relation of how words are read as uses, independent of the parser; the parser is proved sound and complete for it, and the fields are read off the uses."
 },
 "C69": {
  "status": "proved",
  "note": "All files that are TOML, and what the options of a run are because of them. The TOML parser is an oracle; so is what the toml crate makes of a table as the name of a test tool.",
  "plan": "Model the derived deserialiser as a loop over entries; specification by what each entry means, field by field; then combine with the precedence of C22 and the opening of the workspace of C63."
 },
 "C70": {
  "status": "partial",
  "note": "C70_selects_edited: a diff that was written for a script of changes is accepted and selects exactly the mutants with a changed line; C70_any_context: two such diffs of the same changes select the same; C70_widths and C70_changed_lines: the hunks for any width of context from 1 are such hunks; C70_scope and C70_zero: the same of whole runs and their cargo processes. Partial: false for width 0 (C70_no_context_refuted, as C06_zero_context_refuted). That the patch crate reads the text of the diff as these hunks is not shown: it is an oracle.",
  "plan": "A script of kept, removed and added lines says how a file came about; hunks_of says which hunks a diff of it may have, unified computes those for a width. The loop of affected_lines over all hunks is shown to be the same as over the whole script, so where the cuts are makes no difference; then C05's proof for the selection, and C63 and C67 for whole runs."
 },
 "C71": {
  "status": "proved",
  "note": "Everything in the statement. The last part for output is under the condition of the statement (tidy); without it see C55_mixed_refuted. Before the mutation is applied the log is a beginning of its heading (C71_not_ahead). The paths in outcomes.json are functions of the outcome in JsonM; C71_paths shows that there is such a function when no mutant is listed twice. start_scenario is one step (it holds the lock).",
  "plan": "Run the systems of LaunchM and LogM together: threads go on when their logs have come to where they should be, and leftover processes write at any time. An invariant ties every recorded outcome and every thread to a log of its own; then C55 says what is in it and C65 which processes the outcome was made from. Every run of LaunchM is shown to be one of these."
 },
 "C72": {
  "status": "proved",
  "note": "Everything in the statement. A report is made in the step of what it is about, so the theorems say nothing about the order between threads. That the error of a thread is an interrupt is an oracle. The words are not modelled. The warnings about timeouts are in C23; those of discovery and options are in C44, C58 and others.",
  "plan": "Collect the reports of every step of LaunchM's runs; show by invariants that those about processes are a function of the processes, those about outcomes of the outcomes, and that the step that ends the run has the state that its reports describe; turn outcomes into processes by C65_parts. For the exit status go through the account of C67."
 },
 "C73": {
  "status": "proved",
  "note": "Everything in the statement. That the runs see the same tree and the same answers of cargo metadata is an assumption, which is what the manual asks for; --iterate is left out because it depends on the output directory of each run.",
  "plan": "Discovery does not depend on the fuel of the walk or the output directory, so every run selects from the same list (C03 for the parts). The account of C67 of each run gives its tests; put them together and compare the statuses."
 },
 "C74": {
  "status": "proved",
  "note": "A series of runs (RoundM), each finding the output directory as the one before has left it, whether that one has ended or was killed while testing, with other trees and arguments each time and changes to other files between them. C74_listed: whatever stands in the lists that the next run reads was there before, or cargo processes of one of the runs show it. C74_kept, C74_never_again: nothing recorded by a run that has ended is forgotten or tested again. C74_next: nothing else is left out. C74_zero: what status 0 of the last run says about all mutants of the packages. Conditions: names take one line each (C49), writes in the output directory do not fail, and runs are not killed while setting up the directory (C49_rotation_window_refuted).",
  "plan": "RoundM, RoundS, RoundP, RoundT: one run from the directory that it finds to the one that it leaves (after, set_up, rreachable), then induction over the series."
 },
 "C75": {
  "status": "proved",
  "note": "Everything in the statement. That the root of the workspace is not a readable file and that the search ends are hypotheses (the search need not end: C29_ends_refuted). Writing to a closed standard output, which panics at any time, is in WholeM and is not counted here.",
  "plan": "Offered mutants of function values are inside their function, so they have names; this removes the panics of the filters, of --iterate and of the listings. The measure of LabM and its progress theorem then apply to whole programs, and the limits are the only panic that LaunchM adds."
 },
 "C76": {
  "status": "proved",
  "note": "Everything in the statement. The flag is modelled by the number of checks that still find it clear. What is on disk besides the copied tree when an interrupt ends the program while it waits for a lock is in LockM; interrupts while testing are C59; that the copied part of a tree is deleted is C60.",
  "plan": "StopM adds the checks of src/interrupt.rs to WalkM, WholeM, MainM and CopyM; the search without interrupts is proved to be that of WalkM, and a search with one is the same or cut at a file; then the program up to the tests, the lock and the copy."
 },
 "C77": {
  "status": "partial",
  "note": "Everything in the statement for all durations; the last line of the display (C77_line_partial) as in C40, when logs are UTF-8. The text of humantime and of decimal formatting are modelled from the documented behaviour of these versions; where a time is drawn (while copying or testing) see PrintM.",
  "plan": "TimesM: humantime's words and Rust's one decimal of a 32-bit float; readers for both as specification; errors of the three roundings added up."
 },
 "C78": {
  "status": "proved",
  "note": "Everything in the statement. One lock.json is modelled, as a file that stays the same file when its directory is renamed; directories and their renaming are in LockM (C18). The start time is any text. The lock of the system (flock) is taken to exclude other processes.",
  "plan": "OwnerM: processes that open, lock, empty and write one file, with short writes and crashes; invariant over all reachable states; the JSON reader of C53 as specification."
 },
 "C79": {
  "status": "proved",
  "note": "A failing write of mutants.json itself, and debug.log after it has been opened, are not modelled. outcomes.json is read in full if no write fails, otherwise a beginning of it (C53_end_refuted).",
  "plan": "FilesM: lab_open on the directory that MainM has set up, then the lab of LabM/LaunchM; invariant that the lab changes no other file; C11, C12, C14, C09 and C53 joined for the run from the command line on, without their hypotheses about names; C79_order: the order in mutants.json is the order in which workers take them."
 },
 "C80": {
  "status": "proved",
  "note": "Colors, and each call of print! being one atomic write, are taken from PrintM; warnings and the display go to standard error and are not part of the text. That names are shown as in the lists is stated for runs without times and logs, and for names without line breaks.",
  "plan": "StdoutM: the text grows with the steps of ConsoleM; invariant that it is the first line, the messages of the finished scenarios and the summary; then C40_final, C56_run, C08_counts_partition and C11_exact_if_ok; C80_baseline from C80_end and the exit status of C79."
 }
}