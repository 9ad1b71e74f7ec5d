(** What the words of a command line mean (C68): the options, how they may be written, and which of them
    go together; independent of the parser. *)
From Coq Require Import String List NArith ZArith QArith Qpower Bool Arith.
From Verif Require Import Text F64M SpanM PathM MutantM ShardM PackageM OptionsM PrintM WalkM MainM WholeM.
From Verif Require ClapM.
Import ListNotations.
Open Scope list_scope.
Open Scope nat_scope.

(** * Values *)
Definition digit (c : chr) : Prop := (48 <= c <= 57)%N.
(** Digits, and the number that they are. *)
Inductive digits : text -> N -> Prop :=
| dg_nil : digits [] 0
| dg_more t n c : digits t n -> digit c -> digits (t ++ [c]) (10 * n + (c - 48)).
(** A number that fits into 64 bits, perhaps with a plus sign. *)
Definition number (t : text) (n : N) : Prop :=
  exists d, (t = d \/ t = 43%N :: d) /\ d <> [] /\ digits d n /\ (n < 2 ^ 64)%N.

(** Letters in either case. *)
Definition same_letter (a b : chr) : Prop := a = b \/ ((97 <= b <= 122)%N /\ (a + 32)%N = b).
Definition spelled (t : text) (w : string) : Prop := Forall2 same_letter t (tx w).

(** A decimal number: digits, perhaps with a point among them, and perhaps an exponent. *)
Inductive sign : text -> bool -> Prop :=
| sg_none : sign [] false
| sg_plus : sign [43%N] false
| sg_minus : sign [45%N] true.
Inductive power : text -> Z -> Prop :=
| pw_none : power [] 0
| pw_e s neg d n c : same_letter c 101%N -> sign s neg -> d <> [] -> digits d n ->
    power (c :: s ++ d) (if neg then - Z.of_N n else Z.of_N n).
Inductive unsigned : text -> Q -> Prop :=
| un_int i n p x : i <> [] -> digits i n -> power p x -> unsigned (i ++ p) (inject_Z (Z.of_N n) * Qpower (10 # 1) x)
| un_point i f n p x : i ++ f <> [] -> digits (i ++ f) n -> power p x ->
    unsigned (i ++ 46%N :: f ++ p) (inject_Z (Z.of_N n) * Qpower (10 # 1) (x - Z.of_nat (length f))).
(** A float: of a decimal number the nearest one. *)
Inductive float : text -> f64 -> Prop :=
| fl_inf s neg t : sign s neg -> spelled t "inf" \/ spelled t "infinity" -> float (s ++ t) (Inf neg)
| fl_nan s neg t : sign s neg -> spelled t "nan" -> float (s ++ t) NaN
| fl_number s neg t q : sign s neg -> unsigned t q -> float (s ++ t) (Fin (rnd64 (if neg then - q else q))).

Definition any (t : text) : Prop := True.
Definition yes_or_no (t : text) : Prop := t = tx "true" \/ t = tx "false".
Definition one_of (l : list text) (t : text) : Prop := In t l.
Definition is_number (t : text) : Prop := exists n, number t n.
Definition is_float (t : text) : Prop := exists v, float t v.
Definition part (t : text) (s : shard) : Prop :=
  exists a b, t = a ++ 47%N :: b /\ number a (sh_k s) /\ number b (sh_n s) /\ (sh_k s < sh_n s)%N.
Definition is_part (t : text) : Prop := exists s, part t s.
Definition is_level (t : text) : Prop :=
  (exists n, number t n /\ (1 <= n <= 5)%N)
  \/ spelled t "error" \/ spelled t "warn" \/ spelled t "info" \/ spelled t "debug" \/ spelled t "trace".

(** * The options *)
(** How often it may be given, and whether it has a value. *)
Inductive usage := Switch | Single | Repeated.
Record row := mkRow {
  ro_name : text; ro_words : list text; ro_usage : usage; ro_valid : text -> Prop;
  ro_free : bool     (* the word after it is its value, whatever it looks like *) }.
Definition r (name : string) (words : list string) (u : usage) (v : text -> Prop) : row :=
  mkRow (tx name) (map tx words) u v false.

Definition rows : list row := [
  r "all_logs" ["--all-logs"%string] Switch any;
  r "baseline" ["--baseline"%string] Single (one_of [tx "run"; tx "skip"]);
  r "cap_lints" ["--cap-lints"%string] Single yes_or_no;
  r "caught" ["--caught"%string; "-v"%string] Switch any;
  r "check" ["--check"%string] Switch any;
  r "colors" ["--colors"%string] Single (one_of [tx "auto"; tx "always"; tx "never"]);
  r "copy_vcs" ["--copy-vcs"%string; "--copy_git"%string] Single yes_or_no;
  r "diff" ["--diff"%string] Switch any;
  r "dir" ["--dir"%string; "-d"%string] Single any;
  r "completions" ["--completions"%string] Single (one_of [tx "bash"; tx "elvish"; tx "fish"; tx "powershell"; tx "zsh"]);
  r "error" ["--error"%string] Repeated any;
  r "examine_re" ["--re"%string; "--regex"%string; "--examine-regex"%string; "--examine-re"%string; "-F"%string] Repeated any;
  r "exclude" ["--exclude"%string; "-e"%string] Repeated any;
  r "exclude_re" ["--exclude-re"%string; "--exclude-regex"%string; "-E"%string] Repeated any;
  r "file" ["--file"%string; "-f"%string] Repeated any;
  r "gitignore" ["--gitignore"%string] Single yes_or_no;
  r "in_place" ["--in-place"%string] Switch any;
  r "iterate" ["--iterate"%string] Switch any;
  r "jobs" ["--jobs"%string; "-j"%string] Single is_number;
  r "jobserver" ["--jobserver"%string] Single yes_or_no;
  r "jobserver_tasks" ["--jobserver-tasks"%string] Single is_number;
  r "json" ["--json"%string] Switch any;
  r "leak_dirs" ["--leak-dirs"%string] Switch any;
  r "level" ["--level"%string; "-L"%string] Single is_level;
  r "list" ["--list"%string] Switch any;
  r "list_files" ["--list-files"%string] Switch any;
  r "manifest_path" ["--manifest-path"%string] Single any;
  r "no_config" ["--no-config"%string] Switch any;
  r "no_copy_target" ["--no-copy-target"%string] Switch any;
  r "no_times" ["--no-times"%string] Switch any;
  r "line_col" ["--line-col"%string] Single yes_or_no;
  r "output" ["--output"%string; "-o"%string] Single any;
  r "in_diff" ["--in-diff"%string; "-D"%string] Single any;
  r "minimum_test_timeout" ["--minimum-test-timeout"%string] Single is_float;
  r "package" ["--package"%string; "-p"%string] Repeated any;
  r "shuffle" ["--shuffle"%string] Switch any;
  r "no_shuffle" ["--no-shuffle"%string] Switch any;
  r "profile" ["--profile"%string] Single any;
  r "shard" ["--shard"%string] Single is_part;
  r "skip_calls" ["--skip-calls"%string] Repeated any;
  r "skip_calls_defaults" ["--skip-calls-defaults"%string] Single yes_or_no;
  r "test_package" ["--test-package"%string] Repeated any;
  r "test_tool" ["--test-tool"%string] Single (one_of [tx "cargo"; tx "nextest"]);
  r "test_workspace" ["--test-workspace"%string] Single yes_or_no;
  r "timeout" ["--timeout"%string; "-t"%string] Single is_float;
  r "timeout_multiplier" ["--timeout-multiplier"%string] Single is_float;
  r "build_timeout" ["--build-timeout"%string] Single is_float;
  r "build_timeout_multiplier" ["--build-timeout-multiplier"%string] Single is_float;
  r "unviable" ["--unviable"%string; "-V"%string] Switch any;
  r "version" ["--version"%string] Switch any;
  r "workspace" ["--workspace"%string] Switch any;
  mkRow (tx "cargo_arg") [tx "--cargo-arg"; tx "-C"] Repeated any true;
  r "features" ["--features"%string] Repeated any;
  r "no_default_features" ["--no-default-features"%string] Switch any;
  r "all_features" ["--all-features"%string] Switch any ].

(** Variables that stand for an option that is not there. *)
Definition variables_for : list (text * text) := [
  (tx "CARGO_TERM_COLOR", tx "colors"); (tx "CARGO_MUTANTS_JOBS", tx "jobs"); (tx "CARGO_MUTANTS_TRACE_LEVEL", tx "level");
  (tx "CARGO_MUTANTS_OUTPUT", tx "output"); (tx "CARGO_MUTANTS_MINIMUM_TEST_TIMEOUT", tx "minimum_test_timeout") ].

(** Options that may not be used together. *)
Definition exclusive : list (text * text) := [
  (tx "dir", tx "manifest_path"); (tx "in_place", tx "jobs"); (tx "in_place", tx "gitignore"); (tx "in_place", tx "no_copy_target");
  (tx "gitignore", tx "no_copy_target"); (tx "timeout", tx "timeout_multiplier"); (tx "build_timeout", tx "build_timeout_multiplier") ].

(** * How they are written *)
(** An option that was used: its name, and its value if it has one. *)
Definition use : Type := text * option text.
Definition long_word (w : text) : Prop := exists t, w = 45%N :: 45%N :: t.
Definition short_word (w : text) : Prop := exists c, w = [45%N; c].
(** A word that can be a value by itself. *)
Definition plain (t : text) : Prop := t = [45%N] \/ forall u, t <> 45%N :: u.

(** [reads fin ts us rest]: the words are the uses, in this order, and then come to an end that [fin] allows. *)
Inductive reads (fin : list text -> list text -> Prop) : list text -> list use -> list text -> Prop :=
| rd_end ts rest : fin ts rest -> reads fin ts [] rest
| rd_switch o w ts us rest : In o rows -> ro_usage o = Switch -> In w (ro_words o) ->
    reads fin ts us rest -> reads fin (w :: ts) ((ro_name o, None) :: us) rest
| rd_value o w v ts us rest : In o rows -> ro_usage o <> Switch -> In w (ro_words o) -> ro_free o = true \/ plain v ->
    reads fin ts us rest -> reads fin (w :: v :: ts) ((ro_name o, Some v) :: us) rest
| rd_equals o w v ts us rest : In o rows -> ro_usage o <> Switch -> In w (ro_words o) ->
    reads fin ts us rest -> reads fin ((w ++ 61%N :: v) :: ts) ((ro_name o, Some v) :: us) rest
| rd_attached o w c v ts us rest : In o rows -> ro_usage o <> Switch -> In w (ro_words o) -> short_word w -> c <> 61%N ->
    reads fin ts us rest -> reads fin ((w ++ c :: v) :: ts) ((ro_name o, Some (c :: v)) :: us) rest
| rd_together o w c s ts us rest : In o rows -> ro_usage o = Switch -> In w (ro_words o) -> short_word w -> c <> 45%N ->
    reads fin ((45%N :: c :: s) :: ts) us rest -> reads fin ((w ++ c :: s) :: ts) ((ro_name o, None) :: us) rest.

(** The end of the words, or two dashes with words for the tests after them. *)
Definition at_end (ts rest : list text) : Prop := (ts = [] /\ rest = []) \/ ts = tx "--" :: rest.
(** A question for help. *)
Definition at_help (ts rest : list text) : Prop :=
  rest = [] /\ exists ts', ts = tx "--help" :: ts' \/ exists s, ts = (tx "-h" ++ s) :: ts'.

(** * Which uses go together *)
Definition uses_of (id : text) (us : list use) : list use := filter (fun u => text_eqb (fst u) id) us.
Definition used (us : list use) (id : text) : Prop := In id (map fst us).
Definition valid_use (u : use) : Prop := forall o v, In o rows -> fst u = ro_name o -> snd u = Some v -> ro_valid o v.
Definition right (us : list use) : Prop :=
  Forall valid_use us /\ forall o, In o rows -> ro_usage o <> Repeated -> length (uses_of (ro_name o) us) <= 1.
(** What the variables add. *)
Definition from_variables (e : text -> option text) (us : list use) : list use :=
  flat_map (fun p => match e (fst p), uses_of (snd p) us with Some v, [] => [(snd p, Some v)] | _, _ => [] end) variables_for.
Definition compatible (us : list use) : Prop := forall p, In p exclusive -> ~ (used us (fst p) /\ used us (snd p)).
(** The words are in order and ask for these things. *)
Definition asks (e : text -> option text) (ts : list text) (us : list use) (rest : list text) : Prop :=
  exists vs, reads at_end ts vs rest /\ us = vs ++ from_variables e vs /\ right us /\ compatible us.

(** Uses that are in order together with what the variables add. *)
Definition fine (e : text -> option text) (us : list use) : Prop := right (us ++ from_variables e us) /\ compatible (us ++ from_variables e us).

(** * A command line for given arguments *)
Section Line.
(** A way to write floats. *)
Variable shows : f64 -> text.
Definition sw (b : bool) : list (option text) := if b then [None] else [].
Definition va (o : option text) : list (option text) := match o with Some v => [Some v] | None => [] end.
Definition many (l : list text) : list (option text) := map Some l.
Definition yn (b : bool) : text := if b then tx "true" else tx "false".
Definition yes_no (o : option bool) : list (option text) := va (option_map yn o).
Definition unless (d b : bool) : list (option text) := if Bool.eqb d b then [] else [Some (yn b)].
Definition num (o : option nat) : list (option text) := va (option_map show_nat o).
Definition flt (o : option f64) : list (option text) := va (option_map shows o).
Definition line_parts (a : arguments) : list (text * list (option text)) :=
  let b := ag_options a in [
  (tx "--manifest-path", va (ag_manifest a)); (tx "--dir", va (ag_dir a)); (tx "--no-config", sw (ag_no_config a));
  (tx "--package", many (ag_packages a)); (tx "--workspace", sw (ag_workspace a)); (tx "--iterate", sw (ag_iterate a));
  (tx "--list-files", sw (ag_list_files a)); (tx "--list", sw (ag_list a)); (tx "--in-diff", va (ag_in_diff a));
  (tx "--shard", va (option_map (fun s => show_N (sh_k s) ++ tx "/" ++ show_N (sh_n s)) (ag_shard a)));
  (tx "--all-logs", sw (ar_all_logs b)); (tx "--baseline", if ar_baseline b then [] else [Some (tx "skip")]);
  (tx "--cap-lints", yes_no (ar_cap_lints b)); (tx "--caught", sw (ar_caught b)); (tx "--check", sw (ar_check b));
  (tx "--copy-vcs", yes_no (ar_copy_vcs b)); (tx "--diff", sw (ar_diff b)); (tx "--error", many (ar_error b));
  (tx "--re", many (ar_examine_re b)); (tx "--exclude", many (ar_exclude b)); (tx "--exclude-re", many (ar_exclude_re b));
  (tx "--file", many (ar_file b)); (tx "--gitignore", unless true (ar_gitignore b)); (tx "--in-place", sw (ar_in_place b));
  (tx "--jobs", num (ar_jobs b)); (tx "--jobserver", unless true (ar_jobserver b));
  (tx "--jobserver-tasks", num (ar_jobserver_tasks b)); (tx "--json", sw (ar_json b)); (tx "--leak-dirs", sw (ar_leak_dirs b));
  (tx "--no-times", sw (ar_no_times b)); (tx "--line-col", unless true (ar_line_col b)); (tx "--output", va (ar_output b));
  (tx "--minimum-test-timeout", flt (ar_minimum_test_timeout b)); (tx "--no-shuffle", sw (ar_no_shuffle b));
  (tx "--profile", va (ar_profile b)); (tx "--skip-calls", many (ar_skip_calls b));
  (tx "--skip-calls-defaults", yes_no (ar_skip_calls_defaults b)); (tx "--test-package", many (ar_test_package b));
  (tx "--test-tool", va (option_map (fun t => match t with ToolCargo => tx "cargo" | ToolNextest => tx "nextest" end) (ar_test_tool b)));
  (tx "--test-workspace", yes_no (ar_test_workspace b)); (tx "--timeout", flt (ar_timeout b));
  (tx "--timeout-multiplier", flt (ar_timeout_multiplier b)); (tx "--build-timeout", flt (ar_build_timeout b));
  (tx "--build-timeout-multiplier", flt (ar_build_timeout_multiplier b)); (tx "--unviable", sw (ar_unviable b));
  (tx "--cargo-arg", many (ar_cargo_arg b)); (tx "--features", many (fe_features (ar_features b)));
  (tx "--no-default-features", sw (fe_no_default (ar_features b))); (tx "--all-features", sw (fe_all (ar_features b))) ].
Definition line_word (w : text) (o : option text) : text := match o with None => w | Some v => w ++ tx "=" ++ v end.
Definition line_for (a : arguments) : list text :=
  flat_map (fun p => map (line_word (fst p)) (snd p)) (line_parts a) ++ tx "--" :: ar_cargo_test_args (ag_options a).
End Line.

(** Arguments that a command line can ask for. *)
Definition both {A B} (x : option A) (y : option B) : Prop := x <> None /\ y <> None.
Definition floats (a : arguments) : list f64 :=
  let b := ag_options a in
  flat_map (fun o => match o with Some v => [v] | None => [] end)
    [ar_minimum_test_timeout b; ar_timeout b; ar_timeout_multiplier b; ar_build_timeout b; ar_build_timeout_multiplier b].
Record consistent (a : arguments) : Prop := {
  co_where : ~ both (ag_manifest a) (ag_dir a);
  co_timeout : ~ both (ar_timeout (ag_options a)) (ar_timeout_multiplier (ag_options a));
  co_build : ~ both (ar_build_timeout (ag_options a)) (ar_build_timeout_multiplier (ag_options a));
  co_jobs : ar_in_place (ag_options a) = true -> ar_jobs (ag_options a) = None;
  co_ignore : ar_in_place (ag_options a) = true -> ar_gitignore (ag_options a) = true;
  co_shard : forall s, ag_shard a = Some s -> (sh_k s < sh_n s < 2 ^ 64)%N;
  co_jobs_fit : forall n, ar_jobs (ag_options a) = Some n -> (N.of_nat n < 2 ^ 64)%N;
  co_tasks_fit : forall n, ar_jobserver_tasks (ag_options a) = Some n -> (N.of_nat n < 2 ^ 64)%N;
  co_floats : Forall (fun v => exists t, float t v) (floats a) }.

(** * What the uses say *)
Section Says.
Variables (us : list use) (rest : list text).
Definition opt_list {A} (o : option A) : list A := match o with Some x => [x] | None => [] end.
(** A flag is on if it was used. *)
Definition flag_is (n : string) (b : bool) : Prop := b = true <-> used us (tx n).
(** The values, in order. *)
Definition list_is (n : string) (l : list text) : Prop := uses_of (tx n) us = map (fun v => (tx n, Some v)) l.
Definition value_is (n : string) (o : option text) : Prop := list_is n (opt_list o).
(** One of some things, by its text; nothing if not used. *)
Definition thing_is {A} (means : text -> A -> Prop) (n : string) (o : option A) : Prop :=
  match o with None => ~ used us (tx n) | Some x => exists v, value_is n (Some v) /\ means v x end.
Definition bool_means (t : text) (b : bool) : Prop := t = yn b.
Definition size_means (t : text) (n : nat) : Prop := number t (N.of_nat n).
Definition tool_means (t : text) (x : test_tool) : Prop := t = match x with ToolCargo => tx "cargo" | ToolNextest => tx "nextest" end.
(** With a default. *)
Definition with_default {A} (means : text -> A -> Prop) (n : string) (d x : A) : Prop :=
  thing_is means n (Some x) \/ thing_is means n None /\ x = d.
Definition baseline_means (t : text) (b : bool) : Prop := t = if b then tx "run" else tx "skip".

Record says (a : arguments) : Prop := {
  y_manifest : value_is "manifest_path" (ag_manifest a);
  y_dir : value_is "dir" (ag_dir a);
  y_no_config : flag_is "no_config" (ag_no_config a);
  y_packages : list_is "package" (ag_packages a);
  y_workspace : flag_is "workspace" (ag_workspace a);
  y_iterate : flag_is "iterate" (ag_iterate a);
  y_list_files : flag_is "list_files" (ag_list_files a);
  y_list : flag_is "list" (ag_list a);
  y_in_diff : value_is "in_diff" (ag_in_diff a);
  y_shard : thing_is part "shard" (ag_shard a);
  y_all_logs : flag_is "all_logs" (ar_all_logs (ag_options a));
  y_baseline : with_default baseline_means "baseline" true (ar_baseline (ag_options a));
  y_cap_lints : thing_is bool_means "cap_lints" (ar_cap_lints (ag_options a));
  y_caught : flag_is "caught" (ar_caught (ag_options a));
  y_check : flag_is "check" (ar_check (ag_options a));
  y_copy_vcs : thing_is bool_means "copy_vcs" (ar_copy_vcs (ag_options a));
  y_diff : flag_is "diff" (ar_diff (ag_options a));
  y_error : list_is "error" (ar_error (ag_options a));
  y_examine_re : list_is "examine_re" (ar_examine_re (ag_options a));
  y_exclude : list_is "exclude" (ar_exclude (ag_options a));
  y_exclude_re : list_is "exclude_re" (ar_exclude_re (ag_options a));
  y_file : list_is "file" (ar_file (ag_options a));
  y_gitignore : with_default bool_means "gitignore" true (ar_gitignore (ag_options a));
  y_in_place : flag_is "in_place" (ar_in_place (ag_options a));
  y_jobs : thing_is size_means "jobs" (ar_jobs (ag_options a));
  y_jobserver : with_default bool_means "jobserver" true (ar_jobserver (ag_options a));
  y_jobserver_tasks : thing_is size_means "jobserver_tasks" (ar_jobserver_tasks (ag_options a));
  y_json : flag_is "json" (ar_json (ag_options a));
  y_leak_dirs : flag_is "leak_dirs" (ar_leak_dirs (ag_options a));
  y_no_times : flag_is "no_times" (ar_no_times (ag_options a));
  y_line_col : with_default bool_means "line_col" true (ar_line_col (ag_options a));
  y_output : value_is "output" (ar_output (ag_options a));
  y_minimum : thing_is float "minimum_test_timeout" (ar_minimum_test_timeout (ag_options a));
  y_no_shuffle : flag_is "no_shuffle" (ar_no_shuffle (ag_options a));
  y_profile : value_is "profile" (ar_profile (ag_options a));
  y_skip_calls : list_is "skip_calls" (ar_skip_calls (ag_options a));
  y_skip_defaults : thing_is bool_means "skip_calls_defaults" (ar_skip_calls_defaults (ag_options a));
  y_test_package : list_is "test_package" (ar_test_package (ag_options a));
  y_test_tool : thing_is tool_means "test_tool" (ar_test_tool (ag_options a));
  y_test_workspace : thing_is bool_means "test_workspace" (ar_test_workspace (ag_options a));
  y_timeout : thing_is float "timeout" (ar_timeout (ag_options a));
  y_multiplier : thing_is float "timeout_multiplier" (ar_timeout_multiplier (ag_options a));
  y_build_timeout : thing_is float "build_timeout" (ar_build_timeout (ag_options a));
  y_build_multiplier : thing_is float "build_timeout_multiplier" (ar_build_timeout_multiplier (ag_options a));
  y_unviable : flag_is "unviable" (ar_unviable (ag_options a));
  y_cargo_arg : list_is "cargo_arg" (ar_cargo_arg (ag_options a));
  y_test_args : ar_cargo_test_args (ag_options a) = rest;
  y_features : list_is "features" (fe_features (ar_features (ag_options a)));
  y_no_default : flag_is "no_default_features" (fe_no_default (ar_features (ag_options a)));
  y_all_features : flag_is "all_features" (fe_all (ar_features (ag_options a))) }.

(** Colours, and the level of messages on the terminal. *)
Definition color_means (t : text) (c : colors) : Prop := t = match c with CAuto => tx "auto" | CAlways => tx "always" | CNever => tx "never" end.
Definition level_name (l : ClapM.level) : string :=
  match l with ClapM.LError => "error" | ClapM.LWarn => "warn" | ClapM.LInfo => "info" | ClapM.LDebug => "debug" | ClapM.LTrace => "trace" end.
Definition level_number (l : ClapM.level) : N :=
  match l with ClapM.LError => 1 | ClapM.LWarn => 2 | ClapM.LInfo => 3 | ClapM.LDebug => 4 | ClapM.LTrace => 5 end.
Definition level_means (t : text) (l : ClapM.level) : Prop := number t (level_number l) \/ spelled t (level_name l).
End Says.

(** Each option is used in the same way. *)
Definition same_uses (us us' : list use) : Prop := forall id, uses_of id us = uses_of id us'.
(** Without one of the variables. *)
Definition without (n : text) (e : text -> option text) : text -> option text := fun k => if text_eqb k n then None else e k.

(** * All words *)
(** The name of the program, whatever it is, and a question for help without [mutants]. *)
Inductive asks_help : list text -> Prop :=
| ah_option p w ts : w = tx "--help" \/ (exists s, w = tx "-h" ++ s) -> asks_help (p :: w :: ts)
| ah_help p : asks_help [p; tx "help"]
| ah_about p x : x = tx "mutants" \/ x = tx "help" -> asks_help [p; tx "help"; x].
