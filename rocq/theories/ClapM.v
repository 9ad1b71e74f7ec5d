(** Model of the command line: the attributes of [Args] in src/main.rs, and what clap (clap_builder
    4.5.27 and clap_lex 0.7.4, other crates) does with them. *)
From Coq Require Import String List NArith ZArith QArith Qpower Bool Arith.
From Verif Require Import Text F64M SpanM PathM MutantM ShardM PackageM OptionsM PrintM WalkM MainM WholeM.
Import ListNotations.
Open Scope list_scope.
Open Scope nat_scope.

(** * The values *)

(** Rust std [f64::from_str], the value parser of the [Option<f64>] arguments.  Numbers of 2^1024 and more stay
    finite, see F64M. *)
Fixpoint span_digits (s : text) : text * text :=
  match s with
  | [] => ([], [])
  | c :: s' => if is_digit c then let (a, b) := span_digits s' in (c :: a, b) else ([], s)
  end.
Definition lower (c : chr) : chr := if (65 <=? c)%N && (c <=? 90)%N then (c + 32)%N else c.
Definition signed (s : text) : bool * text :=
  match s with
  | c :: s' => if N.eqb c 45 then (true, s') else if N.eqb c 43 then (false, s') else (false, s)
  | [] => (false, s)
  end.
Definition exponent (s : text) : option Z :=
  match s with
  | [] => Some 0%Z
  | c :: s' =>
      if N.eqb (lower c) 101 then
        let (neg, d) := signed s' in
        if match d with [] => false | _ => forallb is_digit d end
        then Some (if neg then (- Z.of_N (parse_digits d))%Z else Z.of_N (parse_digits d)) else None
      else None
  end.
Definition decimal (s : text) : option Q :=
  let (i, r) := span_digits s in
  let (f, e) := match r with c :: r' => if N.eqb c DOT then span_digits r' else ([], r) | [] => ([], r) end in
  match i ++ f with
  | [] => None
  | ds =>
      match exponent e with
      | Some x => Some (inject_Z (Z.of_N (parse_digits ds)) * Qpower (10 # 1) (x - Z.of_nat (length f)))%Q
      | None => None
      end
  end.
Definition f64_from_str (s : text) : option f64 :=
  let (neg, r) := signed s in
  let l := map lower r in
  if text_eqb l (tx "inf") || text_eqb l (tx "infinity") then Some (Inf neg)
  else if text_eqb l (tx "nan") then Some NaN
  else match decimal r with
       | Some q => Some (Fin (rnd64 (if neg then (- q)%Q else q)))
       | None => None
       end.

(** tracing_core [Level::from_str] (src/main.rs:246-252). *)
Inductive level := LError | LWarn | LInfo | LDebug | LTrace.
Definition level_from_str (s : text) : option level :=
  match parse_usize s with
  | Some 1%N => Some LError | Some 2%N => Some LWarn | Some 3%N => Some LInfo | Some 4%N => Some LDebug | Some 5%N => Some LTrace
  | _ =>
      let l := map lower s in
      if text_eqb l (tx "error") then Some LError
      else if text_eqb l (tx "warn") then Some LWarn
      else if text_eqb l (tx "info") then Some LInfo
      else if text_eqb l (tx "debug") then Some LDebug
      else if text_eqb l (tx "trace") then Some LTrace
      else None
  end.

(** Value parsers: [bool], any text ([String] and paths), [usize], [f64], the names of a [ValueEnum] or (src/options.rs:174-185, strum) of
    the test tool, [Shard], [Level]. *)
Inductive vtype := VBool | VAny | VUsize | VFloat | VOneOf (l : list text) | VShard | VLevel.
Definition is_some {A} (o : option A) : bool := match o with Some _ => true | None => false end.
Definition accepts (t : vtype) (v : text) : bool :=
  match t with
  | VBool => mem_text v [tx "true"; tx "false"]
  | VAny => true
  | VUsize => is_some (parse_usize v)
  | VFloat => is_some (f64_from_str v)
  | VOneOf l => mem_text v l
  | VShard => is_some (shard_from_str v)
  | VLevel => is_some (level_from_str v)
  end.

(** * The table *)

(** How often: [SetTrue], [Set] (more than once is an error), [Append]. *)
Inductive takes := TFlag | TOne | TMany.
Record opt := mkOpt {
  oo_id : text; oo_longs : list text; oo_short : option chr; oo_takes : takes; oo_type : vtype;
  oo_hyphen : bool;                     (* allow_hyphen_values *)
  oo_env : option text; oo_conflicts : list text; oo_group : option text }.

Definition flag_ (id long : string) : opt := mkOpt (tx id) [tx long] None TFlag VAny false None [] None.
Definition one_ (id long : string) (t : vtype) : opt := mkOpt (tx id) [tx long] None TOne t false None [] None.
Definition many_ (id long : string) : opt := mkOpt (tx id) [tx long] None TMany VAny false None [] None.
Definition short_ (c : N) (o : opt) : opt :=
  mkOpt (oo_id o) (oo_longs o) (Some c) (oo_takes o) (oo_type o) (oo_hyphen o) (oo_env o) (oo_conflicts o) (oo_group o).
Definition alias_ (l : list text) (o : opt) : opt :=
  mkOpt (oo_id o) (oo_longs o ++ l) (oo_short o) (oo_takes o) (oo_type o) (oo_hyphen o) (oo_env o) (oo_conflicts o) (oo_group o).
Definition env_ (e : string) (o : opt) : opt :=
  mkOpt (oo_id o) (oo_longs o) (oo_short o) (oo_takes o) (oo_type o) (oo_hyphen o) (Some (tx e)) (oo_conflicts o) (oo_group o).
Definition conflicts_ (l : list text) (o : opt) : opt :=
  mkOpt (oo_id o) (oo_longs o) (oo_short o) (oo_takes o) (oo_type o) (oo_hyphen o) (oo_env o) l (oo_group o).
Definition group_ (g : string) (o : opt) : opt :=
  mkOpt (oo_id o) (oo_longs o) (oo_short o) (oo_takes o) (oo_type o) (oo_hyphen o) (oo_env o) (oo_conflicts o) (Some (tx g)).
Definition hyphen_ (o : opt) : opt :=
  mkOpt (oo_id o) (oo_longs o) (oo_short o) (oo_takes o) (oo_type o) true (oo_env o) (oo_conflicts o) (oo_group o).

(** src/main.rs:115-421 [Args] and [Features], in that order; help texts left out. *)
Definition table : list opt := [
  flag_ "all_logs" "all-logs";
  one_ "baseline" "baseline" (VOneOf [tx "run"; tx "skip"]);
  one_ "cap_lints" "cap-lints" VBool;
  short_ 118 (flag_ "caught" "caught");
  flag_ "check" "check";
  env_ "CARGO_TERM_COLOR" (one_ "colors" "colors" (VOneOf [tx "auto"; tx "always"; tx "never"]));
  alias_ [tx "copy_git"] (one_ "copy_vcs" "copy-vcs" VBool);
  flag_ "diff" "diff";
  conflicts_ [tx "manifest_path"] (short_ 100 (one_ "dir" "dir" VAny));
  one_ "completions" "completions" (VOneOf [tx "bash"; tx "elvish"; tx "fish"; tx "powershell"; tx "zsh"]);
  many_ "error" "error";
  alias_ [tx "regex"; tx "examine-regex"; tx "examine-re"] (short_ 70 (many_ "examine_re" "re"));
  short_ 101 (many_ "exclude" "exclude");
  alias_ [tx "exclude-regex"] (short_ 69 (many_ "exclude_re" "exclude-re"));
  short_ 102 (many_ "file" "file");
  group_ "copy_opts" (one_ "gitignore" "gitignore" VBool);
  conflicts_ [tx "jobs"; tx "copy_opts"] (flag_ "in_place" "in-place");
  flag_ "iterate" "iterate";
  env_ "CARGO_MUTANTS_JOBS" (short_ 106 (one_ "jobs" "jobs" VUsize));
  one_ "jobserver" "jobserver" VBool;
  one_ "jobserver_tasks" "jobserver-tasks" VUsize;
  flag_ "json" "json";
  flag_ "leak_dirs" "leak-dirs";
  env_ "CARGO_MUTANTS_TRACE_LEVEL" (short_ 76 (one_ "level" "level" VLevel));
  flag_ "list" "list";
  flag_ "list_files" "list-files";
  one_ "manifest_path" "manifest-path" VAny;
  flag_ "no_config" "no-config";
  group_ "copy_opts" (flag_ "no_copy_target" "no-copy-target");
  flag_ "no_times" "no-times";
  one_ "line_col" "line-col" VBool;
  env_ "CARGO_MUTANTS_OUTPUT" (short_ 111 (one_ "output" "output" VAny));
  short_ 68 (one_ "in_diff" "in-diff" VAny);
  env_ "CARGO_MUTANTS_MINIMUM_TEST_TIMEOUT" (one_ "minimum_test_timeout" "minimum-test-timeout" VFloat);
  short_ 112 (many_ "package" "package");
  flag_ "shuffle" "shuffle";
  flag_ "no_shuffle" "no-shuffle";
  one_ "profile" "profile" VAny;
  one_ "shard" "shard" VShard;
  many_ "skip_calls" "skip-calls";
  one_ "skip_calls_defaults" "skip-calls-defaults" VBool;
  many_ "test_package" "test-package";
  one_ "test_tool" "test-tool" (VOneOf [tx "cargo"; tx "nextest"]);
  one_ "test_workspace" "test-workspace" VBool;
  short_ 116 (one_ "timeout" "timeout" VFloat);
  conflicts_ [tx "timeout"] (one_ "timeout_multiplier" "timeout-multiplier" VFloat);
  one_ "build_timeout" "build-timeout" VFloat;
  conflicts_ [tx "build_timeout"] (one_ "build_timeout_multiplier" "build-timeout-multiplier" VFloat);
  short_ 86 (flag_ "unviable" "unviable");
  flag_ "version" "version";
  flag_ "workspace" "workspace";
  hyphen_ (short_ 67 (many_ "cargo_arg" "cargo-arg"));
  many_ "features" "features";
  flag_ "no_default_features" "no-default-features";
  flag_ "all_features" "all-features" ].

(** * clap's parser *)

Definition find_long (l : text) : option opt := find (fun o => mem_text l (oo_longs o)) table.
Definition find_short (c : chr) : option opt :=
  find (fun o => match oo_short o with Some d => N.eqb c d | None => false end) table.

(** What was found so far: ids with the texts of their values; ["true"] for a flag. *)
Definition found := list (text * text).
Definition values (m : found) (id : text) : list text := map snd (filter (fun x => text_eqb (fst x) id) m).
Definition present (m : found) (id : text) : bool := existsb (fun x => text_eqb (fst x) id) m.

(** clap_builder [Parser::react]: one argument.  [SGo] may leave an option that waits for its value. *)
Inductive step := SErr | SHelp | SGo (m : found) (waiting : option opt).
Definition react (m : found) (o : opt) (v : text) : step :=
  if accepts (oo_type o) v && match oo_takes o with TMany => true | _ => negb (present m (oo_id o)) end
  then SGo (m ++ [(oo_id o, v)]) None else SErr.

(** clap_builder [Parser::parse_long_arg] for the text after ["--"]. *)
Definition long_arg (m : found) (s : text) : step :=
  let (name, val) := match split_once 61%N s with Some (n, v) => (n, Some v) | None => (s, None) end in
  if text_eqb name (tx "help") then match val with None => SHelp | Some _ => SErr end
  else match find_long name with
       | None => SErr
       | Some o =>
           match oo_takes o, val with
           | TFlag, None => react m o (tx "true")
           | TFlag, Some _ => SErr
           | _, Some v => react m o v
           | _, None => SGo m (Some o)
           end
       end.

(** clap_builder [Parser::parse_short_arg] for the text after ["-"]. *)
Fixpoint short_args (m : found) (s : text) : step :=
  match s with
  | [] => SGo m None
  | c :: s' =>
      if N.eqb c 104 then SHelp
      else match find_short c with
           | None => SErr
           | Some o =>
               match oo_takes o with
               | TFlag => match react m o (tx "true") with SGo m' _ => short_args m' s' | x => x end
               | _ =>
                   match s' with
                   | [] => SGo m (Some o)
                   | d :: v => react m o (if N.eqb d 61 then v else s')
                   end
               end
           end
  end.

(** clap_lex [ParsedArg::to_long], [to_short]: neither ["-"] nor a plain word. *)
Definition dashed (t : text) : bool := match t with c :: _ :: _ => N.eqb c 45 | _ => false end.

(** clap_builder [Parser::parse]: all arguments, with those after ["--"]. *)
Inductive scanned := XErr | XHelp | XOk (m : found) (rest : list text).
Fixpoint scan (m : found) (p : option opt) (ts : list text) : scanned :=
  match ts with
  | [] => match p with None => XOk m [] | Some _ => XErr end
  | t :: ts' =>
      let st :=
        match p with
        | Some o => if oo_hyphen o || negb (dashed t) then react m o t else SErr
        | None => if starts_with (tx "--") t then long_arg m (skipn 2 t) else if dashed t then short_args m (skipn 1 t) else SErr
        end in
      match p, text_eqb t (tx "--") with
      | None, true => XOk m ts'
      | _, _ => match st with SErr => XErr | SHelp => XHelp | SGo m' p' => scan m' p' ts' end
      end
  end.

(** clap_builder [Parser::add_env]: variables for what was not given. *)
Definition variables := text -> option text.
Definition env_step (e : variables) (m : found) (o : opt) : option found :=
  match oo_env o with
  | Some n =>
      match e n with
      | Some v => if present m (oo_id o) then Some m else if accepts (oo_type o) v then Some (m ++ [(oo_id o, v)]) else None
      | None => Some m
      end
  | None => Some m
  end.
Fixpoint add_env (e : variables) (m : found) (l : list opt) : option found :=
  match l with
  | [] => Some m
  | o :: l' => match env_step e m o with Some m' => add_env e m' l' | None => None end
  end.

(** clap_builder [Validator::validate_conflicts]: a name stands for an argument or a group, and the
    arguments of one group exclude each other. *)
Definition in_group (g : text) (o : opt) : bool := match oo_group o with Some h => text_eqb h g | None => false end.
Definition given (m : found) (x : text) : bool := present m x || existsb (fun o => in_group x o && present m (oo_id o)) table.
Definition clashes (m : found) (o : opt) : bool :=
  present m (oo_id o)
  && (existsb (given m) (oo_conflicts o)
      || match oo_group o with
         | Some g => existsb (fun p => in_group g p && negb (text_eqb (oo_id p) (oo_id o)) && present m (oo_id p)) table
         | None => false
         end).

(** Errors of clap have code 2, its help 0. *)
Inductive parsed := UErr (code : Z) | UOk (m : found) (rest : list text).
Definition parse (e : variables) (ts : list text) : parsed :=
  match scan [] None ts with
  | XErr => UErr 2
  | XHelp => UErr 0
  | XOk m rest =>
      match add_env e m table with
      | None => UErr 2
      | Some m' => if existsb (clashes m') table then UErr 2 else UOk m' rest
      end
  end.

(** * The fields of [Args] *)
Section Fields.
Variables (m : found) (rest : list text).
Definition value (id : string) : option text := hd_error (values m (tx id)).
Definition flag (id : string) : bool := present m (tx id).
Definition list_of (id : string) : list text := values m (tx id).
Definition opt_bool (id : string) : option bool := option_map (text_eqb (tx "true")) (value id).
Definition bool_or (id : string) (d : bool) : bool := match opt_bool id with Some b => b | None => d end.
Definition opt_usize (id : string) : option nat := match value id with Some v => option_map N.to_nat (parse_usize v) | None => None end.
Definition opt_f64 (id : string) : option f64 := match value id with Some v => f64_from_str v | None => None end.

(** src/main.rs:115-421: fields and defaults. *)
Definition args_of : OptionsM.args :=
  mkArgs (flag "all_logs") (match value "baseline" with Some v => negb (text_eqb v (tx "skip")) | None => true end)
    (opt_bool "cap_lints") (flag "caught") (flag "check") (opt_bool "copy_vcs") (flag "diff") (list_of "error")
    (list_of "examine_re") (list_of "exclude") (list_of "exclude_re") (list_of "file")
    (bool_or "gitignore" true) (flag "in_place") (opt_usize "jobs") (bool_or "jobserver" true)
    (opt_usize "jobserver_tasks") (flag "json") (flag "leak_dirs") (flag "no_times")
    (bool_or "line_col" true) (value "output") (opt_f64 "minimum_test_timeout")
    (flag "no_shuffle") (value "profile") (list_of "skip_calls")
    (opt_bool "skip_calls_defaults") (list_of "test_package")
    (option_map (fun v => if text_eqb v (tx "nextest") then ToolNextest else ToolCargo) (value "test_tool"))
    (opt_bool "test_workspace") (opt_f64 "timeout") (opt_f64 "timeout_multiplier")
    (opt_f64 "build_timeout") (opt_f64 "build_timeout_multiplier") (flag "unviable")
    (list_of "cargo_arg") rest (mkFeatures (list_of "features") (flag "no_default_features") (flag "all_features")).
Definition arguments_of : arguments :=
  mkArguments (value "manifest_path") (value "dir") (flag "no_config") (list_of "package") (flag "workspace")
    (flag "iterate") (flag "list_files") (flag "list") (value "in_diff")
    (match value "shard" with Some v => shard_from_str v | None => None end) args_of.
Definition colors_of : colors :=
  match value "colors" with
  | Some v => if text_eqb v (tx "always") then CAlways else if text_eqb v (tx "never") then CNever else CAuto
  | None => CAuto
  end.
Definition level_of : level :=
  match value "level" with Some v => match level_from_str v with Some l => l | None => LInfo end | None => LInfo end.
End Fields.

(** src/main.rs:423-446: what the words after [mutants] (the subcommand, which cargo gives as the first) ask for. *)
Definition command_of (e : variables) (ts : list text) : command :=
  match parse e ts with
  | UErr n => CmdErr n
  | UOk m rest =>
      if flag m "version" then CmdVersion
      else match value m "completions" with Some _ => CmdCompletions | None => CmdRun (arguments_of m rest) end
  end.

(** The [colors] and [level] that src/main.rs:447-448 hands to the console. *)
Definition console_of (e : variables) (ts : list text) : option (colors * level) :=
  match parse e ts with UOk m _ => Some (colors_of m, level_of m) | UErr _ => None end.

(** src/main.rs:90-95 and 424: all words, with the name of the program first, which clap leaves out.  [Cargo] has the one subcommand [mutants] and clap's own
    [help], which takes the name of a subcommand; and the options -h and --help.  As clap's derive does for an enum, a subcommand is required, and without any word
    the help is shown as an error. *)
Definition program_command (e : variables) (argv : list text) : command :=
  match argv with
  | _ :: w :: ts =>
      if text_eqb w (tx "mutants") then command_of e ts
      else if text_eqb w (tx "help") then
        match ts with
        | [] => CmdErr 0
        | [x] => if text_eqb x (tx "mutants") || text_eqb x (tx "help") then CmdErr 0 else CmdErr 2
        | _ => CmdErr 2
        end
      else if text_eqb w (tx "--help") || text_eqb (firstn 2 w) (tx "-h") then CmdErr 0
      else CmdErr 2
  | _ => CmdErr 2
  end.
