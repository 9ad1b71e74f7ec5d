(** Model of the whole of [main] in src/main.rs, from the parsed command line to the exit
    status, and of how a workspace is opened in src/workspace.rs and src/config.rs. *)
From Coq Require Import String List NArith ZArith Bool Permutation.
From Verif Require Import Text SpanM PathM MutantM OutcomeM OutputM IterateM InDiffM ShardM PackageM OptionsM PrettyM FnValueM VisitM
  WalkM LabM MainM.
Import ListNotations.
Open Scope list_scope.

(** What the program gets from outside: the disk, cargo, and the parsers of other crates. *)
Record world := mkWorld {
  wo_is_file : text -> bool; wo_is_dir : text -> bool; wo_exists : text -> bool;
  wo_read : text -> option text;                 (* contents, if there is such a file and it is UTF-8 *)
  wo_dir : text -> option entries;               (* contents of the parent of mutants.out *)
  wo_locate : bool -> text -> option text;       (* the root in the answer of cargo locate-project [--workspace] *)
  wo_metadata : text -> option metadata;         (* the answer of cargo metadata for a manifest *)
  wo_toml : text -> option config;               (* the toml crate *)
  wo_re_ok : text -> bool; wo_re_match : text -> text -> bool;   (* the regex crate *)
  wo_expr : text -> option toks; wo_syn : text -> option node;   (* the syn crate *)
  wo_patch : text -> option (list patch);        (* the patch crate *)
  wo_diff : mutant -> text;                      (* the similar crate *)
  wo_json_mutants : list (mutant * option text) -> text; wo_json_files : list source_file -> text }.

(** src/main.rs:106-402 [Args]: the fields that [main] uses itself, and the others. *)
Record arguments := mkArguments {
  ag_manifest : option text; ag_dir : option text; ag_no_config : bool;
  ag_packages : list text; ag_workspace : bool;
  ag_iterate : bool; ag_list_files : bool; ag_list : bool; ag_in_diff : option text; ag_shard : option shard;
  ag_options : OptionsM.args }.

(** What clap makes of the command line: an error with the exit code it suggests (help is one
    with code 0), or arguments. *)
Inductive command := CmdErr (code : Z) | CmdVersion | CmdCompletions | CmdRun (a : arguments).

(** [Config::default]. *)
Definition config_default : config := mkConfig false None [] [] [] [] [] [] [] None None None [] None [] None None None None.

Section Whole.
Variable w : world.

(** src/workspace.rs:228-269 [locate_project]; failing to run cargo and answers that are not
    UTF-8, not JSON or without a root are [None] of [wo_locate]. *)
Definition locate_project (path : text) (workspace : bool) : option text :=
  if wo_is_dir w path then
    match wo_locate w workspace path with
    | Some manifest =>
        if wo_is_file w manifest then
          match path_parent manifest with
          | Some root => if wo_is_dir w root then Some root else None
          | None => None
          end
        else None
    | None => None
    end
  else None.

(** src/workspace.rs:92-113 [Workspace::open], without the check for interrupts. *)
Definition open_workspace (start : text) : res metadata :=
  match locate_project start true with
  | None => Fails
  | Some dir =>
      if is_absolute dir then
        match wo_metadata w (path_join dir (tx "Cargo.toml")) with Some md => Done md | None => Fails end
      else Panics
  end.

(** src/config.rs:75-78, 94-98 [Config::read_file]; 82-89 [Config::read_tree_config]. *)
Definition read_tree_config (root : text) : res config :=
  let path := path_join (path_join root (tx ".cargo")) (tx "mutants.toml") in
  if wo_exists w path then
    match wo_read w path with
    | Some t => match wo_toml w t with Some c => Done c | None => Fails end
    | None => Fails
    end
  else Done config_default.

(** src/options.rs:369-376 [parsed_error_exprs]. *)
Fixpoint parsed_error_exprs (l : list text) : option (list toks) :=
  match l with
  | [] => Some []
  | e :: l' => match wo_expr w e, parsed_error_exprs l' with Some t, Some ts => Some (t :: ts) | _, _ => None end
  end.

(** src/main.rs:451-483: what is found out before discovery. *)
Record setting := mkSetting { se_start : text; se_meta : metadata; se_options : options; se_filter : package_filter }.
Definition settle (a : arguments) : res setting :=
  match start_dir (wo_is_file w) (ag_manifest a) (ag_dir a) with
  | None => Fails
  | Some start =>
      bind (open_workspace start) (fun md =>
      bind (if ag_no_config a then Done config_default else read_tree_config (md_root md)) (fun cf =>
      match options_new (wo_re_ok w) (ag_options a) cf with
      | OptionsM.NewErr => Fails
      | OptionsM.NewPanic => Panics
      | OptionsM.NewOk o =>
          Done (mkSetting start md o (package_filter_of (ag_packages a) (ag_workspace a) start))
      end))
  end.

(** The arguments as [MainM] has them. *)
Definition cli_of (a : arguments) (o : options) : cli :=
  mkCli (ag_iterate a) (ag_list_files a) (ag_list a) (option_map (wo_read w) (ag_in_diff a)) (ag_shard a)
        (op_emit_json o) (op_emit_diffs o) (op_show_line_col o) (op_shuffle o).

(** src/main.rs:479-482: the directory in which mutants.out is. *)
Definition output_parent (s : setting) : text :=
  match op_output_in_dir (se_options s) with Some d => d | None => md_root (se_meta s) end.

(** src/workspace.rs:179-192 [discover], with 131-136 (a package directory that is not absolute is
    a panic) and src/visit.rs:61-69. *)
Definition relative_package (f : package_filter) : bool :=
  match f with
  | PFAuto d => match locate_project d false with Some p => negb (is_absolute p) | None => false end
  | _ => false
  end.
Definition discover (fuel : nat) (s : setting) : wresult :=
  if relative_package (se_filter s) then WalkM.WPanic
  else
    match mutated_packages (fun d => locate_project d false) (se_meta s) (se_filter s) with
    | None => WErr
    | Some ps =>
        match parsed_error_exprs (op_error_values (se_options s)) with
        | None => WErr
        | Some errs =>
            walk_tree (wo_read w) (wo_is_file w) (wo_syn w) (wo_re_match w) (md_root (se_meta s)) (se_options s) errs
              (op_skip_calls (se_options s)) fuel ps
        end
    end.

(** src/main.rs:484-519, see MainM. *)
Definition after (lk : text) (fuel : nat) (a : arguments) (s : setting) : res action :=
  main_run (wo_patch w) (wo_diff w) (wo_json_mutants w) (wo_json_files w) lk (cli_of a (se_options s))
    (wo_dir w (output_parent s)) (discover fuel s).
End Whole.

(** The lab is run with these options. *)
Definition lab_for (o : options) (P : params) : Prop :=
  pa_check_only P = op_check_only o /\ pa_jobs P = op_jobs o /\ pa_in_place P = op_in_place o
  /\ pa_skip_baseline P = negb (op_baseline o).

(** How the program ends: clap's message, version or completions, a listing, an error or a panic, or with the
    results for the mutants that were selected. *)
Inductive ending :=
| EClap (code : Z) | EInfo | EListed (out : text) | EError | EPanic
| ETested (ms : list mutant) (l : lab_outcome mutant).

(** src/main.rs:423-523.  The walk must come to an end.  An interrupt or an error of the disk may end it at any time
    with an error; writing to a closed standard output is a panic, also at any time. *)
Inductive ends (w : world) : command -> ending -> Prop :=
| en_clap n : ends w (CmdErr n) (EClap n)
| en_version : ends w CmdVersion EInfo
| en_completions : ends w CmdCompletions EInfo
| en_stopped a : ends w (CmdRun a) EError
| en_closed c : ends w c EPanic
| en_unsettled a : settle w a = Fails -> ends w (CmdRun a) EError
| en_unsettled_panic a : settle w a = Panics -> ends w (CmdRun a) EPanic
| en_fails a s lk fuel : settle w a = Done s -> discover w fuel s <> WFuel ->
    after w lk fuel a s = Fails -> ends w (CmdRun a) EError
| en_panics a s lk fuel : settle w a = Done s -> discover w fuel s <> WFuel ->
    after w lk fuel a s = Panics -> ends w (CmdRun a) EPanic
| en_listed a s lk fuel out : settle w a = Done s ->
    after w lk fuel a s = Done (Printed out) -> ends w (CmdRun a) (EListed out)
| en_none a s lk fuel es l : settle w a = Done s ->                     (* src/lab.rs:45-48 *)
    after w lk fuel a s = Done (Tests [] es) -> empty_result = ROk l -> ends w (CmdRun a) (ETested [] l)
| en_tested a s lk fuel ms es q P o0 t0 st r : settle w a = Done s ->
    after w lk fuel a s = Done (Tests ms es) -> ms <> [] -> queued (cli_of w a (se_options s)) ms q ->
    lab_for (se_options s) P -> first_tree P t0 -> reachable P o0 t0 q st -> ls_main st = MEnd r ->
    ends w (CmdRun a) (match r with ROk l => ETested ms l | RErr => EError | RPanic => EPanic end).

(** src/main.rs:426-435, 520-521, and what the Rust library does with a [main] that returns an error (1) or panics
    (101). *)
Definition status (e : ending) : Z :=
  match e with
  | EClap n => if Z.eqb n 2 then EXIT_USAGE else if Z.eqb n 0 then 0%Z else EXIT_SOFTWARE
  | EInfo | EListed _ => 0%Z
  | EError => 1%Z
  | EPanic => 101%Z
  | ETested _ l => match lab_exit_code l with Some c => c | None => 101%Z end
  end.
