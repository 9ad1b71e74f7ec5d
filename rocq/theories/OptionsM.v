(** Model of src/options.rs: merging of command line and configuration, and filters.
    Clap's parsing of the command line into [Args] is in ClapM; serde's parsing of the
    configuration file is not modelled. f64 values are rationals as in TimeoutM. *)
From Coq Require Import String List NArith ZArith QArith Bool.
Import ListNotations.
From Verif Require Import Text SpanM PathM MutantM GlobM ProcessM OutcomeM F64M TimeoutM.
Open Scope nat_scope.

Definition COMMA : chr := 44%N.

Inductive test_tool := ToolCargo | ToolNextest.

(** src/options.rs:160-172 [TestPackages]. *)
Inductive test_packages := TPMutated | TPWorkspace | TPNamed (names : list text).

(** src/main.rs:404-421 [Features]. *)
Record features := mkFeatures { fe_features : list text; fe_no_default : bool; fe_all : bool }.

(** src/main.rs:106-402 [Args]: the fields [Options::new] uses. [baseline] is whether to
    run it. [colors] and [output] paths are plain. *)
Record args := mkArgs {
  ar_all_logs : bool; ar_baseline : bool; ar_cap_lints : option bool; ar_caught : bool;
  ar_check : bool; ar_copy_vcs : option bool; ar_diff : bool; ar_error : list text;
  ar_examine_re : list text; ar_exclude : list text; ar_exclude_re : list text; ar_file : list text;
  ar_gitignore : bool; ar_in_place : bool; ar_jobs : option nat; ar_jobserver : bool;
  ar_jobserver_tasks : option nat; ar_json : bool; ar_leak_dirs : bool; ar_no_times : bool;
  ar_line_col : bool; ar_output : option text; ar_minimum_test_timeout : option f64;
  ar_no_shuffle : bool; ar_profile : option text; ar_skip_calls : list text;
  ar_skip_calls_defaults : option bool; ar_test_package : list text; ar_test_tool : option test_tool;
  ar_test_workspace : option bool; ar_timeout : option f64; ar_timeout_multiplier : option f64;
  ar_build_timeout : option f64; ar_build_timeout_multiplier : option f64; ar_unviable : bool;
  ar_cargo_arg : list text; ar_cargo_test_args : list text; ar_features : features
}.

(** src/config.rs:23-72 [Config]. *)
Record config := mkConfig {
  cf_cap_lints : bool; cf_copy_vcs : option bool; cf_error_values : list text;
  cf_examine_globs : list text; cf_exclude_globs : list text; cf_exclude_re : list text;
  cf_examine_re : list text; cf_additional_cargo_args : list text;
  cf_additional_cargo_test_args : list text; cf_minimum_test_timeout : option f64;
  cf_output : option text; cf_profile : option text; cf_skip_calls : list text;
  cf_skip_calls_defaults : option bool; cf_test_package : list text; cf_test_tool : option test_tool;
  cf_timeout_multiplier : option f64; cf_build_timeout_multiplier : option f64; cf_test_workspace : option bool
}.

(** src/options.rs:31-158 [Options]; colors left out. *)
Record options := mkOptions {
  op_additional_cargo_args : list text; op_additional_cargo_test_args : list text;
  op_baseline : bool; op_build_timeout : option N; op_build_timeout_multiplier : option f64;
  op_cap_lints : bool; op_check_only : bool; op_copy_vcs : bool; op_emit_json : bool;
  op_emit_diffs : bool; op_error_values : list text;
  op_examine_names : list text; op_exclude_names : list text;
  op_examine_globset : option (list (list token)); op_exclude_globset : option (list (list token));
  op_features : features; op_gitignore : bool; op_in_place : bool; op_jobs : option nat;
  op_jobserver : bool; op_jobserver_tasks : option nat; op_leak_dirs : bool;
  op_minimum_test_timeout : N; op_output_in_dir : option text; op_print_caught : bool;
  op_print_unviable : bool; op_profile : option text; op_shuffle : bool; op_show_line_col : bool;
  op_show_times : bool; op_show_all_logs : bool; op_skip_calls : list text;
  op_test_package : test_packages; op_test_timeout : option N; op_test_timeout_multiplier : option f64;
  op_test_tool : test_tool
}.

Inductive new_result := NewErr | NewPanic | NewOk (o : options).

(** [Option::or], [Option::unwrap_or]. *)
Definition opt_or {A} (a b : option A) : option A := match a with Some x => Some x | None => b end.
Definition unwrap_or {A} (a : option A) (d : A) : A := match a with Some x => x | None => d end.

(** src/options.rs:187-190 [join_slices]; 401-408 [or_slices]. *)
Definition join_slices {A} (a b : list A) : list A := a ++ b.
Definition or_slices {A} (a b : list A) : list A := match a with [] => b | _ => a end.

(** [iter().flat_map(|s| s.split(','))]. *)
Definition split_commas (l : list text) : list text := flat_map (split_on COMMA) l.

(** src/options.rs:244-261. *)
Definition merge_test_package (a : args) (c : config) : test_packages :=
  match ar_test_workspace a with
  | Some true => TPWorkspace
  | w =>
      match ar_test_package a with
      | _ :: _ => TPNamed (split_commas (ar_test_package a))
      | [] =>
          match w, cf_test_workspace c with
          | None, Some true => TPWorkspace
          | _, _ => match cf_test_package c with
                    | _ :: _ => TPNamed (cf_test_package c)
                    | [] => TPMutated
                    end
          end
      end
  end.

(** src/options.rs:263-276. *)
Definition merge_skip_calls (a : args) (c : config) : list text :=
  split_commas (ar_skip_calls a) ++ cf_skip_calls c
  ++ (if unwrap_or (opt_or (ar_skip_calls_defaults a) (cf_skip_calls_defaults c)) true
      then [tx "with_capacity"] else []).

Section New.
(** Which regexes compile, and what they match (the regex crate). *)
Variable re_ok : text -> bool.
Variable re_match : text -> text -> bool.

(** [RegexSet::new]: fails if a pattern does; the set is represented by its patterns. *)
Definition regex_set (ps : list text) : option (list text) := if forallb re_ok ps then Some ps else None.

(** [Option<f64>.map(Duration::from_secs_f64)]: outer [None] is the panic. *)
Definition opt_secs (q : option f64) : option (option N) :=
  match q with None => Some None | Some q' => match from_secs q' with Some n => Some (Some n) | None => None end end.

(** src/options.rs:232-338 [Options::new], fields in the order they are evaluated;
    warnings are left out. *)
Definition options_new (a : args) (c : config) : new_result :=
  match from_secs (unwrap_or (opt_or (ar_minimum_test_timeout a) (cf_minimum_test_timeout c)) (Fin (inject_Z 20))) with
  | None => NewPanic
  | Some min_timeout =>
  match opt_secs (ar_build_timeout a) with
  | None => NewPanic
  | Some build_t =>
  match regex_set (or_slices (ar_examine_re a) (cf_examine_re c)) with
  | None => NewErr
  | Some ex_names =>
  match regex_set (or_slices (ar_exclude_re a) (cf_exclude_re c)) with
  | None => NewErr
  | Some no_names =>
  match build_glob_set (or_slices (ar_file a) (cf_examine_globs c)) with
  | None => NewErr
  | Some ex_globs =>
  match build_glob_set (or_slices (ar_exclude a) (cf_exclude_globs c)) with
  | None => NewErr
  | Some no_globs =>
  match opt_secs (ar_timeout a) with
  | None => NewPanic
  | Some test_t =>
      NewOk (mkOptions
        (join_slices (ar_cargo_arg a) (cf_additional_cargo_args c))
        (join_slices (ar_cargo_test_args a) (cf_additional_cargo_test_args c))
        (ar_baseline a)
        build_t
        (opt_or (ar_build_timeout_multiplier a) (cf_build_timeout_multiplier c))
        (unwrap_or (ar_cap_lints a) (cf_cap_lints c))
        (ar_check a)
        (unwrap_or (opt_or (ar_copy_vcs a) (cf_copy_vcs c)) false)
        (ar_json a)
        (ar_diff a)
        (join_slices (ar_error a) (cf_error_values c))
        ex_names no_names ex_globs no_globs
        (ar_features a)
        (ar_gitignore a)
        (ar_in_place a)
        (ar_jobs a)
        (ar_jobserver a)
        (ar_jobserver_tasks a)
        (ar_leak_dirs a)
        min_timeout
        (opt_or (ar_output a) (cf_output c))
        (ar_caught a)
        (ar_unviable a)
        (opt_or (ar_profile a) (cf_profile c))
        (negb (ar_no_shuffle a))
        (ar_line_col a)
        (negb (ar_no_times a))
        (ar_all_logs a)
        (merge_skip_calls a c)
        (merge_test_package a c)
        test_t
        (opt_or (ar_timeout_multiplier a) (cf_timeout_multiplier c))
        (unwrap_or (opt_or (ar_test_tool a) (cf_test_tool c)) ToolCargo))
  end end end end end end end.

(** src/options.rs:378-391 [allows_source_file_path]. *)
Definition allows_source_file_path (o : options) (path : text) : bool :=
  match op_examine_globset o with None => true | Some g => set_match g path end
  && negb (match op_exclude_globset o with Some g => set_match g path | None => false end).

(** [RegexSet::is_match]. *)
Definition names_match (ps : list text) (name : text) : bool := existsb (fun p => re_match p name) ps.
Definition names_empty (ps : list text) : bool := match ps with [] => true | _ => false end.

(** src/options.rs:393-398 [allows_mutant]; [None] where [Mutant::name] panics. *)
Definition allows_mutant (o : options) (m : mutant) : option bool :=
  match mutant_name true m with
  | None => None
  | Some name =>
      Some ((names_empty (op_examine_names o) || names_match (op_examine_names o) name)
            && (names_empty (op_exclude_names o) || negb (names_match (op_exclude_names o) name)))
  end.

End New.

(** The time limits of TimeoutM, from the options. *)
Definition timeout_options (o : options) : timeout_opts :=
  mkTO (op_test_timeout o) (op_build_timeout o) (op_minimum_test_timeout o)
       (op_test_timeout_multiplier o) (op_build_timeout_multiplier o) (op_check_only o).
