(** Specification of cargo commands (C25) and compiler flags (C26). *)
From Coq Require Import String List NArith Bool.
Import ListNotations.
From Verif Require Import Text PathM ProcessM OutcomeM OptionsM PackageM InDiffM CargoM.

(** Arguments that select packages. *)
Definition selects (a : text) : bool :=
  text_eqb a (tx "--workspace") || starts_with (tx "--package=") a.

(** Arguments that select features. *)
Definition is_feature (a : text) : bool :=
  text_eqb a (tx "--no-default-features") || text_eqb a (tx "--all-features") || starts_with (tx "--features=") a.

(** Arguments that select a profile. *)
Definition is_profile (a : text) : bool :=
  starts_with (tx "--profile=") a || starts_with (tx "--cargo-profile=") a.

(** Does cargo, given these arguments, execute tests? *)
Definition executes_tests (args : list text) : Prop :=
  ((exists r, args = tx "test" :: r) \/ (exists r, args = tx "nextest" :: tx "run" :: r))
  /\ ~ In (tx "--no-run") args.

(** The user's own arguments in a phase. *)
Definition user_args (ph : phase) (o : options) : list text :=
  op_additional_cargo_args o ++ match ph with Test => op_additional_cargo_test_args o | _ => [] end.

(** The options with other test arguments. *)
Definition with_test_args (o : options) (l : list text) : options :=
  mkOptions (op_additional_cargo_args o) l (op_baseline o) (op_build_timeout o) (op_build_timeout_multiplier o)
    (op_cap_lints o) (op_check_only o) (op_copy_vcs o) (op_emit_json o) (op_emit_diffs o) (op_error_values o)
    (op_examine_names o) (op_exclude_names o) (op_examine_globset o) (op_exclude_globset o) (op_features o)
    (op_gitignore o) (op_in_place o) (op_jobs o) (op_jobserver o) (op_jobserver_tasks o) (op_leak_dirs o)
    (op_minimum_test_timeout o) (op_output_in_dir o) (op_print_caught o) (op_print_unviable o) (op_profile o)
    (op_shuffle o) (op_show_line_col o) (op_show_times o) (op_show_all_logs o) (op_skip_calls o)
    (op_test_package o) (op_test_timeout o) (op_test_timeout_multiplier o) (op_test_tool o).

(** [str::trim]. *)
Fixpoint trim_start (s : text) : text :=
  match s with
  | [] => []
  | c :: s' => if is_whitespace c then trim_start s' else s
  end.
Definition trim (s : text) : text := rev (trim_start (rev (trim_start s))).

(** The flags cargo passes to rustc: from the encoded variable (separated by 31, the unit separator), else from the plain
    one, else from the configuration files
    (https://doc.rust-lang.org/cargo/reference/config.html#buildrustflags). *)
Definition rustc_flags (e : env) (config : list text) : list text :=
  match e (tx "CARGO_ENCODED_RUSTFLAGS") with
  | Some enc => if text_eqb enc [] then [] else split_on 31%N enc
  | None =>
      match e (tx "RUSTFLAGS") with
      | Some s => filter (fun w => negb (text_eqb w [])) (map trim (split_on SP s))
      | None => config
      end
  end.

(** The plain variable separates flags by spaces only, and contains no unit separator. *)
Definition spaces_only (s : text) : Prop :=
  forall c, In c s -> (is_whitespace c = true -> c = SP) /\ c <> 31%N.
