(** Model of what src/config.rs makes of the configuration file, between the values that the toml crate (0.8.0) reads
    and the [Config]: the code that serde (1.0.209) derives. *)
From Coq Require Import String List NArith ZArith QArith Bool.
From Verif Require Import Text F64M OptionsM WholeM.
Import ListNotations.
Open Scope list_scope.

(** The values of TOML.  Integers are 64-bit ones.  What a date says is not needed. *)
Inductive value :=
| VStr (t : text) | VInt (z : Z) | VFloat (x : f64) | VBool (b : bool) | VDate | VArr (l : list value) | VTab (l : list (text * value)).
Definition entry := (text * value)%type.

(** The implementations of [Deserialize] for [bool], [String] (also camino's for [Utf8PathBuf]), [f64], which takes integers
    too, and [Vec<String>]; no value of another kind is converted. *)
Definition de_bool (v : value) : option bool := match v with VBool b => Some b | _ => None end.
Definition de_string (v : value) : option text := match v with VStr t => Some t | _ => None end.
Definition de_f64 (v : value) : option f64 :=
  match v with VFloat x => Some x | VInt z => Some (Fin (rnd64 (inject_Z z))) | _ => None end.
Fixpoint all_strings (l : list value) : option (list text) :=
  match l with
  | [] => Some []
  | v :: l' => match de_string v, all_strings l' with Some t, Some ts => Some (t :: ts) | _, _ => None end
  end.
Definition de_strings (v : value) : option (list text) := match v with VArr l => all_strings l | _ => None end.

(** [Deserialize] for [Option]: there is no null in TOML. *)
Definition some {A} (r : option A) : option (option A) := option_map Some r.

Section Config.
(** What the toml crate makes of a table where the name of a variant is expected. *)
Variable enum_table : list entry -> option test_tool.

(** src/options.rs:174-185 [TestTool]: the variants in snake case. *)
Definition de_test_tool (v : value) : option test_tool :=
  match v with
  | VStr t => if text_eqb t (tx "cargo") then Some ToolCargo else if text_eqb t (tx "nextest") then Some ToolNextest else None
  | VTab l => enum_table l
  | _ => None
  end.

(** src/config.rs:23-72, [deny_unknown_fields]: the field that is named is set; other names are errors. *)
Definition set_field (k : text) (v : value) (c : config) : option config :=
  if text_eqb k (tx "cap_lints") then option_map (fun x => mkConfig x (cf_copy_vcs c) (cf_error_values c) (cf_examine_globs c) (cf_exclude_globs c) (cf_exclude_re c) (cf_examine_re c) (cf_additional_cargo_args c) (cf_additional_cargo_test_args c) (cf_minimum_test_timeout c) (cf_output c) (cf_profile c) (cf_skip_calls c) (cf_skip_calls_defaults c) (cf_test_package c) (cf_test_tool c) (cf_timeout_multiplier c) (cf_build_timeout_multiplier c) (cf_test_workspace c)) (de_bool v)
  else if text_eqb k (tx "copy_vcs") then option_map (fun x => mkConfig (cf_cap_lints c) x (cf_error_values c) (cf_examine_globs c) (cf_exclude_globs c) (cf_exclude_re c) (cf_examine_re c) (cf_additional_cargo_args c) (cf_additional_cargo_test_args c) (cf_minimum_test_timeout c) (cf_output c) (cf_profile c) (cf_skip_calls c) (cf_skip_calls_defaults c) (cf_test_package c) (cf_test_tool c) (cf_timeout_multiplier c) (cf_build_timeout_multiplier c) (cf_test_workspace c)) (some (de_bool v))
  else if text_eqb k (tx "error_values") then option_map (fun x => mkConfig (cf_cap_lints c) (cf_copy_vcs c) x (cf_examine_globs c) (cf_exclude_globs c) (cf_exclude_re c) (cf_examine_re c) (cf_additional_cargo_args c) (cf_additional_cargo_test_args c) (cf_minimum_test_timeout c) (cf_output c) (cf_profile c) (cf_skip_calls c) (cf_skip_calls_defaults c) (cf_test_package c) (cf_test_tool c) (cf_timeout_multiplier c) (cf_build_timeout_multiplier c) (cf_test_workspace c)) (de_strings v)
  else if text_eqb k (tx "examine_globs") then option_map (fun x => mkConfig (cf_cap_lints c) (cf_copy_vcs c) (cf_error_values c) x (cf_exclude_globs c) (cf_exclude_re c) (cf_examine_re c) (cf_additional_cargo_args c) (cf_additional_cargo_test_args c) (cf_minimum_test_timeout c) (cf_output c) (cf_profile c) (cf_skip_calls c) (cf_skip_calls_defaults c) (cf_test_package c) (cf_test_tool c) (cf_timeout_multiplier c) (cf_build_timeout_multiplier c) (cf_test_workspace c)) (de_strings v)
  else if text_eqb k (tx "exclude_globs") then option_map (fun x => mkConfig (cf_cap_lints c) (cf_copy_vcs c) (cf_error_values c) (cf_examine_globs c) x (cf_exclude_re c) (cf_examine_re c) (cf_additional_cargo_args c) (cf_additional_cargo_test_args c) (cf_minimum_test_timeout c) (cf_output c) (cf_profile c) (cf_skip_calls c) (cf_skip_calls_defaults c) (cf_test_package c) (cf_test_tool c) (cf_timeout_multiplier c) (cf_build_timeout_multiplier c) (cf_test_workspace c)) (de_strings v)
  else if text_eqb k (tx "exclude_re") then option_map (fun x => mkConfig (cf_cap_lints c) (cf_copy_vcs c) (cf_error_values c) (cf_examine_globs c) (cf_exclude_globs c) x (cf_examine_re c) (cf_additional_cargo_args c) (cf_additional_cargo_test_args c) (cf_minimum_test_timeout c) (cf_output c) (cf_profile c) (cf_skip_calls c) (cf_skip_calls_defaults c) (cf_test_package c) (cf_test_tool c) (cf_timeout_multiplier c) (cf_build_timeout_multiplier c) (cf_test_workspace c)) (de_strings v)
  else if text_eqb k (tx "examine_re") then option_map (fun x => mkConfig (cf_cap_lints c) (cf_copy_vcs c) (cf_error_values c) (cf_examine_globs c) (cf_exclude_globs c) (cf_exclude_re c) x (cf_additional_cargo_args c) (cf_additional_cargo_test_args c) (cf_minimum_test_timeout c) (cf_output c) (cf_profile c) (cf_skip_calls c) (cf_skip_calls_defaults c) (cf_test_package c) (cf_test_tool c) (cf_timeout_multiplier c) (cf_build_timeout_multiplier c) (cf_test_workspace c)) (de_strings v)
  else if text_eqb k (tx "additional_cargo_args") then option_map (fun x => mkConfig (cf_cap_lints c) (cf_copy_vcs c) (cf_error_values c) (cf_examine_globs c) (cf_exclude_globs c) (cf_exclude_re c) (cf_examine_re c) x (cf_additional_cargo_test_args c) (cf_minimum_test_timeout c) (cf_output c) (cf_profile c) (cf_skip_calls c) (cf_skip_calls_defaults c) (cf_test_package c) (cf_test_tool c) (cf_timeout_multiplier c) (cf_build_timeout_multiplier c) (cf_test_workspace c)) (de_strings v)
  else if text_eqb k (tx "additional_cargo_test_args") then option_map (fun x => mkConfig (cf_cap_lints c) (cf_copy_vcs c) (cf_error_values c) (cf_examine_globs c) (cf_exclude_globs c) (cf_exclude_re c) (cf_examine_re c) (cf_additional_cargo_args c) x (cf_minimum_test_timeout c) (cf_output c) (cf_profile c) (cf_skip_calls c) (cf_skip_calls_defaults c) (cf_test_package c) (cf_test_tool c) (cf_timeout_multiplier c) (cf_build_timeout_multiplier c) (cf_test_workspace c)) (de_strings v)
  else if text_eqb k (tx "minimum_test_timeout") then option_map (fun x => mkConfig (cf_cap_lints c) (cf_copy_vcs c) (cf_error_values c) (cf_examine_globs c) (cf_exclude_globs c) (cf_exclude_re c) (cf_examine_re c) (cf_additional_cargo_args c) (cf_additional_cargo_test_args c) x (cf_output c) (cf_profile c) (cf_skip_calls c) (cf_skip_calls_defaults c) (cf_test_package c) (cf_test_tool c) (cf_timeout_multiplier c) (cf_build_timeout_multiplier c) (cf_test_workspace c)) (some (de_f64 v))
  else if text_eqb k (tx "output") then option_map (fun x => mkConfig (cf_cap_lints c) (cf_copy_vcs c) (cf_error_values c) (cf_examine_globs c) (cf_exclude_globs c) (cf_exclude_re c) (cf_examine_re c) (cf_additional_cargo_args c) (cf_additional_cargo_test_args c) (cf_minimum_test_timeout c) x (cf_profile c) (cf_skip_calls c) (cf_skip_calls_defaults c) (cf_test_package c) (cf_test_tool c) (cf_timeout_multiplier c) (cf_build_timeout_multiplier c) (cf_test_workspace c)) (some (de_string v))
  else if text_eqb k (tx "profile") then option_map (fun x => mkConfig (cf_cap_lints c) (cf_copy_vcs c) (cf_error_values c) (cf_examine_globs c) (cf_exclude_globs c) (cf_exclude_re c) (cf_examine_re c) (cf_additional_cargo_args c) (cf_additional_cargo_test_args c) (cf_minimum_test_timeout c) (cf_output c) x (cf_skip_calls c) (cf_skip_calls_defaults c) (cf_test_package c) (cf_test_tool c) (cf_timeout_multiplier c) (cf_build_timeout_multiplier c) (cf_test_workspace c)) (some (de_string v))
  else if text_eqb k (tx "skip_calls") then option_map (fun x => mkConfig (cf_cap_lints c) (cf_copy_vcs c) (cf_error_values c) (cf_examine_globs c) (cf_exclude_globs c) (cf_exclude_re c) (cf_examine_re c) (cf_additional_cargo_args c) (cf_additional_cargo_test_args c) (cf_minimum_test_timeout c) (cf_output c) (cf_profile c) x (cf_skip_calls_defaults c) (cf_test_package c) (cf_test_tool c) (cf_timeout_multiplier c) (cf_build_timeout_multiplier c) (cf_test_workspace c)) (de_strings v)
  else if text_eqb k (tx "skip_calls_defaults") then option_map (fun x => mkConfig (cf_cap_lints c) (cf_copy_vcs c) (cf_error_values c) (cf_examine_globs c) (cf_exclude_globs c) (cf_exclude_re c) (cf_examine_re c) (cf_additional_cargo_args c) (cf_additional_cargo_test_args c) (cf_minimum_test_timeout c) (cf_output c) (cf_profile c) (cf_skip_calls c) x (cf_test_package c) (cf_test_tool c) (cf_timeout_multiplier c) (cf_build_timeout_multiplier c) (cf_test_workspace c)) (some (de_bool v))
  else if text_eqb k (tx "test_package") then option_map (fun x => mkConfig (cf_cap_lints c) (cf_copy_vcs c) (cf_error_values c) (cf_examine_globs c) (cf_exclude_globs c) (cf_exclude_re c) (cf_examine_re c) (cf_additional_cargo_args c) (cf_additional_cargo_test_args c) (cf_minimum_test_timeout c) (cf_output c) (cf_profile c) (cf_skip_calls c) (cf_skip_calls_defaults c) x (cf_test_tool c) (cf_timeout_multiplier c) (cf_build_timeout_multiplier c) (cf_test_workspace c)) (de_strings v)
  else if text_eqb k (tx "test_tool") then option_map (fun x => mkConfig (cf_cap_lints c) (cf_copy_vcs c) (cf_error_values c) (cf_examine_globs c) (cf_exclude_globs c) (cf_exclude_re c) (cf_examine_re c) (cf_additional_cargo_args c) (cf_additional_cargo_test_args c) (cf_minimum_test_timeout c) (cf_output c) (cf_profile c) (cf_skip_calls c) (cf_skip_calls_defaults c) (cf_test_package c) x (cf_timeout_multiplier c) (cf_build_timeout_multiplier c) (cf_test_workspace c)) (some (de_test_tool v))
  else if text_eqb k (tx "timeout_multiplier") then option_map (fun x => mkConfig (cf_cap_lints c) (cf_copy_vcs c) (cf_error_values c) (cf_examine_globs c) (cf_exclude_globs c) (cf_exclude_re c) (cf_examine_re c) (cf_additional_cargo_args c) (cf_additional_cargo_test_args c) (cf_minimum_test_timeout c) (cf_output c) (cf_profile c) (cf_skip_calls c) (cf_skip_calls_defaults c) (cf_test_package c) (cf_test_tool c) x (cf_build_timeout_multiplier c) (cf_test_workspace c)) (some (de_f64 v))
  else if text_eqb k (tx "build_timeout_multiplier") then option_map (fun x => mkConfig (cf_cap_lints c) (cf_copy_vcs c) (cf_error_values c) (cf_examine_globs c) (cf_exclude_globs c) (cf_exclude_re c) (cf_examine_re c) (cf_additional_cargo_args c) (cf_additional_cargo_test_args c) (cf_minimum_test_timeout c) (cf_output c) (cf_profile c) (cf_skip_calls c) (cf_skip_calls_defaults c) (cf_test_package c) (cf_test_tool c) (cf_timeout_multiplier c) x (cf_test_workspace c)) (some (de_f64 v))
  else if text_eqb k (tx "test_workspace") then option_map (fun x => mkConfig (cf_cap_lints c) (cf_copy_vcs c) (cf_error_values c) (cf_examine_globs c) (cf_exclude_globs c) (cf_exclude_re c) (cf_examine_re c) (cf_additional_cargo_args c) (cf_additional_cargo_test_args c) (cf_minimum_test_timeout c) (cf_output c) (cf_profile c) (cf_skip_calls c) (cf_skip_calls_defaults c) (cf_test_package c) (cf_test_tool c) (cf_timeout_multiplier c) (cf_build_timeout_multiplier c) x) (some (de_bool v))
  else None.

(** The loop over the entries; a field that comes twice is an error (already of the TOML parser). *)
Fixpoint visit_map (seen : list text) (c : config) (l : list entry) : option config :=
  match l with
  | [] => Some c
  | (k, v) :: l' =>
      if mem_text k seen then None
      else match set_field k v c with Some c' => visit_map (k :: seen) c' l' | None => None end
  end.

(** src/config.rs:24 [serde(default)]: fields that are not named are those of [Config::default]. *)
Definition config_of (l : list entry) : option config := visit_map [] config_default l.

(** src/config.rs:92-98 [Config::from_str]; [parse] is the TOML parser. *)
Definition config_from_str (parse : text -> option (list entry)) (t : text) : option config :=
  match parse t with Some l => config_of l | None => None end.
End Config.
