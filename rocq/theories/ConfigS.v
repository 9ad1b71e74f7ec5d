(** What a configuration file says. *)
From Coq Require Import String List NArith ZArith QArith Bool.
From Verif Require Import Text PathM F64M TimeoutM TimeoutS GlobM OptionsM OptionsS ConfigM.
Import ListNotations.
Open Scope list_scope.

(** The settings there are. *)
Definition setting_names : list text :=
  map tx ["cap_lints"; "copy_vcs"; "error_values"; "examine_globs"; "exclude_globs"; "exclude_re"; "examine_re"; "additional_cargo_args"; "additional_cargo_test_args"; "minimum_test_timeout"; "output"; "profile"; "skip_calls"; "skip_calls_defaults"; "test_package"; "test_tool"; "timeout_multiplier"; "build_timeout_multiplier"; "test_workspace"]%string.

(** What a value means as a truth value, a text, a list of texts, a number or a tool. *)
Definition is_bool (v : value) (b : bool) : Prop := v = VBool b.
Definition is_string (v : value) (t : text) : Prop := v = VStr t.
Definition is_strings (v : value) (l : list text) : Prop := v = VArr (map VStr l).
Inductive is_number : value -> f64 -> Prop :=
| in_float x : is_number (VFloat x) x
| in_int z : is_number (VInt z) (Fin (rnd64 (inject_Z z))).
Inductive is_tool (enum_table : list entry -> option test_tool) : value -> test_tool -> Prop :=
| it_cargo : is_tool enum_table (VStr (tx "cargo")) ToolCargo
| it_nextest : is_tool enum_table (VStr (tx "nextest")) ToolNextest
| it_table l t : enum_table l = Some t -> is_tool enum_table (VTab l) t.
Inductive given {A} (means : value -> A -> Prop) : value -> option A -> Prop :=
| gv v x : means v x -> given means v (Some x).

(** The setting [k] is [x]: what the entry for it means, or, if there is none, [x0]. *)
Definition sets {A} (l : list entry) (k : text) (means : value -> A -> Prop) (x0 x : A) : Prop :=
  (exists v, In (k, v) l /\ means v x) \/ (forall v, ~ In (k, v) l) /\ x = x0.

(** All settings of a file. *)
Record says (enum_table : list entry -> option test_tool) (l : list entry) (c : config) : Prop := mkSays {
  sy_cap_lints : sets l (tx "cap_lints") (is_bool) false (cf_cap_lints c);
  sy_copy_vcs : sets l (tx "copy_vcs") (given is_bool) None (cf_copy_vcs c);
  sy_error_values : sets l (tx "error_values") (is_strings) [] (cf_error_values c);
  sy_examine_globs : sets l (tx "examine_globs") (is_strings) [] (cf_examine_globs c);
  sy_exclude_globs : sets l (tx "exclude_globs") (is_strings) [] (cf_exclude_globs c);
  sy_exclude_re : sets l (tx "exclude_re") (is_strings) [] (cf_exclude_re c);
  sy_examine_re : sets l (tx "examine_re") (is_strings) [] (cf_examine_re c);
  sy_additional_cargo_args : sets l (tx "additional_cargo_args") (is_strings) [] (cf_additional_cargo_args c);
  sy_additional_cargo_test_args : sets l (tx "additional_cargo_test_args") (is_strings) [] (cf_additional_cargo_test_args c);
  sy_minimum_test_timeout : sets l (tx "minimum_test_timeout") (given is_number) None (cf_minimum_test_timeout c);
  sy_output : sets l (tx "output") (given is_string) None (cf_output c);
  sy_profile : sets l (tx "profile") (given is_string) None (cf_profile c);
  sy_skip_calls : sets l (tx "skip_calls") (is_strings) [] (cf_skip_calls c);
  sy_skip_calls_defaults : sets l (tx "skip_calls_defaults") (given is_bool) None (cf_skip_calls_defaults c);
  sy_test_package : sets l (tx "test_package") (is_strings) [] (cf_test_package c);
  sy_test_tool : sets l (tx "test_tool") (given (is_tool enum_table)) None (cf_test_tool c);
  sy_timeout_multiplier : sets l (tx "timeout_multiplier") (given is_number) None (cf_timeout_multiplier c);
  sy_build_timeout_multiplier : sets l (tx "build_timeout_multiplier") (given is_number) None (cf_build_timeout_multiplier c);
  sy_test_workspace : sets l (tx "test_workspace") (given is_bool) None (cf_test_workspace c) }.

(** A value can be that of a setting. *)
Definition fits (enum_table : list entry -> option test_tool) (k : text) (v : value) : Prop :=
  In k (map tx ["cap_lints"; "copy_vcs"; "skip_calls_defaults"; "test_workspace"]%string) /\ (exists x, is_bool v x)
  \/ In k (map tx ["error_values"; "examine_globs"; "exclude_globs"; "exclude_re"; "examine_re"; "additional_cargo_args"; "additional_cargo_test_args"; "skip_calls"; "test_package"]%string) /\ (exists x, is_strings v x)
  \/ In k (map tx ["minimum_test_timeout"; "timeout_multiplier"; "build_timeout_multiplier"]%string) /\ (exists x, is_number v x)
  \/ In k (map tx ["output"; "profile"]%string) /\ (exists x, is_string v x)
  \/ In k (map tx ["test_tool"]%string) /\ (exists x, is_tool enum_table v x).

(** What the options are because of a file with the entries [l], as far as the command line [a] does not say otherwise. *)
Record acts (enum_table : list entry -> option test_tool) (l : list entry) (a : args) (o : options) : Prop := mkActs {
  ac_cap_lints : ar_cap_lints a = None -> sets l (tx "cap_lints") is_bool false (op_cap_lints o);
  ac_copy_vcs : ar_copy_vcs a = None -> sets l (tx "copy_vcs") is_bool false (op_copy_vcs o);
  ac_test_tool : ar_test_tool a = None -> sets l (tx "test_tool") (is_tool enum_table) ToolCargo (op_test_tool o);
  ac_output : ar_output a = None -> sets l (tx "output") (given is_string) None (op_output_in_dir o);
  ac_profile : ar_profile a = None -> sets l (tx "profile") (given is_string) None (op_profile o);
  ac_timeout_multiplier : ar_timeout_multiplier a = None -> sets l (tx "timeout_multiplier") (given is_number) None (op_test_timeout_multiplier o);
  ac_build_timeout_multiplier : ar_build_timeout_multiplier a = None ->
    sets l (tx "build_timeout_multiplier") (given is_number) None (op_build_timeout_multiplier o);
  ac_minimum_test_timeout : ar_minimum_test_timeout a = None ->
    exists q, sets l (tx "minimum_test_timeout") is_number (Fin (inject_Z 20)) q /\ duration_of q (op_minimum_test_timeout o);
  ac_error_values : exists x, sets l (tx "error_values") is_strings [] x /\ op_error_values o = ar_error a ++ x;
  ac_cargo_args : exists x, sets l (tx "additional_cargo_args") is_strings [] x /\ op_additional_cargo_args o = ar_cargo_arg a ++ x;
  ac_cargo_test_args : exists x, sets l (tx "additional_cargo_test_args") is_strings [] x /\ op_additional_cargo_test_args o = ar_cargo_test_args a ++ x;
  ac_examine_re : ar_examine_re a = [] -> sets l (tx "examine_re") is_strings [] (op_examine_names o);
  ac_exclude_re : ar_exclude_re a = [] -> sets l (tx "exclude_re") is_strings [] (op_exclude_names o);
  ac_examine_globs : ar_file a = [] ->
    exists g, sets l (tx "examine_globs") is_strings [] g /\ build_glob_set g = Some (op_examine_globset o);
  ac_exclude_globs : ar_exclude a = [] ->
    exists g, sets l (tx "exclude_globs") is_strings [] g /\ build_glob_set g = Some (op_exclude_globset o);
  ac_skip_calls : exists x, sets l (tx "skip_calls") is_strings [] x /\
    forall n, In n (op_skip_calls o) <-> (exists s, In s (ar_skip_calls a) /\ In n (split_on 44%N s)) \/ In n x
      \/ n = tx "with_capacity" /\ (ar_skip_calls_defaults a = Some true
           \/ ar_skip_calls_defaults a = None /\ ~ In (tx "skip_calls_defaults", VBool false) l);
  ac_tests : ar_test_workspace a = None -> ar_test_package a = [] ->
    In (tx "test_workspace", VBool true) l /\ op_test_package o = TPWorkspace
    \/ ~ In (tx "test_workspace", VBool true) l
       /\ exists x, sets l (tx "test_package") is_strings [] x /\ op_test_package o = match x with [] => TPMutated | _ => TPNamed x end }.

(** The configuration file of a workspace, and a file that is wrong: it cannot be read or is not TOML, or some entry is twice,
    is not of a setting or has a value that does not fit. *)
Definition config_path (root : text) : text := path_join (path_join root (tx ".cargo")) (tx "mutants.toml").
Inductive wrong (enum_table : list entry -> option test_tool) (parse : text -> option (list entry)) : option text -> Prop :=
| wr_unread : wrong enum_table parse None
| wr_toml t : parse t = None -> wrong enum_table parse (Some t)
| wr_twice t l : parse t = Some l -> ~ NoDup (map fst l) -> wrong enum_table parse (Some t)
| wr_entry t l k v : parse t = Some l -> In (k, v) l -> ~ fits enum_table k v -> wrong enum_table parse (Some t).
