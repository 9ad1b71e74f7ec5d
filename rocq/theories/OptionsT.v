From Coq Require Import String List NArith ZArith QArith Bool Lia.
Import ListNotations.
From Verif Require Import Text SpanM PathM MutantM GlobM GlobS GlobP ProcessM OutcomeM F64M TimeoutM TimeoutS TimeoutP OptionsM OptionsS OptionsP.
Open Scope nat_scope.

(** C21: files. The command line list replaces the configured one. *)
Theorem C21_files : forall re_ok a c o ex no path, options_new re_ok a c = NewOk o ->
  replaced (ar_file a) (cf_examine_globs c) ex -> replaced (ar_exclude a) (cf_exclude_globs c) no ->
  allows_source_file_path o path = true <->
  (ex = [] \/ exists g, In g ex /\ glob_hits g path) /\ ~ exists g, In g no /\ glob_hits g path.
Proof. exact c21_file'. Qed.
Print Assumptions C21_files.

(** C21: names. *)
Theorem C21_names : forall re_ok re_match a c o ex no m name b, options_new re_ok a c = NewOk o ->
  replaced (ar_examine_re a) (cf_examine_re c) ex -> replaced (ar_exclude_re a) (cf_exclude_re c) no ->
  mutant_name true m = Some name -> allows_mutant re_match o m = Some b ->
  b = true <->
  (ex = [] \/ exists p, In p ex /\ re_match p name = true) /\ ~ exists p, In p no /\ re_match p name = true.
Proof. exact c21_name'. Qed.
Print Assumptions C21_names.

(** C22: single values. *)
Theorem C22_single_values : forall re_ok a c o, options_new re_ok a c = NewOk o ->
  precedence_opt (ar_build_timeout_multiplier a) (cf_build_timeout_multiplier c) (op_build_timeout_multiplier o)
  /\ precedence_opt (ar_timeout_multiplier a) (cf_timeout_multiplier c) (op_test_timeout_multiplier o)
  /\ precedence_opt (ar_output a) (cf_output c) (op_output_in_dir o)
  /\ precedence_opt (ar_profile a) (cf_profile c) (op_profile o)
  /\ precedence (ar_cap_lints a) (Some (cf_cap_lints c)) false (op_cap_lints o)
  /\ precedence (ar_copy_vcs a) (cf_copy_vcs c) false (op_copy_vcs o)
  /\ precedence (ar_test_tool a) (cf_test_tool c) ToolCargo (op_test_tool o)
  /\ exists q, precedence (ar_minimum_test_timeout a) (cf_minimum_test_timeout c) (Fin (inject_Z 20)) q
               /\ duration_of q (op_minimum_test_timeout o).
Proof. exact c22_scalars. Qed.
Print Assumptions C22_single_values.

(** C22: filter lists are replaced, argument lists concatenated (command line first). *)
Theorem C22_lists : forall re_ok a c o, options_new re_ok a c = NewOk o ->
  op_additional_cargo_args o = ar_cargo_arg a ++ cf_additional_cargo_args c
  /\ op_additional_cargo_test_args o = ar_cargo_test_args a ++ cf_additional_cargo_test_args c
  /\ op_error_values o = ar_error a ++ cf_error_values c
  /\ replaced (ar_examine_re a) (cf_examine_re c) (op_examine_names o)
  /\ replaced (ar_exclude_re a) (cf_exclude_re c) (op_exclude_names o)
  /\ (exists g, replaced (ar_file a) (cf_examine_globs c) g /\ build_glob_set g = Some (op_examine_globset o))
  /\ (exists g, replaced (ar_exclude a) (cf_exclude_globs c) g /\ build_glob_set g = Some (op_exclude_globset o)).
Proof. exact c22_lists. Qed.
Print Assumptions C22_lists.

(** C22: names of calls to skip; 44 is the comma. *)
Theorem C22_skip_calls : forall re_ok a c o, options_new re_ok a c = NewOk o -> forall n, In n (op_skip_calls o) <->
  (exists s, In s (ar_skip_calls a) /\ In n (split_on 44%N s))
  \/ In n (cf_skip_calls c)
  \/ (n = tx "with_capacity" /\ (ar_skip_calls_defaults a = Some true
        \/ (ar_skip_calls_defaults a = None /\ cf_skip_calls_defaults c <> Some false))).
Proof. exact c22_skip_calls. Qed.
Print Assumptions C22_skip_calls.

(** C22: which tests to run. *)
Theorem C22_test_packages : forall re_ok a c o, options_new re_ok a c = NewOk o ->
  (ar_test_workspace a = Some true -> op_test_package o = TPWorkspace)
  /\ (ar_test_workspace a <> Some true -> ar_test_package a <> [] ->
        op_test_package o = TPNamed (flat_map (split_on 44%N) (ar_test_package a)))
  /\ (ar_test_workspace a = None -> ar_test_package a = [] -> cf_test_workspace c = Some true -> op_test_package o = TPWorkspace)
  /\ (ar_test_workspace a <> Some true -> ar_test_package a = [] ->
        ar_test_workspace a = Some false \/ cf_test_workspace c <> Some true ->
        op_test_package o = match cf_test_package c with [] => TPMutated | l => TPNamed l end).
Proof. exact (fun r => c22_tests r nomatch). Qed.
Print Assumptions C22_test_packages.

(** C22: options are accepted iff every filter in force is valid and no time is
    negative (or too large). *)
Theorem C22_accepted : forall re_ok a c ere nre eg ng q,
  replaced (ar_examine_re a) (cf_examine_re c) ere -> replaced (ar_exclude_re a) (cf_exclude_re c) nre ->
  replaced (ar_file a) (cf_examine_globs c) eg -> replaced (ar_exclude a) (cf_exclude_globs c) ng ->
  precedence (ar_minimum_test_timeout a) (cf_minimum_test_timeout c) (Fin (inject_Z 20)) q ->
  (exists o, options_new re_ok a c = NewOk o) <->
  (forall r, In r ere \/ In r nre -> re_ok r = true)
  /\ (forall g, In g eg \/ In g ng -> build_glob_set [g] <> None)
  /\ from_secs q <> None
  /\ (forall q, ar_build_timeout a = Some q \/ ar_timeout a = Some q -> from_secs q <> None).
Proof. exact c22_ok'. Qed.
Print Assumptions C22_accepted.

(** C22: what only the command line gives is taken from there. *)
Theorem C22_flags : forall re_ok a c o, options_new re_ok a c = NewOk o ->
  seconds (ar_timeout a) (op_test_timeout o)
  /\ seconds (ar_build_timeout a) (op_build_timeout o)
  /\ op_baseline o = ar_baseline a /\ op_check_only o = ar_check a /\ op_emit_json o = ar_json a
  /\ op_emit_diffs o = ar_diff a /\ op_features o = ar_features a /\ op_gitignore o = ar_gitignore a
  /\ op_in_place o = ar_in_place a /\ op_jobs o = ar_jobs a /\ op_jobserver o = ar_jobserver a
  /\ op_jobserver_tasks o = ar_jobserver_tasks a /\ op_leak_dirs o = ar_leak_dirs a
  /\ op_print_caught o = ar_caught a /\ op_print_unviable o = ar_unviable a
  /\ op_shuffle o = negb (ar_no_shuffle a) /\ op_show_line_col o = ar_line_col a
  /\ op_show_times o = negb (ar_no_times a) /\ op_show_all_logs o = ar_all_logs a.
Proof. exact c22_flags. Qed.
Print Assumptions C22_flags.

(** C22: the program panics only because of a time that cannot be a duration; a bad
    filter is an ordinary error. *)
Theorem C22_panic : forall re_ok a c q,
  precedence (ar_minimum_test_timeout a) (cf_minimum_test_timeout c) (Fin (inject_Z 20)) q ->
  options_new re_ok a c = NewPanic ->
  no_duration q \/ exists t, (ar_build_timeout a = Some t \/ ar_timeout a = Some t) /\ no_duration t.
Proof. exact c22_panic. Qed.
Print Assumptions C22_panic.

(** C22: an ordinary error is exactly a bad filter, when the minimum and the time to build are times; the tests' time
    limit is looked at after the filters. *)
Theorem C22_error : forall re_ok a c ere nre eg ng q,
  replaced (ar_examine_re a) (cf_examine_re c) ere -> replaced (ar_exclude_re a) (cf_exclude_re c) nre ->
  replaced (ar_file a) (cf_examine_globs c) eg -> replaced (ar_exclude a) (cf_exclude_globs c) ng ->
  precedence (ar_minimum_test_timeout a) (cf_minimum_test_timeout c) (Fin (inject_Z 20)) q ->
  options_new re_ok a c = NewErr <->
  (exists n, duration_of q n) /\ (forall t, ar_build_timeout a = Some t -> exists n, duration_of t n)
  /\ ((exists r, (In r ere \/ In r nre) /\ re_ok r = false) \/ exists g, (In g eg \/ In g ng) /\ build_glob_set [g] = None).
Proof. exact c22_error. Qed.
Print Assumptions C22_error.

Definition ex_args : args :=
  mkArgs false true (Some true) false false None false [tx "e1"] [] [tx "gen"] [tx "debug"] [tx "src/*.rs"]
    true false (Some 4) true None false false false true None (Some (Fin (1 # 2))) false None
    [tx "foo,bar"] None [tx "a,b"; tx "c"] None None None (Some (Fin (3 # 1))) None None false
    [tx "--locked"] [] (mkFeatures [] false false).
Definition ex_config : config :=
  mkConfig false (Some true) [tx "e2"] [tx "lib"] [] [tx "other"] [tx "must"] [tx "--offline"] [tx "--lib"] (Some (Fin (7 # 1)))
    (Some (tx "/out")) (Some (tx "fast")) [tx "baz"] None [] (Some ToolNextest) (Some (Fin (9 # 1))) None (Some true).
Definition ex_options : option options := match options_new (fun _ => true) ex_args ex_config with NewOk o => Some o | _ => None end.

Example C22_case : option_map (fun o =>
    (op_cap_lints o, op_copy_vcs o, op_minimum_test_timeout o, op_test_timeout_multiplier o, op_profile o, op_test_tool o)) ex_options
  = Some (true, true, 500000000%N, Some (Fin (3 # 1)), Some (tx "fast"), ToolNextest)
  /\ option_map (fun o => (op_error_values o, op_additional_cargo_args o, op_examine_names o, op_exclude_names o,
                           op_skip_calls o, op_test_package o)) ex_options
  = Some ([tx "e1"; tx "e2"], [tx "--locked"; tx "--offline"], [tx "must"], [tx "debug"],
          [tx "foo"; tx "bar"; tx "baz"; tx "with_capacity"], TPNamed [tx "a"; tx "b"; tx "c"]).
Proof. vm_compute. auto. Qed.

Example C21_case : option_map (fun o => map (allows_source_file_path o) [tx "src/a.rs"; tx "src/gen/a.rs"; tx "src/gen"; tx "lib/a.rs"]) ex_options
  = Some [true; false; false; false].
Proof. vm_compute. reflexivity. Qed.

(** A mutant kept by name, and one dropped ([re_match p n] is "n contains p" here). *)
Example C21_case_name :
  let re p n := existsb (fun k => starts_with p (skipn k n)) (seq 0 (length n)) in
  let m := mkMutant (mkSF (tx "p") (tx "src/a.rs") (tx "a + b") true) None (mkSpan (mkLC 1 3) (mkLC 1 4)) (tx "*") BinaryOperator in
  option_map (fun o => allows_mutant re o m) ex_options = Some (Some false)
  /\ match options_new (fun _ => true) ex_args (mkConfig false None [] [] [] [] [tx "replace + with"] [] [] None None None [] None [] None None None None) with
     | NewOk o => allows_mutant re o m | _ => None end = Some true.
Proof. vm_compute. auto. Qed.

Example C22_case_bad : options_new (fun p => negb (text_eqb p (tx "("))) ex_args
    (mkConfig false None [] [] [] [] [tx "("] [] [] None None None [] None [] None None None None) = NewErr.
Proof. vm_compute. reflexivity. Qed.

Example C22_case_flags : option_map (fun o => (op_shuffle o, op_jobs o, op_show_line_col o, op_test_timeout o)) ex_options
  = Some (true, Some 4, true, None).
Proof. vm_compute. reflexivity. Qed.

Example C22_case_panic :
  options_new (fun _ => true) ex_args (mkConfig false None [] [] [] [] [] [] [] (Some (Fin (-1 # 1))) None None [] None [] None None None None) <> NewPanic
  /\ options_new (fun _ => true)
       (mkArgs false true None false false None false [] [] [] [] [] true false None true None false false false true None
         (Some (Fin (-1 # 2))) false None [] None [] None None None None None None false [] [] (mkFeatures [] false false)) ex_config = NewPanic.
Proof. vm_compute. split; [discriminate|reflexivity]. Qed.
