From Coq Require Import String List NArith ZArith QArith Bool Lia.
Import ListNotations.
From Verif Require Import Text PathM SpanM MutantM GlobM ProcessM OutcomeM TimeoutM OptionsM OptionsT PackageM PackageT InDiffM CargoM CargoS CargoP.
Open Scope nat_scope.

(** C25: the program comes first. *)
Theorem C25_program : forall e s ph o, exists r, cargo_argv e s ph o
  = (match e (tx "CARGO") with Some c => c | None => tx "cargo" end) :: r.
Proof. intros. eexists. reflexivity. Qed.
Print Assumptions C25_program.

(** C25: package selection; apart from the user's own arguments exactly this.
    Missing: a --test-package name that is not known, see C25_selection_refuted. *)
Theorem C25_selection_partial : forall e s ph o,
  filter selects (tl (cargo_argv e s ph o)) =
  match s with
  | SelAll => [tx "--workspace"]
  | SelExplicit ps => map (fun p => tx "--package=" ++ pk_name p ++ tx "@" ++ pk_version p) ps
  end ++ filter selects (user_args ph o).
Proof. exact c25_selection. Qed.
Print Assumptions C25_selection_partial.

(** C25: features, in every phase. *)
Theorem C25_features : forall e s ph o,
  filter is_feature (tl (cargo_argv e s ph o)) =
  (if fe_no_default (op_features o) then [tx "--no-default-features"] else [])
  ++ (if fe_all (op_features o) then [tx "--all-features"] else [])
  ++ map (fun f => tx "--features=" ++ f) (fe_features (op_features o)) ++ filter is_feature (user_args ph o).
Proof. exact c25_features. Qed.
Print Assumptions C25_features.

(** C25: the profile, in every phase.
    Missing: cargo check with the nextest tool, see C25_check_profile_refuted. *)
Theorem C25_profile_partial : forall e s ph o,
  filter is_profile (tl (cargo_argv e s ph o)) =
  match op_profile o with
  | None => []
  | Some p => [match op_test_tool o with ToolCargo => tx "--profile=" | ToolNextest => tx "--cargo-profile=" end ++ p]
  end ++ filter is_profile (user_args ph o).
Proof. exact c25_profile. Qed.
Print Assumptions C25_profile_partial.

(** C25: extra arguments in every phase, test arguments after them and in the test
    phase only, and nothing after those. *)
Theorem C25_user_args_last : forall e s ph o, exists pre, cargo_argv e s ph o = pre ++ user_args ph o.
Proof. exact c25_user_last. Qed.
Print Assumptions C25_user_args_last.

Theorem C25_test_args : forall e s o l,
  cargo_argv e s Test (with_test_args o l) = cargo_argv e s Test (with_test_args o []) ++ l
  /\ cargo_argv e s Build (with_test_args o l) = cargo_argv e s Build o
  /\ cargo_argv e s Check (with_test_args o l) = cargo_argv e s Check o.
Proof. exact c25_test_args. Qed.
Print Assumptions C25_test_args.

(** C25: only the test phase executes tests. *)
Theorem C25_executes : forall e s ph o,
  (ph <> Test -> ~ executes_tests (tl (cargo_argv e s ph o)))
  /\ (ph = Test -> ~ In (tx "--no-run") (user_args ph o) -> executes_tests (tl (cargo_argv e s ph o))).
Proof. exact c25_executes. Qed.
Print Assumptions C25_executes.

(** C25: the subcommand is the one of the chosen tool; checking includes the tests. *)
Theorem C25_tool : forall e s ph o,
  match ph, op_test_tool o with
  | Check, _ => exists r, cargo_argv e s ph o = cargo_bin e :: tx "check" :: tx "--tests" :: r
  | _, ToolCargo => exists r, cargo_argv e s ph o = cargo_bin e :: tx "test" :: r
  | _, ToolNextest => exists r, cargo_argv e s ph o = cargo_bin e :: tx "nextest" :: tx "run" :: r
  end.
Proof. exact c25_tool. Qed.
Print Assumptions C25_tool.

(** C25: the build phase builds what the test phase runs: apart from test arguments the
    commands differ only in "--no-run". *)
Theorem C25_build_as_test : forall e s o, op_additional_cargo_test_args o = [] -> exists pre post,
  cargo_argv e s Build o = pre ++ tx "--no-run" :: post /\ cargo_argv e s Test o = pre ++ post.
Proof. exact c25_build_as_test. Qed.
Print Assumptions C25_build_as_test.

Definition ex_env : env := fun n => if text_eqb n (tx "RUSTFLAGS") then Some (tx "-Dwarnings  -Copt-level=1") else None.

Example C25_case : option_map (fun o =>
    (cargo_argv ex_env (SelExplicit (packages_from_metadata ex_md)) Test o, cargo_argv ex_env SelAll Build o)) ex_options
  = Some ([tx "cargo"; tx "nextest"; tx "run"; tx "--cargo-profile=fast"; tx "--verbose"; tx "--package=main@0.2.0";
           tx "--package=util@0.1.0"; tx "--locked"; tx "--offline"; tx "--lib"],
          [tx "cargo"; tx "nextest"; tx "run"; tx "--no-run"; tx "--cargo-profile=fast"; tx "--verbose"; tx "--workspace";
           tx "--locked"; tx "--offline"]).
Proof. vm_compute. reflexivity. Qed.

Example C25_case_tool : option_map (fun o => (op_additional_cargo_test_args o,
    cargo_argv ex_env (SelExplicit (packages_from_metadata ex_md)) Check o)) ex_options
  = Some ([tx "--lib"], [tx "cargo"; tx "check"; tx "--tests"; tx "--cargo-profile=fast"; tx "--verbose"; tx "--package=main@0.2.0";
           tx "--package=util@0.1.0"; tx "--locked"; tx "--offline"]).
Proof. vm_compute. reflexivity. Qed.

(** Features and a program from the environment; all three phases, of which only one executes tests. *)
Definition ex_featured : option options :=
  match options_new (fun _ => true) (mkArgs false true None false false None false [] [] [] [] [] true false None false None
    false false false false None None false None [] None [] None None None None None None false [tx "--features=mine"] [tx "--lib"]
    (mkFeatures [tx "a,b"; tx "c"] true false))
    (mkConfig false None [] [] [] [] [] [] [] None None None [] None [] None None None None) with NewOk o => Some o | _ => None end.
Example C25_case_features :
  option_map (fun o => map (fun ph => cargo_argv (fun n => if text_eqb n (tx "CARGO") then Some (tx "/bin/cargo") else None) SelAll ph o)
      [Build; Test; Check]) ex_featured
  = Some (map (fun l => tx "/bin/cargo" :: l)
      [[tx "test"; tx "--no-run"; tx "--verbose"; tx "--workspace"; tx "--no-default-features"; tx "--features=a,b"; tx "--features=c";
        tx "--features=mine"];
       [tx "test"; tx "--verbose"; tx "--workspace"; tx "--no-default-features"; tx "--features=a,b"; tx "--features=c";
        tx "--features=mine"; tx "--lib"];
       [tx "check"; tx "--tests"; tx "--verbose"; tx "--workspace"; tx "--no-default-features"; tx "--features=a,b"; tx "--features=c";
        tx "--features=mine"]]).
Proof. vm_compute. reflexivity. Qed.

(** C25's "exactly one package selection" fails when no name given to --test-package
    is a package of the workspace: cargo is left to choose. *)
Theorem C25_selection_refuted : exists e md names p o, user_args Test o = []
  /\ filter selects (tl (cargo_argv e (mutant_selection md (TPNamed names) p) Test o)) = [].
Proof.
  destruct (options_new (fun _ => true) (mkArgs false true None false false None false [] [] [] [] [] true false None false None
    false false false false None None false None [] None [] None None None None None None false [] [] (mkFeatures [] false false))
    (mkConfig false None [] [] [] [] [] [] [] None None None [] None [] None None None None)) as [| |o] eqn:E; [discriminate E..|].
  exists ex_env, ex_md, [tx "misspelt"], (mkPackage (tx "main") (tx "0.2.0") [] []), o.
  split; [|rewrite c25_selection; cbn [mutant_selection]; change (packages_by_name (packages_from_metadata ex_md) [tx "misspelt"]) with (@nil package)];
  injection E as <-; reflexivity.
Qed.
Print Assumptions C25_selection_refuted.

(** With nextest and a profile, [cargo check] gets an argument that only nextest knows. *)
Theorem C25_check_profile_refuted : exists e s o r a, cargo_argv e s Check o = tx "cargo" :: tx "check" :: r
  /\ In (tx "--cargo-profile=" ++ a) r.
Proof.
  destruct ex_options as [o|] eqn:E; [|discriminate E].
  exists ex_env, SelAll, o.
  exists [tx "--tests"; tx "--cargo-profile=fast"; tx "--verbose"; tx "--workspace"; tx "--locked"; tx "--offline"], (tx "fast").
  split; [|cbn; auto]. vm_compute in E. injection E as <-. reflexivity.
Qed.
Print Assumptions C25_check_profile_refuted.

(** C26: with lint capping, rustc gets the user's flags from the environment and then
    the cap.
    Missing: other blanks than spaces in RUSTFLAGS, and flags set in configuration files, see C26_blanks_refuted and C26_config_refuted. *)
Theorem C26_capped_partial : forall e o, op_cap_lints o = true ->
  (forall s, e (tx "CARGO_ENCODED_RUSTFLAGS") = None -> e (tx "RUSTFLAGS") = Some s -> spaces_only s) ->
  forall config, rustc_flags (child_env e (cargo_env e o)) config = rustc_flags e [] ++ [tx "--cap-lints=warn"].
Proof. exact c26_on. Qed.
Print Assumptions C26_capped_partial.

(** C26: without, nothing about the flags changes. *)
Theorem C26_off : forall e o, op_cap_lints o = false ->
  forall config, rustc_flags (child_env e (cargo_env e o)) config = rustc_flags e config
  /\ forall n, n <> tx "INSTA_UPDATE" -> n <> tx "INSTA_FORCE_PASS" -> child_env e (cargo_env e o) n = e n.
Proof. exact c26_off. Qed.
Print Assumptions C26_off.

(** All other variables are inherited unchanged. *)
Theorem C26_inherited : forall e o n,
  n <> tx "CARGO_ENCODED_RUSTFLAGS" -> n <> tx "INSTA_UPDATE" -> n <> tx "INSTA_FORCE_PASS" ->
  child_env e (cargo_env e o) n = e n.
Proof. exact child_other. Qed.
Print Assumptions C26_inherited.

(** C26: insta is told to write nothing and not to let failing tests pass, whatever the environment says. *)
Theorem C26_insta : forall e o,
  child_env e (cargo_env e o) (tx "INSTA_UPDATE") = Some (tx "no")
  /\ child_env e (cargo_env e o) (tx "INSTA_FORCE_PASS") = Some (tx "0").
Proof. intros e o. unfold cargo_env. destruct (encoded_rustflags e o); split; reflexivity. Qed.
Print Assumptions C26_insta.

Example C26_case : option_map (fun o => (op_cap_lints o, rustc_flags (child_env ex_env (cargo_env ex_env o)) [tx "-Cx"])) ex_options
  = Some (true, [tx "-Dwarnings"; tx "-Copt-level=1"; tx "--cap-lints=warn"]).
Proof. vm_compute. reflexivity. Qed.

(** Without lint capping: the flags are the user's, those of the configuration if there are none in the environment. *)
Example C26_case_off : option_map (fun o => (op_cap_lints o, rustc_flags (child_env ex_env (cargo_env ex_env o)) [tx "-Cx"],
    rustc_flags (child_env (fun _ => None) (cargo_env (fun _ => None) o)) [tx "-Cx"],
    child_env ex_env (cargo_env ex_env o) (tx "RUSTFLAGS"), child_env ex_env (cargo_env ex_env o) (tx "INSTA_UPDATE"))) ex_featured
  = Some (false, [tx "-Dwarnings"; tx "-Copt-level=1"], [tx "-Cx"], Some (tx "-Dwarnings  -Copt-level=1"), Some (tx "no")).
Proof. vm_compute. reflexivity. Qed.

(** C26 fails when the plain variable has blanks other than spaces: cargo trims them. *)
Theorem C26_blanks_refuted : exists e o, op_cap_lints o = true
  /\ rustc_flags e [] = [tx "-Dwarnings"]
  /\ rustc_flags (child_env e (cargo_env e o)) [] = [tx "-Dwarnings" ++ [TAB]; tx "--cap-lints=warn"].
Proof.
  destruct ex_options as [o|] eqn:E; [|discriminate E].
  exists (fun n => if text_eqb n (tx "RUSTFLAGS") then Some (tx "-Dwarnings" ++ [TAB]) else None), o.
  vm_compute in E. injection E as <-. vm_compute. auto.
Qed.
Print Assumptions C26_blanks_refuted.

(** Flags set in cargo's configuration files are lost by capping. *)
Theorem C26_config_refuted : exists e o config, op_cap_lints o = true /\ rustc_flags e config = [tx "-Cx"]
  /\ rustc_flags (child_env e (cargo_env e o)) config = [tx "--cap-lints=warn"].
Proof.
  destruct ex_options as [o|] eqn:E; [|discriminate E].
  exists (fun n => None), o, [tx "-Cx"]. vm_compute in E. injection E as <-. vm_compute. auto.
Qed.
Print Assumptions C26_config_refuted.
