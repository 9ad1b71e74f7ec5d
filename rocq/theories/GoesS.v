(** When the program panics, and how long it goes on (C75). *)
From Coq Require Import String List NArith ZArith Bool.
From Verif Require Import Text SpanM PathM MutantM OutcomeM OutputM F64M TimeoutM PackageM OptionsM CargoM LabM MainM WholeM WholeS LaunchM EndM.
Import ListNotations.
Open Scope list_scope.

(** What makes the program panic before anything is tested: cargo names a manifest, of the workspace or of the package, by a path that is
    not absolute; or the options cannot be represented. *)
Inductive bad_setting (w : world) (a : arguments) : Prop :=
| bs_manifest start manifest root : start_dir (wo_is_file w) (ag_manifest a) (ag_dir a) = Some start ->
    wo_is_dir w start = true -> wo_locate w true start = Some manifest -> wo_is_file w manifest = true ->
    path_parent manifest = Some root -> wo_is_dir w root = true -> is_absolute root = false -> bad_setting w a
| bs_options start md cf : start_dir (wo_is_file w) (ag_manifest a) (ag_dir a) = Some start -> open_workspace w start = Done md ->
    config_used w a (md_root md) cf -> options_new (wo_re_ok w) (ag_options a) cf = OptionsM.NewPanic -> bad_setting w a
| bs_package s : settle w a = Done s -> in_relative w s -> bad_setting w a.

(** The program panics before it tests anything.  The search comes to an end. *)
Definition panics_early (w : world) (lk : text) (fuel : nat) (a : arguments) : Prop :=
  settle w a = Panics \/ exists s, settle w a = Done s /\ discover w fuel s <> WalkM.WFuel /\ after w lk fuel a s = Panics.

(** What makes it panic later: the tests of the tree without mutations have passed, and took a time from which no limit for the mutants
    can be computed.  Nothing else has been run. *)
Definition no_limits (s : setting) (r : rstate) : Prop :=
  op_baseline (se_options s) = true
  /\ (exists o, lo_outcomes (sh_lab (ls_sh (rs_lab r))) = [o] /\ oc_scenario o = Baseline /\ oc_success o = Some true
        /\ mutant_timeouts rnd64 (Some o) (timeout_options (se_options s)) = None)
  /\ forall l, In l (rs_log r) -> la_scenario l = Baseline.
