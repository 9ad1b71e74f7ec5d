(** What the exit status means, and which mutants a run is about. *)
From Coq Require Import String List NArith ZArith Bool Permutation.
From Verif Require Import Text SpanM PathM PathS MutantM OutcomeM OutcomeS OutputM IterateM InDiffM ShardM PackageM OptionsM PrettyM FnValueM VisitM
  VisitS WalkM WalkS LabM LabS MainM MainS WholeM.
Import ListNotations.
Open Scope list_scope.

(** The documented exit codes (book/src/exit-codes.md), and those that are not documented: errors and panics, and
    errors of clap other than usage. *)
Definition verdict (l : lab_outcome mutant) (m : mutant) (v : summary_outcome) : Prop :=
  exists o, In o (lo_outcomes l) /\ oc_scenario o = Mutant m /\ summary o = Some v.
Inductive meaning : ending -> Z -> Prop :=
| me_help : meaning (EClap 0) 0
| me_usage : meaning (EClap 2) 1
| me_clap n : n <> 0%Z -> n <> 2%Z -> meaning (EClap n) 70
| me_info : meaning EInfo 0
| me_listed out : meaning (EListed out) 0
| me_error : meaning EError 1
| me_panic : meaning EPanic 101
| me_success ms l : (forall m, In m ms -> exists v, verdict l m v) ->
    (forall m v, verdict l m v -> v <> SumMissed /\ v <> SumTimeout) -> meaning (ETested ms l) 0
| me_missed ms l m : In m ms -> verdict l m SumMissed -> (forall m', ~ verdict l m' SumTimeout) -> meaning (ETested ms l) 2
| me_timeout ms l m : In m ms -> verdict l m SumTimeout -> meaning (ETested ms l) 3
| me_baseline ms l o : ms <> [] -> In o (lo_outcomes l) -> baseline_unsuccessful o -> (forall m v, ~ verdict l m v) -> meaning (ETested ms l) 4.

(** The configuration when there is no file: nothing is set. *)
Definition nothing_set : config :=
  {| cf_cap_lints := false; cf_copy_vcs := None; cf_error_values := []; cf_examine_globs := []; cf_exclude_globs := [];
     cf_exclude_re := []; cf_examine_re := []; cf_additional_cargo_args := []; cf_additional_cargo_test_args := [];
     cf_minimum_test_timeout := None; cf_output := None; cf_profile := None; cf_skip_calls := []; cf_skip_calls_defaults := None;
     cf_test_package := []; cf_test_tool := None; cf_timeout_multiplier := None; cf_build_timeout_multiplier := None;
     cf_test_workspace := None |}.
(** Where the options come from. *)
Inductive config_used (w : world) (a : arguments) (root : text) : config -> Prop :=
| cu_off : ag_no_config a = true -> config_used w a root nothing_set
| cu_absent : ag_no_config a = false -> wo_exists w (path_join (path_join root (tx ".cargo")) (tx "mutants.toml")) = false ->
    config_used w a root nothing_set
| cu_file t c : ag_no_config a = false -> wo_exists w (path_join (path_join root (tx ".cargo")) (tx "mutants.toml")) = true ->
    wo_read w (path_join (path_join root (tx ".cargo")) (tx "mutants.toml")) = Some t -> wo_toml w t = Some c ->
    config_used w a root c.

(** The mutants of the packages [ps]: offered by a file that is reached from the targets of one of them, allowed by the
    globs and the names. *)
Definition of_packages (w : world) (root : text) (o : options) (errs : list toks) (ps : list package) (m : mutant) : Prop :=
  exists p e f tree, In p ps
    /\ reach (wo_read w) (wo_is_file w) (wo_syn w) root (op_skip_calls o) (pk_name p) (map (fun t => (t, true)) (pk_tops p)) e
    /\ load (wo_read w) root (fst e) (pk_name p) (snd e) = Loaded f /\ wo_syn w (sf_code f) = Some tree
    /\ allows_source_file_path o (sf_path f) = true
    /\ offered f errs (op_skip_calls o) tree m /\ allows_mutant (wo_re_match w) o m = Some true.

(** The files of the packages that the globs allow. *)
Definition file_of_packages (w : world) (root : text) (o : options) (ps : list package) (f : source_file) : Prop :=
  exists p e, In p ps
    /\ reach (wo_read w) (wo_is_file w) (wo_syn w) root (op_skip_calls o) (pk_name p) (map (fun t => (t, true)) (pk_tops p)) e
    /\ load (wo_read w) root (fst e) (pk_name p) (snd e) = Loaded f /\ allows_source_file_path o (sf_path f) = true.

(** What is printed for mutants and for files: JSON if it is asked for, or lines, and diffs if they are asked for. *)
Inductive lists_mutants (w : world) (o : options) : list mutant -> text -> Prop :=
| lm_json ms : op_emit_json o = true -> op_emit_diffs o = false -> lists_mutants w o ms (wo_json_mutants w (map (fun m => (m, None)) ms))
| lm_json_diffs ms : op_emit_json o = true -> op_emit_diffs o = true ->
    lists_mutants w o ms (wo_json_mutants w (map (fun m => (m, Some (wo_diff w m))) ms))
| lm_none : op_emit_json o = false -> lists_mutants w o [] []
| lm_line m ms n t : op_emit_json o = false -> op_emit_diffs o = false -> mutant_name (op_show_line_col o) m = Some n ->
    lists_mutants w o ms t -> lists_mutants w o (m :: ms) (n ++ [NL] ++ t)
| lm_diff m ms n t : op_emit_json o = false -> op_emit_diffs o = true -> mutant_name (op_show_line_col o) m = Some n ->
    lists_mutants w o ms t -> lists_mutants w o (m :: ms) (n ++ [NL] ++ wo_diff w m ++ [NL] ++ t).
Inductive lists_files (w : world) (o : options) : list source_file -> text -> Prop :=
| lf_json fs : op_emit_json o = true -> lists_files w o fs (wo_json_files w fs)
| lf_none : op_emit_json o = false -> lists_files w o [] []
| lf_line f fs t : op_emit_json o = false -> lists_files w o fs t -> lists_files w o (f :: fs) (to_slash_path (sf_path f) ++ [NL] ++ t).

(** The patches of --in-diff, and the shard. *)
Definition patches_of (w : world) (a : arguments) (ops : option (list patch)) : Prop :=
  match ag_in_diff a with
  | None => ops = None
  | Some p => exists d ps, wo_read w p = Some d /\ ops = Some ps /\ asks (wo_patch w) d ps
  end.
Definition shard_of (a : arguments) : option (nat * nat) := option_map (fun s => (N.to_nat (sh_k s), N.to_nat (sh_n s))) (ag_shard a).

(** Names of modules are identifiers. *)
Definition named (m : mod_ns) : Prop := mn_name m <> [] /\ relative (mn_name m).

(** The workspace around a directory, as cargo says. *)
Definition workspace_of (w : world) (start : text) (md : metadata) : Prop :=
  wo_is_dir w start = true
  /\ exists manifest root file, wo_locate w true start = Some manifest /\ wo_is_file w manifest = true
     /\ components manifest = components root ++ [file] /\ wo_is_dir w root = true /\ is_absolute root = true
     /\ wo_metadata w (path_join root (tx "Cargo.toml")) = Some md.

(** The directory of the package around [d], as cargo says. *)
Definition package_dir (w : world) (d p : text) : Prop :=
  wo_is_dir w d = true /\ exists manifest, wo_locate w false d = Some manifest /\ wo_is_file w manifest = true
    /\ path_parent manifest = Some p /\ wo_is_dir w p = true.
(** The walk over the packages that are selected. *)
Definition walks_to (w : world) (fuel : nat) (s : setting) (r : wresult) : Prop :=
  exists ps errs, mutated_packages (fun d => locate_project w d false) (se_meta s) (se_filter s) = Some ps
    /\ Forall2 (fun e t => wo_expr w e = Some t) (op_error_values (se_options s)) errs
    /\ walk_tree (wo_read w) (wo_is_file w) (wo_syn w) (wo_re_match w) (md_root (se_meta s)) (se_options s) errs
         (op_skip_calls (se_options s)) fuel ps = r.
(** The program was started in a package whose directory is not absolute. *)
Definition in_relative (w : world) (s : setting) : Prop :=
  exists d p, se_filter s = PFAuto d /\ package_dir w d p /\ is_absolute p = false.
