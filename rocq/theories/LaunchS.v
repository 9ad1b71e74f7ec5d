(** Specification of the cargo processes of a run (C65). *)
From Coq Require Import String List NArith ZArith QArith Bool Arith.
From Verif Require Import Text SpanM PathM MutantM ProcessM OutcomeM F64M TimeoutM OutputM OptionsM PackageM CargoM CargoS LabM LabS LaunchM.
Import ListNotations.
Open Scope nat_scope.

(** How a package is named to cargo. *)
Definition package_word (p : package) : text := tx "--package=" ++ pk_name p ++ tx "@" ++ pk_version p.

(** The words that select the packages to test in a scenario, when the mutants [ms] are to be tested. *)
Definition right_packages (X : context) (ms : list mutant) (s : scenario mutant) (ws : list text) : Prop :=
  match s with
  | Baseline => forall w, In w ws <-> exists m, In m ms /\ w = package_word (cx_package X m)
  | Mutant m =>
      In m ms /\
      match op_test_package (cx_options X) with
      | TPMutated => ws = [package_word (cx_package X m)]
      | TPWorkspace => ws = [tx "--workspace"]
      | TPNamed names => forall w, In w ws <->
          exists p, In p (packages_from_metadata (cx_meta X)) /\ In (pk_name p) names /\ w = package_word p
      end
  end.

(** The variables that a run sets itself. *)
Definition set_by_run (X : context) (v : text) : Prop :=
  v = tx "INSTA_UPDATE" \/ v = tx "INSTA_FORCE_PASS" \/ v = tx "CARGO_ENCODED_RUSTFLAGS"
  \/ exists x, In (v, x) (cx_jobserver X).

(** The command is right for the scenario and the phase. *)
Definition right_command (P : params) (X : context) (ms : list mutant) (l : launch) : Prop :=
  In (la_phase l) (if pa_check_only P then [Check] else [Build; Test])
  /\ exists ws args,
       la_argv l = (match cx_env X (tx "CARGO") with Some c => c | None => tx "cargo" end) :: args
       /\ filter selects args = ws ++ filter selects (user_args (la_phase l) (cx_options X))
       /\ right_packages X ms (la_scenario l) ws
       /\ (la_phase l <> Test -> ~ executes_tests args)
       /\ (la_phase l = Test -> ~ In (tx "--no-run") (user_args Test (cx_options X)) -> executes_tests args).

(** The processes of a scenario, in a list of processes. *)
Inductive of_scenario (s : scenario mutant) : list launch -> list launch -> Prop :=
| of_nil : of_scenario s [] []
| of_this l log ls : la_scenario l = s -> of_scenario s log ls -> of_scenario s (l :: log) (l :: ls)
| of_other l log ls : la_scenario l <> s -> of_scenario s log ls -> of_scenario s (l :: log) ls.

(** What a process contributes to the outcome of its scenario; nothing if there was an error. *)
Definition given (l : launch) : option phase_result :=
  match la_result l with Some (e, dur) => Some (mkPR (la_phase l) dur e) | None => None end.

(** The files that a process finds: the workspace's source files, with the mutation if it is for a mutant. *)
Definition right_files (P : params) (l : launch) : Prop :=
  match la_scenario l with
  | Mutant m =>
      la_tree l (file_key m) = Some (mutant_code m)
      /\ forall k, pa_source P k = true -> k <> file_key m -> as_source P k (la_tree l k)
  | Baseline => forall k, pa_source P k = true -> as_source P k (la_tree l k)
  end.

(** The process ended by itself with this status, and was seen to not later than the limit. *)
Definition ended (l : launch) (w : wait_status) : Prop :=
  exists pre x post, la_polls l = pre ++ x :: post /\ sm_status x = Some w
    /\ sm_interrupted x = false /\ forall t, la_limit l = Some t -> (sm_elapsed x <= t)%N.

(** The process was stopped because it took longer than its limit, not having been seen to end. *)
Definition stopped (l : launch) : Prop :=
  exists t pre x post, la_limit l = Some t /\ la_polls l = pre ++ x :: post /\ (t < sm_elapsed x)%N
    /\ (forall q, In q pre -> (sm_elapsed q <= t)%N /\ sm_status q = None)
    /\ forall e dur, la_result l = Some (e, dur) -> (t < dur)%N.

(** Neither a code nor a limit: killed by a signal, or unknown. *)
Definition no_code (w : wait_status) : Prop := match w with WExited _ => False | _ => True end.

(** What the processes of a mutant must have done for it to get a verdict. *)
Inductive explains (check : bool) : list launch -> summary_outcome -> Prop :=
| ex_missed b t : check = false -> la_phase b = Build -> la_phase t = Test ->
    ended b (WExited 0) -> ended t (WExited 0) -> explains check [b; t] SumMissed
| ex_caught b t c : check = false -> la_phase b = Build -> la_phase t = Test ->
    ended b (WExited 0) -> c <> 0%Z -> ended t (WExited c) -> explains check [b; t] SumCaught
| ex_unviable b c : la_phase b = (if check then Check else Build) ->
    c <> 0%Z -> ended b (WExited c) -> explains check [b] SumUnviable
| ex_timeout pre b : Forall (fun l => ended l (WExited 0)) pre -> stopped b -> explains check (pre ++ [b]) SumTimeout
| ex_success b : check = true -> la_phase b = Check -> ended b (WExited 0) -> explains check [b] SumSuccess
| ex_failure pre b w : Forall (fun l => ended l (WExited 0)) pre -> no_code w -> ended b w ->
    explains check (pre ++ [b]) SumFailure.

(** The processes of several jobs, one list for each, in the order in which they were run together. *)
Inductive woven : list (list launch) -> list launch -> Prop :=
| wv_none n : woven (repeat [] n) []
| wv_next bs1 b bs2 log l : woven (bs1 ++ b :: bs2) log -> woven (bs1 ++ (b ++ [l]) :: bs2) (log ++ [l]).

(** All processes in the same directory, for the same scenario. *)
Definition one_job (s : scenario mutant) (b : list launch) : Prop := exists d, Forall (fun l => la_dir l = d /\ la_scenario l = s) b.

(** The processes from which an outcome was recorded. *)
Definition part_of (o : outcome mutant) (b : list launch) : Prop :=
  one_job (oc_scenario o) b /\ map given b = map Some (oc_results o).

(** The outcome is of a mutant. *)
Definition of_mutant (o : outcome mutant) : bool := match oc_scenario o with Mutant _ => true | Baseline => false end.

(** [k] steps of a run. *)
Inductive rsteps_k (P : params) (X : context) (ms : list mutant) : nat -> rstate -> rstate -> Prop :=
| rk_0 : forall r, rsteps_k P X ms 0 r r
| rk_S : forall k r r' r'', rsteps_k P X ms k r r' -> rstep P X ms r' r'' -> rsteps_k P X ms (S k) r r''.
