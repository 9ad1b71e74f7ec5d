(** Model of the cargo processes of a run: the transition system of LabM together with the commands of
    CargoM, the packages of PackageM, the limits of TimeoutM and the processes of ProcessM. *)
From Coq Require Import String List NArith ZArith QArith Bool Arith.
From Verif Require Import Text SpanM PathM MutantM ProcessM OutcomeM F64M TimeoutM OutputM OptionsM PackageM CargoM LabM.
Import ListNotations.
Open Scope nat_scope.

(** What a run is given beyond [params]: the environment of the program, the metadata of the workspace, the
    options, the package of each mutant ([mutant.source_file.package]), and the variables that the client of
    the job server sets (crate jobserver, [Client::configure]). *)
Record context := mkContext {
  cx_env : env; cx_meta : metadata; cx_options : options; cx_package : mutant -> package;
  cx_jobserver : list (text * text) }.

(** One call of [run_cargo]: the build directory it is run in, the scenario and the phase, the command
    with its environment and time limit, the files in the directory when it starts, what was seen at the
    polls, and the status with the duration ([None]: an error).  The files are for specifications only. *)
Record launch := mkLaunch {
  la_dir : nat; la_scenario : scenario mutant; la_phase : phase;
  la_argv : list text; la_env : env; la_limit : option N;
  la_tree : tree; la_polls : list sample; la_result : option (exit_t * N) }.

(** The lab, the limits for mutants when they are known (src/lab.rs:67 [timeouts]), and the processes
    that have ended, in order of ending. *)
Record rstate := mkRS { rs_lab : state; rs_limits : option timeouts; rs_log : list launch }.

Section Run.
Variables (P : params) (X : context) (ms : list mutant).

(** src/lab.rs:175-188 for the baseline, 242-249 for a mutant: the packages whose tests are run. *)
Definition test_selection (s : scenario mutant) : selection :=
  match s with
  | Baseline => baseline_selection (map (cx_package X) ms)
  | Mutant m => mutant_selection (cx_meta X) (op_test_package (cx_options X)) (cx_package X m)
  end.

(** src/lab.rs:187 and 249: the limits.  Workers are started only when those for mutants are known. *)
Definition limits_for (lim : option timeouts) (s : scenario mutant) : timeouts :=
  match s with
  | Baseline => for_baseline (timeout_options (cx_options X))
  | Mutant _ => match lim with Some t => t | None => mkTimeouts None None end
  end.

(** src/cargo.rs:34-66, src/process.rs:73-105: the process for a phase, src/lab.rs:277-292.  The variables
    of the job server are set last (src/process.rs:91-93). *)
Definition launch_of (lim : option timeouts) (d : nat) (s : scenario mutant) (p : phase) (t : tree)
  (polls : list sample) (r : option (exit_t * N)) : launch :=
  mkLaunch d s p
    (cargo_argv (cx_env X) (test_selection s) p (cx_options X))
    (child_env (cx_env X) (cargo_env (cx_env X) (cx_options X)
       ++ if op_jobserver (cx_options X) then cx_jobserver X else []))
    (phase_timeout (limits_for lim s) p) t polls r.

(** src/cargo.rs:59-82: the status is the one of [Process::run]; the duration is measured after the last
    poll, from before the start.  Errors are any of: the process cannot be started, the log cannot be
    written, an error of [Process::run], an interrupt. *)
Definition cargo_gives (lim : option N) (polls : list sample) (r : option (exit_t * N)) : Prop :=
  match r with
  | Some (e, dur) => fst (run_loop lim polls) = RunExit e /\ forall s, In s polls -> (sm_elapsed s <= dur)%N
  | None => True
  end.

(** src/lab.rs:293-309: what a worker does next. *)
Definition after_cargo (d : nat) (s : scenario mutant) (done : list phase_result) (p : phase) (todo : list phase)
  (r : option (exit_t * N)) : wpc :=
  match r with
  | Some (e, dur) =>
      if is_success e then WPhase d s (done ++ [mkPR p dur e]) todo else WRevert d s (done ++ [mkPR p dur e])
  | None => WRevertErr d s
  end.

(** Thread [i] is at [c]; thread 0 is the main thread while it runs the baseline. *)
Definition at_pc (st : state) (i : nat) (c : wpc) : Prop :=
  match ls_main st with
  | MBaseline c' => i = 0 /\ c = c'
  | MWork => nth_error (ls_workers st) i = Some c
  | MEnd _ => False
  end.
Definition put_pc (st : state) (i : nat) (sh : shared) (c : wpc) : state :=
  match ls_main st with
  | MBaseline _ => mkLS sh (MBaseline c) (ls_workers st)
  | x => mkLS sh x (list_set (ls_workers st) i c)
  end.

(** The steps: the end of a cargo process; the choice of limits after a baseline that succeeded
    (src/lab.rs:70-72), which may panic; and all other steps of the lab. *)
Inductive rstep : rstate -> rstate -> Prop :=
| rs_cargo st lim log i d s done p todo polls r t :
    at_pc st i (WCargo d s done p todo) ->
    cargo_gives (phase_timeout (limits_for lim s) p) polls r ->
    same_sources P (get_tree (ls_sh st) d) t ->
    rstep (mkRS st lim log)
          (mkRS (put_pc st i (put_tree (ls_sh st) d t) (after_cargo d s done p todo r)) lim
                (log ++ [launch_of lim d s p (get_tree (ls_sh st) d) polls r]))
| rs_limited sh d o lim log t : oc_success o = Some true ->
    mutant_timeouts rnd64 (Some o) (timeout_options (cx_options X)) = Some t ->
    rstep (mkRS (mkLS sh (MBaseline (WFin d o)) []) lim log)
          (mkRS (mkLS (set_dir0 sh (Some d)) MWork (spawn (n_threads (pa_jobs P) (length ms)))) (Some t) log)
| rs_panic sh d o lim log : oc_success o = Some true ->
    mutant_timeouts rnd64 (Some o) (timeout_options (cx_options X)) = None ->
    rstep (mkRS (mkLS sh (MBaseline (WFin d o)) []) lim log)
          (mkRS (mkLS sh (MEnd RPanic) []) lim log)
| rs_other st st' lim log : step P (length ms) st st' ->
    (forall i d s done p todo, at_pc st i (WCargo d s done p todo) -> at_pc st' i (WCargo d s done p todo)) ->
    (forall d o, ls_main st = MBaseline (WFin d o) -> oc_success o <> Some true) ->
    rstep (mkRS st lim log) (mkRS st' lim log).

(** src/lab.rs:85: limits without a baseline are there from the start. *)
Definition rstart (o : entries) (t0 : tree) : rstate :=
  mkRS (start_state P o t0 ms)
       (if pa_skip_baseline P then mutant_timeouts (M := mutant) rnd64 None (timeout_options (cx_options X)) else None) [].

Inductive rsteps : rstate -> rstate -> Prop :=
| rsteps_refl s : rsteps s s
| rsteps_more s s' s'' : rsteps s s' -> rstep s' s'' -> rsteps s s''.

Definition rreachable (o : entries) (t0 : tree) (r : rstate) : Prop := rsteps (rstart o t0) r.
End Run.
