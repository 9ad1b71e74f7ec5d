(** Model of all logs of a run: the transition system of LaunchM, with the steps of LogM for the log of
    every scenario (src/lab.rs:253-323, src/output.rs:286-355). *)
From Coq Require Import String List NArith ZArith QArith Bool Arith.
From Verif Require Import Text Utf8M SpanM PathM MutantM ProcessM OutcomeM OutputM OptionsM PackageM CargoM JsonM LabM LaunchM LogM.
Import ListNotations.
Open Scope list_scope.
Open Scope nat_scope.

(** A log: the name it was given by [start_scenario], what it is for, and how far LogM has come.  The trace
    is for specifications only. *)
Record glog := mkGL { gl_name : text; gl_scenario : scenario mutant; gl_trace : list label; gl_state : lstate }.

(** The run, the logs in the order in which they were made, the log that each thread has in hand
    (src/lab.rs:259-263 [scenario_output]; thread 0 is the main thread while it runs the baseline), and for
    each recorded outcome its log (src/outcome.rs:177-186: [ScenarioOutcome::new] takes the path of the log
    from [scenario_output]). *)
Record gstate := mkG { g_run : rstate; g_logs : list glog; g_cur : nat -> option nat; g_named : list nat }.

Definition upd (f : nat -> option nat) (i : nat) (x : option nat) : nat -> option nat :=
  fun k => if Nat.eqb k i then x else f k.

(** The phases with their statuses, as LogM has them. *)
Definition statuses (done : list phase_result) : list (phase * exit_t) := map (fun r => (pr_phase r, pr_status r)) done.

(** Where the log of a thread must be when the thread goes from [c] to [c']; [None]: anywhere. *)
Definition goal (c c' : wpc) : option lpc :=
  match c' with
  | WPhase _ _ done todo => Some (PPhases (statuses done) todo)
  | WCargo _ _ done p todo => Some (PPhases (statuses done) (p :: todo))
  | WRevert _ _ done => Some (PEnd (Some (statuses done)))
  | WRevertErr _ _ => Some (PEnd None)
  | WEnd false => match c with WApply _ _ => Some (PEnd None) | _ => None end
  | _ => None
  end.

(** May a thread at [c] go on with its log when this is at [k]?  Not after the place where the thread
    itself goes on. *)
Definition may (c : wpc) (k : lpc) : bool :=
  match c with
  | WApply _ _ => match k with PPhases _ _ => false | _ => true end
  | WPhase _ _ _ [] => true
  | WCargo _ _ done _ _ => match k with PPhases done' _ => Nat.eqb (length done') (length done) | _ => true end
  | _ => false
  end.

Definition is_child (l : label) : bool := match l with EChild _ _ => true | _ => false end.

(** Thread [i] goes from [c] to [c']. *)
Definition moves (r r' : rstate) (i : nat) (c c' : wpc) : Prop :=
  at_pc (rs_lab r) i c /\ at_pc (rs_lab r') i c' /\ c <> c'.

(** The main thread starts the workers or ends. *)
Definition main_goes (r r' : rstate) : Prop :=
  match ls_main (rs_lab r), ls_main (rs_lab r') with MBaseline _, MBaseline _ | MWork, MWork => False | _, _ => True end.

Definition logs_of (r : rstate) : list text := sh_logs (ls_sh (rs_lab r)).
Definition is_add (c c' : wpc) : bool := match c, c' with WAdd _ _ _, WJson _ _ => true | _, _ => false end.

Section Logs.
Variables (P : params) (X : context) (ms : list mutant) (diff : mutant -> text).

(** What the log of a scenario is given: src/lab.rs:270-292. *)
Definition conf (s : scenario mutant) : lconf :=
  mkLC s (match s with Mutant m => diff m | Baseline => [] end)
       (fun p => cargo_argv (cx_env X) (test_selection X ms s) p (cx_options X))
       (phases (pa_check_only P)) (pa_faults P).

(** The steps.  [start_scenario] is run under a lock (src/lab.rs:259-263) and is one step: the log is made,
    and the name of the scenario is in it, or part of that if there is an error.  All later writes are steps of their
    own.  A thread goes on when its log is where it should be.  Processes of earlier commands may
    write to a log at any time. *)
Inductive gstep : gstate -> gstate -> Prop :=
| g_begin r r' logs cur named i d s n tr l :
    rstep P X ms r r' -> moves r r' i (WStart d s) (WApply d s) -> logs_of r' = logs_of r ++ [n] ->
    lruns (conf s) lstart tr l -> l_pc l = PStarted ->
    gstep (mkG r logs cur named) (mkG r' (logs ++ [mkGL n s tr l]) (upd cur i (Some (length logs))) named)
| g_begin_err r r' logs cur named i d s n tr l :
    rstep P X ms r r' -> moves r r' i (WStart d s) (WEnd false) -> logs_of r' = logs_of r ++ [n] ->
    lruns (conf s) lstart tr l -> l_pc l = PEnd None -> l_file l <> None ->
    gstep (mkG r logs cur named) (mkG r' (logs ++ [mkGL n s tr l]) (upd cur i (Some (length logs))) named)
| g_thread r r' logs cur named i c c' :
    rstep P X ms r r' -> moves r r' i c c' -> logs_of r' = logs_of r -> is_add c c' = false ->
    (forall k, goal c c' = Some k -> exists j g, cur i = Some j /\ nth_error logs j = Some g /\ l_pc (gl_state g) = k) ->
    gstep (mkG r logs cur named) (mkG r' logs cur named)
| g_add r r' logs cur named i c c' j :
    rstep P X ms r r' -> moves r r' i c c' -> is_add c c' = true -> cur i = Some j ->
    gstep (mkG r logs cur named) (mkG r' logs cur (named ++ [j]))
| g_main r r' logs cur named :
    rstep P X ms r r' -> main_goes r r' ->
    gstep (mkG r logs cur named) (mkG r' logs cur named)
| g_write r logs cur named i c j g lb l :
    at_pc (rs_lab r) i c -> cur i = Some j -> nth_error logs j = Some g -> may c (l_pc (gl_state g)) = true ->
    lstep (conf (gl_scenario g)) (gl_state g) lb l -> is_child lb = false ->
    gstep (mkG r logs cur named)
          (mkG r (list_set logs j (mkGL (gl_name g) (gl_scenario g) (gl_trace g ++ [lb]) l)) cur named)
| g_child r logs cur named j g lb l :
    nth_error logs j = Some g -> lstep (conf (gl_scenario g)) (gl_state g) lb l -> is_child lb = true ->
    gstep (mkG r logs cur named)
          (mkG r (list_set logs j (mkGL (gl_name g) (gl_scenario g) (gl_trace g ++ [lb]) l)) cur named).

Inductive gsteps : gstate -> gstate -> Prop :=
| gsteps_refl s : gsteps s s
| gsteps_more s s' s'' : gsteps s s' -> gstep s' s'' -> gsteps s s''.

Definition gstart (o : entries) (t0 : tree) : gstate := mkG (rstart P X ms o t0) [] (fun _ => None) [].
Definition greachable (o : entries) (t0 : tree) (g : gstate) : Prop := gsteps (gstart o t0) g.
End Logs.

(** src/cargo.rs:76-81: the command line that is kept with a phase's result. *)
Definition kept_argv (X : context) (ms : list mutant) (o : outcome mutant) (r : phase_result) : list text :=
  cargo_argv (cx_env X) (test_selection X ms (oc_scenario o)) (pr_phase r) (cx_options X).
