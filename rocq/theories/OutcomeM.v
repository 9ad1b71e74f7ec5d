(** Model of src/outcome.rs, src/exit_code.rs and the phase loop of
    src/lab.rs. *)
From Coq Require Import String List NArith ZArith Bool.
From Verif Require Import Text ProcessM.
Import ListNotations.

(** src/outcome.rs:33-38 [Phase]. *)
Inductive phase := Check | Build | Test.

Definition phase_eqb (a b : phase) : bool :=
  match a, b with
  | Check, Check | Build, Build | Test, Test => true
  | _, _ => false
  end.

(** src/outcome.rs:283-294 [PhaseResult]; the duration is in nanoseconds; argv is
    left out (see CargoM). *)
Record phase_result := mkPR { pr_phase : phase; pr_duration : N; pr_status : exit_t }.

(** src/scenario.rs:9-15 [Scenario], over an arbitrary type of mutants. *)
Inductive scenario (M : Type) := Baseline | Mutant (m : M).
Arguments Baseline {M}.
Arguments Mutant {M}.

(** src/scenario.rs:26-28. *)
Definition is_mutant {M} (s : scenario M) : bool :=
  match s with Baseline => false | Mutant _ => true end.

(** src/outcome.rs:144-159 [ScenarioOutcome] (log and diff paths are in
    OutputM). *)
Record outcome (M : Type) := mkOutcome {
  oc_scenario : scenario M;
  oc_results : list phase_result
}.
Arguments mkOutcome {M}.
Arguments oc_scenario {M}.
Arguments oc_results {M}.

(** [slice::last]. *)
Fixpoint last_opt {A} (l : list A) : option A :=
  match l with
  | [] => None
  | [x] => Some x
  | _ :: l' => last_opt l'
  end.

Section Outcome.
Context {M : Type}.

(** src/outcome.rs:196-202 [last_phase], [last_phase_result]: [None] models the
    panic of [unwrap] on an empty list. *)
Definition last_result (o : outcome M) : option phase_result := last_opt (oc_results o).

(** src/outcome.rs:210-212 [phase_result]. *)
Definition find_phase (o : outcome M) (p : phase) : option phase_result :=
  find (fun pr => phase_eqb (pr_phase pr) p) (oc_results o).

(** src/outcome.rs:220-222 [success]. *)
Definition oc_success (o : outcome M) : option bool :=
  match last_result o with Some pr => Some (is_success (pr_status pr)) | None => None end.

(** src/outcome.rs:224-228 [has_timeout]. *)
Definition has_timeout (o : outcome M) : bool :=
  existsb (fun pr => is_timeout (pr_status pr)) (oc_results o).

(** src/outcome.rs:230-234 [check_or_build_failed]. *)
Definition check_or_build_failed (o : outcome M) : bool :=
  existsb (fun pr => negb (phase_eqb (pr_phase pr) Test) && is_failure (pr_status pr)) (oc_results o).

(** src/outcome.rs:237-241 [mutant_caught]; the short-circuit means the unwrap is
    reached only for mutants. *)
Definition mutant_caught (o : outcome M) : option bool :=
  if is_mutant (oc_scenario o) then
    match last_result o with
    | Some pr => Some (phase_eqb (pr_phase pr) Test && is_failure (pr_status pr))
    | None => None
    end
  else Some false.

(** src/outcome.rs:244-248 [mutant_missed]. *)
Definition mutant_missed (o : outcome M) : option bool :=
  if is_mutant (oc_scenario o) then
    match last_result o with
    | Some pr => Some (phase_eqb (pr_phase pr) Test && is_success (pr_status pr))
    | None => None
    end
  else Some false.

(** src/outcome.rs:316-326 [SummaryOutcome]. *)
Inductive summary_outcome :=
  SumSuccess | SumCaught | SumMissed | SumUnviable | SumFailure | SumTimeout.

(** src/outcome.rs:250-280 [summary]. *)
Definition summary (o : outcome M) : option summary_outcome :=
  match oc_scenario o with
  | Baseline =>
      if has_timeout o then Some SumTimeout
      else match oc_success o with
           | None => None
           | Some true => Some SumSuccess
           | Some false => Some SumFailure
           end
  | Mutant _ =>
      if check_or_build_failed o then Some SumUnviable
      else if has_timeout o then Some SumTimeout
      else match mutant_caught o with
           | None => None
           | Some true => Some SumCaught
           | Some false =>
               match mutant_missed o with
               | None => None
               | Some true => Some SumMissed
               | Some false =>
                   match oc_success o with
                   | None => None
                   | Some true => Some SumSuccess
                   | Some false => Some SumFailure
                   end
               end
           end
  end.

(** src/outcome.rs:57-68 [LabOutcome]. *)
Record lab_outcome := mkLab {
  lo_outcomes : list (outcome M);
  lo_total : nat;
  lo_missed : nat;
  lo_caught : nat;
  lo_timeout : nat;
  lo_unviable : nat;
  lo_success : nat
}.

(** src/outcome.rs:71-73 [LabOutcome::new]. *)
Definition lab_new : lab_outcome := mkLab [] 0 0 0 0 0 0.

(** src/outcome.rs:76-92 [LabOutcome::add]; [None] models the unwrap panic. *)
Definition lab_add (l : lab_outcome) (o : outcome M) : option lab_outcome :=
  let '(mkLab os tot mi ca ti un su) := l in
  if is_mutant (oc_scenario o) then
    match summary o with
    | None => None
    | Some SumCaught => Some (mkLab (os ++ [o]) (tot + 1) mi (ca + 1) ti un su)
    | Some SumMissed => Some (mkLab (os ++ [o]) (tot + 1) (mi + 1) ca ti un su)
    | Some SumTimeout => Some (mkLab (os ++ [o]) (tot + 1) mi ca (ti + 1) un su)
    | Some SumUnviable => Some (mkLab (os ++ [o]) (tot + 1) mi ca ti (un + 1) su)
    | Some SumSuccess => Some (mkLab (os ++ [o]) (tot + 1) mi ca ti un (su + 1))
    | Some SumFailure => Some (mkLab (os ++ [o]) (tot + 1) mi ca ti un su)
    end
  else Some (mkLab (os ++ [o]) tot mi ca ti un su).

(** A sequence of [add]s. *)
Fixpoint lab_add_all (l : lab_outcome) (os : list (outcome M)) : option lab_outcome :=
  match os with
  | [] => Some l
  | o :: os' => match lab_add l o with Some l' => lab_add_all l' os' | None => None end
  end.

(** src/exit_code.rs. *)
Definition EXIT_SUCCESS : Z := 0%Z.
Definition EXIT_USAGE : Z := 1%Z.
Definition EXIT_FOUND_PROBLEMS : Z := 2%Z.
Definition EXIT_TIMEOUT : Z := 3%Z.
Definition EXIT_BASELINE_FAILED : Z := 4%Z.
Definition EXIT_SOFTWARE : Z := 70%Z.

(** src/outcome.rs:97-101: does some non-mutant outcome lack success?  [None]
    models the unwrap panic ([any] stops at the first true). *)
Fixpoint any_baseline_failed (os : list (outcome M)) : option bool :=
  match os with
  | [] => Some false
  | o :: os' =>
      if is_mutant (oc_scenario o) then any_baseline_failed os'
      else match oc_success o with
           | None => None
           | Some false => Some true
           | Some true => any_baseline_failed os'
           end
  end.

(** src/outcome.rs:95-110 [exit_code]. *)
Definition lab_exit_code (l : lab_outcome) : option Z :=
  match any_baseline_failed (lo_outcomes l) with
  | None => None
  | Some true => Some EXIT_BASELINE_FAILED
  | Some false =>
      if Nat.ltb 0 (lo_timeout l) then Some EXIT_TIMEOUT
      else if Nat.ltb 0 (lo_missed l) then Some EXIT_FOUND_PROBLEMS
      else Some EXIT_SUCCESS
  end.

(** src/console.rs:649-655 [plural]. *)
Definition plural (n : nat) (noun : text) : text :=
  if Nat.eqb n 1 then tx "1 " ++ noun
  else show_nat n ++ [SP] ++ noun ++ tx "s".

(** src/outcome.rs:113-141 [summary_string], with [show_times] off (the elapsed
    time text is left out). *)
Definition summary_string (l : lab_outcome) : text :=
  let part (n : nat) (w : text) : list text :=
    if Nat.eqb n 0 then [] else [show_nat n ++ [SP] ++ w] in
  plural (lo_total l) (tx "mutant") ++ tx " tested" ++ tx ": "
  ++ join (tx ", ")
       (part (lo_missed l) (tx "missed") ++ part (lo_caught l) (tx "caught")
        ++ part (lo_unviable l) (tx "unviable") ++ part (lo_timeout l) (tx "timeouts")
        ++ part (lo_success l) (tx "succeeded")).

(** src/options.rs:359-365 [Options::phases]. *)
Definition phases (check_only : bool) : list phase :=
  if check_only then [Check] else [Build; Test].

(** src/lab.rs:277-312: the loop over phases in [run_one_scenario].  [cargo p] is
    the result of running cargo for that phase: an exit and duration, or [None]
    for an internal error.  Result: [None] if an internal error ended the
    scenario; otherwise the phase results in order. *)
Fixpoint phase_loop (cargo : phase -> option (exit_t * N)) (ps : list phase)
  : option (list phase_result) :=
  match ps with
  | [] => Some []
  | p :: ps' =>
      match cargo p with
      | None => None
      | Some (e, d) =>
          if is_success e then
            match phase_loop cargo ps' with
            | Some l => Some (mkPR p d e :: l)
            | None => None
            end
          else Some [mkPR p d e]
      end
  end.

(** src/lab.rs:276-323: the outcome of a scenario. *)
Definition run_scenario_outcome (s : scenario M) (check_only : bool)
    (cargo : phase -> option (exit_t * N)) : option (outcome M) :=
  match phase_loop cargo (phases check_only) with
  | Some l => Some (mkOutcome s l)
  | None => None
  end.

End Outcome.
Arguments lab_outcome : clear implicits.
