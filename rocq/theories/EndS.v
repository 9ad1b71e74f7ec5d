(** What the exit status of a whole run says about its cargo processes (C67). *)
From Coq Require Import String List NArith ZArith Bool Permutation.
From Verif Require Import Text SpanM PathM MutantM ProcessM OutcomeM OutputM PackageM OptionsM CargoM LabM LabS MainM WholeM LaunchM LaunchS.
Import ListNotations.
Open Scope list_scope.

(** The tree that is copied or tested in place has the source files that discovery read. *)
Definition tree_as_read (w : world) (s : setting) (P : params) (ms : list mutant) : Prop :=
  forall m, In m ms -> pa_source P (file_key m) = true
    /\ pa_root P (file_key m) = wo_read w (path_join (md_root (se_meta s)) (sf_path (mu_file m))).

Section Log.
Variables (P : params) (X : context) (ms : list mutant) (log : list launch).

(** Cargo was run for the mutant, on the source with the mutation and with the right command, and what
    it did is what the verdict says. *)
Definition tested (m : mutant) (v : summary_outcome) : Prop :=
  exists ls, of_scenario (Mutant m) log ls /\ explains (pa_check_only P) ls v
    /\ Forall (right_command P X ms) ls /\ Forall (right_files P) ls.

(** Cargo was run on the source without mutations and succeeded in each phase. *)
Definition baseline_fine : Prop :=
  exists ls, of_scenario Baseline log ls /\ map la_phase ls = (if pa_check_only P then [Check] else [Build; Test])
    /\ Forall (fun l => ended l (WExited 0)) ls /\ Forall (right_command P X ms) ls /\ Forall (right_files P) ls.

(** It did not succeed in some phase, and this was the last process of all. *)
Definition baseline_wrong : Prop :=
  exists pre b, log = pre ++ [b] /\ Forall (fun l => la_scenario l = Baseline) (pre ++ [b])
    /\ Forall (fun l => ended l (WExited 0)) pre /\ (stopped b \/ exists st, st <> WExited 0 /\ ended b st)
    /\ Forall (right_command P X ms) (pre ++ [b]) /\ Forall (right_files P) (pre ++ [b]).

(** What the processes were, for each exit status; [base]: there is to be a baseline. *)
Inductive evidence (base : bool) : Z -> Prop :=
| ev_success : (base = true -> baseline_fine) ->
    (forall m, In m ms -> exists v, tested m v /\ v <> SumMissed /\ v <> SumTimeout) -> evidence base 0
| ev_missed m : (base = true -> baseline_fine) -> In m ms -> tested m SumMissed ->
    (forall m', In m' ms -> exists v, tested m' v /\ v <> SumTimeout) -> evidence base 2
| ev_timeout m : (base = true -> baseline_fine) -> In m ms -> tested m SumTimeout ->
    (forall m', In m' ms -> exists v, tested m' v) -> evidence base 3
| ev_baseline : base = true -> baseline_wrong -> evidence base 4.

(** One test of a mutant: its cargo processes, in one directory, and the verdict that they add up to. *)
Definition test_of (m : mutant) (v : summary_outcome) (b : list launch) : Prop :=
  one_job (Mutant m) b /\ explains (pa_check_only P) b v.

(** The exit status for these verdicts. *)
Definition status_of (vs : list summary_outcome) (n : Z) : Prop :=
  (n = 3%Z /\ In SumTimeout vs) \/ (n = 2%Z /\ In SumMissed vs /\ ~ In SumTimeout vs)
  \/ (n = 0%Z /\ ~ In SumMissed vs /\ ~ In SumTimeout vs).

(** All the processes of a run, for each exit status.  Every mutant is tested as often as it is in the list, and there is no other
    process. *)
Inductive account (base : bool) : Z -> Prop :=
| ac_tested bl rest tests n : log = bl ++ rest ->
    Forall (right_command P X ms) log -> Forall (right_files P) log ->
    (if base then one_job Baseline bl /\ map la_phase bl = (if pa_check_only P then [Check] else [Build; Test])
                  /\ Forall (fun l => ended l (WExited 0)) bl
     else bl = []) ->
    Permutation (map (fun x => fst (fst x)) tests) ms ->
    Forall (fun x => test_of (fst (fst x)) (snd (fst x)) (snd x)) tests ->
    woven (map snd tests) rest ->
    status_of (map (fun x => snd (fst x)) tests) n -> account base n
| ac_baseline : base = true -> baseline_wrong -> account base 4.
End Log.
