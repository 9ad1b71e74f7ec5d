(** Specification of what a run reports (C72). *)
From Coq Require Import String List NArith ZArith Bool Arith Permutation.
From Verif Require Import Text SpanM PathM MutantM ProcessM OutcomeM OutputM PackageM OptionsM CargoM LabM LaunchM LaunchS EndS NoticeM.
Import ListNotations.
Open Scope list_scope.
Open Scope nat_scope.

(** What is to be reported of a cargo process: that nextest ended with a code that it does not use for failing builds and tests
    or for having nothing to run, or that something went wrong with the process itself. *)
Inductive remark (X : context) (l : launch) : notice -> Prop :=
| re_nextest c d : op_test_tool (cx_options X) = ToolNextest -> la_phase l <> Check -> la_result l = Some (ExFailure c, d) ->
    c <> 4%Z -> c <> 100%Z -> c <> 101%Z -> remark X l (NNextest c)
| re_internal : la_result l = None -> remark X l (NInternal (la_phase l)).

(** About a process. *)
Definition of_process (n : notice) : bool := match n with NNextest _ | NInternal _ => true | _ => false end.
Definition unclassified (ns : list notice) : list mutant := flat_map (fun n => match n with NUnclassified m => [m] | _ => [] end) ns.
(** About the end of the run. *)
Definition of_end (n : notice) : bool := match n with NBaseline _ | NWorker _ | NGenerated | NViable => true | _ => false end.

(** Errors, as they end the run or are of the program itself; the others are warnings. *)
Inductive grave : notice -> Prop :=
| gr_internal p : grave (NInternal p) | gr_baseline p : grave (NBaseline p) | gr_worker i : grave (NWorker i).

(** [b] is a process for a mutant. *)
Definition for_mutant (b : launch) : Prop := exists m, la_scenario b = Mutant m.
(** The process is a build or a check that ended by itself and failed. *)
Definition no_build (b : launch) : Prop := la_phase b <> Test /\ exists c d, la_result b = Some (ExFailure c, d).

(** The run has ended without an error. *)
Definition ended_well (r : rstate) : Prop := exists l, ls_main (rs_lab r) = MEnd (ROk l).

(** A process of the baseline that was not successful. *)
Definition baseline_bad (b : launch) : Prop := la_scenario b = Baseline /\ exists e d, la_result b = Some (e, d) /\ e <> ExSuccess.

(** All mutants were tested, each as often as it is in the list; those that were built were caught, and there is one that was.  There is
    no other process but those of the baseline, if there is to be one, and they succeeded. *)
Inductive all_caught (P : params) (ms : list mutant) (log : list launch) (base : bool) : Prop :=
| al_caught bl rest tests : log = bl ++ rest ->
    (if base then one_job Baseline bl /\ map la_phase bl = [Build; Test] /\ Forall (fun l => ended l (WExited 0)) bl else bl = []) ->
    Permutation (map (fun x => fst (fst x)) tests) ms ->
    Forall (fun x => test_of P (fst (fst x)) (snd (fst x)) (snd x)) tests ->
    Forall (fun x => snd (fst x) = SumCaught \/ snd (fst x) = SumUnviable) tests ->
    Exists (fun x => snd (fst x) = SumCaught) tests ->
    woven (map snd tests) rest -> all_caught P ms log base.
