(** What the display must show. *)
From Coq Require Import String List NArith ZArith QArith Bool Arith.
From Verif Require Import Text SpanM MutantM ProcessM OutcomeM OutcomeS LabM LabS ConsoleM.
Import ListNotations.
Open Scope nat_scope.

(** Outcomes of each kind, of mutants and the baseline. *)
Definition of_kind (v : summary_outcome) (os : list (outcome mutant)) : nat :=
  how_many (fun o => match summary o with Some v' => sum_eqb v v' | None => false end) os.
Definition of_mutants (os : list (outcome mutant)) : nat := how_many (fun o => is_mutant (oc_scenario o)) os.

(** The counters of [m] are those of the outcomes [os], and leave none out. *)
Definition counters (m : cmodel) (os : list (outcome mutant)) : Prop :=
  cm_done m = of_mutants os /\ cm_caught m = of_kind SumCaught os /\ cm_missed m = of_kind SumMissed os
  /\ cm_timeouts m = of_kind SumTimeout os /\ cm_unviable m = of_kind SumUnviable os
  /\ cm_successes m = of_kind SumSuccess os /\ cm_failures m = of_kind SumFailure os
  /\ length os = cm_caught m + cm_missed m + cm_timeouts m + cm_unviable m + cm_successes m + cm_failures m.

(** Outcomes recorded in the lab of which the display has not been told yet. *)
Definition untold (c : wpc) : list (outcome mutant) :=
  match c with WJson _ o | WJson2 _ o | WName _ o | WNewline _ o | WFin _ o => [o] | _ => [] end.

(** A rounding: never below zero for numbers not below zero, and at most twice as large. *)
Definition rounding (rnd : Q -> Q) : Prop := forall q, (0 <= q)%Q -> (0 <= rnd q)%Q /\ (rnd q <= 2 * q)%Q.

(** The directory of the scenario a thread has started, from the start of the scenario to its end. *)
Definition under_way (c : wpc) : option nat :=
  match c with WStart _ _ => None | _ => option_map fst (active c) end.
(** No thread has failed. *)
Definition all_well (ts : list wpc) : Prop := forall c, In c ts -> is_err c = false /\ is_panic c = false.
