(** Specification vocabulary for scenario verdicts, in terms of what the cargo
    commands did (not of the recorded phase list). *)
From Coq Require Import List NArith ZArith Bool.
From Verif Require Import Text ProcessM OutcomeM.
Import ListNotations.

(** The cargo command of a phase, as an oracle, gave exit [e]. *)
Definition gave (cargo : phase -> option (exit_t * N)) (p : phase) (e : exit_t) : Prop :=
  exists d, cargo p = Some (e, d).

Definition gave_nonzero cargo p : Prop := exists c, gave cargo p (ExFailure c).

(** Killed by a signal or of unknown status. *)
Definition gave_odd cargo p : Prop :=
  (exists s, gave cargo p (ExSignalled s)) \/ gave cargo p ExOther.

(** What English verdicts mean for one mutant, testing normally (build, test). *)
Definition spec_unviable cargo := gave_nonzero cargo Build.
Definition spec_timeout cargo :=
  gave cargo Build ExTimeout \/ (gave cargo Build ExSuccess /\ gave cargo Test ExTimeout).
Definition spec_caught cargo := gave cargo Build ExSuccess /\ gave_nonzero cargo Test.
Definition spec_missed cargo := gave cargo Build ExSuccess /\ gave cargo Test ExSuccess.
Definition spec_unclassified cargo :=
  gave_odd cargo Build \/ (gave cargo Build ExSuccess /\ gave_odd cargo Test).

(** Number of elements with a property. *)
Fixpoint how_many {A} (f : A -> bool) (l : list A) : nat :=
  match l with
  | [] => 0
  | x :: l' => (if f x then 1 else 0) + how_many f l'
  end.

Definition sum_eqb (a b : summary_outcome) : bool :=
  match a, b with
  | SumSuccess, SumSuccess | SumCaught, SumCaught | SumMissed, SumMissed
  | SumUnviable, SumUnviable | SumFailure, SumFailure | SumTimeout, SumTimeout => true
  | _, _ => false
  end.

(** [o] is a mutant's outcome whose verdict is [v]. *)
Definition mutant_with {M} (v : summary_outcome) (o : outcome M) : bool :=
  is_mutant (oc_scenario o) &&
  match summary o with Some v' => sum_eqb v v' | None => false end.

(** A baseline whose last phase did not succeed. *)
Definition baseline_unsuccessful {M} (o : outcome M) : Prop :=
  oc_scenario o = Baseline /\ forall pr, last_opt (oc_results o) = Some pr -> pr_status pr <> ExSuccess.

(** Outcomes produced by running mutants normally after a successful baseline. *)
Definition ran_as {M} (cargo_of : M -> phase -> option (exit_t * N)) (m : M) (o : outcome M) : Prop :=
  run_scenario_outcome (Mutant m) false (cargo_of m) = Some o.
