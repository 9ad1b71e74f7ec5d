(** What is to be said of a series of runs (C74). *)
From Coq Require Import String List NArith ZArith Bool.
From Verif Require Import Text SpanM PathM MutantM ProcessM OutcomeM OutputM OutputS PackageM OptionsM CargoM LabM MainM WholeM WholeS LaunchM LaunchS EndM EndS RoundM.
Import ListNotations.
Open Scope list_scope.

Definition iterating (r : round) : Prop := ag_iterate (rd_args r) = true.
(** The names of its mutants take one line each. *)
Definition plain_names (r : round) : Prop := forall m, In m (rd_mutants r) -> exists n, mutant_name true m = Some n /\ one_line n.

(** The run has cargo processes for a mutant with this name that add up to "caught" or "unviable". *)
Definition shown_by (r : round) (n : text) : Prop :=
  exists m b v, In m (rd_mutants r) /\ mutant_name true m = Some n /\ one_job (Mutant m) b /\ incl b (rd_log r)
    /\ explains (op_check_only (se_options (rd_setting r))) b v /\ (v = SumCaught \/ v = SumUnviable).
(** One of the runs has, and all runs after it are with --iterate. *)
Definition shown (rs : list round) (n : text) : Prop :=
  exists rs1 r rs2, rs = rs1 ++ r :: rs2 /\ Forall iterating rs2 /\ shown_by r n.

(** The run has ended, and a mutant with this name was caught or unviable. *)
Definition decided_by (r : round) (n : text) : Prop :=
  rd_result r <> None /\ exists m o v, In o (rd_outcomes r) /\ oc_scenario o = Mutant m /\ mutant_name true m = Some n
    /\ summary o = Some v /\ (v = SumCaught \/ v = SumUnviable).
Definition decided (rs : list round) (n : text) : Prop :=
  exists rs1 r rs2, rs = rs1 ++ r :: rs2 /\ Forall iterating rs2 /\ decided_by r n.

(** The names that an output directory has from runs before the series: the lines of the three lists. *)
Definition listed (es : option entries) (n : text) : Prop :=
  exists d o f c, es = Some d /\ dget d (tx "mutants.out") = Some (NDir o)
    /\ In f [tx "caught.txt"; tx "unviable.txt"; tx "previously_caught.txt"] /\ dget o f = Some (NFile c) /\ In n (lines c).

(** No process for a mutant with this name, and none in the list. *)
Definition left_out (r : round) (n : text) : Prop :=
  (forall m, In m (rd_mutants r) -> mutant_name true m <> Some n)
  /\ (forall l m, In l (rd_log r) -> la_scenario l = Mutant m -> mutant_name true m <> Some n).
