(** Property theorems: C08, C09, C10. *)
From Coq Require Import String List NArith ZArith Bool Arith.
From Verif Require Import Text ProcessM OutcomeM OutcomeS OutcomeP.
Import ListNotations.

(** C08: after recording any sequence of outcomes, each counter is the number of
    mutant outcomes with that verdict, baselines are not counted, and the
    counters add up to the total except for unclassified failures.  (Every
    recorded outcome has at least one phase result, see [C10_phases_in_order].) *)
Theorem C08_counts_partition : forall M (os : list (outcome M)),
  Forall (fun o => oc_results o <> []) os ->
  exists l, lab_add_all lab_new os = Some l
  /\ lo_outcomes l = os
  /\ lo_total l = how_many (fun o => is_mutant (oc_scenario o)) os
  /\ lo_missed l = how_many (mutant_with SumMissed) os
  /\ lo_caught l = how_many (mutant_with SumCaught) os
  /\ lo_timeout l = how_many (mutant_with SumTimeout) os
  /\ lo_unviable l = how_many (mutant_with SumUnviable) os
  /\ lo_success l = how_many (mutant_with SumSuccess) os
  /\ lo_total l = lo_missed l + lo_caught l + lo_timeout l + lo_unviable l + lo_success l
                  + how_many (mutant_with SumFailure) os.
Proof. exact @c08. Qed.
Print Assumptions C08_counts_partition.

Definition ex_ok := mkOutcome (@Baseline nat) [mkPR Build 1 ExSuccess; mkPR Test 1 ExSuccess].
Definition ex_caught := mkOutcome (Mutant 1) [mkPR Build 1 ExSuccess; mkPR Test 1 (ExFailure 101)].
Definition ex_missed := mkOutcome (Mutant 2) [mkPR Build 1 ExSuccess; mkPR Test 1 ExSuccess].
Definition ex_unviable := mkOutcome (Mutant 3) [mkPR Build 1 (ExFailure 101)].
Definition ex_timeout := mkOutcome (Mutant 4) [mkPR Build 1 ExSuccess; mkPR Test 1 ExTimeout].
Definition ex_signal := mkOutcome (Mutant 5) [mkPR Build 1 ExSuccess; mkPR Test 1 (ExSignalled 11)].

Example C08_case :
  exists l, lab_add_all lab_new [ex_ok; ex_caught; ex_missed; ex_unviable; ex_timeout; ex_signal; ex_caught] = Some l
  /\ (lo_total l, lo_missed l, lo_caught l, lo_timeout l, lo_unviable l, lo_success l) = (6, 1, 2, 1, 1, 0).
Proof. eexists. split; vm_compute; reflexivity. Qed.

(** C08: the line printed at the end has the total, and each counter that is not zero. *)
Theorem C08_printed : forall M (l : lab_outcome M),
  summary_string l = (if lo_total l =? 1 then tx "1 mutant" else show_nat (lo_total l) ++ tx " mutants") ++ tx " tested: "
    ++ join (tx ", ") (map (fun c => show_nat (fst c) ++ tx " " ++ snd c) (filter (fun c => negb (fst c =? 0))
         [(lo_missed l, tx "missed"); (lo_caught l, tx "caught"); (lo_unviable l, tx "unviable"); (lo_timeout l, tx "timeouts"); (lo_success l, tx "succeeded")])).
Proof. exact @c08_printed. Qed.
Print Assumptions C08_printed.

Example C08_printed_case : summary_string (mkLab (M := nat) [] 6 1 2 0 1 0) = tx "6 mutants tested: 1 missed, 2 caught, 1 unviable".
Proof. reflexivity. Qed.

(** C09: the exit code table. *)
Theorem C09_exit_code : forall M (os : list (outcome M)),
  Forall (fun o => oc_results o <> []) os ->
  exists l code, lab_add_all lab_new os = Some l /\ lab_exit_code l = Some code /\
  ((code = 4%Z /\ exists o, In o os /\ baseline_unsuccessful o)
   \/ (code = 3%Z /\ (forall o, In o os -> ~ baseline_unsuccessful o)
       /\ exists o, In o os /\ is_mutant (oc_scenario o) = true /\ summary o = Some SumTimeout)
   \/ (code = 2%Z /\ (forall o, In o os -> ~ baseline_unsuccessful o)
       /\ (forall o, In o os -> is_mutant (oc_scenario o) = true -> summary o <> Some SumTimeout)
       /\ exists o, In o os /\ is_mutant (oc_scenario o) = true /\ summary o = Some SumMissed)
   \/ (code = 0%Z /\ (forall o, In o os -> ~ baseline_unsuccessful o)
       /\ (forall o, In o os -> is_mutant (oc_scenario o) = true ->
             summary o <> Some SumTimeout /\ summary o <> Some SumMissed))).
Proof. exact @c09. Qed.
Print Assumptions C09_exit_code.

(** C09, meaning of exit code 0 in terms of what cargo did.  Partial: the
    documented claim has only the first two alternatives; the third is the gap
    shown by the next theorem. *)
Theorem C09_exit_zero_partial : forall M (cargo_of : M -> phase -> option (exit_t * N)) ms os l,
  Forall2 (ran_as cargo_of) ms os ->
  lab_add_all lab_new os = Some l -> lab_exit_code l = Some 0%Z ->
  forall m, In m ms ->
    spec_caught (cargo_of m) \/ spec_unviable (cargo_of m) \/ spec_unclassified (cargo_of m).
Proof. exact @c09_zero. Qed.
Print Assumptions C09_exit_zero_partial.

Example C09_zero_case :
  let cargo_of (m : nat) (p : phase) :=
    match p, m with
    | Build, 1 => Some (ExFailure 101, 1%N)
    | Test, _ => Some (ExFailure 101, 1%N)
    | _, _ => Some (ExSuccess, 1%N)
    end in
  exists os l, Forall2 (ran_as cargo_of) [0; 1] os /\ lab_add_all lab_new os = Some l
    /\ lab_exit_code l = Some 0%Z.
Proof.
  eexists. eexists. split; [|split].
  - repeat constructor.
  - vm_compute. reflexivity.
  - vm_compute. reflexivity.
Qed.

(** The documented meaning of exit code 0 ("every viable mutant that was tested
    was caught") is false: a mutant whose test process is killed by a signal is
    viable and tested, is counted neither caught nor missed, and leaves 0. *)
Theorem C09_exit_zero_refuted :
  exists (cargo_of : nat -> phase -> option (exit_t * N)) ms os l m,
    Forall2 (ran_as cargo_of) ms os /\ lab_add_all lab_new os = Some l
    /\ lab_exit_code l = Some 0%Z /\ In m ms
    /\ gave (cargo_of m) Build ExSuccess /\ ~ spec_caught (cargo_of m) /\ ~ spec_unviable (cargo_of m).
Proof.
  exists (fun _ p => match p with Test => Some (ExSignalled 11, 1%N) | _ => Some (ExSuccess, 1%N) end).
  exists [0]. eexists. eexists. exists 0.
  split; [repeat constructor|]. split; [vm_compute; reflexivity|].
  split; [reflexivity|]. split; [now left|].
  split; [now exists 1%N|]. split.
  - intros [_ [c [d H]]]. discriminate.
  - intros [c [d H]]. discriminate.
Qed.
Print Assumptions C09_exit_zero_refuted.

(** C10: the verdict of a mutant is determined by what its cargo commands did;
    since [v] is a single value the verdicts exclude each other. *)
Theorem C10_verdict : forall M (m : M) cargo o,
  run_scenario_outcome (Mutant m) false cargo = Some o ->
  exists v, summary o = Some v /\
    (v = SumUnviable <-> spec_unviable cargo) /\
    (v = SumTimeout <-> spec_timeout cargo) /\
    (v = SumCaught <-> spec_caught cargo) /\
    (v = SumMissed <-> spec_missed cargo) /\
    (v = SumFailure <-> spec_unclassified cargo) /\
    v <> SumSuccess.
Proof. exact @c10_table. Qed.
Print Assumptions C10_verdict.

(** C10: the verdict of the baseline. *)
Theorem C10_baseline : forall M cargo (o : outcome M),
  run_scenario_outcome Baseline false cargo = Some o ->
  exists v, summary o = Some v /\
    (v = SumTimeout <-> spec_timeout cargo) /\
    (v = SumSuccess <-> gave cargo Build ExSuccess /\ gave cargo Test ExSuccess) /\
    (v = SumFailure <-> gave_nonzero cargo Build \/ spec_caught cargo \/ spec_unclassified cargo) /\
    (baseline_unsuccessful o <-> v <> SumSuccess).
Proof. exact @c10_baseline. Qed.
Print Assumptions C10_baseline.

(** C10, with [--check]: only the check command runs and nothing is ever
    reported caught or missed. *)
Theorem C10_verdict_check : forall M (m : M) cargo o,
  run_scenario_outcome (Mutant m) true cargo = Some o ->
  exists v, summary o = Some v /\
    (v = SumUnviable <-> gave_nonzero cargo Check) /\
    (v = SumTimeout <-> gave cargo Check ExTimeout) /\
    (v = SumSuccess <-> gave cargo Check ExSuccess) /\
    (v = SumFailure <-> gave_odd cargo Check) /\
    v <> SumCaught /\ v <> SumMissed.
Proof. exact @c10_check_table. Qed.
Print Assumptions C10_verdict_check.

(** C10: the recorded phases are an initial segment of the planned phases, hold
    cargo's results, every one but the last succeeded, and if the segment is
    shorter than planned its last phase did not succeed. *)
Theorem C10_phases_in_order : forall cargo ps rs, phase_loop cargo ps = Some rs ->
  exists rest, ps = map pr_phase rs ++ rest
  /\ (forall pr, In pr rs -> cargo (pr_phase pr) = Some (pr_status pr, pr_duration pr))
  /\ (forall pr a b, rs = a ++ pr :: b -> b <> [] -> pr_status pr = ExSuccess)
  /\ (rest <> [] -> exists a pr, rs = a ++ [pr] /\ pr_status pr <> ExSuccess).
Proof. exact phase_loop_spec. Qed.
Print Assumptions C10_phases_in_order.

(** C10: the predicates behind the verdicts: caught and missed are about the last phase of a
    mutant, never about the baseline. *)
Theorem C10_caught_missed : forall M (o : outcome M) b,
  (mutant_caught o = Some b -> (b = true <-> exists m pr c, oc_scenario o = Mutant m /\ last_opt (oc_results o) = Some pr
     /\ pr_phase pr = Test /\ pr_status pr = ExFailure c))
  /\ (mutant_missed o = Some b -> (b = true <-> exists m pr, oc_scenario o = Mutant m /\ last_opt (oc_results o) = Some pr
     /\ pr_phase pr = Test /\ pr_status pr = ExSuccess)).
Proof. exact @caught_missed. Qed.
Print Assumptions C10_caught_missed.

(** C10: these predicates fail only for a mutant without any phase. *)
Theorem C10_flags_total : forall M (o : outcome M),
  (mutant_caught o = None <-> oc_scenario o <> Baseline /\ oc_results o = [])
  /\ (mutant_missed o = None <-> oc_scenario o <> Baseline /\ oc_results o = []).
Proof. exact @flags_total. Qed.
Print Assumptions C10_flags_total.

Example C10_case_flags :
  mutant_caught (mkOutcome (M := nat) Baseline []) = Some false /\ mutant_missed (mkOutcome (M := nat) Baseline []) = Some false
  /\ mutant_missed (mkOutcome (Mutant 7) [mkPR Test 3%N ExSuccess]) = Some true.
Proof. repeat split. Qed.

Example C10_case :
  exists o, run_scenario_outcome (Mutant 7) false
    (fun p => match p with Test => Some (ExFailure 101, 5%N) | _ => Some (ExSuccess, 3%N) end) = Some o
  /\ summary o = Some SumCaught /\ length (oc_results o) = 2.
Proof. eexists. split; [reflexivity|]. split; reflexivity. Qed.

Example C10_case_unviable :
  exists o, run_scenario_outcome (Mutant 7) false
    (fun p => match p with Build => Some (ExFailure 101, 5%N) | _ => None end) = Some o
  /\ summary o = Some SumUnviable /\ length (oc_results o) = 1.
Proof. eexists. split; [reflexivity|]. split; reflexivity. Qed.

Example C10_case_baseline :
  exists o, run_scenario_outcome (@Baseline nat) false
    (fun p => match p with Test => Some (ExTimeout, 5%N) | _ => Some (ExSuccess, 3%N) end) = Some o
  /\ summary o = Some SumTimeout /\ baseline_unsuccessful o.
Proof. eexists. split; [reflexivity|]. split; [reflexivity|]. split; [reflexivity|]. intros pr [= <-]. discriminate. Qed.
