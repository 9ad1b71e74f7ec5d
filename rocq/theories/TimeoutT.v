(** Property theorems: C23. *)
From Coq Require Import String List NArith ZArith QArith Bool.
From Verif Require Import Text ProcessM OutcomeM F64M F64S F64P TimeoutM TimeoutS TimeoutP.
Import ListNotations.
Open Scope nat_scope.

(** C23: an explicit test limit is used as given, for mutants and the baseline,
    whatever the baseline measured and however floats round. *)
Theorem C23_explicit_test : forall M rnd (b : option (outcome M)) o t ts, to_test o = Some t ->
  mutant_timeouts rnd b o = Some ts -> phase_timeout ts Test = Some t.
Proof. exact c23_explicit. Qed.
Print Assumptions C23_explicit_test.

(** C23: so is an explicit build limit; it also limits [cargo check]. *)
Theorem C23_explicit_build : forall M rnd (b : option (outcome M)) o t ts, to_build o = Some t ->
  mutant_timeouts rnd b o = Some ts -> phase_timeout ts Build = Some t /\ phase_timeout ts Check = Some t.
Proof. exact c23_explicit_build. Qed.
Print Assumptions C23_explicit_build.

(** C23: builds have no limit unless one is requested. *)
Theorem C23_no_build_limit : forall M rnd (b : option (outcome M)) o ts,
  to_build o = None -> to_build_mult o = None ->
  mutant_timeouts rnd b o = Some ts -> phase_timeout ts Build = None /\ phase_timeout ts Check = None.
Proof. exact c23_no_build_limit. Qed.
Print Assumptions C23_no_build_limit.

(** C23: the baseline itself has no automatic limit. *)
Theorem C23_baseline_limits : forall o,
  phase_timeout (for_baseline o) Build = None /\ phase_timeout (for_baseline o) Check = None
  /\ phase_timeout (for_baseline o) Test = to_test o.
Proof. exact c23_for_baseline. Qed.
Print Assumptions C23_baseline_limits.

(** The rounding of floats of the model is to the nearest float, and to the even one of two that are as near. *)
Theorem C23_rounding : forall q, nearest q (rnd64 q) /\ ties_to_even q (rnd64 q).
Proof. intro q. split; [apply rnd64_nearest|apply rnd64_ties]. Qed.
Print Assumptions C23_rounding.

(** 2^53 + 1 lies between two floats; 0.1 is not one. *)
Example C23_rounding_case : (rnd64 9007199254740993 == 9007199254740992 /\ rnd64 9007199254740995 == 9007199254740996
  /\ rnd64 (1 # 10) == 3602879701896397 # 36028797018963968)%Q.
Proof. vm_compute. auto. Qed.

(** C23: the automatic test limit, after a baseline whose build took [d1] and
    tests took [d2], computed with 64-bit floats: it is the larger of the minimum and
    the least whole number of seconds [s] not below [x], which is [d2] times the multiplier
    (5 if not set) but for rounding: the relative error is at most 2^-51. *)
Theorem C23_auto_test : forall M cargo (b : outcome M) d1 d2 o m,
  run_scenario_outcome Baseline false cargo = Some b ->
  cargo Build = Some (ExSuccess, d1) -> cargo Test = Some (ExSuccess, d2) ->
  to_test o = None -> to_build_mult o = None -> multiplier (to_test_mult o) m ->
  (0 <= m)%Q -> (exact_secs d2 * m <= LARGE)%Q ->
  exists t x s, mutant_timeouts rnd64 (Some b) o = Some t
    /\ tm_build t = to_build o
    /\ tm_test t = Some (N.max (to_minimum o) (s * NS))
    /\ least_whole x s /\ close x (exact_secs d2 * m).
Proof. exact c23_auto. Qed.
Print Assumptions C23_auto_test.

(** C23: whatever float rounding does, the automatic limit is never below the
    minimum and is the minimum or a whole number of seconds. *)
Theorem C23_auto_test_any_rounding : forall rnd d o t,
  to_test o = None -> test_timeout rnd (Some d) o = Some t ->
  (to_minimum o <= t)%N /\ (t = to_minimum o \/ exists s, t = (s * NS)%N).
Proof. exact test_timeout_any. Qed.
Print Assumptions C23_auto_test_any_rounding.

(** C23: a slower baseline never gives a shorter limit. *)
Theorem C23_auto_test_monotone : forall d d' m o t t', (d <= d')%N -> multiplier (to_test_mult o) m -> (0 <= m)%Q ->
  test_timeout rnd64 (Some d) o = Some t -> test_timeout rnd64 (Some d') o = Some t' -> (t <= t')%N.
Proof. exact test_timeout_monotone. Qed.
Print Assumptions C23_auto_test_monotone.

(** C23: a build multiplier gives the duration nearest to the baseline build time multiplied, but for
    rounding.
    Missing: runs with --check, see C23_check_ignores_build_multiplier_refuted. *)
Theorem C23_build_multiplier_partial : forall M cargo (b : outcome M) d1 d2 o m t0,
  run_scenario_outcome Baseline false cargo = Some b ->
  cargo Build = Some (ExSuccess, d1) -> cargo Test = Some (ExSuccess, d2) ->
  to_build o = None -> to_build_mult o = Some (Fin m) -> (0 <= m)%Q ->
  mutant_timeouts rnd64 (Some b) o = Some t0 ->
  exists t x, tm_build t0 = Some t /\ duration_of (Fin x) t /\ close x (exact_secs d1 * m).
Proof. exact c23_build_mult. Qed.
Print Assumptions C23_build_multiplier_partial.

(** C23: with the baseline skipped: 300 seconds (nothing is tested with
    [--check], where the unused limit is 0). *)
Theorem C23_skipped_baseline : forall M rnd o,
  mutant_timeouts (M := M) rnd None o
  = Some (mkTimeouts (to_build o)
       (Some (match to_test o with Some t => t
              | None => if to_check_only o then 0%N else (300 * NS)%N end))).
Proof. exact c23_skip. Qed.
Print Assumptions C23_skipped_baseline.

(** C23: limits are always found if multipliers are finite and not negative and products are not
    enormous.
    Missing: other multipliers, see C23_panic and C23_negative_multiplier_refuted. *)
Theorem C23_limits_exist_partial : forall M (b : outcome M) o,
  (forall x, to_test_mult o = Some x \/ to_build_mult o = Some x -> exists m, x = Fin m /\ (0 <= m)%Q) ->
  (forall p pr m, find_phase b p = Some pr ->
     multiplier (to_test_mult o) m \/ to_build_mult o = Some (Fin m) -> (exact_secs (pr_duration pr) * m <= LARGE)%Q) ->
  mutant_timeouts rnd64 (Some b) o <> None.
Proof. exact c23_total. Qed.
Print Assumptions C23_limits_exist_partial.

(** C23: the program panics for a multiplier that is infinite or not a number, and for a product
    that is too large or clearly negative. *)
Theorem C23_panic : forall d o x, to_test o = None -> to_test_mult o = Some x ->
  (forall m, x = Fin m -> (exact_secs d * m <= - (2) \/ 19000000000000000000 <= exact_secs d * m)%Q) ->
  test_timeout rnd64 (Some d) o = None.
Proof. exact c23_panic. Qed.
Print Assumptions C23_panic.

Definition ex_opts := mkTO None None (20 * NS) (Some (Fin (3 # 2))) None false.
Definition ex_cargo (p : phase) : option (exit_t * N) :=
  match p with Build => Some (ExSuccess, 7 * NS) | _ => Some (ExSuccess, 40500000001) end%N.

Example C23_case :
  exists b t, run_scenario_outcome (M := nat) Baseline false ex_cargo = Some b
  /\ mutant_timeouts rnd64 (Some b) ex_opts = Some t
  /\ tm_build t = None /\ tm_test t = Some (61 * NS)%N
  /\ test_timeout rnd64 (Some (4 * NS)%N) ex_opts = Some (20 * NS)%N.
Proof. eexists. eexists. split; [reflexivity|]. split; [vm_compute; reflexivity|]. vm_compute. auto. Qed.

(** Rounding matters: 7.1 seconds times 10 give 71, but 1.1 seconds times 110 give more than 121. *)
Example C23_case_rounding :
  test_timeout rnd64 (Some 7100000000%N) (mkTO None None 0 (Some (Fin 10)) None false) = Some (71 * NS)%N
  /\ test_timeout rnd64 (Some 1100000000%N) (mkTO None None 0 (Some (Fin 110)) None false) = Some (122 * NS)%N.
Proof. vm_compute. auto. Qed.

(** Limits that are given, also for the tests without mutations; a multiplier for builds; no tests without mutations. *)
Example C23_case_given :
  let o := mkTO (Some (30 * NS)%N) (Some (45 * NS)%N) (20 * NS) (Some (Fin 9)) (Some (Fin 9)) false in
  exists b t, run_scenario_outcome (M := nat) Baseline false ex_cargo = Some b /\ mutant_timeouts rnd64 (Some b) o = Some t
  /\ map (phase_timeout t) [Build; Check; Test] = map (phase_timeout (mkTimeouts (to_build o) (to_test o))) [Build; Check; Test]
  /\ to_build o <> to_test o
  /\ map (phase_timeout (for_baseline o)) [Build; Check; Test] = [None; None; to_test o].
Proof. eexists. eexists. split; [reflexivity|]. split; [vm_compute; reflexivity|]. split; [reflexivity|]. split; [discriminate|reflexivity]. Qed.

Example C23_case_build_multiplier :
  exists b t, run_scenario_outcome (M := nat) Baseline false ex_cargo = Some b
  /\ mutant_timeouts rnd64 (Some b) (mkTO None None (20 * NS) None (Some (Fin (5 # 2))) false) = Some t
  /\ phase_timeout t Build = Some 17500000000%N /\ phase_timeout t Test = Some (203 * NS)%N.
Proof. eexists. eexists. split; [reflexivity|]. split; [vm_compute; reflexivity|]. vm_compute. auto. Qed.

Example C23_case_skipped :
  mutant_timeouts (M := nat) rnd64 None ex_opts = Some (mkTimeouts None (Some (300 * NS)%N))
  /\ mutant_timeouts (M := nat) rnd64 None (mkTO None None (20 * NS) None None true) = Some (mkTimeouts None (Some 0%N)).
Proof. vm_compute. auto. Qed.

(** A product that is too large for a duration, and one just small enough. *)
Example C23_case_large :
  test_timeout rnd64 (Some (2 * NS)%N) (mkTO None None 0 (Some (Fin 10000000000000000000)) None false) = None
  /\ test_timeout rnd64 (Some (2 * NS)%N) (mkTO None None 0 (Some (Fin 4000000000000000000)) None false) = Some (8000000000000000000 * NS)%N.
Proof. vm_compute. auto. Qed.

(** Finding: a negative multiplier is accepted on the command line and in the
    configuration and makes the run panic after the baseline; so do [inf] and [nan]. *)
Theorem C23_negative_multiplier_refuted :
  exists (b : outcome nat), run_scenario_outcome Baseline false ex_cargo = Some b
    /\ forall x, In x [Fin (- (1) # 1); Inf false; NaN] ->
         mutant_timeouts rnd64 (Some b) (mkTO None None (20 * NS) (Some x) None false) = None.
Proof.
  eexists. split; [reflexivity|]. intros x [<-|[<-|[<-|[]]]]; vm_compute; reflexivity.
Qed.
Print Assumptions C23_negative_multiplier_refuted.

(** Finding: with [--check] a requested build timeout multiplier is ignored: the
    baseline has only a check phase, so there is never a limit. *)
Theorem C23_check_ignores_build_multiplier_refuted :
  exists cargo (b : outcome nat) o t, run_scenario_outcome Baseline true cargo = Some b
    /\ cargo Check = Some (ExSuccess, (7 * NS)%N)
    /\ to_build_mult o = Some (Fin 2)
    /\ mutant_timeouts rnd64 (Some b) o = Some t /\ phase_timeout t Check = None.
Proof.
  exists (fun _ => Some (ExSuccess, (7 * NS)%N)). eexists.
  exists (mkTO None None (20 * NS) None (Some (Fin 2)) true).
  eexists. split; [reflexivity|]. split; [reflexivity|]. split; [reflexivity|]. split; [vm_compute; reflexivity|reflexivity].
Qed.
Print Assumptions C23_check_ignores_build_multiplier_refuted.
