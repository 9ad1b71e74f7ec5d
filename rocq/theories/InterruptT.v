(** C59: ctrl-c stops the run. *)
From Coq Require Import String List NArith ZArith Bool Arith Lia.
From Verif Require Import Text SpanM PathM MutantM ProcessM OutcomeM OutputM LabM LabS LabP LabT InterruptM InterruptS InterruptP.
Import ListNotations.

(** C59: with interrupts at any time every run is still a run of the machine of C11-C15,
    so all that is proved of it holds. *)
Theorem C59_still_a_run : forall P o0 t0 ms s, ireachable P o0 t0 ms s -> reachable P o0 t0 ms (is_lab s).
Proof. exact ireach. Qed.
Print Assumptions C59_still_a_run.

(** C59: no verdict comes from an interrupted command: every outcome recorded after the
    interrupt is of a scenario all of whose commands had ended before it. *)
Theorem C59_no_false_verdict : forall P n st s, isteps P n (mkI st true) s -> forall o,
  In o (lo_outcomes (sh_lab (ls_sh (is_lab s)))) ->
  In o (lo_outcomes (sh_lab (ls_sh st))) \/ exists c, In c (threads st) /\ tested c o.
Proof. exact nothing_new. Qed.
Print Assumptions C59_no_false_verdict.

(** C59: if at the interrupt a mutant is waiting or being tested, the run ends with an
    error, exit code 1, and not as if it were complete. *)
Theorem C59_error : forall P o0 t0 ms st s r, (forall m, In m ms -> mutant_name true m <> None) ->
  reachable P o0 t0 ms st -> ls_main st = MWork ->
  sh_queue (ls_sh st) <> [] \/ (exists c, In c (threads st) /\ testing c) ->
  isteps P (length ms) (mkI st true) s -> ls_main (is_lab s) = MEnd r -> process_exit r = Some 1%Z.
Proof. intros P o0 t0 ms st s r Hn. exact (work_fails P o0 t0 ms Hn st s r). Qed.
Print Assumptions C59_error.

(** C59: the same while the tests of the unmutated tree are run. *)
Theorem C59_baseline_error : forall P o0 t0 ms st s r c, (forall m, In m ms -> mutant_name true m <> None) ->
  reachable P o0 t0 ms st -> ls_main st = MBaseline c -> testing c ->
  isteps P (length ms) (mkI st true) s -> ls_main (is_lab s) = MEnd r -> process_exit r = Some 1%Z.
Proof. intros P o0 t0 ms st s r c Hn. exact (baseline_fails P o0 t0 ms Hn st s r c). Qed.
Print Assumptions C59_baseline_error.

(** C59: each worker begins at most one more mutant. *)
Theorem C59_one_more : forall P n st s, isteps P n (mkI st true) s -> ls_main st = MWork ->
  length (sh_queue (ls_sh st)) <= length (sh_queue (ls_sh (is_lab s))) + length (ls_workers st).
Proof. exact one_more. Qed.
Print Assumptions C59_one_more.

Theorem C59_one_more_baseline : forall P n st s c, isteps P n (mkI st true) s -> ls_main st = MBaseline c ->
  length (sh_queue (ls_sh st)) <= length (sh_queue (ls_sh (is_lab s))) + n_threads (pa_jobs P) n.
Proof. exact one_more_baseline. Qed.
Print Assumptions C59_one_more_baseline.

(** C59: the number of steps to the end does not depend on how many mutants are left. *)
Theorem C59_soon : forall P n k st s, isteps_k P n k (mkI st true) s -> ls_main st = MWork ->
  k <= 14 * length (ls_workers st) + 1.
Proof.
  intros P n k st s H E. destruct (few_steps P n k st s H) as [_ A]. unfold mleft in A at 2. rewrite E in A.
  pose proof (all_left_le (ls_workers st)). lia.
Qed.
Print Assumptions C59_soon.

Theorem C59_soon_baseline : forall P n k st s c, isteps_k P n k (mkI st true) s -> ls_main st = MBaseline c ->
  k <= 8 * n_threads (pa_jobs P) n + 16.
Proof.
  intros P n k st s c H E. destruct (few_steps P n k st s H) as [_ A]. unfold mleft in A at 2. rewrite E in A.
  pose proof (all_left_le [c]) as B. cbn [all_left fold_right length] in B. lia.
Qed.
Print Assumptions C59_soon_baseline.

(** C59: and nothing hangs: until the end some thread can move, interrupted or not. *)
Theorem C59_progress : forall P o0 t0 ms s, (forall m, In m ms -> mutant_name true m <> None) ->
  ireachable P o0 t0 ms s ->
  (exists r, ls_main (is_lab s) = MEnd r) \/
  exists st', step P (length ms) (is_lab s) st' /\ istep P (length ms) s (mkI st' (is_flag s)).
Proof. intros P o0 t0 ms s Hn H. exact (can_go_on P o0 t0 ms Hn s (ireach P o0 t0 ms s H)). Qed.
Print Assumptions C59_progress.

(** C59: at the end of an interrupted run the source files are back, if no write to one
    failed half way. *)
Theorem C59_restored : forall P o0 t0 ms sh r ws f d,
  (forall m, In m ms -> loaded P m) -> first_tree P t0 -> options_ok P -> pa_write_faults P = false ->
  ireachable P o0 t0 ms (mkI (mkLS sh (MEnd r) ws) f) -> d < length (sh_trees sh) ->
  forall k, pa_source P k = true -> as_source P k (get_tree sh d k).
Proof.
  intros P o0 t0 ms sh r ws f d H1 H2 H3 H4 H. apply ireach in H. cbn [is_lab] in H.
  exact (C13_back_at_any_end P o0 t0 ms sh r ws d H1 H2 H3 H4 H).
Qed.
Print Assumptions C59_restored.

(** Three mutants and two workers: the first worker is running cargo test and the second
    has found its mutant caught and is about to record it; one mutant is waiting.  After
    ctrl-c the caught mutant is recorded, the first worker stops, the second begins the
    last mutant and stops at its first command; the sources are back. *)
Definition ex_ms3 := ex_ms ++ [ex_plus].
Definition ex_st0 := start_state ex_P2 ex_out (pa_root ex_P2) ex_ms3.
Definition ex_int1 := match exec ex_P2 3 (ex_both ++ fails 1 ++ ok 1 1) ex_st0 with Some st => st | None => ex_st0 end.
Definition ex_int2 :=
  match iexec ex_P2 3 (ok 1 6 ++ [(0, None)] ++ ok 0 1 ++ ok 1 4 ++ [(1, None)] ++ ok 1 1 ++ ok 0 1) ex_int1 with
  | Some st => st
  | None => ex_st0
  end.

Example C59_case :
  reachable ex_P2 ex_out (pa_root ex_P2) ex_ms3 ex_int1
  /\ isteps ex_P2 (length ex_ms3) (mkI ex_int1 true) (mkI ex_int2 true)
  /\ ls_main ex_int1 = MWork
  /\ map (fun c => match c with WCargo _ _ _ Test _ => 1 | WAdd _ _ _ => 2 | _ => 0 end) (threads ex_int1) = [1; 2]
  /\ length (sh_queue (ls_sh ex_int1)) = 1 /\ recorded (sh_lab (ls_sh ex_int1)) = []
  /\ ls_main ex_int2 = MEnd RErr /\ process_exit RErr = Some 1%Z
  /\ recorded (sh_lab (ls_sh ex_int2)) = [ex_minus] /\ sh_queue (ls_sh ex_int2) = []
  /\ map (fun t => t ex_key) (sh_trees (ls_sh ex_int2)) = [Some ex_code; Some ex_code].
Proof.
  split; [|split; [|vm_compute; repeat split]].
  - unfold ex_int1. destruct (exec ex_P2 3 (ex_both ++ fails 1 ++ ok 1 1) ex_st0) eqn:E; [|apply steps_refl].
    exact (exec_sound ex_P2 ex_out (pa_root ex_P2) ex_ms3 _ _ E).
  - unfold ex_int2. destruct (iexec ex_P2 3 _ ex_int1) eqn:E; [apply iexec_sound in E; exact E|].
    vm_compute in E. discriminate.
Qed.

(** Without the interrupt the same state can go on to verdicts for all three. *)
Example C59_case_uninterrupted :
  match exec ex_P2 3 (ok 1 22 ++ ok 0 10 ++ ok 0 1) ex_int1 with
  | Some st => exists l, ls_main st = MEnd (ROk l) /\ length (recorded l) = 3
  | None => False
  end.
Proof. vm_compute. eexists. split; reflexivity. Qed.
