(** Theorems: the warnings and errors that a run reports on its way (C72). *)
From Coq Require Import String List NArith ZArith Bool Arith Permutation.
From Verif Require Import Text SpanM PathM MutantM ProcessM OutcomeM OutcomeS OutputM PackageM PackageS OptionsM CargoM ClapM LabM LabS LabP LabT MainM
  WholeM WholeS WholeP WholeT LaunchM LaunchS LaunchP LaunchT LogsS EndM EndS EndP EndT NoticeM NoticeS NoticeP NoticeUseP.
Import ListNotations.
Open Scope list_scope.
Open Scope nat_scope.

(** C72: the reports about processes are, for each process of which there is something to report, exactly that; and for the other processes there
    is none.  So nextest's own failures are reported, with the code, and those of builds and tests are not. *)
Theorem C72_processes : forall P X ms intr o0 t0 r ns, says P X ms intr o0 t0 r ns ->
  exists told quiet, Permutation (map fst told ++ quiet) (rs_log r) /\ Forall (fun x => remark X (fst x) (snd x)) told
    /\ (forall l n, In l quiet -> ~ remark X l n) /\ Permutation (map snd told) (filter of_process ns).
Proof. intros P X ms intr o0 t0 r ns H. eapply says_processes. exact H. Qed.
Print Assumptions C72_processes.

(** C72: every command has a second word, so that looking at it does not panic. *)
Theorem C72_in_range : forall P X ms o0 t0 r l, rreachable P X ms o0 t0 r -> In l (rs_log r) -> exists c w args, la_argv l = c :: w :: args.
Proof.
  intros P X ms o0 t0 r l H I. destruct (argv_of P X o0 t0 ms r l H I) as [s ->]. destruct (argv_second (cx_env X) s (la_phase l) (cx_options X)) as [args ->]. eauto.
Qed.
Print Assumptions C72_in_range.

(** C72: the mutants of which it is reported that their outcome was not counted are the ones recorded without one of the four verdicts, in the order in which
    they were recorded. *)
Theorem C72_unclassified : forall P X ms intr o0 t0 r ns, says P X ms intr o0 t0 r ns ->
  unclassified ns = flat_map (fun o => match oc_scenario o, summary o with Mutant m, Some SumFailure => [m] | _, _ => [] end) (outcomes_of r).
Proof. intros P X ms intr o0 t0 r ns H. eapply says_unclassified. exact H. Qed.
Print Assumptions C72_unclassified.

(** C72: and the reason is that its last process ended by itself, but without an exit code. *)
Theorem C72_why : forall P X ms intr o0 t0 r ns m, says P X ms intr o0 t0 r ns -> In (NUnclassified m) ns ->
  exists b, one_job (Mutant m) b /\ incl b (rs_log r) /\ explains (pa_check_only P) b SumFailure.
Proof. intros P X ms intr o0 t0 r ns m H. eapply unclassified_how. exact H. Qed.
Print Assumptions C72_why.

(** C72: it is reported that cargo failed in the unmutated tree, and in which phase, exactly if the run has ended without an error and its last
    process was one of the unmutated tree and was not successful. *)
Theorem C72_baseline : forall P X ms intr o0 t0 r ns p, ms <> [] -> says P X ms intr o0 t0 r ns ->
  (In (NBaseline p) ns <-> ended_well r /\ exists pre b, rs_log r = pre ++ [b] /\ la_phase b = p /\ baseline_bad b).
Proof. intros P X ms intr o0 t0 r ns p NE H. apply says_baseline with (1 := NE) (2 := H). Qed.
Print Assumptions C72_baseline.

(** C72: the warning that a comment in the source takes to be unreachable is never given in a run that has mutants. *)
Theorem C72_generated : forall P X ms intr o0 t0 r ns, ms <> [] -> says P X ms intr o0 t0 r ns -> ~ In NGenerated ns.
Proof. intros P X ms intr o0 t0 r ns NE H. eapply says_generated; eassumption. Qed.
Print Assumptions C72_generated.

(** C72: it is reported that no mutant was viable exactly if the run has ended without an error, processes were run for mutants, and each of those
    was a build or a check that failed. *)
Theorem C72_viable : forall P X ms intr o0 t0 r ns, ms <> [] -> says P X ms intr o0 t0 r ns ->
  (In NViable ns <-> ended_well r /\ (exists b, In b (rs_log r) /\ for_mutant b) /\ forall b, In b (rs_log r) -> for_mutant b -> no_build b).
Proof. intros P X ms intr o0 t0 r ns NE H. apply says_viable with (1 := NE) (2 := H). Qed.
Print Assumptions C72_viable.

(** C72: the error of a thread is reported exactly if it was not an interrupt, and no thread before it has panicked. *)
Theorem C72_workers : forall P X ms intr o0 t0 r ns i, says P X ms intr o0 t0 r ns ->
  (In (NWorker i) ns <-> (exists x, ls_main (rs_lab r) = MEnd x) /\ nth_error (ls_workers (rs_lab r)) i = Some (WEnd false) /\ intr i = false
     /\ forall j, j < i -> nth_error (ls_workers (rs_lab r)) j <> Some WPanic).
Proof. intros P X ms intr o0 t0 r ns i H. apply says_workers with (1 := H). Qed.
Print Assumptions C72_workers.

(** C72: so a run that ends with an error after its threads were started says so of some thread, unless there was an interrupt. *)
Theorem C72_error : forall P X ms intr o0 t0 r ns, says P X ms intr o0 t0 r ns -> ls_main (rs_lab r) = MEnd RErr -> ls_workers (rs_lab r) <> [] ->
  (forall i, intr i = false) -> exists i, In (NWorker i) ns.
Proof. intros P X ms intr o0 t0 r ns H E N I. eapply says_error; eassumption. Qed.
Print Assumptions C72_error.

(** C72: nothing is said about the end before it. *)
Theorem C72_so_far : forall P X ms intr o0 t0 r ns n, says P X ms intr o0 t0 r ns -> (forall x, ls_main (rs_lab r) <> MEnd x) -> In n ns -> of_end n = false.
Proof. intros P X ms intr o0 t0 r ns n H. apply says_so_far with (1 := H). Qed.
Print Assumptions C72_so_far.

(** C72: every run is such a run. *)
Theorem C72_every_run : forall P X ms intr o0 t0 r, rreachable P X ms o0 t0 r <-> exists ns, says P X ms intr o0 t0 r ns.
Proof. intros P X ms intr o0 t0 r. split; [apply runs_says|intros [ns H]; eapply says_runs; exact H]. Qed.
Print Assumptions C72_every_run.

(** C72: all of these are shown on the terminal, unless only errors are to be; then it is those of the program, of threads and of the unmutated tree. *)
Theorem C72_shown : forall l ns n, In n (on_terminal l ns) <-> In n ns /\ (l = LError -> grave n).
Proof.
  intros l ns n. unfold on_terminal. rewrite filter_In. split; intros [A B]; (split; [exact A|]).
  - intros ->. destruct n; cbn in *; try discriminate; constructor.
  - destruct l, n; cbn in *; try reflexivity; specialize (B eq_refl); inversion B.
Qed.
Print Assumptions C72_shown.

(** C72: exit status 0 has the meaning that the manual gives it (which is not so in general: C09_exit_zero_refuted) in a run that gave no warning
    about the verdicts: all mutants were tested, there is one that was caught, and all were caught or could not be built. *)
Theorem C72_zero : forall w e js a s ms P intr r ns l, program_says w e js a s ms P intr r ns -> ls_main (rs_lab r) = MEnd (ROk l) ->
  status (ETested ms l) = 0%Z -> op_check_only (se_options s) = false -> unclassified ns = [] -> ~ In NViable ns ->
  all_caught P ms (rs_log r) (op_baseline (se_options s)).
Proof.
  intros w e js a s ms P intr r ns l H E St Ck Nu Nv. destruct H as [lk fuel es q o0 t0 r ns S A NE Q LF FT Sy].
  destruct LF as (L0 & L1 & L2 & L3). replace (op_baseline (se_options s)) with (negb (pa_skip_baseline P)) by (rewrite L3; apply negb_involutive).
  eapply zero_tests; try eassumption; [exact (queued_perm _ _ _ Q)|congruence].
Qed.
Print Assumptions C72_zero.

(** C72: and the runs of the program are these. *)
Theorem C72_program : forall w e js a s ms P intr r, program_runs w e js a s ms P r <-> exists ns, program_says w e js a s ms P intr r ns.
Proof.
  intros w e js a s ms P intr r. split.
  - intros [lk fuel es q o0 t0 r' S A NE Q LF FT R]. destruct (runs_says _ _ _ _ _ intr _ R) as [ns N]. exists ns. econstructor; eassumption.
  - intros [ns [lk fuel es q o0 t0 r' ns' S A NE Q LF FT N]]. econstructor; try eassumption. eapply says_runs. exact N.
Qed.
Print Assumptions C72_program.

(** ** Examples *)
(** The world of EndT.  What is reported, and the exit status. *)
Definition ex_said (xs : list (nat * option (exit_t * N))) : option (option Z * list notice) :=
  match sexec ex_P2 ex_ctx ex_ms (fun _ => false) xs (rstart ex_P2 ex_ctx ex_ms ex_out (pa_root ex_P2)) [] with
  | Some (r, ns) => Some (match ls_main (rs_lab r) with MEnd (ROk l) => Some (status (ETested ex_ms l)) | MEnd RErr => Some 1%Z | _ => None end, ns)
  | None => None
  end.
Definition ex_begin : list (nat * option (exit_t * N)) := ok 0 5 ++ [(0, Some (ExSuccess, secs 7))] ++ ok 0 7.
Definition ex_signalled : list (nat * option (exit_t * N)) :=
  ex_begin ++ ok 0 7 ++ ok 1 8 ++ [(1, Some (ExSignalled 11, 1%N))] ++ ok 1 6 ++ fails 0 ++ ok 0 7 ++ ok 1 1 ++ ok 0 1 ++ ok 0 1.
Definition ex_unviable : list (nat * option (exit_t * N)) :=
  ex_begin ++ ok 0 5 ++ fails 0 ++ ok 0 7 ++ ok 1 6 ++ fails 1 ++ ok 1 7 ++ ok 1 1 ++ ok 0 1 ++ ok 0 1.
Definition ex_broken : list (nat * option (exit_t * N)) :=
  ex_begin ++ ok 0 5 ++ [(0, None)] ++ ok 0 1 ++ ok 1 6 ++ fails 1 ++ ok 1 7 ++ ok 1 1 ++ ok 0 1.

(** Both caught: nothing is reported. *)
Example C72_case_caught : ex_said ex_caught = Some (Some 0%Z, []).
Proof. vm_compute. reflexivity. Qed.
(** One caught and the tests of the other killed: the status is 0 too, but there is a warning. *)
Example C72_case_signalled : ex_said ex_signalled = Some (Some 0%Z, [NUnclassified ex_minus]).
Proof. vm_compute. reflexivity. Qed.
(** Neither could be built. *)
Example C72_case_unviable : ex_said ex_unviable = Some (Some 0%Z, [NViable]).
Proof. vm_compute. reflexivity. Qed.
(** The tests fail without mutations. *)
Example C72_case_baseline : ex_said ex_fails = Some (Some 4%Z, [NBaseline Test]).
Proof. vm_compute. reflexivity. Qed.
(** Cargo could not be run by one thread; the other one goes on to the end.  With --level=error all of this is shown. *)
Example C72_case_broken : ex_said ex_broken = Some (Some 1%Z, [NInternal Build; NWorker 0])
  /\ on_terminal LError [NInternal Build; NWorker 0] = [NInternal Build; NWorker 0] /\ on_terminal LError [NViable; NBaseline Test] = [NBaseline Test].
Proof. split; [vm_compute; reflexivity|]. split; reflexivity. Qed.

(** With nextest, whose code 104 is not one for failing tests. *)
Definition ex_nextest : option options :=
  match options_new (fun _ => true)
    (mkArgs false true (Some true) false false None false [] [] [] [] [] true false (Some 2) true None false false false true None
         None false None [] None [] None None None None None None false [] [] (mkFeatures [] false false))
    (mkConfig false None [] [] [] [] [] [] [] None None None [] None [] (Some ToolNextest) None None None) with
  | OptionsM.NewOk o => Some o | _ => None end.
Definition ex_said_by_nextest (c : Z) : option (list notice) :=
  match ex_nextest with
  | Some o => option_map snd (sexec ex_P2 (ex_X o) ex_ms (fun _ => false) (ok 0 5 ++ [(0, Some (ExFailure c, 1%N))]) (rstart ex_P2 (ex_X o) ex_ms ex_out (pa_root ex_P2)) [])
  | None => None
  end.
Example C72_case_nextest : ex_said_by_nextest 104 = Some [NNextest 104] /\ ex_said_by_nextest 100 = Some [].
Proof. vm_compute. split; reflexivity. Qed.

(** The theorems apply to these runs. *)
Lemma ex_says : forall xs r ns, sexec ex_P2 ex_ctx ex_ms (fun _ => false) xs (rstart ex_P2 ex_ctx ex_ms ex_out (pa_root ex_P2)) [] = Some (r, ns) ->
  program_says ex_world ex_env [] (ex_arguments false) ex_setting ex_ms ex_P2 (fun _ => false) r ns.
Proof.
  intros xs r ns H. destruct ex_after as [es A].
  apply (ps_says ex_world ex_env [] (ex_arguments false) ex_setting ex_ms ex_P2 (fun _ => false) (tx "L") 10 es ex_ms ex_out (pa_root ex_P2));
    [apply ex_settle|exact A|discriminate|reflexivity|repeat split; reflexivity|apply LabT.C13_case|].
  eapply sexec_sound. exact H.
Qed.
Lemma ex_quiet : match sexec ex_P2 ex_ctx ex_ms (fun _ => false) ex_caught (rstart ex_P2 ex_ctx ex_ms ex_out (pa_root ex_P2)) [] with
  | Some (r, ns) => match ls_main (rs_lab r) with MEnd (ROk l) => status (ETested ex_ms l) = 0%Z /\ ns = [] | _ => False end | None => False end.
Proof. vm_compute. split; reflexivity. Qed.
Example C72_case_runs : exists r l, program_says ex_world ex_env [] (ex_arguments false) ex_setting ex_ms ex_P2 (fun _ => false) r []
  /\ ls_main (rs_lab r) = MEnd (ROk l) /\ status (ETested ex_ms l) = 0%Z /\ op_check_only (se_options ex_setting) = false.
Proof.
  pose proof ex_quiet as Z.
  destruct (sexec ex_P2 ex_ctx ex_ms (fun _ => false) ex_caught (rstart ex_P2 ex_ctx ex_ms ex_out (pa_root ex_P2)) []) as [[r ns]|] eqn:E; [|destruct Z].
  destruct (ls_main (rs_lab r)) as [| |[l| |]] eqn:M; try contradiction. destruct Z as [Z ->]. exists r, l.
  split; [exact (ex_says _ _ _ E)|]. split; [exact M|]. split; [exact Z|reflexivity].
Qed.
