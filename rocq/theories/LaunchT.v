From Coq Require Import String List NArith ZArith QArith Bool Arith Lia.
From Verif Require Import Text SpanM PathM MutantM ProcessM OutcomeM F64M TimeoutM TimeoutS OutputM GlobM OptionsM OptionsT PackageM PackageS CargoM CargoS CargoP PackageT
  LabM LabS LabP LabT LaunchM LaunchS LaunchP PartsP.
Import ListNotations.
Open Scope nat_scope.

(** C65: the run with its processes is a run of the lab: what is proved of every state of the lab holds for it,
    unless it panics after the baseline, because a limit cannot be computed. *)
Theorem C65_lab : forall P X o0 t0 ms r, rreachable P X ms o0 t0 r ->
  reachable P o0 t0 ms (rs_lab r)
  \/ exists sh d o, rs_lab r = mkLS sh (MEnd RPanic) [] /\ reachable P o0 t0 ms (mkLS sh (MBaseline (WFin d o)) [])
       /\ oc_success o = Some true /\ mutant_timeouts rnd64 (Some o) (timeout_options (cx_options X)) = None.
Proof. exact project. Qed.
Print Assumptions C65_lab.

(** C65: every cargo process is given the right packages to test, and runs tests in the test phase only.  The
    baseline tests the packages of all the mutants; a mutant is tested by its own package, or as the options say. *)
Theorem C65_command : forall P X o0 t0 ms r l, names_unique (cx_meta X) ->
  rreachable P X ms o0 t0 r -> In l (rs_log r) -> right_command P X ms l.
Proof. intros P X o0 t0 ms r l. exact (command_right P X o0 t0 ms r l). Qed.
Print Assumptions C65_command.

(** C65: snapshot tests are told not to update anything; variables that the run does not set are as
    they were. *)
Theorem C65_environment : forall P X o0 t0 ms r l, rreachable P X ms o0 t0 r -> In l (rs_log r) ->
  (forall v x, v = tx "INSTA_UPDATE" \/ v = tx "INSTA_FORCE_PASS" -> ~ In (v, x) (cx_jobserver X)) ->
  la_env l (tx "INSTA_UPDATE") = Some (tx "no") /\ la_env l (tx "INSTA_FORCE_PASS") = Some (tx "0")
  /\ (forall v, ~ set_by_run X v -> la_env l v = cx_env X v).
Proof.
  intros P X o0 t0 ms r l H Hl Hj.
  assert (E : forall v, (forall x, ~ In (v, x) (cx_jobserver X)) -> la_env l v = child_env (cx_env X) (cargo_env (cx_env X) (cx_options X)) v).
  { intros v Hv. eapply env_right; eassumption. }
  split; [|split].
  - rewrite E by (intro x; apply Hj; auto). unfold cargo_env. destruct (encoded_rustflags _ _); reflexivity.
  - rewrite E by (intro x; apply Hj; auto). unfold cargo_env. destruct (encoded_rustflags _ _); reflexivity.
  - intros v Hv. unfold set_by_run in Hv. rewrite E by (intros x Hx; apply Hv; eauto).
    apply child_env_not. intros x Hx. unfold cargo_env in Hx. apply in_app_or in Hx. destruct Hx as [[Hx|[Hx|[]]]|Hx].
    + injection Hx as <- _. apply Hv. auto.
    + injection Hx as <- _. apply Hv. auto.
    + destruct (encoded_rustflags _ _); [|destruct Hx]. destruct Hx as [Hx|[]]. injection Hx as <- _. apply Hv. auto.
Qed.
Print Assumptions C65_environment.

(** C65: in every process of the run rustc gets the user's flags, and after them the cap on lints if that is wanted.
    Missing: as for C26_capped_partial. *)
Theorem C65_flags_partial : forall P X o0 t0 ms r l config, rreachable P X ms o0 t0 r -> In l (rs_log r) ->
  (forall v x, v = tx "CARGO_ENCODED_RUSTFLAGS" \/ v = tx "RUSTFLAGS" -> ~ In (v, x) (cx_jobserver X)) ->
  (forall s, cx_env X (tx "CARGO_ENCODED_RUSTFLAGS") = None -> cx_env X (tx "RUSTFLAGS") = Some s -> spaces_only s) ->
  rustc_flags (la_env l) config
  = if op_cap_lints (cx_options X) then rustc_flags (cx_env X) [] ++ [tx "--cap-lints=warn"] else rustc_flags (cx_env X) config.
Proof.
  intros P X o0 t0 ms r l config H Hl Hj Hs.
  assert (E : forall v, (forall x, ~ In (v, x) (cx_jobserver X)) -> la_env l v = child_env (cx_env X) (cargo_env (cx_env X) (cx_options X)) v).
  { intros v Hv. eapply env_right; eassumption. }
  assert (E2 : rustc_flags (la_env l) config = rustc_flags (child_env (cx_env X) (cargo_env (cx_env X) (cx_options X))) config).
  { unfold rustc_flags. rewrite !E by (intro x; apply Hj; auto). reflexivity. }
  rewrite E2. destruct (op_cap_lints (cx_options X)) eqn:Ec.
  - apply c26_on; assumption.
  - exact (proj1 (c26_off _ _ Ec config)).
Qed.
Print Assumptions C65_flags_partial.

(** C65: the baseline has no limit but an explicit one for its tests.  All mutants have the same limits; they were computed
    from the baseline of this run, which had passed, or without one if it is skipped. *)
Theorem C65_limits : forall P X o0 t0 ms r, rreachable P X ms o0 t0 r ->
  (forall l, In l (rs_log r) -> la_scenario l = Baseline ->
     la_limit l = match la_phase l with Test => op_test_timeout (cx_options X) | _ => None end)
  /\ ((forall l m, In l (rs_log r) -> la_scenario l <> Mutant m)
      \/ exists T, (forall l m, In l (rs_log r) -> la_scenario l = Mutant m -> la_limit l = phase_timeout T (la_phase l))
         /\ if pa_skip_baseline P then mutant_timeouts (M := mutant) rnd64 None (timeout_options (cx_options X)) = Some T
            else exists b, In b (lo_outcomes (sh_lab (ls_sh (rs_lab r)))) /\ baseline_passed P b
                 /\ mutant_timeouts rnd64 (Some b) (timeout_options (cx_options X)) = Some T).
Proof.
  intros P X o0 t0 ms r H. split; [intros l; exact (limit_baseline P X o0 t0 ms r l H)|].
  assert (D : (forall l m, In l (rs_log r) -> la_scenario l <> Mutant m) \/ exists l m, In l (rs_log r) /\ la_scenario l = Mutant m).
  { clear H. induction (rs_log r) as [|l log IH]; [left; intros l m []|]. destruct (la_scenario l) as [|m] eqn:E.
    - destruct IH as [IH|(l' & m & A & B)].
      + left. intros l' m [<-|Hin]; [congruence|apply IH; exact Hin].
      + right. exists l', m. split; [right; exact A|exact B].
    - right. exists l, m. split; [left; reflexivity|exact E]. }
  destruct D as [D|(l & m & Hl & Em)]; [left; exact D|]. right.
  destruct (limit_mutant P X o0 t0 ms r l m H Hl Em) as (T & ET & _ & LF). exists T. split.
  - intros l' m' Hl' Em'. destruct (limit_mutant P X o0 t0 ms r l' m' H Hl' Em') as (T' & ET' & EL & _). congruence.
  - unfold limits_from in LF. destruct (pa_skip_baseline P); [exact LF|]. destruct LF as (b & rest & E & A & B).
    exists b. rewrite E. split; [left; reflexivity|auto].
Qed.
Print Assumptions C65_limits.

(** C65: limits that are given are those of all mutants: the one for tests in the test phase, the one for builds in the others.  Without
    one, and without a multiplier, builds have no limit; without a baseline the limit for tests is then 5 minutes. *)
Theorem C65_given_limits : forall P X o0 t0 ms r l m, rreachable P X ms o0 t0 r -> In l (rs_log r) -> la_scenario l = Mutant m ->
  (la_phase l = Test -> forall t, op_test_timeout (cx_options X) = Some t -> la_limit l = Some t)
  /\ (la_phase l <> Test -> forall t, op_build_timeout (cx_options X) = Some t -> la_limit l = Some t)
  /\ (la_phase l <> Test -> op_build_timeout (cx_options X) = None -> op_build_timeout_multiplier (cx_options X) = None -> la_limit l = None)
  /\ (la_phase l = Test -> pa_skip_baseline P = true -> op_test_timeout (cx_options X) = None -> op_check_only (cx_options X) = false ->
      la_limit l = Some 300000000000%N).
Proof.
  intros P X o0 t0 ms r l m H Hl Hs. destruct (limit_mutant P X o0 t0 ms r l m H Hl Hs) as (T & _ & EL & HF). rewrite EL.
  assert (K : exists bb bt, both (build_timeout rnd64 bb (timeout_options (cx_options X))) (test_timeout rnd64 bt (timeout_options (cx_options X))) = Some T
    /\ (pa_skip_baseline P = true -> bt = None)).
  { unfold limits_from in HF. destruct (pa_skip_baseline P).
    - exists None, None. split; [exact HF|reflexivity].
    - destruct HF as (b & rest & _ & _ & ET). eexists _, _. split; [exact ET|discriminate]. }
  destruct K as (bb & bt & K & Sk). unfold both in K.
  destruct (build_timeout rnd64 bb (timeout_options (cx_options X))) as [b'|] eqn:Eb; [|discriminate].
  destruct (test_timeout rnd64 bt (timeout_options (cx_options X))) as [t'|] eqn:Et; [|discriminate]. injection K as <-.
  unfold test_timeout in Et. unfold build_timeout in Eb. cbn [timeout_options to_test to_build to_build_mult to_check_only] in Et, Eb. split; [|split; [|split]].
  - intros -> t E. rewrite E in Et. cbn. exact (eq_sym Et).
  - intros N t E. rewrite E in Eb. injection Eb as <-. destruct (la_phase l); [reflexivity|reflexivity|congruence].
  - intros N E E2. rewrite E, E2 in Eb. destruct bb; injection Eb as <-; destruct (la_phase l); (reflexivity || congruence).
  - intros -> S E E2. rewrite (Sk S), E, E2 in Et. cbn. exact (eq_sym Et).
Qed.
Print Assumptions C65_given_limits.

(** C65: with no limits given, the tests of a mutant may take as long as the tests of the baseline
    took in this run, times the multiplier (5 if not set), rounded up to seconds, or the minimum if that is more. *)
Theorem C65_auto_limit : forall P X o0 t0 ms r l m x, rreachable P X ms o0 t0 r -> In l (rs_log r) ->
  la_scenario l = Mutant m -> la_phase l = Test -> pa_skip_baseline P = false -> pa_check_only P = false ->
  op_test_timeout (cx_options X) = None -> op_build_timeout_multiplier (cx_options X) = None ->
  multiplier (op_test_timeout_multiplier (cx_options X)) x -> (0 <= x)%Q ->
  (forall b e d, In b (rs_log r) -> la_result b = Some (e, d) -> (exact_secs d * x <= LARGE)%Q) ->
  exists b d y s, In b (rs_log r) /\ la_scenario b = Baseline /\ la_phase b = Test /\ la_result b = Some (ExSuccess, d)
    /\ la_limit l = Some (N.max (op_minimum_test_timeout (cx_options X)) (s * 1000000000))
    /\ least_whole y s /\ close y (exact_secs d * x).
Proof. intros P X o0 t0 ms r l m x. exact (auto_limit P X o0 t0 ms r l m x). Qed.
Print Assumptions C65_auto_limit.

(** C65: nothing of this stops a run: until it has ended there is a next step, if every process comes to an end ... *)
Theorem C65_progress : forall P X o0 t0 ms r, (forall m, In m ms -> mutant_name true m <> None) ->
  rreachable P X ms o0 t0 r -> (exists x, ls_main (rs_lab r) = MEnd x) \/ exists r', rstep P X ms r r'.
Proof. intros P X o0 t0 ms r Hn. exact (run_goes P X o0 t0 ms Hn r). Qed.
Print Assumptions C65_progress.

(** ... and there is an end. *)
Theorem C65_terminates : forall P X o0 t0 ms k r, rsteps_k P X ms k (rstart P X ms o0 t0) r ->
  k <= 20 * length ms + 3 * n_threads (pa_jobs P) (length ms) + 17.
Proof.
  intros P X o0 t0 ms k r H. destruct (run_bound P X o0 t0 ms k r H) as [_ B]. pose proof (start_measure P o0 t0 ms). lia.
Qed.
Print Assumptions C65_terminates.

(** C65: cargo is run exactly for the phases in the outcomes: the results of a recorded scenario are those of
    its processes, in order, each phase once; nothing was run for a mutant that still waits. *)
Theorem C65_once : forall P X o0 t0 ms r, NoDup ms -> rreachable P X ms o0 t0 r ->
  (forall o, In o (lo_outcomes (sh_lab (ls_sh (rs_lab r)))) ->
     exists ls, of_scenario (oc_scenario o) (rs_log r) ls /\ map given ls = map Some (oc_results o))
  /\ forall m l, In m (sh_queue (ls_sh (rs_lab r))) -> In l (rs_log r) -> la_scenario l <> Mutant m.
Proof.
  intros P X o0 t0 ms r ND H. destruct (matches_inv P X o0 t0 ms ND r H) as (A & _ & C). split; [exact A|].
  intros m l Hm Hl E. destruct (C m Hm) as (ls & O & G). destruct ls; [|discriminate G]. clear - Hl E O.
  revert Hl. induction (rs_log r) as [|x log IH]; intro Hl; [destruct Hl|]. inversion O; subst. destruct Hl as [->|Hl]; [contradiction|]. apply IH; assumption.
Qed.
Print Assumptions C65_once.

(** C65: the same for lists in which a mutant occurs twice.  At any time, the processes so far are those of the tree without mutations,
    and after them those of the mutants.  The latter are in jobs, each for one mutant and in one directory: one for each outcome, and what was recorded is what its processes gave, and its verdict what they did;
    and those not finished, of which there are not more than [--jobs], and none when the run ends. *)
Theorem C65_parts : forall P X o0 t0 ms r, rreachable P X ms o0 t0 r ->
  exists bl rest fin opn, rs_log r = bl ++ rest /\ one_job Baseline bl /\ (pa_skip_baseline P = true -> bl = []) /\ woven (fin ++ opn) rest
  /\ (forall l, In l rest -> exists m, In m ms /\ la_scenario l = Mutant m)
  /\ (forall o, In o (lo_outcomes (sh_lab (ls_sh (rs_lab r)))) -> oc_scenario o = Baseline -> part_of o bl)
  /\ Forall2 (fun o b => part_of o b /\ forall v, summary o = Some v -> explains (pa_check_only P) b v)
       (filter of_mutant (lo_outcomes (sh_lab (ls_sh (rs_lab r))))) fin
  /\ Forall (fun b => exists s, one_job s b) opn
  /\ length opn <= Nat.max 1 (match pa_jobs P with Some j => j | None => 1 end) /\ length opn <= Nat.max 1 (length ms)
  /\ (forall l, ls_main (rs_lab r) = MEnd (ROk l) -> opn = []).
Proof.
  intros P X o0 t0 ms r H. destruct (parts_any P X o0 t0 ms r H) as (bl & rest & fin & opn & A & B & Bs & C & D & E & F & [G1 G2] & I).
  assert (K := parts_explained P X o0 t0 ms r bl rest fin opn H A C G2).
  exists bl, rest, fin, opn. unfold n_threads in F. repeat (split; [first [assumption|lia]|]). exact I.
Qed.
Print Assumptions C65_parts.

(** C65: a mutant's verdict is what happened when cargo was run on the workspace with that mutation: missed if the
    tests of the right packages were run and exited with status 0 within the limit, caught if with another status, and
    so on. *)
Theorem C65_verdict : forall P X o0 t0 ms r o m v, NoDup ms -> names_unique (cx_meta X) ->
  (forall m, In m ms -> loaded P m) -> first_tree P t0 -> options_ok P ->
  rreachable P X ms o0 t0 r -> In o (lo_outcomes (sh_lab (ls_sh (rs_lab r)))) -> oc_scenario o = Mutant m -> summary o = Some v ->
  exists ls, of_scenario (Mutant m) (rs_log r) ls /\ explains (pa_check_only P) ls v
    /\ Forall (right_command P X ms) ls /\ Forall (right_files P) ls.
Proof.
  intros P X o0 t0 ms r o m v ND U Hld Hft Hok H Ho Hs Hv.
  assert (F : finished_run (phases (pa_check_only P)) (oc_results o)).
  { destruct (project P X o0 t0 ms r H) as [Hl|(sh & d & b & E & Hl & _)].
    - eapply C10_recorded; eassumption.
    - rewrite E in Ho. cbn [ls_sh] in Ho. eapply C10_recorded; [exact Hl|exact Ho]. }
  destruct (explained P X o0 t0 ms r o m v ND H Ho Hs Hv F) as (ls & A & _ & B). exists ls. split; [exact A|]. split; [exact B|].
  pose proof (proper_inv P X o0 t0 ms r H) as FP. rewrite Forall_forall in FP. split; apply Forall_forall; intros l Hl; destruct (of_in _ _ _ _ A Hl) as [Hin _].
  - eapply command_right; eassumption.
  - destruct (FP l Hin) as (_ & _ & _ & _ & K). apply K; assumption.
Qed.
Print Assumptions C65_verdict.

(** C65: the run does not panic if multipliers are numbers that are not negative and times are not enormous.
    Missing: other multipliers, see C65_panic_refuted. *)
Theorem C65_no_panic_partial : forall P X o0 t0 ms r sh ws, (forall m, In m ms -> mutant_name true m <> None) ->
  rreachable P X ms o0 t0 r ->
  (forall x, op_test_timeout_multiplier (cx_options X) = Some x \/ op_build_timeout_multiplier (cx_options X) = Some x ->
     exists m, x = Fin m /\ (0 <= m)%Q) ->
  (forall l e d m, In l (rs_log r) -> la_result l = Some (e, d) ->
     multiplier (op_test_timeout_multiplier (cx_options X)) m \/ op_build_timeout_multiplier (cx_options X) = Some (Fin m) ->
     (exact_secs d * m <= LARGE)%Q) ->
  rs_lab r <> mkLS sh (MEnd RPanic) ws.
Proof. intros P X o0 t0 ms r sh ws Hn. exact (safe_options P X o0 t0 ms r sh ws Hn). Qed.
Print Assumptions C65_no_panic_partial.

(** A run with two jobs: the baseline takes 7 seconds to test; one mutant is missed, the other is stopped after 41 seconds. *)
Definition ex_opt (mult : option f64) : option options :=
  match options_new (fun _ => true)
    (mkArgs false true (Some true) false false None false [] [] [] [] [] true false (Some 2) true None false false false true None
         None false None [] None [] None None None mult None None false [] [] (mkFeatures [] false false))
    (mkConfig false None [] [] [] [] [] [] [] None None None [] None [] None None None None) with
  | OptionsM.NewOk o => Some o | _ => None end.
Definition ex_pkg := mkPackage (tx "main") (tx "0.2.0") [] [tx "src/main.rs"].
Definition ex_X (o : options) : context :=
  mkContext (fun v => if text_eqb v (tx "RUSTFLAGS") then Some (tx "-g") else None) ex_md o (fun _ => ex_pkg) [].
Definition secs (n : N) : N := (n * 1000000000)%N.
Definition ex_sched : list (nat * option (exit_t * N)) :=
  ok 0 5 ++ [(0, Some (ExSuccess, secs 7))] ++ ok 0 7 ++ ok 0 7 ++ ok 1 8 ++ [(1, Some (ExTimeout, secs 41))] ++ ok 1 7 ++ ok 0 9 ++ ok 1 1 ++ ok 0 1 ++ ok 0 1.
Definition ex_rrun (mult : option f64) (xs : list (nat * option (exit_t * N))) : option rstate :=
  match ex_opt mult with
  | Some o => rexec ex_P2 (ex_X o) ex_ms xs (rstart ex_P2 (ex_X o) ex_ms ex_out (pa_root ex_P2))
  | None => None
  end.
Definition show_launch (l : launch) :=
  (la_dir l, is_mutant (la_scenario l), la_phase l, la_argv l, la_limit l, la_result l).
Definition ex_last (mult : option f64) (xs : list (nat * option (exit_t * N))) : option (list (nat * bool * phase * option N * option (exit_t * N))) :=
  match ex_rrun mult xs with
  | Some r => Some (map (fun l => (la_dir l, is_mutant (la_scenario l), la_phase l, la_limit l, la_result l)) (rs_log r))
  | None => None
  end.

(** The six processes of that run, in order of ending: the baseline without limits, then the mutants' tests
    with a limit of 5 times 7 seconds. *)
Example C65_case_limits : ex_last None ex_sched = Some
  [ (0, false, Build, None, Some (ExSuccess, 1%N)); (0, false, Test, None, Some (ExSuccess, secs 7));
    (0, true, Build, None, Some (ExSuccess, 1%N)); (1, true, Build, None, Some (ExSuccess, 1%N));
    (1, true, Test, Some (secs 35), Some (ExTimeout, secs 41)); (0, true, Test, Some (secs 35), Some (ExSuccess, 1%N)) ].
Proof. vm_compute. reflexivity. Qed.
(** Its commands, the flags for rustc and the verdicts: the baseline passed, one mutant timed out and one was missed. *)
Definition ex_seen : option (list (list text * option text) * list (option summary_outcome)) :=
  match ex_rrun None ex_sched with
  | Some r => Some (map (fun l => (la_argv l, la_env l (tx "CARGO_ENCODED_RUSTFLAGS"))) (rs_log r),
                    match ls_main (rs_lab r) with MEnd (ROk l) => map summary (lo_outcomes l) | _ => [] end)
  | None => None
  end.
Definition ex_build := ([tx "cargo"; tx "test"; tx "--no-run"; tx "--verbose"; tx "--package=main@0.2.0"], Some (tx "-g" ++ [31%N] ++ tx "--cap-lints=warn")).
Definition ex_test := ([tx "cargo"; tx "test"; tx "--verbose"; tx "--package=main@0.2.0"], Some (tx "-g" ++ [31%N] ++ tx "--cap-lints=warn")).
Example C65_case_commands :
  ex_seen = Some ([ex_build; ex_test; ex_build; ex_build; ex_test; ex_test], [Some SumSuccess; Some SumTimeout; Some SumMissed]).
Proof. vm_compute. reflexivity. Qed.

(** That run is reachable, so the theorems are about it: a state with verdicts and processes that satisfies what
    C65_verdict, C65_once, C65_limits and C65_auto_limit ask for. *)
Lemma ex_ms_nodup : NoDup ex_ms.
Proof. repeat constructor; intros H; repeat destruct H as [H|H]; try discriminate; contradiction. Qed.
Lemma ex_md_unique : names_unique ex_md.
Proof. unfold names_unique. vm_compute. repeat constructor; intros H; repeat destruct H as [H|H]; try discriminate; contradiction. Qed.
Lemma ex_rrun_reach : forall mult xs o r, ex_opt mult = Some o -> ex_rrun mult xs = Some r ->
  rreachable ex_P2 (ex_X o) ex_ms ex_out (pa_root ex_P2) r.
Proof. intros mult xs o r Eo Er. unfold ex_rrun in Er. rewrite Eo in Er. eapply rexec_sound. exact Er. Qed.
Lemma ex_counts : match ex_rrun None ex_sched with
  | Some r => length (rs_log r) = 6 /\ length (lo_outcomes (sh_lab (ls_sh (rs_lab r)))) = 3 | None => False end.
Proof. vm_compute. split; reflexivity. Qed.
Lemma ex_opt_none : match ex_opt None with
  | Some o => op_test_timeout o = None /\ op_build_timeout_multiplier o = None /\ op_test_timeout_multiplier o = None | None => False end.
Proof. vm_compute. repeat split. Qed.
Definition ex_panics := ok 0 5 ++ [(0, Some (ExSuccess, secs 7))] ++ ok 0 7.
Lemma ex_panics_so : match ex_rrun (Some (Inf false)) ex_panics with
  | Some r => forallb (fun l => match la_result l with Some (_, d) => N.leb d 7000000000 | None => true end) (rs_log r) = true
              /\ ls_main (rs_lab r) = MEnd RPanic
  | None => False end.
Proof. vm_compute. split; reflexivity. Qed.
Lemma ex_opt_inf : match ex_opt (Some (Inf false)) with Some o => True | None => False end.
Proof. vm_compute. exact I. Qed.
Lemma ex_opt_from : forall mult o, ex_opt mult = Some o -> exists a c, options_new (fun _ => true) a c = OptionsM.NewOk o.
Proof.
  intros mult o E. unfold ex_opt in E. match type of E with match ?x with _ => _ end = _ => remember x as y eqn:Ey end.
  destruct y; try discriminate. injection E as ->. symmetry in Ey. do 2 eexists. exact Ey.
Qed.
Example C65_case_reachable : exists o r, ex_opt None = Some o /\ rreachable ex_P2 (ex_X o) ex_ms ex_out (pa_root ex_P2) r
  /\ length (rs_log r) = 6 /\ length (lo_outcomes (sh_lab (ls_sh (rs_lab r)))) = 3
  /\ NoDup ex_ms /\ names_unique ex_md /\ options_ok ex_P2 /\ pa_skip_baseline ex_P2 = false /\ pa_check_only ex_P2 = false
  /\ op_test_timeout o = None /\ op_build_timeout_multiplier o = None /\ multiplier (op_test_timeout_multiplier o) 5.
Proof.
  pose proof ex_counts as E. pose proof ex_opt_none as E2.
  destruct (ex_opt None) as [o|] eqn:Eo; [|destruct E2]. destruct (ex_rrun None ex_sched) as [r|] eqn:Er; [|destruct E].
  destruct E as [E3 E4], E2 as (E5 & E6 & E7). exists o, r. split; [reflexivity|].
  split; [exact (ex_rrun_reach _ _ _ _ Eo Er)|]. split; [exact E3|]. split; [exact E4|]. split; [exact ex_ms_nodup|].
  split; [exact ex_md_unique|]. split; [intro H; discriminate H|]. split; [reflexivity|]. split; [reflexivity|].
  split; [exact E5|]. split; [exact E6|]. right. split; [exact E7|reflexivity].
Qed.

(** The first mutant twice in the list: two tests of it at the same time, in two directories. *)
Definition ex_twice : list mutant := match ex_ms with m :: _ => [m; m] | [] => [] end.
Definition ex_twice_run : option rstate :=
  match ex_opt None with
  | Some o => rexec ex_P2 (ex_X o) ex_twice ex_sched (rstart ex_P2 (ex_X o) ex_twice ex_out (pa_root ex_P2))
  | None => None
  end.
Example C65_case_twice : match ex_twice_run with
  | Some r => map (fun l => (la_dir l, is_mutant (la_scenario l), la_phase l)) (rs_log r)
              = [(0, false, Build); (0, false, Test); (0, true, Build); (1, true, Build); (1, true, Test); (0, true, Test)]
              /\ match ls_main (rs_lab r) with MEnd (ROk l) => map summary (lo_outcomes l) | _ => [] end = [Some SumSuccess; Some SumTimeout; Some SumMissed]
  | None => False end.
Proof. vm_compute. split; reflexivity. Qed.

(** C65: what C65_no_panic_partial asks of multipliers is needed.  An infinite multiplier is accepted; the run builds
    and tests the baseline and then panics. *)
Theorem C65_panic_refuted : exists P X o0 t0 ms r sh ws,
  NoDup ms /\ (forall m, In m ms -> mutant_name true m <> None) /\ rreachable P X ms o0 t0 r
  /\ (exists a c, options_new (fun _ => true) a c = OptionsM.NewOk (cx_options X))
  /\ (forall l e d, In l (rs_log r) -> la_result l = Some (e, d) -> (d <= 7000000000)%N)
  /\ rs_lab r = mkLS sh (MEnd RPanic) ws.
Proof.
  pose proof ex_panics_so as E. pose proof ex_opt_inf as E0.
  destruct (ex_opt (Some (Inf false))) as [o|] eqn:Eo; [|destruct E0].
  destruct (ex_rrun (Some (Inf false)) ex_panics) as [r|] eqn:Er; [|destruct E]. destruct E as [E1 E2].
  exists ex_P2, (ex_X o), ex_out, (pa_root ex_P2), ex_ms, r, (ls_sh (rs_lab r)), (ls_workers (rs_lab r)).
  split; [exact ex_ms_nodup|]. split; [intros m [<-|[<-|[]]]; vm_compute; discriminate|].
  split; [exact (ex_rrun_reach _ _ _ _ Eo Er)|]. split; [exact (ex_opt_from _ _ Eo)|]. split.
  - intros l e d Hl Hr. rewrite forallb_forall in E1. specialize (E1 l Hl). rewrite Hr in E1. apply N.leb_le. exact E1.
  - rewrite <- E2. destruct (rs_lab r). reflexivity.
Qed.
Print Assumptions C65_panic_refuted.
