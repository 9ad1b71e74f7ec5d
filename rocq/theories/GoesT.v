(** Theorems for C75. *)
From Coq Require Import String List NArith ZArith QArith Bool Arith Permutation.
From Verif Require Import Text SpanM PathM MutantM ProcessM OutcomeM OutputM ShardM F64M TimeoutM TimeoutS PackageM OptionsM CargoM WalkM LabM LabT MainM WholeM WholeS WholeT
  LaunchM LaunchS LaunchT LaunchP EndM EndT InterruptM LogM LogsM ClapM ClapS ClapT GoesS GoesP.
Import ListNotations.
Open Scope list_scope.
Open Scope nat_scope.

(** C75: every mutant that is found has a name, so it can be listed, compared with earlier results, logged and tested. *)
Theorem C75_names : forall w fuel s v ms fs m b, discover w fuel s = WOk v ms fs -> In m ms -> exists n, mutant_name b m = Some n.
Proof.
  intros w fuel s v ms fs m b D I. pose proof (found_named w fuel s v ms fs m b D I) as N. destruct (mutant_name b m) as [n|]; [eauto|contradiction].
Qed.
Print Assumptions C75_names.

(** C75: before it tests anything the program panics exactly if cargo names a manifest by a path that is not absolute or the options cannot
    be represented, and neither over what is in the sources, the diff, the output directory or the shard.  The root of the
    workspace is not a file, and the search comes to an end (see C29_terminates_partial). *)
Theorem C75_early : forall w e ts lk fuel a, command_of e ts = CmdRun a ->
  (forall s, settle w a = Done s -> wo_read w (path_join (md_root (se_meta s)) []) = None /\ discover w fuel s <> WFuel) ->
  (panics_early w lk fuel a <-> bad_setting w a).
Proof.
  intros w e ts lk fuel a C R. apply early_iff; [exact R|]. intros sh E. exact (proj1 (co_shard a (C68_consistent e ts a C) sh E)).
Qed.
Print Assumptions C75_early.

(** C75: a run that has come to testing goes on, whatever has happened so far: it has ended or has a next step, it can
    come to its end, and every way of going on ends within a number of steps that depends only on the number of mutants and jobs. *)
Theorem C75_goes_on : forall w e js a s ms P r, program_runs w e js a s ms P r ->
  exists q, Permutation ms q
  /\ ((exists x, ls_main (rs_lab r) = MEnd x) \/ exists r', rstep P (context_for e js s) q r r')
  /\ (exists k r' x, rsteps_k P (context_for e js s) q k r r' /\ ls_main (rs_lab r') = MEnd x)
  /\ forall k r', rsteps_k P (context_for e js s) q k r r' ->
       program_runs w e js a s ms P r' /\ k <= 20 * length ms + 3 * n_threads (pa_jobs P) (length ms) + 17.
Proof. exact whole_goes. Qed.
Print Assumptions C75_goes_on.

(** C75: while testing the program panics only after the tests without mutations have passed, if no time limit can be computed from the time
    that they took; no mutant has been tested then. *)
Theorem C75_panic : forall w e js a s ms P r, program_runs w e js a s ms P r -> ls_main (rs_lab r) = MEnd RPanic -> no_limits s r.
Proof. exact whole_panic. Qed.
Print Assumptions C75_panic.

(** In that case it always does. *)
Theorem C75_must_panic : forall w e js a s ms P q r d o r', program_runs w e js a s ms P r -> ls_main (rs_lab r) = MBaseline (WFin d o) -> oc_success o = Some true ->
  mutant_timeouts rnd64 (Some o) (timeout_options (se_options s)) = None -> rstep P (context_for e js s) q r r' -> ls_main (rs_lab r') = MEnd RPanic.
Proof. exact whole_must. Qed.
Print Assumptions C75_must_panic.

(** C75: with multipliers that are finite and not negative, and times that are not enormous, there is no panic.
    Clap and the configuration accept other multipliers, see C75_case_panics. *)
Theorem C75_no_panic : forall w e js a s ms P r, program_runs w e js a s ms P r ->
  (forall x, op_test_timeout_multiplier (se_options s) = Some x \/ op_build_timeout_multiplier (se_options s) = Some x -> exists m, x = Fin m /\ (0 <= m)%Q) ->
  (forall l e d m, In l (rs_log r) -> la_result l = Some (e, d) ->
     multiplier (op_test_timeout_multiplier (se_options s)) m \/ op_build_timeout_multiplier (se_options s) = Some (Fin m) -> (exact_secs d * m <= LARGE)%Q) ->
  ls_main (rs_lab r) <> MEnd RPanic.
Proof. exact whole_safe. Qed.
Print Assumptions C75_no_panic.

(** C75: every run of the program has logs as in C71. *)
Theorem C75_logs : forall w e js a s ms P r, program_runs w e js a s ms P r -> exists q o0 t0 g,
  Permutation ms q /\ greachable P (context_for e js s) q (wo_diff w) o0 t0 g /\ g_run g = r.
Proof. exact whole_logs. Qed.
Print Assumptions C75_logs.

(** C75: also with interrupts at any time the program goes on until it ends. *)
Theorem C75_interrupted : forall w a s lk fuel ms es q P o0 t0 st, settle w a = Done s -> after w lk fuel a s = Done (Tests ms es) ->
  queued (cli_of w a (se_options s)) ms q -> ireachable P o0 t0 q st ->
  (exists r, ls_main (is_lab st) = MEnd r) \/ exists st', LabM.step P (length q) (is_lab st) st' /\ istep P (length q) st (mkI st' (is_flag st)).
Proof. exact whole_stops. Qed.
Print Assumptions C75_interrupted.

(** ** Examples *)
(** The world of WholeT: the two mutants have names, the root is not a file, the search ends; a run of them can be in the middle
    of its work and ends. *)
Example C75_case : wo_read ex_world (path_join (md_root (se_meta ex_setting)) []) = None /\ discover ex_world 10 ex_setting <> WFuel
  /\ ~ bad_setting ex_world (ex_arguments false).
Proof.
  assert (R : wo_read ex_world (path_join (md_root (se_meta ex_setting)) []) = None) by (vm_compute; reflexivity).
  assert (D : discover ex_world 10 ex_setting <> WFuel) by (vm_compute; discriminate).
  split; [exact R|]. split; [exact D|]. intro B. destruct ex_after as [es A].
  apply (proj2 (early_iff ex_world (tx "L") 10 (ex_arguments false) ltac:(intros s E; rewrite (ex_settle false) in E; injection E as <-; split; [exact R|exact D])
                  ltac:(intros sh E; discriminate E))) in B.
  destruct B as [B|(s & S & _ & B)].
  - rewrite (ex_settle false) in B. discriminate B.
  - rewrite (ex_settle false) in S. injection S as <-. rewrite A in B. discriminate B.
Qed.
(** Cargo answers with a relative path. *)
Example C75_case_relative : bad_setting
   (mkWorld (fun _ => true) (fun _ => true) (fun _ => true) (fun _ => None) (fun _ => None) (fun _ _ => Some (tx "t/Cargo.toml")) (fun _ => None)
      (fun _ => None) (fun _ => true) (fun _ _ => true) (fun _ => None) (fun _ => None) (fun _ => None) (fun _ => []) (fun _ => []) (fun _ => []))
   (ex_arguments false).
Proof. eapply (bs_manifest _ _ (tx ".") (tx "t/Cargo.toml") (tx "t")); vm_compute; reflexivity. Qed.
Lemma ex_middle : match ex_erun (firstn 20 ex_sched) with
  | Some r => length (rs_log r) = 3 /\ match ls_main (rs_lab r) with MWork => True | _ => False end | None => False end.
Proof. vm_compute. split; [reflexivity|exact I]. Qed.
Example C75_case_middle : exists r, program_runs ex_world ex_env [] (ex_arguments false) ex_setting LabT.ex_ms LabT.ex_P2 r
  /\ length (rs_log r) = 3 /\ ls_main (rs_lab r) = MWork.
Proof.
  pose proof ex_middle as E. destruct (ex_erun (firstn 20 ex_sched)) as [r|] eqn:Er; [|destruct E]. destruct E as [E1 E2]. exists r.
  split; [exact (ex_runs _ _ Er)|]. split; [exact E1|]. destruct (ls_main (rs_lab r)); [contradiction|reflexivity|contradiction].
Qed.

(** With [--timeout-multiplier=inf]. *)
Definition ex_words_inf : list text := words ["--no-shuffle"; "-j"; "2"; "--cap-lints=true"; "--timeout-multiplier=inf"]%string.
Lemma ex_inf_so : match command_of ex_env ex_words_inf with
  | CmdRun a =>
      match settle ex_world a with
      | Done s =>
          match after ex_world (tx "L") 10 a s with
          | Done (Tests ms es) => ms = ex_ms
              /\ match rexec ex_P2 (context_for ex_env [] s) ex_ms ex_panics (rstart ex_P2 (context_for ex_env [] s) ex_ms ex_out (pa_root ex_P2)) with
                 | Some r => ls_main (rs_lab r) = MEnd RPanic | None => False end
              /\ queued (cli_of ex_world a (se_options s)) ex_ms ex_ms /\ lab_for (se_options s) ex_P2
          | _ => False
          end
      | _ => False
      end
  | _ => False
  end.
Proof. vm_compute. repeat split. Qed.
(** Clap accepts multipliers for which the program panics after the tests without mutations have passed. *)
Example C75_case_panics : exists w e js ts a s ms P r, command_of e ts = CmdRun a /\ program_runs w e js a s ms P r /\ ls_main (rs_lab r) = MEnd RPanic.
Proof.
  pose proof ex_inf_so as E. destruct (command_of ex_env ex_words_inf) as [n| | |a] eqn:C; try contradiction.
  destruct (settle ex_world a) as [s| |] eqn:S; try contradiction. destruct (after ex_world (tx "L") 10 a s) as [[out|ms es]| |] eqn:A; try contradiction.
  destruct E as (-> & E & Q & L). destruct (rexec _ _ _ _ _) as [r|] eqn:Er; [|contradiction].
  exists ex_world, ex_env, [], ex_words_inf, a, s, ex_ms, ex_P2, r. split; [exact C|]. split; [|exact E].
  apply (pr_runs ex_world ex_env [] a s ex_ms ex_P2 (tx "L") 10 es ex_ms ex_out (pa_root ex_P2));
    [exact S|exact A|discriminate|exact Q|exact L|apply LabT.C13_case|]. eapply rexec_sound. exact Er.
Qed.
