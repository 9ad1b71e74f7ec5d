(** Theorems for C71. *)
From Coq Require Import String List NArith ZArith QArith Bool Arith Permutation.
From Verif Require Import Text Utf8M SpanM PathM MutantM ProcessM OutcomeM OutputM OptionsM PackageM CargoM JsonM JsonS
  LogM LogS LabM LabT LaunchM LaunchS LaunchT LogsM LogsS LogsP LogsRunP LogsUseP LogsJsonP LogsAheadP.
Import ListNotations.
Open Scope list_scope.
Open Scope nat_scope.

(** C71: every recorded outcome has a log, and this is the record of the cargo processes from which the outcome was
    made and of no others: the scenario's name, for a mutant the diff, and for each process its command line, what it
    wrote, and its result.  The processes of different outcomes are different ones (as in C65_parts). *)
Theorem C71_logs : forall P X ms diff o0 t0 g, greachable P X ms diff o0 t0 g ->
  length (g_named g) = length (outcomes_of (g_run g))
  /\ exists bl rest fin opn, rs_log (g_run g) = bl ++ rest /\ woven (fin ++ opn) rest
     /\ Forall2 (fun ok b => part_of (fst ok) b /\ record_of diff (g_logs g) (snd ok) (oc_scenario (fst ok)) b
                             /\ diff_beside diff (g_logs g) (snd ok) (oc_scenario (fst ok)))
          (filter (fun ok => of_mutant (fst ok)) (combine (outcomes_of (g_run g)) (g_named g))) fin
     /\ (forall o k, In (o, k) (combine (outcomes_of (g_run g)) (g_named g)) -> oc_scenario o = Baseline ->
           part_of o bl /\ record_of diff (g_logs g) k Baseline bl /\ diff_beside diff (g_logs g) k Baseline).
Proof. intros P X ms diff o0 t0 g H. exact (logs_all P X o0 t0 ms diff g H). Qed.
Print Assumptions C71_logs.

(** C71: logs have different names, no two outcomes have the same log, and when the run ends well every log belongs to
    an outcome. *)
Theorem C71_one_each : forall P X ms diff o0 t0 g, greachable P X ms diff o0 t0 g ->
  NoDup (map gl_name (g_logs g)) /\ map gl_name (g_logs g) = sh_logs (ls_sh (rs_lab (g_run g))) /\ NoDup (g_named g)
  /\ forall l, ls_main (rs_lab (g_run g)) = MEnd (ROk l) -> Permutation (seq 0 (length (g_logs g))) (g_named g).
Proof.
  intros P X ms diff o0 t0 g H. pose proof (inv_all _ _ _ _ _ _ _ H) as I.
  split; [rewrite (inv_names _ _ _ _ _ I); exact (inv_nodup _ _ _ _ _ I)|]. split; [exact (inv_names _ _ _ _ _ I)|].
  split; [exact (inv_once _ _ _ _ _ I)|]. intros l E. exact (one_each P X o0 t0 ms diff g l H E).
Qed.
Print Assumptions C71_one_each.

(** C71: between two phases, the log that a thread has in hand is the record of the scenario's processes so far. *)
Theorem C71_so_far : forall P X ms diff o0 t0 g i d s done todo, greachable P X ms diff o0 t0 g ->
  at_pc (rs_lab (g_run g)) i (WPhase d s done todo) ->
  exists k b, g_cur g i = Some k /\ ~ In k (g_named g) /\ incl b (rs_log (g_run g))
    /\ Forall (fun l => la_dir l = d /\ la_scenario l = s) b /\ map given b = map Some done
    /\ record_of diff (g_logs g) k s b.
Proof. intros P X ms diff o0 t0. exact (logs_so_far P X o0 t0 ms diff). Qed.
Print Assumptions C71_so_far.

(** C71: at every moment, also after an error or when the program is stopped, every log is a file that holds all that was written to it, and
    the tool's part is a beginning of the log for some results of the first phases. *)
Theorem C71_any_log : forall P X ms diff o0 t0 g l, greachable P X ms diff o0 t0 g -> In l (g_logs g) ->
  l_file (gl_state l) = Some (written (gl_trace l))
  /\ forall name, called (gl_scenario l) name ->
     exists rs more rest, whole_log (conf P X ms diff (gl_scenario l)) name (fun _ => []) rs = told (gl_trace l) ++ more
       /\ phases (pa_check_only P) = map fst rs ++ rest.
Proof.
  intros P X ms diff o0 t0 g l H I. destruct (any_log P X o0 t0 ms diff g l H I) as [A B]. split; [exact A|].
  intros name C. apply B. destruct (gl_scenario l); cbn in *; congruence.
Qed.
Print Assumptions C71_any_log.

(** C71: every run of the cargo processes (C65) is a run with logs, when the mutants have names. *)
Theorem C71_every_run : forall P X ms diff o0 t0 r, (forall m, In m ms -> mutant_name true m <> None) ->
  rreachable P X ms o0 t0 r -> exists g, greachable P X ms diff o0 t0 g /\ g_run g = r.
Proof.
  intros P X ms diff o0 t0 r N H. destruct (lift P X o0 t0 ms diff N r H) as (g & A & B & _). exists g. auto.
Qed.
Print Assumptions C71_every_run.

(** C71: as long as the mutation is not applied the log tells of no command: what is in it is a beginning of the
    heading. *)
Theorem C71_not_ahead : forall P X ms diff o0 t0 g i d s, greachable P X ms diff o0 t0 g -> LaunchM.at_pc (rs_lab (g_run g)) i (WApply d s) ->
  exists k l, g_cur g i = Some k /\ nth_error (g_logs g) k = Some l /\ gl_scenario l = s /\ ~ In k (g_named g)
    /\ (forall n, ~ In (ESpawn n) (gl_trace l))
    /\ forall name, called s name -> exists more, log_text diff s name (fun _ => []) [] = told (gl_trace l) ++ more.
Proof. intros P X ms diff o0 t0. exact (not_ahead P X o0 t0 ms diff). Qed.
Print Assumptions C71_not_ahead.

(** C71: what outcomes.json says of an outcome leads to its processes: the log that it names is the record of the processes
    from which the outcome was made, and the command lines in it are theirs. *)
Theorem C71_json : forall P X ms diff o0 t0 float lp dp g t, (forall n, is_number (float n) = true) ->
  greachable P X ms diff o0 t0 g -> right_paths g lp dp ->
  outcomes_file float (kept_argv X ms) lp dp (sh_lab (ls_sh (rs_lab (g_run g)))) = Some t ->
  exists v xs, read_json t = Some v /\ has v (tx "outcomes") (JArr xs) /\ length xs = length (outcomes_of (g_run g))
  /\ forall j x, nth_error xs j = Some x ->
     exists o k l b, nth_error (outcomes_of (g_run g)) j = Some o /\ nth_error (g_named g) j = Some k /\ nth_error (g_logs g) k = Some l
       /\ has x (tx "log_path") (JStr (tx "log/" ++ gl_name l ++ tx ".log"))
       /\ has x (tx "diff_path") (match oc_scenario o with Mutant _ => JStr (tx "diff/" ++ gl_name l ++ tx ".diff") | Baseline => JNull end)
       /\ part_of o b /\ incl b (rs_log (g_run g)) /\ record_of diff (g_logs g) k (oc_scenario o) b
       /\ exists ps, has x (tx "phase_results") (JArr ps) /\ Forall2 (fun p l => has p (tx "argv") (JArr (map JStr (la_argv l)))) ps b.
Proof. intros P X ms diff o0 t0. exact (json_logs P X o0 t0 ms diff). Qed.
Print Assumptions C71_json.

(** C71: there are such paths for every run in which no mutant is listed twice. *)
Theorem C71_paths : forall P X ms diff o0 t0 g, NoDup ms -> greachable P X ms diff o0 t0 g -> exists lp dp, right_paths g lp dp.
Proof. intros P X ms diff o0 t0 g N H. exact (paths_exist P X o0 t0 ms diff N g H). Qed.
Print Assumptions C71_paths.

(** The run with two jobs of C65: three logs for three outcomes and six processes. *)
Definition ex_diff (m : mutant) : text := tx "--- a" ++ [NL] ++ tx "+++ b" ++ [NL].
Lemma ex_ms_named : forall m, In m ex_ms -> mutant_name true m <> None.
Proof. intros m [<-|[<-|[]]]; vm_compute; discriminate. Qed.
Lemma ex_ended : match ex_rrun None ex_sched with
  | Some r => length (rs_log r) = 6 /\ length (outcomes_of r) = 3 /\ exists l, ls_main (rs_lab r) = MEnd (ROk l) | None => False end.
Proof. vm_compute. split; [reflexivity|]. split; [reflexivity|]. eexists. reflexivity. Qed.
Example C71_case : exists o g l, ex_opt None = Some o /\ greachable ex_P2 (ex_X o) ex_ms ex_diff ex_out (pa_root ex_P2) g
  /\ ls_main (rs_lab (g_run g)) = MEnd (ROk l) /\ length (rs_log (g_run g)) = 6 /\ length (outcomes_of (g_run g)) = 3
  /\ length (g_logs g) = 3 /\ Permutation (seq 0 3) (g_named g)
  /\ exists lp dp, right_paths g lp dp.
Proof.
  pose proof ex_ended as E. pose proof ex_opt_none as E2.
  destruct (ex_opt None) as [o|] eqn:Eo; [|destruct E2]. destruct (ex_rrun None ex_sched) as [r|] eqn:Er; [|destruct E].
  destruct E as (E3 & E4 & l & E5).
  destruct (C71_every_run ex_P2 (ex_X o) ex_ms ex_diff ex_out (pa_root ex_P2) r ex_ms_named (ex_rrun_reach _ _ _ _ Eo Er)) as (g & G1 & G2).
  exists o, g, l. subst r. destruct (C71_one_each _ _ _ _ _ _ _ G1) as (_ & _ & _ & Pm). specialize (Pm l E5).
  destruct (C71_logs _ _ _ _ _ _ _ G1) as [Le _]. pose proof (Permutation_length Pm) as Lp. rewrite seq_length, Le, E4 in Lp.
  rewrite Lp in Pm.
  pose proof (C71_paths _ _ _ _ _ _ _ ex_ms_nodup G1). auto 10.
Qed.
(** The log of the mutant that was stopped, from its two processes. *)
Definition ex_stopped : option (list byte) :=
  match ex_rrun None ex_sched with
  | Some r =>
      match filter (fun l => Nat.eqb (la_dir l) 1) (rs_log r) with
      | l :: ls => Some (log_text ex_diff (la_scenario l) (tx "NAME") (fun n => if Nat.eqb n 0 then encode (tx "   Compiling" ++ [NL]) else encode (tx "running 1 test" ++ [NL])) (l :: ls))
      | [] => None
      end
  | None => None
  end.
Example C71_case_text : ex_stopped = Some (encode (flat_map (fun l => l ++ [NL])
  [ []; tx "*** NAME"; []; tx "*** mutation diff:"; tx "--- a"; tx "+++ b"; [];
    []; tx "*** cargo test --no-run --verbose --package=main@0.2.0"; tx "   Compiling"; []; tx "*** result: Success";
    []; tx "*** cargo test --verbose --package=main@0.2.0"; tx "running 1 test"; []; tx "*** result: Timeout" ])).
Proof. vm_compute. reflexivity. Qed.

(** That run at an earlier place: a worker has made the log of its mutant and not yet applied it. *)
Definition ex_before := firstn 16 ex_sched.
Lemma ex_before_so : match ex_rrun None ex_before with
  | Some r => length (rs_log r) = 2 /\ match ls_main (rs_lab r), nth_error (ls_workers (rs_lab r)) 0 with MWork, Some (WApply 0 (Mutant _)) => True | _, _ => False end
  | None => False end.
Proof. vm_compute. split; [reflexivity|exact I]. Qed.
Example C71_case_not_ahead : exists o g m, ex_opt None = Some o /\ greachable ex_P2 (ex_X o) ex_ms ex_diff ex_out (pa_root ex_P2) g
  /\ length (rs_log (g_run g)) = 2 /\ LaunchM.at_pc (rs_lab (g_run g)) 0 (WApply 0 (Mutant m)).
Proof.
  pose proof ex_before_so as E. pose proof ex_opt_none as E2.
  destruct (ex_opt None) as [o|] eqn:Eo; [|destruct E2]. destruct (ex_rrun None ex_before) as [r|] eqn:Er; [|destruct E].
  destruct E as (E3 & E4). destruct (C71_every_run ex_P2 (ex_X o) ex_ms ex_diff ex_out (pa_root ex_P2) r ex_ms_named (ex_rrun_reach _ _ _ _ Eo Er)) as (g & G1 & G2).
  subst r. unfold LaunchM.at_pc. destruct (ls_main (rs_lab (g_run g))) eqn:Em; try contradiction.
  destruct (nth_error (ls_workers (rs_lab (g_run g))) 0) as [[]|] eqn:En; try contradiction.
  destruct d; [|destruct E4]. destruct s as [|m]; [destruct E4|]. exists o, g, m. rewrite Em. auto.
Qed.
