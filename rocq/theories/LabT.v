(** Property theorems: C11-C15, C43, C49 (and C16) for the lab machine. *)
From Coq Require Import String List NArith ZArith Bool Permutation Lia.
From Verif Require Import Text SpanM PathM PathS MutantM ProcessM OutcomeM OutputM OutputS IterateM LabM LabS LabP.
Import ListNotations.

(** ** C12 *)

(** C12: in every reachable state the mutants of the list are, each once, in the queue,
    in the hands of one thread, recorded, or given up by a thread that has failed. *)
Theorem C12_accounted : forall P o0 t0 ms st, reachable P o0 t0 ms st ->
  exists lost,
    Permutation (sh_queue (ls_sh st) ++ flat_map in_hand (threads st) ++ recorded (sh_lab (ls_sh st)) ++ lost) ms
    /\ (lost <> [] -> In (WEnd false) (threads st) \/ In WPanic (threads st)).
Proof. exact c12_accounted. Qed.
Print Assumptions C12_accounted.

(** C12: if the run ends without error every mutant has exactly one recorded outcome,
    unless the baseline failed. *)
Theorem C12_all_recorded : forall P o0 t0 ms sh l ws, reachable P o0 t0 ms (mkLS sh (MEnd (ROk l)) ws) ->
  Permutation (recorded l) ms
  \/ (recorded l = [] /\ exists o, In o (lo_outcomes l) /\ oc_scenario o = Baseline /\ oc_success o = Some false).
Proof.
  intros P o0 t0 ms sh l ws H. destruct (c12_ok _ _ _ _ _ _ _ H) as [-> [A|(d & o & A & B & C & _)]]; [auto|].
  right. split; [exact C|]. exists o. destruct (base_lab _ _ _ _ _ _ _ A) as [E|E]; [discriminate|]. simpl in E. rewrite E.
  split; [left; reflexivity|]. split; [|exact B]. destruct (base_inv _ _ _ _ _ A) as ([d' Hb] & _). simpl in Hb. congruence.
Qed.
Print Assumptions C12_all_recorded.

(** C12: with no mutant listed twice, no two threads have the same mutant, and none
    has one that is waiting or has been recorded. *)
Theorem C12_no_double : forall P o0 t0 ms st i j ci cj m, NoDup ms -> reachable P o0 t0 ms st ->
  nth_error (threads st) i = Some ci -> nth_error (threads st) j = Some cj ->
  In m (in_hand ci) ->
  (In m (in_hand cj) -> i = j) /\ ~ In m (sh_queue (ls_sh st)) /\ ~ In m (recorded (sh_lab (ls_sh st))).
Proof.
  intros P o0 t0 ms st i j ci cj m Hn H Hi Hj Hm. destruct (c12_accounted _ _ _ _ _ H) as (lost & HP & _).
  apply Permutation_sym in HP. apply (Permutation_NoDup HP) in Hn. clear HP H.
  assert (Hin : In m (flat_map in_hand (threads st))). { apply in_flat_map. exists ci. split; [eapply nth_error_In; exact Hi|exact Hm]. }
  assert (D : forall (a b : list mutant) x, NoDup (a ++ b) -> In x a -> ~ In x b).
  { clear. induction a as [|y a IH]; intros b x Hn Hx Hb; [destruct Hx|]. simpl in Hn. inversion Hn; subst.
    destruct Hx as [->|Hx]; [|eapply IH; eauto]. apply H1. apply in_or_app. auto. }
  repeat split.
  - intros Hm'. apply NoDup_app_r in Hn.
    revert Hn Hi Hj. generalize (recorded (sh_lab (ls_sh st)) ++ lost) as z. generalize (threads st) as ts. clear - D Hm Hm'.
    intros ts z Hn. revert i j. induction ts as [|c ts IH]; intros i j Hi Hj; [destruct i; discriminate|].
    simpl in Hn. rewrite <- app_assoc in Hn. destruct i as [|i], j as [|j]; simpl in *; auto.
    + injection Hi as ->. exfalso. apply (D _ _ _ Hn Hm). apply in_or_app. left. apply in_flat_map. exists cj. split; [eapply nth_error_In; eauto|auto].
    + injection Hj as ->. exfalso. apply (D _ _ _ Hn Hm'). apply in_or_app. left. apply in_flat_map. exists ci. split; [eapply nth_error_In; eauto|auto].
    + f_equal. apply IH; auto. apply NoDup_app_r in Hn. exact Hn.
  - intros Hq. apply (D _ _ _ Hn Hq). apply in_or_app. auto.
  - intros Hr. apply NoDup_app_r in Hn. apply (D _ _ _ Hn Hin). apply in_or_app. auto.
Qed.
Print Assumptions C12_no_double.

(** C12: the threads never block one another for ever: until the run has ended some
    thread can move ... *)
Theorem C12_progress : forall P o0 t0 ms st, (forall m, In m ms -> mutant_name true m <> None) ->
  reachable P o0 t0 ms st -> (exists r, ls_main st = MEnd r) \/ exists st', step P (length ms) st st'.
Proof. intros P o0 t0 ms st Hn H. exact (progress P o0 t0 ms Hn st H). Qed.
Print Assumptions C12_progress.

(** ... and every schedule comes to an end. *)
Theorem C12_terminates : forall P o0 t0 ms k st,
  steps_k P (length ms) k (start_state P o0 t0 ms) st ->
  k <= 20 * length ms + 3 * n_threads (pa_jobs P) (length ms) + 17.
Proof.
  intros P o0 t0 ms k st H. pose proof (steps_bound _ _ _ _ _ H). pose proof (start_measure P o0 t0 ms). lia.
Qed.
Print Assumptions C12_terminates.

(** No panic: the exit is a result or an error. *)
Theorem C12_no_panic : forall P o0 t0 ms sh r ws, (forall m, In m ms -> mutant_name true m <> None) ->
  reachable P o0 t0 ms (mkLS sh (MEnd r) ws) -> r <> RPanic.
Proof. intros P o0 t0 ms sh r ws Hn H. exact (no_panic P o0 t0 ms Hn sh r ws H). Qed.
Print Assumptions C12_no_panic.

(** C12: mutants are taken from the list in its order, none skipped. *)
Theorem C12_in_order : forall P o0 t0 ms st, reachable P o0 t0 ms st ->
  exists taken, ms = taken ++ sh_queue (ls_sh st).
Proof. exact c12_in_order. Qed.
Print Assumptions C12_in_order.

(** C12: a worker ends without error only when no mutant is waiting. *)
Theorem C12_ends_when_empty : forall P o0 t0 ms st, reachable P o0 t0 ms st ->
  In (WEnd true) (threads st) -> sh_queue (ls_sh st) = [].
Proof. exact c12_ends_empty. Qed.
Print Assumptions C12_ends_when_empty.

(** ** C10 *)

(** C10: every recorded outcome has the phases of the run in their order, without one
    left out; all succeeded, or the last one did not and the ones before it did. *)
Theorem C10_recorded : forall P o0 t0 ms st o, reachable P o0 t0 ms st ->
  In o (lo_outcomes (sh_lab (ls_sh st))) -> finished_run (phases (pa_check_only P)) (oc_results o).
Proof. intros P o0 t0 ms st o H. exact (c10_recorded P o0 t0 ms st H o). Qed.
Print Assumptions C10_recorded.

(** C13: the file changed for a mutant is the one its path leads to. *)
Theorem C13_file : forall m k, file_key m = k <-> leads [] (components (sf_path (mu_file m))) k.
Proof.
  intros m k. unfold file_key. change (@nil text) with (rev (@nil text)) at 2.
  generalize (@nil text) as here, (components (sf_path (mu_file m))) as cs. clear m. intros here cs. revert here.
  induction cs as [|c cs IH]; intro here; cbn [resolve].
  - split; [intros <-; constructor|intro H; inversion H; reflexivity].
  - destruct c as [| | |t].
    + rewrite IH. split; [intro H; constructor; exact H|intro H; inversion H; assumption].
    + rewrite IH. split; [intro H; constructor; exact H|intro H; inversion H; assumption].
    + rewrite IH. destruct here as [|h here]; cbn [tl rev].
      * split; [intro H; constructor; exact H|]. intro H. inversion H as [| |here' n cs' k' H1 E1|cs' k' H1| |]; subst; [|assumption].
        destruct here'; discriminate.
      * split; [intro H; constructor; exact H|]. intro H. inversion H as [| |here' n cs' k' H1 E1|cs' k' H1 E1| |]; subst.
        -- apply app_inj_tail in E1. destruct E1 as [-> _]. exact H1.
        -- destruct (rev here); discriminate.
    + rewrite (IH (t :: here)). cbn [rev]. split; [intro H; constructor; exact H|intro H; inversion H; assumption].
Qed.
Print Assumptions C13_file.
Example C13_case_file : resolve [] (components (tx "a/../src/./b.rs")) = [tx "src"; tx "b.rs"].
Proof. reflexivity. Qed.

(** ** C15 *)

(** C15: two scenarios under way at the same time are in different directories. *)
Theorem C15_own_directory : forall P o0 t0 ms st i j ci cj d s s', reachable P o0 t0 ms st ->
  nth_error (threads st) i = Some ci -> nth_error (threads st) j = Some cj ->
  active ci = Some (d, s) -> active cj = Some (d, s') -> i = j.
Proof. exact c15_distinct. Qed.
Print Assumptions C15_own_directory.

(** C15: at most min(jobs, mutants) at a time, at least one being allowed. *)
Theorem C15_at_most_jobs : forall P o0 t0 ms st, reachable P o0 t0 ms st ->
  active_count (threads st) <= Nat.max 1 (Nat.min (match pa_jobs P with Some j => j | None => 1 end) (length ms)).
Proof. exact c15_count. Qed.
Print Assumptions C15_at_most_jobs.

(** ** C13 *)

(** C13: when cargo runs for a mutant, the mutant's file is the mutated text and every
    other source file is as in the workspace (up to line endings, and a copy may lack
    ignored files); when it runs for the baseline all are. *)
Theorem C13_cargo_sees_one_mutant : forall P o0 t0 ms st d s done p todo,
  (forall m, In m ms -> loaded P m) -> first_tree P t0 -> options_ok P ->
  reachable P o0 t0 ms st -> In (WCargo d s done p todo) (threads st) ->
  match s with
  | Mutant m =>
      get_tree (ls_sh st) d (file_key m) = Some (mutant_code m)
      /\ forall k, pa_source P k = true -> k <> file_key m -> as_source P k (get_tree (ls_sh st) d k)
  | Baseline => forall k, pa_source P k = true -> as_source P k (get_tree (ls_sh st) d k)
  end.
Proof. intros P o0 t0 ms st d s done p todo H1 H2 H3. exact (c13_cargo P o0 t0 ms H1 H2 H3 st d s done p todo). Qed.
Print Assumptions C13_cargo_sees_one_mutant.

(** C13: before a mutant is applied, and from its revert (whatever the verdict) on, the
    source files are as in the workspace. *)
Theorem C13_back : forall P o0 t0 ms st c d,
  (forall m, In m ms -> loaded P m) -> first_tree P t0 -> options_ok P ->
  reachable P o0 t0 ms st -> (forall r, ls_main st <> MEnd r) -> In c (threads st) -> at_rest c d ->
  forall k, pa_source P k = true -> as_source P k (get_tree (ls_sh st) d k).
Proof. intros P o0 t0 ms st c d H1 H2 H3. exact (c13_rest P o0 t0 ms H1 H2 H3 st c d). Qed.
Print Assumptions C13_back.

(** C13: also after a phase returned an error, if the revert could write the file. *)
Theorem C13_back_after_error : forall P o0 t0 ms st i d m sh' c',
  (forall m, In m ms -> loaded P m) -> first_tree P t0 -> options_ok P ->
  reachable P o0 t0 ms st -> nth_error (threads st) i = Some (WRevertErr d (Mutant m)) ->
  wstep P i (ls_sh st) (WRevertErr d (Mutant m)) sh' c' ->
  get_tree sh' d (file_key m) = Some (sf_code (mu_file m)) ->
  forall k, pa_source P k = true -> as_source P k (get_tree sh' d k).
Proof. intros P o0 t0 ms st i d m sh' c' H1 H2 H3. exact (c13_reverterr P o0 t0 ms H1 H2 H3 st i d m sh' c'). Qed.
Print Assumptions C13_back_after_error.

(** C13: after a run without error all directories, so with --in-place the user's own
    tree, are as in the workspace at the start. *)
Theorem C13_back_at_end : forall P o0 t0 ms sh l ws d,
  (forall m, In m ms -> loaded P m) -> first_tree P t0 -> options_ok P ->
  reachable P o0 t0 ms (mkLS sh (MEnd (ROk l)) ws) -> d < length (sh_trees sh) ->
  forall k, pa_source P k = true -> as_source P k (get_tree sh d k).
Proof. intros P o0 t0 ms sh l ws d H1 H2 H3. exact (c13_end P o0 t0 ms H1 H2 H3 sh l ws d). Qed.
Print Assumptions C13_back_at_end.

(** C13: the same after a run that ended with an error or was interrupted, if no
    write to a source file failed half way. *)
Theorem C13_back_at_any_end : forall P o0 t0 ms sh r ws d,
  (forall m, In m ms -> loaded P m) -> first_tree P t0 -> options_ok P -> pa_write_faults P = false ->
  reachable P o0 t0 ms (mkLS sh (MEnd r) ws) -> d < length (sh_trees sh) ->
  forall k, pa_source P k = true -> as_source P k (get_tree sh d k).
Proof. intros P o0 t0 ms sh r ws d H1 H2 H3. exact (c13_any_end P o0 t0 ms H1 H2 H3 sh r ws d). Qed.
Print Assumptions C13_back_at_any_end.

(** C13: for a file with Unix line endings, and in place, this means byte for byte.
    Missing: files with CRLF line ends, see C13_crlf_refuted. *)
Theorem C13_exact_unix_partial : forall P k x, as_source P k x ->
  (forall c, pa_root P k = Some c -> without_crlf_cr c = c) -> pa_in_place P = true ->
  x = pa_root P k.
Proof.
  intros P k x H Hu Hi. destruct (as_source_unix _ _ _ Hu H) as [E|[E _]]; [exact E|congruence].
Qed.
Print Assumptions C13_exact_unix_partial.

(** A concrete run: two mutants of one file, two jobs. *)
Definition ex_code := tx "a + b - c".
Definition ex_file := mkSF (tx "p") (tx "src/a.rs") ex_code true.
Definition ex_plus := mkMutant ex_file None (mkSpan (mkLC 1 3) (mkLC 1 4)) (tx "*") BinaryOperator.
Definition ex_minus := mkMutant ex_file None (mkSpan (mkLC 1 7) (mkLC 1 8)) (tx "/") BinaryOperator.
Definition ex_ms := [ex_plus; ex_minus].
Definition ex_key := [tx "src"; tx "a.rs"].
Definition ex_other := [tx "src"; tx "b.rs"].
Definition ex_root (c : text) : tree :=
  fun k => if key_eqb k ex_key then Some c else if key_eqb k ex_other then Some (tx "B") else None.
Definition ex_P jobs in_place c := mkParams false jobs in_place false false false (ex_root c)
   (fun k => key_eqb k ex_key || key_eqb k ex_other) (fun l => show_nat (length (lo_outcomes l))).
Definition ex_out := fresh_dir (tx "L").
Definition ok i n : list (nat * option (exit_t * N)) := repeat (i, Some (ExSuccess, 1%N)) n.
Definition fails i : list (nat * option (exit_t * N)) := [(i, Some (ExFailure 101, 1%N))].
Definition ex_run P xs := match exec P 2 xs (start_state P ex_out (pa_root P) ex_ms) with
                          | Some st => st
                          | None => start_state P ex_out (pa_root P) ex_ms
                          end.

Lemma ex_reach : forall P xs, reachable P ex_out (pa_root P) ex_ms (ex_run P xs).
Proof.
  intros P xs. unfold ex_run. destruct (exec P 2 xs (start_state P ex_out (pa_root P) ex_ms)) eqn:E.
  - eapply exec_sound. exact E.
  - apply steps_refl.
Qed.

Definition ex_P2 := ex_P (Some 2) false ex_code.

(** Both workers are running cargo test, each in its own directory with its own mutant. *)
Definition ex_both := ok 0 13 ++ ok 0 7 ++ ok 1 8.
Example C13_case :
  map (fun c => match c with WCargo d (Mutant m) _ p _ =>
                  Some (d, p, get_tree (ls_sh (ex_run ex_P2 ex_both)) d ex_key, get_tree (ls_sh (ex_run ex_P2 ex_both)) d ex_other)
                | _ => None end)
      (threads (ex_run ex_P2 ex_both))
  = [Some (0, Test, Some (tx "a * /* ~ changed by cargo-mutants ~ */ b - c"), Some (tx "B"));
     Some (1, Test, Some (tx "a + b / /* ~ changed by cargo-mutants ~ */ c"), Some (tx "B"))]
  /\ (forall m, In m ex_ms -> loaded ex_P2 m) /\ first_tree ex_P2 (pa_root ex_P2) /\ options_ok ex_P2.
Proof.
  split; [vm_compute; reflexivity|]. split; [|split].
  - intros m [<-|[<-|[]]]; (split; [vm_compute; reflexivity|exists ex_code; split; vm_compute; reflexivity]).
  - intros k _. left. reflexivity.
  - intros H. discriminate.
Qed.

Example C15_case : active_count (threads (ex_run ex_P2 ex_both)) = 2.
Proof. vm_compute. reflexivity. Qed.

(** One mutant missed, the other caught, to the end. *)
Definition ex_whole := ex_both ++ ok 0 3 ++ fails 1 ++ ok 1 7 ++ ok 0 7 ++ ok 1 1 ++ ok 0 1.
Definition ex_end := ex_run ex_P2 ex_whole.
Example C12_case :
  (exists l, ls_main ex_end = MEnd (ROk l) /\ recorded l = [ex_minus; ex_plus] /\ lab_exit_code l = Some 2%Z)
  /\ threads ex_end = [WEnd true; WEnd true].
Proof. vm_compute. split; [eexists; repeat split|reflexivity]. Qed.

Example C10_case_lab :
  map (fun o => (is_mutant (oc_scenario o), map pr_phase (oc_results o), map (fun r => is_success (pr_status r)) (oc_results o)))
      (lo_outcomes (sh_lab (ls_sh ex_end)))
  = [(false, [Build; Test], [true; true]); (true, [Build; Test], [true; false]); (true, [Build; Test], [true; true])].
Proof. vm_compute. reflexivity. Qed.

Example C12_case_order :
  sh_queue (ls_sh (ex_run ex_P2 (ok 0 13 ++ ok 0 2))) = [ex_minus] /\ sh_queue (ls_sh ex_end) = [].
Proof. vm_compute. split; reflexivity. Qed.

(** Interrupted in the tests of both mutants: an error, and both copies are back. *)
Example C13_case_interrupted :
  let st := ex_run ex_P2 (ex_both ++ [(0, None); (1, None)] ++ ok 0 1 ++ ok 1 1 ++ ok 0 1) in
  ls_main st = MEnd RErr /\ pa_write_faults ex_P2 = false
  /\ map (fun t => t ex_key) (sh_trees (ls_sh st)) = [Some ex_code; Some ex_code].
Proof. vm_compute. repeat split. Qed.

(** C13 at the byte level fails for a file with CRLF line ends tested in place: after a
    run without errors the file has been rewritten with LF. *)
Theorem C13_crlf_refuted : exists P o0 ms sh l k,
  (forall m, In m ms -> loaded P m) /\ options_ok P /\ first_tree P (pa_root P) /\ pa_in_place P = true
  /\ reachable P o0 (pa_root P) ms (mkLS sh (MEnd (ROk l)) [WEnd true])
  /\ pa_source P k = true /\ get_tree sh 0 k <> pa_root P k.
Proof.
  set (c := tx "a + b - c" ++ [CR; NL]).
  set (m := mkMutant (mkSF (tx "p") (tx "src/a.rs") (tx "a + b - c" ++ [NL]) true) None
              (mkSpan (mkLC 1 3) (mkLC 1 4)) (tx "*") BinaryOperator).
  set (P := ex_P None true c).
  destruct (exec P 1 (ok 0 13 ++ ok 0 18) (start_state P ex_out (pa_root P) [m])) as [st|] eqn:E.
  2: { exfalso. revert E. vm_compute. discriminate. }
  assert (R : reachable P ex_out (pa_root P) [m] st) by (eapply exec_sound; exact E).
  assert (F : match st with
              | mkLS sh (MEnd (ROk l)) [WEnd true] => get_tree sh 0 ex_key = Some (tx "a + b - c" ++ [NL])
              | _ => False
              end).
  { revert E. vm_compute. intros E. injection E as <-. reflexivity. }
  destruct st as [sh [x| |[l| |]] [|[| | | | | | | | | | | | | | |[|]|] [|? ?]]]; try contradiction.
  exists P, ex_out, [m], sh, l, ex_key. split; [|split; [|split; [|split; [|split; [|split]]]]].
  - intros m' [<-|[]]. split; [vm_compute; reflexivity|]. exists c. split; vm_compute; reflexivity.
  - intros _. reflexivity.
  - reflexivity.
  - reflexivity.
  - exact R.
  - vm_compute. reflexivity.
  - rewrite F. vm_compute. discriminate.
Qed.
Print Assumptions C13_crlf_refuted.

(** ** C14 *)

(** C14: unless the baseline was skipped by option, a mutant scenario is under way or
    recorded only if a baseline is recorded in which every phase succeeded. *)
Theorem C14_only_after_baseline : forall P o0 t0 ms st, reachable P o0 t0 ms st -> pa_skip_baseline P = false ->
  (exists c d m, In c (threads st) /\ active c = Some (d, Mutant m)) \/ recorded (sh_lab (ls_sh st)) <> [] ->
  exists o, In o (lo_outcomes (sh_lab (ls_sh st))) /\ baseline_passed P o.
Proof. exact c14_after. Qed.
Print Assumptions C14_only_after_baseline.

(** C14: if a baseline that did not succeed is recorded, no mutant is or will be under
    way or recorded, and the run ends with exit code 4 (or an error). *)
Theorem C14_failed_baseline : forall P o0 t0 ms st o, reachable P o0 t0 ms st ->
  In o (lo_outcomes (sh_lab (ls_sh st))) -> oc_scenario o = Baseline -> oc_success o <> Some true ->
  recorded (sh_lab (ls_sh st)) = [] /\ sh_queue (ls_sh st) = ms
  /\ (forall c d m, In c (threads st) -> active c <> Some (d, Mutant m))
  /\ (forall r, ls_main st = MEnd r -> process_exit r = Some 4%Z \/ r = RErr \/ r = RPanic).
Proof. exact c14_failed. Qed.
Print Assumptions C14_failed_baseline.

Definition ex_bad := ex_run ex_P2 (ok 0 5 ++ fails 0 ++ ok 0 6).
Example C14_case :
  (exists l o, ls_main ex_bad = MEnd (ROk l) /\ lo_outcomes l = [o] /\ oc_scenario o = Baseline
     /\ oc_success o = Some false /\ process_exit (ROk l) = Some 4%Z)
  /\ sh_queue (ls_sh ex_bad) = ex_ms.
Proof. vm_compute. split; [do 2 eexists; repeat split|reflexivity]. Qed.

(** ** C43 *)

(** C43: once a worker has failed, however the rest of the run goes, it ends with exit
    code 1 (an error). *)
Theorem C43_failed_worker : forall P o0 t0 ms st st' i r,
  (forall m, In m ms -> mutant_name true m <> None) ->
  reachable P o0 t0 ms st -> ls_main st = MWork -> nth_error (ls_workers st) i = Some (WEnd false) ->
  steps P (length ms) st st' -> ls_main st' = MEnd r -> process_exit r = Some 1%Z.
Proof. intros P o0 t0 ms st st' i r Hn. exact (c43_failed P o0 t0 ms Hn st st' i r). Qed.
Print Assumptions C43_failed_worker.

(** C43: the same for an internal error in the baseline. *)
Theorem C43_failed_baseline : forall P o0 t0 ms st st' r, reachable P o0 t0 ms st ->
  ls_main st = MBaseline (WEnd false) -> steps P (length ms) st st' -> ls_main st' = MEnd r ->
  process_exit r = Some 1%Z.
Proof. exact c43_baseline. Qed.
Print Assumptions C43_failed_baseline.

(** C43: a worker that has noticed an interrupt (or other internal error while running
    cargo) only reverts its mutant and ends. *)
Theorem C43_interrupted_worker_stops : forall P k st st' i d s, steps P k st st' -> ls_main st = MWork ->
  nth_error (ls_workers st) i = Some (WRevertErr d s) ->
  nth_error (ls_workers st') i = Some (WRevertErr d s) \/ nth_error (ls_workers st') i = Some (WEnd false).
Proof. intros P k st st' i d s H. exact (interrupt_stays P k st st' H i d s). Qed.
Print Assumptions C43_interrupted_worker_stops.

(** C43: conversely an error result comes from a thread that failed. *)
Theorem C43_error_has_cause : forall P o0 t0 ms sh ws, reachable P o0 t0 ms (mkLS sh (MEnd RErr) ws) ->
  In (WEnd false) ws \/ reachable P o0 t0 ms (mkLS sh (MBaseline (WEnd false)) []).
Proof. exact c43_only. Qed.
Print Assumptions C43_error_has_cause.

(** Worker 0 is interrupted in cargo test; worker 1 goes on, finding its test to fail. *)
Definition ex_int := ex_run ex_P2 (ex_both ++ [(0, None)] ++ ok 0 1 ++ fails 1 ++ ok 1 8 ++ ok 0 1).
Example C43_case :
  (ls_main ex_int, ls_workers ex_int) = (MEnd RErr, [WEnd false; WEnd true])
  /\ recorded (sh_lab (ls_sh ex_int)) = [ex_minus] /\ get_tree (ls_sh ex_int) 0 ex_key = Some ex_code
  /\ process_exit RErr = Some 1%Z.
Proof. vm_compute. repeat split. Qed.

(** ** C11 *)

(** C11: at every moment (if writes to mutants.out do not fail) the four lists hold
    exactly the names of the mutants recorded so far, one per line in order, except
    that the one being recorded at the moment may be missing, or lack its newline.
    Missing: runs in which a write to mutants.out fails. *)
Theorem C11_lists_partial : forall P o0 t0 ms st,
  (forall m, In m ms -> mutant_name true m <> None) -> pa_faults P = false -> lists_exact o0 [] ->
  reachable P o0 t0 ms st ->
  exists os last,
    lo_outcomes (sh_lab (ls_sh st)) = os ++ last
    /\ (   (last = [] /\ lists_exact (sh_out (ls_sh st)) (verdicts os)
            /\ (os <> [] -> dget (sh_out (ls_sh st)) (tx "outcomes.json") = Some (NFile (pa_json P (sh_lab (ls_sh st))))))
        \/ (exists o c, last = [o] /\ In c (threads st) /\ recording c = Some o
            /\ (lists_exact (sh_out (ls_sh st)) (verdicts os)
                \/ exists m v, verdicts [o] = [(m, v)] /\ lists_half (sh_out (ls_sh st)) (verdicts os) m v))).
Proof.
  intros P o0 t0 ms st H1 H2 H3 H. destruct (c11_all P o0 t0 ms H1 H2 H3 st H) as (os & last & E & C).
  exists os, last. split; [exact E|]. destruct C as [C|(o & c & C1 & C2 & C3 & C4 & C5)]; [left; exact C|].
  right. exists o, c. repeat split; auto. apply recording_spec; assumption.
Qed.
Print Assumptions C11_lists_partial.

(** C11: when the run has ended they are complete, and outcomes.json is.
    Missing: runs in which a write to mutants.out fails. *)
Theorem C11_lists_at_end_partial : forall P o0 t0 ms sh r ws,
  (forall m, In m ms -> mutant_name true m <> None) -> pa_faults P = false -> lists_exact o0 [] ->
  reachable P o0 t0 ms (mkLS sh (MEnd r) ws) ->
  lists_exact (sh_out sh) (verdicts (lo_outcomes (sh_lab sh)))
  /\ (lo_outcomes (sh_lab sh) <> [] -> dget (sh_out sh) (tx "outcomes.json") = Some (NFile (pa_json P (sh_lab sh)))).
Proof. intros P o0 t0 ms sh r ws H1 H2 H3. exact (c11_end P o0 t0 ms H1 H2 H3 sh r ws). Qed.
Print Assumptions C11_lists_at_end_partial.

(** C11 when writes to mutants.out may fail, at any moment of any schedule: each list is made of beginnings of the lines
    of the mutants recorded, in order, and of those no more are cut short than there are threads that have ended with an
    error; the outcome being recorded at the moment may be missing, or lack its newline. *)
Theorem C11_failing_writes : forall P o0 t0 ms st,
  (forall m, In m ms -> mutant_name true m <> None) -> lists_exact o0 [] -> reachable P o0 t0 ms st ->
  exists os last ps,
    lo_outcomes (sh_lab (ls_sh st)) = os ++ last /\ map fst ps = verdicts os /\ Forall begun ps
    /\ torn_count ps <= length (filter failed (threads st))
    /\ ((last = [] /\ lists_hold (sh_out (ls_sh st)) ps)
        \/ (exists o c, last = [o] /\ In c (threads st) /\ recording c = Some o
            /\ (lists_hold (sh_out (ls_sh st)) ps
                \/ exists m v n, verdicts [o] = [(m, v)] /\ mutant_name true m = Some n
                     /\ lists_hold (sh_out (ls_sh st)) (ps ++ [((m, v), n)])))).
Proof. intros P o0 t0 ms st H1 H2 H. exact (c11_pieces P o0 t0 ms H1 H2 st H). Qed.
Print Assumptions C11_failing_writes.

(** C11: so a run that ends without an error has exact lists, whether or not writes could fail. *)
Theorem C11_exact_if_ok : forall P o0 t0 ms sh l ws,
  (forall m, In m ms -> mutant_name true m <> None) -> lists_exact o0 [] ->
  reachable P o0 t0 ms (mkLS sh (MEnd (ROk l)) ws) ->
  l = sh_lab sh /\ lists_exact (sh_out sh) (verdicts (lo_outcomes l)).
Proof.
  intros P o0 t0 ms sh l ws H1 H2 H. destruct (c12_ok P o0 t0 ms _ _ _ H) as [-> _]. split; [reflexivity|].
  destruct (c11_pieces P o0 t0 ms H1 H2 _ H) as (os & last & ps & E & A & B & T & D). unfold threads in *. cbn [ls_main ls_sh ls_workers] in *.
  assert (F : (forall c, In c ws -> failed c = false) /\ (forall c, In c ws -> recording c = None)).
  { destruct (end_inv _ _ _ _ _ _ _ H) as [(d & o & _ & _ & _ & ->)|[(_ & X & _)|[(_ & X & _)|(_ & H3 & H4)]]]; try discriminate; [split; intros c []|].
    symmetry in H4. apply join_ok in H4. destruct H4 as [_ Nb]. rewrite forallb_forall in H3. split; intros c Hc.
    - destruct (failed c) eqn:Fc; [|reflexivity]. enough (existsb bad ws = true) by congruence. apply existsb_exists. exists c. split; [exact Hc|]. destruct c as [| | | | | | | | | | | | | | |[|]|]; try discriminate; reflexivity.
    - specialize (H3 c Hc). destruct c; try discriminate; reflexivity. }
  destruct F as [F1 F2]. destruct D as [[-> Hl]|(o & c & _ & Hc & R & _)]; [|rewrite (F2 c Hc) in R; discriminate].
  rewrite app_nil_r in E. rewrite E. eapply hold_exact; eauto. eapply torn_none; eassumption.
Qed.
Print Assumptions C11_exact_if_ok.

(** C11 refuted when writes may fail: after a newline could not be written the next name goes on the same line, so that a
    line of the list is no mutant's name. *)
Definition ex_PF := mkParams false (Some 2) false false true false (ex_root ex_code) (pa_source ex_P2) (pa_json ex_P2).
Definition ex_torn := ex_run ex_PF (ex_both ++ ok 1 7).
Theorem C11_joined_lines_refuted : exists P o0 t0 ms sh ws t x,
  (forall m, In m ms -> mutant_name true m <> None) /\ lists_exact o0 [] /\ reachable P o0 t0 ms (mkLS sh (MEnd RErr) ws)
  /\ dget (sh_out sh) (tx "missed.txt") = Some (NFile t) /\ lines t = [x] /\ ~ In (Some x) (map (mutant_name true) ms).
Proof.
  exists ex_PF, ex_out, (pa_root ex_PF), ex_ms.
  assert (R : reachable ex_PF ex_out (pa_root ex_PF) ex_ms ex_torn) by apply ex_reach.
  assert (E : exists sh c0 o, ex_torn = mkLS sh MWork [c0; WNewline 1 o]).
  { vm_compute. do 3 eexists. reflexivity. }
  destruct E as (sh & c0 & o & E). rewrite E in R.
  assert (R1 : reachable ex_PF ex_out (pa_root ex_PF) ex_ms (mkLS (set_out sh (sh_out sh) None) MWork [c0; WEnd false])).
  { eapply steps_more; [exact R|]. change [c0; WEnd false] with (list_set [c0; WNewline 1 o] 1 (WEnd false)).
    eapply st_worker; [reflexivity|]. apply ws_scenario. apply ss_newline_err. reflexivity. }
  destruct (exec ex_PF 2 (ok 0 11) (mkLS (set_out sh (sh_out sh) None) MWork [c0; WEnd false])) as [st|] eqn:X.
  - assert (S : steps ex_PF (length ex_ms) (mkLS (set_out sh (sh_out sh) None) MWork [c0; WEnd false]) st) by (eapply exec_steps; exact X).
    pose proof (reach_steps _ _ _ _ _ _ R1 S) as R2. clear R R1 S.
    assert (F : exists sh2 ws, st = mkLS sh2 (MEnd RErr) ws /\ dget (sh_out sh2) (tx "missed.txt")
              = Some (NFile (tx "src/a.rs:1:7: replace - with /src/a.rs:1:3: replace + with *" ++ [NL]))).
    { revert X. vm_compute in E. injection E as <- <- <-. intro X. vm_compute in X. injection X as <-. do 2 eexists. split; [reflexivity|]. vm_compute. reflexivity. }
    destruct F as (sh2 & ws & -> & D). exists sh2, ws. do 2 eexists.
    split; [intros m [<-|[<-|[]]]; discriminate|]. split; [intros f v [H|[H|[H|[H|[]]]]]; injection H as <- <-; reflexivity|].
    split; [exact R2|]. split; [exact D|]. split; [vm_compute; reflexivity|]. vm_compute. intuition discriminate.
  - exfalso. vm_compute in E. injection E as <- <- <-. vm_compute in X. discriminate.
Qed.
Print Assumptions C11_joined_lines_refuted.

(** The schedule of C12_case in a run in which writes may fail: none does, it ends well, and the lists are exact. *)
Example C11_case_writes : pa_faults ex_PF = true /\ reachable ex_PF ex_out (pa_root ex_PF) ex_ms (ex_run ex_PF ex_whole)
  /\ (exists l, ls_main (ex_run ex_PF ex_whole) = MEnd (ROk l) /\ lab_exit_code l = Some 2%Z)
  /\ map (fun f => dget (sh_out (ls_sh (ex_run ex_PF ex_whole))) f) [tx "caught.txt"; tx "missed.txt"]
     = [Some (NFile (tx "src/a.rs:1:7: replace - with /" ++ [NL])); Some (NFile (tx "src/a.rs:1:3: replace + with *" ++ [NL]))].
Proof. split; [reflexivity|]. split; [apply ex_reach|]. vm_compute. split; [eexists; split; reflexivity|reflexivity]. Qed.

(** C11: from the time an outcome is recorded until its line is written, nothing else happens to the output directory:
    if a step changes what it holds while a thread is writing, then it is a step of that thread. *)
Theorem C11_exclusive : forall P o0 t0 ms st st' j c, reachable P o0 t0 ms st -> step P (length ms) st st' ->
  output_of (ls_sh st') <> output_of (ls_sh st) -> nth_error (threads st) j = Some c -> writing c ->
  exists c', c' <> c /\ nth_error (threads st') j = Some c'.
Proof. intros P o0 t0 ms st st' j c. exact (exclusive P o0 t0 ms st st' j c). Qed.
Print Assumptions C11_exclusive.

(** C11: with no mutant listed twice, no mutant has two verdicts, so none is in two
    lists. *)
Theorem C11_one_list : forall P o0 t0 ms st m v v', NoDup ms -> reachable P o0 t0 ms st ->
  In (m, v) (verdicts (lo_outcomes (sh_lab (ls_sh st)))) ->
  In (m, v') (verdicts (lo_outcomes (sh_lab (ls_sh st)))) -> v = v'.
Proof.
  intros P o0 t0 ms st m v v' Hn H Hv Hv'. destruct (c12_accounted _ _ _ _ _ H) as (lost & HP & _).
  apply Permutation_sym in HP. apply (Permutation_NoDup HP) in Hn. apply NoDup_app_r, NoDup_app_r in Hn.
  unfold recorded in Hn. apply verdicts_in in Hv, Hv'. destruct Hv as (o & Ho & E1 & E2), Hv' as (o' & Ho' & E1' & E2').
  revert Hn Ho Ho'. generalize (lo_outcomes (sh_lab (ls_sh st))) as os. clear HP H. intros os Hn Ho Ho'.
  enough (o = o') by congruence.
  induction os as [|x os IH]; [destruct Ho|]. cbn [flat_map] in Hn. rewrite <- app_assoc in Hn.
  assert (Hx : forall y, In y os -> oc_scenario y = Mutant m -> oc_scenario x <> Mutant m).
  { intros y Hy Ey Ex. rewrite Ex in Hn. simpl in Hn. inversion Hn as [|? ? Hni ?]; subst. apply Hni. apply in_or_app. left.
    apply in_flat_map. exists y. rewrite Ey. simpl. auto. }
  destruct Ho as [->|Ho], Ho' as [->|Ho']; auto.
  - exfalso. apply (Hx o' Ho'); assumption.
  - exfalso. apply (Hx o Ho); assumption.
  - apply IH; auto. apply NoDup_app_r in Hn. exact Hn.
Qed.
Print Assumptions C11_one_list.

(** Thread 0 is writing and thread 1 runs cargo test: its end changes nothing in the output directory, the next step of
    thread 0 does. *)
Example C11_case_exclusive :
  let st := ex_run ex_P2 (ex_both ++ ok 0 4) in
  (match threads st with [WJson 0 _; WCargo 1 _ _ _ _] => True | _ => False end)
  /\ output_of (ls_sh (ex_run ex_P2 (ex_both ++ ok 0 4 ++ fails 1))) = output_of (ls_sh st)
  /\ dget (sh_out (ls_sh st)) (tx "outcomes.json") <> dget (sh_out (ls_sh (ex_run ex_P2 (ex_both ++ ok 0 5)))) (tx "outcomes.json").
Proof. vm_compute. repeat split; discriminate. Qed.

Example C11_case :
  lists_exact ex_out [] /\ (forall m, In m ex_ms -> mutant_name true m <> None)
  /\ map (fun f => dget (sh_out (ls_sh ex_end)) f) [tx "caught.txt"; tx "missed.txt"; tx "timeout.txt"; tx "outcomes.json"]
     = [Some (NFile (tx "src/a.rs:1:7: replace - with /" ++ [NL])); Some (NFile (tx "src/a.rs:1:3: replace + with *" ++ [NL]));
        Some (NFile []); Some (NFile (tx "3"))].
Proof.
  split; [|split].
  - intros f v H. repeat (destruct H as [E|H]; [injection E as <- <-; vm_compute; reflexivity|]). destruct H.
  - intros m [<-|[<-|[]]]; vm_compute; discriminate.
  - vm_compute. reflexivity.
Qed.

(** ** C49 *)

(** C49: if the process dies at any point, every line of each list is the name of a
    mutant that finished with that verdict; and the name of every recorded mutant is
    there, except possibly the one being recorded at the time.
    Missing: failed writes, names with a line break, and a crash during the set-up (C49_rotation_window_refuted). *)
Theorem C49_any_crash_point_partial : forall P o0 t0 ms st f v,
  (forall m, In m ms -> mutant_name true m <> None) -> pa_faults P = false -> lists_exact o0 [] ->
  (forall m n, In m ms -> mutant_name true m = Some n -> one_line n) ->
  reachable P o0 t0 ms st -> In (f, v) lists ->
  (forall n, In n (list_lines (sh_out (ls_sh st)) f) ->
     exists o m, In o (lo_outcomes (sh_lab (ls_sh st))) /\ oc_scenario o = Mutant m /\ summary o = Some v
                 /\ mutant_name true m = Some n)
  /\ (forall o m n, In o (lo_outcomes (sh_lab (ls_sh st))) -> oc_scenario o = Mutant m -> summary o = Some v ->
        mutant_name true m = Some n ->
        In n (list_lines (sh_out (ls_sh st)) f) \/ exists c, In c (threads st) /\ recording c = Some o).
Proof.
  intros P o0 t0 ms st f v H1 H2 H3 H4 H Hf. destruct (c49_lab P o0 t0 ms H1 H2 H3 H4 st f v H Hf) as [A B].
  split; [exact A|]. intros o m n Ho Es Ev En. destruct (B o m n Ho Es Ev En) as [C|(c & C1 & C2 & C3)]; [auto|].
  right. exists c. split; [exact C1|]. apply recording_spec; assumption.
Qed.
Print Assumptions C49_any_crash_point_partial.

(** Killed between the name and the newline: the line is there. *)
Definition ex_kill := ex_run ex_P2 (ex_both ++ fails 1 ++ ok 1 5).
Example C49_case_lab :
  (exists d o, nth_error (threads ex_kill) 1 = Some (WNewline d o))
  /\ list_lines (sh_out (ls_sh ex_kill)) (tx "caught.txt") = [tx "src/a.rs:1:7: replace - with /"].
Proof. vm_compute. split; [do 2 eexists; reflexivity|reflexivity]. Qed.

(** ** C16 *)

(** C16: under every schedule, a scenario that starts gets a log file that does not
    exist yet. *)
Theorem C16_new_log_under_any_schedule : forall P o0 t0 ms st c d s u nm, reachable P o0 t0 ms st ->
  (forall r, ls_main st <> MEnd r) -> In c (threads st) -> c = WStart d s ->
  start_name (sh_used (ls_sh st)) s = (u, nm) -> ~ In nm (sh_logs (ls_sh st)).
Proof. exact c16_reach. Qed.
Print Assumptions C16_new_log_under_any_schedule.

Example C16_case_lab : sh_logs (ls_sh ex_end) = [tx "baseline"; tx "src__a.rs_line_1_col_3"; tx "src__a.rs_line_1_col_7"].
Proof. vm_compute. reflexivity. Qed.
