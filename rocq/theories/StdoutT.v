(** Theorems: what a whole run of the lab prints to standard output (C80). *)
From Coq Require Import String List NArith ZArith Bool Arith Lia Permutation.
From Verif Require Import Text Utf8M SpanM PathM MutantM MutantP ProcessM OutcomeM OutcomeS OutcomeP OutcomeT OutputM OutputS OutputP IterateM OptionsM PackageM CargoM LabM LabS LabP LabT ConsoleM ConsoleP ConsoleT MainM PrintM PrintS PrintP
  PrintT TimeoutM F32M TimesM TimesS TimesP OptionsT WholeM WholeP WholeT LaunchM LaunchS EndM GoesP MainP RoundP FilesM FilesS FilesP StdoutM StdoutS StdoutP.
Import ListNotations.
Open Scope list_scope.
Open Scope nat_scope.

(** C80: at any time the first line has been printed, then the messages about the scenarios that have ended, in the order in which they have, and nothing else before the end
    without an error. *)
Theorem C80_so_far : forall P po on log o0 t0 ms x t, prints P po on log o0 t0 ms x t ->
  exists b rest, printed secs_text on po (map (fun o => (o, log o)) (x_finished x)) = Some b
    /\ t = first_line (length ms) ++ [NL] ++ b ++ rest /\ ((forall l, ls_main (x_lab x) <> MEnd (ROk l)) -> rest = []).
Proof.
  intros P po on log o0 t0 ms x t H. destruct (prints_form _ _ _ _ _ _ _ _ _ H) as (b & sm & B & -> & C). exists b, sm. split; [exact B|].
  split; [rewrite found_first, <- app_assoc; reflexivity|]. intro N. unfold closing in C. destruct (ls_main (x_lab x)) as [| |[l| |]]; try exact C. exfalso. exact (N l eq_refl).
Qed.
Print Assumptions C80_so_far.

(** C80: every run of the lab prints such a text, unless a log that it has to show cannot be read. *)
Theorem C80_every_run : forall P po on log o0 t0 ms x, xreachable P (po_caught po) (po_unviable po) (po_all_logs po) true o0 t0 ms x ->
  (forall o, In o (x_finished x) -> outcome_message secs_text on po o (log o) <> None) -> exists t, prints P po on log o0 t0 ms x t.
Proof. exact prints_every. Qed.
Print Assumptions C80_every_run.

(** C80: the text at the end of a run without an error.  After a baseline that failed it is the first line and the message about the baseline, with its log.
    Otherwise it is the first line, the messages about all recorded outcomes, once each, and a last line with the number of mutants, which is the one of the first line,
    and how many of them had each verdict. *)
Theorem C80_end : forall P po log o0 t0 ms x l t, ms <> [] -> prints P po false (fun o => Some (fst (log o))) o0 t0 ms x t -> ls_main (x_lab x) = MEnd (ROk l) ->
  (forall m, In m ms -> mutant_name true m <> None) ->
  (forall o v, In o (lo_outcomes l) -> summary o = Some v -> reported po (oc_scenario o) v = true -> with_log po (oc_scenario o) v = true ->
     from_utf8 (fst (log o)) = Some (snd (log o))) ->
  let say := said secs_text po (fun o => snd (log o)) in
  Permutation (lo_outcomes l) (x_finished x)
  /\ ((exists o, x_finished x = [o] /\ oc_scenario o = Baseline /\ oc_success o = Some false /\ t = first_line (length ms) ++ [NL] ++ say o)
      \/ (exists elapsed, let rs := verdicts (lo_outcomes l) in Permutation (map fst rs) ms
          /\ t = first_line (length ms) ++ [NL] ++ flat_map say (x_finished x)
                 ++ last_line (if po_times po then Some elapsed else None) (length ms) (how_often SumMissed rs) (how_often SumCaught rs)
                      (how_often SumUnviable rs) (how_often SumTimeout rs) (how_often SumSuccess rs) ++ [NL])).
Proof.
  intros P po log o0 t0 ms x l t NE H E N L say. pose proof (prints_reach _ _ _ _ _ _ _ _ _ H) as R. pose proof (xinv _ _ _ _ _ _ _ _ R) as [Rb _].
  destruct (prints_form _ _ _ _ _ _ _ _ _ H) as (b & sm & B & -> & C). destruct (C40_final_partial _ _ _ _ _ _ _ _ _ R E) as [Pm _].
  destruct po as [pc pu tm al]. cbn [po_caught po_unviable po_all_logs po_times] in *.
  assert (Nm : forall o, In o (lo_outcomes l) -> scenario_name (oc_scenario o) <> None).
  { intros o Io. destruct (oc_scenario o) as [|m] eqn:Es; [discriminate|]. cbn [scenario_name]. apply N.
    destruct (x_lab x) as [sh mn ws]. cbn [ls_main] in E. subst mn. destruct (totals_end _ _ _ _ _ _ _ Rb) as [El _].
    destruct (c12_accounted _ _ _ _ _ Rb) as (lost & HP & _). eapply Permutation_in; [exact HP|]. rewrite !in_app_iff. right; right; left. cbn [ls_sh]. rewrite <- El.
    unfold recorded. apply in_flat_map. exists o. rewrite Es. split; [exact Io|left; reflexivity]. }
  destruct (C56_run_partial P pc pu al o0 t0 ms x l secs_text tm log R E Nm L) as (b' & B' & Eb & _).
  assert (b = b') by (cbv beta in B; rewrite B' in B; congruence). subst b'. subst b. split; [exact Pm|]. unfold closing in C. rewrite E in C.
  destruct (x_lab x) as [sh mn ws] eqn:El. cbn [ls_main ls_workers] in *. subst mn. rewrite found_first, <- app_assoc.
  destruct (end_cases _ _ _ _ _ _ _ NE Rb) as [(-> & o & Eo & Es & F)|(Nw & Pr)].
  - left. exists o. subst sm. rewrite Eo in Pm. apply Permutation_length_1_inv in Pm. rewrite Pm. cbn [flat_map]. rewrite !app_nil_r. auto.
  - right. destruct ws as [|c ws]; [contradiction|]. destruct C as [el ->]. exists el. cbv zeta. pose proof (results_end _ _ _ _ _ _ _ Rb) as RE.
    destruct (totals_end _ _ _ _ _ _ _ Rb) as [_ Tot]. pose proof (recorded_verdicts l RE) as RV. rewrite <- RV in Pr. split; [exact Pr|].
    destruct (C08_counts_partition _ _ RE) as (l' & A & _ & K1 & K2 & K3 & K4 & K5 & K6 & _). rewrite Tot in A. injection A as <-.
    rewrite summary_last, K1, K2, K3, K4, K5, K6, total_verdicts, !counts_verdicts by exact RE.
    replace (length (verdicts (lo_outcomes l))) with (length ms); [reflexivity|].
    apply Permutation_length in Pr. rewrite map_length in Pr. symmetry. exact Pr.
Qed.
Print Assumptions C80_end.

(** C80: if times and logs are not shown, names are on one line and mutants were tested, the lines are the first, one for each mutant that is reported and one for the baseline, and the last; and for
    each verdict that is reported the names in these lines are those in the list of that verdict in mutants.out. *)
Theorem C80_lists : forall P po (log : outcome mutant -> list byte * text) o0 t0 ms x l t f v n, prints P po false (fun o => Some (fst (log o))) o0 t0 ms x t -> ls_main (x_lab x) = MEnd (ROk l) ->
  (forall m, In m ms -> exists k, mutant_name true m = Some k /\ one_line k) -> po_times po = false -> po_all_logs po = false -> recorded l <> [] ->
  lists_exact o0 [] -> In (f, v) lists -> (v = SumCaught -> po_caught po = true) -> (v = SumUnviable -> po_unviable po = true) ->
  (In (column v ++ tx " " ++ n) (lines t) <-> exists c, dget (sh_out (ls_sh (x_lab x))) f = Some (NFile c) /\ In n (lines c)).
Proof.
  intros P po log o0 t0 ms x l t f v n H E N Tm Al Rc L0 Hf V1 V2. pose proof (prints_reach _ _ _ _ _ _ _ _ _ H) as R. pose proof (xinv _ _ _ _ _ _ _ _ R) as [Rb _].
  assert (Nn : forall m, In m ms -> mutant_name true m <> None) by (intros m Hm; destruct (N m Hm) as (k & K & _); congruence).
  assert (Sub : forall m, In m (recorded l) -> In m ms).
  { intros m Im. destruct (x_lab x) as [sh mn ws]. cbn [ls_main] in E. subst mn. destruct (totals_end _ _ _ _ _ _ _ Rb) as [El _].
    destruct (c12_accounted _ _ _ _ _ Rb) as (lost & HP & _). eapply Permutation_in; [exact HP|]. rewrite !in_app_iff. right; right; left. cbn [ls_sh]. rewrite <- El. exact Im. }
  assert (NE : ms <> []). { intros ->. destruct (recorded l) as [|m r]; [contradiction|]. exact (Sub m (or_introl eq_refl)). }
  destruct (x_lab x) as [sh mn ws] eqn:El. cbn [ls_main ls_sh] in *. subst mn. destruct (totals_end _ _ _ _ _ _ _ Rb) as [Sl _].
  assert (BS : forall o, In o (lo_outcomes l) -> oc_scenario o = Baseline -> summary o = Some SumSuccess).
  { intros o Io Es. assert (Su : oc_success o = Some true).
    { destruct (oc_success o) as [[|]|] eqn:Su; [reflexivity| |]; exfalso; apply Rc; rewrite Sl;
        apply (C14_failed_baseline _ _ _ _ _ o Rb); cbn [ls_sh]; try (rewrite <- Sl; exact Io); try exact Es; rewrite Su; discriminate. }
    assert (Fo : finished_run (phases (pa_check_only P)) (oc_results o)).
    { apply (c10_recorded _ _ _ _ _ Rb). cbn [ls_sh]. rewrite <- Sl. exact Io. }
    destruct (finished_parts _ _ Fo) as (pre & r & Er & S). destruct o as [s rs]. cbn [oc_results oc_scenario] in *. subst s rs.
    unfold summary. cbn [oc_scenario]. rewrite Su. rewrite (timeout_last Baseline) by exact S.
    unfold oc_success in Su. rewrite last_result_app in Su. destruct (pr_status r); try discriminate Su. reflexivity. }
  destruct (C80_end P po log o0 t0 ms x l t NE H) as (Pm & D).
  { rewrite El. reflexivity. }
  { exact Nn. }
  { intros o w Io Ev Rp W. exfalso. destruct (oc_scenario o) as [|m] eqn:Es; cbn [with_log] in W.
    - rewrite (BS o Io Es) in Ev. injection Ev as <-. cbn in W. congruence.
    - destruct w; congruence. }
  destruct D as [(o & Fi & Es & F & _)|(el & Pr & Et)].
  { exfalso. assert (Io : In o (lo_outcomes l)) by (eapply Permutation_in; [apply Permutation_sym; exact Pm|rewrite Fi; left; reflexivity]).
    pose proof (BS o Io Es) as X. unfold summary in X. rewrite Es, F in X. destruct (has_timeout o); discriminate. }
  rewrite Tm in Et. rewrite said_lines in Et; [|exact Tm|exact Al|intros o Io; apply BS; eapply Permutation_in; [apply Permutation_sym; exact Pm|exact Io]].
  assert (One : forall m w k, In (m, w) (verdicts (lo_outcomes l)) -> mutant_name true m = Some k -> one_line k).
  { intros m w k I K. destruct (N m) as (k' & K' & O).
    - eapply Permutation_in; [exact Pr|]. apply in_map_iff. exists (m, w). auto.
    - congruence. }
  assert (Lt : lines t = first_line (length ms) :: flat_map (line_of po) (x_finished x) ++
    [last_line None (length ms) (how_often SumMissed (verdicts (lo_outcomes l))) (how_often SumCaught (verdicts (lo_outcomes l)))
       (how_often SumUnviable (verdicts (lo_outcomes l))) (how_often SumTimeout (verdicts (lo_outcomes l))) (how_often SumSuccess (verdicts (lo_outcomes l)))]).
  { rewrite Et. erewrite <- lines_of_names; [|constructor; [apply flat_one, flat_first|apply Forall_app; split; [|constructor; [apply flat_one, flat_last|constructor]]]].
    - unfold previously_text. cbn [flat_map]. rewrite flat_map_app. cbn [flat_map]. rewrite <- !app_assoc, ?app_nil_r. reflexivity.
    - apply Forall_forall. intros z Hz. apply in_flat_map in Hz as (o & Io & Hz). unfold line_of in Hz. destruct (summary o) as [w|] eqn:Ev; [|destruct Hz].
      destruct (scenario_name (oc_scenario o)) as [k|] eqn:Ek; [|destruct Hz]. destruct (reported po (oc_scenario o) w); [|destruct Hz]. destruct Hz as [<-|[]].
      assert (O : one_line k).
      { destruct (oc_scenario o) as [|m] eqn:Es; [injection Ek as <-; apply flat_one, flat_tx; reflexivity|]. apply (One m w); [|exact Ek].
        apply verdicts_in. exists o. split; [eapply Permutation_in; [apply Permutation_sym; exact Pm|exact Io]|auto]. }
      apply one_after; [destruct w; apply flat_tx; reflexivity|apply one_after; [apply flat_tx; reflexivity|exact O]]. }
  rewrite Lt. destruct (C11_exact_if_ok _ _ _ _ _ _ _ Nn L0 Rb) as [_ LE]. pose proof (LE _ _ Hf) as Gf.
  assert (Rep : forall m, reported po (Mutant m) v = true) by (intro m; destruct v; try reflexivity; auto).
  split.
  - intro I. destruct I as [I|I]; [exfalso; symmetry in I; revert I; apply column_first|]. apply in_app_or in I as [I|[I|[]]]; [|exfalso; symmetry in I; revert I; apply column_last].
    apply in_flat_map in I as (o & Io & Hz). unfold line_of in Hz. destruct (summary o) as [w|] eqn:Ev; [|destruct Hz].
    destruct (scenario_name (oc_scenario o)) as [k|] eqn:Ek; [|destruct Hz]. destruct (reported po (oc_scenario o) w); [|destruct Hz]. destruct Hz as [Hz|[]].
    apply column_inj in Hz as [-> ->]. eexists. split; [exact Gf|]. apply list_lines_in; [exact One|].
    assert (Io' : In o (lo_outcomes l)) by (eapply Permutation_in; [apply Permutation_sym; exact Pm|exact Io]).
    destruct (oc_scenario o) as [|m] eqn:Es.
    + exfalso. rewrite (BS o Io' Es) in Ev. injection Ev as <-. repeat (destruct Hf as [Y|Hf]; [discriminate Y|]). destruct Hf.
    + exists m. split; [apply verdicts_in; eauto|exact Ek].
  - intros (c & Gc & I). rewrite Gf in Gc. injection Gc as <-. apply list_lines_in in I; [|exact One]. destruct I as (m & Im & K).
    right. apply in_or_app. left. apply verdicts_in in Im as (o & Io & Es & Ev). apply in_flat_map. exists o. split; [eapply Permutation_in; [exact Pm|exact Io]|].
    unfold line_of. rewrite Ev, Es. cbn [scenario_name]. rewrite K, Rep. left. reflexivity.
Qed.
Print Assumptions C80_lists.

(** C80: for a run from the command line with --no-times and without --all-logs, if the tests pass without mutants: the names that are reported with a verdict are those in the list of
    that verdict, if it is to be reported, and the exit status can be told from what is printed. *)
Theorem C80_main : forall w a s ms P lk (log : outcome mutant -> list byte * text) x l t,
  run_says w a s ms P lk (fun o => Some (fst (log o))) x t -> ls_main (x_lab x) = MEnd (ROk l) -> verdicts (lo_outcomes l) <> [] ->
  (forall m k, In m ms -> mutant_name true m = Some k -> one_line k) -> ar_no_times (ag_options a) = true -> ar_all_logs (ag_options a) = false ->
  (forall f v n, In (f, v) lists -> (v = SumCaught -> ar_caught (ag_options a) = true) -> (v = SumUnviable -> ar_unviable (ag_options a) = true) ->
     (In (column v ++ tx " " ++ n) (lines t) <-> exists c, holds (sh_out (ls_sh (x_lab x))) f c /\ In n (lines c)))
  /\ told_by_text t (status (ETested ms l)).
Proof.
  intros w a s ms P lk log x l t H E V O1 Nt Al. destruct H as [fuel es1 q o1 o0 t0 x t S A Q G O NE LF FT H].
  pose proof (prints_reach _ _ _ _ _ _ _ _ _ H) as R. pose proof (xinv _ _ _ _ _ _ _ _ R) as [Rb _]. pose proof (queued_perm _ _ _ Q) as PQ.
  destruct (settle_inv _ _ _ S) as (_ & _ & (cf & _ & ON) & _).
  destruct (C22_flags _ _ _ _ ON) as (_ & _ & _ & _ & _ & _ & _ & _ & _ & _ & _ & _ & _ & Fc & Fu & _ & _ & Ft & Fl).
  destruct (after_parts _ _ _ _ _ _ _ A) as (Su & _). destruct (set_up_files _ _ _ _ Su) as (o1' & G' & L1 & _). rewrite G in G'. injection G' as <-.
  assert (L0 : lists_exact o0 []) by (eapply opened_lists; eassumption).
  assert (Nq : forall m, In m q -> mutant_name true m <> None).
  { intros m Hm. eapply tests_named; [exact A|]. eapply Permutation_in; [apply Permutation_sym; exact PQ|exact Hm]. }
  assert (N1 : forall m, In m q -> exists k, mutant_name true m = Some k /\ one_line k).
  { intros m Hm. destruct (mutant_name true m) as [k|] eqn:K; [|destruct (Nq m Hm K)]. exists k. split; [reflexivity|]. eapply O1; [|exact K].
    eapply Permutation_in; [apply Permutation_sym; exact PQ|exact Hm]. }
  destruct (x_lab x) as [sh mn ws] eqn:El. cbn [ls_main] in E. subst mn.
  assert (RN : recorded l <> []). { rewrite <- (recorded_verdicts l (results_end _ _ _ _ _ _ _ Rb)). intro Y. apply map_eq_nil in Y. contradiction. }
  assert (Ls : forall f v n, In (f, v) lists -> (v = SumCaught -> ar_caught (ag_options a) = true) -> (v = SumUnviable -> ar_unviable (ag_options a) = true) ->
     (In (column v ++ tx " " ++ n) (lines t) <-> exists c, holds (sh_out sh) f c /\ In n (lines c))).
  { intros f v n Hf V1 V2. unfold holds.
    destruct (C80_lists P (shown_by (se_options s)) log o0 t0 q x l t f v n H) as [A1 A2]; try assumption.
    - rewrite El. reflexivity.
    - cbn. rewrite Ft, Nt. reflexivity.
    - cbn. rewrite Fl. exact Al.
    - cbn. rewrite Fc. exact V1.
    - cbn. rewrite Fu. exact V2.
    - rewrite El in A1, A2. cbn [ls_sh] in A1, A2. split; assumption. }
  split; [exact Ls|].
  destruct (lab_status P o0 t0 q sh l ws) as (LE & _ & D); [|exact Nq|exact L0|exact Rb|].
  { intros ->. apply NE. apply Permutation_nil, Permutation_sym. exact PQ. }
  destruct D as [(Y & _)|(Pm & code & C & cm & ct & Hm & Ht & D)]; [contradiction|]. unfold status. rewrite C.
  assert (Nv : forall m v, In (m, v) (verdicts (lo_outcomes l)) -> mutant_name true m <> None).
  { intros m v I. apply Nq. eapply Permutation_in; [exact Pm|]. apply in_map_iff. exists (m, v). auto. }
  assert (Rp : forall f v c, In (f, v) lists -> (v = SumMissed \/ v = SumTimeout) -> holds (sh_out sh) f c -> (reports t v <-> c <> [])).
  { intros f v c Hf Hv Hc. pose proof (LE f v Hf) as G1. unfold holds in Hc. rewrite G1 in Hc. injection Hc as <-. rewrite (list_nonempty v _ Nv). unfold reports. split.
    - intros [n I]. apply (Ls f v n Hf) in I; [|destruct Hv as [-> | ->]; discriminate|destruct Hv as [-> | ->]; discriminate].
      destruct I as (c & Hc & I). unfold holds in Hc. rewrite G1 in Hc. injection Hc as <-. apply list_lines_in in I; [destruct I as (m & I & _); exists m; exact I|].
      intros m v' k I' K. eapply O1; [|exact K]. eapply Permutation_in; [apply Permutation_sym; exact PQ|]. eapply Permutation_in; [exact Pm|]. apply in_map_iff. exists (m, v'). auto.
    - intros [m I]. destruct (mutant_name true m) as [k|] eqn:K; [|destruct (Nv m v I K)]. exists k. apply (Ls f v k Hf); [destruct Hv as [-> | ->]; discriminate|destruct Hv as [-> | ->]; discriminate|].
      eexists. split; [exact G1|]. apply list_lines_in; [|exists m; auto].
      intros m' v' k' I' K'. eapply O1; [|exact K']. eapply Permutation_in; [apply Permutation_sym; exact PQ|]. eapply Permutation_in; [exact Pm|]. apply in_map_iff. exists (m', v'). auto. }
  pose proof (Rp (tx "missed.txt") SumMissed cm (or_intror (or_introl eq_refl)) (or_introl eq_refl) Hm) as R1.
  pose proof (Rp (tx "timeout.txt") SumTimeout ct (or_intror (or_intror (or_introl eq_refl))) (or_intror eq_refl) Ht) as R2.
  unfold told_by_text. rewrite R1, R2. destruct D as [[D1 ->]|[(D1 & D2 & ->)|(D1 & D2 & ->)]]; subst; tauto.
Qed.
Print Assumptions C80_main.

(** C80: for a run from the command line in which no mutant is tested, because the tests do not pass without mutants: after the first line there is only the message that the
    baseline failed or ran out of time, with its log, whatever the options; there is no last line; and the exit status is 4. *)
Theorem C80_baseline : forall w a s ms P lk (log : outcome mutant -> list byte * text) x l t,
  run_says w a s ms P lk (fun o => Some (fst (log o))) x t -> ls_main (x_lab x) = MEnd (ROk l) -> verdicts (lo_outcomes l) = [] ->
  (forall o, In o (lo_outcomes l) -> from_utf8 (fst (log o)) = Some (snd (log o))) ->
  status (ETested ms l) = 4%Z
  /\ exists o v, lo_outcomes l = [o] /\ oc_scenario o = Baseline /\ oc_success o = Some false
     /\ (v = SumTimeout /\ (exists r, In r (oc_results o) /\ pr_status r = ExTimeout) \/ v = SumFailure /\ forall r, In r (oc_results o) -> pr_status r <> ExTimeout)
     /\ t = first_line (length ms) ++ [NL] ++ column v ++ tx " Unmutated baseline"
            ++ (if ar_no_times (ag_options a) then [] else tx " in " ++ times secs_text (oc_results o)) ++ [NL] ++ snd (log o) ++ [NL].
Proof.
  intros w a s ms P lk log x l t H E V U. destruct H as [fuel es1 q o1 o0 t0 x t S A Q G O NE LF FT H].
  pose proof (prints_reach _ _ _ _ _ _ _ _ _ H) as R. pose proof (xinv _ _ _ _ _ _ _ _ R) as [Rb _]. pose proof (queued_perm _ _ _ Q) as PQ.
  destruct (settle_inv _ _ _ S) as (_ & _ & (cf & _ & ON) & _).
  destruct (C22_flags _ _ _ _ ON) as (_ & _ & _ & _ & _ & _ & _ & _ & _ & _ & _ & _ & _ & Fc & Fu & _ & _ & Ft & Fl).
  destruct (after_parts _ _ _ _ _ _ _ A) as (Su & _). destruct (set_up_files _ _ _ _ Su) as (o1' & G' & L1 & _). rewrite G in G'. injection G' as <-.
  assert (L0 : lists_exact o0 []) by (eapply opened_lists; eassumption).
  assert (Nq : forall m, In m q -> mutant_name true m <> None).
  { intros m Hm. eapply tests_named; [exact A|]. eapply Permutation_in; [apply Permutation_sym; exact PQ|exact Hm]. }
  assert (NQ : q <> []) by (intros ->; apply NE, Permutation_nil, Permutation_sym; exact PQ).
  destruct (C80_end P (shown_by (se_options s)) log o0 t0 q x l t NQ H E Nq) as (Pm & D).
  { intros o v Io _ _ _. exact (U o Io). }
  destruct (x_lab x) as [sh mn ws] eqn:El. cbn [ls_main] in E. subst mn.
  destruct (lab_status P o0 t0 q sh l ws NQ Nq L0 Rb) as (_ & _ & D2).
  destruct D2 as [(_ & C4 & _)|(Pr & _)]; [|rewrite V in Pr; apply Permutation_nil in Pr; contradiction].
  unfold status. rewrite C4. split; [reflexivity|].
  destruct D as [(o & Fi & Es & F & Et)|(el & Pr & _)]; [|rewrite V in Pr; apply Permutation_nil in Pr; contradiction].
  assert (Lo : lo_outcomes l = [o]) by (apply Permutation_length_1_inv, Permutation_sym; rewrite <- Fi; exact Pm).
  assert (Sm : exists v, summary o = Some v
    /\ (v = SumTimeout /\ (exists r, In r (oc_results o) /\ pr_status r = ExTimeout) \/ v = SumFailure /\ forall r, In r (oc_results o) -> pr_status r <> ExTimeout)).
  { unfold summary. rewrite Es, F. unfold has_timeout. destruct (existsb _ (oc_results o)) eqn:X; eexists; (split; [reflexivity|]).
    - left. split; [reflexivity|]. apply existsb_exists in X as (r & Ir & X). exists r. split; [exact Ir|]. destruct (pr_status r); try discriminate X; reflexivity.
    - right. split; [reflexivity|]. intros r Ir Y. assert (existsb (fun r => is_timeout (pr_status r)) (oc_results o) = true); [|congruence].
      apply existsb_exists. exists r. rewrite Y. auto. }
  destruct Sm as (v & Sv & D). exists o, v. do 4 (split; [assumption|]). rewrite Et, (Permutation_length PQ). do 2 f_equal.
  unfold said. rewrite Sv, Es. cbn [scenario_name]. unfold message. cbn [shown_by po_times]. rewrite Ft.
  destruct D as [[-> _]|[-> _]]; cbn [reported with_log]; destruct (ar_no_times (ag_options a)); cbn [negb]; rewrite <- ?app_assoc; reflexivity.
Qed.
Print Assumptions C80_baseline.

(** ** Examples *)
Definition ex_po := mkPO true true false false.
Definition ex_log (o : outcome mutant) : list byte * text := ([], []).
Lemma ex_names : forall m, In m ex_ms -> exists k, mutant_name true m = Some k /\ one_line k.
Proof. intros m [<-|[<-|[]]]; eexists; (split; [vm_compute; reflexivity|apply flat_one, flat_tx; vm_compute; reflexivity]). Qed.
Lemma ex_end_is : exists l, ls_main ex_end = MEnd (ROk l) /\ recorded l = [ex_minus; ex_plus]
  /\ (how_often SumMissed (verdicts (lo_outcomes l)), how_often SumCaught (verdicts (lo_outcomes l)), how_often SumUnviable (verdicts (lo_outcomes l)),
      how_often SumTimeout (verdicts (lo_outcomes l)), how_often SumSuccess (verdicts (lo_outcomes l))) = (1, 1, 0, 0, 0)
  /\ map (fun o => match summary o with Some SumSuccess => negb (is_mutant (oc_scenario o)) | _ => is_mutant (oc_scenario o) end) (lo_outcomes l) = [true; true; true]
  /\ length (lo_outcomes l) = 3.
Proof. vm_compute. eexists. repeat split. Qed.
Lemma ex_files_end : (exists c, dget (sh_out (ls_sh ex_end)) (tx "missed.txt") = Some (NFile c) /\ In (tx "src/a.rs:1:3: replace + with *") (lines c))
  /\ exists c, dget (sh_out (ls_sh ex_end)) (tx "caught.txt") = Some (NFile c) /\ In (tx "src/a.rs:1:7: replace - with /") (lines c).
Proof. vm_compute. split; eexists; (split; [reflexivity|left; reflexivity]). Qed.

(** Runs that end without an error print something, if the logs are empty. *)
Lemma ex_prints : forall P po o0 t0 ms st l, reachable P o0 t0 ms st -> ls_main st = MEnd (ROk l) -> (forall m, In m ms -> mutant_name true m <> None) ->
  exists x t, prints P po false (fun o => Some (fst (ex_log o))) o0 t0 ms x t /\ x_lab x = st.
Proof.
  intros P [pc pu tm al] o0 t0 ms st l R0 M Nn. destruct (lift P pc pu al o0 t0 ms st R0) as [x [R E]].
  assert (Mx : ls_main (x_lab x) = MEnd (ROk l)) by (rewrite E; exact M). pose proof (xinv _ _ _ _ _ _ _ _ R) as [Rb _].
  destruct (C56_run_partial P pc pu al o0 t0 ms x l secs_text tm ex_log R Mx) as (b & B & _).
  { intros o Io. destruct (oc_scenario o) as [|m] eqn:Es; [discriminate|]. cbn [scenario_name]. apply Nn.
    destruct (x_lab x) as [sh mn ws]. cbn [ls_main] in Mx. subst mn. destruct (totals_end _ _ _ _ _ _ _ Rb) as [El _].
    destruct (c12_accounted _ _ _ _ _ Rb) as (lost & HP & _). eapply Permutation_in; [exact HP|]. rewrite !in_app_iff. right; right; left. cbn [ls_sh]. rewrite <- El.
    unfold recorded. apply in_flat_map. exists o. rewrite Es. split; [exact Io|left; reflexivity]. }
  { intros. reflexivity. }
  destruct (C80_every_run P (mkPO pc pu tm al) false (fun o => Some (fst (ex_log o))) o0 t0 ms x R) as [t T]; [|eauto].
  intros o Io N. clear - B Io N. revert b B. induction (x_finished x) as [|o' os IH]; intros b B; [destruct Io|].
  cbn [map printed] in B. destruct Io as [->|Io]; [rewrite N in B; discriminate|].
  destruct (outcome_message secs_text false _ o' _) as [[a|]|]; [| |discriminate]; (destruct (printed _ _ _ _) as [c|] eqn:Ec; [|discriminate]; exact (IH Io c eq_refl)).
Qed.

(** The run of LabT in which one mutant is missed and one is caught. *)
Example C80_case : exists x t mid, prints ex_P2 ex_po false (fun o => Some (fst (ex_log o))) ex_out (pa_root ex_P2) ex_ms x t /\ x_lab x = ex_end
  /\ t = tx "Found 2 mutants to test" ++ [NL] ++ mid ++ tx "2 mutants tested: 1 missed, 1 caught" ++ [NL]
  /\ In (tx "MISSED   src/a.rs:1:3: replace + with *") (lines t) /\ In (tx "caught   src/a.rs:1:7: replace - with /") (lines t).
Proof.
  destruct ex_end_is as (l & M & Rc & Cn & Ok & _).
  assert (Nn : forall m, In m ex_ms -> mutant_name true m <> None) by (intros m Hm; destruct (ex_names m Hm) as (k & K & _); congruence).
  destruct (ex_prints ex_P2 ex_po ex_out (pa_root ex_P2) ex_ms ex_end l (ex_reach _ _) M Nn) as (x & t & T & E).
  assert (Mx : ls_main (x_lab x) = MEnd (ROk l)) by (rewrite E; exact M).
  pose proof (prints_reach _ _ _ _ _ _ _ _ _ T) as R. destruct (C40_final_partial _ _ _ _ _ _ _ _ _ R Mx) as [Pm _].
  destruct (C80_end ex_P2 ex_po ex_log ex_out (pa_root ex_P2) ex_ms x l t) as (_ & D); try assumption; [discriminate|reflexivity|].
  assert (Lx : lists_exact ex_out []) by (intros f v Hf; repeat (destruct Hf as [Y|Hf]; [injection Y as <- <-; reflexivity|]); destruct Hf).
  destruct D as [(o & Fi & Es & F & _)|(el & _ & Et)].
  { exfalso. apply Permutation_sym in Pm. rewrite Fi in Pm. apply Permutation_length_1_inv in Pm. clear - Pm Ok. rewrite Pm in Ok. discriminate Ok. }
  cbn [ex_po po_times] in Et. injection Cn as C1 C2 C3 C4 C5. rewrite C1, C2, C3, C4, C5 in Et.
  exists x, t, (flat_map (said secs_text ex_po (fun o => snd (ex_log o))) (x_finished x)). split; [exact T|]. split; [exact E|]. split; [exact Et|].
  assert (RN : recorded l <> []) by (rewrite Rc; discriminate).
  destruct ex_files_end as [F1 F2].
  split.
  - apply (C80_lists ex_P2 ex_po ex_log ex_out (pa_root ex_P2) ex_ms x l t (tx "missed.txt") SumMissed _ T Mx ex_names eq_refl eq_refl RN Lx); [vm_compute; tauto|discriminate|discriminate|].
    rewrite E. exact F1.
  - apply (C80_lists ex_P2 ex_po ex_log ex_out (pa_root ex_P2) ex_ms x l t (tx "caught.txt") SumCaught _ T Mx ex_names eq_refl eq_refl RN Lx); [vm_compute; tauto|reflexivity|discriminate|].
    rewrite E. exact F2.
Qed.

(** The tree of WholeT with --caught and --no-times, where the first mutant is caught and the second is missed. *)
Definition ex_quiet : arguments := mkArguments None None false [] false false false false None None
  (OptionsM.mkArgs false true (Some true) true false None false [] [] [] [] []
    true false (Some 2) true None false false true true None None true None
    [] None [] None None None None None None false [] [] (mkFeatures [] false false)).
Definition ex_quiet_setting : setting := match settle ex_world ex_quiet with Done s => s | _ => ex_setting end.
Definition ex_quiet_from (xs : list (nat * option (exit_t * N))) (r : res action) : option (list mutant * entries * entries * entries * state) :=
  match r with
  | Done (Tests ms es1) =>
      match dget es1 OUTDIR with
      | Some (NDir o1) =>
          match lab_open o1 ms with
          | Some o0 => match exec ex_P2 2 xs (start_state ex_P2 o0 (pa_root ex_P2) ms) with Some st => Some (ms, es1, o1, o0, st) | None => None end
          | None => None end
      | _ => None end
  | _ => None end.
Definition ex_quiet_after := after ex_world (tx "L") 10 ex_quiet ex_quiet_setting.
Lemma ex_quiet_is : match ex_quiet_from ex_whole ex_quiet_after with
  | Some (ms, _, _, _, st) => ms = ex_ms /\ match ls_main st with MEnd (ROk l) => length (verdicts (lo_outcomes l)) = 2 /\ status (ETested ms l) = 2%Z | _ => False end
  | None => False end.
Proof. vm_compute. repeat split. Qed.
Lemma ex_quiet_settle : settle ex_world ex_quiet = Done ex_quiet_setting.
Proof. vm_compute. reflexivity. Qed.
Lemma ex_quiet_parts : forall xs r ms es1 o1 o0 st, ex_quiet_from xs r = Some (ms, es1, o1, o0, st) ->
  r = Done (Tests ms es1) /\ dget es1 OUTDIR = Some (NDir o1) /\ lab_open o1 ms = Some o0
  /\ exec ex_P2 2 xs (start_state ex_P2 o0 (pa_root ex_P2) ms) = Some st.
Proof.
  intros xs r ms es1 o1 o0 st Q. unfold ex_quiet_from in Q. destruct r as [[out|ms1 es2]| |]; try discriminate.
  destruct (dget es2 OUTDIR) as [[|o2]|] eqn:G; try discriminate. destruct (lab_open o2 ms1) as [o3|] eqn:O; [|discriminate].
  destruct (exec ex_P2 2 xs _) as [st'|] eqn:X; [|discriminate]. injection Q as -> -> -> -> ->. auto.
Qed.
Lemma ex_quiet_lab : lab_for (se_options ex_quiet_setting) ex_P2 /\ queued (cli_of ex_world ex_quiet (se_options ex_quiet_setting)) ex_ms ex_ms.
Proof. vm_compute. repeat split; reflexivity. Qed.
Lemma ex_quiet_says : forall xs es1 o1 o0 st l, ex_quiet_from xs ex_quiet_after = Some (ex_ms, es1, o1, o0, st) -> ls_main st = MEnd (ROk l) ->
  exists x t, run_says ex_world ex_quiet ex_quiet_setting ex_ms ex_P2 (tx "L") (fun o => Some (fst (ex_log o))) x t /\ x_lab x = st.
Proof.
  intros xs es1 o1 o0 st l Q M. destruct (ex_quiet_parts _ _ _ _ _ _ _ Q) as (A & G & O & X).
  assert (Nn : forall m, In m ex_ms -> mutant_name true m <> None) by (intros m Hm; destruct (ex_names m Hm) as (k & K & _); congruence).
  assert (R0 : reachable ex_P2 o0 (pa_root ex_P2) ex_ms st) by (eapply exec_sound; exact X).
  destruct (ex_prints ex_P2 (shown_by (se_options ex_quiet_setting)) o0 (pa_root ex_P2) ex_ms st l R0 M Nn) as (x & t & T & E). exists x, t. split; [|exact E].
  destruct ex_quiet_lab as [L Qu].
  exact (ry_tests _ _ _ _ _ _ _ 10 es1 ex_ms o1 o0 (pa_root ex_P2) x t ex_quiet_settle A Qu G O ltac:(discriminate) L (proj1 (proj2 (proj2 LabT.C13_case))) T).
Qed.
Example C80_case_main : exists x l t, run_says ex_world ex_quiet ex_quiet_setting ex_ms ex_P2 (tx "L") (fun o => Some (fst (ex_log o))) x t
  /\ ls_main (x_lab x) = MEnd (ROk l) /\ verdicts (lo_outcomes l) <> [] /\ status (ETested ex_ms l) = 2%Z
  /\ ar_no_times (ag_options ex_quiet) = true /\ ar_all_logs (ag_options ex_quiet) = false /\ ar_caught (ag_options ex_quiet) = true
  /\ reports t SumMissed /\ ~ reports t SumTimeout.
Proof.
  generalize ex_quiet_is. destruct (ex_quiet_from ex_whole ex_quiet_after) as [[[[[ms es1] o1] o0] st]|] eqn:Q; [|intros []]. intros [-> Z].
  destruct (ls_main st) as [| |[l| |]] eqn:M; try (destruct Z; fail). destruct Z as [Z1 Z2].
  destruct (ex_quiet_says _ _ _ _ _ _ Q M) as (x & t & RS & E).
  assert (V : verdicts (lo_outcomes l) <> []) by (intro Y; rewrite Y in Z1; discriminate Z1).
  exists x, l, t. split; [exact RS|]. split; [rewrite E; exact M|]. split; [exact V|]. split; [exact Z2|]. do 3 (split; [reflexivity|]).
  destruct (C80_main _ _ _ _ _ _ _ _ l _ RS) as [_ W]; [rewrite E; exact M|exact V| |reflexivity|reflexivity|].
  { intros m k Hm K. destruct (ex_names m Hm) as (k' & K' & Ok). congruence. }
  rewrite Z2 in W. destruct W as [[_ W]|[(W1 & W2 & _)|(_ & _ & W)]]; [discriminate W| |discriminate W]. split; assumption.
Qed.

(** The same, but the tests fail without mutants. *)
Definition ex_failing : list (nat * option (exit_t * N)) := ok 0 5 ++ fails 0 ++ ok 0 6.
Lemma ex_failing_is : match ex_quiet_from ex_failing ex_quiet_after with
  | Some (ms, _, _, _, st) => ms = ex_ms /\ match ls_main st with MEnd (ROk l) => length (verdicts (lo_outcomes l)) = 0 /\ status (ETested ms l) = 4%Z
        /\ map (fun o => map pr_status (oc_results o)) (lo_outcomes l) = [[ExSuccess; ExFailure 101]] | _ => False end
  | None => False end.
Proof. vm_compute. repeat split. Qed.
Example C80_case_baseline : exists x l t, run_says ex_world ex_quiet ex_quiet_setting ex_ms ex_P2 (tx "L") (fun o => Some (fst (ex_log o))) x t
  /\ ls_main (x_lab x) = MEnd (ROk l) /\ verdicts (lo_outcomes l) = [] /\ status (ETested ex_ms l) = 4%Z
  /\ t = tx "Found 2 mutants to test" ++ [NL] ++ tx "FAILED   Unmutated baseline" ++ [NL; NL].
Proof.
  generalize ex_failing_is. destruct (ex_quiet_from ex_failing ex_quiet_after) as [[[[[ms es1] o1] o0] st]|] eqn:Q; [|intros []]. intros [-> Z].
  destruct (ls_main st) as [| |[l| |]] eqn:M; try (destruct Z; fail). destruct Z as (Z1 & Z2 & Z3).
  destruct (ex_quiet_says _ _ _ _ _ _ Q M) as (x & t & RS & E).
  assert (V : verdicts (lo_outcomes l) = []) by (apply length_zero_iff_nil; exact Z1).
  exists x, l, t. split; [exact RS|]. split; [rewrite E; exact M|]. split; [exact V|]. split; [exact Z2|].
  destruct (C80_baseline _ _ _ _ _ _ ex_log _ l _ RS) as [_ (o & v & Lo & _ & _ & D & Et)]; [rewrite E; exact M|exact V|reflexivity|].
  rewrite Lo in Z3. cbn [map] in Z3. injection Z3 as Z3. destruct D as [[_ (r & Ir & Y)]|[-> _]]; [|rewrite Et; reflexivity].
  exfalso. apply (in_map pr_status) in Ir. rewrite Z3, Y in Ir. destruct Ir as [Ir|[Ir|[]]]; discriminate Ir.
Qed.
