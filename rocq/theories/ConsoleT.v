(** Theorems about the progress display (C40), and about the totals of a whole run. *)
From Coq Require Import String List NArith ZArith QArith Bool Arith Lia Permutation.
From Verif Require Import Text SpanM PathM MutantM ProcessM OutcomeM OutcomeS OutcomeP OutcomeT OutputM LabM LabS LabP LabT F64M F64S F64P TimeoutM TimeoutS TimeoutP ConsoleM ConsoleS ConsoleP.
Import ListNotations.
Open Scope nat_scope.

(** C40: in every reachable state, under every schedule, the display has not panicked; its
    counters are those of the outcomes it was told of, the total is the number of mutants, and
    no more mutants are shown as done than there are.  Here every log can be read as UTF-8.
    Missing: logs that are not UTF-8, see C40_log_refuted. *)
Theorem C40_counters_partial : forall P pc pu al o0 t0 ms x, xreachable P pc pu al true o0 t0 ms x ->
  exists m, x_console x = Some m /\ counters m (x_finished x) /\ cm_total m = length ms /\ cm_done m <= cm_total m.
Proof.
  intros P pc pu al o0 t0 ms x R. pose proof (xinv _ _ _ _ _ _ _ _ R) as [_ [m [E [(C & T & _ & D & _) _]]]].
  exists m. auto.
Qed.
Print Assumptions C40_counters_partial.

(** C40: every run of the lab is a run with a display, so that the above is about all runs. *)
Theorem C40_all_runs : forall P pc pu al o0 t0 ms st, reachable P o0 t0 ms st ->
  exists x, xreachable P pc pu al true o0 t0 ms x /\ x_lab x = st.
Proof. exact lift. Qed.
Print Assumptions C40_all_runs.

(** C40: after a run without errors the display was told of each recorded outcome once, and
    its numbers are the totals reported (a baseline that timed out is counted as a timeout
    by the display only).
    Missing: logs that are not UTF-8, see C40_log_refuted. *)
Theorem C40_final_partial : forall P pc pu al o0 t0 ms x l, xreachable P pc pu al true o0 t0 ms x -> ls_main (x_lab x) = MEnd (ROk l) ->
  Permutation (lo_outcomes l) (x_finished x)
  /\ exists m, x_console x = Some m /\ cm_done m = lo_total l /\ cm_missed m = lo_missed l /\ cm_caught m = lo_caught l /\ cm_unviable m = lo_unviable l
  /\ ((forall o, In o (lo_outcomes l) -> is_mutant (oc_scenario o) = false -> has_timeout o = false) -> cm_timeouts m = lo_timeout l).
Proof.
  intros P pc pu al o0 t0 ms x l R E. pose proof (xinv _ _ _ _ _ _ _ _ R) as [Rb [m [Em [(C & T & _ & D & _) M]]]].
  rewrite E in M. split; [exact M|]. exists m. split; [exact Em|].
  destruct (x_lab x) as [sh mn ws]. cbn [ls_main] in E. subst mn. destruct (totals_end _ _ _ _ _ _ _ Rb) as [_ A].
  pose proof (lab_add_all_counts _ _ _ A) as (_ & K1 & K2 & K3 & K4 & K5 & _). cbn in K1, K2, K3, K4, K5. rewrite K1, K2, K3, K4, K5.
  destruct C as (-> & -> & -> & -> & -> & _). unfold of_mutants, of_kind. rewrite <- !(how_many_perm _ _ _ _ M).
  split; [reflexivity|]. rewrite <- !kind_mutants by auto. repeat split. intro W. rewrite <- kind_mutants by auto. reflexivity.
Qed.
Print Assumptions C40_final_partial.

(** C40: while the lab runs and no thread has failed, the scenarios displayed are those under way; and a thread that
    runs cargo is displayed with the phase it is in.
    Missing: logs that are not UTF-8, see C40_log_refuted. *)
Theorem C40_active_partial : forall P pc pu al o0 t0 ms x, xreachable P pc pu al true o0 t0 ms x ->
  (forall r, ls_main (x_lab x) <> MEnd r) -> all_well (threads (x_lab x)) ->
  exists m, x_console x = Some m
  /\ (forall d, In d (map sc_dir (cm_scens m)) <-> exists c, In c (threads (x_lab x)) /\ under_way c = Some d)
  /\ (forall d s dn p todo, In (WCargo d s dn p todo) (threads (x_lab x)) -> In (mkScen d (Some p)) (cm_scens m)).
Proof.
  intros P pc pu al o0 t0 ms x R NE AW. pose proof (xinv _ _ _ _ _ _ _ _ R) as [_ [m [E [_ M]]]].
  assert (SO : scens_ok (ls_sh (x_lab x)) (threads (x_lab x)) (cm_scens m)).
  { unfold threads. destruct (ls_main (x_lab x)) as [c| |r]; [apply M|apply M|destruct (NE r eq_refl)]. }
  clear M. exists m. split; [exact E|]. eapply active_shown; eassumption.
Qed.
Print Assumptions C40_active_partial.

(** C40: in every reachable state and at any time the display can be drawn: the number of mutants
    done and the total are those above, and the estimate is not negative and does not overflow,
    for any rounding of floats and any elapsed time up to 10^16 seconds divided by the number of
    mutants.
    Missing: logs that are not UTF-8, see C40_log_refuted. *)
Theorem C40_drawn_partial : forall P pc pu al o0 t0 ms x rnd now, xreachable P pc pu al true o0 t0 ms x -> rounding rnd ->
  ((Z.of_N now # 1000000000) * q_of_nat (length ms) <= 10000000000000000)%Q ->
  exists m s, x_console x = Some m /\ render rnd m now = Some (Some s)
    /\ sn_done s = of_mutants (x_finished x) /\ sn_total s = length ms
    /\ (sn_missed s = None -> of_kind SumMissed (x_finished x) = 0)
    /\ (forall k, sn_missed s = Some k -> k = of_kind SumMissed (x_finished x) /\ 0 < k)
    /\ (forall k, sn_caught s = Some k -> k = of_kind SumCaught (x_finished x) /\ 0 < k)
    /\ (sn_remaining s <> None <-> 2 < of_mutants (x_finished x)).
Proof.
  intros P pc pu al o0 t0 ms x rnd now R Rn B. pose proof (xinv _ _ _ _ _ _ _ _ R) as [Rb [m [Em [(C & T & L & D & S) _]]]].
  assert (PO : forall n k, positive_only n = Some k -> k = n /\ 0 < k).
  { intros n k. unfold positive_only. destruct (Nat.ltb_spec 0 n); [|discriminate]. intro E. injection E as <-. auto. }
  assert (PN : forall n, positive_only n = None -> n = 0).
  { intros n. unfold positive_only. destruct (Nat.ltb_spec 0 n); [discriminate|lia]. }
  exists m. destruct C as (C1 & C2 & C3 & _). rewrite <- C1, <- C2, <- C3, <- T. unfold render. destruct (cm_lab_start m) as [st|]; [|contradiction].
  destruct (Nat.ltb_spec 2 (cm_done m)) as [Lt|Ge].
  - destruct (cm_mutants_start m) as [mst|]; [|specialize (S eq_refl); lia].
    destruct (rem_bounds rnd (elapsed now mst) (cm_total m) (cm_done m) 10000000000000000 Rn Lt D) as [B1 B2].
    { rewrite T. eapply Qle_trans; [|exact B]. apply Qmult_le_compat_r; [|apply q_of_nat_0]. unfold elapsed, Qle. cbn. lia. }
    destruct (ceil_bounds (remaining_secs rnd (elapsed now mst) (cm_total m) (cm_done m))) as [U1 U2].
    destruct (secs_of_some (ceil (remaining_secs rnd (elapsed now mst) (cm_total m) (cm_done m)))) as [dd Ed].
    { eapply Qle_trans; [exact B1|exact U1]. }
    { apply Qlt_le_weak. eapply Qlt_le_trans; [exact U2|]. eapply Qle_trans; [apply Qplus_le_compat; [exact B2|apply Qle_refl]|]. vm_compute. discriminate. }
    rewrite Ed. eexists. split; [exact Em|]. split; [reflexivity|]. cbn [sn_done sn_total sn_missed sn_caught sn_remaining].
    repeat split; auto; try (apply PO; assumption); try (eapply PO; eassumption); try discriminate.
  - eexists. split; [exact Em|]. split; [reflexivity|]. cbn [sn_done sn_total sn_missed sn_caught sn_remaining].
    repeat split; auto; try (apply PO; assumption); try (eapply PO; eassumption); try congruence. lia.
Qed.
Print Assumptions C40_drawn_partial.

(** 64-bit floats are such a rounding. *)
Theorem C40_rounding : rounding rnd64.
Proof. exact rnd64_rounding. Qed.
Print Assumptions C40_rounding.

(** C40: computed with 64-bit floats, the estimate is [r]: the time taken so far, times mutants left,
    divided by mutants done, but for a relative error of 2^-50; for long times it is at most 91
    seconds more. *)
Theorem C40_estimate : forall el total dn, 2 < dn -> dn <= total -> (q_of_nat total <= 9007199254740992)%Q ->
  let r := (exact_secs el * (q_of_nat total - q_of_nat dn) / q_of_nat dn)%Q in
  (r - r * (2 # 1) ^ (-50) - (2 # 1) ^ (-1073) <= remaining_secs rnd64 el total dn)%Q
  /\ (remaining_secs rnd64 el total dn <= r + r * (2 # 1) ^ (-50) + 91)%Q
  /\ ((r <= 299)%Q -> (remaining_secs rnd64 el total dn <= r + r * (2 # 1) ^ (-50) + (2 # 1) ^ (-1073))%Q).
Proof. exact estimate64. Qed.
Print Assumptions C40_estimate.

(** Twelve mutants, three done in 100 seconds. *)
Example C40_estimate_case : secs_of (ceil (remaining_secs rnd64 100000000000 12 3)) = Some 300000000000%N.
Proof. vm_compute. reflexivity. Qed.

(** The run of LabT in which one mutant is caught and one missed. *)
Example C40_case : exists x m, xreachable ex_P2 true true false true ex_out (pa_root ex_P2) ex_ms x /\ x_lab x = ex_end
  /\ x_console x = Some m /\ (cm_done m, cm_total m, cm_caught m, cm_missed m, cm_timeouts m) = (2, 2, 1, 1, 0).
Proof.
  destruct (lift ex_P2 true true false ex_out (pa_root ex_P2) ex_ms ex_end (ex_reach _ _)) as [x [R E]].
  exists x. assert (L : exists l, ls_main ex_end = MEnd (ROk l) /\ (lo_total l, lo_caught l, lo_missed l, lo_timeout l) = (2, 1, 1, 0)
    /\ forallb (fun o => is_mutant (oc_scenario o) || negb (has_timeout o)) (lo_outcomes l) = true).
  { vm_compute. eexists. repeat split. }
  destruct L as [l [M [N1 W]]]. rewrite <- E in M. destruct (C40_final_partial _ _ _ _ _ _ _ _ _ R M) as [_ [m (Em & D & Mi & Ca & _ & Ti)]].
  destruct (C40_counters_partial _ _ _ _ _ _ _ _ R) as [m' (Em' & _ & T & _)]. rewrite Em in Em'. injection Em' as <-.
  exists m. split; [exact R|]. split; [exact E|]. split; [exact Em|]. injection N1 as N1 N2 N3 N4.
  rewrite D, T, Mi, Ca, Ti, N1, N2, N3, N4; [reflexivity|].
  intros o I Mu. rewrite forallb_forall in W. specialize (W o I). rewrite Mu in W. apply negb_true_iff in W. exact W.
Qed.

(** Both workers of LabT run cargo test: two scenarios are displayed, each in its phase. *)
Example C40_active_case : exists x m, xreachable ex_P2 true true false true ex_out (pa_root ex_P2) ex_ms x
  /\ x_lab x = ex_run ex_P2 ex_both /\ x_console x = Some m
  /\ In (mkScen 0 (Some Test)) (cm_scens m) /\ In (mkScen 1 (Some Test)) (cm_scens m) /\ forall d, In d (map sc_dir (cm_scens m)) -> d < 2.
Proof.
  destruct (lift ex_P2 true true false ex_out (pa_root ex_P2) ex_ms (ex_run ex_P2 ex_both) (ex_reach _ _)) as [x [R E]].
  assert (T : exists s0 s1 a0 a1 b0 b1, threads (ex_run ex_P2 ex_both) = [WCargo 0 s0 a0 Test b0; WCargo 1 s1 a1 Test b1]).
  { vm_compute. do 6 eexists. reflexivity. }
  destruct T as (s0 & s1 & a0 & a1 & b0 & b1 & T).
  destruct (C40_active_partial _ _ _ _ _ _ _ _ R) as (m & Em & S & C).
  - intro r. rewrite E. vm_compute. discriminate.
  - rewrite E, T. intros c [<-|[<-|[]]]; split; reflexivity.
  - rewrite E, T in S, C. exists x, m. split; [exact R|]. split; [exact E|]. split; [exact Em|]. split; [|split].
    + eapply C. left. reflexivity.
    + eapply C. right. left. reflexivity.
    + intros d I. apply S in I. destruct I as (c & [<-|[<-|[]]] & U); injection U as <-; lia.
Qed.

(** C40 fails when the log of a failed baseline is not UTF-8: the display panics when it
    is told that the baseline is finished (src/console.rs:113). *)
Theorem C40_log_refuted : exists P o0 t0 ms x, xreachable P true true false false o0 t0 ms x /\ x_console x = None.
Proof.
  set (st := ex_run ex_P2 (ok 0 5 ++ fails 0 ++ ok 0 5)).
  destruct (lift ex_P2 true true false ex_out (pa_root ex_P2) ex_ms st (ex_reach _ _)) as [x [R E]].
  pose proof (xinv _ _ _ _ _ _ _ _ R) as [_ [m [Em _]]].
  assert (F : exists d o, ls_main st = MBaseline (WFin d o) /\ ls_workers st = [] /\ oc_success o = Some false
     /\ summary o <> None /\ print_outcome true true false o false = None).
  { vm_compute. do 2 eexists. repeat split. discriminate. }
  destruct F as (d & o & M & W & S & V & Pr).
  destruct x as [lab con cp fin]. cbn [x_lab x_console] in E, Em. subst lab con. destruct st as [sh mn ws]. cbn [ls_main ls_workers] in M, W. subst mn ws.
  apply weaken in R. destruct R as (nw & nw' & R).
  exists ex_P2, ex_out, (pa_root ex_P2), ex_ms. eexists. split.
  - exists nw, nw'. eapply xsteps_more; [exact R|]. apply (xs_baseline_failed ex_P2 true true false false 2 sh d o m cp fin false S). discriminate.
  - cbn [x_console handle_all handle]. destruct (summary o); [|contradiction]. rewrite Pr. reflexivity.
Qed.
Print Assumptions C40_log_refuted.

(** ** Totals and exit code of a whole run, under every schedule *)

(** C08: after a run without errors the totals are those of the recorded outcomes. *)
Theorem C08_run : forall P o0 t0 ms sh l ws, reachable P o0 t0 ms (mkLS sh (MEnd (ROk l)) ws) ->
  lab_add_all lab_new (lo_outcomes l) = Some l /\ Forall (fun o => oc_results o <> []) (lo_outcomes l)
  /\ lo_total l = lo_missed l + lo_caught l + lo_timeout l + lo_unviable l + lo_success l
                  + how_many (mutant_with SumFailure) (lo_outcomes l).
Proof.
  intros P o0 t0 ms sh l ws R. destruct (totals_end _ _ _ _ _ _ _ R) as [_ A]. pose proof (results_end _ _ _ _ _ _ _ R) as F.
  split; [exact A|]. split; [exact F|]. destruct (C08_counts_partition _ _ F) as [l' [A' K]]. rewrite A in A'. injection A' as <-. tauto.
Qed.
Print Assumptions C08_run.

(** C09: the exit code of a run that ends without error, under every schedule. *)
Theorem C09_run : forall P o0 t0 ms sh l ws, reachable P o0 t0 ms (mkLS sh (MEnd (ROk l)) ws) ->
  exists code, process_exit (ROk l) = Some code /\
  ((code = 4%Z /\ exists o, In o (lo_outcomes l) /\ baseline_unsuccessful o)
   \/ (code = 3%Z /\ exists m o, In m ms /\ In o (lo_outcomes l) /\ oc_scenario o = Mutant m /\ summary o = Some SumTimeout)
   \/ (code = 2%Z /\ exists m o, In m ms /\ In o (lo_outcomes l) /\ oc_scenario o = Mutant m /\ summary o = Some SumMissed)
   \/ (code = 0%Z /\ forall m, In m ms -> exists o, In o (lo_outcomes l) /\ oc_scenario o = Mutant m
         /\ summary o <> Some SumTimeout /\ summary o <> Some SumMissed)).
Proof.
  intros P o0 t0 ms sh l ws R. destruct (totals_end _ _ _ _ _ _ _ R) as [_ A]. pose proof (results_end _ _ _ _ _ _ _ R) as F.
  destruct (C09_exit_code _ _ F) as (l' & code & A' & X & K). rewrite A in A'. injection A' as <-.
  exists code. split; [exact X|].
  assert (Rec : forall m, In m (recorded l) <-> exists o, In o (lo_outcomes l) /\ oc_scenario o = Mutant m).
  { intro m. unfold recorded. rewrite in_flat_map. split; intros [o [I J]]; exists o; (split; [exact I|]).
    - destruct (oc_scenario o); [destruct J|destruct J as [->|[]]]; reflexivity.
    - rewrite J. left. reflexivity. }
  destruct (C12_all_recorded _ _ _ _ _ _ _ R) as [PM|[E [o [I [B S]]]]].
  - assert (Mk : forall o, In o (lo_outcomes l) -> is_mutant (oc_scenario o) = true -> exists m, oc_scenario o = Mutant m /\ In m ms).
    { intros o I M. destruct (oc_scenario o) as [|m] eqn:Eo; [discriminate|]. exists m. split; [reflexivity|]. eapply Permutation_in; [exact PM|]. apply Rec. eauto. }
    destruct K as [K|[[-> [_ [o (I & M & V)]]]|[[-> [_ [_ [o (I & M & V)]]]]|[-> [_ N0]]]]]; [left; exact K| | |].
    + right. left. split; [reflexivity|]. destruct (Mk o I M) as [m [Em Im]]. eauto 10.
    + right. right. left. split; [reflexivity|]. destruct (Mk o I M) as [m [Em Im]]. eauto 10.
    + right. right. right. split; [reflexivity|]. intros m Im. apply (Permutation_in _ (Permutation_sym PM)) in Im. apply Rec in Im. destruct Im as [o [I Eo]].
      exists o. split; [exact I|]. split; [exact Eo|]. apply N0; [exact I|rewrite Eo; reflexivity].
  - left. assert (U : baseline_unsuccessful o) by (split; [exact B|]; intros pr L Y; unfold oc_success, last_result in S; rewrite L in S; rewrite Y in S; discriminate).
    destruct K as [K|[[-> [N0 _]]|[[-> [N0 _]]|[-> [N0 _]]]]]; [exact K| | |]; exfalso; exact (N0 o I U).
Qed.
Print Assumptions C09_run.

Example C09_run_case : exists l, ls_main ex_end = MEnd (ROk l) /\ process_exit (ROk l) = Some 2%Z.
Proof. vm_compute. eexists. repeat split. Qed.
