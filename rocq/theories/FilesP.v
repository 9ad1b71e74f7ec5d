(** Proofs for C79: the files that a whole run leaves. *)
From Coq Require Import String List NArith ZArith Bool Arith Lia Permutation.
From Verif Require Import Text SpanM PathM MutantM ProcessM OutcomeM OutcomeS OutcomeP OutcomeT OutputM OutputS OutputP IterateM IterateP ShardM PackageM PackageS OptionsM CargoM WalkM
  LabM LabS LabP LabT CutP ConsoleP DiffP MainM MainP JsonM JsonS JsonP JsonT WholeM WholeS WholeP WholeT LaunchM LaunchS LaunchP LaunchT EndM EndS EndP EndT GoesP RoundP FilesM FilesS.
Import ListNotations.
Open Scope list_scope.

(** ** Files that the lab does not touch *)
Definition untouched (f : text) : Prop := f <> OUTCOMES_JSON /\ forall v g, list_for v = Some g -> g <> f.

Section Lab.
Context (P : params) (o0 : entries) (t0 : tree) (ms : list mutant).

Lemma kept_step : forall f i sh c sh' c', untouched f -> sstep P i sh c sh' c' -> dget (sh_out sh') f = dget (sh_out sh) f.
Proof.
  intros f i sh c sh' c' [U1 U2] H.
  destruct H; cbn [set_log set_used set_trees put_tree set_lab set_out sh_out]; try reflexivity;
    try (apply dget_dset_other; congruence); apply append_other; eapply U2; eassumption.
Qed.
Lemma kept : forall f st, untouched f -> reachable P o0 t0 ms st -> dget (sh_out (ls_sh st)) f = dget o0 f.
Proof.
  intros f st U H. unfold reachable in H. remember (start_state P o0 t0 ms) as s0 eqn:E. induction H as [s|s s' s'' H IH St]; [subst s; reflexivity|].
  rewrite <- (IH E). destruct St; cbn [ls_sh set_dir0 sh_out]; try reflexivity.
  - eapply kept_step; eassumption.
  - destruct H1; cbn [set_dir0 add_dir set_queue sh_out]; try reflexivity. eapply kept_step; eassumption.
Qed.
End Lab.

Lemma once_untouched : forall f, In f written_once -> untouched f.
Proof.
  intros f H. repeat (destruct H as [<-|H]; [split; [discriminate|intros [] g E; try discriminate E; injection E as <-; discriminate]|]). destruct H.
Qed.

(** ** Opening the lab *)
Lemma set_up_files : forall lk c es es1, set_up lk c es = Done es1 ->
  exists o, dget es1 OUTDIR = Some (NDir o) /\ lists_exact o [] /\ dget o DEBUG_LOG = None /\ dget o MUTANTS_JSON = None /\ dget o OUTCOMES_JSON = None
    /\ dget o (tx "lock.json") = Some (NFile lk)
    /\ dget o PREVIOUSLY_CAUGHT_TXT = (if cl_iterate c then Some (NFile (previously_text (load_previously_caught es))) else None).
Proof.
  intros lk c es es1 H. unfold set_up in H. destruct (output_new lk es) as [e|] eqn:N; [|discriminate]. pose proof (new_fresh _ _ _ N) as G.
  destruct (cl_iterate c) eqn:I.
  - rewrite G in H. unfold write_previously_caught in H. change (dget (fresh_dir lk) PREVIOUSLY_CAUGHT_TXT) with (@None node) in H. injection H as <-.
    eexists. split; [apply dget_dset_same|]. split; [intros f v Hf; rewrite dget_dset_other; [exact (fresh_lists lk f v Hf)|]|].
    { repeat (destruct Hf as [E|Hf]; [injection E as <- _; discriminate|]). destruct Hf. }
    repeat (split; [rewrite dget_dset_other by discriminate; reflexivity|]). apply dget_dset_same.
  - injection H as <-. exists (fresh_dir lk). split; [exact G|]. split; [apply fresh_lists|]. repeat split.
Qed.

Lemma open_files : forall o q o0, lab_open o q = Some o0 ->
  dget o0 MUTANTS_JSON = Some (NFile (mutants_file q)) /\ (exists t, dget o0 DEBUG_LOG = Some (NFile t))
  /\ forall f, f <> MUTANTS_JSON -> f <> DEBUG_LOG -> dget o0 f = dget o f.
Proof.
  intros o q o0 H. unfold lab_open in H. destruct (open_debug_log o) as [o1|] eqn:D; [|discriminate].
  assert (W : o0 = dset o1 MUTANTS_JSON (NFile (mutants_file q))).
  { unfold write_mutants_list in H. destruct (dget o1 MUTANTS_JSON) as [[]|]; congruence. }
  subst o0. split; [apply dget_dset_same|]. unfold open_debug_log in D. split.
  - rewrite dget_dset_other by discriminate. destruct (dget o DEBUG_LOG) as [[t|]|] eqn:E; try discriminate; injection D as <-; [eauto|exists []; apply dget_dset_same].
  - intros f N1 N2. rewrite dget_dset_other by congruence. destruct (dget o DEBUG_LOG) as [[t|]|]; try discriminate; injection D as <-; [reflexivity|].
    apply dget_dset_other. congruence.
Qed.

Lemma opens : forall o q, dget o DEBUG_LOG = None -> dget o MUTANTS_JSON = None -> exists o0, lab_open o q = Some o0.
Proof.
  intros o q D M. unfold lab_open, open_debug_log. rewrite D. unfold write_mutants_list. rewrite dget_dset_other by discriminate. rewrite M. eauto.
Qed.

Lemma opened_lists : forall o q o0, lab_open o q = Some o0 -> lists_exact o [] -> lists_exact o0 [].
Proof.
  intros o q o0 H L f v Hf. destruct (open_files _ _ _ H) as (_ & _ & K). rewrite K; [exact (L f v Hf)| |];
    repeat (destruct Hf as [E|Hf]; [injection E as <- _; discriminate|]); destruct Hf.
Qed.

(** ** The lists and the exit status *)
Lemma recorded_verdicts : forall l, Forall (fun o => oc_results o <> []) (lo_outcomes l) -> map fst (verdicts (lo_outcomes l)) = recorded l.
Proof.
  intros l. unfold recorded, verdicts. generalize (lo_outcomes l) as os. clear l. induction os as [|o os IH]; intro F; [reflexivity|]. inversion F; subst.
  cbn [flat_map]. rewrite map_app, IH by assumption. f_equal. destruct (oc_scenario o); [reflexivity|].
  destruct (summary_total _ o) as [v ->]; [assumption|reflexivity].
Qed.

Lemma list_nonempty : forall v rs, (forall m v', In (m, v') rs -> mutant_name true m <> None) ->
  (LabS.list_text v rs <> [] <-> exists m, In (m, v) rs).
Proof.
  intros v rs. induction rs as [|[m v'] rs IH]; intro N; [split; [intro H; contradiction H; reflexivity|intros [m []]]|].
  unfold LabS.list_text in *. cbn [flat_map fst snd]. destruct (same_verdict v' v) eqn:E.
  - assert (v' = v) by (destruct v', v; try discriminate E; reflexivity). subst v'. split; [intros _; exists m; left; reflexivity|].
    intros _. destruct (mutant_name true m) as [n|] eqn:En; [destruct n; discriminate|]. exfalso. exact (N m v (or_introl eq_refl) En).
  - cbn [app]. rewrite IH by (intros x y I; eapply N; right; exact I). split; intros [x I]; exists x; [right; exact I|].
    destruct I as [I|I]; [|exact I]. injection I as -> ->. destruct v; discriminate E.
Qed.

Lemma told : forall o rs l code, lists_exact o rs -> rs = verdicts (lo_outcomes l) -> (forall m v, In (m, v) rs -> mutant_name true m <> None) ->
  (code = 3%Z /\ (exists m, In (m, SumTimeout) rs) \/ code = 2%Z /\ (~ exists m, In (m, SumTimeout) rs) /\ (exists m, In (m, SumMissed) rs)
   \/ code = 0%Z /\ (~ exists m, In (m, SumTimeout) rs) /\ ~ exists m, In (m, SumMissed) rs) -> told_by_lists o code.
Proof.
  intros o rs l code L _ N D. exists (LabS.list_text SumMissed rs), (LabS.list_text SumTimeout rs).
  split; [apply L; right; left; reflexivity|]. split; [apply L; right; right; left; reflexivity|].
  assert (Em : forall v, (~ exists m, In (m, v) rs) -> LabS.list_text v rs = []).
  { intros v H. destruct (LabS.list_text v rs) eqn:E; [reflexivity|]. exfalso. apply H. apply list_nonempty; [exact N|]. rewrite E. discriminate. }
  destruct D as [[-> A]|[(-> & A & B)|(-> & A & B)]].
  - left. split; [apply list_nonempty; assumption|reflexivity].
  - right. left. split; [apply Em; exact A|]. split; [apply list_nonempty; assumption|reflexivity].
  - right. right. split; [apply Em; exact A|]. split; [apply Em; exact B|reflexivity].
Qed.

Lemma lab_status : forall P o0 t0 q sh l ws, q <> [] -> (forall m, In m q -> mutant_name true m <> None) -> lists_exact o0 [] ->
  reachable P o0 t0 q (mkLS sh (MEnd (ROk l)) ws) ->
  lists_exact (sh_out sh) (verdicts (lo_outcomes l)) /\ lo_outcomes l <> []
  /\ ((verdicts (lo_outcomes l) = [] /\ lab_exit_code l = Some 4%Z /\ pa_skip_baseline P = false)
      \/ (Permutation (map fst (verdicts (lo_outcomes l))) q /\ exists code, lab_exit_code l = Some code /\ told_by_lists (sh_out sh) code)).
Proof.
  intros P o0 t0 q sh l ws NE N1 L0 R. destruct (C11_exact_if_ok _ _ _ _ _ _ _ N1 L0 R) as [El LE]. split; [exact LE|].
  pose proof (results_end _ _ _ _ _ _ _ R) as RE. destruct (totals_end _ _ _ _ _ _ _ R) as [_ Tot].
  pose proof (recorded_verdicts l RE) as RV.
  assert (NO : lo_outcomes l <> []).
  { intro Y. destruct (C12_all_recorded _ _ _ _ _ _ _ R) as [Pm|[_ (o & Io & _)]]; [|rewrite Y in Io; destruct Io].
    unfold recorded in Pm. rewrite Y in Pm. apply Permutation_nil in Pm. contradiction. }
  split; [exact NO|].
  destruct (C09_exit_code _ _ RE) as (l' & code & A & C & D). rewrite Tot in A. injection A as <-.
  assert (Sub : forall m v, In (m, v) (verdicts (lo_outcomes l)) -> mutant_name true m <> None).
  { intros m v I. apply N1. destruct (c12_accounted _ _ _ _ _ R) as (lost & HP & _). eapply Permutation_in; [exact HP|]. rewrite !in_app_iff. right; right; left.
    cbn [ls_sh]. rewrite <- El, <- RV. apply in_map_iff. exists (m, v). auto. }
  assert (Vd : forall v, (exists o, In o (lo_outcomes l) /\ is_mutant (oc_scenario o) = true /\ summary o = Some v) <-> exists m, In (m, v) (verdicts (lo_outcomes l))).
  { intro v. split.
    - intros (o & Io & M & S). destruct (oc_scenario o) as [|m] eqn:Es; [discriminate|]. exists m. apply verdicts_in. eauto.
    - intros (m & I). apply verdicts_in in I. destruct I as (o & Io & Es & S). exists o. rewrite Es. auto. }
  destruct D as [[-> (o & Io & U)]|D].
  - left. destruct U as [Us Uf]. cbn [ls_sh] in *.
    assert (Rn : recorded l = []).
    { rewrite El. eapply (C14_failed_baseline _ _ _ _ _ o R); cbn [ls_sh]; [rewrite <- El; exact Io|exact Us|]. unfold oc_success, last_result. intro Y.
      destruct (last_opt (oc_results o)) as [pr|] eqn:E; [|discriminate]. apply (Uf pr eq_refl). destruct (pr_status pr); try discriminate Y. reflexivity. }
    split; [|split; [exact C|]].
    + rewrite Rn in RV. destruct (verdicts (lo_outcomes l)); [reflexivity|discriminate].
    + destruct (c12_ok _ _ _ _ _ _ _ R) as [_ [Pm|(d & o' & Rb & _)]].
      * rewrite Rn in Pm. apply Permutation_nil in Pm. contradiction.
      * exact (proj1 (proj2 (proj2 (proj2 (base_inv _ _ _ _ _ Rb))))).
  - right. assert (NB : forall o, In o (lo_outcomes l) -> ~ baseline_unsuccessful o) by (destruct D as [(_ & B & _)|[(_ & B & _)|(_ & B & _)]]; exact B).
    split.
    + rewrite RV. destruct (C12_all_recorded _ _ _ _ _ _ _ R) as [Pm|[_ (o & Io & Es & F)]]; [exact Pm|].
      exfalso. apply (NB o Io). split; [exact Es|]. intros pr E Y. unfold oc_success, last_result in F. rewrite E, Y in F. discriminate F.
    + exists code. split; [exact C|]. eapply told; [exact LE|reflexivity|exact Sub|].
      destruct D as [(-> & _ & B)|[(-> & _ & B1 & B2)|(-> & _ & B)]].
      * left. split; [reflexivity|]. apply Vd. exact B.
      * right. left. split; [reflexivity|]. split; [|apply Vd; exact B2]. intro Y. apply Vd in Y. destruct Y as (o & Io & M & S). exact (B1 o Io M S).
      * right. right. split; [reflexivity|]. split; intro Y; apply Vd in Y; destruct Y as (o & Io & M & S); destruct (B o Io M); congruence.
Qed.
