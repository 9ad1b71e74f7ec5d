From Coq Require Import String List NArith ZArith QArith Bool Arith Lia Permutation.
From Verif Require Import Text Sort SpanM PathM MutantM ProcessM ProcessS ProcessP OutcomeM OutcomeP F64M TimeoutM TimeoutS TimeoutP OutputM OptionsM
  PackageM PackageS PackageP CargoM CargoS CargoP LabM LabS LabP LabT LaunchM LaunchS.
Import ListNotations.
Open Scope nat_scope.

Section Run.
Context (P : params) (X : context) (o0 : entries) (t0 : tree) (ms : list mutant).
Notation rreach := (rreachable P X ms o0 t0).
Notation reach := (reachable P o0 t0 ms).
Notation opts := (timeout_options (cx_options X)).

Lemma cargo_step : forall st i d s done p todo r t, reach st -> at_pc st i (WCargo d s done p todo) ->
  same_sources P (get_tree (ls_sh st) d) t ->
  step P (length ms) st (put_pc st i (put_tree (ls_sh st) d t) (after_cargo d s done p todo r)).
Proof.
  intros st i d s done p todo r t Hr Hp Ht.
  assert (S : forall j, sstep P j (ls_sh st) (WCargo d s done p todo) (put_tree (ls_sh st) d t) (after_cargo d s done p todo r)).
  { intro j. unfold after_cargo. destruct r as [[e dur]|]; [destruct (is_success e) eqn:E|]; constructor; assumption. }
  pose proof (base_inv _ _ _ _ _ Hr) as B. destruct st as [sh [c| |x] ws]; cbn [at_pc put_pc ls_main ls_workers ls_sh] in *.
  - destruct Hp as [-> <-]. destruct B as (_ & Hw & _). cbn in Hw. subst ws. apply st_baseline. apply S.
  - eapply st_worker; [exact Hp|]. apply ws_scenario. apply S.
  - destruct Hp.
Qed.

Definition panicked (r : rstate) : Prop :=
  exists sh d o, rs_lab r = mkLS sh (MEnd RPanic) [] /\ reach (mkLS sh (MBaseline (WFin d o)) [])
    /\ oc_success o = Some true /\ mutant_timeouts rnd64 (Some o) opts = None.

Lemma no_step_end : forall n sh x ws st', ~ step P n (mkLS sh (MEnd x) ws) st'.
Proof. intros n sh x ws st' H. inversion H. Qed.

Lemma project : forall r, rreach r -> reach (rs_lab r) \/ panicked r.
Proof.
  intros r H. unfold rreachable in H. remember (rstart P X ms o0 t0) as r0 eqn:E0. induction H as [s|s s' s'' Hs IH Hst].
  - left. subst s. apply steps_refl.
  - specialize (IH E0). subst s. destruct Hst as [st lim log i d s done p todo polls r t Hp Hg Ht|sh d o lim log t Ho Hm|sh d o lim log Ho Hm|st st' lim log Hst Hc Hb];
      cbn [rs_lab] in *.
    + destruct IH as [IH|(sh & d' & o & E & _)].
      * left. eapply steps_more; [exact IH|]. apply cargo_step; assumption.
      * cbn in E. subst st. destruct Hp.
    + destruct IH as [IH|(sh' & d' & o' & E & _)]; [|discriminate E].
      left. eapply steps_more; [exact IH|]. eapply st_baseline_ok. exact Ho.
    + destruct IH as [IH|(sh' & d' & o' & E & _)]; [|discriminate E].
      right. exists sh, d, o. auto.
    + destruct IH as [IH|(sh' & d' & o' & E & _)].
      * left. eapply steps_more; [exact IH|exact Hst].
      * cbn in E. subst st. exfalso. exact (no_step_end _ _ _ _ _ Hst).
Qed.

(** An invariant of the states from which the run goes on. *)
Lemma run_ind : forall I : rstate -> Prop,
  I (rstart P X ms o0 t0) ->
  (forall r r', rreach r -> reach (rs_lab r) -> I r -> rstep P X ms r r' -> I r') ->
  forall r, rreach r -> I r.
Proof.
  intros I H0 Hs r H. unfold rreachable in H. remember (rstart P X ms o0 t0) as r0 eqn:E0. induction H as [s|s s' s'' Hr IH Hst].
  - subst s. exact H0.
  - specialize (IH E0). subst s. destruct (project s' Hr) as [Hl|(sh & d & o & E & _)].
    + exact (Hs s' s'' Hr Hl (IH H0) Hst).
    + destruct s' as [l lim log]. cbn in E. subst l. inversion Hst; subst.
      * match goal with H : at_pc _ _ _ |- _ => destruct H end.
      * exfalso. eapply no_step_end. eassumption.
Qed.

(** * The limits *)
Definition all_baseline (log : list launch) : Prop := Forall (fun l => la_scenario l = Baseline) log.
Definition limits_from (sh : shared) (T : timeouts) : Prop :=
  if pa_skip_baseline P then mutant_timeouts (M := mutant) rnd64 None opts = Some T
  else exists b rest, lo_outcomes (sh_lab sh) = b :: rest /\ baseline_passed P b /\ mutant_timeouts rnd64 (Some b) opts = Some T.

Definition limits_ok (r : rstate) : Prop :=
  match ls_main (rs_lab r) with
  | MBaseline _ => rs_limits r = None /\ all_baseline (rs_log r)
  | MWork => exists T, rs_limits r = Some T /\ limits_from (ls_sh (rs_lab r)) T
  | MEnd _ => (rs_limits r = None /\ all_baseline (rs_log r)) \/ exists T, rs_limits r = Some T /\ limits_from (ls_sh (rs_lab r)) T
  end.

Lemma lab_grows : forall n st st', step P n st st' ->
  lo_outcomes (sh_lab (ls_sh st')) = lo_outcomes (sh_lab (ls_sh st))
  \/ exists o, lo_outcomes (sh_lab (ls_sh st')) = lo_outcomes (sh_lab (ls_sh st)) ++ [o].
Proof.
  assert (S : forall i sh c sh' c', sstep P i sh c sh' c' -> lo_outcomes (sh_lab sh') = lo_outcomes (sh_lab sh)
     \/ exists o, lo_outcomes (sh_lab sh') = lo_outcomes (sh_lab sh) ++ [o]).
  { intros i sh c sh' c' H. destruct (sstep_lab _ _ _ _ _ _ H) as [[-> _]|(d & s & dn & _ & _ & E)]; eauto. }
  intros n st st' H. destruct H; cbn [ls_sh]; try (left; reflexivity).
  - eapply S. eassumption.
  - match goal with H : wstep _ _ _ _ _ _ |- _ => destruct H end; try (left; reflexivity). eapply S. eassumption.
Qed.

Lemma limits_from_grows : forall sh sh' T, limits_from sh T ->
  lo_outcomes (sh_lab sh') = lo_outcomes (sh_lab sh) \/ (exists o, lo_outcomes (sh_lab sh') = lo_outcomes (sh_lab sh) ++ [o]) ->
  limits_from sh' T.
Proof.
  unfold limits_from. intros sh sh' T H G. destruct (pa_skip_baseline P); [exact H|].
  destruct H as (b & rest & E & H). destruct G as [G|[o G]]; rewrite G, E.
  - eauto.
  - exists b, (rest ++ [o]). auto.
Qed.

Lemma skip_limits : exists T, mutant_timeouts (M := mutant) rnd64 None opts = Some T.
Proof. rewrite c23_skip. eauto. Qed.

Lemma limits_inv : forall r, rreach r -> limits_ok r.
Proof.
  apply run_ind.
  - unfold limits_ok, rstart, start_state. destruct skip_limits as [T ET].
    destruct (pa_skip_baseline P) eqn:E; cbn [rs_lab ls_main rs_limits rs_log ls_sh].
    + rewrite ET. exists T. split; [reflexivity|]. unfold limits_from. rewrite E. exact ET.
    + split; [reflexivity|constructor].
  - intros r r' Hr Hl Hi Hst. pose proof (base_inv _ _ _ _ _ Hl) as B. unfold limits_ok in *.
    destruct Hst as [st lim log i d s done p todo polls rr t Hp Hg Ht|sh d o lim log t Ho Hm|sh d o lim log Ho Hm|st st' lim log Hst Hc Hb];
      cbn [rs_lab rs_limits rs_log ls_main ls_sh] in *.
    + destruct st as [sh [c| |x] ws]; cbn [at_pc put_pc ls_main ls_workers ls_sh] in *.
      * destruct Hi as [-> Ha]. split; [reflexivity|]. apply Forall_app. split; [exact Ha|]. constructor; [|constructor].
        destruct Hp as [-> <-]. destruct B as ([d' B] & _). cbn in *. congruence.
      * destruct Hi as (T & -> & Hf). exists T. split; [reflexivity|]. exact Hf.
      * destruct Hp.
    + exists t. split; [reflexivity|]. unfold limits_from. destruct B as (_ & _ & _ & Hk & _). rewrite Hk.
      assert (Hw : reach (mkLS (set_dir0 sh (Some d)) MWork (spawn (n_threads (pa_jobs P) (length ms))))).
      { eapply steps_more; [exact Hl|]. eapply st_baseline_ok. exact Ho. }
      destruct (work_lab_inv _ _ _ _ _ _ Hw) as [_ HW]. rewrite Hk in HW. destruct HW as (b & rest & E & G & _).
      exists b, rest. split; [exact E|]. split; [exact G|].
      destruct (base_lab _ _ _ _ _ _ _ Hl) as [E'|E']; [discriminate E'|]. cbn in E, E'. rewrite E' in E. injection E as -> _. exact Hm.
    + left. exact Hi.
    + pose proof (lab_grows _ _ _ Hst) as G. destruct Hst; cbn [ls_main ls_sh] in *; auto.
      * exfalso. eapply Hb; [reflexivity|eassumption].
      * destruct Hi as (T & E & Hf). exists T. split; [exact E|]. eapply limits_from_grows; eassumption.
Qed.

(** * Each process *)
Definition proper (lim : option timeouts) (l : launch) : Prop :=
  l = launch_of X ms lim (la_dir l) (la_scenario l) (la_phase l) (la_tree l) (la_polls l) (la_result l)
  /\ cargo_gives (la_limit l) (la_polls l) (la_result l)
  /\ In (la_phase l) (phases (pa_check_only P))
  /\ (forall m, la_scenario l = Mutant m -> In m ms /\ lim <> None)
  /\ ((forall m, In m ms -> loaded P m) -> first_tree P t0 -> options_ok P -> right_files P l).

Lemma at_pc_threads : forall st i c, at_pc st i c -> In c (threads st) /\ (forall x, ls_main st <> MEnd x) /\ nth_error (threads st) i = Some c.
Proof.
  intros [sh [c'| |x] ws] i c H; cbn [at_pc ls_main ls_workers threads] in *.
  - destruct H as [-> ->]. split; [left; reflexivity|]. split; [discriminate|reflexivity].
  - split; [eapply nth_error_In; exact H|]. split; [discriminate|exact H].
  - destruct H.
Qed.

Lemma proper_baseline : forall lim lim' l, la_scenario l = Baseline -> proper lim l -> proper lim' l.
Proof.
  intros lim lim' l Hs (E & G & Hp & Hm & Hf). split; [|split; [exact G|split; [exact Hp|split; [|exact Hf]]]].
  - rewrite E at 1. unfold launch_of. rewrite Hs. reflexivity.
  - intros m E'. congruence.
Qed.

Lemma proper_inv : forall r, rreach r -> Forall (proper (rs_limits r)) (rs_log r).
Proof.
  intros r H. revert r H. apply (run_ind (fun r => Forall (proper (rs_limits r)) (rs_log r))).
  - constructor.
  - intros r r' Hr Hl Hi Hst. pose proof (limits_inv r Hr) as HL. unfold limits_ok in HL.
    destruct Hst as [st lim log i d s done p todo polls rr t Hp Hg Ht|sh d o lim log t Ho Hm|sh d o lim log Ho Hm|st st' lim log Hst Hc Hb];
      cbn [rs_lab rs_limits rs_log ls_main ls_sh] in *; try assumption.
    + apply Forall_app. split; [exact Hi|]. constructor; [|constructor].
      destruct (at_pc_threads _ _ _ Hp) as (Hin & Hne & _).
      pose proof (wf_inv _ _ _ _ _ Hl) as W.
      assert (Hwf : wf P ms (WCargo d s done p todo)).
      { destruct (ls_main st) eqn:Em; [| |destruct (Hne _ eq_refl)]; destruct W as (_ & W & _); rewrite Forall_forall in W; apply W; exact Hin. }
      destruct Hwf as [Hwm Hwp]. cbn in Hwp.
      split; [reflexivity|]. split; [exact Hg|]. split; [|split].
      * cbn. destruct Hwp as [Hwp _]. rewrite <- Hwp. apply in_or_app. right. left. reflexivity.
      * cbn. intros m ->. split; [eapply Hwm; reflexivity|].
        destruct st as [sh [c| |x] ws]; cbn [at_pc ls_main] in *.
        -- exfalso. destruct Hp as [-> <-]. pose proof (base_inv _ _ _ _ _ Hl) as ([d' B] & _). cbn in B. congruence.
        -- destruct HL as (T & -> & _). discriminate.
        -- destruct Hp.
      * intros H1 H2 H3. exact (c13_cargo P o0 t0 ms H1 H2 H3 st d s done p todo Hl Hin).
    + destruct HL as [-> HA]. unfold all_baseline in HA. rewrite Forall_forall in *. intros l Hin. apply proper_baseline with None; auto.
Qed.

(** * The processes of a scenario and its results *)
Lemma of_app_this : forall s log ls l, la_scenario l = s -> of_scenario s log ls -> of_scenario s (log ++ [l]) (ls ++ [l]).
Proof. intros s log ls l E H. induction H; cbn; [|constructor; assumption|apply of_other; assumption]. constructor; [exact E|constructor]. Qed.
Lemma of_app_other : forall s log ls l, la_scenario l <> s -> of_scenario s log ls -> of_scenario s (log ++ [l]) ls.
Proof. intros s log ls l E H. induction H; cbn; [|constructor; assumption|apply of_other; assumption]. apply of_other; [exact E|constructor]. Qed.

Definition results_so_far (c : wpc) : option (scenario mutant * list phase_result) :=
  match c with
  | WStart _ s | WApply _ s => Some (s, [])
  | WPhase _ s dn _ | WCargo _ s dn _ _ | WRevert _ s dn | WAdd _ s dn => Some (s, dn)
  | _ => None
  end.

Definition gave (log : list launch) (s : scenario mutant) (rs : list phase_result) : Prop :=
  exists ls, of_scenario s log ls /\ map given ls = map Some rs.

Definition matches (log : list launch) (st : state) : Prop :=
  (forall o, In o (lo_outcomes (sh_lab (ls_sh st))) -> gave log (oc_scenario o) (oc_results o))
  /\ (forall c s dn, In c (threads st) -> results_so_far c = Some (s, dn) -> gave log s dn)
  /\ (forall m, In m (sh_queue (ls_sh st)) -> gave log (Mutant m) []).

Lemma sstep_so_far : forall i sh c sh' c', sstep P i sh c sh' c' -> (forall d s dn p td, c <> WCargo d s dn p td) ->
  sh_queue sh' = sh_queue sh
  /\ (forall s dn, results_so_far c' = Some (s, dn) -> results_so_far c = Some (s, dn))
  /\ (forall o, In o (lo_outcomes (sh_lab sh')) -> In o (lo_outcomes (sh_lab sh)) \/ results_so_far c = Some (oc_scenario o, oc_results o)).
Proof.
  intros i sh c sh' c' H Hc. split; [|split].
  - destruct (sstep_frame _ _ _ _ _ _ H) as (E & _). exact E.
  - destruct H; cbn; try discriminate; auto; exfalso; eapply Hc; reflexivity.
  - intros o Ho. destruct (sstep_lab _ _ _ _ _ _ H) as [[E _]|(d & s & dn & -> & -> & E)]; [rewrite E in Ho; auto|].
    rewrite E in Ho. apply in_app_or in Ho. destruct Ho as [Ho|[<-|[]]]; auto.
Qed.

Lemma in_set : forall (ws : list wpc) i c x, In x (list_set ws i c) -> x = c \/ exists j, j <> i /\ nth_error ws j = Some x.
Proof.
  intros ws i c x H. apply In_nth_error in H. destruct H as [j Hj]. destruct (Nat.eq_dec j i) as [->|N].
  - left. destruct (nth_error ws i) eqn:E.
    + rewrite nth_error_set_same in Hj by (eapply nth_error_lt; exact E). congruence.
    + exfalso. apply nth_error_None in E. assert (nth_error (list_set ws i c) i = None) by (apply nth_error_None; rewrite list_set_length; exact E). congruence.
  - right. exists j. split; [exact N|]. rewrite nth_error_set_other in Hj by auto. exact Hj.
Qed.

Lemma matches_other : forall log st st', matches log st -> step P (length ms) st st' ->
  (forall i d s done p todo, at_pc st i (WCargo d s done p todo) -> at_pc st' i (WCargo d s done p todo)) -> matches log st'.
Proof.
  intros log st st' (H1 & H2 & H3) Hst Hc. destruct Hst as [sh c sh' c' Hs|sh d o Ho|sh d o Ho|sh|sh|sh ws i c sh' c' Hn Hs|sh ws He].
  - assert (N : forall d s dn p td, c <> WCargo d s dn p td).
    { intros d s dn p td ->. destruct (Hc 0 d s dn p td) as [_ E]; [split; reflexivity|]. rewrite <- E in Hs. inversion Hs. }
    destruct (sstep_so_far _ _ _ _ _ Hs N) as (A & B & C). split; [|split]; cbn in *.
    + intros o Ho. destruct (C o Ho) as [D|D]; [auto|]. eapply H2; [left; reflexivity|exact D].
    + intros c0 s dn [<-|[]] E. eapply H2; [left; reflexivity|]. apply B. exact E.
    + rewrite A. exact H3.
  - split; [exact H1|]. split; [|exact H3]. cbn. intros c s dn Hi E. apply repeat_spec in Hi. subst. discriminate.
  - split; [exact H1|]. split; [|exact H3]. cbn. intros c s dn [].
  - split; [exact H1|]. split; [|exact H3]. cbn. intros c s dn [].
  - split; [exact H1|]. split; [|exact H3]. cbn. intros c s dn [].
  - assert (N : forall d s dn p td, c <> WCargo d s dn p td).
    { intros d s dn p td ->. specialize (Hc i d s dn p td Hn). cbn in Hc. rewrite nth_error_set_same in Hc by (eapply nth_error_lt; exact Hn).
      injection Hc as ->. inversion Hs. match goal with H : sstep _ _ _ _ _ _ |- _ => inversion H end. }
    pose proof (nth_error_In _ _ Hn) as Hin.
    assert (K : (forall o, In o (lo_outcomes (sh_lab sh')) -> gave log (oc_scenario o) (oc_results o))
       /\ (forall s dn, results_so_far c' = Some (s, dn) -> gave log s dn)
       /\ (forall m, In m (sh_queue sh') -> gave log (Mutant m) [])).
    { cbn in H1, H2, H3. destruct Hs as [| | | |d m q Hq| | |c sh' c' Hs]; cbn; try (split; [exact H1|]; split; [discriminate|exact H3]).
      - split; [exact H1|]. rewrite Hq in H3. split.
        + intros s dn E. injection E as <- <-. apply H3. left. reflexivity.
        + intros m' Hm. apply H3. right. exact Hm.
      - destruct (sstep_so_far _ _ _ _ _ Hs N) as (A & B & C). split; [|split].
        + intros o Ho. destruct (C o Ho) as [D|D]; [auto|]. eapply H2; [exact Hin|exact D].
        + intros s dn E. eapply H2; [exact Hin|]. apply B. exact E.
        + rewrite A. exact H3. }
    destruct K as (K1 & K2 & K3). split; [exact K1|]. split; [|exact K3]. cbn.
    intros x s dn Hx E. apply in_set in Hx. destruct Hx as [->|(j & _ & Hj)]; [eapply K2; exact E|].
    eapply H2; [|exact E]. cbn. eapply nth_error_In. exact Hj.
  - split; [exact H1|]. split; [|exact H3]. exact H2.
Qed.

Lemma hand_of : forall c m dn, results_so_far c = Some (Mutant m, dn) -> In m (in_hand c).
Proof. intros c m dn H. destruct c; try discriminate; injection H; intros; subst; left; reflexivity. Qed.

Lemma gave_other : forall log s rs l, la_scenario l <> s -> gave log s rs -> gave (log ++ [l]) s rs.
Proof. intros log s rs l N (ls & A & B). exists ls. split; [apply of_app_other; assumption|exact B]. Qed.

Lemma matches_inv : NoDup ms -> forall r, rreach r -> matches (rs_log r) (rs_lab r).
Proof.
  intro ND. apply (run_ind (fun r => matches (rs_log r) (rs_lab r))).
  - unfold rstart, start_state. cbn [rs_log rs_lab]. split; [intros o []|]. split.
    + intros c s dn Hc E. unfold threads in Hc. destruct (pa_skip_baseline P); cbn in Hc.
      * apply repeat_spec in Hc. subst. discriminate.
      * destruct Hc as [<-|[]]. injection E as <- <-. exists []. split; [constructor|reflexivity].
    + intros m _. exists []. split; [constructor|reflexivity].
  - intros r r' Hr Hl Hi Hst.
    destruct Hst as [st lim log i d s done p todo polls rr t Hp Hg Ht|sh d o lim log t Ho Hm|sh d o lim log Ho Hm|st st' lim log Hst Hc Hb];
      cbn [rs_lab rs_limits rs_log] in *.
    + pose proof (at_pc_threads _ _ _ Hp) as (Hin & Hne & Hth). destruct Hi as (H1 & H2 & H3).
      set (l := launch_of X ms lim d s p (get_tree (ls_sh st) d) polls rr).
      assert (Els : la_scenario l = s) by reflexivity.
      (* nobody else has this scenario *)
      assert (O : (forall o, In o (lo_outcomes (sh_lab (ls_sh st))) -> oc_scenario o <> s)
         /\ (forall j c s' dn, j <> i -> nth_error (threads st) j = Some c -> results_so_far c = Some (s', dn) -> s' <> s)
         /\ (forall m, In m (sh_queue (ls_sh st)) -> Mutant m <> s)).
      { destruct s as [|m].
        - destruct st as [sh [c| |x] ws]; cbn [at_pc ls_main ls_workers ls_sh threads] in *.
          + destruct Hp as [-> <-]. destruct (base_lab _ _ _ _ _ _ _ Hl) as [E|E]; [discriminate|]. cbn in E. rewrite E.
            split; [intros o []|]. split; [|discriminate]. intros [|j] c s' dn N E'; [destruct (N eq_refl)|]. destruct j; discriminate E'.
          + exfalso. destruct (work_lab_inv _ _ _ _ _ _ Hl) as [W _]. specialize (W _ d Baseline Hin eq_refl). discriminate.
          + destruct Hp.
        - assert (K := fun j cj Hj => C12_no_double P o0 t0 ms st i j _ cj m ND Hl Hth Hj (or_introl eq_refl)).
          destruct (K i _ Hth) as (_ & K2 & K3). split; [|split].
          + intros o Ho E. apply K3. unfold recorded. apply in_flat_map. exists o. split; [exact Ho|]. rewrite E. left. reflexivity.
          + intros j c s' dn N Hj E ->. apply N. symmetry. apply (proj1 (K j c Hj)). eapply hand_of. exact E.
          + intros m' Hm E. injection E as ->. contradiction. }
      destruct O as (O1 & O2 & O3).
      assert (Q : ls_sh (put_pc st i (put_tree (ls_sh st) d t) (after_cargo d s done p todo rr)) = put_tree (ls_sh st) d t).
      { unfold put_pc. destruct (ls_main st); reflexivity. }
      split; [|split]; rewrite ?Q.
      * cbn [put_tree set_trees sh_lab]. intros o Ho. apply gave_other; [rewrite Els; intro E; exact (O1 o Ho (eq_sym E))|apply H1; exact Ho].
      * assert (T : forall c, In c (threads (put_pc st i (put_tree (ls_sh st) d t) (after_cargo d s done p todo rr))) ->
           c = after_cargo d s done p todo rr \/ exists j, j <> i /\ nth_error (threads st) j = Some c).
        { destruct st as [sh [c'| |x] ws]; cbn [at_pc put_pc ls_main ls_workers ls_sh threads] in *.
          - intros c [<-|[]]. left. reflexivity.
          - intros c Hc. apply in_set in Hc. exact Hc.
          - destruct Hp. }
        intros c s' dn Hc E. destruct (T c Hc) as [->|(j & N & Hj)].
        -- destruct (H2 _ s done Hin eq_refl) as (ls & A & B). unfold after_cargo in E. destruct rr as [[e dur]|]; [|discriminate].
           assert (E' : s' = s /\ dn = done ++ [mkPR p dur e]) by (destruct (is_success e); injection E; auto). destruct E' as [-> ->].
           exists (ls ++ [l]). split; [apply of_app_this; assumption|]. rewrite !map_app, B. reflexivity.
        -- apply gave_other; [rewrite Els; intro E'; exact (O2 j c s' dn N Hj E (eq_sym E'))|]. eapply H2; [eapply nth_error_In; exact Hj|exact E].
      * cbn [put_tree set_trees sh_queue]. intros m Hm. apply gave_other; [rewrite Els; intro E; exact (O3 m Hm (eq_sym E))|apply H3; exact Hm].
    + destruct Hi as (H1 & H2 & H3). split; [exact H1|]. split; [|exact H3]. cbn. intros c s dn Hc E. apply repeat_spec in Hc. subst. discriminate.
    + destruct Hi as (H1 & H2 & H3). split; [exact H1|]. split; [|exact H3]. intros c s dn [].
    + eapply matches_other; eassumption.
Qed.

(** * Commands *)
Lemma word_selects : forall p, package_word p = tx "--package=" ++ pk_name p ++ tx "@" ++ pk_version p.
Proof. reflexivity. Qed.

Lemma right_words : forall s, names_unique (cx_meta X) -> (forall m, s = Mutant m -> In m ms) ->
  right_packages X ms s
    match test_selection X ms s with SelAll => [tx "--workspace"] | SelExplicit ps => map package_word ps end.
Proof.
  intros [|m] U Hm; unfold right_packages, test_selection.
  - destruct (c42_baseline (map (cx_package X) ms)) as (l & E & A & B & _). rewrite E. intro w. rewrite in_map_iff. split.
    + intros (p & <- & Hp). apply A, in_map_iff in Hp. destruct Hp as (m & <- & Hm'). eauto.
    + intros (m & Hin & ->). destruct (B (cx_package X m)) as (q & Hq & E1 & E2); [apply in_map; exact Hin|].
      exists q. split; [|exact Hq]. unfold package_word. now rewrite E1, E2.
  - split; [apply Hm; reflexivity|]. destruct (c42_which (cx_meta X) (cx_package X m) U) as (A & B & C).
    destruct (op_test_package (cx_options X)) eqn:Et.
    all: try (rewrite ?A, ?B; reflexivity).
    intro w. specialize (C names). cbn [mutant_selection] in *. cbn [tests_run] in C. rewrite in_map_iff. split.
    + intros (p & <- & Hp). apply C in Hp. destruct Hp. eauto.
    + intros (p & H1 & H2 & ->). exists p. split; [reflexivity|]. apply C. auto.
Qed.

Lemma command_right : forall r l, names_unique (cx_meta X) -> rreach r -> In l (rs_log r) -> right_command P X ms l.
Proof.
  intros r l U H Hl. pose proof (proper_inv r H) as F. rewrite Forall_forall in F. destruct (F l Hl) as (E & _ & Hp & Hm & _).
  split; [exact Hp|].
  assert (Ea : la_argv l = cargo_argv (cx_env X) (test_selection X ms (la_scenario l)) (la_phase l) (cx_options X)) by (rewrite E; reflexivity).
  rewrite Ea. eexists. exists (tl (cargo_argv (cx_env X) (test_selection X ms (la_scenario l)) (la_phase l) (cx_options X))).
  split; [reflexivity|]. split; [apply c25_selection|]. split.
  - apply right_words; [exact U|]. intros m Em. destruct (Hm m Em) as [A _]. exact A.
  - destruct (c25_executes (cx_env X) (test_selection X ms (la_scenario l)) (la_phase l) (cx_options X)) as [A B].
    split; [exact A|]. intros Ep Hn. apply B; [exact Ep|]. rewrite Ep. exact Hn.
Qed.

Lemma child_env_app : forall a b e, child_env e (a ++ b) = child_env (child_env e a) b.
Proof. induction a as [|[k v] a IH]; intros b e; [reflexivity|]. cbn. apply IH. Qed.
Lemma child_env_not : forall b e v, (forall x, ~ In (v, x) b) -> child_env e b v = e v.
Proof.
  induction b as [|[k x] b IH]; intros e v H; [reflexivity|]. cbn. rewrite IH; [|intros y Hy; exact (H y (or_intror Hy))].
  destruct (text_eqb v k) eqn:E; [|reflexivity]. apply text_eqb_eq in E. subst k. exfalso. eapply H. left. reflexivity.
Qed.

Lemma env_right : forall r l v, rreach r -> In l (rs_log r) -> (forall x, ~ In (v, x) (cx_jobserver X)) ->
  la_env l v = child_env (cx_env X) (cargo_env (cx_env X) (cx_options X)) v.
Proof.
  intros r l v H Hl Hv. pose proof (proper_inv r H) as F. rewrite Forall_forall in F. destruct (F l Hl) as (E & _).
  rewrite E. cbn [launch_of la_env]. rewrite child_env_app, child_env_not; [reflexivity|].
  intros x Hx. destruct (op_jobserver (cx_options X)); [exact (Hv x Hx)|exact Hx].
Qed.

(** * Limits *)
Lemma limit_baseline : forall r l, rreach r -> In l (rs_log r) -> la_scenario l = Baseline ->
  la_limit l = match la_phase l with Test => op_test_timeout (cx_options X) | _ => None end.
Proof.
  intros r l H Hl Hs. pose proof (proper_inv r H) as F. rewrite Forall_forall in F. destruct (F l Hl) as (E & _).
  rewrite E. cbn [launch_of la_limit]. rewrite Hs. destruct (la_phase l); reflexivity.
Qed.

Lemma limit_mutant : forall r l m, rreach r -> In l (rs_log r) -> la_scenario l = Mutant m ->
  exists T, rs_limits r = Some T /\ la_limit l = phase_timeout T (la_phase l) /\ limits_from (ls_sh (rs_lab r)) T.
Proof.
  intros r l m H Hl Hs. pose proof (proper_inv r H) as F. rewrite Forall_forall in F. destruct (F l Hl) as (E & _ & _ & Hm & _).
  destruct (Hm m Hs) as [_ Hn]. pose proof (limits_inv r H) as L. unfold limits_ok in L.
  assert (K : exists T, rs_limits r = Some T /\ limits_from (ls_sh (rs_lab r)) T).
  { destruct (ls_main (rs_lab r)); [destruct L; contradiction|exact L|destruct L as [[A _]|L]; [contradiction|exact L]]. }
  destruct K as (T & ET & K). exists T. split; [exact ET|]. split; [|exact K].
  rewrite E. cbn [launch_of la_limit]. rewrite Hs, ET. reflexivity.
Qed.

Lemma of_in : forall s log ls l, of_scenario s log ls -> In l ls -> In l log /\ la_scenario l = s.
Proof.
  intros s log ls l H. induction H; intro Hin; [destruct Hin| |].
  - destruct Hin as [<-|Hin]; [split; [left; reflexivity|assumption]|]. destruct (IHof_scenario Hin). split; [right|]; assumption.
  - destruct (IHof_scenario Hin). split; [right|]; assumption.
Qed.

Lemma given_in : forall log s rs pr, gave log s rs -> In pr rs ->
  exists l, In l log /\ la_scenario l = s /\ la_phase l = pr_phase pr /\ la_result l = Some (pr_status pr, pr_duration pr).
Proof.
  intros log s rs pr (ls & A & B) Hin. assert (K : In (Some pr) (map given ls)) by (rewrite B; apply in_map; exact Hin).
  apply in_map_iff in K. destruct K as (l & E & Hl). destruct (of_in _ _ _ _ A Hl) as [H1 H2].
  exists l. split; [exact H1|]. split; [exact H2|]. unfold given in E. destruct (la_result l) as [[e d]|]; [|discriminate].
  injection E as <-. auto.
Qed.

(** * Panics *)
Lemma no_panic_run : forall r sh ws, named ms -> rreach r -> rs_lab r = mkLS sh (MEnd RPanic) ws ->
  exists d o, oc_success o = Some true /\ reach (mkLS sh (MBaseline (WFin d o)) []) /\ mutant_timeouts rnd64 (Some o) opts = None.
Proof.
  intros r sh ws Hn H E. destruct (project r H) as [Hl|(sh' & d & o & E' & A & B & C)].
  - exfalso. rewrite E in Hl. exact (no_panic P o0 t0 ms Hn _ _ _ Hl eq_refl).
  - rewrite E in E'. injection E' as <- _. eauto.
Qed.

Lemma find_in : forall (o : outcome mutant) p pr, find_phase o p = Some pr -> In pr (oc_results o).
Proof. intros o p pr H. unfold find_phase in H. apply find_some in H. tauto. Qed.

(** * Verdicts *)
Lemma run_status : forall lim polls e, fst (run_loop lim polls) = RunExit e ->
  exists pre x post, polls = pre ++ x :: post
    /\ ((e = ExTimeout /\ exists t, lim = Some t /\ (t < sm_elapsed x)%N /\ forall q, In q pre -> (sm_elapsed q <= t)%N /\ sm_status q = None)
        \/ exists w, sm_status x = Some w /\ sm_interrupted x = false /\ (forall t, lim = Some t -> (sm_elapsed x <= t)%N) /\ e = exit_of_status w).
Proof.
  intros lim polls e H. destruct (run_loop lim polls) as [r fx] eqn:E. cbn in H. subst r.
  destruct (run_complete lim polls) as [[_ E']|(pre & x & post & r & fx' & Es & Q & W & E')]; rewrite E in E'; [discriminate|].
  injection E' as <- <-. exists pre, x, post. split; [exact Es|].
  assert (N : ~ past lim x -> forall t, lim = Some t -> (sm_elapsed x <= t)%N).
  { intros Np t Et. apply N.nlt_ge. intro L. apply Np. exists t. auto. }
  inversion W; subst.
  - left. split; [reflexivity|]. match goal with H : past _ _ |- _ => destruct H as (t & Et & L) end. exists t. split; [exact Et|]. split; [exact L|].
    intros q Hq. rewrite Forall_forall in Q. destruct (Q q Hq) as (A & _ & _ & B). split; [|exact B]. apply N.nlt_ge. intro L'. apply A. exists t. auto.
  - right. exists (WExited 0). auto.
  - right. exists (WExited c). repeat split; auto. cbn. destruct (Z.eqb_spec c 0); [contradiction|reflexivity].
  - right. exists (WSignaled c). auto.
  - right. exists WUnknown. auto.
Qed.

Lemma status_ended : forall r l e d, rreach r -> In l (rs_log r) -> la_result l = Some (e, d) ->
  match e with
  | ExTimeout => stopped l
  | ExSuccess => ended l (WExited 0)
  | ExFailure c => c <> 0%Z /\ ended l (WExited c)
  | ExSignalled _ | ExOther => exists w, no_code w /\ ended l w
  end.
Proof.
  intros r l e d H Hl Hr. pose proof (proper_inv r H) as F. rewrite Forall_forall in F. destruct (F l Hl) as (_ & G & _).
  rewrite Hr in G. destruct G as [G1 G2]. destruct (run_status _ _ _ G1) as (pre & x & post & Ep & [[-> (t & Et & L & Q)]|(w & A & B & C & ->)]).
  - exists t, pre, x, post. split; [exact Et|]. split; [exact Ep|]. split; [exact L|]. split; [exact Q|].
    intros e' d' E. rewrite Hr in E. injection E as _ <-. eapply N.lt_le_trans; [exact L|]. apply G2. rewrite Ep. apply in_or_app. right. left. reflexivity.
  - assert (K : ended l w) by (exists pre, x, post; auto). destruct w as [c|c|]; cbn [exit_of_status].
    + destruct (Z.eqb_spec c 0) as [->|N]; [exact K|]. auto.
    + exists (WSignaled c). split; [exact I|exact K].
    + exists WUnknown. split; [exact I|exact K].
Qed.

Lemma map_given_app : forall ls a b, map given ls = map Some (a ++ b) -> exists la lb, ls = la ++ lb /\ map given la = map Some a /\ map given lb = map Some b.
Proof.
  intros ls a b H. rewrite map_app in H. exists (firstn (length a) ls), (skipn (length a) ls). split; [symmetry; apply firstn_skipn|].
  rewrite <- firstn_map, <- skipn_map, H.
  rewrite firstn_app, skipn_app, firstn_all2 by (rewrite map_length; lia). rewrite skipn_all2 by (rewrite map_length; lia).
  rewrite map_length, Nat.sub_diag. cbn. rewrite app_nil_r. auto.
Qed.

Lemma given_one : forall ls pr, map given ls = [Some pr] -> exists l, ls = [l] /\ la_phase l = pr_phase pr /\ la_result l = Some (pr_status pr, pr_duration pr).
Proof.
  intros [|l [|? ?]] pr H; try discriminate. exists l. split; [reflexivity|]. injection H as H. unfold given in H.
  destruct (la_result l) as [[e d]|]; [|discriminate]. injection H as <-. auto.
Qed.

Lemma explained_by : forall r rs ls (m : mutant) v, rreach r -> (forall l, In l ls -> In l (rs_log r)) -> map given ls = map Some rs ->
  summary (mkOutcome (Mutant m) rs) = Some v -> finished_run (phases (pa_check_only P)) rs -> explains (pa_check_only P) ls v.
Proof.
  intros r rs ls m v H IN B Hv HF.
  assert (SE : forall l e d, In l ls -> la_result l = Some (e, d) -> _) by (intros l e d Hl; apply (status_ended r l e d H (IN l Hl))).
  destruct (pa_check_only P); cbn [phases] in HF.
  - (* check *)
    assert (K : exists pr, rs = [pr] /\ pr_phase pr = Check).
    { destruct HF as [[E _]|(bf & pr & lt & -> & E & _)].
      - destruct rs as [|pr [|? ?]]; try discriminate. injection E as E. eauto.
      - destruct bf as [|x bf]; [injection E as E _; exists pr; split; [reflexivity|exact E]|]. exfalso. cbn [map app] in E. apply (f_equal (@length _)) in E. cbn in E. rewrite !app_length, map_app, app_length in E. cbn in E. lia. }
    destruct K as ([p d e] & -> & Ep). cbn in Ep. subst p. destruct (given_one _ _ B) as (l & -> & L1 & L2). cbn in L1, L2.
    specialize (SE l e d (or_introl eq_refl) L2).
    destruct e; cbv in Hv; injection Hv as <-; cbn in SE.
    + constructor; auto.
    + destruct SE as [N E]. econstructor; [exact L1|exact N|exact E].
    + apply (ex_timeout true []); [constructor|exact SE].
    + destruct SE as (w & W & E). apply (ex_failure true [] l w); [constructor|exact W|exact E].
    + destruct SE as (w & W & E). apply (ex_failure true [] l w); [constructor|exact W|exact E].
  - assert (K : (exists d e, is_success e = false /\ rs = [mkPR Build d e]) \/ exists d1 d2 e2, rs = [mkPR Build d1 ExSuccess; mkPR Test d2 e2]).
    { destruct HF as [[E F]|(bf & pr & lt & -> & E & F & N)].
      - destruct rs as [|[p1 d1 e1] [|[p2 d2 e2] [|? ?]]]; try discriminate. cbn in E. injection E as -> ->.
        inversion F as [|? ? S1 F']; subst. cbn in S1. destruct e1; try discriminate. right. eauto.
      - destruct bf as [|[p1 d1 e1] [|x bf]]; cbn in E.
        + destruct pr as [p d e]. cbn in E. injection E as -> _. left. exists d, e. split; [exact N|reflexivity].
        + destruct pr as [p d e]. cbn in E. injection E as -> -> _. inversion F as [|? ? S1 F']; subst. cbn in S1. destruct e1; try discriminate. right. exists d1, d, e. reflexivity.
        + exfalso. apply (f_equal (@length _)) in E. cbn in E. rewrite ?app_length, ?map_app, ?app_length in E. cbn in E. lia. }
    destruct K as [(d & e & Ne & ->)|(d1 & d2 & e & ->)].
    + destruct (given_one _ _ B) as (l & -> & L1 & L2). cbn in L1, L2. specialize (SE l e d (or_introl eq_refl) L2).
      destruct e; try discriminate; cbv in Hv; injection Hv as <-; cbn in SE.
      * destruct SE as [N E]. econstructor; [exact L1|exact N|exact E].
      * apply (ex_timeout false []); [constructor|exact SE].
      * destruct SE as (w & W & E). apply (ex_failure false [] l w); [constructor|exact W|exact E].
      * destruct SE as (w & W & E). apply (ex_failure false [] l w); [constructor|exact W|exact E].
    + destruct (map_given_app ls [mkPR Build d1 ExSuccess] [mkPR Test d2 e] B) as (la & lb & -> & Ba & Bb).
      destruct (given_one _ _ Ba) as (b & -> & L1 & L2). destruct (given_one _ _ Bb) as (l & -> & L3 & L4). cbn in L1, L2, L3, L4.
      pose proof (SE b _ _ (or_introl eq_refl) L2) as SB. specialize (SE l e d2 (or_intror (or_introl eq_refl)) L4). cbn [app].
      destruct e; cbv in Hv; injection Hv as <-; cbn in SE, SB.
      * constructor; auto.
      * destruct SE as [N E]. econstructor; eauto.
      * apply (ex_timeout false [b]); [constructor; [exact SB|constructor]|exact SE].
      * destruct SE as (w & W & E). apply (ex_failure false [b] l w); [constructor; [exact SB|constructor]|exact W|exact E].
      * destruct SE as (w & W & E). apply (ex_failure false [b] l w); [constructor; [exact SB|constructor]|exact W|exact E].
Qed.

Lemma explained : forall r o m v, NoDup ms -> rreach r -> In o (lo_outcomes (sh_lab (ls_sh (rs_lab r)))) -> oc_scenario o = Mutant m ->
  summary o = Some v -> finished_run (phases (pa_check_only P)) (oc_results o) ->
  exists ls, of_scenario (Mutant m) (rs_log r) ls /\ map given ls = map Some (oc_results o) /\ explains (pa_check_only P) ls v.
Proof.
  intros r [sc rs] m v ND H Ho Hs Hv HF. cbn [oc_scenario oc_results] in *. subst sc.
  destruct (matches_inv ND r H) as (M1 & _). destruct (M1 _ Ho) as (ls & A & B). cbn [oc_scenario oc_results] in A, B.
  exists ls. split; [exact A|]. split; [exact B|]. eapply explained_by; try eassumption. intros l Hl. apply (of_in _ _ _ _ A Hl).
Qed.
End Run.

(** * Executing runs, for examples *)
Definition poll_for (e : exit_t) (dur : N) : sample :=
  match e with
  | ExSuccess => mkSample dur false (Some (WExited 0)) false true true
  | ExFailure c => mkSample dur false (Some (WExited c)) false true true
  | ExSignalled c => mkSample dur false (Some (WSignaled c)) false true true
  | ExOther => mkSample dur false (Some WUnknown) false true true
  | ExTimeout => mkSample dur false None false true true
  end.
Definition exit_eqb (a b : exit_t) : bool :=
  match a, b with
  | ExSuccess, ExSuccess | ExTimeout, ExTimeout | ExOther, ExOther => true
  | ExFailure x, ExFailure y | ExSignalled x, ExSignalled y => (x =? y)%Z
  | _, _ => false
  end.
Definition polls_for (x : option (exit_t * N)) : list sample := match x with Some (e, dur) => [poll_for e dur] | None => [] end.
Definition possible (lim : option N) (x : option (exit_t * N)) : bool :=
  match x with
  | Some (e, dur) => match fst (run_loop lim (polls_for x)) with RunExit e' => exit_eqb e' e | _ => false end
  | None => true
  end.
Definition pc_of (st : state) (i : nat) : option wpc :=
  match ls_main st with MBaseline c => if Nat.eqb i 0 then Some c else None | MWork => nth_error (ls_workers st) i | MEnd _ => None end.

Definition rexec1 (P : params) (X : context) (ms : list mutant) (x : nat * option (exit_t * N)) (r : rstate) : option rstate :=
  match exec1 P (length ms) x (rs_lab r), pc_of (rs_lab r) (fst x) with
  | Some st', Some (WCargo d s done p todo) =>
      if possible (phase_timeout (limits_for X (rs_limits r) s) p) (snd x)
      then Some (mkRS st' (rs_limits r) (rs_log r ++ [launch_of X ms (rs_limits r) d s p (get_tree (ls_sh (rs_lab r)) d) (polls_for (snd x)) (snd x)]))
      else None
  | Some st', _ =>
      match ls_main (rs_lab r) with
      | MBaseline (WFin d o) =>
          match oc_success o with
          | Some true => match mutant_timeouts rnd64 (Some o) (timeout_options (cx_options X)) with
                         | Some t => Some (mkRS st' (Some t) (rs_log r))
                         | None => Some (mkRS (mkLS (ls_sh (rs_lab r)) (MEnd RPanic) []) (rs_limits r) (rs_log r))
                         end
          | _ => Some (mkRS st' (rs_limits r) (rs_log r))
          end
      | MBaseline c => match c with WCargo _ _ _ _ _ => None | _ => Some (mkRS st' (rs_limits r) (rs_log r)) end
      | _ => Some (mkRS st' (rs_limits r) (rs_log r))
      end
  | None, _ => None
  end.

Fixpoint rexec (P : params) (X : context) (ms : list mutant) (xs : list (nat * option (exit_t * N))) (r : rstate) : option rstate :=
  match xs with
  | [] => Some r
  | x :: xs' => match rexec1 P X ms x r with Some r' => rexec P X ms xs' r' | None => None end
  end.

Lemma exit_eqb_eq : forall a b, exit_eqb a b = true -> a = b.
Proof. intros [] []; cbn; try discriminate; try reflexivity; intro H; apply Z.eqb_eq in H; congruence. Qed.

Lemma possible_sound : forall lim x, possible lim x = true -> cargo_gives lim (polls_for x) x.
Proof.
  intros lim [[e dur]|] H; [|exact I]. cbn [possible] in H. cbn [cargo_gives]. split.
  - destruct (fst (run_loop lim (polls_for (Some (e, dur))))); try discriminate. apply exit_eqb_eq in H. congruence.
  - cbn [polls_for]. intros s [<-|[]]. destruct e; cbn; lia.
Qed.

Lemma rexec1_sound : forall P X ms x r r', rexec1 P X ms x r = Some r' -> rstep P X ms r r'.
Proof.
  intros P X ms x [st lim log] r' H. unfold rexec1 in H. cbn [rs_lab rs_limits rs_log] in H.
  destruct (exec1 P (length ms) x st) as [st'|] eqn:E; [|discriminate].
  assert (N : (forall d s dn p td, pc_of st (fst x) <> Some (WCargo d s dn p td)) -> (forall d o, ls_main st = MBaseline (WFin d o) -> oc_success o <> Some true) ->
     match ls_main st with MBaseline (WCargo _ _ _ _ _) => False | _ => True end -> rstep P X ms (mkRS st lim log) (mkRS st' lim log)).
  { intros H1 H2 H3. apply rs_other; [eapply exec1_sound; exact E| |exact H2].
    intros i d s dn p td Hp. destruct st as [sh [c| |y] ws]; cbn [at_pc ls_main ls_workers pc_of] in *.
    - destruct Hp as [-> <-]. destruct H3.
    - cbn [exec1] in E. destruct (forallb is_end ws) eqn:Ee.
      + rewrite forallb_forall in Ee. apply nth_error_In in Hp. specialize (Ee _ Hp). discriminate.
      + destruct (nth_error ws (fst x)) as [c|] eqn:En; [|discriminate]. destruct (go P (fst x) (snd x) sh c) as [[sh' c']|]; [|discriminate].
        injection E as <-. cbn. rewrite nth_error_set_other; [exact Hp|]. intro Ei. subst i. eapply H1. rewrite <- En. exact Hp.
    - destruct Hp. }
  assert (CG : forall d s dn p td, pc_of st (fst x) = Some (WCargo d s dn p td) ->
     at_pc st (fst x) (WCargo d s dn p td) /\ st' = put_pc st (fst x) (put_tree (ls_sh st) d (get_tree (ls_sh st) d)) (after_cargo d s dn p td (snd x))).
  { intros d s dn p td Hp. destruct st as [sh [c| |y] ws]; cbn [at_pc put_pc ls_main ls_workers ls_sh pc_of] in *.
    - destruct (Nat.eqb_spec (fst x) 0) as [E0|]; [|discriminate]. injection Hp as ->. split; [auto|].
      cbn [exec1] in E. destruct ws; [|discriminate]. cbn [go] in E. unfold after_cargo.
      destruct (snd x) as [[e dur]|]; [destruct (is_success e)|]; injection E as <-; reflexivity.
    - split; [exact Hp|]. cbn [exec1] in E. destruct (forallb is_end ws) eqn:Ee.
      + rewrite forallb_forall in Ee. apply nth_error_In in Hp. specialize (Ee _ Hp). discriminate.
      + rewrite Hp in E. cbn [go] in E. unfold after_cargo. destruct (snd x) as [[e dur]|]; [destruct (is_success e)|]; injection E as <-; reflexivity.
    - discriminate. }
  assert (R : (forall d s dn p td, pc_of st (fst x) <> Some (WCargo d s dn p td)) ->
     match ls_main st with
      | MBaseline (WFin d o) =>
          match oc_success o with
          | Some true => match mutant_timeouts rnd64 (Some o) (timeout_options (cx_options X)) with
                         | Some t => Some (mkRS st' (Some t) log)
                         | None => Some (mkRS (mkLS (ls_sh st) (MEnd RPanic) []) lim log)
                         end
          | _ => Some (mkRS st' lim log)
          end
      | MBaseline c => match c with WCargo _ _ _ _ _ => None | _ => Some (mkRS st' lim log) end
      | _ => Some (mkRS st' lim log)
      end = Some r' -> rstep P X ms (mkRS st lim log) r').
  { clear H CG. intros Hn H. destruct (ls_main st) as [c0| |y] eqn:Em.
    - destruct c0; try discriminate H; try (injection H as <-; apply N; [exact Hn|intros; discriminate|exact I]).
      destruct (oc_success o) as [[|]|] eqn:Eo; try (injection H as <-; apply N; [exact Hn|intros ? ? EE; congruence|exact I]).
      destruct st as [sh mm ws]; cbn in Em; subst mm; destruct ws; [|discriminate E]; cbn [exec1] in E; rewrite Eo in E; injection E as <-;
       destruct (mutant_timeouts rnd64 (Some o) (timeout_options (cx_options X))) eqn:Et; injection H as <-;
       [eapply rs_limited; eassumption|eapply rs_panic; eassumption].
    - injection H as <-; apply N; [exact Hn|intros; discriminate|exact I].
    - injection H as <-; apply N; [exact Hn|intros; discriminate|exact I]. }
  destruct (pc_of st (fst x)) as [c|] eqn:Ep; [|apply R; [discriminate|exact H]].
  destruct c; try (apply R; [discriminate|exact H]).
  destruct (possible _ _) eqn:Epo; [|discriminate]. injection H as <-. destruct (CG _ _ _ _ _ eq_refl) as [A ->].
  apply rs_cargo; [exact A|apply possible_sound; exact Epo|intros k _; reflexivity].
Qed.

Lemma rexec_sound : forall P X ms o0 t0 xs r, rexec P X ms xs (rstart P X ms o0 t0) = Some r -> rreachable P X ms o0 t0 r.
Proof.
  intros P X ms o0 t0 xs r H. unfold rreachable.
  assert (K : forall xs a b, rsteps P X ms (rstart P X ms o0 t0) a -> rexec P X ms xs a = Some b -> rsteps P X ms (rstart P X ms o0 t0) b).
  { clear. induction xs as [|x xs IH]; intros a b Ha E; cbn [rexec] in E; [injection E as <-; exact Ha|].
    destruct (rexec1 P X ms x a) as [c|] eqn:E1; [|discriminate]. eapply IH; [|exact E].
    eapply rsteps_more; [exact Ha|]. eapply rexec1_sound. exact E1. }
  eapply K; [apply rsteps_refl|exact H].
Qed.
