(** Proofs for C61. *)
From Coq Require Import String List NArith ZArith Bool Arith Permutation Lia.
From Verif Require Import Text SpanM PathM PathS MutantM ProcessM OutcomeM OutcomeS OutcomeP OutcomeT OutputM LabM LabS LabP DetS.
Import ListNotations.

(** ** Times do not matter *)
Lemma last_timeless : forall o, last_result (timeless o) = option_map (fun r => mkPR (pr_phase r) 0 (pr_status r)) (last_result o).
Proof.
  intros [s rs]. unfold last_result, timeless. cbn [oc_results]. induction rs as [|r rs IH]; [reflexivity|].
  destruct rs as [|r' rs]; [reflexivity|]. exact IH.
Qed.
Lemma existsb_timeless : forall (f : phase_result -> bool) rs, (forall r, f (mkPR (pr_phase r) 0 (pr_status r)) = f r) ->
  existsb f (map (fun r => mkPR (pr_phase r) 0 (pr_status r)) rs) = existsb f rs.
Proof. intros f rs H. induction rs as [|r rs IH]; [reflexivity|]. cbn [map existsb]. rewrite H, IH. reflexivity. Qed.
Lemma success_timeless : forall o, oc_success (timeless o) = oc_success o.
Proof. intro o. unfold oc_success. rewrite last_timeless. destruct (last_result o); reflexivity. Qed.
Lemma summary_timeless : forall o, summary (timeless o) = summary o.
Proof.
  intro o. unfold summary, has_timeout, check_or_build_failed, mutant_caught, mutant_missed. rewrite success_timeless, last_timeless.
  unfold timeless. cbn [oc_scenario oc_results]. rewrite !existsb_timeless by reflexivity.
  destruct (oc_scenario o); [reflexivity|]. destruct (last_result o); reflexivity.
Qed.
Lemma how_many_perm : forall A (f : A -> bool) l l', Permutation l l' -> how_many f l = how_many f l'.
Proof. intros A f l l' H. induction H; cbn [how_many]; lia. Qed.
Lemma how_many_timeless : forall f os, (forall o, f (timeless o) = f o) -> how_many f (map timeless os) = how_many f os.
Proof. intros f os H. induction os as [|o os IH]; [reflexivity|]. cbn [map how_many]. rewrite H, IH. reflexivity. Qed.
Lemma verdicts_timeless : forall os, verdicts (map timeless os) = verdicts os.
Proof.
  induction os as [|o os IH]; [reflexivity|]. unfold verdicts in *. cbn [map flat_map]. rewrite IH, summary_timeless. reflexivity.
Qed.
Lemma verdicts_perm : forall os os', Permutation os os' -> Permutation (verdicts os) (verdicts os').
Proof. intros os os' H. apply Permutation_flat_map. exact H. Qed.

Section D.
Context (P : params) (B : tree) (W : tree -> phase -> exit_t) (o0 : entries) (t0 : tree) (ms : list mutant).
Hypothesis Hload : forall m, In m ms -> loaded P m.
Hypothesis Hfirst : first_tree P t0.
Hypothesis Hopt : options_ok P.
Hypothesis Hdet : deterministic P W.
Notation run := (det_run P B W o0 t0 ms).
Notation PS := (phases (pa_check_only P)).
Notation strip := (map (fun r => mkPR (pr_phase r) 0 (pr_status r))).

Lemma dsteps_steps : forall n s s', dsteps P B W n s s' -> steps P n s s'.
Proof. intros n s s' H. induction H; [apply steps_refl|eapply steps_more; eassumption]. Qed.
Lemma run_reach : forall st, run st -> reachable P o0 t0 ms st.
Proof. intros st [_ H]. apply dsteps_steps in H. exact H. Qed.

(** Every directory was made as [B]. *)
Lemma base_agrees : forall st, run st -> forall d, d < length (sh_base (ls_sh st)) -> agrees P B (get_base (ls_sh st) d).
Proof.
  intros st [HA H]. remember (start_state P o0 t0 ms) as s0 eqn:E0.
  induction H as [s|s s' s'' Hs IH Hst Hob]; intros d Hd.
  - subst s. cbn in Hd. assert (d = 0) as -> by lia. unfold get_base, start_state. cbn [ls_sh sh_base nth]. exact HA.
  - specialize (IH E0). subst s. assert (R : reachable P o0 t0 ms s') by (apply dsteps_steps in Hs; exact Hs).
    assert (R' : reachable P o0 t0 ms s'') by (eapply steps_more; eassumption).
    assert (L : match ls_main s' with MEnd _ => True | _ => length (sh_base (ls_sh s')) = length (sh_trees (ls_sh s')) end).
    { pose proof (dirs_inv P o0 t0 ms _ R) as D. destruct (ls_main s'); auto; destruct D as (_ & _ & D); exact D. }
    destruct Hob as [_ Hob]. destruct Hst; unfold get_base in *; cbn [ls_sh ls_main set_dir0 sh_base sh_trees] in *; try (apply IH; exact Hd).
    + pose proof (sstep_frame P _ _ _ _ _ H) as (_ & _ & Fb & _). rewrite Fb in *. apply IH. exact Hd.
    + destruct H0 as [d1 Hd1|Hd1|t Ht| |d1 m q Hq'| | |c sh' c' H0]; cbn [set_dir0 set_queue add_dir sh_base sh_trees get_tree] in *; try (apply IH; exact Hd).
      * rewrite app_length in Hd. cbn [length] in Hd. destruct (Nat.eq_dec d (length (sh_base sh))) as [->|N].
        -- rewrite nth_middle. specialize (Hob (length (sh_trees sh))). unfold get_tree in Hob. cbn [add_dir sh_trees] in Hob.
           rewrite app_length, nth_middle in Hob. cbn [length] in Hob. apply Hob; lia.
        -- rewrite app_nth1 by lia. apply IH. lia.
      * pose proof (sstep_frame P _ _ _ _ _ H0) as (_ & _ & Fb & _). rewrite Fb in *. apply IH. exact Hd.
Qed.

(** How cargo ends for a scenario: as in the tree with it alone. *)
Lemma cargo_alone : forall st d s done p todo, run st -> In (WCargo d s done p todo) (threads st) ->
  W (get_tree (ls_sh st) d) p = W (tree_for B s) p.
Proof.
  intros st d s done p todo H Hc. pose proof (run_reach st H) as R.
  assert (NE : forall r, ls_main st <> MEnd r) by (intros r E; exact (cargo_not_end P o0 t0 ms st _ d s done p todo R Hc eq_refl r E)).
  pose proof (trees_inv P o0 t0 ms Hload Hfirst Hopt st R) as T. pose proof (dirs_inv P o0 t0 ms st R) as D.
  assert (TT : ttrees P ms (ls_sh st) (threads st)) by (destruct (ls_main st); [exact T|exact T|exfalso; eapply NE; reflexivity]).
  assert (DD : dirs_ok (ls_sh st) (threads st)) by (destruct (ls_main st); [exact D|exact D|exfalso; eapply NE; reflexivity]).
  destruct TT as (_ & TF & _). rewrite Forall_forall in TF. specialize (TF _ Hc).
  pose proof (use_bound _ _ _ d DD Hc (or_introl eq_refl)) as Hb.
  pose proof (base_agrees st H d Hb) as A.
  apply Hdet. intros k Hk. unfold thread_tree in TF. destruct s as [|m]; cbn [mutated_by tree_for] in *.
  - specialize (TF d (or_introl eq_refl) k Hk). exists (B k). rewrite <- (A k Hk). split; [exact TF|left; reflexivity].
  - destruct TF as (_ & Ek & _ & Eo). unfold tree_set. destruct (key_eqb k (file_key m)) eqn:E.
    + apply key_eqb_eq in E. subst k. rewrite Ek. eexists. split; left; reflexivity.
    + assert (k <> file_key m) by (intros ->; rewrite (proj2 (key_eqb_eq _ _) eq_refl) in E; discriminate).
      exists (B k). rewrite <- (A k Hk). split; [apply Eo; assumption|left; reflexivity].
Qed.

(** What has been done is what [alone] says. *)
Notation TR s := (trial (W (tree_for B s))).
Definition on_track (c : wpc) : Prop :=
  match c with
  | WPhase _ s done todo => TR s PS = strip done ++ TR s todo
  | WCargo _ s done p todo => TR s PS = strip done ++ TR s (p :: todo)
  | WRevert _ s done | WAdd _ s done => TR s PS = strip done
  | _ => True
  end.

Lemma step_on_track : forall i sh c sh' c', wstep P i sh c sh' c' -> on_track c ->
  (forall d s done p todo r, c = WCargo d s done p todo -> c' = WPhase d s (done ++ [r]) todo \/ c' = WRevert d s (done ++ [r]) ->
     pr_status r = W (tree_for B s) p) ->
  on_track c' /\ (forall o, In o (lo_outcomes (sh_lab sh')) -> In o (lo_outcomes (sh_lab sh)) \/ timeless o = alone P B W (oc_scenario o)).
Proof.
  intros i sh c sh' c' H Hc Ho.
  destruct H as [d1 Hd1|Hd1|t Ht| |d1 m q Hq'| | |c sh' c' H]; try (split; [exact I|intros ? Hin; left; exact Hin]).
  destruct H; try (split; [exact I|intros ? Hin; left; exact Hin]).
  - split; [reflexivity|intros ? Hin; left; exact Hin].
  - split; [reflexivity|intros ? Hin; left; exact Hin].
  - split; [exact Hc|intros ? Hin; left; exact Hin].
  - split; [|intros ? Hin; left; exact Hin]. cbn [on_track trial] in *. rewrite app_nil_r in Hc. exact Hc.
  - split; [|intros ? Hin; left; exact Hin]. pose proof (Ho _ _ _ _ _ _ eq_refl (or_introl eq_refl)) as E. cbn [pr_status] in E.
    cbn [on_track] in *. rewrite Hc. cbn [trial]. rewrite <- E, H, map_app, <- app_assoc. reflexivity.
  - split; [|intros ? Hin; left; exact Hin]. pose proof (Ho _ _ _ _ _ _ eq_refl (or_intror eq_refl)) as E. cbn [pr_status] in E.
    cbn [on_track] in *. rewrite Hc. cbn [trial]. rewrite <- E, H, map_app. reflexivity.
  - split; [exact Hc|intros ? Hin; left; exact Hin].
  - split; [exact Hc|intros ? Hin; left; exact Hin].
  - split; [exact I|]. intros o Hin. cbn [sh_lab set_lab] in Hin. rewrite (lab_add_outcomes _ _ _ H0) in Hin.
    apply in_app_or in Hin as [Hin|[<-|[]]]; [left; exact Hin|]. right. unfold timeless, alone. cbn [oc_scenario oc_results].
    cbn [on_track] in Hc. rewrite Hc. reflexivity.
Qed.

Definition track (st : state) : Prop :=
  match ls_main st with MEnd _ => True | _ => Forall on_track (threads st) end
  /\ forall o, In o (lo_outcomes (sh_lab (ls_sh st))) -> timeless o = alone P B W (oc_scenario o).

Lemma track_inv : forall st, run st -> track st.
Proof.
  intros st [HA H]. remember (start_state P o0 t0 ms) as s0 eqn:E0.
  assert (SP : forall k, Forall on_track (spawn k)) by (intro k; induction k; constructor; [exact I|assumption]).
  induction H as [s|s s' s'' Hs IH Hst Hob].
  - subst s. unfold track, start_state, threads. cbn [ls_sh sh_lab].
    split; [|intros o []]. destruct (pa_skip_baseline P); cbn [ls_main ls_workers]; [apply SP|].
    constructor; [exact I|constructor].
  - specialize (IH E0). subst s. assert (R : run s') by (split; assumption). destruct IH as (I1 & I2).
    assert (CA := fun d s done p todo => cargo_alone s' d s done p todo R).
    destruct Hob as [Hob _].
    destruct Hst; unfold threads in *; cbn [ls_sh ls_main ls_workers] in *; try (split; [exact I|exact I2]).
    + destruct (step_on_track 0 sh c sh' c' (ws_scenario P 0 sh c sh' c' H) (Forall_inv I1)) as [A1 A2].
      { intros d s done p todo r -> E. rewrite <- (CA d s done p todo (or_introl eq_refl)).
        apply (Hob 0 d s done p todo r eq_refl). destruct E as [->| ->]; [left|right]; reflexivity. }
      split; [constructor; [exact A1|constructor]|]. intros o Hin. destruct (A2 o Hin); auto.
    + split; [apply SP|]. exact I2.
    + assert (Hc : on_track c) by (rewrite Forall_forall in I1; apply I1; exact (nth_error_In _ _ H)).
      destruct (step_on_track i sh c sh' c' H0 Hc) as [A1 A2].
      { intros d s done p todo r -> E. rewrite <- (CA d s done p todo (nth_error_In _ _ H)).
        apply (Hob i d s done p todo r H). rewrite nth_error_set_same by exact (nth_error_lt _ _ _ _ H).
        destruct E as [->| ->]; [left|right]; reflexivity. }
      split; [|intros o Hin; destruct (A2 o Hin); auto].
      destruct (list_split _ _ _ _ H) as (l1 & l2 & -> & _ & ->). apply Forall_app in I1. destruct I1 as [I1 I1'].
      apply Forall_app. split; [exact I1|]. constructor; [exact A1|exact (Forall_inv_tail I1')].
Qed.

Lemma mutants_recorded : forall os, all_mutants os -> map oc_scenario os = map (@Mutant mutant)
   (flat_map (fun o => match oc_scenario o with Mutant m => [m] | Baseline => [] end) os).
Proof.
  induction os as [|o os IH]; intro H; [reflexivity|]. inversion H; subst. cbn [map flat_map]. rewrite (IH H3).
  destruct (oc_scenario o); [discriminate|reflexivity].
Qed.

(** The scenarios of a run that ended without error. *)
Lemma scenarios_end : forall sh l ws, reachable P o0 t0 ms (mkLS sh (MEnd (ROk l)) ws) ->
  (Permutation (map oc_scenario (lo_outcomes l)) ((if pa_skip_baseline P then [] else [Baseline]) ++ map (@Mutant mutant) ms)
   /\ any_baseline_failed (lo_outcomes l) = Some false
   /\ (forall o, In o (lo_outcomes l) -> oc_scenario o = Baseline -> oc_success o = Some true))
  \/ (pa_skip_baseline P = false /\ exists o, lo_outcomes l = [o] /\ oc_scenario o = Baseline /\ oc_success o = Some false).
Proof.
  intros sh l ws H. destruct (c12_ok P o0 t0 ms sh l ws H) as [-> K].
  destruct (end_inv P o0 t0 ms sh _ ws H) as [(d & o & H1 & H2 & _)|[(_ & E & _)|[(_ & E & _)|(H1 & _ & _)]]]; try discriminate.
  - right. destruct (base_inv P o0 t0 ms _ H1) as (Hb & _ & _ & Sk & _). split; [exact Sk|]. exists o.
    destruct (base_lab P o0 t0 ms _ _ _ H1) as [E|E]; [discriminate|]. split; [exact E|]. split; [|exact H2].
    cbn in Hb. destruct Hb as [d' Hb]. congruence.
  - left. assert (PM : Permutation (recorded (sh_lab sh)) ms).
    { destruct K as [K|(d & o & K & S & Rn & Q)]; [exact K|]. exfalso.
      pose proof (work_lab_inv P o0 t0 ms _ _ H1) as [_ WL].
      destruct (base_inv P o0 t0 ms _ K) as (Hb & _ & _ & Sk & _). rewrite Sk in WL.
      destruct (base_lab P o0 t0 ms _ _ _ K) as [E|E]; [discriminate|]. cbn [recorded_of] in E.
      destruct WL as (o' & rest & E' & (_ & G1 & G2) & _). rewrite E in E'. injection E' as <- <-.
      unfold oc_success in S. destruct (last_result o) as [r|] eqn:L; [|discriminate]. injection S as S.
      rewrite Forall_forall in G2. assert (In r (oc_results o)).
      { unfold last_result in L. clear - L. induction (oc_results o) as [|x xs IH]; [discriminate|]. destruct xs; [injection L as ->; left; reflexivity|right; apply IH; exact L]. }
      specialize (G2 r H0). congruence. }
    pose proof (work_lab_inv P o0 t0 ms _ _ H1) as [_ WL].
    assert (AM : forall os, all_mutants os -> any_baseline_failed os = Some false).
    { clear. induction os as [|o os IH]; intro H; [reflexivity|]. inversion H; subst. cbn [any_baseline_failed]. rewrite H2. apply IH. exact H3. }
    destruct (pa_skip_baseline P).
    + split; [|split; [apply AM; exact WL|]].
      * rewrite (mutants_recorded _ WL). apply Permutation_map. exact PM.
      * intros o Hin Eo. unfold all_mutants in WL. rewrite Forall_forall in WL. specialize (WL o Hin). rewrite Eo in WL. discriminate.
    + destruct WL as (o & rest & E & G & AR). assert (GS : oc_success o = Some true).
      { destruct G as (_ & G1 & G2). unfold oc_success. destruct (last_result o) as [r|] eqn:L.
        - rewrite Forall_forall in G2. f_equal. apply G2. unfold last_result in L. clear - L.
          induction (oc_results o) as [|x xs IH]; [discriminate|]. destruct xs; [injection L as ->; left; reflexivity|right; apply IH; exact L].
        - exfalso. destruct o as [s [|x xs]]; cbn [oc_results] in *; [unfold phases in G1; destruct (pa_check_only P); discriminate|].
          clear - L. unfold last_result in L. cbn [oc_results] in L. revert x L. induction xs as [|y ys IH]; intros x L; [discriminate|]. exact (IH y L). }
      destruct G as (G0 & G). rewrite E in *. split; [|split].
      * cbn [map app]. rewrite G0. apply perm_skip. rewrite (mutants_recorded _ AR). apply Permutation_map.
        unfold recorded in PM. rewrite E in PM. cbn [flat_map] in PM. rewrite G0 in PM. exact PM.
      * cbn [any_baseline_failed]. rewrite G0. cbn [is_mutant]. rewrite GS. apply AM. exact AR.
      * intros o' [<-|Hin] Eo; [exact GS|]. unfold all_mutants in AR. rewrite Forall_forall in AR. specialize (AR o' Hin). rewrite Eo in AR. discriminate.
Qed.

Lemma outcomes_end : forall sh l ws, run (mkLS sh (MEnd (ROk l)) ws) ->
  map timeless (lo_outcomes l) = map (alone P B W) (map oc_scenario (lo_outcomes l)).
Proof.
  intros sh l ws H. destruct (track_inv _ H) as (_ & T). pose proof (run_reach _ H) as R.
  destruct (c12_ok P o0 t0 ms sh l ws R) as [-> _]. cbn [ls_sh] in T. rewrite map_map. apply map_ext_in. exact T.
Qed.
End D.

(** ** Concrete runs, for the examples *)
Section Exec.
Context (P : params) (W : tree -> phase -> exit_t).
Hypothesis NI : pa_in_place P = false.

Definition who (st : state) (i : nat) : nat := match ls_main st with MBaseline _ => 0 | _ => i end.
Definition answer (st : state) (i : nat) : option (exit_t * N) :=
  match nth_error (threads st) i with
  | Some (WCargo d _ _ p _) => Some (W (get_tree (ls_sh st) d) p, 1%N)
  | _ => Some (ExSuccess, 1%N)
  end.
Fixpoint dexec (n : nat) (is : list nat) (st : state) : option state :=
  match is with
  | [] => Some st
  | i :: is' => match exec1 P n (who st i, answer st (who st i)) st with Some st' => dexec n is' st' | None => None end
  end.

Lemma go_trees : forall i r sh c sh' c', go P i r sh c = Some (sh', c') ->
  length (sh_trees sh') = length (sh_trees sh) \/ sh_trees sh' = sh_trees sh ++ [pa_root P].
Proof.
  intros i r sh c sh' c' H. pose proof (go_sound _ _ _ _ _ _ _ H) as G.
  destruct c; cbn [go] in H; try (left; inversion G; subst; try reflexivity; eauto using list_set_length; fail).
  all: try (left; inversion G; subst; match goal with K : sstep _ _ _ _ _ _ |- _ => exact (proj1 (proj2 (proj2 (proj2 (sstep_frame P _ _ _ _ _ K))))) | _ => reflexivity end).
  right. injection H as <- <-. unfold add_dir, workspace_tree. rewrite NI. reflexivity.
Qed.

Lemma exec1_obeys : forall n i st st', exec1 P n (who st i, answer st (who st i)) st = Some st' -> obeys P (pa_root P) W st st'.
Proof.
  intros n i [sh [c| |r] ws] st' H; cbn [exec1 who ls_main fst snd] in H; [| |discriminate].
  - destruct ws; [|discriminate].
    assert (K : sh_trees (ls_sh st') = sh_trees sh -> (forall d s done p todo, c <> WCargo d s done p todo) -> obeys P (pa_root P) W (mkLS sh (MBaseline c) []) st').
    { intros E1 NC. split.
      - intros j d s done p todo r E _. unfold threads in E. cbn [ls_main] in E. destruct j as [|[|j]]; try discriminate. cbn in E. injection E as E. exfalso. eapply NC. exact E.
      - intros d A Bd. cbn [ls_sh] in A. rewrite E1 in Bd. lia. }
    assert (G : match go P 0 (answer (mkLS sh (MBaseline c) []) 0) sh c with Some (sh', c') => Some (mkLS sh' (MBaseline c') []) | None => None end = Some st'
       -> obeys P (pa_root P) W (mkLS sh (MBaseline c) []) st').
    { intro E. destruct (go P 0 _ sh c) as [[sh' c']|] eqn:Gc; [|discriminate]. injection E as <-. split.
      - intros [|[|j]] d s done p todo r E1 E2; unfold threads in *; cbn [ls_main ls_sh nth_error] in *; try discriminate.
        injection E1 as ->. cbn [answer threads ls_main nth_error ls_sh go] in Gc.
        destruct (is_success (W (get_tree sh d) p)); injection Gc as <- <-; destruct E2 as [E2|E2]; try discriminate; injection E2 as E2;
          apply app_inv_head in E2; injection E2 as <-; reflexivity.
      - intros d A Bd. cbn [ls_sh] in *. destruct (go_trees _ _ _ _ _ _ Gc) as [E|E]; [lia|].
        rewrite E, app_length in Bd. cbn [length] in Bd. unfold get_tree. rewrite E. replace d with (length (sh_trees sh)) by lia.
        rewrite nth_middle. intros k _. reflexivity. }
    destruct c; try discriminate; try (apply G; exact H).
    + destruct (oc_success o) as [[|]|]; [| |discriminate]; injection H as <-; apply K; [reflexivity|discriminate|reflexivity|discriminate].
    + destruct ok; [discriminate|]. injection H as <-. apply K; [reflexivity|discriminate].
  - unfold threads in *. destruct (forallb is_end ws) eqn:E.
    + injection H as <-. split; [|intros d A Bd; cbn [ls_sh] in *; lia].
      intros j d s done p todo r E1 _. unfold threads in E1. cbn [ls_main ls_workers] in E1. rewrite forallb_forall in E.
      specialize (E _ (nth_error_In _ _ E1)). discriminate.
    + destruct (nth_error ws i) as [c|] eqn:En; [|discriminate].
      destruct (go P i _ sh c) as [[sh' c']|] eqn:Gc; [|discriminate]. injection H as <-. split.
      * intros j d s done p todo r E1 E2. unfold threads in *. cbn [ls_main ls_sh ls_workers] in *.
        destruct (Nat.eq_dec j i) as [->|N].
        -- rewrite (nth_error_set_same _ _ _ _ (nth_error_lt _ _ _ _ E1)) in E2. rewrite E1 in En. injection En as <-.
           unfold answer, threads in Gc. cbn [ls_main ls_workers ls_sh] in Gc. rewrite E1 in Gc. cbn [go] in Gc.
           destruct (is_success (W (get_tree sh d) p)); injection Gc as <- <-; destruct E2 as [E2|E2]; try discriminate; injection E2 as E2;
             apply app_inv_head in E2; injection E2 as <-; reflexivity.
        -- rewrite (nth_error_set_other _ _ _ _ _ (fun X => N (eq_sym X))) in E2. rewrite E1 in E2. destruct E2; discriminate.
      * intros d A Bd. cbn [ls_sh] in *. destruct (go_trees _ _ _ _ _ _ Gc) as [E'|E']; [lia|].
        rewrite E', app_length in Bd. cbn [length] in Bd. unfold get_tree. rewrite E'. replace d with (length (sh_trees sh)) by lia.
        rewrite nth_middle. intros k _. reflexivity.
Qed.

Lemma dexec_run : forall o0 ms is st, dexec (length ms) is (start_state P o0 (pa_root P) ms) = Some st ->
  det_run P (pa_root P) W o0 (pa_root P) ms st.
Proof.
  intros o0 ms is st H. split; [intros k _; reflexivity|].
  assert (K : forall is s s', dsteps P (pa_root P) W (length ms) (start_state P o0 (pa_root P) ms) s -> dexec (length ms) is s = Some s' ->
            dsteps P (pa_root P) W (length ms) (start_state P o0 (pa_root P) ms) s').
  { clear H. induction is0 as [|i is' IH]; intros s s' Hs E; cbn [dexec] in E; [injection E as <-; exact Hs|].
    destruct (exec1 P (length ms) (who s i, answer s (who s i)) s) as [s1|] eqn:E1; [|discriminate]. eapply IH; [|exact E].
    eapply dsteps_more; [exact Hs|apply exec1_sound in E1; exact E1|apply exec1_obeys in E1; exact E1]. }
  eapply K; [apply dsteps_refl|exact H].
Qed.
End Exec.
