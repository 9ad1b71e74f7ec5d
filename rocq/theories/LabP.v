(** Invariants of the lab machine. *)
From Coq Require Import String List NArith ZArith Bool Arith Lia Permutation.
From Verif Require Import Text SpanM PathM PathS PathP MutantM MutantP ProcessM OutcomeM OutputM OutputS OutputP
  IterateM IterateS IterateP LabM LabS.
Import ListNotations.

(** * Lists *)
Lemma list_split : forall A (l : list A) i c, nth_error l i = Some c ->
  exists l1 l2, l = l1 ++ c :: l2 /\ length l1 = i /\ (forall x, list_set l i x = l1 ++ x :: l2).
Proof.
  induction l as [|a l IH]; intros [|i] c H; try discriminate.
  - injection H as ->. exists [], l. repeat split; reflexivity.
  - simpl in H. destruct (IH _ _ H) as (l1 & l2 & E & L & S). exists (a :: l1), l2.
    repeat split; [rewrite E; reflexivity|simpl; lia|]. intros x. simpl. rewrite S. reflexivity.
Qed.

Lemma list_set_length : forall A (l : list A) i x, length (list_set l i x) = length l.
Proof. induction l; intros [|i] x; simpl; auto. Qed.

Lemma nth_set_same : forall A (l : list A) i x d, i < length l -> nth i (list_set l i x) d = x.
Proof. induction l; intros [|i] x d H; simpl in *; try lia; auto. apply IHl. lia. Qed.

Lemma nth_set_other : forall A (l : list A) i j x d, i <> j -> nth j (list_set l i x) d = nth j l d.
Proof. induction l; intros [|i] [|j] x d H; simpl in *; try congruence; auto. Qed.

Lemma nth_error_set_same : forall A (l : list A) i x, i < length l -> nth_error (list_set l i x) i = Some x.
Proof. induction l; intros [|i] x H; simpl in *; try lia; auto. apply IHl. lia. Qed.

Lemma nth_error_set_other : forall A (l : list A) i j x, i <> j -> nth_error (list_set l i x) j = nth_error l j.
Proof. induction l; intros [|i] [|j] x H; simpl in *; try congruence; auto. Qed.

Lemma nth_error_lt : forall A (l : list A) i c, nth_error l i = Some c -> i < length l.
Proof. intros. apply nth_error_Some. congruence. Qed.

Lemma key_eqb_eq : forall a b, key_eqb a b = true <-> a = b.
Proof.
  induction a as [|x a IH]; intros [|y b]; simpl; try (split; congruence).
  rewrite andb_true_iff, text_eqb_eq, IH. split; [intros [-> ->]; reflexivity|intros E; injection E; auto].
Qed.

(** * Trees *)
Lemma get_put_same : forall sh d t, d < length (sh_trees sh) -> get_tree (put_tree sh d t) d = t.
Proof. intros. unfold get_tree, put_tree. simpl. apply nth_set_same. assumption. Qed.

Lemma get_put_other : forall sh d d' t, d <> d' -> get_tree (put_tree sh d t) d' = get_tree sh d'.
Proof. intros. unfold get_tree, put_tree. simpl. apply nth_set_other. assumption. Qed.

Definition dir_in_use (c : wpc) : list nat :=
  match c with
  | WQueue d => [d]
  | _ => match active c with Some (d, _) => [d] | None => [] end
  end.

Definition ended (c : wpc) : bool := is_end c.

Section Frame.
Context (P : params).

Lemma sstep_frame : forall i sh c sh' c', sstep P i sh c sh' c' ->
  sh_queue sh' = sh_queue sh /\ sh_dir0 sh' = sh_dir0 sh /\ sh_base sh' = sh_base sh
  /\ length (sh_trees sh') = length (sh_trees sh)
  /\ (exists d s, active c = Some (d, s) /\
      (active c' = Some (d, s) \/ c' = WEnd false \/ c' = WPanic) /\
      forall d', d' <> d -> get_tree sh' d' = get_tree sh d').
Proof.
  intros i sh c sh' c' H. destruct H; simpl;
    (repeat split; auto using list_set_length;
     eexists _, _; split; [reflexivity|]; split; [auto|]; intros d' Hd; auto using get_put_other).
Qed.

(** * Induction over executions *)
Context (o0 : entries) (t0 : tree) (ms : list mutant).

Notation n := (n_threads (pa_jobs P) (length ms)).
Notation init_sh d0 := (mkSh ms d0 [t0] [t0] [] [] (@lab_new mutant) o0 None).

Lemma reach_ind : forall (I : shared -> list wpc -> Prop),
  (pa_skip_baseline P = true -> I (init_sh (Some 0)) (spawn n)) ->
  (pa_skip_baseline P = false -> I (init_sh None) [WStart 0 Baseline]) ->
  (forall i sh ts c sh' c', nth_error ts i = Some c -> wstep P i sh c sh' c' -> I sh ts ->
      I sh' (list_set ts i c')) ->
  (forall sh d o, I sh [WFin d o] -> oc_success o = Some true -> I (set_dir0 sh (Some d)) (spawn n)) ->
  forall st, reachable P o0 t0 ms st ->
  match ls_main st with MEnd _ => True | _ => I (ls_sh st) (threads st) end.
Proof.
  intros I H1 H2 H3 H4 st H. unfold reachable in H. remember (start_state P o0 t0 ms) as s0 eqn:E0.
  induction H as [s|s s' s'' Hs IH Hst].
  - subst s. unfold start_state. destruct (pa_skip_baseline P); simpl; auto.
  - specialize (IH E0). destruct Hst; unfold threads in *; cbn [ls_main ls_sh ls_workers] in *; auto.
    + apply (H3 0 sh [c] c sh' c'); [reflexivity|constructor; assumption|exact IH].
    + eapply H4; eassumption.
    + eapply H3; eassumption.
Qed.

Lemma end_inv : forall sh r ws, reachable P o0 t0 ms (mkLS sh (MEnd r) ws) ->
  (exists d o, reachable P o0 t0 ms (mkLS sh (MBaseline (WFin d o)) []) /\ oc_success o = Some false
               /\ r = ROk (sh_lab sh) /\ ws = [])
  \/ (reachable P o0 t0 ms (mkLS sh (MBaseline (WEnd false)) []) /\ r = RErr /\ ws = [])
  \/ (reachable P o0 t0 ms (mkLS sh (MBaseline WPanic) []) /\ r = RPanic /\ ws = [])
  \/ (reachable P o0 t0 ms (mkLS sh MWork ws) /\ forallb is_end ws = true
      /\ r = join_threads ws (sh_lab sh)).
Proof.
  intros sh r ws H. unfold reachable in *. remember (start_state P o0 t0 ms) as s0 eqn:E0.
  remember (mkLS sh (MEnd r) ws) as s1 eqn:E1. destruct H as [s|s s' s'' Hs Hst].
  - rewrite E1 in E0. unfold start_state in E0. destruct (pa_skip_baseline P); discriminate.
  - subst s''. inversion Hst; subst; eauto 10.
Qed.

(** While the baseline runs, the thread is at a point of the baseline scenario. *)
Definition base_pc (c : wpc) : Prop :=
  match c with WEnd ok => ok = false | WPanic => True | _ => exists d, active c = Some (d, Baseline) end.

Lemma base_inv : forall st, reachable P o0 t0 ms st ->
  match ls_main st with
  | MBaseline c => base_pc c /\ ls_workers st = [] /\ sh_queue (ls_sh st) = ms
                   /\ pa_skip_baseline P = false /\ sh_dir0 (ls_sh st) = None
  | MWork => length (ls_workers st) = n
  | MEnd _ => True
  end.
Proof.
  intros st H. unfold reachable in H. remember (start_state P o0 t0 ms) as s0 eqn:E0.
  induction H as [s|s s' s'' Hs IH Hst].
  - subst s. unfold start_state. destruct (pa_skip_baseline P) eqn:E; simpl.
    + apply repeat_length.
    + repeat split; auto. exists 0. reflexivity.
  - specialize (IH E0). destruct Hst; simpl in *; auto.
    + destruct IH as (Hb & _ & Hq & Hk & Hd). pose proof (sstep_frame _ _ _ _ _ H) as (Fq & Fd & _ & _ & d & sc & A & A' & _).
      rewrite Fq, Fd. repeat split; auto.
      assert (sc = Baseline) as ->.
      { destruct c; simpl in Hb, A; try discriminate; destruct Hb as [d' Hd']; congruence. }
      destruct A' as [A'|[->| ->]]; simpl; auto. destruct c'; simpl in *; try discriminate; eauto.
    + apply repeat_length.
    + rewrite list_set_length. assumption.
Qed.

(** * Who has the mutex *)
Definition critical (c : wpc) : bool :=
  match c with WJson _ _ | WJson2 _ _ | WName _ _ | WNewline _ _ => true | _ => false end.

Definition mutex_ok (sh : shared) (ts : list wpc) : Prop :=
  (forall i c, nth_error ts i = Some c -> critical c = true -> sh_mutex sh = Some i)
  /\ (forall i, sh_mutex sh = Some i -> exists c, nth_error ts i = Some c /\ (critical c = true \/ c = WPanic)).

Lemma wstep_mutex : forall i sh c sh' c', wstep P i sh c sh' c' ->
  (critical c = true -> sh_mutex sh = Some i) ->
  (critical c' = true -> sh_mutex sh' = Some i)
  /\ (critical c = false -> critical c' = false -> sh_mutex sh' = sh_mutex sh)
  /\ (critical c = false -> critical c' = true -> sh_mutex sh = None)
  /\ (critical c = true -> critical c' = false -> c' = WPanic /\ sh_mutex sh' = Some i \/ sh_mutex sh' = None).
Proof.
  intros i sh c sh' c' H Hc. destruct H as [| | | | | | |c sh' c' H]; simpl in *; try (repeat split; intros; congruence).
  destruct H; simpl in *; repeat split; intros; try congruence; auto.
Qed.

Lemma mutex_inv : forall st, reachable P o0 t0 ms st ->
  match ls_main st with MEnd _ => True | _ => mutex_ok (ls_sh st) (threads st) end.
Proof.
  apply (reach_ind mutex_ok).
  - intros _. split; simpl; [|discriminate]. intros i c H Hc. apply nth_error_In, repeat_spec in H. subst. discriminate.
  - intros _. split; simpl; [|discriminate]. intros [|[|i]] c H Hc; try discriminate. injection H as <-. discriminate.
  - intros i sh ts c sh' c' Hn Hs [M1 M2]. pose proof (nth_error_lt _ _ _ _ Hn) as Hlt.
    destruct (wstep_mutex _ _ _ _ _ Hs (M1 _ _ Hn)) as (A & B & C & D). split.
    + intros j cj Hj Hcj. destruct (Nat.eq_dec i j) as [->|Hij].
      * rewrite nth_error_set_same in Hj by assumption. injection Hj as <-. auto.
      * rewrite nth_error_set_other in Hj by assumption. pose proof (M1 _ _ Hj Hcj) as Hm.
        destruct (critical c) eqn:Ec; [rewrite (M1 _ _ Hn Ec) in Hm; congruence|].
        destruct (critical c') eqn:Ec'; [rewrite C in Hm by reflexivity; discriminate|].
        rewrite B; auto.
    + intros j Hj. destruct (critical c) eqn:Ec, (critical c') eqn:Ec'.
      * rewrite A in Hj by reflexivity. injection Hj as <-. exists c'. rewrite nth_error_set_same by assumption. auto.
      * destruct D as [[-> D]|D]; auto; [|congruence]. rewrite D in Hj. injection Hj as <-. exists WPanic.
        rewrite nth_error_set_same by assumption. auto.
      * rewrite A in Hj by reflexivity. injection Hj as <-. exists c'. rewrite nth_error_set_same by assumption. auto.
      * rewrite B in Hj by reflexivity. destruct (M2 _ Hj) as (cj & Hcj & Hcc).
        destruct (Nat.eq_dec i j) as [->|Hij].
        -- rewrite Hn in Hcj. injection Hcj as <-. destruct Hcc as [Hcc|Hcc]; [congruence|].
           subst c. inversion Hs as [| | | | | | |? ? ? Hs']; inversion Hs'.
        -- exists cj. rewrite nth_error_set_other by assumption. auto.
  - intros sh d o [M1 M2] Ho. split.
    + intros i c H Hc. apply nth_error_In, repeat_spec in H. subst. discriminate.
    + simpl. intros i Hi. destruct (M2 _ Hi) as ([] & Hc & [Hcc|Hcc]); destruct i as [|[|i]]; simpl in *; discriminate.
Qed.

Lemma wstep_output : forall i sh c sh' c', wstep P i sh c sh' c' -> output_of sh' <> output_of sh ->
  sh_mutex sh = None \/ writing c.
Proof.
  intros i sh c sh' c' H N. destruct H as [| | | | | | |c sh' c' H]; try (destruct N; reflexivity).
  destruct H; cbn [writing]; auto; destruct N; reflexivity.
Qed.

Lemma wstep_moves : forall i sh c sh' c', wstep P i sh c sh' c' -> writing c -> c' <> c.
Proof.
  intros i sh c sh' c' H W. destruct H as [| | | | | | |c sh' c' H]; try contradiction.
  destruct H; cbn [writing] in W; try contradiction; discriminate.
Qed.

Lemma exclusive : forall st st' j c, reachable P o0 t0 ms st -> step P (length ms) st st' ->
  output_of (ls_sh st') <> output_of (ls_sh st) -> nth_error (threads st) j = Some c -> writing c ->
  exists c', c' <> c /\ nth_error (threads st') j = Some c'.
Proof.
  intros st st' j c R H N E W. pose proof (mutex_inv _ R) as M.
  assert (Cr : critical c = true) by (destruct c; try contradiction; reflexivity).
  destruct H; cbn [ls_sh ls_main threads ls_workers] in *; try (destruct N; reflexivity).
  - destruct j as [|[|j]]; try discriminate. injection E as ->. exists c'. split; [|reflexivity].
    exact (wstep_moves _ _ _ _ _ (ws_scenario _ _ _ _ _ _ H) W).
  - destruct M as [M1 _]. pose proof (M1 _ _ E Cr) as Hm.
    destruct (wstep_output _ _ _ _ _ H0 N) as [X|X]; [congruence|].
    assert (Ci : critical c0 = true) by (destruct c0; try contradiction; reflexivity).
    pose proof (M1 _ _ H Ci) as Hi. assert (i = j) by congruence. subst i. rewrite H in E. injection E as ->.
    exists c'. split; [exact (wstep_moves _ _ _ _ _ H0 W)|]. apply nth_error_set_same. exact (nth_error_lt _ _ _ _ H).
Qed.

(** * Phases and names *)
Definition succ (r : phase_result) : Prop := is_success (pr_status r) = true.
Notation PS := (phases (pa_check_only P)).

Definition wf (c : wpc) : Prop :=
  (forall d m, active c = Some (d, Mutant m) -> In m ms) /\
  match c with
  | WPhase _ _ done todo => map pr_phase done ++ todo = PS /\ Forall succ done
  | WCargo _ _ done p todo => map pr_phase done ++ p :: todo = PS /\ Forall succ done
  | WRevert _ _ done | WAdd _ _ done => finished_run PS done
  | WJson _ o | WJson2 _ o | WName _ o | WFin _ o => finished_run PS (oc_results o)
  | WNewline _ o => finished_run PS (oc_results o) /\ is_mutant (oc_scenario o) = true
      /\ (forall v, summary o = Some v -> list_for v <> None)
  | _ => True
  end.

Lemma finished_last : forall rs, finished_run PS rs -> exists pre r, rs = pre ++ [r].
Proof.
  intros rs [[H _]|(b & r & l & -> & _)]; eauto.
  destruct (exists_last (l := rs)) as (pre & r & E); eauto.
  intros ->. unfold phases in H. destruct (pa_check_only P); discriminate.
Qed.

Lemma last_result_app : forall (s : scenario mutant) pre r, last_result (mkOutcome s (pre ++ [r])) = Some r.
Proof.
  intros. unfold last_result. simpl. induction pre as [|a pre IH]; [reflexivity|].
  simpl. destruct (pre ++ [r]) eqn:E; [destruct pre; discriminate|]. exact IH.
Qed.

Lemma finished_success : forall (s : scenario mutant) rs, finished_run PS rs -> oc_success (mkOutcome s rs) <> None.
Proof.
  intros s rs H. destruct (finished_last _ H) as (pre & r & ->). unfold oc_success.
  rewrite last_result_app. discriminate.
Qed.

Lemma finished_summary : forall (s : scenario mutant) rs, finished_run PS rs -> exists v, summary (mkOutcome s rs) = Some v.
Proof.
  intros s rs H. destruct (finished_last _ H) as (pre & r & ->). unfold summary, mutant_caught, mutant_missed, oc_success.
  rewrite !last_result_app. cbn [oc_scenario]. destruct s as [|m]; cbn [is_mutant].
  - destruct (has_timeout _); [eauto|]. destruct (is_success _); eauto.
  - destruct (check_or_build_failed _); [eauto|]. destruct (has_timeout _); [eauto|].
    destruct (phase_eqb _ _ && is_failure _); [eauto|]. destruct (phase_eqb _ _ && is_success _); [eauto|].
    destruct (is_success _); eauto.
Qed.

Lemma lab_add_some : forall l (o : outcome mutant) v, summary o = Some v -> exists l', lab_add l o = Some l'.
Proof.
  intros [os tot mi ca ti un su] o v H. unfold lab_add. rewrite H.
  destruct (is_mutant (oc_scenario o)); [destruct v|]; eauto.
Qed.

Lemma lab_add_outcomes : forall l (o : outcome mutant) l', lab_add l o = Some l' -> lo_outcomes l' = lo_outcomes l ++ [o].
Proof.
  intros [os tot mi ca ti un su] o l' H. unfold lab_add in H.
  destruct (is_mutant (oc_scenario o)); [destruct (summary o) as [[]|]|]; try discriminate;
    apply some_inj in H; subst; reflexivity.
Qed.

Definition named : Prop := forall m, In m ms -> mutant_name true m <> None.

Definition wfs (sh : shared) (ts : list wpc) : Prop :=
  incl (sh_queue sh) ms /\ Forall wf ts /\ (named -> ~ In WPanic ts).

Lemma wstep_wf : forall i sh c sh' c', wstep P i sh c sh' c' -> incl (sh_queue sh) ms -> wf c ->
  incl (sh_queue sh') ms /\ wf c' /\ (named -> c' <> WPanic).
Proof.
  intros i sh c sh' c' H Hq [Hm Hc]. destruct H as [| | | |d m q Hq'| | |c sh' c' H].
  1-4, 6-7: simpl; unfold wf; simpl; (split; [assumption|]); (split; [split; [intros; discriminate|exact I]|discriminate]).
  - rewrite Hq' in Hq. unfold wf; simpl. split; [intros x Hx; apply Hq; right; exact Hx|].
    split; [split; [|exact I]|discriminate]. intros ? ? E. injection E as _ <-. apply Hq. left. reflexivity.
  - pose proof (sstep_frame _ _ _ _ _ H) as (Fq & _ & _ & _ & d0 & s0 & A & A' & _). rewrite Fq. split; [exact Hq|].
    assert (Hm' : forall d m, active c' = Some (d, Mutant m) -> In m ms).
    { intros d m E. destruct A' as [A'|[->| ->]]; [|discriminate|discriminate]. apply (Hm d). congruence. }
    unfold wf. revert Hm'. 
    destruct H; simpl in Hc |- *; intros Hm'; try (split; [split; [exact Hm'|auto]|discriminate]).
    + destruct Hc as [Hc Hd]. rewrite app_nil_r in Hc. left. auto.
    + destruct Hc as [Hc Hd]. rewrite map_app, <- app_assoc. split; [exact Hc|].
      apply Forall_app. split; [exact Hd|]. repeat constructor. assumption.
    + destruct Hc as [Hc Hd]. right. exists done, (mkPR p dur e), todo. repeat split; auto.
      rewrite map_app, <- app_assoc. exact Hc.
    + split; [split; [exact Hm'|exact I]|]. destruct (finished_summary s done Hc) as [v Hv].
      destruct (lab_add_some (sh_lab sh) _ _ Hv). congruence.
    + split; [exact Hc|]. split; [reflexivity|]. intros w Hw. congruence.
    + split; [split; [exact Hm'|exact I]|]. intros Hn. exfalso. destruct H as [H|(v & f & H & H1 & H2)].
      * destruct (finished_summary (Mutant m) done Hc) as [v Hv]. congruence.
      * apply (Hn m); [|exact H2]. apply (Hm d). reflexivity.
    + tauto.
Qed.

Lemma wf_inv : forall st, reachable P o0 t0 ms st ->
  match ls_main st with MEnd _ => True | _ => wfs (ls_sh st) (threads st) end.
Proof.
  apply (reach_ind wfs).
  - intros _. split; [apply incl_refl|]. split.
    + apply Forall_forall. intros c H. apply repeat_spec in H. subst. split; [discriminate|exact I].
    + intros _ H. apply repeat_spec in H. discriminate.
  - intros _. split; [apply incl_refl|]. split; [repeat constructor; discriminate|]. intros _ [H|[]]. discriminate.
  - intros i sh ts c sh' c' Hn Hs (Hq & Hf & Hp). destruct (list_split _ _ _ _ Hn) as (l1 & l2 & -> & _ & ->).
    apply Forall_app in Hf. destruct Hf as [Hf1 Hf2]. inversion Hf2; subst.
    destruct (wstep_wf _ _ _ _ _ Hs Hq H1) as (Hq' & Hw & Hnp). split; [exact Hq'|]. split.
    + apply Forall_app. auto.
    + intros Hnm Hin. apply in_app_iff in Hin. destruct Hin as [Hin|[Hin|Hin]].
      * apply (Hp Hnm). apply in_or_app. auto.
      * apply (Hnp Hnm). auto.
      * apply (Hp Hnm). apply in_or_app. simpl. auto.
  - intros sh d o (Hq & Hf & Hp) _. split; [exact Hq|]. split.
    + apply Forall_forall. intros c H. apply repeat_spec in H. subst. split; [discriminate|exact I].
    + intros _ H. apply repeat_spec in H. discriminate.
Qed.

(** * C12: where every mutant is *)
Definition bad (c : wpc) : bool := is_err c || is_panic c.

Definition accounted (sh : shared) (ts : list wpc) : Prop :=
  exists lost, Permutation (sh_queue sh ++ flat_map in_hand ts ++ recorded (sh_lab sh) ++ lost) ms
    /\ (lost <> [] -> existsb bad ts = true)
    /\ (In (WEnd true) ts -> sh_queue sh = []).

Lemma recorded_add : forall l o l', lab_add l o = Some l' ->
  recorded l' = recorded l ++ match oc_scenario o with Mutant m => [m] | Baseline => [] end.
Proof.
  intros l o l' H. unfold recorded. rewrite (lab_add_outcomes _ _ _ H), flat_map_app. simpl.
  rewrite app_nil_r. reflexivity.
Qed.

Lemma wstep_hand : forall i sh c sh' c', wstep P i sh c sh' c' ->
  c <> WEnd true /\ bad c = false /\ (c' = WEnd true -> sh_queue sh' = []) /\ (sh_queue sh = [] -> sh_queue sh' = []) /\
  exists lost, Permutation (sh_queue sh' ++ in_hand c' ++ recorded (sh_lab sh') ++ lost)
                           (sh_queue sh ++ in_hand c ++ recorded (sh_lab sh))
    /\ (lost <> [] -> bad c' = true).
Proof.
  intros i sh c sh' c' H. destruct H as [| | | |d m q Hq'| | |c sh' c' H]; simpl.
  1-4, 6-7: repeat split; try congruence; exists []; rewrite app_nil_r; split; [apply Permutation_refl|congruence].
  - repeat split; try congruence. exists []. rewrite app_nil_r, Hq'. split; [|congruence].
    simpl. apply Permutation_sym, Permutation_middle.
  - destruct H; simpl; (repeat split; try congruence);
      try (exists []; rewrite ?app_nil_r; split; [apply Permutation_refl|congruence]);
      try (destruct s as [|m]; [exists []; rewrite app_nil_r; split; [apply Permutation_refl|congruence]|]);
      try (exists [m]; split; [|auto]; apply Permutation_app_head; simpl; apply Permutation_sym, Permutation_cons_append).
    exists []. rewrite (recorded_add _ _ _ H0). simpl. rewrite !app_nil_r. split; [|congruence].
    apply Permutation_app_head. apply Permutation_app_comm.
Qed.

Lemma perm_shuffle : forall A (q l1 h l2 r x y : list A),
  Permutation (q ++ (l1 ++ h ++ l2) ++ r ++ x ++ y) ((q ++ h ++ r ++ x) ++ l1 ++ l2 ++ y).
Proof.
  intros. rewrite <- !app_assoc. apply Permutation_app_head.
  rewrite (Permutation_app_swap_app l1 h). apply Permutation_app_head.
  rewrite (app_assoc l1 l2), (Permutation_app_swap_app (l1 ++ l2) r). apply Permutation_app_head.
  rewrite (Permutation_app_swap_app (l1 ++ l2) x). rewrite <- app_assoc. reflexivity.
Qed.

Lemma flat_hand_spawn : forall k, flat_map in_hand (spawn k) = [].
Proof. induction k; simpl; auto. Qed.

Lemma accounted_inv : forall st, reachable P o0 t0 ms st ->
  match ls_main st with MEnd _ => True | _ => accounted (ls_sh st) (threads st) end.
Proof.
  apply (reach_ind accounted).
  - intros _. exists []. cbn [sh_queue sh_lab]. rewrite flat_hand_spawn. simpl. rewrite app_nil_r.
    split; [apply Permutation_refl|]. split; [congruence|]. intros H. apply repeat_spec in H. discriminate.
  - intros _. exists []. simpl. rewrite app_nil_r.
    split; [apply Permutation_refl|]. split; [congruence|]. intros [H|[]]. discriminate.
  - intros i sh ts c sh' c' Hn Hs (lost & HP & HL & HE).
    destruct (list_split _ _ _ _ Hn) as (l1 & l2 & -> & _ & ->).
    destruct (wstep_hand _ _ _ _ _ Hs) as (Hc & Hb & He & Hq & lost' & HP' & HL').
    exists (lost' ++ lost). split; [|split].
    + eapply perm_trans; [|exact HP]. rewrite !flat_map_app. simpl.
      apply (Permutation_app_tail (flat_map in_hand l1 ++ flat_map in_hand l2 ++ lost)) in HP'.
      eapply perm_trans; [|eapply perm_trans; [exact HP'|]].
      * apply perm_shuffle.
      * pose proof (perm_shuffle _ (sh_queue sh) (flat_map in_hand l1) (in_hand c) (flat_map in_hand l2)
          (recorded (sh_lab sh)) [] lost) as Hp. simpl in Hp. rewrite app_nil_r in Hp. apply Permutation_sym, Hp.
    + rewrite existsb_app in *. simpl in *. rewrite Hb in HL. intros Hne. destruct lost' as [|x lost'].
      * apply HL in Hne. destruct (existsb bad l1), (bad c'); auto.
      * rewrite HL' by discriminate. destruct (existsb bad l1); reflexivity.
    + intros Hin. apply in_app_iff in Hin. destruct Hin as [Hin|[Hin|Hin]].
      * apply Hq, HE. apply in_or_app. auto.
      * auto.
      * apply Hq, HE. apply in_or_app. simpl. auto.
  - intros sh d o (lost & HP & HL & HE) _. exists lost. cbn [set_dir0 sh_queue sh_lab]. rewrite flat_hand_spawn.
    simpl in HP. split; [exact HP|]. split.
    + intros Hne. apply HL in Hne. discriminate.
    + intros H. apply repeat_spec in H. discriminate.
Qed.

(** * C15: build directories *)
Definition spare (sh : shared) : list nat := match sh_dir0 sh with Some d => [d] | None => [] end.

Definition dirs_ok (sh : shared) (ts : list wpc) : Prop :=
  NoDup (spare sh ++ flat_map dir_in_use ts)
  /\ (forall d, In d (spare sh ++ flat_map dir_in_use ts) -> d < length (sh_trees sh))
  /\ length (sh_base sh) = length (sh_trees sh).

Lemma active_use : forall c d s, active c = Some (d, s) -> dir_in_use c = [d].
Proof. intros c d s H. destruct c; simpl in *; try discriminate; injection H as -> _; reflexivity. Qed.

Lemma flat_use_spawn : forall k, flat_map dir_in_use (spawn k) = [].
Proof. induction k; simpl; auto. Qed.

Lemma NoDup_app_r : forall A (a b : list A), NoDup (a ++ b) -> NoDup b.
Proof. induction a; intros b H; [exact H|]. inversion H; auto. Qed.

Lemma NoDup_mid : forall (a b : list nat) d, NoDup (a ++ b) -> ~ In d (a ++ b) -> NoDup (a ++ d :: b).
Proof. intros. apply NoDup_Add with (a := d) (l := a ++ b). apply Add_app. split; assumption. Qed.

(** What a step does to the directories. *)
Lemma wstep_dirs : forall i sh c sh' c', wstep P i sh c sh' c' ->
  length (sh_base sh) = length (sh_trees sh) ->
  length (sh_base sh') = length (sh_trees sh') /\ length (sh_trees sh) <= length (sh_trees sh')
  /\ (   (spare sh' ++ dir_in_use c' = spare sh ++ dir_in_use c)
      \/ (spare sh' = spare sh /\ dir_in_use c' = [])
      \/ (spare sh' = spare sh /\ dir_in_use c = [] /\ dir_in_use c' = [length (sh_trees sh)]
          /\ length (sh_trees sh') = S (length (sh_trees sh)))).
Proof.
  intros i sh c sh' c' H Hb. destruct H as [d Hd|Hd|t| |d m q Hq'| | |c sh' c' H]; simpl.
  - unfold spare. simpl. rewrite Hd. auto.
  - auto.
  - unfold spare. simpl. rewrite !app_length, Hb. simpl. repeat split; [lia|]. right; right. repeat split. lia.
  - auto.
  - auto 10.
  - auto 10.
  - auto 10.
  - pose proof (sstep_frame _ _ _ _ _ H) as (_ & Fd & Fb & Fl & d & s & A & A' & _).
    rewrite Fb, Fl, Hb. repeat split; [lia|]. unfold spare. rewrite Fd. rewrite (active_use _ _ _ A).
    destruct A' as [A'|[->| ->]]; [rewrite (active_use _ _ _ A'); auto|auto|auto].
Qed.

Lemma dirs_inv : forall st, reachable P o0 t0 ms st ->
  match ls_main st with MEnd _ => True | _ => dirs_ok (ls_sh st) (threads st) end.
Proof.
  apply (reach_ind dirs_ok).
  - intros _. unfold dirs_ok. rewrite flat_use_spawn. simpl. repeat split; [|intuition lia].
    repeat constructor. intros [].
  - intros _. unfold dirs_ok. simpl. repeat split; [|intuition lia]. repeat constructor. intros [].
  - intros i sh ts c sh' c' Hn Hs (Hd & Hl & Hb). unfold dirs_ok.
    destruct (list_split _ _ _ _ Hn) as (l1 & l2 & -> & _ & ->).
    destruct (wstep_dirs _ _ _ _ _ Hs Hb) as (Hb' & Hle & Hk). rewrite !flat_map_app in *. cbn [flat_map] in *.
    assert (HP : forall x y, Permutation (x ++ flat_map dir_in_use l1 ++ y ++ flat_map dir_in_use l2)
                   ((x ++ y) ++ flat_map dir_in_use l1 ++ flat_map dir_in_use l2)).
    { intros x y. rewrite <- app_assoc. apply Permutation_app_head. apply Permutation_app_swap_app. }
    destruct Hk as [Hk|[[Hk1 Hk2]|(Hk1 & Hk2 & Hk3 & Hk4)]].
    + repeat split; [| |exact Hb'].
      * eapply Permutation_NoDup; [apply Permutation_sym, HP|]. rewrite Hk.
        eapply Permutation_NoDup; [apply HP|exact Hd].
      * intros d Hin. eapply Nat.lt_le_trans; [apply Hl|exact Hle].
        eapply Permutation_in; [apply Permutation_sym, HP|]. rewrite <- Hk.
        eapply Permutation_in; [apply HP|exact Hin].
    + rewrite Hk1, Hk2. simpl. repeat split; [| |exact Hb'].
      * apply (Permutation_NoDup (HP _ _)) in Hd. rewrite <- app_assoc in Hd.
        revert Hd. generalize (spare sh). intros x Hd.
        eapply Permutation_NoDup in Hd; [|apply Permutation_app_swap_app].
        apply NoDup_app_r in Hd. exact Hd.
      * intros d Hin. eapply Nat.lt_le_trans; [apply Hl|exact Hle].
        rewrite !in_app_iff in *. tauto.
    + rewrite Hk1, Hk3. rewrite Hk2 in *. simpl in *. repeat split; [| |exact Hb'].
      * rewrite app_assoc. apply NoDup_mid; rewrite <- app_assoc; [exact Hd|].
        intros Hin. apply Hl in Hin. lia.
      * intros d Hin. rewrite Hk4. rewrite !in_app_iff in *. simpl in Hin.
        destruct Hin as [Hin|[Hin|[Hin|Hin]]]; [| |lia|]; apply Nat.lt_lt_succ_r, Hl; rewrite !in_app_iff; auto.
  - intros sh d o (Hd & Hl & Hb) _. unfold dirs_ok. rewrite flat_use_spawn. simpl in *.
    repeat split; [| |exact Hb].
    + repeat constructor. intros [].
    + intros d' [<-|[]]. apply Hl. apply in_or_app. simpl. auto.
Qed.

(** * C13: trees *)
Definition solo (sh : shared) (ts : list wpc) : Prop :=
  pa_in_place P = true -> length ts = 1 /\ ~ In WCopy ts /\ (In WInit ts -> sh_dir0 sh <> None).

Lemma solo_n : options_ok P -> pa_in_place P = true -> n = 1.
Proof. intros H E. unfold n_threads. rewrite (H E). lia. Qed.

Lemma solo_inv : options_ok P -> forall st, reachable P o0 t0 ms st ->
  match ls_main st with MEnd _ => True | _ => solo (ls_sh st) (threads st) end.
Proof.
  intros Ho. apply (reach_ind solo).
  - intros _ E. rewrite (solo_n Ho E). simpl. repeat split; [|discriminate]. intros [H|[]]. discriminate.
  - intros _ E. simpl. repeat split; [|]; intros [H|[]]; discriminate.
  - intros i sh ts c sh' c' Hn Hs HS E. destruct (HS E) as (Hl & Hc & Hi). rewrite list_set_length. split; [exact Hl|].
    destruct ts as [|c1 [|? ?]]; try discriminate. destruct i as [|[|i]]; try discriminate. injection Hn as ->.
    simpl in *. assert (c <> WCopy) by tauto.
    destruct Hs as [d Hd|Hd|t| |d m q Hq'| | |c sh' c' Hs]; simpl; try (split; [intros [A|[]]|intros [A|[]]]; congruence).
    + exfalso. apply Hi; auto.
    + destruct (sstep_frame _ _ _ _ _ Hs) as (_ & _ & _ & _ & d & s & A & A' & _).
      split; intros [B|[]]; subst c'; destruct A' as [A'|[A'|A']]; discriminate.
  - intros sh d o HS _ E. rewrite (solo_n Ho E). simpl. repeat split; [|discriminate]. intros [H|[]]. discriminate.
Qed.

Definition get_base (sh : shared) (d : nat) : tree := nth d (sh_base sh) no_tree.

Definition like (x b : option text) : Prop := x = b \/ x = option_map without_crlf_cr b.

Definition clean (sh : shared) (d : nat) : Prop :=
  forall k, pa_source P k = true -> like (get_tree sh d k) (get_base sh d k).

Definition dirty (sh : shared) (d : nat) (m : mutant) : Prop :=
  In m ms /\ get_tree sh d (file_key m) = Some (mutant_code m) /\ get_base sh d (file_key m) <> None
  /\ forall k, pa_source P k = true -> k <> file_key m -> like (get_tree sh d k) (get_base sh d k).

Definition thread_tree (sh : shared) (c : wpc) : Prop :=
  match mutated_by c with
  | Some (d, m) => dirty sh d m
  | None => forall d, In d (dir_in_use c) -> clean sh d
  end.

Definition base_ok (sh : shared) : Prop :=
  forall d k, d < length (sh_base sh) -> pa_source P k = true ->
    get_base sh d k = pa_root P k \/ (pa_in_place P = false /\ get_base sh d k = None).

Definition trees_ok (sh : shared) (ts : list wpc) : Prop :=
  dirs_ok sh ts /\ base_ok sh /\ solo sh ts /\ wfs sh ts
  /\ Forall (thread_tree sh) ts
  /\ (forall d, In d (spare sh) -> clean sh d)
  /\ (forall d, d < length (sh_trees sh) -> clean sh d \/ In d (flat_map dir_in_use ts) \/ existsb bad ts = true).

Hypothesis Hload : forall m, In m ms -> loaded P m.

Lemma overwrite_spec : forall t k c t', overwrite_file t k c = Some t' ->
  t k <> None /\ t' k = Some c /\ forall k', k' <> k -> t' k' = t k'.
Proof.
  intros t k c t' H. unfold overwrite_file in H. destruct (t k) eqn:E; [|discriminate].
  apply some_inj in H. subst t'. unfold tree_set. split; [congruence|]. split.
  - rewrite (proj2 (key_eqb_eq k k) eq_refl). reflexivity.
  - intros k' Hk. destruct (key_eqb k' k) eqn:E'; [apply key_eqb_eq in E'; congruence|reflexivity].
Qed.

Lemma reverted_clean : forall sh d m t, dirty sh d m -> base_ok sh -> length (sh_base sh) = length (sh_trees sh) ->
  d < length (sh_trees sh) -> overwrite_file (get_tree sh d) (file_key m) (sf_code (mu_file m)) = Some t ->
  clean (put_tree sh d t) d.
Proof.
  intros sh d m t (Hm & Hk & Hb & Ho) Hbase Hl Hd H k Hsrc. rewrite get_put_same by assumption.
  destruct (overwrite_spec _ _ _ _ H) as (_ & H2 & H3).
  change (get_base (put_tree sh d t) d k) with (get_base sh d k).
  destruct (key_eqb k (file_key m)) eqn:E.
  - apply key_eqb_eq in E. subst k. rewrite H2. destruct (Hload m Hm) as (_ & c & Hc & Hs). rewrite Hs.
    destruct (Hbase d (file_key m)) as [Hr|[_ Hr]]; [lia|exact Hsrc| |congruence].
    rewrite Hr, Hc. right. reflexivity.
  - assert (k <> file_key m) by (intros ->; rewrite (proj2 (key_eqb_eq _ _) eq_refl) in E; discriminate).
    rewrite H3 by assumption. auto.
Qed.

Lemma clean_same : forall sh d t, same_sources P (get_tree sh d) t -> d < length (sh_trees sh) ->
  clean sh d -> clean (put_tree sh d t) d.
Proof.
  intros sh d t Hs Hd Hc k Hk. rewrite get_put_same by assumption. rewrite Hs by assumption. apply Hc. assumption.
Qed.

Lemma dirty_same : forall sh d m t, same_sources P (get_tree sh d) t -> d < length (sh_trees sh) ->
  dirty sh d m -> dirty (put_tree sh d t) d m.
Proof.
  intros sh d m t Hs Hd (Hm & Hk & Hb & Ho). unfold dirty. rewrite get_put_same by assumption.
  destruct (Hload m Hm) as [Hsrc _]. repeat split; [assumption| |assumption|].
  - rewrite Hs by assumption. assumption.
  - intros k H1 H2. rewrite Hs by assumption. apply Ho; assumption.
Qed.

Lemma sstep_tree : forall i sh c sh' c', sstep P i sh c sh' c' -> thread_tree sh c -> wf c -> base_ok sh ->
  length (sh_base sh) = length (sh_trees sh) -> (forall d, In d (dir_in_use c) -> d < length (sh_trees sh)) ->
  thread_tree sh' c'.
Proof.
  intros i sh c sh' c' H HT [Hwf _] Hb Hl Hd. unfold thread_tree in *.
  destruct H; simpl in HT, Hwf, Hd |- *; try (intros ? []; fail); try exact HT;
    try (destruct s; exact HT).
  - destruct (overwrite_spec _ _ _ _ H) as (H1 & H2 & H3).
    unfold dirty. rewrite get_put_same by auto. repeat split; [eauto|assumption| |].
    + change (get_base (put_tree sh d t) d (file_key m)) with (get_base sh d (file_key m)).
      destruct (Hload m (Hwf _ _ eq_refl)) as [Hs _].
      destruct (HT d (or_introl eq_refl) (file_key m) Hs) as [E|E]; intros E0; rewrite E0 in E; contradiction.
    + intros k Hk Hne. rewrite H3 by assumption. apply (HT d); auto.
  - destruct s as [|m].
    + intros d' [<-|[]]. apply clean_same; auto.
    + apply dirty_same; auto.
  - destruct s as [|m].
    + intros d' [<-|[]]. apply clean_same; auto.
    + apply dirty_same; auto.
  - destruct s as [|m].
    + intros d' [<-|[]]. apply clean_same; auto.
    + apply dirty_same; auto.
  - intros d' [<-|[]]. eapply reverted_clean; eauto.
Qed.

Hypothesis Hfirst : first_tree P t0.
Hypothesis Hopt : options_ok P.

Definition ttrees (sh : shared) (ts : list wpc) : Prop :=
  base_ok sh
  /\ Forall (thread_tree sh) ts
  /\ (forall d, In d (spare sh) -> clean sh d)
  /\ (forall d, d < length (sh_trees sh) ->
        clean sh d \/ In d (spare sh ++ flat_map dir_in_use ts) \/ (existsb bad ts = true /\ pa_write_faults P = true)).

(** A thread that ends leaves its directory clean, unless a write failed. *)
Lemma sstep_end_clean : forall i sh c sh' c' d, sstep P i sh c sh' c' -> is_end c' = true -> In d (dir_in_use c) ->
  thread_tree sh c -> base_ok sh ->
  length (sh_base sh) = length (sh_trees sh) -> (forall d, In d (dir_in_use c) -> d < length (sh_trees sh)) ->
  clean sh' d \/ pa_write_faults P = true.
Proof.
  intros i sh c sh' c' d H He Hd HT Hb Hl Hlt. unfold thread_tree in HT.
  destruct H; try discriminate; auto; left;
    cbn [dir_in_use] in Hd; destruct Hd as [<-|[]]; cbn [mutated_by dir_in_use] in HT;
    try (apply (HT d0); left; reflexivity); try (apply (HT d); left; reflexivity).
  all: try (destruct HT as (_ & T & _); unfold overwrite_file in *;
    match goal with E : match _ with _ => _ end = None |- _ => rewrite T in E; discriminate end).
  eapply reverted_clean; eauto. apply Hlt. left. reflexivity.
Qed.

Lemma frame_clean : forall sh sh' d, get_tree sh' d = get_tree sh d -> get_base sh' d = get_base sh d ->
  clean sh d -> clean sh' d.
Proof. intros sh sh' d H1 H2 H k Hk. rewrite H1, H2. auto. Qed.

Lemma frame_thread : forall sh sh' c, (forall d, In d (dir_in_use c) -> get_tree sh' d = get_tree sh d) ->
  (forall d, In d (dir_in_use c) -> get_base sh' d = get_base sh d) -> thread_tree sh c -> thread_tree sh' c.
Proof.
  intros sh sh' c H1 H2 H. unfold thread_tree in *. destruct (mutated_by c) as [[d m]|] eqn:E.
  - assert (Hu : In d (dir_in_use c)).
    { destruct c; try discriminate; simpl in *; destruct s; try discriminate; injection E as -> _; auto. }
    unfold dirty. rewrite (H1 _ Hu), (H2 _ Hu). exact H.
  - intros d Hd. apply frame_clean with sh; auto.
Qed.

Lemma trees_all : forall sh ts i c sh' c', nth_error ts i = Some c -> wstep P i sh c sh' c' ->
  dirs_ok sh ts -> solo sh ts -> wfs sh ts -> ttrees sh ts -> ttrees sh' (list_set ts i c').
Proof.
  intros sh ts i c sh' c' Hn Hs (Hnd & Hlt & Hbl) Hsolo (Hq & Hwf & _) (Hb & Ht & Hsp & Hall).
  destruct (list_split _ _ _ _ Hn) as (l1 & l2 & -> & _ & ->).
  assert (Hwc : wf c). { apply Forall_app in Hwf. destruct Hwf as [_ H]. inversion H. assumption. }
  assert (Htc : thread_tree sh c). { apply Forall_app in Ht. destruct Ht as [_ H]. inversion H. assumption. }
  assert (Hcu : forall d, In d (dir_in_use c) -> d < length (sh_trees sh)).
  { intros d Hd. apply Hlt. rewrite flat_map_app, !in_app_iff. simpl. rewrite in_app_iff. auto. }
  assert (Hou : forall d, In d (flat_map dir_in_use (l1 ++ l2)) \/ In d (spare sh) ->
             d < length (sh_trees sh) /\ ~ In d (dir_in_use c)).
  { intros d Hd. split.
    - apply Hlt. rewrite flat_map_app, !in_app_iff in *. simpl. rewrite in_app_iff. tauto.
    - intros Hc. rewrite flat_map_app in *. simpl in Hnd.
      eapply Permutation_NoDup in Hnd; [|rewrite app_assoc; apply Permutation_app_swap_app].
      clear - Hnd Hd Hc. revert Hnd Hc. rewrite <- app_assoc. generalize (dir_in_use c). induction l as [|x l IH]; intros Hnd Hc; [destruct Hc|].
      simpl in Hnd. inversion Hnd; subst. destruct Hc as [->|Hc]; [|auto].
      apply H1. rewrite !in_app_iff in *. tauto. }
  (* which directories keep their contents *)
  assert (Hkey : (sh_base sh' = sh_base sh /\ length (sh_trees sh') = length (sh_trees sh)
             \/ exists t, copy_of P (pa_root P) t /\ sh' = add_dir sh t /\ c = WCopy /\ c' = WQueue (length (sh_trees sh)))
          /\ (forall d, d < length (sh_trees sh) -> ~ In d (dir_in_use c) -> get_tree sh' d = get_tree sh d)
          /\ (forall d, d < length (sh_trees sh) -> get_base sh' d = get_base sh d)
          /\ thread_tree sh' c'
          /\ (forall d, In d (spare sh') -> clean sh' d)
          /\ (forall d, In d (spare sh ++ dir_in_use c) -> In d (spare sh' ++ dir_in_use c') \/ clean sh' d \/ (bad c' = true /\ pa_write_faults P = true))).
  { destruct Hs as [d Hd|Hd|t Ht0| |d m q Hq'|d Hd|d o|c sh' c' Hs].
    - split; [left; split; reflexivity|]. split; [auto|]. split; [auto|].
      assert (Hcl : clean (set_dir0 sh None) d). { apply frame_clean with sh; auto. apply Hsp. unfold spare. rewrite Hd. simpl. auto. }
      split; [|split].
      + unfold thread_tree. simpl. intros d' [<-|[]]. exact Hcl.
      + intros d' [].
      + intros d' Hd'. left. unfold spare in Hd'. rewrite Hd in Hd'. simpl in Hd' |- *. tauto.
    - split; [left; split; reflexivity|]. split; [auto|]. split; [auto|]. split; [intros ? []|]. split; [auto|]. auto.
    - assert (pa_in_place P = false) as Hip.
      { destruct (pa_in_place P) eqn:E; [|reflexivity]. destruct (Hsolo E) as (_ & Hc & _). exfalso. apply Hc.
        apply in_or_app. simpl. auto. }
      unfold workspace_tree in Ht0. rewrite Hip in Ht0.
      split; [right; exists t; auto|].
      assert (Hg : forall d, d < length (sh_trees sh) -> get_tree (add_dir sh t) d = get_tree sh d).
      { intros d Hd. unfold get_tree. simpl. apply app_nth1. exact Hd. }
      assert (Hgb : forall d, d < length (sh_trees sh) -> get_base (add_dir sh t) d = get_base sh d).
      { intros d Hd. unfold get_base. simpl. apply app_nth1. rewrite Hbl. exact Hd. }
      split; [auto|]. split; [auto|]. split; [|split].
      + unfold thread_tree. simpl. intros d [<-|[]] k Hk. left. unfold get_tree, get_base. simpl.
        rewrite !app_nth2 by lia. rewrite Hbl, Nat.sub_diag. reflexivity.
      + intros d Hd. destruct (Hou d (or_intror Hd)) as [Hd1 _]. apply frame_clean with sh; auto.
      + intros d Hd. left. rewrite in_app_iff in *. simpl in Hd. tauto.
    - split; [left; split; reflexivity|]. split; [auto|]. split; [auto|]. split; [intros ? []|]. split; [auto|]. auto.
    - split; [left; split; reflexivity|]. split; [auto|]. split; [auto|]. split; [exact Htc|]. split; [auto|]. auto.
    - split; [left; split; reflexivity|]. split; [auto|]. split; [auto|]. split; [intros ? []|]. split; [auto|].
      intros d' Hd'. apply in_app_iff in Hd'. rewrite in_app_iff. destruct Hd' as [Hd'|Hd']; [auto|].
      right; left. apply (Htc _ Hd').
    - split; [left; split; reflexivity|]. split; [auto|]. split; [auto|]. split; [exact Htc|]. split; [auto|]. auto.
    - pose proof (sstep_frame _ _ _ _ _ Hs) as (_ & Fd & Fb & Fl & d & s & A & A' & Fo).
      pose proof (active_use _ _ _ A) as Au.
      assert (Hgb : forall d, get_base sh' d = get_base sh d). { intros d'. unfold get_base. rewrite Fb. reflexivity. }
      split; [left; auto|]. split.
      { intros d' Hd' Hni. apply Fo. intros ->. apply Hni. rewrite Au. simpl. auto. }
      split; [auto|]. split; [eapply sstep_tree; eauto|]. split.
      + unfold spare. rewrite Fd. intros d' Hd'. destruct (Hou d' (or_intror Hd')) as [Hd1 Hd2].
        apply frame_clean with sh; auto. apply Fo. intros ->. apply Hd2. rewrite Au. simpl. auto.
      + unfold spare. rewrite Fd, Au. intros d' Hd'. destruct A' as [A'|[->| ->]].
        * rewrite (active_use _ _ _ A'). auto.
        * apply in_app_iff in Hd'. destruct Hd' as [Hd'|Hd']; [left; apply in_or_app; auto|].
          destruct (sstep_end_clean _ _ _ _ _ d' Hs eq_refl) as [E|E]; auto. rewrite Au. exact Hd'.
        * apply in_app_iff in Hd'. destruct Hd' as [Hd'|Hd']; [left; apply in_or_app; auto|].
          destruct (sstep_end_clean _ _ _ _ _ d' Hs eq_refl) as [E|E]; auto. rewrite Au. exact Hd'. }
  destruct Hkey as (Hbase & Htree & Hgb & Htc' & Hsp' & Hmove).
  split; [|split; [|split]].
  - destruct Hbase as [[Hbase Hlen]|(t & Hcp & -> & -> & _)].
    + intros d k Hd Hk. unfold get_base. rewrite Hbase in *. apply Hb; assumption.
    + intros d k Hd Hk. simpl in Hd. rewrite app_length in Hd. simpl in Hd.
      destruct (Nat.eq_dec d (length (sh_base sh))) as [->|Hne].
      * unfold get_base. simpl. rewrite app_nth2, Nat.sub_diag by lia. simpl.
        destruct (Hcp k Hk) as [E|E]; [auto|]. right. split; [|exact E].
        destruct (pa_in_place P) eqn:Ei; [|reflexivity]. exfalso.
        destruct (Hsolo Ei) as (_ & Hc & _). apply Hc, in_or_app. simpl. auto.
      * rewrite Hgb by lia. apply Hb; [lia|exact Hk].
  - apply Forall_app in Ht. destruct Ht as [Ht1 Ht2]. inversion Ht2; subst.
    assert (Hfr : forall x, In x (l1 ++ l2) -> thread_tree sh x -> thread_tree sh' x).
    { intros x Hx. assert (forall d, In d (dir_in_use x) -> In d (flat_map dir_in_use (l1 ++ l2))).
      { intros d Hd. apply in_flat_map. eauto. }
      apply frame_thread; intros d Hd; destruct (Hou d) as [Hd1 Hd2]; auto. }
    apply Forall_app. split; [|constructor; [exact Htc'|]].
    + rewrite Forall_forall in Ht1 |- *. intros x Hx. apply Hfr; [apply in_or_app|]; auto.
    + rewrite Forall_forall in H2 |- *. intros x Hx. apply Hfr; [apply in_or_app|]; auto.
  - exact Hsp'.
  - intros d Hd. rewrite flat_map_app, existsb_app. simpl. rewrite !in_app_iff.
    assert (Hd' : d < length (sh_trees sh) \/ In d (dir_in_use c')).
    { destruct Hbase as [[_ Hlen]|(t & _ & -> & _ & ->)]; [rewrite Hlen in Hd; auto|].
      simpl in Hd. rewrite app_length in Hd. simpl in Hd |- *. lia. }
    destruct Hd' as [Hd'|Hd']; [|tauto].
    destruct (Hall d Hd') as [Hc|[Hin|Hbad]].
    + destruct (in_dec Nat.eq_dec d (dir_in_use c)) as [Hu|Hu].
      * destruct (Hmove d) as [M|[M|M]]; [rewrite in_app_iff; auto|rewrite in_app_iff in M; tauto|auto|].
        right; right. destruct M as [M Mf]. split; [|exact Mf]. rewrite M. destruct (existsb bad l1); reflexivity.
      * left. apply frame_clean with sh; auto.
    + rewrite flat_map_app in Hin. simpl in Hin. rewrite !in_app_iff in Hin.
      destruct Hin as [Hin|[Hin|[Hin|Hin]]]; [| tauto | | tauto];
        (destruct (Hmove d) as [M|[M|M]]; [rewrite in_app_iff; auto|rewrite in_app_iff in M; tauto|auto|
          right; right; destruct M as [M Mf]; split; [|exact Mf]; rewrite M; destruct (existsb bad l1); reflexivity]).
    + right; right. destruct Hbad as [Hbad Hf]. split; [|exact Hf]. rewrite existsb_app in Hbad. simpl in Hbad.
      destruct (wstep_hand _ _ _ _ _ Hs) as (_ & Hbc & _). rewrite Hbc in Hbad. simpl in Hbad.
      destruct (existsb bad l1); [reflexivity|]. simpl in *. rewrite Hbad. destruct (bad c'); reflexivity.
Qed.

Lemma trees_inv : forall st, reachable P o0 t0 ms st ->
  match ls_main st with MEnd _ => True | _ => ttrees (ls_sh st) (threads st) end.
Proof.
  intros st H.
  assert (G : match ls_main st with MEnd _ => True | _ =>
     dirs_ok (ls_sh st) (threads st) /\ solo (ls_sh st) (threads st) /\ wfs (ls_sh st) (threads st)
     /\ ttrees (ls_sh st) (threads st) end).
  2: { destruct (ls_main st); tauto. }
  assert (Hb0 : forall d0, base_ok (init_sh d0)).
  { intros d0 d k Hd Hk. simpl in Hd. destruct d; [|lia]. unfold get_base. simpl.
    unfold first_tree in Hfirst. destruct (pa_in_place P); [rewrite Hfirst; auto|].
    destruct (Hfirst k Hk); auto. }
  assert (Hc0 : forall d0, clean (init_sh d0) 0). { intros d0 k Hk. left. reflexivity. }
  pose proof (dirs_inv st H) as A. pose proof (solo_inv Hopt st H) as B. pose proof (wf_inv st H) as C.
  enough (D : match ls_main st with MEnd _ => True | _ => ttrees (ls_sh st) (threads st) end)
    by (destruct (ls_main st); auto).
  clear A B C. unfold reachable in H. remember (start_state P o0 t0 ms) as s0 eqn:E0.
  induction H as [s|s s' s'' Hs IH Hst].
  - subst s. unfold start_state. destruct (pa_skip_baseline P) eqn:E; unfold threads; cbn [ls_main ls_sh ls_workers].
    + split; [apply Hb0|]. split.
      { apply Forall_forall. intros c Hc. apply repeat_spec in Hc. subst. intros ? []. }
      split; [intros d [<-|[]]; apply Hc0|]. intros [|d] Hd; [left; apply Hc0|simpl in Hd; lia].
    + split; [apply Hb0|]. split.
      { constructor; [intros d [<-|[]]; apply Hc0|constructor]. }
      split; [intros d []|]. intros [|d] Hd; [left; apply Hc0|simpl in Hd; lia].
  - specialize (IH E0). subst s.
    pose proof (dirs_inv s' Hs) as A. pose proof (solo_inv Hopt s' Hs) as B. pose proof (wf_inv s' Hs) as C.
    destruct Hst; unfold threads in *; cbn [ls_main ls_sh ls_workers] in *; auto.
    + apply (trees_all sh [c] 0 c sh' c'); auto. constructor. assumption.
    + destruct IH as (I1 & I2 & I3 & I4). inversion I2; subst. split; [exact I1|]. split.
      { apply Forall_forall. intros c Hc. apply repeat_spec in Hc. subst. intros ? []. }
      split.
      { intros d' [<-|[]]. apply frame_clean with sh; auto. apply H2. simpl. auto. }
      { intros d' Hd'. left. apply frame_clean with sh; auto.
        destruct (I4 d' Hd') as [E|[E|[E _]]]; [exact E| |discriminate].
        apply in_app_iff in E. destruct E as [E|E]; [auto|]. apply H2. exact E. }
    + eapply trees_all; eauto.
Qed.

(** * C11, C49: the lists *)
Definition json_ok (sh : shared) : Prop :=
  lo_outcomes (sh_lab sh) <> [] -> dget (sh_out sh) OUTCOMES_JSON = Some (NFile (pa_json P (sh_lab sh))).

Definition pending (sh : shared) (c : wpc) : Prop :=
  match c with
  | WJson _ o | WJson2 _ o => exists os, lo_outcomes (sh_lab sh) = os ++ [o] /\ lists_exact (sh_out sh) (verdicts os)
  | WName _ o => (exists os, lo_outcomes (sh_lab sh) = os ++ [o] /\ lists_exact (sh_out sh) (verdicts os)) /\ json_ok sh
  | WNewline _ o => (exists os m v, lo_outcomes (sh_lab sh) = os ++ [o] /\ oc_scenario o = Mutant m
                      /\ summary o = Some v /\ lists_half (sh_out sh) (verdicts os) m v) /\ json_ok sh
  | _ => False
  end.

Definition lists_ok (sh : shared) (ts : list wpc) : Prop :=
  match sh_mutex sh with
  | None => lists_exact (sh_out sh) (verdicts (lo_outcomes (sh_lab sh))) /\ json_ok sh
  | Some i => exists c, nth_error ts i = Some c /\ pending sh c
  end.

Lemma list_names : forall v f, list_for v = Some f -> forall f' v', In (f', v') lists ->
  (f' = f /\ same_verdict v v' = true) \/ (f <> f' /\ same_verdict v v' = false).
Proof.
  intros v f H f' v' Hin. destruct v; try discriminate; apply some_inj in H; subst f;
    (destruct Hin as [E|[E|[E|[E|[]]]]]; injection E as <- <-;
     [> (left; split; reflexivity) || (right; split; [discriminate|reflexivity]) ..]).
Qed.

Lemma list_none : forall v, list_for v = None -> forall f' v', In (f', v') lists -> same_verdict v v' = false.
Proof.
  intros v H f' v' Hin. destruct v; try discriminate;
    destruct Hin as [E|[E|[E|[E|[]]]]]; injection E as <- <-; reflexivity.
Qed.

Lemma verdicts_app : forall a b, verdicts (a ++ b) = verdicts a ++ verdicts b.
Proof. intros. apply flat_map_app. Qed.

Lemma list_text_app : forall v a b, list_text v (a ++ b) = list_text v a ++ list_text v b.
Proof. intros. apply flat_map_app. Qed.

Lemma exact_json : forall o rs x, lists_exact o rs -> lists_exact (dset o OUTCOMES_JSON x) rs.
Proof.
  intros o rs x H f v Hin. rewrite dget_dset_other; [auto|].
  destruct Hin as [E|[E|[E|[E|[]]]]]; injection E as <- <-; discriminate.
Qed.

Lemma exact_name : forall o rs m v f nm, lists_exact o rs -> list_for v = Some f -> mutant_name true m = Some nm ->
  lists_half (append_file o f nm) rs m v.
Proof.
  intros o rs m v f nm H Hf Hn f' v' Hin. rewrite Hn. destruct (list_names _ _ Hf _ _ Hin) as [[-> E]|[Hne E]]; rewrite E.
  - apply append_same. apply H. exact Hin.
  - rewrite app_nil_r. rewrite append_other by assumption. apply H. exact Hin.
Qed.

Lemma half_newline : forall o rs m v f, lists_half o rs m v -> list_for v = Some f -> mutant_name true m <> None ->
  lists_exact (append_file o f [NL]) (rs ++ [(m, v)]).
Proof.
  intros o rs m v f H Hf Hn f' v' Hin. rewrite list_text_app. unfold list_text at 2. cbn [flat_map fst snd].
  specialize (H _ _ Hin). destruct (mutant_name true m) as [nm|]; [|congruence].
  destruct (list_names _ _ Hf _ _ Hin) as [[-> E]|[Hne E]]; rewrite E in *.
  - rewrite (append_same _ _ _ _ H). rewrite app_nil_r, app_assoc. reflexivity.
  - rewrite app_nil_r in H. rewrite append_other by assumption. rewrite !app_nil_r. exact H.
Qed.

Lemma exact_none : forall o rs m v, lists_exact o rs -> list_for v = None -> lists_exact o (rs ++ [(m, v)]).
Proof.
  intros o rs m v H Hf f' v' Hin. rewrite list_text_app. unfold list_text at 2. cbn [flat_map fst snd].
  rewrite (list_none _ Hf _ _ Hin). rewrite app_nil_r. auto.
Qed.

Lemma json_set : forall sh, dget (dset (sh_out sh) OUTCOMES_JSON (NFile (pa_json P (sh_lab sh)))) OUTCOMES_JSON
  = Some (NFile (pa_json P (sh_lab sh))).
Proof. intros. apply dget_dset_same. Qed.

Lemma json_append : forall sh f t m, In f [MISSED_TXT; CAUGHT_TXT; TIMEOUT_TXT; UNVIABLE_TXT] -> json_ok sh ->
  json_ok (set_out sh (append_file (sh_out sh) f t) m).
Proof.
  intros sh f t m Hf H Hne. simpl in *. rewrite append_other; [auto|].
  destruct Hf as [<-|[<-|[<-|[<-|[]]]]]; discriminate.
Qed.

Lemma list_for_in : forall v f, list_for v = Some f -> In f [MISSED_TXT; CAUGHT_TXT; TIMEOUT_TXT; UNVIABLE_TXT].
Proof. intros v f H. destruct v; try discriminate; apply some_inj in H; subst; simpl; auto. Qed.

Lemma wstep_quiet : forall i sh c sh' c', wstep P i sh c sh' c' -> critical c = false -> critical c' = false ->
  sh_lab sh' = sh_lab sh /\ sh_out sh' = sh_out sh /\ sh_mutex sh' = sh_mutex sh.
Proof.
  intros i sh c sh' c' H Hc Hc'. destruct H as [| | | | | | |c sh' c' H]; auto.
  destruct H; simpl in *; try discriminate; auto.
Qed.

Hypothesis Hnamed : named.
Hypothesis Hfaults : pa_faults P = false.
Hypothesis Hlists0 : lists_exact o0 [].

Lemma lists_step : forall i sh ts c sh' c', nth_error ts i = Some c -> wstep P i sh c sh' c' ->
  mutex_ok sh ts -> wfs sh ts -> lists_ok sh ts -> lists_ok sh' (list_set ts i c').
Proof.
  intros i sh ts c sh' c' Hn Hs [M1 M2] (_ & Hwf & Hnp) H. specialize (Hnp Hnamed).
  pose proof (nth_error_lt _ _ _ _ Hn) as Hlt.
  pose proof (proj1 (Forall_forall _ _) Hwf c (nth_error_In _ _ Hn)) as Hwc.
  unfold lists_ok in *.
  destruct (critical c) eqn:Ec.
  - (* in the critical section *)
    pose proof (M1 _ _ Hn Ec) as Hm. rewrite Hm in H. destruct H as (c1 & Hc1 & H). rewrite Hn in Hc1. injection Hc1 as <-.
    assert (Hs' : sstep P i sh c sh' c'). { inversion Hs; subst; try discriminate. assumption. }
    destruct Hwc as [Hin Hwc].
    destruct Hs'; try discriminate; try congruence; simpl in H.
    + exists (WJson2 d o). rewrite nth_error_set_same by assumption. split; [reflexivity|].
      destruct H as (os & H1 & H2). exists os. split; [exact H1|]. simpl. apply exact_json. exact H2.
    + exists (WName d o). rewrite nth_error_set_same by assumption. split; [reflexivity|]. split.
      * destruct H as (os & H1 & H2). exists os. split; [exact H1|]. simpl. apply exact_json. exact H2.
      * intros _. simpl. apply json_set.
    + exists (WNewline d (mkOutcome (Mutant m) done)). rewrite nth_error_set_same by assumption. split; [reflexivity|].
      destruct H as [(os & HA & HB) HJ]. split.
      * exists os, m, v. split; [exact HA|]. split; [reflexivity|]. split; [assumption|]. eapply exact_name; eassumption.
      * eapply json_append; [|exact HJ]. eapply list_for_in; eauto.
    + exfalso. destruct H0 as [H0|(v & f & H0 & H1 & H2)].
      * destruct (finished_summary (Mutant m) done Hwc) as [v Hv]. congruence.
      * apply (Hnamed m); [|exact H2]. apply (Hin d). reflexivity.
    + simpl. destruct H as [(os & HA & HB) HJ]. split; [|exact HJ]. rewrite HA, verdicts_app.
      unfold verdicts at 2. cbn [flat_map oc_scenario]. rewrite H0. apply exact_none; auto.
    + simpl. destruct H as [(os & HA & HB) HJ]. split; [|exact HJ]. rewrite HA, verdicts_app. simpl. rewrite app_nil_r. exact HB.
    + simpl. destruct H as [(os & m' & v' & HA & HB & HC & HD) HJ]. simpl in HB. injection HB as <-.
      rewrite H0 in HC. injection HC as <-. split.
      * rewrite HA, verdicts_app. unfold verdicts at 2. cbn [flat_map oc_scenario]. rewrite H0.
        eapply half_newline; eauto. apply Hnamed. apply (Hin d). reflexivity.
      * eapply json_append; [|exact HJ]. eapply list_for_in; eauto.
  - destruct (critical c') eqn:Ec'.
    + (* entering *)
      assert (Hs' : sstep P i sh c sh' c'). { inversion Hs; subst; try discriminate. assumption. }
      destruct Hs'; try discriminate. rewrite H0 in H. simpl.
      exists (WJson d (mkOutcome s done)). rewrite nth_error_set_same by assumption. split; [reflexivity|].
      exists (lo_outcomes (sh_lab sh)). simpl. split; [apply lab_add_outcomes; assumption|tauto].
    + destruct (wstep_quiet _ _ _ _ _ Hs Ec Ec') as (Q1 & Q2 & Q3). unfold pending in *; unfold json_ok in *. rewrite Q1, Q2, Q3.
      destruct (sh_mutex sh) as [j|] eqn:Em; [|exact H].
      destruct H as (cj & Hj & H). exists cj. split; [|exact H].
      rewrite nth_error_set_other; [exact Hj|]. intros ->. rewrite Hn in Hj. injection Hj as <-.
      destruct c; simpl in *; try discriminate; contradiction.
Qed.

Lemma lists_inv : forall st, reachable P o0 t0 ms st ->
  match ls_main st with MEnd _ => True | _ => lists_ok (ls_sh st) (threads st) end.
Proof.
  intros st H. unfold reachable in H. remember (start_state P o0 t0 ms) as s0 eqn:E0.
  induction H as [s|s s' s'' Hs IH Hst].
  - subst s. unfold start_state. destruct (pa_skip_baseline P) eqn:E; unfold threads, lists_ok, json_ok; simpl;
      (split; [exact Hlists0|congruence]).
  - specialize (IH E0). subst s.
    pose proof (mutex_inv s' Hs) as A. pose proof (wf_inv s' Hs) as C.
    destruct Hst; unfold threads in *; cbn [ls_main ls_sh ls_workers] in *; auto.
    + apply (lists_step 0 sh [c] c sh' c'); auto. constructor. assumption.
    + destruct A as [_ A]. unfold lists_ok in *. cbn [set_dir0 sh_mutex sh_out sh_lab] in *.
      destruct (sh_mutex sh) as [j|] eqn:Em; [|exact IH].
      destruct IH as (cj & Hj & IH). destruct j as [|[|j]]; try discriminate. injection Hj as <-. destruct IH.
    + eapply lists_step; eauto.
Qed.

End Frame.

(** * Progress and termination *)
Section Progress.
Context (P : params) (o0 : entries) (t0 : tree) (ms : list mutant).

Lemma can_step : forall i sh c, wf P ms c -> is_end c = false -> (critical c = true \/ sh_mutex sh = None) ->
  exists sh' c', wstep P i sh c sh' c'.
Proof.
  intros i sh c [Hin Hwf] He Hm. destruct c; simpl in *; try discriminate.
  - destruct (sh_dir0 sh) as [d|] eqn:E; eexists _, _; [eapply ws_take_dir; exact E|apply ws_no_dir; exact E].
  - eexists _, _. apply ws_copy_err.
  - destruct (sh_queue sh) as [|m q] eqn:E; eexists _, _; [apply ws_empty; exact E|eapply ws_next; exact E].
  - destruct Hm as [Hm|Hm]; [discriminate|]. destruct (start_name (sh_used sh) s) as [u nm] eqn:E.
    destruct (in_dec (list_eq_dec N.eq_dec) nm (sh_logs sh)) as [Hi|Hi]; eexists _, _; apply ws_scenario.
    + eapply ss_start_exists; eassumption.
    + eapply ss_start; eassumption.
  - destruct s as [|m].
    + eexists _, _. apply ws_scenario. apply ss_apply_none.
    + destruct (overwrite_file (get_tree sh d) (file_key m) (mutant_code m)) eqn:E; eexists _, _; apply ws_scenario;
        [eapply ss_apply|eapply ss_apply_missing]; exact E.
  - destruct todo; eexists _, _; apply ws_scenario; constructor.
  - eexists _, _. apply ws_scenario. apply ss_cargo_err with (t := get_tree sh d). intros k _. reflexivity.
  - destruct s as [|m].
    + eexists _, _. apply ws_scenario. apply ss_revert_none.
    + destruct (overwrite_file (get_tree sh d) (file_key m) (sf_code (mu_file m))) eqn:E; eexists _, _; apply ws_scenario;
        [eapply ss_revert|eapply ss_revert_missing]; exact E.
  - destruct s as [|m].
    + eexists _, _. apply ws_scenario. apply ss_reverterr_none.
    + destruct (overwrite_file (get_tree sh d) (file_key m) (sf_code (mu_file m))) eqn:E; eexists _, _; apply ws_scenario;
        [eapply ss_reverterr|eapply ss_reverterr_missing]; exact E.
  - destruct Hm as [Hm|Hm]; [discriminate|].
    destruct (lab_add (sh_lab sh) (mkOutcome s done)) eqn:E; eexists _, _; apply ws_scenario;
        [eapply ss_add|eapply ss_add_panic]; eassumption.
  - eexists _, _. apply ws_scenario. apply ss_json.
  - eexists _, _. apply ws_scenario. apply ss_json2.
  - destruct o as [s done]. destruct s as [|m].
    + eexists _, _. apply ws_scenario. apply ss_no_name_base.
    + destruct (finished_summary P (Mutant m) done Hwf) as [v Hv]. destruct (list_for v) as [f|] eqn:Ef.
      * destruct (mutant_name true m) as [nm|] eqn:En; eexists _, _; apply ws_scenario;
          [eapply ss_name; eassumption|apply ss_name_panic; eauto 10].
      * eexists _, _. apply ws_scenario. eapply ss_no_name; eassumption.
  - destruct o as [s done]. destruct Hwf as (Hf & Hmu & Hl). destruct s as [|m]; [discriminate|].
    destruct (finished_summary P (Mutant m) done Hf) as [v Hv]. specialize (Hl _ Hv).
    destruct (list_for v) as [f|] eqn:Ef; [|congruence].
    eexists _, _. apply ws_scenario. eapply ss_newline; eassumption.
  - eexists _, _. apply ws_again.
Qed.

Lemma wf_thread : forall ts i c, Forall (wf P ms) ts -> nth_error ts i = Some c -> wf P ms c.
Proof. intros ts i c H Hn. rewrite Forall_forall in H. apply H. eapply nth_error_In. exact Hn. Qed.

Lemma not_all_end : forall ts, forallb is_end ts = false -> exists i c, nth_error ts i = Some c /\ is_end c = false.
Proof.
  induction ts as [|c ts IH]; intros H; [discriminate|]. simpl in H. destruct (is_end c) eqn:E.
  - destruct (IH H) as (i & c' & Hi & Hc). exists (S i), c'. auto.
  - exists 0, c. auto.
Qed.

Lemma some_thread_steps : forall sh ts, named ms -> mutex_ok sh ts -> wfs P ms sh ts -> forallb is_end ts = false ->
  exists i c sh' c', nth_error ts i = Some c /\ wstep P i sh c sh' c'.
Proof.
  intros sh ts Hn [M1 M2] (_ & Hwf & Hp) He. destruct (sh_mutex sh) as [j|] eqn:Em.
  - destruct (M2 _ eq_refl) as (c & Hj & [Hc| ->]).
    + destruct (can_step j sh c) as (sh' & c' & Hs); [eapply wf_thread; eauto| |auto|].
      * destruct c; try discriminate; reflexivity.
      * exists j, c, sh', c'. auto.
    + exfalso. apply (Hp Hn). eapply nth_error_In. exact Hj.
  - destruct (not_all_end _ He) as (i & c & Hi & Hc).
    destruct (can_step i sh c) as (sh' & c' & Hs); [eapply wf_thread; eauto|auto|auto|].
    exists i, c, sh', c'. auto.
Qed.

Lemma progress : named ms -> forall st, reachable P o0 t0 ms st ->
  (exists r, ls_main st = MEnd r) \/ exists st', step P (length ms) st st'.
Proof.
  intros Hn st H. pose proof (mutex_inv _ _ _ _ _ H) as A. pose proof (wf_inv _ _ _ _ _ H) as B.
  pose proof (base_inv _ _ _ _ _ H) as C.
  destruct st as [sh [c| |r] ws]; unfold threads in *; cbn [ls_main ls_sh ls_workers] in *; [| |eauto].
  - right. destruct C as (Hb & -> & _). destruct (is_end c) eqn:E.
    + destruct c; try discriminate; simpl in Hb.
      * subst ok. eexists. apply st_baseline_err.
      * eexists. apply st_baseline_panic.
    + destruct (some_thread_steps sh [c] Hn A B) as (i & c0 & sh' & c' & Hi & Hs); [simpl; rewrite E; reflexivity|].
      destruct i as [|[|i]]; try discriminate. injection Hi as <-.
      inversion Hs; subst; try (destruct Hb as [d0 Hb]; discriminate).
      * destruct B as (_ & B & _). inversion B as [|? ? [_ Bw] ?]; subst. simpl in Bw.
        destruct o as [s done]. pose proof (finished_success P s done Bw) as Hsu.
        destruct (oc_success (mkOutcome s done)) as [[|]|] eqn:Eo; [| |congruence]; eexists;
          [eapply st_baseline_ok; exact Eo|apply st_baseline_failed; exact Eo].
      * eexists. eapply st_baseline. eassumption.
  - right. destruct (forallb is_end ws) eqn:E.
    + eexists. apply st_join. exact E.
    + destruct (some_thread_steps sh ws Hn A B E) as (i & c & sh' & c' & Hi & Hs). eexists. eapply st_worker; eassumption.
Qed.

Definition weight (c : wpc) : nat :=
  match c with
  | WEnd _ | WPanic => 0
  | WQueue _ => 1 | WFin _ _ => 2 | WNewline _ _ => 3 | WName _ _ => 4 | WJson2 _ _ => 5 | WJson _ _ => 6
  | WAdd _ _ _ => 7 | WRevert _ _ _ => 8 | WRevertErr _ _ => 8
  | WPhase _ _ _ todo => 9 + 2 * length todo
  | WCargo _ _ _ _ todo => 10 + 2 * length todo
  | WApply _ _ => 14 | WStart _ _ => 15
  | WCopy => 2 | WInit => 3
  end.

Definition total (ts : list wpc) : nat := fold_right (fun c a => weight c + a) 0 ts.

Definition measure (k : nat) (st : state) : nat :=
  match ls_main st with
  | MBaseline c => 20 * length (sh_queue (ls_sh st)) + weight c + (2 + 3 * n_threads (pa_jobs P) k)
  | MWork => 20 * length (sh_queue (ls_sh st)) + total (ls_workers st) + 1
  | MEnd _ => 0
  end.

Lemma phases_length : length (phases (pa_check_only P)) <= 2.
Proof. unfold phases. destruct (pa_check_only P); simpl; lia. Qed.

Lemma sstep_weight : forall i sh c sh' c', sstep P i sh c sh' c' -> weight c' < weight c.
Proof. intros i sh c sh' c' H. pose proof phases_length. destruct H; simpl; lia. Qed.

Lemma wstep_weight : forall i sh c sh' c', wstep P i sh c sh' c' ->
  20 * length (sh_queue sh') + weight c' < 20 * length (sh_queue sh) + weight c.
Proof.
  intros i sh c sh' c' H. destruct H as [| | | |d m q Hq| | |c sh' c' H]; try (simpl; lia).
  - rewrite Hq. simpl. lia.
  - pose proof (sstep_weight _ _ _ _ _ H). destruct (sstep_frame _ _ _ _ _ _ H) as (-> & _). lia.
Qed.

Lemma total_app : forall a b, total (a ++ b) = total a + total b.
Proof. induction a; intros; simpl; [reflexivity|]. rewrite IHa. lia. Qed.

Lemma total_spawn : forall k, total (spawn k) = 3 * k.
Proof. induction k as [|k IH]; [reflexivity|]. change (spawn (S k)) with (WInit :: spawn k). cbn [total fold_right weight]. fold (total (spawn k)). lia. Qed.


Lemma step_measure : forall k st st', step P k st st' -> measure k st' < measure k st.
Proof.
  intros k st st' H. destruct H; unfold measure; cbn [ls_main ls_sh ls_workers set_dir0 sh_queue].
  - pose proof (sstep_weight _ _ _ _ _ H). destruct (sstep_frame _ _ _ _ _ _ H) as (-> & _). lia.
  - rewrite total_spawn. simpl weight. lia.
  - lia.
  - lia.
  - lia.
  - destruct (list_split _ _ _ _ H) as (l1 & l2 & -> & _ & ->). rewrite !total_app. simpl.
    pose proof (wstep_weight _ _ _ _ _ H0). lia.
  - lia.
Qed.

Lemma steps_bound : forall k j st st', steps_k P k j st st' -> j + measure k st' <= measure k st.
Proof.
  intros k j st st' H. induction H; [lia|]. pose proof (step_measure _ _ _ H0). lia.
Qed.

Lemma start_measure : measure (length ms) (start_state P o0 t0 ms) <= 20 * length ms + 3 * n_threads (pa_jobs P) (length ms) + 17.
Proof.
  unfold measure, start_state. destruct (pa_skip_baseline P); cbn [ls_main ls_sh ls_workers sh_queue].
  - rewrite total_spawn. lia.
  - simpl weight. lia.
Qed.

End Progress.

(** * C12 *)
Section Final.
Context (P : params) (o0 : entries) (t0 : tree) (ms : list mutant).
Notation reach := (reachable P o0 t0 ms).

Lemma bad_in : forall ts, existsb bad ts = true -> In (WEnd false) ts \/ In WPanic ts.
Proof.
  intros ts H. apply existsb_exists in H. destruct H as (c & Hc & Hb).
  destruct c; try discriminate; [|auto]. destruct ok; [discriminate|auto].
Qed.

Lemma base_recorded : forall sh c ws, reach (mkLS sh (MBaseline c) ws) ->
  sh_queue sh = ms /\ recorded (sh_lab sh) = [] /\ in_hand c = [].
Proof.
  intros sh c ws H. pose proof (base_inv _ _ _ _ _ H) as (Hb & _ & Hq & _). simpl in Hb, Hq.
  pose proof (accounted_inv _ _ _ _ _ H) as (lost & HP & _). simpl in HP. rewrite app_nil_r, Hq in HP.
  apply Permutation_length in HP. rewrite !app_length in HP. split; [exact Hq|].
  destruct (in_hand c); [|simpl in HP; lia]. destruct (recorded (sh_lab sh)); [auto|simpl in HP; lia].
Qed.

Lemma c12_accounted : forall st, reach st ->
  exists lost, Permutation (sh_queue (ls_sh st) ++ flat_map in_hand (threads st) ++ recorded (sh_lab (ls_sh st)) ++ lost) ms
    /\ (lost <> [] -> In (WEnd false) (threads st) \/ In WPanic (threads st)).
Proof.
  assert (K : forall st, reach st -> (forall r, ls_main st <> MEnd r) ->
    exists lost, Permutation (sh_queue (ls_sh st) ++ flat_map in_hand (threads st) ++ recorded (sh_lab (ls_sh st)) ++ lost) ms
    /\ (lost <> [] -> In (WEnd false) (threads st) \/ In WPanic (threads st))).
  { intros st H Hm. pose proof (accounted_inv _ _ _ _ _ H) as A.
    assert (accounted ms (ls_sh st) (threads st)) as (lost & HP & HL & _).
    { destruct (ls_main st) as [c| |r]; [exact A|exact A|]. exfalso. apply (Hm r). reflexivity. }
    exists lost. split; [exact HP|]. intros Hne. apply bad_in. auto. }
  assert (B : forall sh c r, reach (mkLS sh (MBaseline c) []) ->
    exists lost, Permutation (sh_queue sh ++ flat_map in_hand (threads (mkLS sh (MEnd r) [])) ++ recorded (sh_lab sh) ++ lost) ms
    /\ (lost <> [] -> In (WEnd false) (threads (mkLS sh (MEnd r) [])) \/ In WPanic (threads (mkLS sh (MEnd r) [])))).
  { intros sh c r H. destruct (base_recorded _ _ _ H) as (Hq & Hr & _). exists []. rewrite Hq, Hr.
    unfold threads. simpl. rewrite app_nil_r. split; [apply Permutation_refl|congruence]. }
  intros st H. destruct st as [sh [c| |r] ws].
  - apply K; [exact H|discriminate].
  - apply K; [exact H|discriminate].
  - destruct (end_inv _ _ _ _ _ _ _ H) as [(d & o & H1 & _ & _ & ->)|[(H1 & _ & ->)|[(H1 & _ & ->)|(H1 & _ & _)]]].
    + exact (B _ _ r H1).
    + exact (B _ _ r H1).
    + exact (B _ _ r H1).
    + exact (K _ H1 (fun r' E => match E in _ = x return match x with MWork => True | _ => False end with eq_refl => I end)).
Qed.

Lemma join_ok : forall ws l l', join_threads ws l = ROk l' -> l' = l /\ existsb bad ws = false.
Proof.
  intros ws l l' H. unfold join_threads in H. destruct (existsb is_panic ws) eqn:E1; [discriminate|].
  destruct (existsb is_err ws) eqn:E2; [discriminate|]. injection H as <-. split; [reflexivity|].
  induction ws as [|c ws IH]; [reflexivity|]. simpl in *. apply orb_false_iff in E1, E2.
  destruct E1 as [A1 A2], E2 as [B1 B2]. unfold bad at 1. rewrite A1, B1. simpl. auto.
Qed.

Lemma c12_ok : forall sh l ws, reach (mkLS sh (MEnd (ROk l)) ws) ->
  l = sh_lab sh /\
  (Permutation (recorded l) ms
   \/ (exists d o, reach (mkLS sh (MBaseline (WFin d o)) []) /\ oc_success o = Some false /\ recorded l = [] /\ sh_queue sh = ms)).
Proof.
  intros sh l ws H. destruct (end_inv _ _ _ _ _ _ _ H) as [(d & o & H1 & H2 & H3 & _)|[(_ & H1 & _)|[(_ & H1 & _)|(H1 & H2 & H3)]]];
    try discriminate.
  - injection H3 as ->. split; [reflexivity|]. right. destruct (base_recorded _ _ _ H1) as (Hq & Hr & _). exists d, o. auto.
  - symmetry in H3. destruct (join_ok _ _ _ H3) as [-> Hb]. split; [reflexivity|]. left.
    pose proof (accounted_inv _ _ _ _ _ H1) as (lost & HP & HL & HE).
    unfold threads in *. cbn [ls_main ls_sh ls_workers] in *.
    assert (lost = []) as ->. { destruct lost; [reflexivity|]. rewrite HL in Hb by discriminate. discriminate. }
    assert (Hall : forall c, In c ws -> c = WEnd true).
    { intros c Hc. rewrite forallb_forall in H2. specialize (H2 c Hc).
      assert (bad c = false). { destruct (bad c) eqn:E; [|reflexivity].
        assert (existsb bad ws = true) by (apply existsb_exists; eauto). congruence. }
      destruct c; try discriminate. destruct ok; [reflexivity|discriminate]. }
    pose proof (base_inv _ _ _ _ _ H1) as Hn. cbn [ls_main ls_workers] in Hn.
    assert (Hq : sh_queue sh = []).
    { apply HE. destruct ws as [|c ws]; [exfalso; unfold n_threads in Hn; cbn [length] in Hn; lia|].
      left. apply Hall. left. reflexivity. }
    assert (Hh : flat_map in_hand ws = []).
    { clear - Hall. induction ws as [|c ws IH]; [reflexivity|]. simpl. rewrite (Hall c) by (left; reflexivity).
      apply IH. intros x Hx. apply Hall. right. exact Hx. }
    rewrite Hq, Hh, app_nil_r in HP. exact HP.
Qed.

(** * C14 *)
Notation baseline_good := (baseline_passed P).

Definition all_mutants (os : list (outcome mutant)) : Prop :=
  Forall (fun o => is_mutant (oc_scenario o) = true) os.

Definition recorded_of (c : wpc) : list (outcome mutant) :=
  match c with
  | WJson _ o | WJson2 _ o | WName _ o | WNewline _ o | WFin _ o => [o]
  | _ => []
  end.

Lemma sstep_lab : forall i sh c sh' c', sstep P i sh c sh' c' ->
  (sh_lab sh' = sh_lab sh /\ (recorded_of c' = recorded_of c \/ is_end c' = true))
  \/ (exists d s done, c = WAdd d s done /\ c' = WJson d (mkOutcome s done)
       /\ lo_outcomes (sh_lab sh') = lo_outcomes (sh_lab sh) ++ [mkOutcome s done]).
Proof.
  intros i sh c sh' c' H. destruct H; simpl; auto.
  right. exists d, s, done. repeat split. apply lab_add_outcomes. assumption.
Qed.

Lemma success_good : forall (o : outcome mutant), finished_run (phases (pa_check_only P)) (oc_results o) -> oc_scenario o = Baseline ->
  oc_success o = Some true -> baseline_good o.
Proof.
  intros [s rs] [[H1 H2]|(b & r & l & H1 & H2 & H3 & H4)] Hs Ho; simpl in *.
  - repeat split; assumption.
  - exfalso. subst rs. unfold oc_success in Ho. rewrite last_result_app in Ho. congruence.
Qed.

Lemma base_lab : forall sh c ws, reach (mkLS sh (MBaseline c) ws) ->
  is_end c = true \/ lo_outcomes (sh_lab sh) = recorded_of c.
Proof.
  assert (K : forall st, reach st -> match ls_main st with
     | MBaseline c => is_end c = true \/ lo_outcomes (sh_lab (ls_sh st)) = recorded_of c | _ => True end).
  { intros st H. unfold reachable in H. remember (start_state P o0 t0 ms) as s0 eqn:E0.
    induction H as [s|s s' s'' Hs IH Hst].
    - subst s. unfold start_state. destruct (pa_skip_baseline P); simpl; auto.
    - specialize (IH E0). destruct Hst; cbn [ls_main ls_sh] in *; auto.
      destruct (sstep_lab _ _ _ _ _ H) as [[A B]|(d & s0' & done & -> & -> & A)].
      + destruct IH as [IH|IH]; [destruct c; try discriminate; inversion H|].
        rewrite A. destruct B as [B|B]; [right; congruence|auto].
      + right. destruct IH as [IH|IH]; [discriminate|]. rewrite A, IH. reflexivity. }
  intros sh c ws H. exact (K _ H).
Qed.

(** What is recorded, while workers run. *)
Definition work_lab (sh : shared) (ws : list wpc) : Prop :=
  (forall c d s, In c ws -> active c = Some (d, s) -> is_mutant s = true)
  /\ if pa_skip_baseline P then all_mutants (lo_outcomes (sh_lab sh))
     else exists o rest, lo_outcomes (sh_lab sh) = o :: rest /\ baseline_good o /\ all_mutants rest.

Lemma work_lab_inv : forall sh ws, reach (mkLS sh MWork ws) -> work_lab sh ws.
Proof.
  assert (K : forall st, reach st -> match ls_main st with MWork => work_lab (ls_sh st) (ls_workers st) | _ => True end).
  { intros st H. unfold reachable in H. remember (start_state P o0 t0 ms) as s0 eqn:E0.
    induction H as [s|s s' s'' Hs IH Hst].
    - subst s. unfold start_state. destruct (pa_skip_baseline P) eqn:E; simpl; [|exact I]. split.
      + intros c d s Hc. apply repeat_spec in Hc. subst. discriminate.
      + rewrite E. constructor.
    - specialize (IH E0). subst s. destruct Hst; cbn [ls_main ls_sh ls_workers] in *; auto.
      + split.
        * intros c d' s Hc. apply repeat_spec in Hc. subst. discriminate.
        * pose proof (base_inv _ _ _ _ _ Hs) as (Hb & _ & _ & Hk & _). rewrite Hk.
          pose proof (wf_inv _ _ _ _ _ Hs) as (_ & Hw & _). inversion Hw as [|? ? [_ Hw'] ?]; subst. simpl in Hw'.
          destruct (base_lab _ _ _ Hs) as [E|E]; [discriminate|]. simpl in E. exists o, [].
          cbn [set_dir0 sh_lab]. split; [exact E|]. split; [|constructor].
          apply success_good; auto. cbn in Hb. destruct Hb as [d' Hb]. congruence.
      + destruct IH as [I1 I2]. pose proof (nth_error_In _ _ H) as Hc.
        destruct (list_split _ _ _ _ H) as (l1 & l2 & -> & _ & ->).
        assert (Hact : forall d s, active c' = Some (d, s) -> is_mutant s = true).
        { intros d s A. destruct H0 as [| | | | | | |c sh' c' H0]; simpl in A; try discriminate.
          - injection A as _ <-. reflexivity.
          - destruct (sstep_frame _ _ _ _ _ _ H0) as (_ & _ & _ & _ & d1 & s1 & A1 & A2 & _).
            destruct A2 as [A2|[->| ->]]; try discriminate. rewrite A2 in A. injection A as <- <-. eauto. }
        split.
        * intros x d s Hx. apply in_app_iff in Hx. destruct Hx as [Hx|[<-|Hx]].
          -- apply I1. apply in_or_app. auto.
          -- apply Hact.
          -- apply I1. apply in_or_app. simpl. auto.
        * assert (HL : sh_lab sh' = sh_lab sh \/ exists o, is_mutant (oc_scenario o) = true
                     /\ lo_outcomes (sh_lab sh') = lo_outcomes (sh_lab sh) ++ [o]).
          { destruct H0 as [| | | | | | |c sh' c' H0]; auto.
            destruct (sstep_lab _ _ _ _ _ H0) as [[A _]|(d & s & done & -> & -> & A)]; [auto|].
            right. exists (mkOutcome s done). split; [|exact A]. eapply Hact. reflexivity. }
          destruct HL as [->|(o & Ho & E)]; [exact I2|]. rewrite E. destruct (pa_skip_baseline P).
          -- apply Forall_app. split; [exact I2|]. repeat constructor. exact Ho.
          -- destruct I2 as (o1 & rest & E1 & E2 & E3). exists o1, (rest ++ [o]). rewrite E1.
             repeat split; [apply E2|apply E2|apply E2|]. apply Forall_app. split; [exact E3|]. repeat constructor. exact Ho. }
  intros sh ws H. exact (K _ H).
Qed.

Lemma c14_after : forall st, reach st -> pa_skip_baseline P = false ->
  (exists c d m, In c (threads st) /\ active c = Some (d, Mutant m)) \/ recorded (sh_lab (ls_sh st)) <> [] ->
  exists o, In o (lo_outcomes (sh_lab (ls_sh st))) /\ baseline_good o.
Proof.
  assert (W : forall sh ws, reach (mkLS sh MWork ws) -> pa_skip_baseline P = false ->
    exists o, In o (lo_outcomes (sh_lab sh)) /\ baseline_good o).
  { intros sh ws H Hk. destruct (work_lab_inv _ _ H) as [_ HW]. rewrite Hk in HW.
    destruct HW as (o & rest & E & G & _). exists o. rewrite E. split; [left; reflexivity|exact G]. }
  intros st H Hk Hex. destruct st as [sh [c| |r] ws]; cbn [ls_sh] in *.
  - exfalso. destruct (base_recorded _ _ _ H) as (_ & Hr & _). destruct Hex as [(c1 & d & m & Hc & Ha)|Hr']; [|congruence].
    destruct Hc as [<-|[]]. pose proof (base_inv _ _ _ _ _ H) as (Hb & _). simpl in Hb.
    destruct c; simpl in *; try discriminate; destruct Hb as [d' Hb]; congruence.
  - eapply W; eauto.
  - destruct (end_inv _ _ _ _ _ _ _ H) as [(d & o & H1 & _ & _ & ->)|[(H1 & _ & ->)|[(H1 & _ & ->)|(H1 & _ & _)]]];
      try (exfalso; destruct (base_recorded _ _ _ H1) as (_ & Hr & _); destruct Hex as [(c1 & d1 & m & [] & _)|Hr']; congruence).
    eapply W; eauto.
Qed.

Lemma c14_failed : forall st o, reach st -> In o (lo_outcomes (sh_lab (ls_sh st))) -> oc_scenario o = Baseline ->
  oc_success o <> Some true ->
  recorded (sh_lab (ls_sh st)) = [] /\ sh_queue (ls_sh st) = ms
  /\ (forall c d m, In c (threads st) -> active c <> Some (d, Mutant m))
  /\ (forall r, ls_main st = MEnd r -> process_exit r = Some 4%Z \/ r = RErr \/ r = RPanic).
Proof.
  assert (Hgood : forall o, baseline_good o -> oc_success o = Some true).
  { intros [s rs] (E1 & E2 & E3). simpl in *. unfold oc_success.
    destruct (exists_last (l := rs)) as (pre & r & ->); [intros ->; unfold phases in E2; destruct (pa_check_only P); discriminate|].
    rewrite last_result_app. apply Forall_app in E3. destruct E3 as [_ E3]. inversion E3. congruence. }
  assert (W : forall sh ws o, reach (mkLS sh MWork ws) -> In o (lo_outcomes (sh_lab sh)) -> oc_scenario o = Baseline ->
     oc_success o = Some true).
  { intros sh ws o H Hin Hs. destruct (work_lab_inv _ _ H) as [_ HW]. unfold all_mutants in HW. destruct (pa_skip_baseline P).
    - rewrite Forall_forall in HW. specialize (HW _ Hin). simpl in HW. rewrite Hs in HW. discriminate.
    - destruct HW as (o1 & rest & E & G & F). rewrite E in Hin. destruct Hin as [<-|Hin]; [auto|].
      rewrite Forall_forall in F. specialize (F _ Hin). simpl in F. rewrite Hs in F. discriminate. }
  intros st o H Hin Hs Ho. destruct st as [sh [c| |r] ws]; cbn [ls_sh ls_main] in *.
  - destruct (base_recorded _ _ _ H) as (Hq & Hr & _). repeat split; auto; [|discriminate].
    intros c1 d m [<-|[]]. pose proof (base_inv _ _ _ _ _ H) as (Hb & _). cbn [ls_main] in Hb.
    destruct c; simpl in *; try discriminate; destruct Hb as [d' Hb]; congruence.
  - exfalso. apply Ho. eapply W; eauto.
  - destruct (end_inv _ _ _ _ _ _ _ H) as [(d & o' & H1 & H2 & H3 & ->)|[(H1 & H3 & ->)|[(H1 & H3 & ->)|(H1 & _ & _)]]].
    + destruct (base_recorded _ _ _ H1) as (Hq & Hr & _). repeat split; auto.
      intros r' E. injection E as <-. left. subst r. simpl.
      destruct (base_lab _ _ _ H1) as [E|E]; [discriminate|]. simpl in E.
      unfold lab_exit_code. rewrite E. cbn [any_baseline_failed].
      rewrite E in Hin. destruct Hin as [<-|[]]. rewrite Hs, H2. reflexivity.
    + destruct (base_recorded _ _ _ H1) as (Hq & Hr & _). repeat split; auto. intros r' E. injection E as <-. auto.
    + destruct (base_recorded _ _ _ H1) as (Hq & Hr & _). repeat split; auto. intros r' E. injection E as <-. auto.
    + exfalso. apply Ho. eapply W; eauto.
Qed.

End Final.

(** * C15, C13, C43, C11, C49, C16: statements about whole states *)
Section Final2.
Context (P : params) (o0 : entries) (t0 : tree) (ms : list mutant).
Notation reach := (reachable P o0 t0 ms).

(** A state that has ended has the threads of the state before, or the run ended with
    the baseline. *)
Lemma end_threads : forall sh r ws, reach (mkLS sh (MEnd r) ws) ->
  reach (mkLS sh MWork ws) \/ ws = [].
Proof.
  intros sh r ws H. destruct (end_inv _ _ _ _ _ _ _ H) as [(d & o' & H1 & H2 & H3 & ->)|[(H1 & H3 & ->)|[(H1 & H3 & ->)|(H1 & _ & _)]]]; auto.
Qed.

Lemma nodup_flat : forall (f : wpc -> list nat) ts i j ci cj d, NoDup (flat_map f ts) ->
  nth_error ts i = Some ci -> nth_error ts j = Some cj -> In d (f ci) -> In d (f cj) -> i = j.
Proof.
  intros f. induction ts as [|c ts IH]; intros i j ci cj d Hn Hi Hj Hdi Hdj; [destruct i; discriminate|].
  simpl in Hn. assert (HX : forall x, In x (f c) -> ~ In x (flat_map f ts)).
  { intros x Hx Hx'. clear - Hn Hx Hx'. induction (f c) as [|y l IHl]; [destruct Hx|]. simpl in Hn. inversion Hn; subst.
    destruct Hx as [->|Hx]; [|auto]. apply H1. apply in_or_app. auto. }
  destruct i as [|i], j as [|j]; simpl in *.
  - reflexivity.
  - injection Hi as ->. exfalso. apply (HX d Hdi). apply in_flat_map. exists cj. split; [eapply nth_error_In; exact Hj|exact Hdj].
  - injection Hj as ->. exfalso. apply (HX d Hdj). apply in_flat_map. exists ci. split; [eapply nth_error_In; exact Hi|exact Hdi].
  - f_equal. eapply IH; eauto. apply NoDup_app_r in Hn. exact Hn.
Qed.

Lemma dirs_nodup : forall st, reach st -> NoDup (flat_map dir_in_use (threads st)).
Proof.
  assert (K : forall st, reach st -> match ls_main st with MEnd _ => True | _ => NoDup (flat_map dir_in_use (threads st)) end).
  { intros st H. pose proof (dirs_inv _ _ _ _ _ H) as D. destruct (ls_main st); auto; destruct D as [D _]; apply NoDup_app_r in D; exact D. }
  intros [sh [c| |r] ws] H.
  - exact (K _ H).
  - exact (K _ H).
  - destruct (end_threads _ _ _ H) as [H1| ->]; [exact (K _ H1)|constructor].
Qed.

Lemma c15_distinct : forall st i j ci cj d s s', reach st ->
  nth_error (threads st) i = Some ci -> nth_error (threads st) j = Some cj ->
  active ci = Some (d, s) -> active cj = Some (d, s') -> i = j.
Proof.
  intros st i j ci cj d s s' H Hi Hj Ai Aj. eapply nodup_flat; [apply dirs_nodup; exact H|exact Hi|exact Hj| |].
  - rewrite (active_use _ _ _ Ai). left. reflexivity.
  - rewrite (active_use _ _ _ Aj). left. reflexivity.
Qed.

Lemma filter_le : forall A (f : A -> bool) l, length (filter f l) <= length l.
Proof. induction l; simpl; [lia|]. destruct (f a); simpl; lia. Qed.

Lemma c15_count : forall st, reach st ->
  active_count (threads st) <= Nat.max 1 (Nat.min (match pa_jobs P with Some j => j | None => 1 end) (length ms)).
Proof.
  intros st H. unfold active_count. eapply Nat.le_trans; [apply filter_le|].
  assert (K : forall sh ws, reach (mkLS sh MWork ws) -> length ws <= Nat.max 1 (Nat.min (match pa_jobs P with Some j => j | None => 1 end) (length ms))).
  { intros sh ws H1. pose proof (base_inv _ _ _ _ _ H1) as B. cbn [ls_main ls_workers] in B. rewrite B. unfold n_threads. lia. }
  destruct st as [sh [c| |r] ws].
  - unfold threads. cbn [ls_main length]. lia.
  - exact (K _ _ H).
  - destruct (end_threads _ _ _ H) as [H1| ->]; [exact (K _ _ H1)|unfold threads; cbn [ls_main ls_workers length]; lia].
Qed.

(** ** C13 *)
Section Trees.
Hypothesis Hload : forall m, In m ms -> loaded P m.
Hypothesis Hfirst : first_tree P t0.
Hypothesis Hopt : options_ok P.

Lemma like_source : forall sh d k, base_ok P sh -> d < length (sh_base sh) -> pa_source P k = true ->
  like (get_tree sh d k) (get_base sh d k) -> as_source P k (get_tree sh d k).
Proof.
  intros sh d k Hb Hd Hk Hl. unfold as_source. destruct (Hb d k Hd Hk) as [E|[E1 E2]].
  - rewrite E in Hl. destruct Hl; auto.
  - rewrite E2 in Hl. right; right. split; [exact E1|]. destruct Hl; assumption.
Qed.

Lemma trees_facts : forall st, reach st -> (forall r, ls_main st <> MEnd r) ->
  ttrees P ms (ls_sh st) (threads st) /\ dirs_ok (ls_sh st) (threads st).
Proof.
  intros st H Hm. pose proof (trees_inv P o0 t0 ms Hload Hfirst Hopt st H) as A. pose proof (dirs_inv _ _ _ _ _ H) as B.
  destruct (ls_main st) as [c| |r]; auto. exfalso. apply (Hm r). reflexivity.
Qed.

Lemma use_bound : forall sh ts c d, dirs_ok sh ts -> In c ts -> In d (dir_in_use c) -> d < length (sh_base sh).
Proof.
  intros sh ts c d (_ & H & E) Hc Hd. rewrite E. apply H. apply in_or_app. right. apply in_flat_map. eauto.
Qed.

Lemma cargo_not_end : forall st c d s done p todo, reach st -> In c (threads st) -> c = WCargo d s done p todo ->
  forall r, ls_main st <> MEnd r.
Proof.
  intros st c d s done p todo H Hc -> r E. destruct st as [sh mn ws]. simpl in E. subst mn.
  destruct (end_inv _ _ _ _ _ _ _ H) as [(d' & o' & H1 & H2 & H3 & ->)|[(H1 & H3 & ->)|[(H1 & H3 & ->)|(H1 & H2 & _)]]];
    try destruct Hc. cbn [threads ls_main ls_workers] in Hc. rewrite forallb_forall in H2. specialize (H2 _ Hc). discriminate.
Qed.

Lemma c13_cargo : forall st d s done p todo, reach st -> In (WCargo d s done p todo) (threads st) ->
  match s with
  | Mutant m =>
      get_tree (ls_sh st) d (file_key m) = Some (mutant_code m)
      /\ forall k, pa_source P k = true -> k <> file_key m -> as_source P k (get_tree (ls_sh st) d k)
  | Baseline => forall k, pa_source P k = true -> as_source P k (get_tree (ls_sh st) d k)
  end.
Proof.
  intros st d s done p todo H Hc. destruct (trees_facts st H) as [(Tb & Tt & _) D].
  { eapply cargo_not_end; eauto. }
  rewrite Forall_forall in Tt. specialize (Tt _ Hc). unfold thread_tree in Tt. simpl in Tt.
  assert (Hd : d < length (sh_base (ls_sh st))). { eapply use_bound; [exact D|exact Hc|]. simpl. auto. }
  destruct s as [|m].
  - intros k Hk. apply like_source; auto. apply (Tt d); simpl; auto.
  - destruct Tt as (Hm & H1 & _ & H2). split; [exact H1|]. intros k Hk Hne. apply like_source; auto.
Qed.

Lemma c13_rest : forall st c d, reach st -> (forall r, ls_main st <> MEnd r) -> In c (threads st) -> at_rest c d ->
  forall k, pa_source P k = true -> as_source P k (get_tree (ls_sh st) d k).
Proof.
  intros st c d H Hm Hc Hr k Hk. destruct (trees_facts st H Hm) as [(Tb & Tt & _) D].
  rewrite Forall_forall in Tt. specialize (Tt _ Hc). unfold thread_tree in Tt.
  assert (Hu : In d (dir_in_use c)). { destruct c; simpl in *; try contradiction; auto. }
  apply like_source; auto; [eapply use_bound; eauto|].
  assert (E : mutated_by c = None). { destruct c; simpl in *; try contradiction; reflexivity. }
  rewrite E in Tt. apply Tt; auto.
Qed.

Lemma c13_end : forall sh l ws d, reach (mkLS sh (MEnd (ROk l)) ws) -> d < length (sh_trees sh) ->
  forall k, pa_source P k = true -> as_source P k (get_tree sh d k).
Proof.
  intros sh l ws d H Hd k Hk.
  destruct (end_inv _ _ _ _ _ _ _ H) as [(d' & o' & H1 & H2 & H3 & ->)|[(H1 & H3 & ->)|[(H1 & H3 & ->)|(H1 & H2 & H3)]]]; try discriminate.
  - destruct (trees_facts _ H1) as [(Tb & Tt & Ts & Ta) (_ & _ & D)]; [discriminate|]. unfold threads in *. cbn [ls_main ls_sh] in *.
    apply like_source; auto; [rewrite D; exact Hd|].
    inversion Tt as [|? ? Tw ?]; subst. destruct (Ta d Hd) as [E|[E|[E _]]]; [apply E; exact Hk| |discriminate].
    apply in_app_iff in E. destruct E as [E|E]; [apply Ts; auto|]. apply Tw; auto.
  - destruct (trees_facts _ H1) as [(Tb & Tt & Ts & Ta) (_ & _ & D)]; [discriminate|]. unfold threads in *. cbn [ls_main ls_sh ls_workers] in *.
    apply like_source; auto; [rewrite D; exact Hd|].
    symmetry in H3. destruct (join_ok _ _ _ H3) as [_ Hb].
    destruct (Ta d Hd) as [E|[E|[E _]]]; [apply E; exact Hk| |congruence].
    apply in_app_iff in E. destruct E as [E|E]; [apply Ts; auto|]. exfalso.
    apply in_flat_map in E. destruct E as (c & Hc & E). rewrite forallb_forall in H2. specialize (H2 _ Hc).
    destruct c; simpl in *; try discriminate; destruct E.
Qed.

(** Whatever the result, if writes of source files do not fail half way. *)
Lemma c13_any_end : forall sh r ws d, pa_write_faults P = false ->
  reach (mkLS sh (MEnd r) ws) -> d < length (sh_trees sh) ->
  forall k, pa_source P k = true -> as_source P k (get_tree sh d k).
Proof.
  intros sh r ws d Hf H Hd k Hk.
  assert (G : exists mn ts, reach (mkLS sh mn ts) /\ (forall r, mn <> MEnd r)
     /\ (forallb is_end (threads (mkLS sh mn ts)) = true \/ exists d o, threads (mkLS sh mn ts) = [WFin d o])).
  { destruct (end_inv _ _ _ _ _ _ _ H) as [(d' & o' & H1 & _)|[(H1 & _)|[(H1 & _)|(H1 & H2 & _)]]];
      eexists _, _; (split; [exact H1|]); (split; [discriminate|]).
    - right. exists d', o'. reflexivity.
    - left. reflexivity.
    - left. reflexivity.
    - left. exact H2. }
  destruct G as (mn & ts & G1 & G2 & G3).
  destruct (trees_facts _ G1 G2) as [(Tb & Tt & Ts & Ta) (_ & _ & D)]. cbn [ls_sh] in *.
  apply like_source; auto; [rewrite D; exact Hd|].
  destruct (Ta d Hd) as [E|[E|[_ E]]]; [apply E; exact Hk| |congruence].
  apply in_app_iff in E. destruct E as [E|E]; [apply Ts; auto|].
  apply in_flat_map in E. destruct E as (c & Hc & E).
  destruct G3 as [G3|(d' & o & G3)].
  - rewrite forallb_forall in G3. specialize (G3 _ Hc). destruct c; try discriminate; destruct E.
  - rewrite G3 in Hc, Tt. destruct Hc as [<-|[]]. inversion Tt as [|? ? Tw ?]; subst. apply (Tw d E). exact Hk.
Qed.

(** The revert after an internal error. *)
Lemma c13_reverterr : forall st i d m sh' c', reach st -> nth_error (threads st) i = Some (WRevertErr d (Mutant m)) ->
  wstep P i (ls_sh st) (WRevertErr d (Mutant m)) sh' c' ->
  get_tree sh' d (file_key m) = Some (sf_code (mu_file m)) ->
  forall k, pa_source P k = true -> as_source P k (get_tree sh' d k).
Proof.
  intros st i d m sh' c' H Hi Hs Hw.
  assert (Hc := nth_error_In _ _ Hi).
  assert (Hm : forall r, ls_main st <> MEnd r).
  { intros r E. destruct st as [sh mn ws]. simpl in E. subst mn.
    destruct (end_inv _ _ _ _ _ _ _ H) as [(d' & o' & H1 & H2 & H3 & ->)|[(H1 & H3 & ->)|[(H1 & H3 & ->)|(H1 & H2 & _)]]];
    try destruct Hc. cbn [threads ls_main ls_workers] in Hc. rewrite forallb_forall in H2. specialize (H2 _ Hc). discriminate. }
  destruct (trees_facts st H Hm) as [(Tb & Tt & _) D].
  rewrite Forall_forall in Tt. specialize (Tt _ Hc). unfold thread_tree in Tt. simpl in Tt.
  assert (Hd : d < length (sh_base (ls_sh st))). { eapply use_bound; [exact D|exact Hc|]. simpl. auto. }
  assert (Hdt : d < length (sh_trees (ls_sh st))). { destruct D as (_ & _ & D). lia. }
  assert (G : forall t c, overwrite_file (get_tree (ls_sh st) d) (file_key m) c = Some t -> t (file_key m) = Some (sf_code (mu_file m)) ->
     forall k, pa_source P k = true -> as_source P k (get_tree (put_tree (ls_sh st) d t) d k)).
  { intros t c Ho Ht k Hk. destruct (overwrite_spec _ _ _ _ Ho) as (Ha & Hb & _).
    assert (c = sf_code (mu_file m)) by congruence. subst c.
    apply like_source; auto. eapply reverted_clean; eauto. destruct D as (_ & _ & D). exact D. }
  inversion Hs as [| | | | | | |? ? ? Hs']; subst. inversion Hs'; subst.
  - rewrite get_put_same in Hw by assumption. eapply G; eauto.
  - exfalso. destruct Tt as (_ & T & _). unfold overwrite_file in *.
    match goal with E : match _ with _ => _ end = None |- _ => rewrite T in E; discriminate end.
  - rewrite get_put_same in Hw by assumption. eapply G; eauto.
Qed.

(** With Unix line endings. *)
Lemma as_source_unix : forall k x, (forall c, pa_root P k = Some c -> without_crlf_cr c = c) ->
  as_source P k x -> x = pa_root P k \/ (pa_in_place P = false /\ x = None).
Proof.
  intros k x Hu [E|[E|E]]; auto. left. rewrite E. destruct (pa_root P k) as [c|] eqn:Ek; [|reflexivity].
  simpl. rewrite (Hu c eq_refl). reflexivity.
Qed.

End Trees.

(** ** C43 *)
Lemma ended_stays : forall i ok sh ts sh' c c', nth_error ts i = Some (WEnd ok) -> forall j, nth_error ts j = Some c ->
  wstep P j sh c sh' c' -> nth_error (list_set ts j c') i = Some (WEnd ok).
Proof.
  intros i ok sh ts sh' c c' Hi j Hj Hs. destruct (Nat.eq_dec j i) as [->|Hne].
  - rewrite Hi in Hj. injection Hj as <-. inversion Hs as [| | | | | | |? ? ? Hs']; inversion Hs'.
  - rewrite nth_error_set_other by assumption. exact Hi.
Qed.

Lemma stays_work : forall k st st', steps P k st st' -> forall i, ls_main st = MWork ->
  nth_error (ls_workers st) i = Some (WEnd false) ->
  nth_error (ls_workers st') i = Some (WEnd false) /\ (ls_main st' = MWork \/ ls_main st' = MEnd RErr \/ ls_main st' = MEnd RPanic).
Proof.
  intros k st st' H. induction H as [s|s s' s'' Hs IH Hst]; intros i Hm Hi; [auto|].
  destruct (IH i Hm Hi) as [A B]. destruct Hst; cbn [ls_main ls_workers] in *; try (destruct B as [B|[B|B]]; discriminate).
  - split; [|auto]. eapply ended_stays; eauto.
  - split; [exact A|]. right. unfold join_threads. destruct (existsb is_panic ws); [auto|].
    assert (existsb is_err ws = true) as ->; [|auto].
    apply existsb_exists. exists (WEnd false). split; [eapply nth_error_In; exact A|reflexivity].
Qed.

Lemma interrupt_stays : forall k st st', steps P k st st' -> forall i d s, ls_main st = MWork ->
  nth_error (ls_workers st) i = Some (WRevertErr d s) ->
  nth_error (ls_workers st') i = Some (WRevertErr d s) \/ nth_error (ls_workers st') i = Some (WEnd false).
Proof.
  intros k st st' H. induction H as [s|s s' s'' Hs IH Hst]; intros i d sc Hm Hi; [auto|].
  assert (Hb : forall sh c, s' <> mkLS sh (MBaseline c) []).
  { intros sh c E. subst s'. destruct (IH i d sc Hm Hi) as [A|A]; destruct i; discriminate. }
  destruct Hst; cbn [ls_main ls_workers] in *; try (exfalso; eapply Hb; reflexivity).
  - specialize (IH i d sc Hm Hi). destruct (Nat.eq_dec i0 i) as [->|Hne].
    + pose proof (nth_error_lt _ _ _ _ H) as Hlt. rewrite nth_error_set_same by assumption.
      destruct IH as [A|A]; rewrite A in H; injection H as <-.
      * inversion H0 as [| | | | | | |? ? ? Hs']; subst. inversion Hs'; subst; auto.
      * inversion H0 as [| | | | | | |? ? ? Hs']; inversion Hs'.
    + rewrite nth_error_set_other by assumption. exact IH.
  - eauto.
Qed.

Lemma no_panic : named ms -> forall sh r ws, reach (mkLS sh (MEnd r) ws) -> r <> RPanic.
Proof.
  intros Hn sh r ws H. destruct (end_inv _ _ _ _ _ _ _ H) as [(d' & o' & H1 & H2 & H3 & ->)|[(H1 & H3 & ->)|[(H1 & H3 & ->)|(H1 & H2 & H3)]]]; try congruence.
  - destruct (wf_inv _ _ _ _ _ H1) as (_ & _ & Hp). exfalso. apply (Hp Hn). left. reflexivity.
  - destruct (wf_inv _ _ _ _ _ H1) as (_ & _ & Hp). specialize (Hp Hn). unfold threads in Hp. cbn [ls_main ls_workers] in Hp.
    subst r. unfold join_threads. destruct (existsb is_panic ws) eqn:E; [|destruct (existsb is_err ws); discriminate].
    apply existsb_exists in E. destruct E as (c & Hc & E). destruct c; try discriminate. contradiction.
Qed.

Lemma reach_steps : forall st st', reach st -> steps P (length ms) st st' -> reach st'.
Proof.
  intros st st' H H'. unfold reachable in *. induction H' as [|s s' s'' H1 IH H2]; [exact H|].
  eapply steps_more; [apply IH; exact H|exact H2].
Qed.

Lemma c43_failed : named ms -> forall st st' i r, reach st -> ls_main st = MWork ->
  nth_error (ls_workers st) i = Some (WEnd false) -> steps P (length ms) st st' ->
  ls_main st' = MEnd r -> process_exit r = Some 1%Z.
Proof.
  intros Hn st st' i r H Hm Hi Hs He. destruct (stays_work _ _ _ Hs i Hm Hi) as [_ [A|[A|A]]]; rewrite He in A; try discriminate.
  - injection A as ->. reflexivity.
  - injection A as ->. exfalso. destruct st' as [sh mn ws]. simpl in He. subst mn.
    eapply no_panic; [exact Hn|eapply reach_steps; eauto|reflexivity].
Qed.

Lemma c43_baseline : forall st st' r, reach st -> ls_main st = MBaseline (WEnd false) ->
  steps P (length ms) st st' -> ls_main st' = MEnd r -> process_exit r = Some 1%Z.
Proof.
  intros st st' r H Hm Hs He.
  assert (K : ls_main st' = MBaseline (WEnd false) \/ ls_main st' = MEnd RErr).
  { clear He H. induction Hs as [|s s' s'' H1 IH H2]; [auto|]. specialize (IH Hm).
    destruct H2; cbn [ls_main] in *; destruct IH as [IH|IH]; try discriminate; auto.
    injection IH as ->. inversion H. }
  destruct K as [K|K]; rewrite He in K; [discriminate|]. injection K as ->. reflexivity.
Qed.

(** An error result means that some thread failed. *)
Lemma c43_only : forall sh ws, reach (mkLS sh (MEnd RErr) ws) ->
  In (WEnd false) ws \/ reach (mkLS sh (MBaseline (WEnd false)) []).
Proof.
  intros sh ws H. destruct (end_inv _ _ _ _ _ _ _ H) as [(d' & o' & H1 & H2 & H3 & ->)|[(H1 & H3 & ->)|[(H1 & H3 & ->)|(H1 & H2 & H3)]]]; try congruence; auto.
  left. unfold join_threads in H3. destruct (existsb is_panic ws); [discriminate|]. destruct (existsb is_err ws) eqn:E; [|discriminate].
  apply existsb_exists in E. destruct E as (c & Hc & E). destruct c; try discriminate. destruct ok; [discriminate|exact Hc].
Qed.

(** ** C11, C49 *)
Section ListFiles.
Hypothesis Hnamed : named ms.
Hypothesis Hfaults : pa_faults P = false.
Hypothesis Hlists0 : lists_exact o0 [].

Lemma c11_all : forall st, reach st ->
  exists os last,
    lo_outcomes (sh_lab (ls_sh st)) = os ++ last
    /\ (   (last = [] /\ lists_exact (sh_out (ls_sh st)) (verdicts os)
            /\ (os <> [] -> dget (sh_out (ls_sh st)) OUTCOMES_JSON = Some (NFile (pa_json P (sh_lab (ls_sh st))))))
        \/ (exists o c, last = [o] /\ In c (threads st) /\ critical c = true /\ recorded_of c = [o]
            /\ (lists_exact (sh_out (ls_sh st)) (verdicts os)
                \/ exists m v, verdicts [o] = [(m, v)] /\ lists_half (sh_out (ls_sh st)) (verdicts os) m v))).
Proof.
  assert (K : forall sh ts, lists_ok P sh ts ->
     exists os last, lo_outcomes (sh_lab sh) = os ++ last
    /\ (   (last = [] /\ lists_exact (sh_out sh) (verdicts os)
            /\ (os <> [] -> dget (sh_out sh) OUTCOMES_JSON = Some (NFile (pa_json P (sh_lab sh)))))
        \/ (exists o c, last = [o] /\ In c ts /\ critical c = true /\ recorded_of c = [o]
            /\ (lists_exact (sh_out sh) (verdicts os)
                \/ exists m v, verdicts [o] = [(m, v)] /\ lists_half (sh_out sh) (verdicts os) m v)))).
  { intros sh ts H. unfold lists_ok in H. destruct (sh_mutex sh) as [i|].
    - destruct H as (c & Hc & H). apply nth_error_In in Hc.
      destruct c; simpl in H; try contradiction.
      + destruct H as (os & H1 & H2). exists os, [o]. split; [exact H1|]. right. exists o, (WJson d o). auto 10.
      + destruct H as (os & H1 & H2). exists os, [o]. split; [exact H1|]. right. exists o, (WJson2 d o). auto 10.
      + destruct H as [(os & H1 & H2) _]. exists os, [o]. split; [exact H1|]. right. exists o, (WName d o). auto 10.
      + destruct H as [(os & m & v & H1 & H2 & H3 & H4) _]. exists os, [o]. split; [exact H1|]. right. exists o, (WNewline d o).
        repeat split; auto. right. exists m, v. split; [|exact H4]. unfold verdicts. cbn [flat_map]. rewrite H2, H3. reflexivity.
    - destruct H as [H1 H2]. exists (lo_outcomes (sh_lab sh)), []. rewrite app_nil_r. split; [reflexivity|]. left. auto. }
  intros [sh [c| |r] ws] H; cbn [ls_sh].
  - apply (K sh [c]). exact (lists_inv P o0 t0 ms Hnamed Hfaults Hlists0 _ H).
  - apply (K sh ws). exact (lists_inv P o0 t0 ms Hnamed Hfaults Hlists0 _ H).
  - destruct (end_inv _ _ _ _ _ _ _ H) as [(d' & o' & H1 & H2 & H3 & ->)|[(H1 & H3 & ->)|[(H1 & H3 & ->)|(H1 & H2 & H3)]]].
    + pose proof (lists_inv P o0 t0 ms Hnamed Hfaults Hlists0 _ H1) as L. unfold threads in L. cbn [ls_main ls_sh] in L.
      destruct (K _ _ L) as (os & last & E & [A|(o & c & E1 & [<-|[]] & E3 & _)]); [|discriminate].
      exists os, last. split; [exact E|]. left. exact A.
    + pose proof (lists_inv P o0 t0 ms Hnamed Hfaults Hlists0 _ H1) as L. unfold threads in L. cbn [ls_main ls_sh] in L.
      destruct (K _ _ L) as (os & last & E & [A|(o & c & E1 & [<-|[]] & E3 & _)]); [|discriminate].
      exists os, last. split; [exact E|]. left. exact A.
    + pose proof (lists_inv P o0 t0 ms Hnamed Hfaults Hlists0 _ H1) as L. unfold threads in L. cbn [ls_main ls_sh] in L.
      destruct (K _ _ L) as (os & last & E & [A|(o & c & E1 & [<-|[]] & E3 & _)]); [|discriminate].
      exists os, last. split; [exact E|]. left. exact A.
    + apply (K sh ws). exact (lists_inv P o0 t0 ms Hnamed Hfaults Hlists0 _ H1).
Qed.

Lemma c11_end : forall sh r ws, reach (mkLS sh (MEnd r) ws) ->
  lists_exact (sh_out sh) (verdicts (lo_outcomes (sh_lab sh)))
  /\ (lo_outcomes (sh_lab sh) <> [] -> dget (sh_out sh) (tx "outcomes.json") = Some (NFile (pa_json P (sh_lab sh)))).
Proof.
  intros sh r ws H. destruct (c11_all _ H) as (os & last & E & [(-> & A & B)|(o & c & _ & Hc & E3 & _)]); cbn [ls_sh] in *.
  - rewrite app_nil_r in E. rewrite E. auto.
  - exfalso. unfold threads in Hc. cbn [ls_main ls_workers] in Hc.
    destruct (end_inv _ _ _ _ _ _ _ H) as [(d' & o' & H1 & H2 & H3 & ->)|[(H1 & H3 & ->)|[(H1 & H3 & ->)|(H1 & H2 & H3)]]]; try destruct Hc.
    rewrite forallb_forall in H2. specialize (H2 _ Hc). destruct c; discriminate.
Qed.

Definition verdict_names (v : summary_outcome) (rs : list (mutant * summary_outcome)) : list text :=
  flat_map (fun mv => if same_verdict (snd mv) v
                      then match mutant_name true (fst mv) with Some n => [n] | None => [] end
                      else []) rs.

Lemma list_text_names : forall v rs, list_text v rs = previously_text (verdict_names v rs).
Proof.
  intros v rs. induction rs as [|[m x] rs IH]; [reflexivity|]. unfold list_text, verdict_names in *. cbn [flat_map fst snd].
  rewrite previously_app, <- IH. f_equal. destruct (same_verdict x v); [|reflexivity].
  destruct (mutant_name true m); [|reflexivity]. rewrite previously_one. reflexivity.
Qed.

Lemma same_verdict_eq : forall a b, same_verdict a b = true <-> a = b.
Proof. intros [] []; simpl; split; congruence. Qed.

Lemma verdict_names_in : forall v rs n, In n (verdict_names v rs) <-> exists m, In (m, v) rs /\ mutant_name true m = Some n.
Proof.
  intros v rs n. unfold verdict_names. rewrite in_flat_map. split.
  - intros ([m x] & Hin & H). simpl in H. destruct (same_verdict x v) eqn:E; [|destruct H]. apply same_verdict_eq in E. subst.
    exists m. destruct (mutant_name true m); [|destruct H]. destruct H as [<-|[]]. auto.
  - intros (m & Hin & Hn). exists (m, v). split; [exact Hin|]. simpl. rewrite (proj2 (same_verdict_eq v v) eq_refl), Hn. left. reflexivity.
Qed.

Lemma verdicts_in : forall os m v, In (m, v) (verdicts os) <-> exists o, In o os /\ oc_scenario o = Mutant m /\ summary o = Some v.
Proof.
  intros os m v. unfold verdicts. rewrite in_flat_map. split.
  - intros (o & Ho & H). exists o. destruct (oc_scenario o); [destruct H|]. destruct (summary o); [|destruct H].
    destruct H as [E|[]]. injection E as -> ->. auto.
  - intros (o & Ho & E1 & E2). exists o. split; [exact Ho|]. rewrite E1, E2. left. reflexivity.
Qed.

Lemma names_one_line : forall v rs, (forall m n, In m ms -> mutant_name true m = Some n -> one_line n) ->
  (forall m x, In (m, x) rs -> In m ms) -> Forall one_line (verdict_names v rs).
Proof.
  intros v rs H Hin. apply Forall_forall. intros n Hn. apply verdict_names_in in Hn. destruct Hn as (m & Hm & E). eauto.
Qed.

Lemma recorded_in_ms : forall st o m, reach st -> In o (lo_outcomes (sh_lab (ls_sh st))) -> oc_scenario o = Mutant m -> In m ms.
Proof.
  intros st o m H Ho Hs. destruct (c12_accounted _ _ _ _ _ H) as (lost & HP & _).
  eapply Permutation_in; [exact HP|]. rewrite !in_app_iff. right; right; left.
  unfold recorded. apply in_flat_map. exists o. rewrite Hs. simpl. auto.
Qed.

Lemma c49_lab : (forall m n, In m ms -> mutant_name true m = Some n -> one_line n) ->
  forall st f v, reach st -> In (f, v) lists ->
  (forall n, In n (list_lines (sh_out (ls_sh st)) f) ->
     exists o m, In o (lo_outcomes (sh_lab (ls_sh st))) /\ oc_scenario o = Mutant m /\ summary o = Some v
                 /\ mutant_name true m = Some n)
  /\ (forall o m n, In o (lo_outcomes (sh_lab (ls_sh st))) -> oc_scenario o = Mutant m -> summary o = Some v ->
        mutant_name true m = Some n ->
        In n (list_lines (sh_out (ls_sh st)) f)
        \/ exists c, In c (threads st) /\ critical c = true /\ recorded_of c = [o]).
Proof.
  intros Hone st f v H Hf.
  destruct (c11_all _ H) as (os & last & E & HC).
  assert (Hms : forall os', incl os' (os ++ last) -> forall m x, In (m, x) (verdicts os') -> In m ms).
  { intros os' Hi m x Hin. apply verdicts_in in Hin. destruct Hin as (o & Ho & Es & _).
    eapply recorded_in_ms; [exact H| |exact Es]. rewrite E. apply Hi. exact Ho. }
  assert (Hex : lists_exact (sh_out (ls_sh st)) (verdicts os) -> list_lines (sh_out (ls_sh st)) f = verdict_names v (verdicts os)).
  { intros HL. unfold list_lines. rewrite (HL f v Hf). rewrite list_text_names, lines_of_names; [reflexivity|].
    apply names_one_line; [exact Hone|]. apply Hms. apply incl_appl, incl_refl. }
  assert (Hhalf : forall o m x, last = [o] -> verdicts [o] = [(m, x)] -> lists_half (sh_out (ls_sh st)) (verdicts os) m x ->
     list_lines (sh_out (ls_sh st)) f = verdict_names v (verdicts os) ++ verdict_names v [(m, x)]).
  { intros o m x El Ev HL. unfold list_lines. rewrite (HL f v Hf). rewrite list_text_names.
    unfold verdict_names at 3. cbn [flat_map fst snd]. rewrite app_nil_r.
    assert (Hm : In m ms). { apply (Hms [o]) with x; [subst; apply incl_appr, incl_refl|]. rewrite Ev. left. reflexivity. }
    assert (Hos : Forall one_line (verdict_names v (verdicts os))).
    { apply names_one_line; [exact Hone|]. apply Hms. apply incl_appl, incl_refl. }
    destruct (same_verdict x v); [|rewrite app_nil_r, app_nil_r, lines_of_names by exact Hos; reflexivity].
    destruct (mutant_name true m) as [nm|] eqn:En; [|exfalso; apply (Hnamed m); assumption].
    rewrite lines_half; [reflexivity|exact Hos| |].
    - destruct (Hone _ _ Hm En) as [Ho _]. exact Ho.
    - eapply name_nonempty. exact En. }
  split.
  - intros n Hn. rewrite E.
    assert (K : In n (verdict_names v (verdicts (os ++ last)))).
    { rewrite verdicts_app. unfold verdict_names. rewrite flat_map_app. apply in_or_app.
      destruct HC as [(_ & HL & _)|(o & c & El & _ & _ & _ & [HL|(m & x & Ev & HL)])].
      - left. rewrite (Hex HL) in Hn. exact Hn.
      - left. rewrite (Hex HL) in Hn. exact Hn.
      - rewrite (Hhalf o m x El Ev HL) in Hn. rewrite El, Ev. apply in_app_iff in Hn. exact Hn. }
    apply verdict_names_in in K. destruct K as (m & Hm & En). apply verdicts_in in Hm. destruct Hm as (o & Ho & E1 & E2).
    exists o, m. auto.
  - intros o m n Ho Es Ev En. rewrite E in Ho. apply in_app_iff in Ho.
    assert (Hin : In o os -> In n (list_lines (sh_out (ls_sh st)) f)).
    { intros Ho'. assert (K : In n (verdict_names v (verdicts os))).
      { apply verdict_names_in. exists m. split; [|exact En]. apply verdicts_in. eauto. }
      destruct HC as [(_ & HL & _)|(o1 & c & El & _ & _ & _ & [HL|(m1 & x & Ev1 & HL)])].
      - rewrite (Hex HL). exact K.
      - rewrite (Hex HL). exact K.
      - rewrite (Hhalf o1 m1 x El Ev1 HL). apply in_or_app. auto. }
    destruct Ho as [Ho|Ho]; [auto|].
    destruct HC as [(-> & _)|(o1 & c & El & Hc & Hcr & Hr & _)]; [destruct Ho|].
    rewrite El in Ho. destruct Ho as [<-|[]]. right. eauto.
Qed.

End ListFiles.

(** ** C16: log files *)
Definition logs_ok (sh : shared) (ts : list wpc) : Prop :=
  NoDup (sh_logs sh) /\ exists past, consistent (sh_used sh) past
    /\ forall x, In x (sh_logs sh) -> exists s k, x = render (scenario_name s) k /\ k < occ (scenario_name s) past.

Lemma logs_start : forall sh s u nm, logs_ok sh [] -> start_name (sh_used sh) s = (u, nm) ->
  ~ In nm (sh_logs sh) /\ logs_ok (set_log sh u nm) [] /\ logs_ok (set_used sh u) [].
Proof.
  intros sh s u nm (Hn & past & Hc & Hl) E. destruct (start_name_render _ _ s Hc) as (u' & E' & Hc').
  rewrite E in E'. injection E' as <- ->.
  assert (Hni : ~ In (render (scenario_name s) (occ (scenario_name s) past)) (sh_logs sh)).
  { intros Hin. destruct (Hl _ Hin) as (s' & k & Er & Hk). apply render_inj in Er; [|apply base_good|apply base_good].
    destruct Er as [En Ek]. rewrite <- En, <- Ek in Hk. lia. }
  assert (Hl' : forall x, In x (sh_logs sh) -> exists s0 k, x = render (scenario_name s0) k /\ k < occ (scenario_name s0) (scenario_name s :: past)).
  { intros x Hx. destruct (Hl x Hx) as (s' & k & Er & Hk). exists s', k. split; [exact Er|].
    simpl. destruct (text_eqb (scenario_name s') (scenario_name s)); lia. }
  split; [exact Hni|]. split.
  - split.
    + simpl. apply NoDup_Add with (a := render (scenario_name s) (occ (scenario_name s) past)) (l := sh_logs sh).
      * rewrite <- (app_nil_r (sh_logs sh)) at 1. apply Add_app.
      * split; assumption.
    + exists (scenario_name s :: past). split; [exact Hc'|]. simpl. intros x Hx. apply in_app_iff in Hx. destruct Hx as [Hx|[<-|[]]].
      * apply Hl'. exact Hx.
      * exists s, (occ (scenario_name s) past). split; [reflexivity|]. rewrite text_eqb_refl. lia.
  - split; [exact Hn|]. exists (scenario_name s :: past). auto.
Qed.

Lemma logs_inv : forall st, reach st ->
  match ls_main st with MEnd _ => True | _ => logs_ok (ls_sh st) (threads st) end.
Proof.
  apply (reach_ind P o0 t0 ms logs_ok).
  - intros _. split; [constructor|]. exists []. split; [apply consistent_nil|intros x []].
  - intros _. split; [constructor|]. exists []. split; [apply consistent_nil|intros x []].
  - intros i sh ts c sh' c' Hi Hs HL. destruct Hs as [| | | | | | |c sh' c' Hs]; try exact HL.
    destruct Hs; try exact HL;
      match goal with E : start_name _ _ = _ |- _ => destruct (logs_start _ _ _ _ HL E) as (_ & A & B); assumption end.
  - intros sh d o HL _. exact HL.
Qed.

Lemma c16_reach : forall st c d s u nm, reach st -> (forall r, ls_main st <> MEnd r) -> In c (threads st) -> c = WStart d s ->
  start_name (sh_used (ls_sh st)) s = (u, nm) -> ~ In nm (sh_logs (ls_sh st)).
Proof.
  intros st c d s u nm H Hm _ _ E. pose proof (logs_inv st H) as L.
  assert (HL : logs_ok (ls_sh st) (threads st)). { destruct (ls_main st) as [x| |r]; auto. exfalso. apply (Hm r). reflexivity. }
  exact (proj1 (logs_start _ _ _ _ HL E)).
Qed.

End Final2.

Lemma recording_spec : forall c o, critical c = true -> recorded_of c = [o] -> recording c = Some o.
Proof. intros c o H1 H2. destruct c; try discriminate; injection H2 as ->; reflexivity. Qed.

(** * A scheduler, to have concrete executions *)
Definition go (P : params) (i : nat) (r : option (exit_t * N)) (sh : shared) (c : wpc) : option (shared * wpc) :=
  match c with
  | WInit => match sh_dir0 sh with Some d => Some (set_dir0 sh None, WQueue d) | None => Some (sh, WCopy) end
  | WCopy => Some (add_dir sh (workspace_tree P sh), WQueue (length (sh_trees sh)))
  | WQueue d => match sh_queue sh with m :: q => Some (set_queue sh q, WStart d (Mutant m)) | [] => Some (sh, WEnd true) end
  | WStart d s =>
      match sh_mutex sh with
      | Some _ => None
      | None => let (u, n) := start_name (sh_used sh) s in
                if mem_text n (sh_logs sh) then None else Some (set_log sh u n, WApply d s)
      end
  | WApply d Baseline => Some (sh, WPhase d Baseline [] (phases (pa_check_only P)))
  | WApply d (Mutant m) =>
      match overwrite_file (get_tree sh d) (file_key m) (mutant_code m) with
      | Some t => Some (put_tree sh d t, WPhase d (Mutant m) [] (phases (pa_check_only P)))
      | None => Some (sh, WEnd false)
      end
  | WPhase d s done [] => Some (sh, WRevert d s done)
  | WPhase d s done (p :: todo) => Some (sh, WCargo d s done p todo)
  | WCargo d s done p todo =>
      match r with
      | None => Some (put_tree sh d (get_tree sh d), WRevertErr d s)
      | Some (e, dur) =>
          if is_success e then Some (put_tree sh d (get_tree sh d), WPhase d s (done ++ [mkPR p dur e]) todo)
          else Some (put_tree sh d (get_tree sh d), WRevert d s (done ++ [mkPR p dur e]))
      end
  | WRevert d Baseline done => Some (sh, WAdd d Baseline done)
  | WRevert d (Mutant m) done =>
      match overwrite_file (get_tree sh d) (file_key m) (sf_code (mu_file m)) with
      | Some t => Some (put_tree sh d t, WAdd d (Mutant m) done)
      | None => Some (sh, WEnd false)
      end
  | WRevertErr d Baseline => Some (sh, WEnd false)
  | WRevertErr d (Mutant m) =>
      match overwrite_file (get_tree sh d) (file_key m) (sf_code (mu_file m)) with
      | Some t => Some (put_tree sh d t, WEnd false)
      | None => Some (sh, WEnd false)
      end
  | WAdd d s done =>
      match sh_mutex sh, lab_add (sh_lab sh) (mkOutcome s done) with
      | None, Some l => Some (set_lab sh l (Some i), WJson d (mkOutcome s done))
      | _, _ => None
      end
  | WJson d o => Some (set_out sh (dset (sh_out sh) OUTCOMES_JSON (NFile [])) (Some i), WJson2 d o)
  | WJson2 d o => Some (set_out sh (dset (sh_out sh) OUTCOMES_JSON (NFile (pa_json P (sh_lab sh)))) (Some i), WName d o)
  | WName d (mkOutcome Baseline done) => Some (set_out sh (sh_out sh) None, WFin d (mkOutcome Baseline done))
  | WName d (mkOutcome (Mutant m) done) =>
      match summary (mkOutcome (Mutant m) done), mutant_name true m with
      | Some v, Some n =>
          match list_for v with
          | Some f => Some (set_out sh (append_file (sh_out sh) f n) (Some i), WNewline d (mkOutcome (Mutant m) done))
          | None => Some (set_out sh (sh_out sh) None, WFin d (mkOutcome (Mutant m) done))
          end
      | _, _ => None
      end
  | WNewline d (mkOutcome Baseline done) => None
  | WNewline d (mkOutcome (Mutant m) done) =>
      match summary (mkOutcome (Mutant m) done) with
      | Some v =>
          match list_for v with
          | Some f => Some (set_out sh (append_file (sh_out sh) f [NL]) None, WFin d (mkOutcome (Mutant m) done))
          | None => None
          end
      | None => None
      end
  | WFin d o => Some (sh, WQueue d)
  | WEnd _ | WPanic => None
  end.

Lemma go_sound : forall P i r sh c sh' c', go P i r sh c = Some (sh', c') -> wstep P i sh c sh' c'.
Proof.
  intros P i r sh c sh' c' H. destruct c; cbn [go] in H.
  - destruct (sh_dir0 sh) eqn:E; injection H as <- <-; [apply ws_take_dir|apply ws_no_dir]; assumption.
  - injection H as <- <-. apply ws_copy. intros k _. auto.
  - destruct (sh_queue sh) eqn:E; injection H as <- <-; [apply ws_empty|apply ws_next]; assumption.
  - destruct (sh_mutex sh) eqn:E; [discriminate|]. destruct (start_name (sh_used sh) s) as [u n] eqn:En.
    destruct (mem_text n (sh_logs sh)) eqn:Em; [discriminate|]. injection H as <- <-. apply ws_scenario.
    eapply ss_start; eauto. intros Hin. apply mem_text_in in Hin. congruence.
  - destruct s as [|m].
    + injection H as <- <-. apply ws_scenario, ss_apply_none.
    + destruct (overwrite_file _ _ _) eqn:E; injection H as <- <-; apply ws_scenario; [apply ss_apply|apply ss_apply_missing]; exact E.
  - destruct todo; injection H as <- <-; apply ws_scenario; constructor.
  - destruct r as [[e dur]|].
    + destruct (is_success e) eqn:E; injection H as <- <-; apply ws_scenario; [apply ss_cargo_ok|apply ss_cargo_fail]; auto; intros k _; reflexivity.
    + injection H as <- <-. apply ws_scenario, ss_cargo_err. intros k _. reflexivity.
  - destruct s as [|m].
    + injection H as <- <-. apply ws_scenario, ss_revert_none.
    + destruct (overwrite_file _ _ _) eqn:E; injection H as <- <-; apply ws_scenario; [apply ss_revert|apply ss_revert_missing]; exact E.
  - destruct s as [|m].
    + injection H as <- <-. apply ws_scenario, ss_reverterr_none.
    + destruct (overwrite_file _ _ _) eqn:E; injection H as <- <-; apply ws_scenario; [apply ss_reverterr|apply ss_reverterr_missing]; exact E.
  - destruct (sh_mutex sh) eqn:E; [discriminate|]. destruct (lab_add (sh_lab sh) (mkOutcome s done)) eqn:El; [|discriminate].
    injection H as <- <-. apply ws_scenario, ss_add; assumption.
  - injection H as <- <-. apply ws_scenario, ss_json.
  - injection H as <- <-. apply ws_scenario, ss_json2.
  - destruct o as [[|m] done].
    + injection H as <- <-. apply ws_scenario, ss_no_name_base.
    + destruct (summary (mkOutcome (Mutant m) done)) as [v|] eqn:E; [|discriminate].
      destruct (mutant_name true m) eqn:En; [|discriminate].
      destruct (list_for v) eqn:El; injection H as <- <-; apply ws_scenario; [eapply ss_name; eassumption|eapply ss_no_name; eassumption].
  - destruct o as [[|m] done]; [discriminate|].
    destruct (summary (mkOutcome (Mutant m) done)) as [v|] eqn:E; [|discriminate].
    destruct (list_for v) eqn:El; [|discriminate]. injection H as <- <-. apply ws_scenario. eapply ss_newline; eassumption.
  - injection H as <- <-. apply ws_again.
  - discriminate.
  - discriminate.
Qed.

(** One step: thread [i] moves; when all have ended, or at the end of the baseline, the
    main thread moves. *)
Definition exec1 (P : params) (n : nat) (x : nat * option (exit_t * N)) (st : state) : option state :=
  match st with
  | mkLS sh (MBaseline c) [] =>
      match c with
      | WFin d o => match oc_success o with
                    | Some true => Some (mkLS (set_dir0 sh (Some d)) MWork (spawn (n_threads (pa_jobs P) n)))
                    | Some false => Some (mkLS sh (MEnd (ROk (sh_lab sh))) [])
                    | None => None
                    end
      | WEnd false => Some (mkLS sh (MEnd RErr) [])
      | WInit | WCopy | WQueue _ | WEnd true | WPanic => None
      | c => match go P 0 (snd x) sh c with Some (sh', c') => Some (mkLS sh' (MBaseline c') []) | None => None end
      end
  | mkLS sh MWork ws =>
      if forallb is_end ws then Some (mkLS sh (MEnd (join_threads ws (sh_lab sh))) ws)
      else match nth_error ws (fst x) with
           | Some c => match go P (fst x) (snd x) sh c with
                       | Some (sh', c') => Some (mkLS sh' MWork (list_set ws (fst x) c'))
                       | None => None
                       end
           | None => None
           end
  | _ => None
  end.

Fixpoint exec (P : params) (n : nat) (xs : list (nat * option (exit_t * N))) (st : state) : option state :=
  match xs with
  | [] => Some st
  | x :: xs' => match exec1 P n x st with Some st' => exec P n xs' st' | None => None end
  end.

Lemma exec1_sound : forall P n x st st', exec1 P n x st = Some st' -> step P n st st'.
Proof.
  intros P n x [sh [c| |r] ws] st' H; cbn [exec1] in H; [| |discriminate].
  - destruct ws; [|discriminate].
    assert (K : forall c0, c = c0 -> (exists d, active c0 = Some d) -> (forall d o, c0 <> WFin d o) ->
       match go P 0 (snd x) sh c0 with Some (sh', c') => Some (mkLS sh' (MBaseline c') []) | None => None end = Some st' ->
       step P n (mkLS sh (MBaseline c) []) st').
    { intros c0 -> [d A] Hf E. destruct (go P 0 (snd x) sh c0) as [[sh' c']|] eqn:G; [|discriminate]. injection E as <-.
      apply go_sound in G. apply st_baseline. destruct G; try discriminate; [|assumption]. exfalso. eapply Hf. reflexivity. }
    destruct c; try discriminate; try (eapply K; [reflexivity|eexists; reflexivity|discriminate|exact H]).
    + destruct (oc_success o) as [[|]|] eqn:E; [| |discriminate]; injection H as <-; [apply st_baseline_ok with (o := o)|apply st_baseline_failed with (d := d) (o := o)]; exact E.
    + destruct ok; [discriminate|]. injection H as <-. apply st_baseline_err.
  - destruct (forallb is_end ws) eqn:E.
    + injection H as <-. apply st_join. exact E.
    + destruct (nth_error ws (fst x)) as [c|] eqn:En; [|discriminate].
      destruct (go P (fst x) (snd x) sh c) as [[sh' c']|] eqn:G; [|discriminate]. injection H as <-.
      eapply st_worker; [exact En|apply go_sound in G; exact G].
Qed.

Lemma exec_sound : forall P o0 t0 ms xs st, exec P (length ms) xs (start_state P o0 t0 ms) = Some st -> reachable P o0 t0 ms st.
Proof.
  intros P o0 t0 ms xs st H. unfold reachable.
  assert (K : forall xs s s', steps P (length ms) (start_state P o0 t0 ms) s -> exec P (length ms) xs s = Some s' ->
            steps P (length ms) (start_state P o0 t0 ms) s').
  { clear. induction xs as [|x xs IH]; intros s s' Hs E; simpl in E; [injection E as <-; exact Hs|].
    destruct (exec1 P (length ms) x s) as [s1|] eqn:E1; [|discriminate]. eapply IH; [|exact E].
    eapply steps_more; [exact Hs|]. apply exec1_sound with x. exact E1. }
  eapply K; [apply steps_refl|exact H].
Qed.

Lemma exec_steps : forall P n xs s s', exec P n xs s = Some s' -> steps P n s s'.
Proof.
  intros P n xs s s' H.
  assert (K : forall xs s1 s2, steps P n s s1 -> exec P n xs s1 = Some s2 -> steps P n s s2).
  { clear. induction xs as [|x xs IH]; intros s1 s2 Hs E; cbn [exec] in E; [injection E as <-; exact Hs|].
    destruct (exec1 P n x s1) as [s3|] eqn:E1; [|discriminate]. eapply IH; [|exact E]. eapply steps_more; [exact Hs|]. eapply exec1_sound. exact E1. }
  eapply K; [apply steps_refl|exact H].
Qed.

(** * Invariants of the shared state alone *)
Section Shared.
Context (P : params) (o0 : entries) (t0 : tree) (ms : list mutant).
Notation reach := (reachable P o0 t0 ms).

Lemma shared_ind : forall (Q : shared -> Prop),
  (forall d, Q (mkSh ms d [t0] [t0] [] [] (@lab_new mutant) o0 None)) ->
  (forall sh d, Q sh -> Q (set_dir0 sh d)) ->
  (forall i sh c sh' c', wf P ms c -> wstep P i sh c sh' c' -> Q sh -> Q sh') ->
  forall st, reach st -> Q (ls_sh st).
Proof.
  intros Q H1 H2 H3 st H. unfold reachable in H. remember (start_state P o0 t0 ms) as s0 eqn:E0.
  induction H as [s|s s' s'' Hs IH Hst].
  - subst s. unfold start_state. destruct (pa_skip_baseline P); simpl; auto.
  - specialize (IH E0). subst s. pose proof (wf_inv _ _ _ _ _ Hs) as W.
    destruct Hst; unfold threads in *; cbn [ls_main ls_sh ls_workers] in *; auto.
    + destruct W as (_ & W & _). inversion W; subst. eapply H3; [eassumption|constructor; eassumption|assumption].
    + destruct W as (_ & W & _). rewrite Forall_forall in W. eapply H3; [apply W; eapply nth_error_In; eassumption|eassumption|assumption].
Qed.

Lemma c10_recorded : forall st, reach st -> forall o, In o (lo_outcomes (sh_lab (ls_sh st))) ->
  finished_run (phases (pa_check_only P)) (oc_results o).
Proof.
  apply (shared_ind (fun sh => forall o, In o (lo_outcomes (sh_lab sh)) -> finished_run (phases (pa_check_only P)) (oc_results o))).
  - intros d o [].
  - auto.
  - intros i sh c sh' c' [_ W] H IH. destruct H as [| | | | | | |c sh' c' H]; auto.
    destruct H; auto. cbn [sh_lab set_lab]. rewrite (lab_add_outcomes _ _ _ H0). intros o Ho.
    apply in_app_iff in Ho. destruct Ho as [Ho|[<-|[]]]; auto.
Qed.

Lemma c12_in_order : forall st, reach st -> exists taken, ms = taken ++ sh_queue (ls_sh st).
Proof.
  apply (shared_ind (fun sh => exists taken, ms = taken ++ sh_queue sh)).
  - intros d. exists []. reflexivity.
  - auto.
  - intros i sh c sh' c' _ H [tk IH]. destruct H as [| | | |d m q Hq| | |c sh' c' H]; eauto.
    + exists (tk ++ [m]). rewrite <- app_assoc. cbn [sh_queue set_queue app]. rewrite <- Hq. exact IH.
    + exists tk. destruct (sstep_frame _ _ _ _ _ _ H) as [-> _]. exact IH.
Qed.

Lemma c12_ends_empty : forall st, reach st -> In (WEnd true) (threads st) -> sh_queue (ls_sh st) = [].
Proof.
  intros [sh mn ws] H Hin. destruct mn as [c| |r].
  - pose proof (accounted_inv _ _ _ _ _ H) as (l & _ & _ & A). auto.
  - pose proof (accounted_inv _ _ _ _ _ H) as (l & _ & _ & A). auto.
  - unfold threads in Hin. cbn [ls_main ls_workers ls_sh] in *.
    destruct (end_inv _ _ _ _ _ _ _ H) as [(d & o & _ & _ & _ & ->)|[(_ & _ & ->)|[(_ & _ & ->)|(H1 & _ & _)]]];
      [destruct Hin|destruct Hin|destruct Hin|].
    pose proof (accounted_inv _ _ _ _ _ H1) as (l & _ & _ & A). auto.
Qed.
End Shared.

(** * The lists when writes may fail *)
Section Pieces.
Context (P : params) (o0 : entries) (t0 : tree) (ms : list mutant).
Notation reach := (reachable P o0 t0 ms).
Hypothesis Hnamed : named ms.
Hypothesis Hlists0 : lists_exact o0 [].

Definition content (v : summary_outcome) (ps : list piece) : text :=
  flat_map (fun p => if same_verdict (snd (fst p)) v then snd p else []) ps.

Definition held (out : entries) (os : list (outcome mutant)) (ps : list piece) (k : nat) : Prop :=
  map fst ps = verdicts os /\ Forall begun ps /\ torn_count ps <= k.

Definition now_holds (sh : shared) (c : wpc) (k : nat) : Prop :=
  match recording c with
  | None => False
  | Some o =>
      exists os ps, lo_outcomes (sh_lab sh) = os ++ [o] /\ held (sh_out sh) os ps k
      /\ match c with
         | WNewline _ _ => exists m v n, verdicts [o] = [((m, v))] /\ oc_scenario o = Mutant m /\ summary o = Some v
                             /\ mutant_name true m = Some n /\ lists_hold (sh_out sh) (ps ++ [((m, v), n)])
         | _ => lists_hold (sh_out sh) ps
         end
  end.

Definition pieces_inv (sh : shared) (ts : list wpc) : Prop :=
  match sh_mutex sh with
  | None => exists ps, held (sh_out sh) (lo_outcomes (sh_lab sh)) ps (length (filter failed ts)) /\ lists_hold (sh_out sh) ps
  | Some i => exists c, nth_error ts i = Some c /\ now_holds sh c (length (filter failed ts))
  end.

Lemma torn_app : forall a b, torn_count (a ++ b) = torn_count a + torn_count b.
Proof. intros a b. unfold torn_count. rewrite filter_app, app_length. reflexivity. Qed.
Lemma torn_one : forall p, torn_count [p] <= 1.
Proof. intro p. unfold torn_count. cbn [filter]. destruct (torn p); cbn; lia. Qed.
Lemma torn_whole : forall m v n, mutant_name true m = Some n -> torn_count [((m, v), n ++ [NL])] = 0.
Proof.
  intros m v n H. unfold torn_count, torn. cbn [filter fst snd]. rewrite H. replace (text_eqb (n ++ [NL]) (n ++ [NL])) with true.
  - rewrite andb_false_r. reflexivity.
  - symmetry. apply text_eqb_eq. reflexivity.
Qed.

Lemma hold_json : forall o ps x, lists_hold o ps -> lists_hold (dset o OUTCOMES_JSON x) ps.
Proof.
  intros o ps x H f v Hin. rewrite dget_dset_other; [auto|].
  destruct Hin as [E|[E|[E|[E|[]]]]]; injection E as <- <-; discriminate.
Qed.
Lemma hold_append : forall o ps m v f t, lists_hold o ps -> list_for v = Some f ->
  lists_hold (append_file o f t) (ps ++ [((m, v), t)]).
Proof.
  intros o ps m v f t H Hf f' v' Hin. rewrite flat_map_app. cbn [flat_map fst snd]. rewrite app_nil_r. specialize (H _ _ Hin).
  destruct (list_names _ _ Hf _ _ Hin) as [[-> E]|[Hne E]]; rewrite E.
  - apply append_same. exact H.
  - rewrite app_nil_r. rewrite append_other by assumption. exact H.
Qed.
Lemma hold_more : forall o ps m v f s t, lists_hold o (ps ++ [((m, v), s)]) -> list_for v = Some f ->
  lists_hold (append_file o f t) (ps ++ [((m, v), s ++ t)]).
Proof.
  intros o ps m v f s t H Hf f' v' Hin. specialize (H _ _ Hin). rewrite flat_map_app in *. cbn [flat_map fst snd] in *. rewrite app_nil_r in *.
  destruct (list_names _ _ Hf _ _ Hin) as [[-> E]|[Hne E]]; rewrite E in *.
  - rewrite app_assoc. apply append_same. exact H.
  - rewrite app_nil_r in *. rewrite append_other by assumption. exact H.
Qed.
Lemma hold_none : forall o ps m v t, lists_hold o ps -> list_for v = None -> lists_hold o (ps ++ [((m, v), t)]).
Proof.
  intros o ps m v t H Hf f' v' Hin. rewrite flat_map_app. cbn [flat_map fst snd]. rewrite (list_none _ Hf _ _ Hin), !app_nil_r. auto.
Qed.

Lemma hold_nothing : forall o ps m v, lists_hold o ps -> lists_hold o (ps ++ [((m, v), [])]).
Proof. intros o ps m v H f' v' Hin. rewrite flat_map_app. cbn [flat_map fst snd]. destruct (same_verdict v v'); rewrite !app_nil_r; auto. Qed.

Lemma failed_set : forall ts i c c', nth_error ts i = Some c ->
  length (filter failed (list_set ts i c')) + (if failed c then 1 else 0) = length (filter failed ts) + (if failed c' then 1 else 0).
Proof.
  intros ts i c c' H. destruct (list_split _ _ _ _ H) as (l1 & l2 & E & _ & S). rewrite S. clear S. rewrite E, !filter_app, !app_length. cbn [filter].
  destruct (failed c), (failed c'); cbn [length]; lia.
Qed.

Lemma held_le : forall o os ps k k', held o os ps k -> k <= k' -> held o os ps k'.
Proof. intros o os ps k k' (A & B & C) L. repeat split; auto. lia. Qed.
Lemma held_add : forall o o' os ps k m v t x b, held o os ps k -> verdicts [x] = [(m, v)] -> begun ((m, v), t) -> torn_count [((m, v), t)] <= b ->
  held o' (os ++ [x]) (ps ++ [((m, v), t)]) (k + b).
Proof.
  intros o o' os ps k m v t x b (A & B & C) V Bg T. split; [|split].
  - rewrite verdicts_app, V, map_app. f_equal. exact A.
  - apply Forall_app. split; [exact B|]. constructor; [exact Bg|constructor].
  - rewrite torn_app. lia.
Qed.

Lemma pieces_step : forall i sh ts c sh' c', nth_error ts i = Some c -> wstep P i sh c sh' c' ->
  mutex_ok sh ts -> wfs P ms sh ts -> pieces_inv sh ts -> pieces_inv sh' (list_set ts i c').
Proof.
  intros i sh ts c sh' c' Hn Hs [M1 M2] (_ & Hwf & _) H. pose proof (nth_error_lt _ _ _ _ Hn) as Hlt.
  pose proof (proj1 (Forall_forall _ _) Hwf c (nth_error_In _ _ Hn)) as Hwc.
  pose proof (failed_set ts i c c' Hn) as Hf. unfold pieces_inv in *.
  destruct (critical c) eqn:Ec.
  - pose proof (M1 _ _ Hn Ec) as Hm. rewrite Hm in H. destruct H as (c1 & Hc1 & H). rewrite Hn in Hc1. injection Hc1 as <-.
    assert (Hs' : sstep P i sh c sh' c') by (inversion Hs; subst; try discriminate; assumption).
    assert (Fc : failed c = false) by (destruct c; try discriminate; reflexivity). rewrite Fc, Nat.add_0_r in Hf.
    destruct Hwc as [Hin Hwc]. unfold now_holds in H.
    assert (VM : forall m done v, summary (mkOutcome (Mutant m) done) = Some v -> verdicts [mkOutcome (Mutant m) done] = [(m, v)])
      by (intros m done v Sv; unfold verdicts; cbn [flat_map oc_scenario]; rewrite Sv; reflexivity).
    assert (NM : forall m n0 s r, mutant_name true m = Some n0 -> n0 ++ [NL] = s ++ r -> forall v, begun ((m, v), s))
      by (intros m n0 s r E1 E2 v; exists n0, r; auto).
    assert (Nothing : forall d o os ps k out out', (c = WJson d o \/ c = WJson2 d o) -> held out os ps (length (filter failed ts)) -> lists_hold out' ps ->
       k = length (filter failed ts) + 1 -> exists ps', held out' (os ++ [o]) ps' k /\ lists_hold out' ps').
    { intros d o os ps k out out' Hc Hd Hl ->. assert (Hr : forall m, oc_scenario o = Mutant m -> In m ms)
        by (intros m Es; apply (Hin d); destruct Hc as [->| ->]; cbn [active]; rewrite Es; reflexivity).
      destruct (oc_scenario o) as [|m] eqn:Es.
      - exists ps. split; [|exact Hl]. destruct Hd as (A & B & C). split; [|split; [exact B|lia]]. rewrite verdicts_app. unfold verdicts at 2. cbn [flat_map]. rewrite Es, app_nil_r. exact A.
      - destruct (summary o) as [v|] eqn:Sv.
        + destruct (mutant_name true m) as [n|] eqn:En; [|exfalso; apply (Hnamed m); auto].
          exists (ps ++ [((m, v), [])]). split; [|apply hold_nothing; exact Hl]. eapply held_add with (b := 1); [exact Hd| | |apply torn_one].
          * unfold verdicts. cbn [flat_map]. rewrite Es, Sv. reflexivity.
          * apply (NM m n [] (n ++ [NL])); auto.
        + exists ps. split; [|exact Hl]. destruct Hd as (A & B & C). split; [|split; [exact B|lia]]. rewrite verdicts_app. unfold verdicts at 2. cbn [flat_map]. rewrite Es, Sv, app_nil_r. exact A. }
    destruct Hs'; try discriminate; cbn [recording] in H; cbn [failed] in Hf;
      destruct H as (os & ps & E & Hd & Hl); cbn [set_out sh_mutex sh_out sh_lab].
    + exists (WJson2 d o). rewrite nth_error_set_same by assumption. split; [reflexivity|]. unfold now_holds. cbn [recording set_out sh_lab sh_out].
      exists os, ps. split; [exact E|]. split; [eapply held_le; [exact Hd|lia]|]. apply hold_json. exact Hl.
    + rewrite E. eapply (Nothing d o); [auto|exact Hd|exact Hl|lia].
    + exists (WName d o). rewrite nth_error_set_same by assumption. split; [reflexivity|]. unfold now_holds. cbn [recording set_out sh_lab sh_out].
      exists os, ps. split; [exact E|]. split; [eapply held_le; [exact Hd|lia]|]. apply hold_json. exact Hl.
    + rewrite E. eapply (Nothing d o); [auto|exact Hd|apply hold_json; exact Hl|lia].
    + exists (WName d o). rewrite nth_error_set_same by assumption. split; [reflexivity|]. unfold now_holds. cbn [recording set_out sh_lab sh_out].
      exists os, ps. split; [exact E|]. split; [eapply held_le; [exact Hd|lia]|]. apply hold_json. exact Hl.
    + eexists. rewrite nth_error_set_same by assumption. split; [reflexivity|]. unfold now_holds. cbn [recording set_out sh_lab sh_out].
      exists os, ps. split; [exact E|]. split; [eapply held_le; [exact Hd|lia]|]. exists m, v, n.
      split; [auto|]. split; [reflexivity|]. split; [assumption|]. split; [assumption|]. apply hold_append; assumption.
    + exists (ps ++ [((m, v), p)]). split; [|apply hold_append; assumption]. rewrite E. eapply held_le; [eapply held_add with (b := 1); [exact Hd|auto| |apply torn_one]|lia].
      apply (NM m n p (r ++ [NL])); [assumption|]. subst n. rewrite <- app_assoc. reflexivity.
    + exfalso. destruct H0 as [H0|(v & f & H0 & H1 & H2)].
      * destruct (finished_summary P (Mutant m) done Hwc) as [v Hv]. congruence.
      * apply (Hnamed m); [|exact H2]. apply (Hin d). reflexivity.
    + destruct (mutant_name true m) as [n|] eqn:En; [|exfalso; apply (Hnamed m); [apply (Hin d); reflexivity|exact En]].
      exists (ps ++ [((m, v), n ++ [NL])]). split; [|apply hold_none; assumption]. rewrite E. eapply held_le; [eapply held_add with (b := 0); [exact Hd|auto| |]|lia].
      * apply (NM m n _ []); [assumption|]. symmetry. apply app_nil_r.
      * rewrite torn_whole by assumption. lia.
    + exists ps. split; [|exact Hl]. rewrite E. destruct Hd as (A & B & C). split; [|split; [exact B|lia]]. rewrite verdicts_app. cbn [verdicts flat_map oc_scenario]. rewrite app_nil_r. exact A.
    + destruct Hl as (m' & v' & n & V & Es & Ev & En & Hl). cbn [oc_scenario] in Es. injection Es as <-. rewrite H0 in Ev. injection Ev as <-.
      exists (ps ++ [((m, v), n ++ [NL])]). split; [|apply hold_more; assumption]. rewrite E. eapply held_le; [eapply held_add with (b := 0); [exact Hd|auto| |]|lia].
      * apply (NM m n _ []); [assumption|]. symmetry. apply app_nil_r.
      * rewrite torn_whole by assumption. lia.
    + destruct Hl as (m' & v' & n & V & Es & Ev & En & Hl).
      exists (ps ++ [((m', v'), n)]). split; [|exact Hl]. rewrite E. eapply held_le; [eapply held_add with (b := 1); [exact Hd|exact V| |apply torn_one]|lia].
      apply (NM m' n _ [NL]); auto.
  - assert (Fl : length (filter failed ts) <= length (filter failed (list_set ts i c'))).
    { destruct (failed c) eqn:Fc; [|destruct (failed c'); lia]. exfalso. destruct c; try discriminate; (inversion Hs as [| | | | | | |? ? ? Hs']; inversion Hs'). }
    destruct (critical c') eqn:Ec'.
    + assert (Hs' : sstep P i sh c sh' c') by (inversion Hs; subst; try discriminate; assumption).
      destruct Hs'; try discriminate. rewrite H0 in H. cbn [set_lab sh_mutex].
      eexists. rewrite nth_error_set_same by assumption. split; [reflexivity|]. unfold now_holds. cbn [recording set_lab sh_lab sh_out].
      destruct H as (ps & Hd & Hl). exists (lo_outcomes (sh_lab sh)), ps. split; [apply lab_add_outcomes; assumption|]. split; [eapply held_le; [exact Hd|exact Fl]|exact Hl].
    + destruct (wstep_quiet P _ _ _ _ _ Hs Ec Ec') as (Q1 & Q2 & Q3). rewrite Q3. destruct (sh_mutex sh) as [j|] eqn:Em.
      * destruct H as (cj & Hj & H). exists cj. split.
        -- rewrite nth_error_set_other; [exact Hj|]. intros ->. rewrite Hn in Hj. injection Hj as <-. unfold now_holds in H. destruct c; try discriminate; destruct H.
        -- unfold now_holds in *. rewrite Q1, Q2. destruct (recording cj); [|exact H]. destruct H as (os & ps & E & Hd & Hl). exists os, ps. split; [exact E|]. split; [eapply held_le; [exact Hd|exact Fl]|exact Hl].
      * rewrite Q1, Q2. destruct H as (ps & Hd & Hl). exists ps. split; [eapply held_le; [exact Hd|exact Fl]|exact Hl].
Qed.

Lemma pieces_all : forall st, reach st ->
  match ls_main st with MEnd _ => True | _ => pieces_inv (ls_sh st) (threads st) end.
Proof.
  intros st H. unfold reachable in H. remember (start_state P o0 t0 ms) as s0 eqn:E0.
  induction H as [s|s s' s'' Hs IH Hst].
  - subst s. assert (K : exists ps, held o0 [] ps 0 /\ lists_hold o0 ps).
    { exists []. split; [repeat split; constructor|]. intros f v Hin. rewrite (Hlists0 f v Hin). reflexivity. }
    destruct K as (ps & Hd & Hl). unfold start_state. destruct (pa_skip_baseline P) eqn:E; unfold threads, pieces_inv; cbn [ls_main ls_sh sh_mutex];
      exists ps; (split; [eapply held_le; [exact Hd|lia]|exact Hl]).
  - specialize (IH E0). subst s.
    pose proof (mutex_inv P o0 t0 ms s' Hs) as A. pose proof (wf_inv P o0 t0 ms s' Hs) as C.
    destruct Hst; unfold threads in *; cbn [ls_main ls_sh ls_workers] in *; auto.
    + apply (pieces_step 0 sh [c] c sh' c'); auto. constructor. assumption.
    + destruct A as [_ A]. unfold pieces_inv in *. cbn [set_dir0 sh_mutex sh_out sh_lab] in *.
      destruct (sh_mutex sh) as [j|] eqn:Em.
      * destruct IH as (cj & Hj & IH). destruct j as [|[|j]]; try discriminate. injection Hj as <-. destruct IH.
      * destruct IH as (ps & Hd & Hl). exists ps. split; [eapply held_le; [exact Hd|cbn; lia]|exact Hl].
    + eapply pieces_step; eauto.
Qed.

Lemma c11_pieces : forall st, reach st ->
  exists os last ps, lo_outcomes (sh_lab (ls_sh st)) = os ++ last /\ map fst ps = verdicts os /\ Forall begun ps
    /\ torn_count ps <= length (filter failed (threads st))
    /\ ((last = [] /\ lists_hold (sh_out (ls_sh st)) ps)
        \/ (exists o c, last = [o] /\ In c (threads st) /\ recording c = Some o
            /\ (lists_hold (sh_out (ls_sh st)) ps
                \/ exists m v n, verdicts [o] = [(m, v)] /\ mutant_name true m = Some n
                     /\ lists_hold (sh_out (ls_sh st)) (ps ++ [((m, v), n)])))).
Proof.
  assert (K : forall sh ts, pieces_inv sh ts -> exists os last ps, lo_outcomes (sh_lab sh) = os ++ last /\ map fst ps = verdicts os /\ Forall begun ps
    /\ torn_count ps <= length (filter failed ts)
    /\ ((last = [] /\ lists_hold (sh_out sh) ps)
        \/ (exists o c, last = [o] /\ In c ts /\ recording c = Some o
            /\ (lists_hold (sh_out sh) ps \/ exists m v n, verdicts [o] = [(m, v)] /\ mutant_name true m = Some n
                     /\ lists_hold (sh_out sh) (ps ++ [((m, v), n)]))))).
  { intros sh ts H. unfold pieces_inv in H. destruct (sh_mutex sh) as [i|].
    - destruct H as (c & Hc & H). apply nth_error_In in Hc. unfold now_holds in H. destruct (recording c) as [o|] eqn:R; [|destruct H].
      destruct H as (os & ps & E & (A & B & C) & Hl). exists os, [o], ps. do 4 (split; [assumption|]). right. exists o, c. do 3 (split; [assumption || reflexivity|]).
      destruct c; try discriminate; auto. destruct Hl as (m & v & n & V & _ & _ & En & Hl). right. exists m, v, n. auto.
    - destruct H as (ps & (A & B & C) & Hl). exists (lo_outcomes (sh_lab sh)), [], ps. rewrite app_nil_r. do 4 (split; [assumption || reflexivity|]). left. auto. }
  intros [sh [c| |r] ws] H.
  - exact (K sh [c] (pieces_all _ H)).
  - exact (K sh ws (pieces_all _ H)).
  - unfold threads. cbn [ls_main ls_sh ls_workers].
    assert (B : forall c, reach (mkLS sh (MBaseline c) []) -> recording c = None -> exists os last ps,
        lo_outcomes (sh_lab sh) = os ++ last /\ map fst ps = verdicts os /\ Forall begun ps
        /\ torn_count ps <= 0 /\ last = [] /\ lists_hold (sh_out sh) ps).
    { intros c H1 Rc. destruct (K sh [c] (pieces_all _ H1)) as (os & last & ps & E & A & Bg & T & D).
      destruct D as [[-> D]|(o & c1 & _ & [<-|[]] & R & _)]; [|congruence]. exists os, [], ps. do 3 (split; [assumption|]). split; [|auto].
      rewrite app_nil_r in E. destruct (base_recorded P o0 t0 ms _ _ _ H1) as (_ & Rd & _).
      assert (V : verdicts os = []).
      { rewrite <- E. unfold recorded in Rd. clear - Rd. induction (lo_outcomes (sh_lab sh)) as [|x xs IH]; [reflexivity|]. cbn [flat_map] in Rd. apply app_eq_nil in Rd. destruct Rd as [R1 R2].
        unfold verdicts. cbn [flat_map]. destruct (oc_scenario x); [|discriminate]. exact (IH R2). }
      rewrite V in A. destruct ps; [cbn; lia|discriminate]. }
    destruct (end_inv _ _ _ _ _ _ _ H) as [(d' & o' & H1 & H2 & H3 & ->)|[(H1 & H3 & ->)|[(H1 & H3 & ->)|(H1 & H2 & H3)]]].
    + destruct (B _ H1 eq_refl) as (os & last & ps & E & A & Bg & T & D). exists os, last, ps. do 3 (split; [assumption|]). split; [exact T|]. left. exact D.
    + destruct (B _ H1 eq_refl) as (os & last & ps & E & A & Bg & T & D). exists os, last, ps. do 3 (split; [assumption|]). split; [exact T|]. left. exact D.
    + destruct (B _ H1 eq_refl) as (os & last & ps & E & A & Bg & T & D). exists os, last, ps. do 3 (split; [assumption|]). split; [exact T|]. left. exact D.
    + exact (K sh ws (pieces_all _ H1)).
Qed.

Lemma hold_exact : forall o ps rs, map fst ps = rs -> torn_count ps = 0 -> Forall begun ps -> lists_hold o ps -> lists_exact o rs.
Proof.
  intros o ps rs E T B H f v Hin. rewrite (H f v Hin). do 2 f_equal. subst rs. clear H. unfold list_text.
  assert (L : listed v = true) by (unfold listed; apply existsb_exists; exists (f, v); split; [exact Hin|destruct v; reflexivity]).
  induction ps as [|[[m v'] t] ps IH]; [reflexivity|]. inversion B as [|? ? (n & r & En & Er) B']; subst. cbn [fst snd] in *.
  change (torn_count ([((m, v'), t)] ++ ps) = 0) in T. rewrite torn_app in T. cbn [map flat_map fst snd]. f_equal; [|apply IH; [lia|exact B']].
  destruct (same_verdict v' v) eqn:S; [|reflexivity]. apply same_verdict_eq in S. subst v'. rewrite En.
  unfold torn_count, torn in T. cbn [filter fst snd] in T. rewrite En, L in T. destruct (text_eqb t (n ++ [NL])) eqn:X; [apply text_eqb_eq in X; exact X|cbn in T; lia].
Qed.
Lemma torn_none : forall ts ps, torn_count ps <= length (filter failed ts) -> (forall c, In c ts -> failed c = false) -> torn_count ps = 0.
Proof.
  intros ts ps T F. enough (filter failed ts = []) as Z by (rewrite Z in T; cbn in T; lia).
  induction ts as [|c ts IH]; [reflexivity|]. cbn [filter]. rewrite (F c (or_introl eq_refl)). apply IH; [|intros x I; apply F; right; exact I].
  cbn [filter] in T. rewrite (F c (or_introl eq_refl)) in T. exact T.
Qed.
End Pieces.
