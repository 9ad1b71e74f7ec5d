(** Proofs for C71: every run has its logs, and what is in them. *)
From Coq Require Import String List NArith ZArith QArith Bool Arith Lia.
From Verif Require Import Text Utf8M SpanM PathM MutantM ProcessM OutcomeM F64M TimeoutM OutputM OptionsM PackageM CargoM JsonM
  LabM LabS LabP LaunchM LaunchS LaunchP LogM LogS LogsM LogsS LogsP.
Import ListNotations.
Open Scope list_scope.
Open Scope nat_scope.

Section Logs.
Context (P : params) (X : context) (o0 : entries) (t0 : tree) (ms : list mutant) (diff : mutant -> text).
Notation rreach := (rreachable P X ms o0 t0).
Notation reach := (reachable P o0 t0 ms).
Notation greach := (greachable P X ms diff o0 t0).
Notation cf := (conf P X ms diff).

(** Steps of a thread at [c] with its log. *)
Inductive own (c : wpc) (k : lconf) (s : lstate) : list label -> lstate -> Prop :=
| own_refl : own c k s [] s
| own_more : forall tr lb s1 s2, own c k s tr s1 -> may c (l_pc s1) = true -> lstep k s1 lb s2 -> is_child lb = false -> own c k s (tr ++ [lb]) s2.

Lemma own_trans : forall c k s tr s1 tr' s2, own c k s tr s1 -> own c k s1 tr' s2 -> own c k s (tr ++ tr') s2.
Proof.
  intros c k s tr s1 tr' s2 H H'. induction H' as [|tr' lb s2 s3 H' IH M S C]; [rewrite app_nil_r; exact H|].
  rewrite app_assoc. eapply own_more; eassumption.
Qed.
Lemma own_one : forall c k s lb s', may c (l_pc s) = true -> lstep k s lb s' -> is_child lb = false -> own c k s [lb] s'.
Proof. intros. apply (own_more c k s [] lb s s'); [constructor|assumption..]. Qed.

(** It can say what it has to say. *)
Definition says (c : wpc) : Prop := forall ps k, may c (PSay ps k) = true.
Definition at_ (s : lstate) (k : lpc) : Prop := l_pc s = k /\ l_file s <> None.
Lemma own_say : forall c k ps s q, says c -> at_ s (PSay ps q) -> exists tr s', own c k s tr s' /\ at_ s' q.
Proof.
  intros c k ps. induction ps as [|x ps IH]; intros s q Sy [A F].
  - eexists _, _. split; [apply own_one with (lb := EQuiet); [rewrite A; apply Sy|eapply l_said; exact A|reflexivity]|]. split; [reflexivity|exact F].
  - destruct (l_file s) as [f|] eqn:Ef; [|contradiction].
    assert (W : exists tr s1, own c k s tr s1 /\ at_ s1 (PSay ([] :: ps) q)).
    { destruct x as [|b x]; [exists [], s; split; [constructor|split; [exact A|congruence]]|].
      destruct (fwrite f (l_tool s) (b :: x)) as [f' h'] eqn:Ew. eexists _, _. split.
      - apply own_one with (lb := ETool (b :: x)); [rewrite A; apply Sy| |reflexivity]. eapply l_write with (y := []) (ps := ps); [rewrite app_nil_r; exact A|discriminate|exact Ef|exact Ew].
      - split; [reflexivity|discriminate]. }
    destruct W as (tr & s1 & W & [A1 F1]).
    assert (W2 : own c k s (tr ++ [EQuiet]) (set_pc s1 (PSay ps q))).
    { eapply own_more; [exact W|rewrite A1; apply Sy|apply l_piece; exact A1|reflexivity]. }
    destruct (IH (set_pc s1 (PSay ps q)) q Sy) as (tr2 & s2 & W3 & E); [split; [reflexivity|exact F1]|].
    exists ((tr ++ [EQuiet]) ++ tr2), s2. split; [eapply own_trans; eassumption|exact E].
Qed.

Lemma own_tell : forall c k t s q, says c -> at_ s (say t q) -> exists tr s', own c k s tr s' /\ at_ s' q.
Proof. intros c k t s q. apply own_say. Qed.

(** To the end of the preparations. *)
Lemma own_apply : forall d m s, at_ s PStarted -> exists tr s', own (WApply d (Mutant m)) (cf (Mutant m)) s tr s' /\ at_ s' PApply.
Proof.
  intros d m s [A F]. set (c := WApply d (Mutant m)). set (k := cf (Mutant m)).
  assert (Sy : says c) by (intros ps q; reflexivity).
  pose (s1 := set_pc s (say (tx "mutation diff:" ++ [NL] ++ lc_diff k) PDiff)).
  assert (W1 : own c k s [EQuiet] s1) by (apply own_one; [rewrite A; reflexivity|apply l_mutant with (m := m); [exact A|reflexivity]|reflexivity]).
  destruct (own_tell c k (tx "mutation diff:" ++ [NL] ++ lc_diff k) s1 PDiff Sy) as (tr & s2 & W2 & [A2 F2]); [split; [reflexivity|exact F]|].
  eexists _, _. split; [eapply own_more; [eapply own_trans; [exact W1|exact W2]|rewrite A2; reflexivity|apply l_write_diff; exact A2|reflexivity]|].
  split; [reflexivity|exact F2].
Qed.

(** Where the log is kept while the thread goes on. *)
Definition canon (c : wpc) : option lpc :=
  match c with
  | WApply _ _ => Some PStarted
  | WPhase _ _ done todo => Some (PPhases (statuses done) todo)
  | WCargo _ _ done p todo => Some (PPhases (statuses done) (p :: todo))
  | _ => None
  end.

Lemma statuses_snoc : forall done p dur e, statuses (done ++ [mkPR p dur e]) = statuses done ++ [(p, e)].
Proof. intros. unfold statuses. rewrite map_app. reflexivity. Qed.

(** A phase: its command is told, started, and ends. *)
Lemma own_spawn : forall d s done p todo st, at_ st (PPhases (statuses done) (p :: todo)) ->
  exists tr st', own (WCargo d s done p todo) (cf s) st tr st' /\ at_ st' (PSpawn (statuses done) p todo).
Proof.
  intros d s done p todo st [A F]. set (c := WCargo d s done p todo). set (k := cf s).
  assert (Sy : says c) by (intros ps q; reflexivity).
  pose (s1 := set_pc st (say (quote_argv (lc_argv k p)) (PSpawn (statuses done) p todo))).
  assert (W1 : own c k st [EQuiet] s1).
  { apply own_one; [rewrite A; cbn [may c]; unfold statuses; rewrite map_length; apply Nat.eqb_refl|apply l_phase; exact A|reflexivity]. }
  destruct (own_tell c k (quote_argv (lc_argv k p)) s1 (PSpawn (statuses done) p todo) Sy) as (tr & s2 & W2 & E); [split; [reflexivity|exact F]|].
  eexists _, s2. split; [eapply own_trans; eassumption|exact E].
Qed.
Lemma own_run : forall d s done p todo e st, at_ st (PPhases (statuses done) (p :: todo)) ->
  exists tr st', own (WCargo d s done p todo) (cf s) st tr st' /\ at_ st' (PNext (statuses done) p e todo).
Proof.
  intros d s done p todo e st H. destruct (own_spawn d s done p todo st H) as (tr1 & s1 & W1 & [A1 F1]).
  set (c := WCargo d s done p todo) in *. set (k := cf s) in *. assert (Sy : says c) by (intros ps q; reflexivity).
  assert (W2 := own_more c k st tr1 _ s1 _ W1 ltac:(rewrite A1; reflexivity) (l_spawn k s1 _ _ _ A1) eq_refl).
  match type of W2 with own _ _ _ ?t ?x => set (s2 := x) in W2; set (tr2 := t) in W2 end.
  assert (A2 : l_pc s2 = PWait (statuses done) p todo) by reflexivity.
  assert (W3 := own_more c k st tr2 _ s2 _ W2 ltac:(rewrite A2; reflexivity) (l_exit k s2 _ _ _ e A2) eq_refl).
  match type of W3 with own _ _ _ ?t ?x => set (s3 := x) in W3; set (tr3 := t) in W3 end.
  destruct (own_tell c k (tx "result: " ++ show_exit e) s3 (PNext (statuses done) p e todo) Sy) as (tr & s4 & W4 & E); [split; [reflexivity|exact F1]|].
  eexists _, s4. split; [eapply own_trans; eassumption|exact E].
Qed.

(** The log gets to where the thread wants it. *)
Lemma own_goal : forall i sh c sh' c' k q s st, wstep P i sh c sh' c' -> scen c = Some s -> goal c c' = Some k ->
  canon c = Some q -> at_ st q -> exists tr st', own c (cf s) st tr st' /\ at_ st' k.
Proof.
  intros i sh c sh' c' k q s st H Sc G C A. destruct H; try discriminate.
  destruct H; cbn [goal canon scen] in *; try discriminate; injection C as <-; injection G as <-; injection Sc as <-;
    try (rewrite statuses_snoc).
  - destruct s0 as [|m]; [discriminate|]. destruct (own_apply d m st A) as (tr & s1 & W & [A1 F1]). eexists _, _.
    split; [eapply own_more; [exact W|rewrite A1; reflexivity|apply l_apply_err; exact A1|reflexivity]|split; [reflexivity|exact F1]].
  - destruct (own_apply d m st A) as (tr & s1 & W & [A1 F1]). eexists _, _.
    split; [eapply own_more; [exact W|rewrite A1; reflexivity|apply l_apply; exact A1|reflexivity]|split; [reflexivity|exact F1]].
  - destruct (own_apply d m st A) as (tr & s1 & W & [A1 F1]). eexists _, _.
    split; [eapply own_more; [exact W|rewrite A1; reflexivity|apply l_apply_err; exact A1|reflexivity]|split; [reflexivity|exact F1]].
  - destruct (own_apply d m st A) as (tr & s1 & W & [A1 F1]). eexists _, _.
    split; [eapply own_more; [exact W|rewrite A1; reflexivity|apply l_apply_err; exact A1|reflexivity]|split; [reflexivity|exact F1]].
  - destruct A as [A F]. eexists _, _. split; [apply own_one with (lb := EQuiet); [rewrite A; reflexivity|apply l_baseline; [exact A|reflexivity]|reflexivity]|split; [reflexivity|exact F]].
  - exists [], st. split; [constructor|exact A].
  - destruct A as [A F]. eexists _, _. split; [apply own_one with (lb := EQuiet); [rewrite A; reflexivity|apply l_phases_end; exact A|reflexivity]|split; [reflexivity|exact F]].
  - destruct (own_run d s0 done p todo e st A) as (tr & s1 & W & [A1 F1]). eexists _, _.
    split; [eapply own_more; [exact W|rewrite A1; reflexivity|eapply l_next; [exact A1|assumption]|reflexivity]|split; [reflexivity|exact F1]].
  - destruct (own_run d s0 done p todo e st A) as (tr & s1 & W & [A1 F1]). eexists _, _.
    split; [eapply own_more; [exact W|rewrite A1; reflexivity|eapply l_break; [exact A1|assumption]|reflexivity]|split; [reflexivity|exact F1]].
  - destruct (own_spawn d s0 done p todo st A) as (tr & s1 & W & [A1 F1]). eexists _, _.
    split; [eapply own_more; [exact W|rewrite A1; reflexivity|eapply l_spawn_err; exact A1|reflexivity]|split; [reflexivity|exact F1]].
Qed.

(** A log begins. *)
Lemma begin_ok : forall s name, scenario_text s = Some name -> exists tr l, lruns (cf s) lstart tr l /\ at_ l PStarted.
Proof.
  intros s name N. pose (s1 := mkL (Some []) None tool_handle [] PHead). pose (s2 := set_pc s1 (say name PStarted)).
  assert (R : lruns (cf s) lstart ([] ++ [EQuiet]) s1) by (eapply lr_more; [constructor|apply l_open; reflexivity]).
  assert (R2 : lruns (cf s) lstart (([] ++ [EQuiet]) ++ [EQuiet]) s2) by (eapply lr_more; [exact R|apply l_head; [reflexivity|exact N]]).
  destruct (own_tell (WApply 0 Baseline) (cf s) name s2 PStarted) as (tr & l & W & E); [intros ps q; reflexivity|split; [reflexivity|discriminate]|].
  assert (K : forall tr l, own (WApply 0 Baseline) (cf s) s2 tr l -> lruns (cf s) lstart ((([] ++ [EQuiet]) ++ [EQuiet]) ++ tr) l).
  { clear - R2. intros tr l W. induction W as [|tr lb a b W IH _ S _]; [rewrite app_nil_r; exact R2|]. rewrite app_assoc. eapply lr_more; eassumption. }
  exists ((([] ++ [EQuiet]) ++ [EQuiet]) ++ tr), l. split; [apply K; exact W|exact E].
Qed.
Lemma begin_err : forall s name, pa_faults P = true -> scenario_text s = Some name -> exists tr l, lruns (cf s) lstart tr l /\ l_pc l = PEnd None /\ l_file l <> None.
Proof.
  intros s name F N. destruct (begin_ok s name N) as (tr & l & R & [A B]). exists (tr ++ [EQuiet]), (set_pc l (PEnd None)).
  split; [eapply lr_more; [exact R|apply l_started_err; [exact A|exact F]]|]. split; [reflexivity|exact B].
Qed.

(** The steps of a thread with its log, as steps of the whole. *)
Lemma own_steps : forall r logs cur named i c j g tr l, at_pc (rs_lab r) i c -> cur i = Some j -> nth_error logs j = Some g ->
  own c (cf (gl_scenario g)) (gl_state g) tr l ->
  gsteps P X ms diff (mkG r logs cur named)
    (mkG r (list_set logs j (mkGL (gl_name g) (gl_scenario g) (gl_trace g ++ tr) l)) cur named).
Proof.
  intros r logs cur named i c j g tr l A C N W.
  assert (L : j < length logs) by (apply nth_error_Some; congruence).
  assert (Same : forall (x y : glog) ls, list_set (list_set ls j x) j y = list_set ls j y).
  { clear. induction j as [|j IH]; intros x y [|z ls]; cbn; try reflexivity. rewrite IH. reflexivity. }
  induction W as [|tr lb s1 s2 W IH M S Ch].
  - rewrite app_nil_r. replace (list_set logs j _) with logs; [constructor|]. clear - N. destruct g as [a b x y]. cbn. revert j N.
    induction logs as [|z logs IH]; intros [|j] N; cbn in *; try discriminate; [congruence|]. rewrite <- (IH j N). reflexivity.
  - eapply gsteps_more; [exact IH|]. rewrite app_assoc.
    pose (g1 := mkGL (gl_name g) (gl_scenario g) (gl_trace g ++ tr) s1).
    pose proof (g_write P X ms diff r (list_set logs j g1) cur named i c j g1 lb s2 A C (nth_error_set_same _ _ _ _ L) M S Ch) as Q.
    rewrite Same in Q. exact Q.
Qed.

Lemma gsteps_trans : forall a b c, gsteps P X ms diff a b -> gsteps P X ms diff b c -> gsteps P X ms diff a c.
Proof. intros a b c H H'. revert H. induction H' as [x|x y z H' IH S]; intro H; [exact H|]. eapply gsteps_more; [exact (IH H)|exact S]. Qed.

Definition calm (g : gstate) : Prop := forall i c q, at_pc (rs_lab (g_run g)) i c -> canon c = Some q ->
  exists j l, g_cur g i = Some j /\ nth_error (g_logs g) j = Some l /\ at_ (gl_state l) q.

Lemma wstep_logs' : forall i sh c sh' c', wstep P i sh c sh' c' ->
  sh_logs sh' = sh_logs sh
  \/ exists n d s, sh_logs sh' = sh_logs sh ++ [n] /\ c = WStart d s /\ (c' = WApply d s \/ c' = WEnd false /\ pa_faults P = true).
Proof. intros i sh c sh' c' H. destruct H; auto. destruct H; auto; right; exists n, d, s; auto. Qed.
Lemma wstep_differs : forall i sh c sh' c', wstep P i sh c sh' c' -> c <> c'.
Proof. intros i sh c sh' c' H. destruct H; try discriminate. destruct H; discriminate. Qed.
Lemma canon_goal : forall i sh c sh' c' q, wstep P i sh c sh' c' -> sh_logs sh' = sh_logs sh -> canon c' = Some q -> goal c c' = Some q.
Proof.
  intros i sh c sh' c' q H L E. destruct H; try discriminate. destruct H; try discriminate; try exact E.
  exfalso. cbn in L. apply (f_equal (@length text)) in L. rewrite app_length in L. cbn in L. lia.
Qed.
Lemma goal_canon : forall i sh c sh' c' k, wstep P i sh c sh' c' -> goal c c' = Some k -> exists q s, canon c = Some q /\ scen c = Some s.
Proof. intros i sh c sh' c' k H E. destruct H; try discriminate. destruct H; try discriminate; cbn; eauto. Qed.
Lemma canon_scen : forall c q, canon c = Some q -> scen c <> None.
Proof. intros [] q; cbn; discriminate. Qed.

Lemma lift_step : (forall m, In m ms -> mutant_name true m <> None) -> forall g r', greach g -> calm g -> rstep P X ms (g_run g) r' ->
  exists g', greach g' /\ g_run g' = r' /\ calm g'.
Proof.
  intros Hn g r' H Ca S. pose proof (gproj _ _ _ _ _ _ _ H) as R. pose proof (inv_all _ _ _ _ _ _ _ H) as I.
  destruct g as [r logs cur named]. cbn [g_run] in *.
  destruct (rstep_class _ _ _ _ _ _ _ R S) as [(i & c & c' & T)|M].
  - pose proof T as (A & B & W & O & Mc). assert (Mv : moves r r' i c c') by (split; [exact A|split; [exact B|exact (wstep_differs _ _ _ _ _ W)]]).
    destruct (wstep_logs' _ _ _ _ _ W) as [L|(n & d & s & L & Ec & Ec')].
    + destruct (is_add c c') eqn:Ad.
      * destruct (wstep_lab _ _ _ _ _ _ W) as [[E _]|(_ & d & s & done & E1 & E2 & _)]; [congruence|]. subst c c'.
        destruct (inv_held _ _ _ _ _ I i _ A s eq_refl) as (j & l & K1 & K2 & _). cbn [g_cur g_logs] in *.
        exists (mkG r' logs cur (named ++ [j])). split; [eapply gsteps_more; [exact H|eapply g_add; eassumption]|]. split; [reflexivity|].
        intros i' x q Hx Eq. cbn [g_run g_cur g_logs] in *. destruct (Nat.eq_dec i' i) as [->|N].
        -- rewrite (at_fun _ _ _ _ Hx B) in Eq. discriminate.
        -- apply O in Hx; [|exact N]. exact (Ca i' x q Hx Eq).
      * destruct (goal c c') as [k|] eqn:Eg.
        -- destruct (goal_canon _ _ _ _ _ _ W Eg) as (q & s & Eq & Es). destruct (inv_held _ _ _ _ _ I i c A s Es) as (j & l & K1 & K2 & K3 & _).
           destruct (Ca i c q A Eq) as (j' & l' & K1' & K2' & K4). cbn [g_cur g_logs] in *.
           rewrite K1 in K1'. injection K1' as <-. rewrite K2 in K2'. injection K2' as <-.
           destruct (own_goal _ _ _ _ _ k q s (gl_state l) W Es Eg Eq K4) as (tr & l2 & Ow & [E2 F2]). rewrite <- K3 in Ow.
           assert (Lj : j < length logs) by (apply nth_error_Some; congruence).
           set (x := mkGL (gl_name l) (gl_scenario l) (gl_trace l ++ tr) l2).
           exists (mkG r' (list_set logs j x) cur named). split; [|split; [reflexivity|]].
           ++ eapply gsteps_more; [eapply gsteps_trans; [exact H|eapply own_steps; eassumption]|].
              eapply g_thread; [exact S|exact Mv|exact L|exact Ad|]. intros k' Ek. rewrite Eg in Ek. injection Ek as <-.
              exists j, x. split; [exact K1|]. split; [apply nth_error_set_same; exact Lj|exact E2].
           ++ intros i' y q' Hy Ey. cbn [g_run g_cur g_logs] in *. destruct (Nat.eq_dec i' i) as [->|N].
              ** pose proof (at_fun _ _ _ _ Hy B) as ->. rewrite (canon_goal _ _ _ _ _ _ W L Ey) in Eg. injection Eg as ->.
                 exists j, x. split; [exact K1|]. split; [apply nth_error_set_same; exact Lj|]. split; assumption.
              ** apply O in Hy; [|exact N]. destruct (Ca i' y q' Hy Ey) as (j' & l' & Q1 & Q2 & Q3). cbn [g_cur g_logs] in *.
                 exists j', l'. split; [exact Q1|]. split; [|exact Q3]. rewrite nth_error_set_other; [exact Q2|]. intro Ej.
                 eapply (inv_apart _ _ _ _ _ I i i' c y j); cbn [g_run g_cur]; [congruence|exact A|exact Hy|congruence|eapply canon_scen; exact Ey|exact K1|congruence].
        -- exists (mkG r' logs cur named). split; [|split; [reflexivity|]].
           ++ eapply gsteps_more; [exact H|]. eapply g_thread; [exact S|exact Mv|exact L|exact Ad|]. intros k' Ek. congruence.
           ++ intros i' y q' Hy Ey. cbn [g_run g_cur g_logs] in *. destruct (Nat.eq_dec i' i) as [->|N].
              ** pose proof (at_fun _ _ _ _ Hy B) as ->. rewrite (canon_goal _ _ _ _ _ _ W L Ey) in Eg. discriminate.
              ** apply O in Hy; [|exact N]. exact (Ca i' y q' Hy Ey).
    + subst c. assert (Ns : exists name, scenario_text s = Some name).
      { destruct s as [|m]; [eexists; reflexivity|]. cbn [scenario_text]. destruct (mutant_name true m) as [t|] eqn:E; [eauto|]. exfalso. apply (Hn m); [|exact E].
        destruct (at_pc_threads _ _ _ A) as (Hin & Hne & _).
        destruct (project _ _ _ _ _ r R) as [Hr|(sh & d0 & o & E0 & _)]; [|rewrite E0 in Hne; exfalso; eapply Hne; reflexivity].
        pose proof (wf_inv _ _ _ _ _ Hr) as Wf. destruct (ls_main (rs_lab r)) as [x| |x] eqn:Em; [| |exfalso; eapply Hne; reflexivity];
          destruct Wf as (_ & Wf & _); rewrite Forall_forall in Wf; destruct (Wf _ Hin) as [Wm _]; eapply Wm; reflexivity. }
      destruct Ns as [name Ns].
      assert (Q : forall x, exists g', g' = mkG r' (logs ++ [x]) (upd cur i (Some (length logs))) named /\
        (at_ (gl_state x) PStarted \/ c' = WEnd false -> calm g')).
      { intro x. eexists. split; [reflexivity|]. intros Hx i' y q' Hy Ey. cbn [g_run g_cur g_logs] in *. unfold upd. destruct (Nat.eqb_spec i' i) as [->|N].
        - pose proof (at_fun _ _ _ _ Hy B) as ->. exists (length logs), x. split; [reflexivity|]. split; [rewrite nth_error_app2 by lia; rewrite Nat.sub_diag; reflexivity|].
          destruct Hx as [Hx| ->]; [|discriminate]. destruct Ec' as [->|[-> _]]; [|discriminate]. injection Ey as <-. exact Hx.
        - apply O in Hy; [|exact N]. destruct (Ca i' y q' Hy Ey) as (j & l & Q1 & Q2 & Q3). cbn [g_cur g_logs] in *. exists j, l. split; [exact Q1|].
          split; [|exact Q3]. rewrite nth_error_app1; [exact Q2|]. apply nth_error_Some. congruence. }
      destruct Ec' as [->|[-> Fa]].
      * destruct (begin_ok s name Ns) as (tr & l & Rl & [El Fl]). destruct (Q (mkGL n s tr l)) as (g' & -> & Cg).
        eexists. split; [|split; [|apply Cg; left; split; [exact El|exact Fl]]]; [|reflexivity].
        eapply gsteps_more; [exact H|]. eapply g_begin; eassumption.
      * destruct (begin_err s name Fa Ns) as (tr & l & Rl & El & Fl). destruct (Q (mkGL n s tr l)) as (g' & -> & Cg).
        eexists. split; [|split; [|apply Cg; right; reflexivity]]; [|reflexivity].
        eapply gsteps_more; [exact H|]. eapply g_begin_err; eassumption.
  - exists (mkG r' logs cur named). split; [|split; [reflexivity|]].
    + eapply gsteps_more; [exact H|]. apply g_main; [exact S|]. unfold main_goes. destruct M as (_ & _ & [(d & o & E & E' & _)|(x & E & _)]).
      * rewrite E, E'. exact Logic.I.
      * rewrite E. destruct (ls_main (rs_lab r)); exact Logic.I.
    + intros i c q A E. cbn [g_run] in *. exfalso. destruct M as (_ & _ & [(d & o & _ & E' & Ew)|(x & E' & _)]); unfold at_pc in A; rewrite E' in A; [|destruct A].
      rewrite Ew in A. unfold spawn in A. apply nth_error_In, repeat_spec in A. subst c. discriminate.
Qed.

Lemma lift : (forall m, In m ms -> mutant_name true m <> None) -> forall r, rreach r -> exists g, greach g /\ g_run g = r /\ calm g.
Proof.
  intros Hn r H. unfold rreachable in H. remember (rstart P X ms o0 t0) as r0 eqn:E. induction H as [r|r r' r'' H IH S].
  - subst r. exists (gstart P X ms o0 t0). split; [constructor|]. split; [reflexivity|].
    intros i c q A Eq. exfalso. unfold gstart, rstart, start_state in A. cbn [rs_lab g_run] in A. destruct (pa_skip_baseline P); cbn in A.
    + unfold spawn in A. apply nth_error_In, repeat_spec in A. subst c. discriminate.
    + destruct A as [_ ->]. discriminate.
  - destruct (IH E) as (g & G1 & G2 & G3). subst r'. exact (lift_step Hn g r'' G1 G3 S).
Qed.
End Logs.
