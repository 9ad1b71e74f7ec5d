(** Proofs for C71: every outcome has its log. *)
From Coq Require Import String List NArith ZArith QArith Bool Arith Lia.
From Verif Require Import Text Utf8M SpanM PathM MutantM ProcessM OutcomeM F64M TimeoutM OutputM OptionsM PackageM CargoM JsonM
  LabM LabS LabP LaunchM LaunchS LaunchP LogM LogS LogsM LogsS.
Import ListNotations.
Open Scope list_scope.
Open Scope nat_scope.

Lemma at_fun : forall st i c c', at_pc st i c -> at_pc st i c' -> c = c'.
Proof. intros [sh [x| |x] ws] i c c'; cbn; [intros [_ ->] [_ ->]; reflexivity|congruence|intros []]. Qed.

Lemma nodup_snoc : forall A (l : list A) x, NoDup l -> ~ In x l -> NoDup (l ++ [x]).
Proof.
  intros A l x H N. apply NoDup_Add with (a := x) (l := l); [|split; assumption].
  rewrite <- (app_nil_r l) at 1. apply Add_app.
Qed.

(** The scenario that a thread has a log for. *)
Definition scen (c : wpc) : option (scenario mutant) :=
  match c with
  | WApply _ s | WPhase _ s _ _ | WCargo _ s _ _ _ | WRevert _ s _ | WRevertErr _ s | WAdd _ s _ => Some s
  | _ => None
  end.
(** Where the log of a thread is. *)
Definition stage (c : wpc) (k : lpc) : Prop :=
  match c with
  | WPhase _ _ done todo => k = PPhases (statuses done) todo \/ todo = [] /\ k = PEnd (Some (statuses done))
  | WRevert _ _ done | WAdd _ _ done => k = PEnd (Some (statuses done))
  | _ => True
  end.
Definition dead (c : wpc) : Prop := c = WEnd false \/ c = WPanic.

Lemma may_scen : forall c k, may c k = true -> scen c <> None.
Proof. intros [] k; cbn; discriminate. Qed.

Section Logs.
Context (P : params) (X : context) (o0 : entries) (t0 : tree) (ms : list mutant) (diff : mutant -> text).
Notation rreach := (rreachable P X ms o0 t0).
Notation reach := (reachable P o0 t0 ms).
Notation greach := (greachable P X ms diff o0 t0).
Notation cf := (conf P X ms diff).

Lemma gproj : forall g, greach g -> rreach (g_run g).
Proof.
  intros g H. unfold greachable in H. remember (gstart P X ms o0 t0) as g0 eqn:E. induction H as [g|g g' g'' H IH S].
  - subst g. apply rsteps_refl.
  - specialize (IH E). subst g. destruct S; cbn [g_run] in *; try exact IH; (eapply rsteps_more; [exact IH|assumption]).
Qed.

(** A step of the run is one of a thread, or the main thread goes on. *)
Definition one_thread (st st' : state) (i : nat) (c c' : wpc) : Prop :=
  at_pc st i c /\ at_pc st' i c' /\ wstep P i (ls_sh st) c (ls_sh st') c'
  /\ (forall j x, j <> i -> at_pc st' j x <-> at_pc st j x)
  /\ match ls_main st, ls_main st' with MBaseline _, MBaseline _ | MWork, MWork => True | _, _ => False end.
Definition main_only (st st' : state) : Prop :=
  sh_logs (ls_sh st') = sh_logs (ls_sh st) /\ sh_lab (ls_sh st') = sh_lab (ls_sh st)
  /\ ((exists d o, ls_main st = MBaseline (WFin d o)
         /\ ls_main st' = MWork /\ ls_workers st' = spawn (n_threads (pa_jobs P) (length ms)))
      \/ exists x, ls_main st' = MEnd x /\ forall l, x = ROk l ->
           (exists d o, ls_main st = MBaseline (WFin d o)) \/ ls_main st = MWork /\ Forall (fun c => c = WEnd true) (ls_workers st)).

Lemma step_class : forall st st', step P (length ms) st st' -> (exists i c c', one_thread st st' i c c') \/ main_only st st'.
Proof.
  intros st st' H. destruct H as [sh c sh' c' Hs|sh d o Ho|sh d o Ho|sh|sh|sh ws i c sh' c' Hn Hs|sh ws He].
  - left. exists 0, c, c'. split; [split; reflexivity|]. split; [split; reflexivity|]. split; [apply ws_scenario; exact Hs|]. split; [|exact I].
    intros j x N. cbn. split; intros [E _]; congruence.
  - right. split; [reflexivity|]. split; [reflexivity|]. left. eexists _, _. split; [reflexivity|]. split; reflexivity.
  - right. split; [reflexivity|]. split; [reflexivity|]. right. eexists. split; [reflexivity|]. intros l _. left. eexists _, _. reflexivity.
  - right. split; [reflexivity|]. split; [reflexivity|]. right. eexists. split; [reflexivity|]. discriminate.
  - right. split; [reflexivity|]. split; [reflexivity|]. right. eexists. split; [reflexivity|]. discriminate.
  - left. assert (L : i < length ws) by (apply nth_error_Some; congruence). exists i, c, c'. split; [exact Hn|]. split; [apply nth_error_set_same; exact L|].
    split; [exact Hs|]. split; [|exact I]. intros j x N. cbn. rewrite nth_error_set_other by congruence. reflexivity.
  - right. split; [reflexivity|]. split; [reflexivity|]. right. eexists. split; [reflexivity|]. intros l E. right. split; [reflexivity|].
    cbn [ls_workers]. unfold join_threads in E. destruct (existsb is_panic ws) eqn:E1; [discriminate|]. destruct (existsb is_err ws) eqn:E2; [discriminate|].
    apply Forall_forall. intros c Hc. rewrite forallb_forall in He. specialize (He c Hc).
    assert (N1 : is_panic c = false) by (destruct (is_panic c) eqn:K; [|reflexivity]; rewrite <- E1; symmetry; apply existsb_exists; eauto).
    assert (N2 : is_err c = false) by (destruct (is_err c) eqn:K; [|reflexivity]; rewrite <- E2; symmetry; apply existsb_exists; eauto).
    destruct c; try discriminate. destruct ok; [reflexivity|discriminate].
Qed.

Lemma rstep_class : forall r r', rreach r -> rstep P X ms r r' ->
  (exists i c c', one_thread (rs_lab r) (rs_lab r') i c c') \/ main_only (rs_lab r) (rs_lab r').
Proof.
  intros r r' H S. destruct (project _ _ _ _ _ r H) as [Hr|(sh0 & d0 & o1 & E & _)].
  - destruct S as [st lim log i d s done p todo polls r t Hp Hg Ht|sh d o lim log t Ho Hm|sh d o lim log Ho Hm|st st' lim log Hst Hc Hb]; cbn [rs_lab] in *.
    + apply step_class. eapply cargo_step; eassumption.
    + apply step_class. apply st_baseline_ok with (o := o). exact Ho.
    + right. split; [reflexivity|]. split; [reflexivity|]. right. eexists. split; [reflexivity|]. discriminate.
    + apply step_class. exact Hst.
  - exfalso. destruct S as [st lim log i d s done p todo polls r t Hp Hg Ht|sh d o lim log t Ho Hm|sh d o lim log Ho Hm|st st' lim log Hst Hc Hb]; cbn [rs_lab] in *.
    + subst st. destruct Hp.
    + discriminate E.
    + discriminate E.
    + subst st. exact (no_step_end _ _ _ _ _ _ Hst).
Qed.

Lemma moves_class : forall r r' i c c', rreach r -> rstep P X ms r r' -> moves r r' i c c' ->
  one_thread (rs_lab r) (rs_lab r') i c c' \/ main_only (rs_lab r) (rs_lab r') /\ exists d o, c = WFin d o.
Proof.
  intros r r' i c c' H S (A & B & N). destruct (rstep_class r r' H S) as [(i0 & x & x' & T)|M].
  - left. destruct (Nat.eq_dec i i0) as [->|D].
    + pose proof T as (A' & B' & _). rewrite (at_fun _ _ _ _ A A'), (at_fun _ _ _ _ B B'). exact T.
    + exfalso. destruct T as (_ & _ & _ & O & _). apply O in B; [|exact D]. exact (N (at_fun _ _ _ _ A B)).
  - right. split; [exact M|]. destruct M as (_ & _ & [(d & o & E & _)|(x & E & _)]).
    + unfold at_pc in A. rewrite E in A. destruct A as [_ ->]. eauto.
    + unfold at_pc in B. rewrite E in B. destruct B.
Qed.

(** What a step does to the names of logs. *)
Lemma wstep_logs : forall i sh c sh' c', wstep P i sh c sh' c' ->
  sh_logs sh' = sh_logs sh
  \/ exists n, sh_logs sh' = sh_logs sh ++ [n] /\ ~ In n (sh_logs sh) /\ exists d s, c = WStart d s /\ (c' = WApply d s \/ c' = WEnd false).
Proof.
  intros i sh c sh' c' H. destruct H; auto. destruct H; auto; right; exists n; (split; [reflexivity|]); (split; [assumption|]); eauto.
Qed.
Lemma wstep_lab : forall i sh c sh' c', wstep P i sh c sh' c' ->
  (is_add c c' = false /\ sh_lab sh' = sh_lab sh)
  \/ (is_add c c' = true /\ exists d s done, c = WAdd d s done /\ c' = WJson d (mkOutcome s done)
        /\ lo_outcomes (sh_lab sh') = lo_outcomes (sh_lab sh) ++ [mkOutcome s done]).
Proof.
  intros i sh c sh' c' H. destruct H; auto. destruct H; auto.
  right. split; [reflexivity|]. exists d, s, done. repeat split. apply lab_add_outcomes. assumption.
Qed.

(** Where a thread with a log comes from. *)
Lemma wstep_scen : forall i sh c sh' c' s, wstep P i sh c sh' c' -> sh_logs sh' = sh_logs sh -> scen c' = Some s -> scen c = Some s.
Proof.
  intros i sh c sh' c' s H L E. destruct H; try discriminate. destruct H; try discriminate; try exact E.
  exfalso. cbn in L. apply (f_equal (@length text)) in L. rewrite app_length in L. cbn in L. lia.
Qed.
Lemma wstep_stage : forall i sh c sh' c' k, wstep P i sh c sh' c' -> stage c k -> (forall k', goal c c' = Some k' -> k = k') -> stage c' k.
Proof.
  intros i sh c sh' c' k H S G. destruct H; try exact I. destruct H; try exact I; cbn [stage goal] in *; auto; apply G; reflexivity.
Qed.
Lemma wstep_on : forall i sh c sh' c', wstep P i sh c sh' c' -> is_add c c' = false -> scen c <> None -> scen c' <> None \/ dead c'.
Proof.
  intros i sh c sh' c' H A N. destruct H; try (exfalso; apply N; reflexivity). unfold dead.
  destruct H; cbn in *; auto; try (left; discriminate); try (exfalso; apply N; reflexivity).
Qed.
Lemma dead_stays : forall i sh c sh' c', wstep P i sh c sh' c' -> ~ dead c.
Proof. intros i sh c sh' c' H [E|E]; subst c; inversion H; subst; match goal with S : sstep _ _ _ _ _ _ |- _ => inversion S end. Qed.

Definition recorded (logs : list glog) (o : outcome mutant) (k : nat) : Prop :=
  exists g, nth_error logs k = Some g /\ gl_scenario g = oc_scenario o /\ l_pc (gl_state g) = PEnd (Some (statuses (oc_results o))).
Definition held (g : gstate) (i : nat) (c : wpc) : Prop :=
  forall s, scen c = Some s -> exists j l, g_cur g i = Some j /\ nth_error (g_logs g) j = Some l /\ gl_scenario l = s
    /\ ~ In j (g_named g) /\ stage c (l_pc (gl_state l)).
Definition accounted (g : gstate) (k : nat) : Prop :=
  In k (g_named g) \/ exists i c, at_pc (rs_lab (g_run g)) i c /\ g_cur g i = Some k /\ (scen c <> None \/ dead c).

Record inv (g : gstate) : Prop := mkInv {
  inv_names : map gl_name (g_logs g) = logs_of (g_run g);
  inv_nodup : NoDup (logs_of (g_run g));
  inv_runs : Forall (fun l => lruns (cf (gl_scenario l)) lstart (gl_trace l) (gl_state l)) (g_logs g);
  inv_rec : Forall2 (recorded (g_logs g)) (outcomes_of (g_run g)) (g_named g);
  inv_once : NoDup (g_named g);
  inv_held : forall i c, at_pc (rs_lab (g_run g)) i c -> held g i c;
  inv_apart : forall i i' c c' j, i <> i' -> at_pc (rs_lab (g_run g)) i c -> at_pc (rs_lab (g_run g)) i' c' ->
    scen c <> None -> scen c' <> None -> g_cur g i = Some j -> g_cur g i' <> Some j;
  inv_full : match ls_main (rs_lab (g_run g)) with
    | MEnd (ROk _) => forall k, k < length (g_logs g) -> In k (g_named g)
    | MEnd _ => True
    | _ => forall k, k < length (g_logs g) -> accounted g k
    end }.

Lemma rec_more : forall logs x o k, recorded logs o k -> recorded (logs ++ [x]) o k.
Proof. intros logs x o k (g & A & B). exists g. split; [|exact B]. rewrite nth_error_app1; [exact A|]. apply nth_error_Some. congruence. Qed.
Lemma rec_len : forall logs os ks k, Forall2 (recorded logs) os ks -> In k ks -> k < length logs.
Proof.
  intros logs os ks k F I. induction F as [|o k' os ks (g & A & _) F IH]; [destruct I|]. destruct I as [->|I]; [|auto].
  apply nth_error_Some. congruence.
Qed.

Lemma inv_start : inv (gstart P X ms o0 t0).
Proof.
  constructor; cbn [g_run g_logs g_cur g_named gstart length map].
  - reflexivity.
  - constructor.
  - constructor.
  - constructor.
  - constructor.
  - intros i c A s E. exfalso. unfold rstart, start_state in A. cbn [rs_lab] in A. destruct (pa_skip_baseline P); cbn in A.
    + unfold spawn in A. apply nth_error_In, repeat_spec in A. subst c. discriminate.
    + destruct A as [_ ->]. discriminate.
  - discriminate.
  - unfold rstart, start_state. cbn [rs_lab ls_main]. destruct (pa_skip_baseline P); intros k L; lia.
Qed.

(** A new log. *)
Lemma inv_begin : forall r r' logs cur named i d s n tr l c', inv (mkG r logs cur named) ->
  one_thread (rs_lab r) (rs_lab r') i (WStart d s) c' -> c' = WApply d s \/ c' = WEnd false -> logs_of r' = logs_of r ++ [n] ->
  lruns (cf s) lstart tr l -> inv (mkG r' (logs ++ [mkGL n s tr l]) (upd cur i (Some (length logs))) named).
Proof.
  intros r r' logs cur named i d s n tr l c' I (A & B & W & O & M) C L R.
  destruct I as [In1 In2 In3 In4 In5 In6 In7 In8]. cbn [g_run g_logs g_cur g_named] in *.
  assert (Lb : outcomes_of r' = outcomes_of r).
  { unfold outcomes_of. destruct (wstep_lab _ _ _ _ _ W) as [[_ ->]|(_ & d' & s' & dn & E & _)]; [reflexivity|discriminate E]. }
  assert (New : ~ In n (logs_of r)).
  { destruct (wstep_logs _ _ _ _ _ W) as [E|(n' & E & N & _)]; unfold logs_of in *; rewrite L in E.
    - apply (f_equal (@length text)) in E. rewrite app_length in E. cbn in E. lia.
    - apply app_inj_tail in E. destruct E as [_ ->]. exact N. }
  assert (U : forall j, j <> i -> upd cur i (Some (length logs)) j = cur j) by (intros j N; unfold upd; apply Nat.eqb_neq in N; rewrite N; reflexivity).
  assert (Us : upd cur i (Some (length logs)) i = Some (length logs)) by (unfold upd; rewrite Nat.eqb_refl; reflexivity).
  assert (Old : forall j x k, j <> i -> at_pc (rs_lab r') j x -> scen x <> None -> cur j = Some k -> k < length logs).
  { intros j x k N Hj Hs Hc. apply O in Hj; [|exact N]. destruct (scen x) as [s'|] eqn:E; [|congruence].
    destruct (In6 j x Hj s' E) as (k' & g & K1 & K2 & _). cbn [g_cur g_logs] in *. rewrite Hc in K1. injection K1 as <-.
    apply nth_error_Some. congruence. }
  constructor; cbn [g_run g_logs g_cur g_named].
  - rewrite map_app, In1, L. reflexivity.
  - rewrite L. apply nodup_snoc; assumption.
  - apply Forall_app. split; [exact In3|]. constructor; [exact R|constructor].
  - rewrite Lb. clear - In4. induction In4; constructor; [apply rec_more|]; assumption.
  - exact In5.
  - intros j x Hj s' E. destruct (Nat.eq_dec j i) as [->|N].
    + rewrite (at_fun _ _ _ _ Hj B) in *. cbn [g_cur g_logs g_named]. exists (length logs), (mkGL n s tr l). split; [exact Us|].
      split; [rewrite nth_error_app2 by lia; rewrite Nat.sub_diag; reflexivity|].
      destruct C as [->| ->]; [|discriminate]. injection E as <-. split; [reflexivity|].
      split; [|exact I]. intro K. pose proof (rec_len _ _ _ _ In4 K). lia.
    + apply O in Hj; [|exact N]. destruct (In6 j x Hj s' E) as (k & g & K1 & K2 & K3). cbn [g_cur g_logs g_named] in *.
      exists k, g. rewrite (U j N). split; [exact K1|]. split; [|exact K3]. rewrite nth_error_app1; [exact K2|]. apply nth_error_Some. congruence.
  - intros i1 i2 c1 c2 j N H1 H2 S1 S2 C1 C2. destruct (Nat.eq_dec i1 i) as [->|N1].
    + rewrite Us in C1. injection C1 as <-. rewrite U in C2 by congruence. assert (N2 : i2 <> i) by congruence. pose proof (Old i2 c2 _ N2 H2 S2 C2). lia.
    + rewrite U in C1 by exact N1. destruct (Nat.eq_dec i2 i) as [->|N2].
      * rewrite Us in C2. injection C2 as <-. pose proof (Old i1 c1 _ N1 H1 S1 C1). lia.
      * rewrite U in C2 by exact N2. apply O in H1; [|exact N1]. apply O in H2; [|exact N2]. exact (In7 i1 i2 c1 c2 j N H1 H2 S1 S2 C1 C2).
  - assert (K : forall k, k < length (logs ++ [mkGL n s tr l]) -> (forall k, k < length logs -> accounted (mkG r logs cur named) k) ->
      accounted (mkG r' (logs ++ [mkGL n s tr l]) (upd cur i (Some (length logs))) named) k).
    { intros k Hk F. rewrite app_length in Hk. cbn in Hk. destruct (Nat.eq_dec k (length logs)) as [->|Nk].
      - right. exists i, c'. split; [exact B|]. split; [exact Us|]. unfold dead. destruct C as [->| ->]; [left; discriminate|auto].
      - destruct (F k) as [K|(j & x & K1 & K2 & K3)]; [lia|left; exact K|]. right. cbn [g_run g_cur] in *. exists j, x.
        assert (N : j <> i). { intros ->. pose proof (at_fun _ _ _ _ K1 A) as ->. destruct K3 as [K3|[K3|K3]]; [apply K3; reflexivity|discriminate|discriminate]. }
        split; [apply O; assumption|]. cbn [g_cur]. rewrite U by exact N. auto. }
    destruct (ls_main (rs_lab r)), (ls_main (rs_lab r')); try contradiction; intros k Hk; exact (K k Hk In8).
Qed.

(** A step of a thread. *)
Lemma inv_thread : forall r r' logs cur named i c c', inv (mkG r logs cur named) ->
  one_thread (rs_lab r) (rs_lab r') i c c' -> logs_of r' = logs_of r -> is_add c c' = false ->
  (forall k, goal c c' = Some k -> exists j g, cur i = Some j /\ nth_error logs j = Some g /\ l_pc (gl_state g) = k) ->
  inv (mkG r' logs cur named).
Proof.
  intros r r' logs cur named i c c' I (A & B & W & O & M) L Ad G.
  destruct I as [In1 In2 In3 In4 In5 In6 In7 In8]. cbn [g_run g_logs g_cur g_named] in *.
  assert (Lb : outcomes_of r' = outcomes_of r).
  { unfold outcomes_of. destruct (wstep_lab _ _ _ _ _ W) as [[_ ->]|(E & _)]; [reflexivity|congruence]. }
  assert (Sc : forall s, scen c' = Some s -> scen c = Some s) by (intros s; apply (wstep_scen _ _ _ _ _ s W L)).
  constructor; cbn [g_run g_logs g_cur g_named].
  - rewrite L. exact In1.
  - rewrite L. exact In2.
  - exact In3.
  - rewrite Lb. exact In4.
  - exact In5.
  - intros j x Hj s E. destruct (Nat.eq_dec j i) as [->|N].
    + pose proof (at_fun _ _ _ _ Hj B) as ->. destruct (In6 i c A s (Sc s E)) as (k & g & K1 & K2 & K3 & K4 & K5). cbn [g_cur g_logs g_named] in *.
      exists k, g. split; [exact K1|]. split; [exact K2|]. split; [exact K3|]. split; [exact K4|].
      eapply wstep_stage; [exact W|exact K5|]. intros k' Ek. destruct (G k' Ek) as (j' & g' & G1 & G2 & G3). congruence.
    + apply O in Hj; [|exact N]. exact (In6 j x Hj s E).
  - intros i1 i2 c1 c2 j N H1 H2 S1 S2 C1 C2.
    assert (Q : forall j x, at_pc (rs_lab r') j x -> scen x <> None -> exists y, at_pc (rs_lab r) j y /\ scen y <> None).
    { intros j' x Hj Hx. destruct (Nat.eq_dec j' i) as [->|N']; [|apply O in Hj; eauto]. pose proof (at_fun _ _ _ _ Hj B) as ->.
      exists c. split; [exact A|]. destruct (scen c') as [s|] eqn:E; [|congruence]. rewrite (Sc s eq_refl). discriminate. }
    destruct (Q _ _ H1 S1) as (y1 & Y1 & Z1). destruct (Q _ _ H2 S2) as (y2 & Y2 & Z2). exact (In7 i1 i2 y1 y2 j N Y1 Y2 Z1 Z2 C1 C2).
  - assert (K : forall k, accounted (mkG r logs cur named) k -> accounted (mkG r' logs cur named) k).
    { intros k [K|(j & x & K1 & K2 & K3)]; [left; exact K|]. right. cbn [g_run g_cur] in *. destruct (Nat.eq_dec j i) as [->|N].
      - pose proof (at_fun _ _ _ _ K1 A) as ->. exists i, c'. split; [exact B|]. split; [exact K2|].
        destruct K3 as [K3|K3]; [exact (wstep_on _ _ _ _ _ W Ad K3)|]. exfalso. exact (dead_stays _ _ _ _ _ W K3).
      - exists j, x. split; [apply O; assumption|auto]. }
    destruct (ls_main (rs_lab r)), (ls_main (rs_lab r')); try contradiction; intros k Hk; apply K, In8, Hk.
Qed.

(** An outcome is recorded. *)
Lemma inv_add : forall r r' logs cur named i c c' j, inv (mkG r logs cur named) ->
  one_thread (rs_lab r) (rs_lab r') i c c' -> is_add c c' = true -> cur i = Some j -> inv (mkG r' logs cur (named ++ [j])).
Proof.
  intros r r' logs cur named i c c' j I (A & B & W & O & M) Ad C.
  destruct I as [In1 In2 In3 In4 In5 In6 In7 In8]. cbn [g_run g_logs g_cur g_named] in *.
  destruct (wstep_lab _ _ _ _ _ W) as [[E _]|(_ & d & s & done & -> & -> & Lb)]; [congruence|].
  destruct (In6 i _ A s eq_refl) as (k & g & K1 & K2 & K3 & K4 & K5). cbn [g_cur g_logs g_named stage] in *. rewrite C in K1. injection K1 as <-.
  assert (L : logs_of r' = logs_of r).
  { unfold logs_of. destruct (wstep_logs _ _ _ _ _ W) as [E|(n' & _ & _ & d' & s' & E & _)]; [exact E|discriminate E]. }
  constructor; cbn [g_run g_logs g_cur g_named].
  - rewrite L. exact In1.
  - rewrite L. exact In2.
  - exact In3.
  - unfold outcomes_of in *. rewrite Lb. apply Forall2_app; [exact In4|]. constructor; [|constructor]. exists g. auto.
  - apply nodup_snoc; assumption.
  - intros i' x Hj s' E. destruct (Nat.eq_dec i' i) as [->|N].
    + pose proof (at_fun _ _ _ _ Hj B) as ->. discriminate.
    + apply O in Hj; [|exact N]. destruct (In6 i' x Hj s' E) as (k & g' & L1 & L2 & L3 & L4 & L5). cbn [g_cur g_logs g_named] in *.
      exists k, g'. split; [exact L1|]. split; [exact L2|]. split; [exact L3|]. split; [|exact L5].
      intro K. apply in_app_or in K. destruct K as [K|[<-|[]]]; [exact (L4 K)|].
      eapply (In7 i i' _ x j); [congruence|exact A|exact Hj|discriminate|congruence|exact C|exact L1].
  - intros i1 i2 c1 c2 j' N H1 H2 S1 S2 C1 C2.
    assert (Q : forall j x, at_pc (rs_lab r') j x -> scen x <> None -> j <> i).
    { intros j1 x Hj Hx ->. pose proof (at_fun _ _ _ _ Hj B) as ->. apply Hx. reflexivity. }
    pose proof (Q _ _ H1 S1) as N1. pose proof (Q _ _ H2 S2) as N2. apply O in H1; [|exact N1]. apply O in H2; [|exact N2].
    exact (In7 i1 i2 c1 c2 j' N H1 H2 S1 S2 C1 C2).
  - assert (K : forall k, accounted (mkG r logs cur named) k -> accounted (mkG r' logs cur (named ++ [j])) k).
    { intros k [K|(j' & x & L1 & L2 & L3)]; [left; apply in_or_app; left; exact K|]. cbn [g_run g_cur] in *. destruct (Nat.eq_dec j' i) as [->|N].
      - left. apply in_or_app. right. left. cbn [g_named]. congruence.
      - right. exists j', x. split; [apply O; assumption|auto]. }
    destruct (ls_main (rs_lab r)), (ls_main (rs_lab r')); try contradiction; intros k Hk; apply K, In8, Hk.
Qed.

(** The main thread goes on. *)
Lemma inv_main : forall r r' logs cur named, inv (mkG r logs cur named) -> main_only (rs_lab r) (rs_lab r') -> inv (mkG r' logs cur named).
Proof.
  intros r r' logs cur named I (L & Lb & M).
  destruct I as [In1 In2 In3 In4 In5 In6 In7 In8]. cbn [g_run g_logs g_cur g_named] in *. fold (logs_of r') in L. fold (logs_of r) in L.
  assert (No : forall i c, at_pc (rs_lab r') i c -> c = WInit).
  { intros i c H. unfold at_pc in H. destruct M as [(d & o & _ & E & Ew)|(x & E & _)]; rewrite E in H; [|destruct H].
    rewrite Ew in H. unfold spawn in H. apply nth_error_In, repeat_spec in H. exact H. }
  constructor; cbn [g_run g_logs g_cur g_named].
  - rewrite L. exact In1.
  - rewrite L. exact In2.
  - exact In3.
  - unfold outcomes_of. rewrite Lb. exact In4.
  - exact In5.
  - intros i c H s E. rewrite (No _ _ H) in E. discriminate.
  - intros i i' c c' j _ H _ S. rewrite (No _ _ H) in S. contradiction S. reflexivity.
  - assert (F : forall d o, ls_main (rs_lab r) = MBaseline (WFin d o) -> forall k, k < length logs -> In k named).
    { intros d o E k Hk. rewrite E in In8. destruct (In8 k Hk) as [K|(i & c & K1 & _ & K3)]; [exact K|].
      cbn [g_run] in K1. unfold at_pc in K1. rewrite E in K1. destruct K1 as [_ ->]. destruct K3 as [K3|[K3|K3]]; [contradiction K3; reflexivity|discriminate|discriminate]. }
    destruct M as [(d & o & E & E' & _)|(x & E' & Hx)]; rewrite E'.
    + intros k Hk. left. exact (F d o E k Hk).
    + destruct x as [lo| |]; auto. destruct (Hx lo eq_refl) as [(d & o & E)|[E Fw]]; [exact (F d o E)|].
      intros k Hk. rewrite E in In8. destruct (In8 k Hk) as [K|(i & c & K1 & _ & K3)]; [exact K|]. exfalso.
      cbn [g_run] in K1. unfold at_pc in K1. rewrite E in K1. rewrite Forall_forall in Fw. apply nth_error_In in K1. rewrite (Fw _ K1) in K3.
      destruct K3 as [K3|[K3|K3]]; [apply K3; reflexivity|discriminate|discriminate].
Qed.

(** A log is written to. *)
Lemma set_in : forall (logs : list glog) j x k g, nth_error logs j <> None ->
  nth_error (list_set logs j x) k = Some g -> (k = j /\ g = x) \/ (k <> j /\ nth_error logs k = Some g).
Proof.
  intros logs j x k g L H. destruct (Nat.eq_dec k j) as [->|N].
  - left. split; [reflexivity|]. rewrite nth_error_set_same in H by (apply nth_error_Some; exact L). congruence.
  - right. split; [exact N|]. rewrite nth_error_set_other in H by congruence. exact H.
Qed.

Lemma inv_log : forall r logs cur named j g lb l, inv (mkG r logs cur named) -> nth_error logs j = Some g ->
  lstep (cf (gl_scenario g)) (gl_state g) lb l ->
  (In j named -> l_pc l = l_pc (gl_state g)) ->
  (forall i c, at_pc (rs_lab r) i c -> scen c <> None -> cur i = Some j -> stage c (l_pc (gl_state g)) -> stage c (l_pc l)) ->
  inv (mkG r (list_set logs j (mkGL (gl_name g) (gl_scenario g) (gl_trace g ++ [lb]) l)) cur named).
Proof.
  intros r logs cur named j g lb l I N S F H.
  destruct I as [In1 In2 In3 In4 In5 In6 In7 In8]. cbn [g_run g_logs g_cur g_named] in *.
  set (x := mkGL (gl_name g) (gl_scenario g) (gl_trace g ++ [lb]) l).
  assert (Lj : j < length logs) by (apply nth_error_Some; congruence).
  assert (Len : length (list_set logs j x) = length logs) by apply list_set_length.
  constructor; cbn [g_run g_logs g_cur g_named].
  - rewrite <- In1. clear - N. revert j N. induction logs as [|y logs IH]; intros [|j] N; cbn in *; try discriminate.
    + injection N as ->. reflexivity.
    + rewrite (IH j N). reflexivity.
  - exact In2.
  - apply Forall_forall. intros y Hy. apply In_nth_error in Hy. destruct Hy as [k Hk]. apply set_in in Hk; [|congruence].
    rewrite Forall_forall in In3. destruct Hk as [[_ ->]|[_ Hk]]; [|apply In3; eapply nth_error_In; exact Hk].
    cbn [gl_scenario gl_trace gl_state x]. eapply lr_more; [|exact S]. apply In3. eapply nth_error_In. exact N.
  - assert (Q : forall o k, In k named -> recorded logs o k -> recorded (list_set logs j x) o k).
    { intros o k Hk (y & A & B & C). destruct (Nat.eq_dec k j) as [->|Nk].
      - exists x. split; [apply nth_error_set_same; exact Lj|]. rewrite N in A. injection A as <-. split; [exact B|]. cbn [gl_state x]. rewrite (F Hk). exact C.
      - exists y. split; [rewrite nth_error_set_other by congruence; exact A|auto]. }
    revert In4 Q. generalize (outcomes_of r). clear. intros os F Q. induction F as [|o k os ks A F IH]; constructor.
    + apply Q; [left; reflexivity|exact A].
    + apply IH. intros o' k' Hk. apply Q. right. exact Hk.
  - exact In5.
  - intros i c A s E. destruct (In6 i c A s E) as (k & y & K1 & K2 & K3 & K4 & K5). cbn [g_cur g_logs g_named] in *.
    destruct (Nat.eq_dec k j) as [->|Nk].
    + rewrite N in K2. injection K2 as <-. exists j, x. split; [exact K1|]. split; [apply nth_error_set_same; exact Lj|]. split; [exact K3|]. split; [exact K4|].
      apply (H i c A); [congruence|exact K1|exact K5].
    + exists k, y. split; [exact K1|]. split; [rewrite nth_error_set_other by congruence; exact K2|auto].
  - exact In7.
  - rewrite Len. destruct (ls_main (rs_lab r)) as [c| |[lo| |]]; exact In8.
Qed.

Lemma child_pc : forall c s lb s', lstep c s lb s' -> is_child lb = true -> l_pc s' = l_pc s.
Proof. intros c s lb s' H E. destruct H; try discriminate. reflexivity. Qed.
Lemma end_still : forall c s lb s' rs, lstep c s lb s' -> is_child lb = false -> l_pc s = PEnd rs -> False.
Proof. intros c s lb s' rs H E K. destruct H; try congruence; discriminate. Qed.

Lemma inv_all : forall g, greach g -> inv g.
Proof.
  intros g H. pose proof (eq_refl g) as _. unfold greachable in H. remember (gstart P X ms o0 t0) as g0 eqn:E. induction H as [g|g g' g'' H IH S].
  - subst g. apply inv_start.
  - specialize (IH E). subst g. pose proof (gproj _ H) as R.
    destruct S as [r r' logs cur named i d s n tr l St Mv L Lr Pc|r r' logs cur named i d s n tr l St Mv L Lr Pc Fi|r r' logs cur named i c c' St Mv L Ad G
                  |r r' logs cur named i c c' j St Mv Ad C|r r' logs cur named St Mg|r logs cur named i c j g lb l A C N My Ls Ch|r logs cur named j g lb l N Ls Ch]; cbn [g_run] in R.
    + destruct (moves_class _ _ _ _ _ R St Mv) as [T|[_ (d' & o & E')]]; [|discriminate E']. eapply inv_begin; try eassumption. left. reflexivity.
    + destruct (moves_class _ _ _ _ _ R St Mv) as [T|[_ (d' & o & E')]]; [|discriminate E']. eapply inv_begin; try eassumption. right. reflexivity.
    + destruct (moves_class _ _ _ _ _ R St Mv) as [T|[M _]]; [eapply inv_thread; eassumption|eapply inv_main; eassumption].
    + destruct (moves_class _ _ _ _ _ R St Mv) as [T|[_ (d' & o & ->)]]; [eapply inv_add; eassumption|discriminate Ad].
    + destruct (rstep_class _ _ R St) as [(i & c & c' & T)|M]; [|eapply inv_main; eassumption].
      exfalso. destruct T as (_ & _ & _ & _ & T). unfold main_goes in Mg. destruct (ls_main (rs_lab r)), (ls_main (rs_lab r')); contradiction.
    + assert (Hs := may_scen _ _ My). destruct (scen c) as [s|] eqn:Es; [|contradiction]. 
      destruct (inv_held _ IH i c A s Es) as (k & y & K1 & K2 & K3 & K4 & K5). cbn [g_cur g_logs g_named] in *.
      rewrite C in K1. injection K1 as <-. apply inv_log; try assumption; [intro K; contradiction|].
      intros i' c0 A' S' C' G'. destruct (Nat.eq_dec i' i) as [->|Ni].
      * pose proof (at_fun _ _ _ _ A' A) as ->. clear - My G' Ls Ch. destruct c; try discriminate; try exact I. destruct todo; [|discriminate].
        cbn [stage] in *. destruct G' as [G'|[_ G']].
        -- right. split; [reflexivity|]. destruct Ls; try congruence; try discriminate. cbn [l_pc set_pc]. congruence.
        -- exfalso. eapply end_still; eassumption.
      * exfalso. eapply (inv_apart _ IH i' i c0 c j); cbn [g_run g_cur]; try eassumption; congruence.
    + assert (E := child_pc _ _ _ _ Ls Ch). apply inv_log; try assumption; [intros _; exact E|]. intros i c _ _ _ G. rewrite E. exact G.
Qed.
End Logs.
