(** Proofs for C71: before the mutation is applied, the log tells of no command. *)
From Coq Require Import String List NArith ZArith QArith Bool Arith Lia.
From Verif Require Import Text Utf8M SpanM PathM MutantM ProcessM OutcomeM F64M TimeoutM OutputM OptionsM PackageM CargoM JsonM
  LabM LabS LabP LaunchM LaunchS LaunchP LogM LogS LogsM LogsS LogsP.
From Verif Require LogP.
Import ListNotations.
Open Scope list_scope.
Open Scope nat_scope.

(** Places before the first command. *)
Fixpoint early (k : lpc) : bool :=
  match k with
  | POpen | PHead | PStarted | PDiff | PApply | PPhases [] _ => true
  | PSay _ k' => early k'
  | _ => false
  end.
Definition stopped (k : lpc) : Prop := k = PEnd None \/ k = PPanic.
Definition no_command (tr : list label) : Prop := forall n, ~ In (ESpawn n) tr.
Definition begun0 (c : lconf) (tr : list label) : Prop := exists more, whole_log c (LogP.named c) (fun _ => []) [] = told tr ++ more.

Lemma told_quiet : forall tr l, (forall b, l <> ETool b) -> told (tr ++ [l]) = told tr.
Proof. intros tr l H. unfold told. rewrite flat_map_app. cbn [flat_map]. destruct l; try (rewrite !app_nil_r; reflexivity). destruct (H b eq_refl). Qed.
Lemma no_more : forall tr l, no_command tr -> (forall n, l <> ESpawn n) -> no_command (tr ++ [l]).
Proof. intros tr l H N n I. apply in_app_iff in I. destruct I as [I|[I|[]]]; [exact (H n I)|exact (N n I)]. Qed.

Lemma early_back : forall c s l s', lstep c s l s' -> early (l_pc s') = true -> early (l_pc s) = true /\ (forall n, l <> ESpawn n).
Proof.
  intros c s l s' H E. destruct H; cbn [l_pc LogM.set_pc early say] in *; try discriminate; (split; [|intros; discriminate]);
    try (match goal with X : l_pc s = _ |- _ => rewrite X end; cbn [early]; try exact E; try reflexivity); try exact E.
  destruct done; discriminate E.
Qed.
Lemma early_none : forall c s0 tr s, lruns c s0 tr s -> early (l_pc s) = true -> no_command tr.
Proof.
  intros c s0 tr s H. induction H as [|tr l s1 s2 R IH St]; intros E; [intros n []|].
  destruct (early_back _ _ _ _ St E) as [E1 N]. apply no_more; [apply IH; exact E1|exact N].
Qed.
Lemma early_at : forall c k w, LogP.at_pc c (LogP.named c) (fun _ => []) k w -> early k = true -> exists more, whole_log c (LogP.named c) (fun _ => []) [] = w ++ more.
Proof.
  intros c k. induction k; intros w A E; cbn [LogP.at_pc early] in *; try discriminate.
  - subst w. eexists. reflexivity.
  - subst w. eexists. reflexivity.
  - destruct (IHk _ A E) as [more M]. exists (concat ps ++ more). rewrite app_assoc. exact M.
  - subst w. unfold whole_log, heading. rewrite <- !app_assoc. eexists. reflexivity.
  - destruct A as [_ ->]. exists []. rewrite app_nil_r. reflexivity.
  - destruct A as [_ ->]. exists []. rewrite app_nil_r. reflexivity.
  - destruct done; [|discriminate]. subst w. exists []. rewrite app_nil_r. reflexivity.
Qed.
(** A step that is not from the phases. *)
Lemma early_forth : forall c s l s', lstep c s l s' -> early (l_pc s) = true -> (forall done todo, l_pc s <> PPhases done todo) ->
  early (l_pc s') = true \/ stopped (l_pc s') /\ forall b, l <> ETool b.
Proof.
  intros c s l s' H E N. unfold stopped. destruct H; cbn [l_pc LogM.set_pc early say] in *;
    try (match goal with X : l_pc s = _ |- _ => rewrite X in E; cbn [early] in E end); try discriminate E; auto;
    try (right; split; [auto|intros; discriminate]); try (exfalso; eapply N; eassumption).
Qed.
Lemma early_spawn : forall c s l s', lstep c s l s' -> early (l_pc s) = true -> forall n, l <> ESpawn n.
Proof. intros c s l s' H E n. destruct H; try discriminate. rewrite H in E. discriminate E. Qed.
Lemma stopped_still : forall c s l s', lstep c s l s' -> stopped (l_pc s) -> l_pc s' = l_pc s /\ (forall n, l <> ESpawn n) /\ forall b, l <> ETool b.
Proof. intros c s l s' H [E|E]; destruct H; try congruence; (split; [reflexivity|]); (split; intros; discriminate). Qed.

Section Logs.
Context (P : params) (X : context) (o0 : entries) (t0 : tree) (ms : list mutant) (diff : mutant -> text).
Notation rreach := (rreachable P X ms o0 t0).
Notation greach := (greachable P X ms diff o0 t0).
Notation cf := (conf P X ms diff).

Definition fresh (l : glog) : Prop :=
  (early (l_pc (gl_state l)) = true \/ stopped (l_pc (gl_state l))) /\ no_command (gl_trace l) /\ begun0 (cf (gl_scenario l)) (gl_trace l).
Definition behind (g : gstate) : Prop :=
  forall i d s k l, at_pc (rs_lab (g_run g)) i (WApply d s) -> g_cur g i = Some k -> nth_error (g_logs g) k = Some l -> fresh l.

Lemma into_apply : forall i sh c sh' c' d s, wstep P i sh c sh' c' -> sh_logs sh' = sh_logs sh -> c' = WApply d s -> False.
Proof.
  intros i sh c sh' c' d s H L E. destruct H; try discriminate. destruct H; try discriminate.
  cbn in L. apply (f_equal (@length text)) in L. rewrite app_length in L. cbn in L. lia.
Qed.
Lemma behind_all : forall g, greach g -> behind g.
Proof.
  intros g H. unfold greachable in H. remember (gstart P X ms o0 t0) as g0 eqn:E. induction H as [g|g g' g'' H IH S].
  - subst g. intros i d s k l A C. discriminate C.
  - specialize (IH E). subst g. pose proof (gproj _ _ _ _ _ _ _ H) as R. pose proof (inv_all _ _ _ _ _ _ _ H) as V.
    destruct S as [r r' logs cur named i d s n tr l St Mv L Lr Pc|r r' logs cur named i d s n tr l St Mv L Lr Pc Fi|r r' logs cur named i c c' St Mv L Ad G
                  |r r' logs cur named i c c' j St Mv Ad C|r r' logs cur named St Mg|r logs cur named i c j g lb l A C N My Ls Ch|r logs cur named j g lb l N Ls Ch]; cbn [g_run] in R.
    + destruct (moves_class _ _ _ _ _ _ _ _ _ _ R St Mv) as [(A1 & B1 & W & O & M)|[_ (d' & o & E')]]; [|discriminate E'].
      intros i' d' s' k x A C N. cbn [g_run g_cur g_logs] in *. destruct (Nat.eq_dec i' i) as [->|Ni].
      * unfold upd in C. rewrite Nat.eqb_refl in C. injection C as <-. rewrite nth_error_app2 in N by lia. rewrite Nat.sub_diag in N. injection N as <-.
        split; [left; cbn [gl_state]; rewrite Pc; reflexivity|]. cbn [gl_trace gl_scenario]. split; [apply (early_none _ _ _ _ Lr); rewrite Pc; reflexivity|].
        destruct (LogP.runs_told _ _ _ Lr) as [T _]. eapply early_at; [exact T|]. rewrite Pc. reflexivity.
      * unfold upd in C. destruct (Nat.eqb_spec i' i) as [?|_]; [contradiction|]. apply O in A; [|exact Ni].
        destruct (inv_held _ _ _ _ _ V i' _ A s' eq_refl) as (k' & y & K1 & K2 & _). cbn [g_cur g_logs] in *. rewrite C in K1. injection K1 as <-.
        rewrite nth_error_app1 in N by (apply nth_error_Some; congruence). exact (IH i' d' s' k x A C N).
    + destruct (moves_class _ _ _ _ _ _ _ _ _ _ R St Mv) as [(A1 & B1 & W & O & M)|[_ (d' & o & E')]]; [|discriminate E'].
      intros i' d' s' k x A C N. cbn [g_run g_cur g_logs] in *. destruct (Nat.eq_dec i' i) as [->|Ni]; [pose proof (at_fun _ _ _ _ A B1) as K; discriminate K|].
      unfold upd in C. destruct (Nat.eqb_spec i' i) as [?|_]; [contradiction|]. apply O in A; [|exact Ni].
      destruct (inv_held _ _ _ _ _ V i' _ A s' eq_refl) as (k' & y & K1 & K2 & _). cbn [g_cur g_logs] in *. rewrite C in K1. injection K1 as <-.
      rewrite nth_error_app1 in N by (apply nth_error_Some; congruence). exact (IH i' d' s' k x A C N).
    + destruct (moves_class _ _ _ _ _ _ _ _ _ _ R St Mv) as [(A1 & B1 & W & O & M)|[M _]].
      * intros i' d' s' k x A C N. cbn [g_run g_cur g_logs] in *. destruct (Nat.eq_dec i' i) as [->|Ni]; [|apply O in A; [|exact Ni]; exact (IH i' d' s' k x A C N)].
        pose proof (at_fun _ _ _ _ A B1) as <-. destruct (into_apply _ _ _ _ _ _ _ W L eq_refl).
      * intros i' d' s' k x A C N. exfalso. destruct M as (_ & _ & [(d0 & o & _ & E1 & E2)|(y & E1 & _)]); unfold at_pc in A; cbn [g_run] in A; rewrite E1 in A; [|destruct A].
        rewrite E2 in A. apply nth_error_In in A. unfold spawn in A. apply repeat_spec in A. discriminate A.
    + destruct (moves_class _ _ _ _ _ _ _ _ _ _ R St Mv) as [(A1 & B1 & W & O & M)|[_ (d' & o & ->)]]; [|discriminate Ad].
      intros i' d' s' k x A C' N. cbn [g_run g_cur g_logs] in *. destruct (Nat.eq_dec i' i) as [->|Ni]; [|apply O in A; [|exact Ni]; exact (IH i' d' s' k x A C' N)].
      pose proof (at_fun _ _ _ _ A B1) as <-. destruct c; discriminate Ad.
    + destruct (rstep_class _ _ _ _ _ _ _ R St) as [(i & c & c' & T)|M].
      * exfalso. destruct T as (_ & _ & _ & _ & T). unfold main_goes in Mg. destruct (ls_main (rs_lab r)), (ls_main (rs_lab r')); contradiction.
      * intros i' d' s' k x A C N. exfalso. destruct M as (_ & _ & [(d0 & o & _ & E1 & E2)|(y & E1 & _)]); unfold at_pc in A; cbn [g_run] in A; rewrite E1 in A; [|destruct A].
        rewrite E2 in A. apply nth_error_In in A. unfold spawn in A. apply repeat_spec in A. discriminate A.
    + assert (Lj : j < length logs) by (apply nth_error_Some; congruence).
      intros i' d' s' k x A' C' N'. cbn [g_run g_cur g_logs] in *. destruct (Nat.eq_dec k j) as [->|Nk].
      * assert (i' = i) as ->.
        { destruct (Nat.eq_dec i' i) as [?|Ni]; [assumption|]. exfalso. pose proof (may_scen _ _ My) as Sc.
          apply (inv_apart _ _ _ _ _ V i' i (WApply d' s') c j); cbn [g_run g_cur]; try assumption; discriminate. }
        pose proof (at_fun _ _ _ _ A' A) as <-. rewrite nth_error_set_same in N' by exact Lj. injection N' as <-. pose proof (IH i d' s' j g A' C N) as (Fe & Fn & Fb).
        pose proof (inv_runs _ _ _ _ _ V) as Ru. rewrite Forall_forall in Ru. pose proof (Ru g (nth_error_In _ _ N)) as Rg.
        unfold fresh. cbn [gl_state gl_trace gl_scenario]. destruct Fe as [Fe|Fs].
        -- assert (Np : forall done todo, l_pc (gl_state g) <> PPhases done todo) by (intros dn td Ep; cbn [may] in My; rewrite Ep in My; discriminate My).
           assert (Nc : no_command (gl_trace g ++ [lb])) by (apply no_more; [exact Fn|exact (early_spawn _ _ _ _ Ls Fe)]).
           destruct (early_forth _ _ _ _ Ls Fe Np) as [E'|[E' Q]].
           ++ split; [left; exact E'|]. split; [exact Nc|]. pose proof (lr_more _ _ _ _ _ _ Rg Ls) as Rg'. destruct (LogP.runs_told _ _ _ Rg') as [T _]. exact (early_at _ _ _ T E').
           ++ split; [right; exact E'|]. split; [exact Nc|]. destruct Fb as [more Fb]. exists more. rewrite told_quiet by exact Q. exact Fb.
        -- destruct (stopped_still _ _ _ _ Ls Fs) as (E' & Q1 & Q2). split; [right; unfold stopped in *; rewrite E'; exact Fs|].
           split; [apply no_more; assumption|]. destruct Fb as [more Fb]. exists more. rewrite told_quiet by exact Q2. exact Fb.
      * rewrite nth_error_set_other in N' by congruence. exact (IH i' d' s' k x A' C' N').
    + assert (Lj : j < length logs) by (apply nth_error_Some; congruence).
      intros i' d' s' k x A' C' N'. cbn [g_run g_cur g_logs] in *. destruct (Nat.eq_dec k j) as [->|Nk]; [|rewrite nth_error_set_other in N' by congruence; exact (IH i' d' s' k x A' C' N')].
      rewrite nth_error_set_same in N' by exact Lj. injection N' as <-. pose proof (IH i' d' s' j g A' C' N) as (Fe & Fn & Fb). assert (Ep := child_pc _ _ _ _ Ls Ch).
      unfold fresh. cbn [gl_state gl_trace gl_scenario]. rewrite Ep. split; [exact Fe|]. split; [apply no_more; [exact Fn|intros n ->; discriminate Ch]|].
      destruct Fb as [more Fb]. exists more. rewrite told_quiet by (intros b ->; discriminate Ch). exact Fb.
Qed.

Lemma not_ahead : forall g i d s, greach g -> at_pc (rs_lab (g_run g)) i (WApply d s) ->
  exists k l, g_cur g i = Some k /\ nth_error (g_logs g) k = Some l /\ gl_scenario l = s /\ ~ In k (g_named g)
    /\ (forall n, ~ In (ESpawn n) (gl_trace l))
    /\ forall name, called s name -> exists more, log_text diff s name (fun _ => []) [] = told (gl_trace l) ++ more.
Proof.
  intros g i d s H A. pose proof (inv_all _ _ _ _ _ _ _ H) as V. destruct (inv_held _ _ _ _ _ V i _ A s eq_refl) as (k & l & K1 & K2 & K3 & K4 & _).
  destruct (behind_all g H i d s k l A K1 K2) as (_ & Nc & [more B]). exists k, l. split; [exact K1|]. split; [exact K2|]. split; [exact K3|]. split; [exact K4|]. split; [exact Nc|].
  intros name Cn. exists more. rewrite <- B, K3. unfold log_text, whole_log, heading, LogP.named. cbn [conf lc_scenario lc_diff account commands].
  destruct s as [|m]; cbn [called scenario_text] in *; [subst name|rewrite Cn]; rewrite ?app_nil_r; reflexivity.
Qed.
End Logs.
