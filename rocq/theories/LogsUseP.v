(** Proofs for C71: what is in the logs. *)
From Coq Require Import String List NArith ZArith QArith Bool Arith Lia Permutation.
From Verif Require Import Text Utf8M SpanM PathM MutantM ProcessM OutcomeM F64M TimeoutM OutputM OptionsM PackageM CargoM JsonM
  LogM LogS LogP LogT LabM LabS LabP LaunchM LaunchS LaunchP PartsP LogsM LogsS LogsP.
Import ListNotations.
Open Scope list_scope.
Open Scope nat_scope.

Lemma runs_named : forall c tr s, lruns c lstart tr s ->
  l_pc s = POpen \/ l_pc s = PHead \/ l_pc s = PPanic \/ l_pc s = PEnd None \/ scenario_text (lc_scenario c) <> None.
Proof.
  intros c tr s H. induction H as [|tr l s1 s2 R IH S]; [left; reflexivity|].
  destruct S; cbn [l_pc set_pc]; auto 6; try (right; right; right; right; congruence);
    (destruct IH as [IH|[IH|[IH|[IH|IH]]]]; [congruence..|auto 6]).
Qed.

Lemma told_written : forall tr, written tr = [] -> told tr = [].
Proof.
  induction tr as [|l tr IH]; [reflexivity|]. cbn [written told flat_map]. intro H. apply app_eq_nil in H. destruct H as [H1 H2].
  destruct l; cbn in *; auto. rewrite H1. apply IH, H2.
Qed.

Section Logs.
Context (P : params) (X : context) (o0 : entries) (t0 : tree) (ms : list mutant) (diff : mutant -> text).
Notation rreach := (rreachable P X ms o0 t0).
Notation greach := (greachable P X ms diff o0 t0).
Notation cf := (conf P X ms diff).

Lemma account_is : forall s out b rs n, Forall (fun l => la_argv l = lc_argv (cf s) (la_phase l)) b -> map given b = map Some rs ->
  commands (lc_argv (cf s)) out n (statuses rs) = account out n b.
Proof.
  intros s out b. induction b as [|l b IH]; intros [|r rs] n F E; try discriminate E; [reflexivity|].
  injection E as E1 E2. inversion F as [|? ? Fa Fb]; subst. unfold given in E1. destruct (la_result l) as [[e d]|] eqn:Er; [|discriminate]. injection E1 as <-.
  cbn [statuses map commands account]. rewrite Er. cbn [pr_phase pr_status]. unfold command. rewrite Fa, <- !app_assoc. f_equal. f_equal. f_equal. exact (IH rs (S n) Fb E2).
Qed.

Lemma text_is : forall s name out b rs, Forall (fun l => la_argv l = lc_argv (cf s) (la_phase l)) b -> map given b = map Some rs ->
  whole_log (cf s) name out (statuses rs) = log_text diff s name out b.
Proof.
  intros s name out b rs F E. unfold whole_log, log_text, heading. rewrite (account_is s out b rs 0 F E). f_equal.
  destruct s as [|m]; cbn [conf lc_scenario lc_diff is_mutant]; [apply app_nil_r|reflexivity].
Qed.

Lemma argv_is : forall r l, rreach r -> In l (rs_log r) -> la_argv l = lc_argv (cf (la_scenario l)) (la_phase l).
Proof.
  intros r l H I. pose proof (proper_inv P X o0 t0 ms r H) as F. rewrite Forall_forall in F. destruct (F l I) as (E & _). rewrite E at 1. reflexivity.
Qed.

Lemma called_is : forall s name, scenario_text s = Some name -> called s name.
Proof. intros [|m] name E; cbn in *; congruence. Qed.

(** A log that has come to a result, or to the next phase. *)
Lemma record_at : forall r logs k g s rs b, rreach r -> nth_error logs k = Some g -> gl_scenario g = s ->
  lruns (cf s) lstart (gl_trace g) (gl_state g) ->
  l_pc (gl_state g) = PEnd (Some (statuses rs)) \/ (exists todo, l_pc (gl_state g) = PPhases (statuses rs) todo) ->
  incl b (rs_log r) -> Forall (fun l => la_scenario l = s) b -> map given b = map Some rs ->
  record_of diff logs k s b.
Proof.
  intros r logs k g s rs b H N Es R Pc I Fs E.
  assert (Fa : Forall (fun l => la_argv l = lc_argv (cf s) (la_phase l)) b).
  { rewrite Forall_forall in *. intros l Hl. rewrite <- (Fs l Hl). eapply argv_is; [exact H|apply I; exact Hl]. }
  assert (Nm : exists name, scenario_text s = Some name).
  { destruct (runs_named _ _ _ R) as [E'|[E'|[E'|[E'|E']]]]; try (destruct Pc as [Pc|[todo Pc]]; rewrite Pc in E'; discriminate E').
    destruct (scenario_text s) as [t|] eqn:Et; [eauto|]. contradiction E'. }
  destruct Nm as [name Nm].
  assert (T : told (gl_trace g) = log_text diff s name (fun _ => []) b).
  { rewrite <- (text_is s name _ b rs Fa E). destruct (runs_told _ _ _ R) as [A _]. unfold LogP.named in A. cbn [conf lc_scenario] in A. rewrite Nm in A.
    destruct Pc as [Pc|[todo Pc]]; rewrite Pc in A; exact A. }
  destruct (runs_append _ _ _ R) as [_ [FN FS]].
  assert (Fi : l_file (gl_state g) = Some (written (gl_trace g))).
  { destruct (l_file (gl_state g)) as [f|]; [rewrite (FS f eq_refl); reflexivity|]. destruct (FN eq_refl) as [W _]. rewrite (told_written _ W) in T.
    exfalso. revert T. unfold log_text, entry. destruct s; cbn; discriminate. }
  exists g, name. split; [exact N|]. split; [exact Es|]. split; [apply called_is; exact Nm|]. split; [exact T|]. split; [exact Fi|].
  intro Ti. rewrite Fi. f_equal. rewrite <- (text_is s name _ b rs Fa E). destruct (runs_tidy _ _ _ R Ti) as (_ & _ & A).
  unfold LogP.named in A. cbn [conf lc_scenario] in A. rewrite Nm in A. destruct Pc as [Pc|[todo Pc]]; rewrite Pc in A; exact A.
Qed.

Lemma f2_in_combine : forall A B (R : A -> B -> Prop) l m, Forall2 R l m -> forall a b, In (a, b) (combine l m) -> R a b.
Proof. intros A B R l m H. induction H as [|x y l m Hx H IH]; intros a b I; [destruct I|]. destruct I as [E|I]; [injection E as <- <-; exact Hx|apply IH; exact I]. Qed.
Lemma filter_combine : forall A B (f : A -> bool) (l : list A) (m : list B), length l = length m ->
  map fst (filter (fun p => f (fst p)) (combine l m)) = filter f l.
Proof.
  intros A B f l. induction l as [|x l IH]; intros [|y m] E; try discriminate E; [reflexivity|]. cbn. destruct (f x); cbn; rewrite IH by (cbn in E; lia); reflexivity.
Qed.
Lemma f2_map_in : forall A B C (R : A -> B -> Prop) (R2 : C -> B -> Prop) (f : C -> A) l m,
  (forall c b, In c l -> In b m -> R (f c) b -> R2 c b) -> Forall2 R (map f l) m -> Forall2 R2 l m.
Proof.
  intros A B C R R2 f l. induction l as [|c l IH]; intros m H F; inversion F; subst; constructor.
  - apply H; [left; reflexivity|left; reflexivity|assumption].
  - apply IH; [|assumption]. intros c' b' I1 I2. apply H; right; assumption.
Qed.

Lemma logs_all : forall g, greach g ->
  length (g_named g) = length (outcomes_of (g_run g))
  /\ exists bl rest fin opn, rs_log (g_run g) = bl ++ rest /\ woven (fin ++ opn) rest
     /\ Forall2 (fun ok b => part_of (fst ok) b /\ record_of diff (g_logs g) (snd ok) (oc_scenario (fst ok)) b
                             /\ diff_beside diff (g_logs g) (snd ok) (oc_scenario (fst ok)))
          (filter (fun ok => of_mutant (fst ok)) (combine (outcomes_of (g_run g)) (g_named g))) fin
     /\ (forall o k, In (o, k) (combine (outcomes_of (g_run g)) (g_named g)) -> oc_scenario o = Baseline ->
           part_of o bl /\ record_of diff (g_logs g) k Baseline bl /\ diff_beside diff (g_logs g) k Baseline).
Proof.
  intros g H. pose proof (gproj _ _ _ _ _ _ _ H) as R. pose proof (inv_all _ _ _ _ _ _ _ H) as I.
  pose proof (inv_rec _ _ _ _ _ I) as F2. pose proof (f2_length _ _ _ _ _ F2) as Le. split; [symmetry; exact Le|].
  destruct (parts_any P X o0 t0 ms _ R) as (bl & rest & fin & opn & A & B & Bs & C & D & E & F & [G1 G2] & _).
  assert (K : forall o k b, In (o, k) (combine (outcomes_of (g_run g)) (g_named g)) -> part_of o b -> incl b (rs_log (g_run g)) ->
    record_of diff (g_logs g) k (oc_scenario o) b /\ diff_beside diff (g_logs g) k (oc_scenario o)).
  { intros o k b Hk [[d J] Gv] Ib. destruct (f2_in_combine _ _ _ _ _ F2 o k Hk) as (x & N & Es & Pc).
    pose proof (inv_runs _ _ _ _ _ I) as Ru. rewrite Forall_forall in Ru. pose proof (Ru x (nth_error_In _ _ N)) as Rx. rewrite Es in Rx. split.
    - eapply record_at; try eassumption; [left; exact Pc|]. eapply Forall_impl; [|exact J]. intros l [_ Q]. exact Q.
    - intros y Ny. rewrite N in Ny. injection Ny as <-. rewrite (runs_diff _ _ _ _ Rx Pc). destruct (oc_scenario o); reflexivity. }
  exists bl, rest, fin, opn. split; [exact A|]. split; [exact C|]. split.
  - apply f2_map_in with (R := part_of) (f := fst).
    + intros [o k] b I1 I2 Po. apply filter_In in I1. destruct I1 as [I1 _]. split; [exact Po|]. apply K; [exact I1|exact Po|].
      intros l Hl. rewrite A. apply in_or_app. right. eapply woven_in; [exact C|apply in_or_app; left; exact I2|exact Hl].
    + rewrite filter_combine by exact Le. exact G2.
  - intros o k I1 Eb. assert (Po : part_of o bl) by (apply G1; [|exact Eb]; eapply in_combine_l; exact I1). split; [exact Po|].
    rewrite <- Eb. apply K; [exact I1|exact Po|]. intros l Hl. rewrite A. apply in_or_app. left. exact Hl.
Qed.

(** The processes of a thread that has come to the next phase. *)
Lemma phase_job : forall r i d s done todo, rreach r -> LaunchM.at_pc (rs_lab r) i (WPhase d s done todo) ->
  exists b, incl b (rs_log r) /\ Forall (fun l => la_dir l = d /\ la_scenario l = s) b /\ map given b = map Some done.
Proof.
  intros r i d s done todo H A. destruct (parts_inv P X o0 t0 ms r H) as (bl & rest & fin & opn & El & Ob & W & MU & M).
  destruct (project P X o0 t0 ms r H) as [Hr|(sh & d0 & o & E & _)]; [|rewrite E in A; destruct A].
  destruct (rs_lab r) as [sh mn ws] eqn:Er. unfold LaunchM.at_pc in A. cbn [ls_main ls_workers ls_sh] in *. destruct mn as [c| |x]; [| |destruct A].
  - destruct A as [_ <-]. destruct M as (-> & -> & -> & Sk & Bp & M).
    pose proof (base_inv _ _ _ _ _ Hr) as Bi. cbn [ls_main] in Bi. destruct Bi as (_ & Ws & _). cbn [ls_workers] in Ws. subst ws.
    destruct (base_lab _ _ _ _ _ _ _ Hr) as [E|E]; [discriminate E|]. cbn in E.
    assert (Ou : lo_outcomes (sh_lab sh) = []) by exact E. destruct (M Ou) as [Fr Gv]. exists bl. rewrite El, app_nil_r. split; [intros l Hl; exact Hl|]. split; assumption.
  - destruct M as (_ & Ru). assert (Q : exists b, In b opn /\ running (WPhase d s done todo) b).
    { clear - Ru A. revert i A. induction Ru as [|c b ws opn Rc Ru IH]; intros [|i] A; cbn in A; try discriminate.
      - injection A as ->. exists b. split; [left; reflexivity|exact Rc].
      - destruct (IH i A) as (b' & I & Q). exists b'. split; [right; exact I|exact Q]. }
    destruct Q as (b & Ib & Fr & Gv). exists b. split; [|split; assumption]. intros l Hl. rewrite El. apply in_or_app. right.
    eapply woven_in; [exact W|apply in_or_app; right; exact Ib|exact Hl].
Qed.

Lemma logs_so_far : forall g i d s done todo, greach g -> LaunchM.at_pc (rs_lab (g_run g)) i (WPhase d s done todo) ->
  exists k b, g_cur g i = Some k /\ ~ In k (g_named g) /\ incl b (rs_log (g_run g))
    /\ Forall (fun l => la_dir l = d /\ la_scenario l = s) b /\ map given b = map Some done
    /\ record_of diff (g_logs g) k s b.
Proof.
  intros g i d s done todo H A. pose proof (gproj _ _ _ _ _ _ _ H) as R. pose proof (inv_all _ _ _ _ _ _ _ H) as I.
  destruct (phase_job _ _ _ _ _ _ R A) as (b & B1 & B2 & B3).
  destruct (inv_held _ _ _ _ _ I i _ A s eq_refl) as (k & x & K1 & K2 & K3 & K4 & K5).
  exists k, b. split; [exact K1|]. split; [exact K4|]. split; [exact B1|]. split; [exact B2|]. split; [exact B3|].
  pose proof (inv_runs _ _ _ _ _ I) as Ru. rewrite Forall_forall in Ru. pose proof (Ru x (nth_error_In _ _ K2)) as Rx. rewrite K3 in Rx.
  eapply record_at; try eassumption.
  - destruct K5 as [K5|[_ K5]]; [right; eauto|left; exact K5].
  - eapply Forall_impl; [|exact B2]. intros l [_ Q]. exact Q.
Qed.

Lemma one_each : forall g l, greach g -> ls_main (rs_lab (g_run g)) = MEnd (ROk l) -> Permutation (seq 0 (length (g_logs g))) (g_named g).
Proof.
  intros g l H E. pose proof (inv_all _ _ _ _ _ _ _ H) as I. apply NoDup_Permutation; [apply seq_NoDup|exact (inv_once _ _ _ _ _ I)|].
  intro k. rewrite in_seq. split.
  - intros [_ L]. pose proof (inv_full _ _ _ _ _ I) as F. rewrite E in F. apply F. exact L.
  - intro K. split; [lia|]. exact (rec_len _ _ _ _ (inv_rec _ _ _ _ _ I) K).
Qed.

(** Every log is a file that holds what was written to it. *)
Lemma started_file : forall c tr s, lruns c lstart tr s -> l_pc s = PStarted -> l_file s <> None.
Proof.
  intros c tr s R E F. destruct (runs_append _ _ _ R) as [_ [FN _]]. destruct (FN F) as [W _]. destruct (runs_told _ _ _ R) as [A _].
  rewrite E, (told_written _ W) in A. revert A. unfold entry. cbn. discriminate.
Qed.
Lemma file_stays : forall c s lb s', lstep c s lb s' -> l_file s <> None -> l_file s' <> None.
Proof. intros c s lb s' H F. destruct H; cbn [l_file set_pc]; try exact F; discriminate. Qed.
Lemma set_forall : forall (Q : glog -> Prop) logs j x, Forall Q logs -> Q x -> Forall Q (list_set logs j x).
Proof. intros Q logs. induction logs as [|y logs IH]; intros [|j] x F Hx; cbn; inversion F; subst; constructor; auto. Qed.
Lemma all_files : forall g, greach g -> Forall (fun l => l_file (gl_state l) <> None) (g_logs g).
Proof.
  intros g H. unfold greachable in H. remember (gstart P X ms o0 t0) as g0 eqn:E. induction H as [g|g g' g'' H IH S].
  - subst g. constructor.
  - specialize (IH E). destruct S; cbn [g_logs] in *; try exact IH.
    + apply Forall_app. split; [exact IH|]. constructor; [|constructor]. eapply started_file; eassumption.
    + apply Forall_app. split; [exact IH|]. constructor; [assumption|constructor].
    + apply set_forall; [exact IH|]. rewrite Forall_forall in IH. eapply file_stays; [eassumption|]. apply IH. eapply nth_error_In. eassumption.
    + apply set_forall; [exact IH|]. rewrite Forall_forall in IH. eapply file_stays; [eassumption|]. apply IH. eapply nth_error_In. eassumption.
Qed.
Lemma any_log : forall g l, greach g -> In l (g_logs g) ->
  l_file (gl_state l) = Some (written (gl_trace l))
  /\ forall name, scenario_text (gl_scenario l) = Some name ->
     exists rs more rest, whole_log (cf (gl_scenario l)) name (fun _ => []) rs = told (gl_trace l) ++ more /\ phases (pa_check_only P) = map fst rs ++ rest.
Proof.
  intros g l H I. pose proof (inv_all _ _ _ _ _ _ _ H) as V. pose proof (inv_runs _ _ _ _ _ V) as Ru. rewrite Forall_forall in Ru.
  pose proof (Ru l I) as R. pose proof (all_files g H) as Fi. rewrite Forall_forall in Fi. split.
  - destruct (runs_append _ _ _ R) as [_ [_ FS]]. destruct (l_file (gl_state l)) as [f|] eqn:Ef; [|contradiction (Fi l I Ef)]. rewrite (FS f eq_refl). reflexivity.
  - intros name Nm. apply (C55_entries (cf (gl_scenario l)) name _ _ Nm R).
Qed.
End Logs.
