(** Proofs for C72: what a run reports. *)
From Coq Require Import String List NArith ZArith QArith Bool Arith Lia Permutation.
From Verif Require Import Text Utf8M SpanM PathM MutantM ProcessM OutcomeM OutcomeS OutcomeP OutcomeT F64M TimeoutM OutputM OptionsM PackageM CargoM JsonM
  LabM LabS LabP LabT ConsoleP ConsoleT LaunchM LaunchS LaunchP PartsP LaunchT LogM LogS LogsM LogsS LogsP EndP NoticeM NoticeS.
Import ListNotations.
Open Scope list_scope.
Open Scope nat_scope.

Lemma skipn_app_all : forall A (a b : list A), skipn (length a) (a ++ b) = b.
Proof. intros A a b. rewrite skipn_app, skipn_all, Nat.sub_diag. reflexivity. Qed.

Section Notices.
Context (P : params) (X : context) (o0 : entries) (t0 : tree) (ms : list mutant) (intr : nat -> bool).
Notation rreach := (rreachable P X ms o0 t0).
Notation reach := (reachable P o0 t0 ms).
Notation saying := (says P X ms intr o0 t0).

Lemma says_runs : forall r ns, saying r ns -> rreach r.
Proof. intros r ns H. induction H; [apply rsteps_refl|eapply rsteps_more; eassumption]. Qed.
Lemma runs_says : forall r, rreach r -> exists ns, saying r ns.
Proof.
  intros r H. unfold rreachable in H. remember (rstart P X ms o0 t0) as r0 eqn:E. induction H as [r|r r' r'' H IH S].
  - subst r. eexists. apply sa_start.
  - destruct (IH E) as [ns N]. eexists. eapply sa_step; eassumption.
Qed.

Lemma grows : forall r r', rreach r -> rstep P X ms r r' ->
  (exists a, rs_log r' = rs_log r ++ a) /\ exists b, outcomes_of r' = outcomes_of r ++ b.
Proof.
  intros r r' H S. split.
  - destruct S; cbn [rs_log]; [eexists; reflexivity| | |]; exists []; rewrite app_nil_r; reflexivity.
  - unfold outcomes_of. destruct (rstep_class P X o0 t0 ms r r' H S) as [(i & c & c' & T)|M].
    + destruct T as (_ & _ & W & _). destruct (wstep_lab P _ _ _ _ _ W) as [[_ ->]|(_ & d & s & done & _ & _ & ->)].
      * exists []. rewrite app_nil_r. reflexivity.
      * eexists. reflexivity.
    + destruct M as (_ & -> & _). exists []. rewrite app_nil_r. reflexivity.
Qed.

Lemma no_more : forall r r' x, rreach r -> ls_main (rs_lab r) = MEnd x -> ~ rstep P X ms r r'.
Proof.
  intros r r' x H E S. destruct S as [st lim log i d s done p todo polls rr t Hp Hg Ht|sh d o lim log t Ho Hm|sh d o lim log Ho Hm|st st' lim log Hst Hc Hb]; cbn in E; try discriminate.
  - unfold LaunchM.at_pc in Hp. rewrite E in Hp. exact Hp.
  - destruct st as [sh mn ws]. cbn in E. subst mn. exact (no_step_end _ _ _ _ _ _ Hst).
Qed.

(** The three kinds of notices. *)
Lemma cargo_kind : forall l, forallb of_process (cargo_notices l) = true.
Proof. intro l. unfold cargo_notices. destruct (la_result l) as [[[] d]|]; try reflexivity. destruct (_ && _); reflexivity. Qed.
Definition is_unclassified (n : notice) : bool := match n with NUnclassified _ => true | _ => false end.
Lemma add_kind : forall o, forallb is_unclassified (add_notices o) = true.
Proof. intro o. unfold add_notices. destruct (oc_scenario o); [reflexivity|]. destruct (summary o) as [[]|]; reflexivity. Qed.
Lemma join_kind : forall ws i, forallb of_end (join_notices intr i ws) = true.
Proof.
  induction ws as [|c ws IH]; intro i; [reflexivity|]. cbn [join_notices]. destruct c; try apply IH; [|reflexivity]. destruct ok; [apply IH|].
  rewrite forallb_app, IH. destruct (intr i); reflexivity.
Qed.
Lemma end_kind : forall st st', forallb of_end (end_notices intr st st') = true.
Proof.
  intros st st'. unfold end_notices. destruct (ls_main st) as [[]| |]; destruct (ls_main st') as [| |[]]; try reflexivity;
    rewrite ?forallb_app, ?join_kind; try reflexivity.
  - destruct (last_result o); reflexivity.
  - unfold final_notices. destruct (_ =? _); [reflexivity|]. destruct (_ =? _); reflexivity.
Qed.

Lemma filter_all : forall A (f g : A -> bool) l, forallb g l = true -> (forall x, g x = true -> f x = true) -> filter f l = l.
Proof.
  induction l as [|x l IH]; intros H I; [reflexivity|]. cbn in H |- *. apply andb_true_iff in H as [H1 H2]. rewrite (I x H1). f_equal. apply IH; assumption.
Qed.
Lemma filter_none : forall A (f g : A -> bool) l, forallb g l = true -> (forall x, g x = true -> f x = false) -> filter f l = [].
Proof.
  induction l as [|x l IH]; intros H I; [reflexivity|]. cbn in H |- *. apply andb_true_iff in H as [H1 H2]. rewrite (I x H1). apply IH; assumption.
Qed.
Lemma flat_all : forall A (g : notice -> bool) (f : A -> list notice) l, (forall x, forallb g (f x) = true) -> forallb g (flat_map f l) = true.
Proof. intros A g f l H. induction l as [|x l IH]; [reflexivity|]. cbn. rewrite forallb_app, H, IH. reflexivity. Qed.

(** The state before the end. *)
Definition ended_from (r : rstate) (ns : list notice) : Prop :=
  match ls_main (rs_lab r) with
  | MEnd _ => exists r0, rreach r0 /\ rstep P X ms r0 r /\ filter of_end ns = end_notices intr (rs_lab r0) (rs_lab r)
  | _ => filter of_end ns = []
  end.

Lemma says_inv : forall r ns, saying r ns ->
  filter of_process ns = flat_map cargo_notices (rs_log r)
  /\ filter is_unclassified ns = flat_map add_notices (outcomes_of r)
  /\ ended_from r ns.
Proof.
  intros r ns H. induction H as [|r ns r' H (A & B & C) S].
  - split; [reflexivity|]. split; [|unfold ended_from, rstart; cbn; destruct (pa_skip_baseline P); reflexivity].
    unfold outcomes_of, rstart, start_state. cbn. reflexivity.
  - pose proof (says_runs _ _ H) as R. destruct (grows _ _ R S) as [[a Ea] [b Eb]].
    unfold step_notices. change (lo_outcomes (sh_lab (ls_sh (rs_lab r)))) with (outcomes_of r). change (lo_outcomes (sh_lab (ls_sh (rs_lab r')))) with (outcomes_of r').
    rewrite Ea, Eb, !skipn_app_all, !filter_app, !flat_map_app.
    pose proof (flat_all _ of_process cargo_notices a cargo_kind) as K1. pose proof (flat_all _ is_unclassified add_notices b add_kind) as K2.
    pose proof (end_kind (rs_lab r) (rs_lab r')) as K3.
    split; [|split].
    + rewrite A, (filter_all _ of_process of_process _ K1) by auto. rewrite (filter_none _ of_process is_unclassified _ K2) by (intros []; cbn; congruence).
      rewrite (filter_none _ of_process of_end _ K3) by (intros []; cbn; congruence). rewrite app_nil_r. reflexivity.
    + rewrite B, (filter_none _ is_unclassified of_process _ K1) by (intros []; cbn; congruence). rewrite (filter_all _ is_unclassified is_unclassified _ K2) by auto.
      rewrite (filter_none _ is_unclassified of_end _ K3) by (intros []; cbn; congruence). rewrite app_nil_r. reflexivity.
    + assert (C0 : filter of_end ns = []).
      { unfold ended_from in C. destruct (ls_main (rs_lab r)) as [| |x] eqn:E; [exact C|exact C|]. destruct (no_more _ _ _ R E S). }
      assert (E : filter of_end (ns ++ flat_map cargo_notices a ++ flat_map add_notices b ++ end_notices intr (rs_lab r) (rs_lab r')) = end_notices intr (rs_lab r) (rs_lab r')).
      { rewrite !filter_app, C0, (filter_none _ of_end of_process _ K1) by (intros []; cbn; congruence).
        rewrite (filter_none _ of_end is_unclassified _ K2) by (intros []; cbn; congruence). rewrite (filter_all _ of_end of_end _ K3) by auto. reflexivity. }
      unfold ended_from. destruct (ls_main (rs_lab r')) as [| |x] eqn:E'.
      * rewrite E. unfold end_notices. rewrite E'. destruct (ls_main (rs_lab r)) as [[]| |]; reflexivity.
      * rewrite E. unfold end_notices. rewrite E'. destruct (ls_main (rs_lab r)) as [[]| |]; reflexivity.
      * exists r. auto.
Qed.

Lemma in_end : forall r ns n, saying r ns -> of_end n = true -> In n ns -> exists r0, rreach r0 /\ rstep P X ms r0 r /\ In n (end_notices intr (rs_lab r0) (rs_lab r))
  /\ exists x, ls_main (rs_lab r) = MEnd x.
Proof.
  intros r ns n H K I. destruct (says_inv _ _ H) as (_ & _ & C). assert (J : In n (filter of_end ns)) by (apply filter_In; auto).
  unfold ended_from in C. destruct (ls_main (rs_lab r)) as [| |x] eqn:E; try (rewrite C in J; destruct J).
  destruct C as (r0 & A & B & C). rewrite C in J. exists r0. eauto.
Qed.
Lemma end_in : forall r ns x, saying r ns -> ls_main (rs_lab r) = MEnd x ->
  exists r0, rreach r0 /\ rstep P X ms r0 r /\ forall n, In n (end_notices intr (rs_lab r0) (rs_lab r)) -> In n ns.
Proof.
  intros r ns x H E. destruct (says_inv _ _ H) as (_ & _ & C). unfold ended_from in C. rewrite E in C. destruct C as (r0 & A & B & C).
  exists r0. split; [exact A|]. split; [exact B|]. intros n I. rewrite <- C in I. apply filter_In in I. tauto.
Qed.

(** How a run ends well. *)
Lemma last_step : forall r0 r l, rreach r0 -> rstep P X ms r0 r -> ls_main (rs_lab r) = MEnd (ROk l) ->
  (exists sh d o, rs_lab r0 = mkLS sh (MBaseline (WFin d o)) [] /\ oc_success o = Some false /\ rs_lab r = mkLS sh (MEnd (ROk (sh_lab sh))) [] /\ l = sh_lab sh
     /\ rs_log r = rs_log r0)
  \/ (exists sh ws, rs_lab r0 = mkLS sh MWork ws /\ rs_lab r = mkLS sh (MEnd (ROk (sh_lab sh))) ws /\ l = sh_lab sh /\ Forall (fun c => c = WEnd true) ws
     /\ rs_log r = rs_log r0).
Proof.
  intros r0 r l R S E. destruct S as [st lim log i d s done p todo polls rr t Hp Hg Ht|sh d o lim log t Ho Hm|sh d o lim log Ho Hm|st st' lim log Hst Hc Hb]; cbn [rs_lab rs_log] in *; try discriminate.
  - exfalso. destruct st as [sh mn ws]. destruct mn; cbn in *; try discriminate. destruct Hp.
  - destruct Hst as [sh c sh' c' Hs|sh d o Ho|sh d o Ho|sh|sh|sh ws i c sh' c' Hn Hs|sh ws He]; cbn [ls_main] in E; try discriminate.
    + injection E as <-. left. exists sh, d, o. auto 6.
    + injection E as E. right. exists sh, ws. destruct (join_ok _ _ _ E) as [-> K]. rewrite E. repeat split; try reflexivity.
      apply Forall_forall. intros c Hc'. rewrite forallb_forall in He. specialize (He c Hc'). destruct c; try discriminate; [destruct ok; [reflexivity|]|];
        exfalso; (assert (Z : existsb bad ws = true) by (apply existsb_exists; eexists; split; [exact Hc'|reflexivity])); congruence.
Qed.
End Notices.
