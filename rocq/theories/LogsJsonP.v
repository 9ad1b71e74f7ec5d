(** Proofs for C71: outcomes.json and the logs. *)
From Coq Require Import String List NArith ZArith QArith Bool Arith Lia Permutation.
From Verif Require Import Text Utf8M SpanM PathM MutantM ProcessM OutcomeM F64M TimeoutM OutputM OptionsM PackageM CargoM JsonM JsonS JsonP
  LabM LabS LabP LaunchM LaunchS LaunchP PartsP LogM LogS LogsM LogsS LogsP LogsUseP.
Import ListNotations.
Open Scope list_scope.
Open Scope nat_scope.

Lemma f2_nth : forall A B (R : A -> B -> Prop) l m, Forall2 R l m -> forall j a b, nth_error l j = Some a -> nth_error m j = Some b -> R a b.
Proof.
  intros A B R l m H. induction H as [|x y l m Hx H IH]; intros [|j] a b E1 E2; cbn in *; try discriminate; [congruence|]. eapply IH; eassumption.
Qed.
Lemma nth_combine : forall A B (l : list A) (m : list B) j a b, nth_error l j = Some a -> nth_error m j = Some b -> In (a, b) (combine l m).
Proof. intros A B l. induction l as [|x l IH]; intros [|y m] [|j] a b E1 E2; cbn in *; try discriminate; [left; congruence|right; eapply IH; eassumption]. Qed.

Section Logs.
Context (P : params) (X : context) (o0 : entries) (t0 : tree) (ms : list mutant) (diff : mutant -> text).
Notation greach := (greachable P X ms diff o0 t0).

(** The processes and the log of one outcome. *)
Lemma logs_one : forall g j o k, greach g -> nth_error (outcomes_of (g_run g)) j = Some o -> nth_error (g_named g) j = Some k ->
  exists b, part_of o b /\ incl b (rs_log (g_run g)) /\ record_of diff (g_logs g) k (oc_scenario o) b.
Proof.
  intros g j o k H E1 E2. destruct (logs_all _ _ _ _ _ _ g H) as (_ & bl & rest & fin & opn & A & W & F & B).
  pose proof (nth_combine _ _ _ _ _ _ _ E1 E2) as I. destruct (oc_scenario o) as [|m] eqn:Es.
  - destruct (B o k I Es) as (Q1 & Q2 & _). exists bl. split; [exact Q1|]. split; [intros l Hl; rewrite A; apply in_or_app; left; exact Hl|exact Q2].
  - assert (J : In (o, k) (filter (fun ok => of_mutant (fst ok)) (combine (outcomes_of (g_run g)) (g_named g)))).
    { apply filter_In. split; [exact I|]. cbn. unfold of_mutant. rewrite Es. reflexivity. }
    assert (Q : exists b, In b fin /\ part_of o b /\ record_of diff (g_logs g) k (oc_scenario o) b).
    { clear - F J. induction F as [|x b xs bs R F IH]; [destruct J|]. destruct J as [->|J].
      - exists b. split; [left; reflexivity|]. destruct R as (R1 & R2 & _). auto.
      - destruct (IH J) as (b' & I & Q). exists b'. split; [right; exact I|exact Q]. }
    destruct Q as (b & Ib & Q1 & Q2). exists b. split; [exact Q1|]. split; [|rewrite Es in Q2; exact Q2].
    intros l Hl. rewrite A. apply in_or_app. right. eapply woven_in; [exact W|apply in_or_app; left; exact Ib|exact Hl].
Qed.

Lemma json_logs : forall float lp dp g t, (forall n, is_number (float n) = true) -> greach g -> right_paths g lp dp ->
  outcomes_file float (kept_argv X ms) lp dp (sh_lab (ls_sh (rs_lab (g_run g)))) = Some t ->
  exists v xs, read_json t = Some v /\ has v (tx "outcomes") (JArr xs) /\ length xs = length (outcomes_of (g_run g))
  /\ forall j x, nth_error xs j = Some x ->
     exists o k l b, nth_error (outcomes_of (g_run g)) j = Some o /\ nth_error (g_named g) j = Some k /\ nth_error (g_logs g) k = Some l
       /\ has x (tx "log_path") (JStr (tx "log/" ++ gl_name l ++ tx ".log"))
       /\ has x (tx "diff_path") (match oc_scenario o with Mutant _ => JStr (tx "diff/" ++ gl_name l ++ tx ".diff") | Baseline => JNull end)
       /\ part_of o b /\ incl b (rs_log (g_run g)) /\ record_of diff (g_logs g) k (oc_scenario o) b
       /\ exists ps, has x (tx "phase_results") (JArr ps) /\ Forall2 (fun p l => has p (tx "argv") (JArr (map JStr (la_argv l)))) ps b.
Proof.
  intros float lp dp g t Fl H Rp E. destruct (lab_back float (kept_argv X ms) lp dp Fl _ _ E) as (v & Ev & (xs & Hx & F) & _).
  exists v, xs. split; [exact Ev|]. split; [exact Hx|]. split; [exact (f2_length _ _ _ _ _ F)|].
  intros j x Ex. pose proof (gproj _ _ _ _ _ _ _ H) as R. pose proof (inv_all _ _ _ _ _ _ _ H) as I. pose proof (inv_rec _ _ _ _ _ I) as F2.
  pose proof (f2_length _ _ _ _ _ F) as Le. pose proof (f2_length _ _ _ _ _ F2) as Le2. fold (outcomes_of (g_run g)) in Le, F.
  assert (Lj : j < length (outcomes_of (g_run g))) by (rewrite <- Le; apply nth_error_Some; congruence).
  destruct (nth_error (outcomes_of (g_run g)) j) as [o|] eqn:Eo; [|apply nth_error_None in Eo; lia].
  destruct (nth_error (g_named g) j) as [k|] eqn:Ek; [|apply nth_error_None in Ek; lia].
  destruct (f2_nth _ _ _ _ _ F2 j o k Eo Ek) as (l & El & _).
  destruct (logs_one g j o k H Eo Ek) as (b & B1 & B2 & B3). destruct (Rp j o k l Eo Ek El) as [P1 P2].
  destruct (f2_nth _ _ _ _ _ F j x o Ex Eo) as (_ & _ & O1 & O2 & ps & O3 & O4). rewrite P1 in O1. rewrite P2 in O2.
  exists o, k, l, b. split; [reflexivity|]. split; [reflexivity|]. split; [exact El|]. split; [exact O1|].
  split; [destruct (oc_scenario o); exact O2|]. split; [exact B1|]. split; [exact B2|]. split; [exact B3|].
  exists ps. split; [exact O3|]. destruct B1 as [[d J] Gv].
  assert (Fa : Forall (fun l => la_argv l = lc_argv (conf P X ms diff (oc_scenario o)) (la_phase l)) b).
  { rewrite Forall_forall in *. intros y Hy. destruct (J y Hy) as [_ Ey]. rewrite <- Ey. eapply argv_is; [exact R|apply B2; exact Hy]. }
  revert Gv Fa O4. clear. generalize (oc_results o) as rs. revert b. induction ps as [|p ps IH]; intros b rs Gv Fa O4; inversion O4 as [|? ? ? ? Q Q']; subst.
  - destruct b; [constructor|discriminate Gv].
  - destruct b as [|la b]; [discriminate Gv|]. injection Gv as G1 G2. inversion Fa as [|? ? Fy Fb]; subst. constructor.
    + destruct Q as (_ & _ & _ & Q). rewrite Fy. unfold kept_argv in Q. unfold given in G1. destruct (la_result la) as [[e dd]|]; [|discriminate]. injection G1 as <-. exact Q.
    + eapply IH; eassumption.
Qed.

(** There are such paths if no mutant is listed twice. *)
Definition outcome_dec : forall a b : outcome mutant, {a = b} + {a <> b}.
Proof. repeat decide equality. Defined.

Lemma base_once : forall r, rreachable P X ms o0 t0 r -> exists os, Forall (fun o => of_mutant o = true) os
  /\ (outcomes_of r = os \/ exists b0, outcomes_of r = b0 :: os /\ oc_scenario b0 = Baseline).
Proof.
  intros r H. destruct (parts_inv P X o0 t0 ms r H) as (bl & rest & fin & opn & _ & _ & _ & _ & M). unfold outcomes_of.
  assert (Bp : forall outs, base_parts outs bl -> exists os, Forall (fun o => of_mutant o = true) os /\ (outs = os \/ exists b0, outs = b0 :: os /\ oc_scenario b0 = Baseline)).
  { intros outs [->|(o & -> & Es & _)]; exists []; (split; [constructor|]); [left; reflexivity|right; eauto]. }
  assert (Wk : forall sh ws os, reachable P o0 t0 ms (mkLS sh MWork ws) -> begun P (lo_outcomes (sh_lab sh)) bl os ->
    exists os, Forall (fun o => of_mutant o = true) os /\ (lo_outcomes (sh_lab sh) = os \/ exists b0, lo_outcomes (sh_lab sh) = b0 :: os /\ oc_scenario b0 = Baseline)).
  { intros sh ws os Hr B. pose proof (work_outs _ _ _ _ _ _ _ _ Hr B) as E. exists os. split.
    - rewrite E. apply Forall_forall. intros x Hx. apply filter_In in Hx. apply Hx.
    - unfold begun in B. destruct (pa_skip_baseline P); [left; symmetry; apply B|right]. destruct B as (b0 & B1 & B2 & _). eauto. }
  destruct (project _ _ _ _ _ r H) as [Hr|(sh & d & o & E & Hr & _)].
  - destruct (rs_lab r) as [sh mn ws]. cbn [ls_main ls_sh ls_workers] in *. destruct mn as [c| |x].
    + apply Bp. apply M.
    + destruct M as ((os & B & _) & _). eapply Wk; eassumption.
    + destruct M as [(Hw & (os & B & _) & _)|M]; [eapply Wk; eassumption|apply Bp; apply M].
  - rewrite E in M |- *. cbn [ls_main ls_sh ls_workers] in *.
    destruct M as [(Hw & (os & B & _) & _)|M]; [eapply Wk; eassumption|apply Bp; apply M].
Qed.

Lemma outs_nodup : NoDup ms -> forall r, rreachable P X ms o0 t0 r -> NoDup (outcomes_of r).
Proof.
  intros N r H.
  assert (Q : exists st, reachable P o0 t0 ms st /\ sh_lab (ls_sh st) = sh_lab (ls_sh (rs_lab r))).
  { destruct (project _ _ _ _ _ r H) as [Hr|(sh & d & o & E & Hr & _)]; [exists (rs_lab r); auto|]. eexists. split; [exact Hr|]. rewrite E. reflexivity. }
  destruct Q as (st & Hr & E). destruct (base_once r H) as (os & Fm & Sh).
  destruct (c12_accounted _ _ _ _ _ Hr) as (lost & HP & _). apply Permutation_sym in HP. apply (Permutation_NoDup HP) in N. apply NoDup_app_r, NoDup_app_r in N.
  unfold LabS.recorded in N. rewrite E in N. fold (outcomes_of r) in N.
  assert (K : forall os', Forall (fun o => of_mutant o = true) os' -> forall lost, NoDup (flat_map (fun o => match oc_scenario o with Mutant m => [m] | Baseline => [] end) os' ++ lost) -> NoDup os').
  { clear. induction os' as [|o os' IH]; intros F lost D; [constructor|]. inversion F as [|? ? Fo Fr]; subst. unfold of_mutant in Fo. cbn [flat_map] in D.
    destruct (oc_scenario o) as [|m] eqn:Eo; [discriminate|]. inversion D as [|? ? D1 D2]; subst. constructor; [|eapply IH; eassumption].
    intro I. apply D1. apply in_or_app. left. apply in_flat_map. exists o. rewrite Eo. split; [exact I|left; reflexivity]. }
  destruct Sh as [Sh|(b0 & Sh & Eb)]; rewrite Sh in N |- *.
  - eapply K; [exact Fm|exact N].
  - constructor.
    + intro I. rewrite Forall_forall in Fm. specialize (Fm _ I). unfold of_mutant in Fm. rewrite Eb in Fm. discriminate.
    + cbn [flat_map] in N. rewrite Eb in N. eapply K; [exact Fm|exact N].
Qed.

Lemma paths_exist : NoDup ms -> forall g, greach g -> exists lp dp, right_paths g lp dp.
Proof.
  intros N g H. pose proof (outs_nodup N _ (gproj _ _ _ _ _ _ _ H)) as D. pose proof (f2_length _ _ _ _ _ (inv_rec _ _ _ _ _ (inv_all _ _ _ _ _ _ _ H))) as Le.
  assert (K : exists f : outcome mutant -> option nat, forall j o k, nth_error (outcomes_of (g_run g)) j = Some o -> nth_error (g_named g) j = Some k -> f o = Some k).
  { revert D Le. generalize (outcomes_of (g_run g)) as os. generalize (g_named g) as ks. clear.
    intros ks os. revert ks. induction os as [|o os IH]; intros [|k ks] D Le; try discriminate Le.
    - exists (fun _ => None). intros [|j] o k E; discriminate E.
    - inversion D as [|? ? D1 D2]; subst. destruct (IH ks D2) as [f Hf]; [cbn in Le; lia|].
      exists (fun x => if outcome_dec x o then Some k else f x). intros [|j] x y E1 E2; cbn in E1, E2.
      + injection E1 as ->. injection E2 as ->. destruct (outcome_dec x x); [reflexivity|contradiction].
      + destruct (outcome_dec x o) as [->|_]; [exfalso; apply D1; eapply nth_error_In; exact E1|]. eapply Hf; eassumption. }
  destruct K as [f Hf].
  exists (fun o => match f o with Some k => match nth_error (g_logs g) k with Some l => tx "log/" ++ gl_name l ++ tx ".log" | None => [] end | None => [] end),
         (fun o => match oc_scenario o with Baseline => None | Mutant _ =>
            match f o with Some k => match nth_error (g_logs g) k with Some l => Some (tx "diff/" ++ gl_name l ++ tx ".diff") | None => None end | None => None end end).
  intros j o k l E1 E2 E3. rewrite (Hf j o k E1 E2), E3. split; [reflexivity|]. destruct (oc_scenario o); reflexivity.
Qed.
End Logs.
