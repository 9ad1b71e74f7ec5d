(** Proofs for C72: the notices and the cargo processes. *)
From Coq Require Import String List NArith ZArith QArith Bool Arith Lia Permutation.
From Verif Require Import Text Utf8M SpanM PathM MutantM ProcessM OutcomeM OutcomeS OutcomeP OutcomeT F64M TimeoutM OutputM OptionsM PackageM PackageS CargoM JsonM
  LabM LabP LabT ConsoleP ConsoleT LaunchM LaunchS LaunchP PartsP LaunchT LogsS MainM WholeM WholeS WholeP EndM EndS EndP LabS DiffP NoticeM NoticeS NoticeP.
Import ListNotations.
Open Scope list_scope.
Open Scope nat_scope.

Lemma how_many_all : forall A (f g : A -> bool) l, (forall x, g x = true -> f x = true) -> how_many g l = how_many f l ->
  forall x, In x l -> f x = true -> g x = true.
Proof.
  intros A f g l I. assert (Le : forall l, how_many g l <= how_many f l).
  { clear l. induction l as [|y l IH]; [apply le_n|]. cbn [how_many]. destruct (g y) eqn:G; [rewrite (I y G); lia|]. destruct (f y); lia. }
  induction l as [|y l IH]; intros E x Hx Fx; [destruct Hx|]. cbn [how_many] in E. specialize (Le l). destruct (g y) eqn:G; destruct (f y) eqn:F; try (rewrite (I y G) in F; discriminate).
  - destruct Hx as [<-|Hx]; [exact G|]. apply IH; [lia|exact Hx|exact Fx].
  - lia.
  - destruct Hx as [<-|Hx]; [congruence|]. apply IH; [lia|exact Hx|exact Fx].
Qed.
Lemma how_many_same : forall A (f g : A -> bool) l, (forall x, In x l -> f x = g x) -> how_many f l = how_many g l.
Proof. induction l as [|x l IH]; intro H; [reflexivity|]. cbn. rewrite (H x (or_introl eq_refl)), IH; [reflexivity|]. intros y Hy. apply H. right. exact Hy. Qed.

Lemma ends_hand : forall ws, Forall (fun c => c = WEnd true) ws -> flat_map in_hand ws = [].
Proof. intros ws H. induction H as [|c ws -> _ IH]; [reflexivity|exact IH]. Qed.

Lemma ends_in : forall ws, Forall (fun c => c = WEnd true) ws -> 0 < length ws -> In (WEnd true) ws.
Proof. intros ws H L. destruct H as [|c ws -> _]; [inversion L|left; reflexivity]. Qed.

Lemma unviable_failed : forall (o : outcome mutant), summary o = Some SumUnviable -> check_or_build_failed o = true.
Proof.
  intros o. unfold summary. destruct (oc_scenario o).
  - destruct (has_timeout o); [discriminate|]. destruct (oc_success o) as [[]|]; discriminate.
  - destruct (check_or_build_failed o); [reflexivity|]. destruct (has_timeout o); [discriminate|].
    destruct (mutant_caught o) as [[]|]; try discriminate. destruct (mutant_missed o) as [[]|]; try discriminate. destruct (oc_success o) as [[]|]; discriminate.
Qed.

(** ** Processes *)
Lemma argv_second : forall e s p o, exists args, cargo_argv e s p o = cargo_bin e :: hd [] (subcommand p (op_test_tool o)) :: args.
Proof. intros e s p o. unfold cargo_argv. destruct p, (op_test_tool o); cbn [subcommand app hd]; eexists; reflexivity. Qed.

Section Use.
Context (P : params) (X : context) (o0 : entries) (t0 : tree) (ms : list mutant) (intr : nat -> bool).
Notation rreach := (rreachable P X ms o0 t0).
Notation reach := (reachable P o0 t0 ms).
Notation saying := (says P X ms intr o0 t0).

Lemma argv_of : forall r l, rreach r -> In l (rs_log r) -> exists s, la_argv l = cargo_argv (cx_env X) s (la_phase l) (cx_options X).
Proof.
  intros r l H. unfold rreachable in H. remember (rstart P X ms o0 t0) as r0 eqn:E. induction H as [r|r r' r'' H IH S]; intro I.
  - subst r. destruct I.
  - specialize (IH E). destruct S; cbn [rs_log] in *; try (apply IH; exact I).
    apply in_app_or in I. destruct I as [I|[<-|[]]]; [apply IH; exact I|]. cbn. eexists. reflexivity.
Qed.
Lemma second_of : forall r l, rreach r -> In l (rs_log r) -> nth_error (la_argv l) 1 = Some (hd [] (subcommand (la_phase l) (op_test_tool (cx_options X)))).
Proof. intros r l H I. destruct (argv_of r l H I) as [s E]. destruct (argv_second (cx_env X) s (la_phase l) (cx_options X)) as [args E']. rewrite E, E'. reflexivity. Qed.

Lemma remarks : forall r l n, rreach r -> In l (rs_log r) -> In n (cargo_notices l) <-> remark X l n.
Proof.
  intros r l n H I. unfold cargo_notices, second. rewrite (second_of r l H I). split.
  - destruct (la_result l) as [[e d]|] eqn:R; [|intros [<-|[]]; apply re_internal; exact R].
    destruct e as [|c| | |]; try (intros []).
    destruct (text_eqb _ _) eqn:T; [|intros []]. cbn [andb NEXTEST_ALLOWED_CODES existsb].
    destruct (Z.eqb c 4) eqn:E1; [intros []|]. destruct (Z.eqb c 100) eqn:E2; [intros []|]. destruct (Z.eqb c 101) eqn:E3; [intros []|].
    cbn. intros [<-|[]]. apply Z.eqb_neq in E1, E2, E3. apply re_nextest with (d := d); auto.
    + destruct (la_phase l), (op_test_tool (cx_options X)); try reflexivity; vm_compute in T; discriminate.
    + intro Y. rewrite Y in T. destruct (op_test_tool (cx_options X)); vm_compute in T; discriminate.
  - intros [c d T N R N1 N2 N3|R]; rewrite R; [|left; reflexivity].
    assert (Tt : text_eqb (hd [] (subcommand (la_phase l) (op_test_tool (cx_options X)))) (tx "nextest") = true).
    { rewrite T. destruct (la_phase l); try contradiction; vm_compute; reflexivity. }
    rewrite Tt. apply Z.eqb_neq in N1, N2, N3. cbn [andb NEXTEST_ALLOWED_CODES existsb]. rewrite N1, N2, N3. left. reflexivity.
Qed.
Lemma at_most_one : forall l, cargo_notices l = [] \/ exists n, cargo_notices l = [n].
Proof. intro l. unfold cargo_notices. destruct (la_result l) as [[[] d]|]; eauto. destruct (_ && _); eauto. Qed.

Lemma sorted_out : forall r ls, rreach r -> incl ls (rs_log r) ->
  exists told quiet, Permutation (map fst told ++ quiet) ls /\ Forall (fun x => remark X (fst x) (snd x)) told
    /\ (forall l n, In l quiet -> ~ remark X l n) /\ map snd told = flat_map cargo_notices ls.
Proof.
  intros r ls H. induction ls as [|l ls IH]; intro I.
  - exists [], []. repeat split; [constructor|constructor|intros l n []].
  - destruct IH as (told & quiet & A & B & C & D); [intros x Hx; apply I; right; exact Hx|].
    assert (Il : In l (rs_log r)) by (apply I; left; reflexivity).
    destruct (at_most_one l) as [E|[n E]].
    + exists told, (l :: quiet). split; [eapply Permutation_trans; [apply Permutation_sym, Permutation_middle|constructor; exact A]|]. split; [exact B|].
      split; [|cbn; rewrite E; exact D]. intros x n [<-|Hx]; [|apply C; exact Hx]. intro R. apply (remarks r l n H Il) in R. rewrite E in R. destruct R.
    + exists ((l, n) :: told), quiet. split; [cbn; constructor; exact A|]. split; [constructor; [cbn; apply (remarks r l n H Il); rewrite E; left; reflexivity|exact B]|].
      split; [exact C|]. cbn. rewrite E, D. reflexivity.
Qed.

Lemma says_processes : forall r ns, saying r ns ->
  exists told quiet, Permutation (map fst told ++ quiet) (rs_log r) /\ Forall (fun x => remark X (fst x) (snd x)) told
    /\ (forall l n, In l quiet -> ~ remark X l n) /\ Permutation (map snd told) (filter of_process ns).
Proof.
  intros r ns H. destruct (sorted_out r (rs_log r) (says_runs _ _ _ _ _ _ _ _ H) (incl_refl _)) as (told & quiet & A & B & C & D).
  exists told, quiet. repeat split; try assumption. rewrite D. destruct (says_inv _ _ _ _ _ _ _ _ H) as [-> _]. apply Permutation_refl.
Qed.

(** ** Outcomes *)
Lemma unclassified_filter : forall ns, unclassified ns = unclassified (filter is_unclassified ns).
Proof. induction ns as [|n ns IH]; [reflexivity|]. destruct n; unfold unclassified in *; cbn [flat_map filter is_unclassified app]; rewrite ?IH; reflexivity. Qed.
Lemma says_unclassified : forall r ns, saying r ns ->
  unclassified ns = flat_map (fun o => match oc_scenario o, summary o with Mutant m, Some SumFailure => [m] | _, _ => [] end) (outcomes_of r).
Proof.
  intros r ns H. destruct (says_inv _ _ _ _ _ _ _ _ H) as (_ & B & _). rewrite unclassified_filter, B. clear. induction (outcomes_of r) as [|o os IH]; [reflexivity|].
  cbn. unfold unclassified in *. rewrite flat_map_app, IH. f_equal. unfold add_notices. destruct (oc_scenario o); [reflexivity|]. destruct (summary o) as [[]|]; reflexivity.
Qed.

Lemma unclassified_how : forall r ns m, saying r ns -> In (NUnclassified m) ns ->
  exists b, one_job (Mutant m) b /\ incl b (rs_log r) /\ explains (pa_check_only P) b SumFailure.
Proof.
  intros r ns m H I. assert (J : In m (unclassified ns)) by (apply in_flat_map; exists (NUnclassified m); split; [exact I|left; reflexivity]).
  rewrite (says_unclassified _ _ H) in J. apply in_flat_map in J as (o & Io & J). destruct (oc_scenario o) as [|m'] eqn:Es; [destruct J|].
  destruct (summary o) as [[]|] eqn:Ev; try destruct J as [->|[]]; try destruct J.
  destruct (C65_parts P X o0 t0 ms r (says_runs _ _ _ _ _ _ _ _ H)) as (bl & rest & fin & opn & A & _ & _ & C & _ & _ & F & _).
  assert (If : In o (filter of_mutant (outcomes_of r))) by (apply filter_In; split; [exact Io|unfold of_mutant; rewrite Es; reflexivity]).
  destruct (Forall2_in_l _ _ _ _ F If) as (b & Ib & [Jb _] & Ex). exists b. rewrite Es in Jb. split; [exact Jb|]. split; [|apply Ex; exact Ev].
  intros x Hx. rewrite A. apply in_or_app. right. eapply woven_in; [exact C| |exact Hx]. apply in_or_app. left. exact Ib.
Qed.

(** ** The end *)
Lemma bad_base : forall r0 r sh d o, rreach r0 -> rstep P X ms r0 r -> rs_lab r0 = mkLS sh (MBaseline (WFin d o)) [] -> oc_success o = Some false ->
  rs_lab r = mkLS sh (MEnd (ROk (sh_lab sh))) [] ->
  exists pre b pr, last_result o = Some pr /\ rs_log r = pre ++ [b] /\ la_phase b = pr_phase pr /\ baseline_bad b
    /\ Forall (fun x => la_scenario x = Baseline) (rs_log r).
Proof.
  intros r0 r sh d o R S E F E'. assert (R' : rreach r) by (eapply rsteps_more; eassumption).
  destruct (project P X o0 t0 ms r0 R) as [Hr|(sh0 & d0 & o1 & Y & _)]; [|rewrite E in Y; discriminate]. rewrite E in Hr.
  destruct (base_lab _ _ _ _ _ _ _ Hr) as [Y|L]; [discriminate|]. cbn [recorded_of] in L.
  destruct (base_inv _ _ _ _ _ Hr) as ([d' Hb] & _). cbn in Hb. assert (B : oc_scenario o = Baseline) by congruence. clear Hb d'.
  destruct (at_end_parts P X o0 t0 ms r R' sh (sh_lab sh) [] E') as (bl & rest & fin & EL & Job & _ & W & Pb & Pm).
  rewrite L in Pb, Pm. cbn [filter] in Pm. unfold of_mutant in Pm. rewrite B in Pm. inversion Pm; subst fin. apply woven_nil in W. subst rest. rewrite app_nil_r in EL. subst bl.
  destruct (Pb o (or_introl eq_refl) B) as [_ G]. unfold oc_success in F. destruct (last_result o) as [pr|] eqn:La; [|discriminate]. injection F as F.
  assert (NE : oc_results o <> []) by (intro Y; unfold last_result in La; rewrite Y in La; discriminate).
  destruct (exists_last NE) as (rs & p0 & Er). unfold last_result in La. rewrite Er, last_app in La. injection La as ->.
  rewrite Er in G. destruct (map_given_app _ _ _ G) as (la & lb & El & _ & Gb). destruct (given_one _ _ Gb) as (b & -> & Ph & Rb).
  destruct Job as [d1 Job]. assert (Sc : Forall (fun x => la_scenario x = Baseline) (rs_log r)) by (eapply Forall_impl; [|exact Job]; intros x [_ Hx]; exact Hx).
  exists la, b, pr. split; [reflexivity|]. split; [exact El|]. split; [exact Ph|]. split; [|exact Sc].
  split; [rewrite Forall_forall in Sc; apply Sc; rewrite El; apply in_or_app; right; left; reflexivity|].
  exists (pr_status pr), (pr_duration pr). split; [exact Rb|]. intro Y. rewrite Y in F. discriminate.
Qed.

Section Well.
Variables (r : rstate) (sh : shared) (ws : list wpc).
Hypothesis NE : ms <> [].
Hypothesis R : rreach r.
Hypothesis E : rs_lab r = mkLS sh (MEnd (ROk (sh_lab sh))) ws.
Hypothesis W : reach (mkLS sh MWork ws).
Hypothesis TT : Forall (fun c => c = WEnd true) ws.

Lemma well_reach : reach (mkLS sh (MEnd (ROk (sh_lab sh))) ws).
Proof. exact (proj1 (at_end P X o0 t0 ms r R sh _ ws E)). Qed.

Lemma all_tested : Permutation (LabS.recorded (sh_lab sh)) ms.
Proof.
  destruct (c12_accounted _ _ _ _ _ W) as (lost & HP & HL). unfold threads in *. cbn [ls_main ls_sh ls_workers] in *.
  pose proof (ends_hand ws TT) as Hh.
  assert (Hl : lost = []).
  { destruct lost as [|x lost]; [reflexivity|]. exfalso. destruct HL as [I|I]; [discriminate| |]; rewrite Forall_forall in TT; specialize (TT _ I); discriminate. }
  assert (Hq : sh_queue sh = []).
  { apply (C12_ends_when_empty _ _ _ _ _ W). unfold threads. cbn [ls_main ls_workers]. apply ends_in; [exact TT|].
    pose proof (base_inv _ _ _ _ _ W) as L. cbn [ls_main ls_workers] in L. rewrite L. unfold n_threads. lia. }
  rewrite Hh, Hl, Hq, app_nil_r in HP. exact HP.
Qed.

Lemma some_test : exists o m, In o (lo_outcomes (sh_lab sh)) /\ oc_scenario o = Mutant m.
Proof.
  destruct (exists_last NE) as (ms' & m & Em). assert (I : In m ms) by (rewrite Em; apply in_or_app; right; left; reflexivity).
  apply (Permutation_in _ (Permutation_sym all_tested)) in I. apply recorded_in in I. destruct I as (o & I & S). exists o, m. auto.
Qed.

Lemma totals : lo_total (sh_lab sh) = how_many (fun o => is_mutant (oc_scenario o)) (lo_outcomes (sh_lab sh))
  /\ lo_unviable (sh_lab sh) = how_many (mutant_with SumUnviable) (lo_outcomes (sh_lab sh)).
Proof.
  destruct (totals_end _ _ _ _ _ _ _ well_reach) as [_ A]. pose proof (results_end _ _ _ _ _ _ _ well_reach) as F.
  destruct (C08_counts_partition _ _ F) as (l' & A' & _ & T & _ & _ & _ & Un & _). rewrite A in A'. injection A' as <-. auto.
Qed.

Lemma total_some : lo_total (sh_lab sh) <> 0.
Proof.
  destruct totals as [-> _]. destruct some_test as (o & m & I & S). clear - I S. induction (lo_outcomes (sh_lab sh)) as [|x os IH]; [destruct I|].
  cbn [how_many]. destruct I as [->|I]; [rewrite S; cbn; lia|]. specialize (IH I). lia.
Qed.

(** The last process of all is one for a mutant. *)
Lemma test_last : exists pre b, rs_log r = pre ++ [b] /\ for_mutant b.
Proof.
  destruct (at_end_parts P X o0 t0 ms r R sh (sh_lab sh) ws E) as (bl & rest & fin & EL & _ & _ & Wv & _ & Pm).
  destruct some_test as (o & m & I & S).
  assert (If : In o (filter of_mutant (lo_outcomes (sh_lab sh)))) by (apply filter_In; split; [exact I|unfold of_mutant; rewrite S; reflexivity]).
  destruct (Forall2_in_l _ _ _ _ Pm If) as (b & Ib & [_ G] & _).
  pose proof (results_end _ _ _ _ _ _ _ well_reach) as F. rewrite Forall_forall in F. specialize (F o I).
  assert (Nb : b <> []) by (intro Y; subst b; cbn in G; destruct (oc_results o); [apply F; reflexivity|discriminate]).
  assert (Nr : rest <> []).
  { destruct b as [|x b]; [congruence|]. intro Y. assert (J : In x rest) by (eapply woven_in; [exact Wv|exact Ib|left; reflexivity]). rewrite Y in J. destruct J. }
  destruct (exists_last Nr) as (rest' & z & Ez). exists (bl ++ rest'), z. split; [rewrite EL, Ez, app_assoc; reflexivity|].
  assert (Jz : In z rest) by (rewrite Ez; apply in_or_app; right; left; reflexivity).
  destruct (woven_all _ _ _ Wv Jz) as (c & Ic & Iz). destruct (Forall2_in_r _ _ _ _ Pm Ic) as (o' & Io' & [Jo _] & _).
  apply filter_In in Io' as [_ Mo]. unfold of_mutant in Mo. destruct (oc_scenario o') as [|m'] eqn:Es; [discriminate|].
  exists m'. destruct Jo as [d Jo]. rewrite Forall_forall in Jo. exact (proj2 (Jo z Iz)).
Qed.

Lemma viable_iff : lo_unviable (sh_lab sh) = lo_total (sh_lab sh) <-> (forall b, In b (rs_log r) -> for_mutant b -> no_build b).
Proof.
  destruct (at_end_parts P X o0 t0 ms r R sh (sh_lab sh) ws E) as (bl & rest & fin & EL & Job & _ & Wv & _ & Pm).
  destruct totals as [-> ->]. pose proof (results_end _ _ _ _ _ _ _ well_reach) as F. rewrite Forall_forall in F. split.
  - intros H b Ib [m Sm]. rewrite EL in Ib. apply in_app_or in Ib. destruct Ib as [Ib|Ib].
    { destruct Job as [d Job]. rewrite Forall_forall in Job. destruct (Job b Ib) as [_ Y]. congruence. }
    destruct (woven_all _ _ _ Wv Ib) as (c & Ic & Ibc). destruct (Forall2_in_r _ _ _ _ Pm Ic) as (o & Io & [_ G] & Ex).
    apply filter_In in Io as [Io Mo]. unfold of_mutant in Mo. destruct (oc_scenario o) as [|m'] eqn:Es; [discriminate|].
    assert (V : mutant_with SumUnviable o = true).
    { apply (how_many_all _ (fun o => is_mutant (oc_scenario o)) (mutant_with SumUnviable) (lo_outcomes (sh_lab sh))); [|exact H|exact Io|rewrite Es; reflexivity].
      intros x. unfold mutant_with. destruct (is_mutant _); [reflexivity|discriminate]. }
    unfold mutant_with in V. rewrite Es in V. cbn [is_mutant andb] in V. destruct (summary o) as [v|] eqn:Sv; [|discriminate].
    assert (v = SumUnviable) as -> by (destruct v; try discriminate; reflexivity). specialize (Ex _ eq_refl).
    inversion Ex as [| |b0 k Ph Nz En| | |]; subst. destruct Ibc as [<-|[]]. split; [rewrite Ph; destruct (pa_check_only P); discriminate|].
    destruct (oc_results o) as [|pr [|? ?]] eqn:Er; try discriminate. injection G as G.
    apply unviable_failed in Sv. unfold check_or_build_failed in Sv. rewrite Er in Sv. cbn [existsb] in Sv.
    unfold given in G. destruct (la_result b0) as [[e d]|]; [|discriminate]. injection G as <-. cbn [pr_phase pr_status] in Sv.
    rewrite orb_false_r in Sv. apply andb_true_iff in Sv as [_ Sv]. destruct e as [|code| | |]; try discriminate. exists code, d. reflexivity.
  - intro H. apply how_many_same. intros o Io. unfold mutant_with. destruct (oc_scenario o) as [|m] eqn:Es; [reflexivity|]. cbn [is_mutant andb].
    assert (If : In o (filter of_mutant (lo_outcomes (sh_lab sh)))) by (apply filter_In; split; [exact Io|unfold of_mutant; rewrite Es; reflexivity]).
    destruct (Forall2_in_l _ _ _ _ Pm If) as (b & Ib & [Jb G] & _). specialize (F o Io).
    destruct (oc_results o) as [|pr rs] eqn:Er; [contradiction|]. destruct b as [|x b]; [discriminate|]. injection G as G _.
    destruct Jb as [d0 Jb]. rewrite Forall_forall in Jb. destruct (Jb x (or_introl eq_refl)) as [_ Sx].
    destruct (H x) as [Nt (c & d & Rx)].
    { rewrite EL. apply in_or_app. right. eapply woven_in; [exact Wv|exact Ib|left; reflexivity]. }
    { exists m. congruence. }
    unfold given in G. rewrite Rx in G. injection G as <-. unfold summary. rewrite Es. unfold check_or_build_failed. rewrite Er. cbn [existsb pr_phase pr_status is_failure].
    destruct (la_phase x); try contradiction; reflexivity.
Qed.
End Well.

Lemma join_only : forall ws i n, In n (join_notices intr i ws) -> exists k, n = NWorker k.
Proof.
  induction ws as [|c ws IH]; intros i n J; [destruct J|]. cbn [join_notices] in J. destruct c; try (eapply IH; exact J); [|destruct J]. destruct ok; [eapply IH; exact J|].
  apply in_app_or in J. destruct J as [J|J]; [|eapply IH; exact J]. destruct (intr i); [destruct J|]. destruct J as [<-|[]]. eauto.
Qed.
Lemma end_is : forall st st' x n, In n (end_notices intr st st') -> (forall k, n <> NWorker k) -> ls_main st' = MEnd x -> exists l, x = ROk l.
Proof.
  intros st st' x n J Nw Ex. unfold end_notices in J. rewrite Ex in J. destruct (ls_main st) as [c| |]; [| |destruct J].
  - destruct c; try destruct J. destruct x; try destruct J. eauto.
  - apply in_app_or in J. destruct J as [J|J]; [destruct (join_only _ _ _ J) as [k Y]; destruct (Nw k Y)|]. destruct x; try destruct J. eauto.
Qed.

Lemma well_end : forall r ns l, saying r ns -> ls_main (rs_lab r) = MEnd (ROk l) ->
  (exists pre b, rs_log r = pre ++ [b] /\ baseline_bad b /\ Forall (fun x => la_scenario x = Baseline) (rs_log r)
     /\ filter of_end ns = [NBaseline (la_phase b)])
  \/ (exists sh ws, rs_lab r = mkLS sh (MEnd (ROk (sh_lab sh))) ws /\ l = sh_lab sh /\ reach (mkLS sh MWork ws) /\ Forall (fun c => c = WEnd true) ws
      /\ filter of_end ns = final_notices l).
Proof.
  intros r ns l H E. destruct (says_inv _ _ _ _ _ _ _ _ H) as (_ & _ & C). unfold ended_from in C. rewrite E in C. destruct C as (r0 & R & S & C).
  destruct (last_step _ _ _ _ _ _ _ _ R S E) as [(sh & d & o & E1 & F & E2 & El & _)|(sh & ws & E1 & E2 & El & TT & _)].
  - left. destruct (bad_base _ _ _ _ _ R S E1 F E2) as (pre & b & pr & La & EL & Ph & Bb & Al). exists pre, b. split; [exact EL|]. split; [exact Bb|]. split; [exact Al|].
    rewrite C. unfold end_notices. rewrite E1, E2. cbn [ls_main]. rewrite La, Ph. reflexivity.
  - right. exists sh, ws. split; [exact E2|]. split; [exact El|]. split.
    + destruct (project P X o0 t0 ms r0 R) as [Hr|(sh0 & d0 & o1 & Y & _)]; [|rewrite E1 in Y; discriminate]. rewrite E1 in Hr. exact Hr.
    + split; [exact TT|]. rewrite C. unfold end_notices. rewrite E1, E2. cbn [ls_main ls_workers]. rewrite El.
      assert (J : forall i, join_notices intr i ws = []) by (clear - TT; induction TT as [|c ws -> _ IH]; intro i; [reflexivity|apply IH]). rewrite J. reflexivity.
Qed.

Lemma says_baseline : forall r ns p, ms <> [] -> saying r ns ->
  (In (NBaseline p) ns <-> ended_well r /\ exists pre b, rs_log r = pre ++ [b] /\ la_phase b = p /\ baseline_bad b).
Proof.
  intros r ns p NE H. pose proof (says_runs _ _ _ _ _ _ _ _ H) as R. split.
  - intro I. destruct (in_end _ _ _ _ _ _ _ _ (NBaseline p) H eq_refl I) as (r0 & R0 & S & J & x & Ex).
    assert (Nw : forall k, NBaseline p <> NWorker k) by (intros k Y; discriminate). destruct (end_is _ _ _ _ J Nw Ex) as [l ->]. split; [exists l; exact Ex|]. assert (Jf : In (NBaseline p) (filter of_end ns)) by (apply filter_In; auto).
    destruct (well_end r ns l H Ex) as [(pre & b & EL & Bb & _ & Fn)|(sh & ws & _ & _ & _ & _ & Fn)]; rewrite Fn in Jf.
    + destruct Jf as [Jf|[]]. injection Jf as <-. eauto.
    + unfold final_notices in Jf. destruct (_ =? _); [destruct Jf as [Jf|[]]; discriminate|]. destruct (_ =? _); [destruct Jf as [Jf|[]]; discriminate|destruct Jf].
  - intros ((l & Ex) & pre & b & EL & <- & Bb). destruct (well_end r ns l H Ex) as [(pre' & b' & EL' & Bb' & _ & Fn)|(sh & ws & Es & El & W & TT & Fn)].
    + rewrite EL in EL'. apply app_inj_tail in EL' as [_ <-]. assert (J : In (NBaseline (la_phase b)) (filter of_end ns)) by (rewrite Fn; left; reflexivity).
      apply filter_In in J. tauto.
    + exfalso. destruct (test_last r sh ws NE R Es W TT) as (pre' & b' & EL' & [m Sm]). rewrite EL in EL'. apply app_inj_tail in EL' as [_ <-].
      destruct Bb as [Y _]. congruence.
Qed.

Lemma end_only : forall r ns n, saying r ns -> In n ns -> n = NGenerated \/ n = NViable -> exists l, ls_main (rs_lab r) = MEnd (ROk l) /\ In n (filter of_end ns).
Proof.
  intros r ns n H I K. assert (Kn : of_end n = true) by (destruct K as [->| ->]; reflexivity).
  destruct (in_end _ _ _ _ _ _ _ _ n H Kn I) as (r0 & R0 & S & J & x & Ex).
  assert (Nw : forall k, n <> NWorker k) by (intros k Y; destruct K; congruence). destruct (end_is _ _ _ _ J Nw Ex) as [l ->]. exists l. split; [exact Ex|]. apply filter_In. auto.
Qed.

Lemma says_generated : forall r ns, ms <> [] -> saying r ns -> ~ In NGenerated ns.
Proof.
  intros r ns NE H I. pose proof (says_runs _ _ _ _ _ _ _ _ H) as R. destruct (end_only _ _ _ H I (or_introl eq_refl)) as (l & Ex & Jf).
  destruct (well_end r ns l H Ex) as [(pre & b & EL & Bb & _ & Fn)|(sh & ws & Es & El & W & TT & Fn)]; rewrite Fn in Jf.
  - destruct Jf as [Jf|[]]. discriminate.
  - unfold final_notices in Jf. rewrite El in Jf. pose proof (total_some r sh ws NE R Es W TT) as T. apply Nat.eqb_neq in T. rewrite T in Jf.
    destruct (_ =? _); [destruct Jf as [Jf|[]]; discriminate|destruct Jf].
Qed.

Lemma says_viable : forall r ns, ms <> [] -> saying r ns ->
  (In NViable ns <-> ended_well r /\ (exists b, In b (rs_log r) /\ for_mutant b) /\ forall b, In b (rs_log r) -> for_mutant b -> no_build b).
Proof.
  intros r ns NE H. pose proof (says_runs _ _ _ _ _ _ _ _ H) as R. split.
  - intro I. destruct (end_only _ _ _ H I (or_intror eq_refl)) as (l & Ex & Jf). split; [exists l; exact Ex|].
    destruct (well_end r ns l H Ex) as [(pre & b & EL & Bb & _ & Fn)|(sh & ws & Es & El & W & TT & Fn)]; rewrite Fn in Jf.
    + destruct Jf as [Jf|[]]. discriminate.
    + split.
      * destruct (test_last r sh ws NE R Es W TT) as (pre & b & EL & Fm). exists b. split; [rewrite EL; apply in_or_app; right; left; reflexivity|exact Fm].
      * apply (viable_iff r sh ws R Es). unfold final_notices in Jf. rewrite El in Jf. destruct (_ =? 0); [destruct Jf as [Jf|[]]; discriminate|].
        destruct (_ =? _) eqn:Q; [apply Nat.eqb_eq; exact Q|destruct Jf].
  - intros ((l & Ex) & (b & Ib & [m Sm]) & Al). destruct (well_end r ns l H Ex) as [(pre & b' & EL & _ & Bb & Fn)|(sh & ws & Es & El & W & TT & Fn)].
    + exfalso. rewrite Forall_forall in Bb. specialize (Bb b Ib). congruence.
    + apply (viable_iff r sh ws R Es) in Al. assert (J : In NViable (filter of_end ns)).
      { rewrite Fn. unfold final_notices. rewrite El. pose proof (total_some r sh ws NE R Es W TT) as T. apply Nat.eqb_neq in T. rewrite T, Al, Nat.eqb_refl. left. reflexivity. }
      apply filter_In in J. tauto.
Qed.

(** ** Threads *)
Lemma join_in : forall ws i k, In (NWorker k) (join_notices intr i ws) <->
  exists j, k = i + j /\ nth_error ws j = Some (WEnd false) /\ intr k = false /\ forall j', j' < j -> nth_error ws j' <> Some WPanic.
Proof.
  induction ws as [|c ws IH]; intros i k.
  - split; [intros []|]. intros (j & _ & Y & _). destruct j; discriminate.
  - assert (G : c <> WPanic -> (exists j, k = S i + j /\ nth_error ws j = Some (WEnd false) /\ intr k = false /\ forall j', j' < j -> nth_error ws j' <> Some WPanic)
              <-> exists j, k = i + S j /\ nth_error (c :: ws) (S j) = Some (WEnd false) /\ intr k = false /\ forall j', j' < S j -> nth_error (c :: ws) j' <> Some WPanic).
    { intro N. split; intros (j & A & B & C & D); exists j; (split; [lia|]); (split; [exact B|]); (split; [exact C|]); intros j' L.
      - destruct j' as [|j']; [cbn; congruence|]. apply D. lia.
      - apply (D (S j')). lia. }
    assert (Next : c <> WEnd false -> c <> WPanic -> (In (NWorker k) (join_notices intr (S i) ws) <->
       exists j, k = i + j /\ nth_error (c :: ws) j = Some (WEnd false) /\ intr k = false /\ forall j', j' < j -> nth_error (c :: ws) j' <> Some WPanic)).
    { intros N1 N2. rewrite IH, (G N2). split; [intros (j & Y); exists (S j); exact Y|]. intros ([|j] & A & B & C); [cbn in B; congruence|exists j; auto]. }
    cbn [join_notices]. destruct c; try (apply Next; discriminate).
    + destruct ok; [apply Next; discriminate|]. rewrite in_app_iff, IH, (G ltac:(discriminate)). split.
      * intros [I|(j & Y)]; [|exists (S j); exact Y]. exists 0. destruct (intr i) eqn:Ei; [destruct I|]. destruct I as [I|[]]. injection I as <-.
        split; [lia|]. split; [reflexivity|]. split; [exact Ei|]. intros j' L. lia.
      * intros ([|j] & A & B & C & D); [|right; exists j; auto]. left. assert (k = i) as -> by lia. rewrite C. left. reflexivity.
    + split; [intros []|]. intros ([|j] & A & B & C & D); [discriminate|]. exfalso. apply (D 0); [lia|reflexivity].
Qed.

Lemma end_workers : forall r0 r x, rreach r0 -> rstep P X ms r0 r -> ls_main (rs_lab r) = MEnd x ->
  (ls_main (rs_lab r0) = MWork /\ ls_workers (rs_lab r) = ls_workers (rs_lab r0) /\ x = join_threads (ls_workers (rs_lab r0)) (sh_lab (ls_sh (rs_lab r0))))
  \/ ((exists c, ls_main (rs_lab r0) = MBaseline c) /\ ls_workers (rs_lab r) = []).
Proof.
  intros r0 r x R S E. destruct S as [st lim log i d s done p todo polls rr t Hp Hg Ht|sh d o lim log t Ho Hm|sh d o lim log Ho Hm|st st' lim log Hst Hc Hb]; cbn [rs_lab rs_log] in *; try discriminate.
  - exfalso. destruct st as [sh mn ws]. destruct mn; cbn in *; try discriminate. destruct Hp.
  - right. cbn. eauto.
  - destruct Hst; cbn [ls_main ls_workers ls_sh] in *; try discriminate; try (right; split; [eexists; reflexivity|reflexivity]).
    left. injection E as <-. auto.
Qed.

Lemma says_workers : forall r ns i, saying r ns ->
  (In (NWorker i) ns <-> (exists x, ls_main (rs_lab r) = MEnd x) /\ nth_error (ls_workers (rs_lab r)) i = Some (WEnd false) /\ intr i = false
     /\ forall j, j < i -> nth_error (ls_workers (rs_lab r)) j <> Some WPanic).
Proof.
  intros r ns i H. split.
  - intro I. destruct (in_end _ _ _ _ _ _ _ _ (NWorker i) H eq_refl I) as (r0 & R0 & S & J & x & Ex). split; [eauto|].
    destruct (end_workers _ _ _ R0 S Ex) as [(M & -> & _)|((c & M) & _)]; unfold end_notices in J; rewrite M, Ex in J.
    + apply in_app_or in J. destruct J as [J|J].
      * apply join_in in J as (j & -> & Y). exact Y.
      * exfalso. destruct x as [l| |]; [|destruct J|destruct J]. unfold final_notices in J. destruct (_ =? _); [destruct J as [J|[]]; discriminate|].
        destruct (_ =? _); [destruct J as [J|[]]; discriminate|destruct J].
    + exfalso. destruct c; try destruct J. destruct x; try destruct J. destruct (last_result o); [destruct J as [J|[]]; discriminate|destruct J].
  - intros ((x & Ex) & A & B & C). destruct (end_in _ _ _ _ _ _ _ _ _ H Ex) as (r0 & R0 & S & K). apply K.
    destruct (end_workers _ _ _ R0 S Ex) as [(M & Ew & _)|(_ & Ew)]; rewrite Ew in *; [|destruct i; discriminate].
    unfold end_notices. rewrite M, Ex. apply in_or_app. left. apply join_in. exists i. auto.
Qed.

Lemma says_error : forall r ns, saying r ns -> ls_main (rs_lab r) = MEnd RErr -> ls_workers (rs_lab r) <> [] -> (forall i, intr i = false) -> exists i, In (NWorker i) ns.
Proof.
  intros r ns H E NW NI. destruct (end_in _ _ _ _ _ _ _ _ _ H E) as (r0 & R0 & S & _).
  destruct (end_workers _ _ _ R0 S E) as [(M & Ew & J)|(_ & Ew)]; [|contradiction]. unfold join_threads in J.
  destruct (existsb is_panic _) eqn:E1; [discriminate|]. destruct (existsb is_err _) eqn:E2; [|discriminate].
  apply existsb_exists in E2 as (c & Ic & Er). assert (c = WEnd false) as -> by (destruct c; try discriminate; destruct ok; [discriminate|reflexivity]).
  apply In_nth_error in Ic as [i Ni]. exists i. apply (says_workers r ns i H). split; [eauto|]. rewrite Ew. split; [exact Ni|]. split; [apply NI|].
  intros j _ Y. apply nth_error_In in Y. assert (Z : existsb is_panic (ls_workers (rs_lab r0)) = true) by (apply existsb_exists; exists WPanic; auto). congruence.
Qed.

Lemma says_so_far : forall r ns n, saying r ns -> (forall x, ls_main (rs_lab r) <> MEnd x) -> In n ns -> of_end n = false.
Proof.
  intros r ns n H N I. destruct (of_end n) eqn:K; [|reflexivity]. destruct (in_end _ _ _ _ _ _ _ _ n H K I) as (_ & _ & _ & _ & x & Ex). destruct (N x Ex).
Qed.
End Use.

Lemma zero_tests : forall P X o0 t0 ms q intr r ns l, ms <> [] -> Permutation ms q -> says P X q intr o0 t0 r ns ->
  ls_main (rs_lab r) = MEnd (ROk l) -> status (ETested ms l) = 0%Z -> pa_check_only P = false ->
  unclassified ns = [] -> ~ In NViable ns -> all_caught P ms (rs_log r) (negb (pa_skip_baseline P)).
Proof.
  intros P X o0 t0 ms q intr r ns l NE PQ H E St Ck Nu Nv. pose proof (says_runs _ _ _ _ _ _ _ _ H) as R.
  assert (Eqn : exists sh ws, rs_lab r = mkLS sh (MEnd (ROk l)) ws) by (destruct (rs_lab r) as [sh mn ws]; cbn in E; subst mn; eauto).
  destruct Eqn as (sh & ws & EE). destruct (at_end P X o0 t0 q r R sh l ws EE) as [Re El].
  pose proof (lab_meaning _ _ _ ms _ _ _ _ NE PQ Re) as M.
  destruct (at_end_parts P X o0 t0 q r R sh l ws EE) as (bl & rest & fin & EL & Job & Bs & W & Pb & Pm).
  destruct (tests_of P (filter of_mutant (lo_outcomes l)) fin) as (ts & T & Ts); [|exact Pm|].
  { intros o Ho. apply filter_In in Ho as [Ho Hm]. split; [|eapply summary_of; eassumption].
    unfold of_mutant in Hm. destruct (oc_scenario o) as [|m]; [discriminate|]. eauto. }
  pose proof (fun v => verdicts_are l ts fin v T) as VA.
  destruct (exists_last NE) as (ms' & m1 & Em). assert (I1 : In m1 ms) by (rewrite Em; apply in_or_app; right; left; reflexivity). clear ms' Em.
  rewrite St in M. inversion M as [| | | | | | |ms0 l0 A B| | |]; subst ms0 l0.
  destruct (A m1 I1) as (v0 & V0).
  assert (NF : forall m v, verdict l m v -> v = SumCaught \/ v = SumUnviable).
  { intros m v V. destruct (B m v V) as [B1 B2]. assert (Iv : In v (map (fun x => snd (fst x)) ts)) by (apply VA; eauto).
    apply in_map_iff in Iv as ([[m2 v2] b2] & Y & Ix). cbn in Y. subst v2. rewrite Forall_forall in Ts. destruct (Ts _ Ix) as [_ Ex]. cbn in Ex. rewrite Ck in Ex.
    destruct v; try congruence; auto.
    - inversion Ex; subst; discriminate.
    - exfalso. destruct V as (o & Io & So & Vo). assert (Iu : In m (unclassified ns)); [|rewrite Nu in Iu; destruct Iu].
      rewrite (says_unclassified _ _ _ _ _ _ _ _ H). apply in_flat_map. exists o. split; [unfold outcomes_of; rewrite EE; cbn [ls_sh]; rewrite <- El; exact Io|].
      rewrite So, Vo. left. reflexivity. }
  apply (al_caught _ _ _ _ bl rest ts); try assumption.
  - destruct (pa_skip_baseline P) eqn:Sk; cbn [negb].
    + apply Bs. reflexivity.
    + destruct (C14_only_after_baseline _ _ _ _ _ Re Sk) as (o & I & B0).
      * right. cbn [ls_sh]. rewrite <- El. apply verdict_recorded in V0. intro Y. rewrite Y in V0. destruct V0.
      * cbn [ls_sh] in I. rewrite <- El in I. destruct B0 as (B1 & B2 & B3). split; [exact Job|]. destruct (Pb o I B1) as [_ Gv].
        assert (J : map la_phase bl = (if pa_check_only P then [Check] else [Build; Test]) /\ Forall (fun l => ended l (WExited 0)) bl).
        { eapply base_passed; try eassumption.
          -- unfold oc_success, last_result. assert (NN : oc_results o <> []) by (intro Y; rewrite Y in B2; unfold phases in B2; destruct (pa_check_only P); discriminate B2).
             destruct (exists_last NN) as (rs & p0 & Er). rewrite Er in B3 |- *. apply Forall_app in B3 as [_ B3]. inversion B3 as [|? ? S _]; subst.
             rewrite last_app. cbn. congruence.
          -- intros x Hx. rewrite EL. apply in_or_app. left. exact Hx. }
        rewrite Ck in J. exact J.
  - rewrite (triples_mutants _ _ _ T), mutants_filter. destruct (C12_all_recorded _ _ _ _ _ _ _ Re) as [PM|[Y _]].
    + eapply Permutation_trans; [exact PM|apply Permutation_sym; exact PQ].
    + apply verdict_recorded in V0. rewrite Y in V0. destruct V0.
  - apply Forall_forall. intros x Ix. assert (Iv : In (snd (fst x)) (map (fun x => snd (fst x)) ts)) by (apply in_map_iff; eauto).
    apply VA in Iv as [m V]. exact (NF m _ V).
  - assert (NQ : q <> []) by (intro Y; subst q; apply Permutation_sym, Permutation_nil in PQ; contradiction).
    destruct (well_end _ _ _ _ _ _ _ _ _ H E) as [(pre & b & EL' & _ & Al & _)|(sh' & ws' & E1 & E2 & W1 & TT & Fn)].
    + exfalso. destruct V0 as (o & Io & So & Vo).
      assert (If : In o (filter of_mutant (lo_outcomes l))) by (apply filter_In; split; [exact Io|unfold of_mutant; rewrite So; reflexivity]).
      destruct (Forall2_in_l _ _ _ _ Pm If) as (b' & Ib & [[d Jb] G] & _). pose proof (results_end _ _ _ _ _ _ _ Re) as F. rewrite Forall_forall in F. specialize (F o Io).
      destruct b' as [|x b']; [cbn in G; destruct (oc_results o); [apply F; reflexivity|discriminate]|]. inversion Jb as [|? ? [_ Sx] _]; subst.
      rewrite Forall_forall in Al. assert (Ix : In x (rs_log r)) by (rewrite EL; apply in_or_app; right; eapply woven_in; [exact W|exact Ib|left; reflexivity]).
      specialize (Al x Ix). congruence.
    + assert (Iv : In SumCaught (map (fun x => snd (fst x)) ts)).
      { apply VA. destruct (totals P X o0 t0 q r sh' ws' R E1) as [T1 T2]. rewrite <- E2 in T1, T2.
        assert (NQT : lo_unviable l <> lo_total l).
        { intro Y. apply Nv. assert (J : In NViable (filter of_end ns)); [|apply filter_In in J; tauto]. rewrite Fn. unfold final_notices.
          pose proof (total_some P X o0 t0 q r sh' ws' NQ R E1 W1 TT) as T0. rewrite <- E2 in T0. apply Nat.eqb_neq in T0. rewrite T0, Y, Nat.eqb_refl. left. reflexivity. }
        rewrite T1, T2 in NQT. destruct (existsb (mutant_with SumCaught) (lo_outcomes l)) eqn:Ec.
        - apply existsb_exists in Ec as (o & Io & Mo). unfold mutant_with in Mo. destruct (oc_scenario o) as [|m] eqn:So; [discriminate|]. cbn in Mo.
          exists m, o. split; [exact Io|]. split; [exact So|]. destruct (summary o) as [[]|]; try discriminate. reflexivity.
        - exfalso. apply NQT. apply how_many_same. intros o Io. unfold mutant_with. destruct (oc_scenario o) as [|m] eqn:So; [reflexivity|]. cbn.
          destruct (summary_of P X o0 t0 q r R sh l ws EE o Io) as [v Vo]. rewrite Vo. destruct (NF m v) as [->| ->]; [exists o; auto| |reflexivity].
          assert (Y : existsb (mutant_with SumCaught) (lo_outcomes l) = true); [|congruence]. apply existsb_exists. exists o. split; [exact Io|].
          unfold mutant_with. rewrite So, Vo. reflexivity. }
      apply in_map_iff in Iv as (x & Ex & Ix). apply Exists_exists. exists x. auto.
  - destruct T as [_ ->]. exact W.
Qed.

(** ** Running *)
Fixpoint sexec (P : params) (X : context) (ms : list mutant) (intr : nat -> bool) (xs : list (nat * option (exit_t * N))) (r : rstate) (ns : list notice) :
  option (rstate * list notice) :=
  match xs with
  | [] => Some (r, ns)
  | x :: xs' => match rexec1 P X ms x r with Some r' => sexec P X ms intr xs' r' (ns ++ step_notices intr r r') | None => None end
  end.
Lemma sexec_sound : forall P X ms intr o0 t0 xs r ns, sexec P X ms intr xs (rstart P X ms o0 t0) [] = Some (r, ns) -> says P X ms intr o0 t0 r ns.
Proof.
  intros P X ms intr o0 t0 xs r ns H.
  assert (K : forall xs a na b nb, says P X ms intr o0 t0 a na -> sexec P X ms intr xs a na = Some (b, nb) -> says P X ms intr o0 t0 b nb).
  { clear. induction xs as [|x xs IH]; intros a na b nb Ha E; cbn [sexec] in E; [injection E as <- <-; exact Ha|].
    destruct (rexec1 P X ms x a) as [c|] eqn:E1; [|discriminate]. eapply IH; [|exact E]. eapply sa_step; [exact Ha|]. eapply rexec1_sound. exact E1. }
  eapply K; [apply sa_start|exact H].
Qed.
