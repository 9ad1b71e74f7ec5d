(** Proofs about whole runs. *)
From Coq Require Import String List NArith ZArith Bool Arith Lia Permutation.
From Verif Require Import Text SpanM PathM PathS PathP MutantM ProcessM OutcomeM OutcomeS OutputM IterateM InDiffM InDiffS ShardM PackageM PackageS PackageP OptionsM CargoM CargoS
  PrettyM FnValueM VisitM VisitS WalkM WalkS LabM LabS LabP LabT ConsoleP DetP MainM MainS MainP WholeM WholeS WholeP LaunchM LaunchS LaunchP LaunchT EndM EndS.
Import ListNotations.
Open Scope list_scope.

Lemma selects_incl : forall A (f : A -> Prop) l r, InDiffS.selects f l r -> incl r l.
Proof. intros A f l r H. induction H; intros y I; [destruct I|destruct I as [->|I]; [left; reflexivity|right; apply IHselects; exact I]|right; apply IHselects; exact I]. Qed.

Lemma select_incl : forall pp c es ms q, select pp c es ms = Done q -> incl q ms.
Proof.
  intros pp c es ms q H. unfold select in H.
  destruct (iterate_step c es ms) as [ms1| |] eqn:I; try discriminate. cbn [bind] in H.
  destruct (diff_step pp c ms1) as [ms2| |] eqn:D; try discriminate. cbn [bind] in H.
  assert (A : incl ms1 ms).
  { unfold iterate_step in I. destruct (cl_iterate c); [|injection I as <-; apply incl_refl].
    destruct (remove_previously_caught _ ms) as [r|] eqn:R; [|discriminate]. injection I as <-. eapply selects_incl. eapply remove_selects. exact R. }
  assert (B : incl ms2 ms1).
  { unfold diff_step in D. destruct (cl_diff c) as [[d|]|]; try discriminate; [|injection D as <-; apply incl_refl].
    unfold diff_filter in D. destruct (forallb _ _); [injection D as <-; intros y []|]. destruct (pp _); [|discriminate].
    destruct (negb _); [discriminate|]. destruct (changed_by_path _ _); [|discriminate]. injection D as <-.
    intros y Hy. apply filter_In in Hy. tauto. }
  assert (C : incl q ms2).
  { unfold shard_step in H. destruct (cl_shard c); [|injection H as <-; apply incl_refl].
    destruct (shard_select _ ms2) eqn:S; [|discriminate]. injection H as <-. eapply shard_incl. exact S. }
  intros y Hy. apply A, B, C, Hy.
Qed.

Lemma after_found : forall w lk fuel a s ms es, after w lk fuel a s = Done (Tests ms es) ->
  exists ps errs, mutated_packages (fun d => locate_project w d false) (se_meta s) (se_filter s) = Some ps
    /\ Forall2 (fun e t => wo_expr w e = Some t) (op_error_values (se_options s)) errs
    /\ (forall m, In m ms -> of_packages w (md_root (se_meta s)) (se_options s) errs ps m)
    /\ (ag_iterate a = false -> ag_in_diff a = None -> ag_shard a = None ->
        forall m, of_packages w (md_root (se_meta s)) (se_options s) errs ps m -> In m ms).
Proof.
  intros w lk fuel a s ms es A. unfold after in A. destruct (discover w fuel s) as [v found fs| | |] eqn:D; try discriminate.
  destruct (discover_inv _ _ _ _ _ _ D) as (ps & errs & M & F & Iff). exists ps, errs.
  destruct (run_tests _ _ _ _ _ _ _ _ _ _ _ _ A) as (_ & _ & Sel). split; [exact M|]. split; [exact F|]. split.
  - intros m Hm. apply Iff. eapply select_incl; eassumption.
  - intros I Df Sh m Hm. apply Iff in Hm. unfold select, iterate_step, diff_step, shard_step in Sel. cbn [cli_of cl_iterate cl_diff cl_shard] in Sel.
    rewrite I, Df, Sh in Sel. cbn in Sel. injection Sel as <-. exact Hm.
Qed.

Lemma found_loaded : forall w s P ms errs ps, tree_as_read w s P ms ->
  (forall m, In m ms -> of_packages w (md_root (se_meta s)) (se_options s) errs ps m) -> forall m, In m ms -> loaded P m.
Proof.
  intros w s P ms errs ps T O m Hm. destruct (T m Hm) as [A B]. destruct (O m Hm) as (p & e & f & tree & _ & _ & L & _ & _ & Of & _).
  split; [exact A|]. destruct Of as (anc & k & cs & _ & _ & _ & _ & Em).
  assert (Ef : mu_file m = f) by (rewrite Em; reflexivity). clear Em. unfold load in L.
  destruct (0 <? ascent (fst e))%Z; [discriminate|]. destruct (wo_read w (path_join (md_root (se_meta s)) (fst e))) as [c|] eqn:R; [|discriminate].
  injection L as L. exists c. rewrite B, Ef, <- L. cbn [sf_path sf_code]. rewrite R. split; [reflexivity|apply crlf_spec].
Qed.

Lemma found_package : forall w s errs ps m, names_unique (se_meta s) ->
  mutated_packages (fun d => locate_project w d false) (se_meta s) (se_filter s) = Some ps ->
  of_packages w (md_root (se_meta s)) (se_options s) errs ps m ->
  In (package_of (se_meta s) m) ps /\ of_packages w (md_root (se_meta s)) (se_options s) errs [package_of (se_meta s) m] m.
Proof.
  intros w s errs ps m U M (p & e & f & tree & Ip & R & L & Sy & G & Of & Al).
  assert (E : package_of (se_meta s) m = p).
  { unfold package_of. assert (N : sf_package (mu_file m) = pk_name p).
    { destruct Of as (anc & k & cs & _ & _ & _ & _ & Em). assert (Ef : mu_file m = f) by (rewrite Em; reflexivity).
      rewrite Ef. unfold load in L. destruct (_ <? _)%Z; [discriminate|]. destruct (wo_read w _); [|discriminate]. injection L as <-. reflexivity. }
    rewrite N. assert (Fn : find (fun p0 => text_eqb (pk_name p0) (pk_name p)) (packages_from_metadata (se_meta s)) = Some p).
    { apply find_name; [apply packages_nodup; exact U|]. split; [eapply mutated_in; eassumption|reflexivity]. }
    rewrite Fn. reflexivity. }
  rewrite E. split; [exact Ip|]. exists p, e, f, tree. repeat split; try assumption. left. reflexivity.
Qed.

Lemma command_perm : forall P X ms q l, Permutation ms q -> right_command P X q l -> right_command P X ms l.
Proof.
  intros P X ms q l PQ (A & ws & args & B & C & D & E). split; [exact A|]. exists ws, args. split; [exact B|]. split; [exact C|].
  split; [|exact E]. clear - D PQ. assert (I : forall m, In m q <-> In m ms).
  { intro m. split; apply Permutation_in; [apply Permutation_sym|]; exact PQ. }
  unfold right_packages in *. destruct (la_scenario l) as [|m].
  - intro w. rewrite D. split; intros (m & Hm & Ew); exists m; split; try exact Ew; apply I; exact Hm.
  - destruct D as [D1 D2]. split; [apply I; exact D1|exact D2].
Qed.

Lemma of_all : forall s log ls, of_scenario s log ls -> Forall (fun l => la_scenario l = s) log -> ls = log.
Proof.
  intros s log ls H. induction H as [|l log ls E H IH|l log ls E H IH]; intro F; [reflexivity| |]; inversion F; subst.
  - f_equal. auto.
  - contradiction.
Qed.

Section Run.
Context (P : params) (X : context) (o0 : entries) (t0 : tree) (ms q : list mutant) (r : rstate).
Hypothesis PQ : Permutation ms q.
Hypothesis ND : NoDup ms.
Hypothesis U : names_unique (cx_meta X).
Hypothesis LD : forall m, In m ms -> loaded P m.
Hypothesis FT : first_tree P t0.
Hypothesis OK : options_ok P.
Hypothesis R : rreachable P X q o0 t0 r.

Lemma qd : NoDup q.
Proof. eapply Permutation_NoDup; eassumption. Qed.
Lemma ql : forall m, In m q -> loaded P m.
Proof. intros m Hm. apply LD. eapply Permutation_in; [apply Permutation_sym; exact PQ|exact Hm]. Qed.

Lemma good_log : forall l, In l (rs_log r) -> right_command P X ms l /\ right_files P l.
Proof.
  intros l Hl. split; [eapply command_perm; [exact PQ|]; eapply command_right; eassumption|].
  pose proof (proper_inv P X o0 t0 q r R) as F. rewrite Forall_forall in F. destruct (F l Hl) as (_ & _ & _ & _ & K).
  apply K; [exact ql|exact FT|exact OK].
Qed.

Lemma good_part : forall s ls, of_scenario s (rs_log r) ls -> Forall (right_command P X ms) ls /\ Forall (right_files P) ls.
Proof. intros s ls O. split; apply Forall_forall; intros l Hl; apply good_log; apply (of_in _ _ _ _ O Hl). Qed.

Variable (sh : shared) (l : lab_outcome mutant) (ws : list wpc).
Hypothesis E : rs_lab r = mkLS sh (MEnd (ROk l)) ws.

Lemma at_end : reachable P o0 t0 q (mkLS sh (MEnd (ROk l)) ws) /\ l = sh_lab sh.
Proof.
  destruct (project P X o0 t0 q r R) as [Hl|(sh' & d & b & E' & _)]; [|rewrite E in E'; discriminate].
  rewrite E in Hl. split; [exact Hl|]. exact (proj1 (c12_ok _ _ _ _ _ _ _ Hl)).
Qed.

Lemma verdict_tested : forall m v, verdict l m v -> tested P X ms (rs_log r) m v.
Proof.
  intros m v (o & I & S & V). destruct at_end as [Re El].
  destruct (C65_verdict P X o0 t0 q r o m v qd U ql FT OK R) as (ls & A & B & _).
  - rewrite E. cbn [ls_sh]. rewrite <- El. exact I.
  - exact S.
  - exact V.
  - exists ls. split; [exact A|]. split; [exact B|]. apply good_part with (s := Mutant m). exact A.
Qed.

Lemma given_last : forall ls rs, map given ls = map Some rs -> forall x e, In x ls -> In e [x] -> exists pr, In pr rs /\ la_phase x = pr_phase pr /\ la_result x = Some (pr_status pr, pr_duration pr).
Proof.
  intros ls rs H x e Hx _. assert (I : In (given x) (map Some rs)) by (rewrite <- H; apply in_map; exact Hx).
  apply in_map_iff in I as (pr & E1 & I). exists pr. split; [exact I|]. unfold given in E1. destruct (la_result x) as [[e0 d]|]; [|discriminate].
  injection E1 as ->. auto.
Qed.

Lemma given_phases : forall ls rs, map given ls = map Some rs -> map la_phase ls = map pr_phase rs.
Proof.
  induction ls as [|x ls IH]; intros [|y rs] H; try discriminate; [reflexivity|]. cbn [map] in *. injection H as H1 H2. f_equal; [|apply IH; exact H2].
  unfold given in H1. destruct (la_result x) as [[e0 d]|]; [|discriminate]. injection H1 as <-. reflexivity.
Qed.

Lemma succeeded : forall ls rs, (forall x, In x ls -> In x (rs_log r)) -> map given ls = map Some rs ->
  Forall (fun pr => is_success (pr_status pr) = true) rs -> Forall (fun x => ended x (WExited 0)) ls.
Proof.
  intros ls rs I G F. apply Forall_forall. intros x Hx. destruct (given_last _ _ G x x Hx (or_introl eq_refl)) as (pr & Ip & _ & Er).
  rewrite Forall_forall in F. specialize (F pr Ip). pose proof (status_ended P X o0 t0 q r x _ _ R (I x Hx) Er) as K.
  destruct (pr_status pr); try discriminate. exact K.
Qed.

Lemma last_app : forall (rs : list phase_result) p, last_opt (rs ++ [p]) = Some p.
Proof. induction rs as [|x [|y rs] IH]; intro p; [reflexivity|reflexivity|exact (IH p)]. Qed.

(** The processes without mutations, and the tests of mutants. *)
Lemma at_end_parts : exists bl rest fin, rs_log r = bl ++ rest /\ one_job Baseline bl /\ (pa_skip_baseline P = true -> bl = []) /\ woven fin rest
  /\ (forall o, In o (lo_outcomes l) -> oc_scenario o = Baseline -> part_of o bl)
  /\ Forall2 (fun o b => part_of o b /\ forall v, summary o = Some v -> explains (pa_check_only P) b v) (filter of_mutant (lo_outcomes l)) fin.
Proof.
  destruct at_end as [_ El]. destruct (C65_parts P X o0 t0 q r R) as (bl & rest & fin & opn & A & B & Bs & C & _ & D & F & _ & _ & _ & G).
  rewrite E in G, D, F. cbn [ls_main ls_sh] in G, D, F. rewrite <- El in D, F. rewrite (G l eq_refl), app_nil_r in C. exists bl, rest, fin. auto 10.
Qed.

Lemma base_passed : forall o bl, In o (lo_outcomes l) -> oc_success o = Some true -> map given bl = map Some (oc_results o) -> (forall x, In x bl -> In x (rs_log r)) ->
  map la_phase bl = (if pa_check_only P then [Check] else [Build; Test]) /\ Forall (fun l => ended l (WExited 0)) bl.
Proof.
  intros o bl I S G IN. destruct at_end as [Re El]. pose proof (C10_recorded _ _ _ _ _ o Re) as F. cbn [ls_sh] in F. rewrite <- El in F. specialize (F I).
  destruct F as [[Fp Fs]|(bf & pr & lt & Er & _ & _ & N)].
  - split; [rewrite (given_phases _ _ G), Fp; unfold phases; destruct (pa_check_only P); reflexivity|]. eapply succeeded; eassumption.
  - exfalso. unfold oc_success, last_result in S. rewrite Er, last_app in S. cbn in S. congruence.
Qed.

Lemma woven_nil : forall log, woven [] log -> log = [].
Proof. intros log H. inversion H as [n|bs1 b bs2 log' x H1 E1]; [reflexivity|]. destruct bs1; discriminate. Qed.

Lemma base_wrong : forall o, In o (lo_outcomes l) -> baseline_unsuccessful o -> baseline_wrong P X ms (rs_log r).
Proof.
  intros o I [B N]. destruct at_end as [Re El]. pose proof (C10_recorded _ _ _ _ _ o Re) as F. cbn [ls_sh] in F. rewrite <- El in F. specialize (F I).
  assert (Nt : oc_success o <> Some true).
  { unfold oc_success, last_result. destruct (last_opt (oc_results o)) as [pr|] eqn:L; [|discriminate]. specialize (N pr eq_refl).
    destruct (pr_status pr); cbn; try discriminate. congruence. }
  assert (I' : In o (lo_outcomes (sh_lab (ls_sh (mkLS sh (MEnd (ROk l)) ws))))) by (cbn [ls_sh]; rewrite <- El; exact I).
  destruct (C14_failed_baseline _ _ _ _ _ o Re I' B Nt) as (Eq & _). cbn [ls_sh] in Eq. rewrite <- El in Eq.
  destruct at_end_parts as (bl & rest & fin & EL & Job & Bs & W & Pb & Pm).
  assert (Z : filter of_mutant (lo_outcomes l) = []).
  { destruct (filter of_mutant (lo_outcomes l)) as [|o' os] eqn:Ef; [reflexivity|]. exfalso.
    assert (J : In o' (filter of_mutant (lo_outcomes l))) by (rewrite Ef; left; reflexivity). apply filter_In in J as [J Jm]. unfold of_mutant in Jm.
    destruct (oc_scenario o') as [|m] eqn:Es; [discriminate|]. assert (K : In m (recorded l)) by (apply recorded_in; eauto). rewrite Eq in K. destruct K. }
  rewrite Z in Pm. inversion Pm; subst fin. apply woven_nil in W. subst rest. rewrite app_nil_r in EL. subst bl.
  destruct (Pb o I B) as [_ G]. destruct Job as [d Job].
  assert (All : Forall (fun x => la_scenario x = Baseline) (rs_log r)) by (eapply Forall_impl; [|exact Job]; intros x [_ Hx]; exact Hx).
  destruct F as [[Fp Fs]|(bf & pr & lt & Er & _ & Fb & Np)].
  - exfalso. assert (NE : oc_results o <> []) by (intro Y; rewrite Y in Fp; unfold phases in Fp; destruct (pa_check_only P); discriminate Fp).
    destruct (exists_last NE) as (rs & p0 & Er). rewrite Er in Fs. apply Forall_app in Fs as [_ Fs]. inversion Fs as [|? ? S _]; subst.
    apply Nt. unfold oc_success, last_result. rewrite Er, last_app. cbn. congruence.
  - rewrite Er in G. destruct (map_given_app _ _ _ G) as (la & lb & El' & Ga & Gb). destruct (given_one _ _ Gb) as (b & -> & _ & Rb).
    exists la, b. split; [exact El'|]. rewrite <- El'. split; [exact All|]. split.
    + eapply succeeded; [|exact Ga|exact Fb]. intros x Hx. rewrite El'. apply in_or_app. left. exact Hx.
    + split; [|split; apply Forall_forall; intros x Hx; apply good_log; exact Hx].
      assert (Ib : In b (rs_log r)) by (rewrite El'; apply in_or_app; right; left; reflexivity).
      pose proof (status_ended P X o0 t0 q r b _ _ R Ib Rb) as K. destruct (pr_status pr); cbn in Np; try discriminate.
      * destruct K as [Kn K]. right. exists (WExited code). split; [congruence|exact K].
      * left. exact K.
      * destruct K as (st & Kn & K). right. exists st. split; [intro Y; rewrite Y in Kn; exact Kn|exact K].
      * destruct K as (st & Kn & K). right. exists st. split; [intro Y; rewrite Y in Kn; exact Kn|exact K].
Qed.

Lemma base_fine : forall o, In o (lo_outcomes l) -> oc_scenario o = Baseline -> oc_success o = Some true -> baseline_fine P X ms (rs_log r).
Proof.
  intros o I B S. destruct at_end as [Re El].
  destruct (C65_once P X o0 t0 q r qd R) as [O _]. rewrite E in O. cbn [ls_sh] in O. rewrite <- El in O. destruct (O o I) as (ls & A & G). rewrite B in A.
  exists ls. split; [exact A|]. pose proof (fun x Hx => proj1 (of_in _ _ _ x A Hx)) as IN.
  destruct (base_passed o ls I S G IN) as [J1 J2]. split; [exact J1|]. split; [exact J2|eapply good_part; exact A].
Qed.

Lemma summary_of : forall o, In o (lo_outcomes l) -> exists v, summary o = Some v.
Proof.
  intros o I. destruct at_end as [Re _]. pose proof (results_end _ _ _ _ _ _ _ Re) as F. rewrite Forall_forall in F. exact (summary_total _ o (F o I)).
Qed.

Definition triples (os : list (outcome mutant)) (bs : list (list launch)) (ts : list (mutant * summary_outcome * list launch)) : Prop :=
  Forall2 (fun o t => oc_scenario o = Mutant (fst (fst t)) /\ summary o = Some (snd (fst t))) os ts /\ map snd ts = bs.

Lemma tests_of : forall os fin, (forall o, In o os -> (exists m, oc_scenario o = Mutant m) /\ exists v, summary o = Some v) ->
  Forall2 (fun o b => part_of o b /\ forall v, summary o = Some v -> explains (pa_check_only P) b v) os fin ->
  exists ts, triples os fin ts /\ Forall (fun x => test_of P (fst (fst x)) (snd (fst x)) (snd x)) ts.
Proof.
  intros os fin A F. induction F as [|o b os fin [[J _] Ex] F IH].
  - exists []. split; [split; constructor|constructor].
  - destruct IH as (ts & [T1 T2] & T3); [intros o' Ho'; apply A; right; exact Ho'|].
    destruct (A o (or_introl eq_refl)) as [[m Em] [v Ev]]. exists ((m, v, b) :: ts). split; [split; [constructor; [split; assumption|exact T1]|cbn; rewrite T2; reflexivity]|].
    constructor; [|exact T3]. split; cbn; [rewrite <- Em; exact J|apply Ex; exact Ev].
Qed.

Lemma triples_mutants : forall os bs ts, triples os bs ts -> map (fun x => fst (fst x)) ts = flat_map (fun o => match oc_scenario o with Mutant m => [m] | Baseline => [] end) os.
Proof. intros os bs ts [H _]. induction H as [|o t os ts [E0 _] H IH]; [reflexivity|]. cbn. rewrite E0, IH. reflexivity. Qed.
Lemma triples_verdict : forall os bs ts v, triples os bs ts -> In v (map (fun x => snd (fst x)) ts) <-> exists o, In o os /\ summary o = Some v.
Proof.
  intros os bs ts v [H _]. induction H as [|o t os ts [_ E0] H IH]; cbn; [split; [intros []|intros (o & [] & _)]|]. rewrite IH. split.
  - intros [<-|(o' & I & Y)]; [exists o; auto|exists o'; auto].
  - intros (o' & [<-|I] & Y); [left; congruence|right; eauto].
Qed.
Lemma mutants_filter : forall os : list (outcome mutant), flat_map (fun o => match oc_scenario o with Mutant m => [m] | Baseline => [] end) (filter of_mutant os)
  = flat_map (fun o => match oc_scenario o with Mutant m => [m] | Baseline => [] end) os.
Proof. induction os as [|o os IH]; [reflexivity|]. cbn. unfold of_mutant at 1. destruct (oc_scenario o) eqn:E0; cbn; rewrite ?E0, IH; reflexivity. Qed.

Lemma verdicts_are : forall ts bs v, triples (filter of_mutant (lo_outcomes l)) bs ts -> In v (map (fun x => snd (fst x)) ts) <-> exists m, verdict l m v.
Proof.
  intros ts bs v T. rewrite (triples_verdict _ _ _ v T). split.
  - intros (o & I & S). apply filter_In in I as [I M]. unfold of_mutant in M. destruct (oc_scenario o) as [|m] eqn:Es; [discriminate|]. exists m, o. auto.
  - intros (m & o & I & Es & S). exists o. split; [|exact S]. apply filter_In. split; [exact I|]. unfold of_mutant. rewrite Es. reflexivity.
Qed.
End Run.

Lemma evidence_end : forall P X o0 t0 ms q r sh l ws, ms <> [] -> Permutation ms q -> NoDup ms -> names_unique (cx_meta X) ->
  (forall m, In m ms -> loaded P m) -> first_tree P t0 -> options_ok P -> rreachable P X q o0 t0 r ->
  rs_lab r = mkLS sh (MEnd (ROk l)) ws -> evidence P X ms (rs_log r) (negb (pa_skip_baseline P)) (status (ETested ms l)).
Proof.
  intros P X o0 t0 ms q r sh l ws NE PQ ND U LD FT OK R E. destruct (at_end P X o0 t0 q r R sh l ws E) as [Re El].
  pose proof (lab_meaning _ _ _ ms _ _ _ _ NE PQ Re) as M.
  assert (VT : forall m v, verdict l m v -> tested P X ms (rs_log r) m v) by (intros m v; eapply verdict_tested; eassumption).
  assert (BF : (exists m v, verdict l m v) -> negb (pa_skip_baseline P) = true -> baseline_fine P X ms (rs_log r)).
  { intros (m & v & V) Sk. apply negb_true_iff in Sk. destruct (C14_only_after_baseline _ _ _ _ _ Re Sk) as (o & I & B).
    - right. cbn [ls_sh]. rewrite <- El. apply verdict_recorded in V. intro Y. rewrite Y in V. destruct V.
    - cbn [ls_sh] in I. rewrite <- El in I. destruct B as (B1 & B2 & B3). eapply base_fine; try eassumption.
      unfold oc_success, last_result. assert (NN : oc_results o <> []) by (intro Y; rewrite Y in B2; unfold phases in B2; destruct (pa_check_only P); discriminate B2).
      destruct (exists_last NN) as (rs & p0 & Er). rewrite Er in B3 |- *. apply Forall_app in B3 as [_ B3]. inversion B3 as [|? ? S _]; subst.
      assert (La : last_opt (rs ++ [p0]) = Some p0) by (clear; induction rs as [|x [|y rs] IH]; [reflexivity|reflexivity|exact IH]).
      rewrite La. cbn. congruence. }
  assert (ALL : (exists m v, verdict l m v) -> forall m, In m ms -> exists v, verdict l m v).
  { intros (m0 & v0 & V0) m Hm. destruct (C12_all_recorded _ _ _ _ _ _ _ Re) as [PM|[Y _]].
    - apply (Permutation_in _ PQ) in Hm. apply (Permutation_in _ (Permutation_sym PM)) in Hm. apply recorded_in in Hm. destruct Hm as (o & I & S).
      pose proof (results_end _ _ _ _ _ _ _ Re) as F. rewrite Forall_forall in F. destruct (summary_total _ o (F o I)) as [v V]. exists v, o. auto.
    - apply verdict_recorded in V0. rewrite Y in V0. destruct V0. }
  destruct (exists_last NE) as (ms' & m1 & Em). assert (I1 : In m1 ms) by (rewrite Em; apply in_or_app; right; left; reflexivity). clear ms' Em.
  remember (ETested ms l) as e eqn:Ee. remember (status e) as n eqn:En. clear En.
  destruct M as [| |? ? ?| |?| | |ms0 l0 A B|ms0 l0 m Im V NT|ms0 l0 m Im V|ms0 l0 o NE0 Io Uo NV]; try discriminate; injection Ee as -> ->.
  - apply ev_success.
    + destruct (A m1 I1) as [v V]. apply BF. eauto.
    + intros m Hm. destruct (A m Hm) as [v V]. exists v. split; [apply VT; exact V|]. exact (B m v V).
  - apply (ev_missed _ _ _ _ _ m); [apply BF; eauto|exact Im|apply VT; exact V|].
    intros m' Hm'. destruct (ALL ltac:(eauto) m' Hm') as [v V']. exists v. split; [apply VT; exact V'|]. intros ->. exact (NT m' V').
  - apply (ev_timeout _ _ _ _ _ m); [apply BF; eauto|exact Im|apply VT; exact V|].
    intros m' Hm'. destruct (ALL ltac:(eauto) m' Hm') as [v V']. exists v. apply VT; exact V'.
  - apply ev_baseline.
    + destruct (scenarios_end _ _ _ _ _ _ _ Re) as [[PM _]|(Sk & _)]; [|rewrite Sk; reflexivity].
      destruct (pa_skip_baseline P); [|reflexivity]. exfalso. assert (J : In Baseline (map oc_scenario (lo_outcomes l))).
      { apply in_map_iff. exists o. split; [apply Uo|exact Io]. }
      apply (Permutation_in _ PM) in J. cbn [app] in J. apply in_map_iff in J. destruct J as (m & J & _). discriminate J.
    + eapply base_wrong; eassumption.
Qed.

Lemma account_end : forall P X o0 t0 ms q r sh l ws, ms <> [] -> Permutation ms q -> names_unique (cx_meta X) ->
  (forall m, In m ms -> loaded P m) -> first_tree P t0 -> options_ok P -> rreachable P X q o0 t0 r ->
  rs_lab r = mkLS sh (MEnd (ROk l)) ws -> account P X ms (rs_log r) (negb (pa_skip_baseline P)) (status (ETested ms l)).
Proof.
  intros P X o0 t0 ms q r sh l ws NE PQ U LD FT OK R E. destruct (at_end P X o0 t0 q r R sh l ws E) as [Re El].
  pose proof (lab_meaning _ _ _ ms _ _ _ _ NE PQ Re) as M.
  destruct (at_end_parts P X o0 t0 q r R sh l ws E) as (bl & rest & fin & EL & Job & Bs & W & Pb & Pm).
  destruct (tests_of P (filter of_mutant (lo_outcomes l)) fin) as (ts & T & Ts); [|exact Pm|].
  { intros o Ho. apply filter_In in Ho as [Ho Hm]. split; [|eapply summary_of; eassumption].
    unfold of_mutant in Hm. destruct (oc_scenario o) as [|m]; [discriminate|]. eauto. }
  assert (G : forall x, In x (rs_log r) -> right_command P X ms x /\ right_files P x).
  { intros x Hx. eapply good_log; eassumption. }
  assert (K : forall n, (exists m v, verdict l m v) -> status_of (map (fun x => snd (fst x)) ts) n -> account P X ms (rs_log r) (negb (pa_skip_baseline P)) n).
  { intros n (m0 & v0 & V0) St. apply (ac_tested _ _ _ _ _ bl rest ts); try assumption.
    - apply Forall_forall. intros x Hx. apply G. exact Hx.
    - apply Forall_forall. intros x Hx. apply G. exact Hx.
    - destruct (pa_skip_baseline P) eqn:Sk; cbn [negb].
      + apply Bs. reflexivity.
      + destruct (C14_only_after_baseline _ _ _ _ _ Re Sk) as (o & I & B).
        * right. cbn [ls_sh]. rewrite <- El. apply verdict_recorded in V0. intro Y. rewrite Y in V0. destruct V0.
        * cbn [ls_sh] in I. rewrite <- El in I. destruct B as (B1 & B2 & B3). split; [exact Job|]. destruct (Pb o I B1) as [_ Gv].
          eapply base_passed; try eassumption.
          -- unfold oc_success, last_result. assert (NN : oc_results o <> []) by (intro Y; rewrite Y in B2; unfold phases in B2; destruct (pa_check_only P); discriminate B2).
             destruct (exists_last NN) as (rs & p0 & Er). rewrite Er in B3 |- *. apply Forall_app in B3 as [_ B3]. inversion B3 as [|? ? S _]; subst.
             rewrite last_app. cbn. congruence.
          -- intros x Hx. rewrite EL. apply in_or_app. left. exact Hx.
    - rewrite (triples_mutants _ _ _ T), mutants_filter. destruct (C12_all_recorded _ _ _ _ _ _ _ Re) as [PM|[Y _]].
      + eapply Permutation_trans; [exact PM|apply Permutation_sym; exact PQ].
      + apply verdict_recorded in V0. rewrite Y in V0. destruct V0.
    - destruct T as [_ ->]. exact W. }
  pose proof (fun v => verdicts_are l ts fin v T) as VA.
  destruct (exists_last NE) as (ms' & m1 & Em). assert (I1 : In m1 ms) by (rewrite Em; apply in_or_app; right; left; reflexivity). clear ms' Em.
  remember (ETested ms l) as e eqn:Ee. remember (status e) as n eqn:En. clear En.
  destruct M as [| |? ? ?| |?| | |ms0 l0 A B|ms0 l0 m Im V NT|ms0 l0 m Im V|ms0 l0 o NE0 Io Uo NV]; try discriminate; injection Ee as -> ->.
  - destruct (A m1 I1) as [v V]. apply K; [eauto|]. right. right. split; [reflexivity|].
    split; intro Y; apply VA in Y as [m Y]; destruct (B m _ Y); congruence.
  - apply K; [eauto|]. right. left. split; [reflexivity|]. split; [apply VA; eauto|]. intro Y. apply VA in Y as [m' Y]. exact (NT m' Y).
  - apply K; [eauto|]. left. split; [reflexivity|]. apply VA. eauto.
  - apply ac_baseline.
    + destruct (scenarios_end _ _ _ _ _ _ _ Re) as [[PM _]|(Sk & _)]; [|rewrite Sk; reflexivity].
      destruct (pa_skip_baseline P); [|reflexivity]. exfalso. assert (J : In Baseline (map oc_scenario (lo_outcomes l))).
      { apply in_map_iff. exists o. split; [apply Uo|exact Io]. }
      apply (Permutation_in _ PM) in J. cbn [app] in J. apply in_map_iff in J. destruct J as (m & J & _). discriminate J.
    + eapply base_wrong; eassumption.
Qed.
