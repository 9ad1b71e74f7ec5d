From Coq Require Import String List NArith ZArith Bool Arith Lia.
From Verif Require Import Text ProcessM OutcomeM OutcomeS.
Import ListNotations.

Section P.
Context {M : Type}.
Implicit Types (o : outcome M) (os : list (outcome M)).

Lemma last_opt_some : forall A (l : list A), l <> [] -> exists x, last_opt l = Some x.
Proof.
  induction l as [|a l IH]; intro H; [congruence|].
  destruct l as [|b l]; [simpl; eauto|]. apply IH. discriminate.
Qed.

Lemma summary_total : forall o, oc_results o <> [] -> exists v, summary o = Some v.
Proof.
  intros o H. destruct (last_opt_some _ _ H) as [pr E].
  unfold summary, mutant_caught, mutant_missed, oc_success, last_result.
  rewrite E. destruct (oc_scenario o); simpl;
  repeat match goal with |- context [if ?b then _ else _] => destruct b end; eauto;
  repeat match goal with |- context [if ?b then _ else _] => destruct b end;
  destruct (phase_eqb _ _ && _); eauto; destruct (phase_eqb _ _ && _); eauto;
  destruct (is_success _); eauto.
Qed.

Lemma baseline_success_total : forall o, oc_results o <> [] -> exists b, oc_success o = Some b.
Proof.
  intros o H. destruct (last_opt_some _ _ H) as [pr E].
  unfold oc_success, last_result. rewrite E. eauto.
Qed.

Lemma lab_add_all_counts : forall os l l', lab_add_all l os = Some l' ->
  lo_outcomes l' = lo_outcomes l ++ os
  /\ lo_total l' = lo_total l + how_many (fun o => is_mutant (oc_scenario o)) os
  /\ lo_missed l' = lo_missed l + how_many (mutant_with SumMissed) os
  /\ lo_caught l' = lo_caught l + how_many (mutant_with SumCaught) os
  /\ lo_timeout l' = lo_timeout l + how_many (mutant_with SumTimeout) os
  /\ lo_unviable l' = lo_unviable l + how_many (mutant_with SumUnviable) os
  /\ lo_success l' = lo_success l + how_many (mutant_with SumSuccess) os.
Proof.
  induction os as [|o os IH]; intros l l' H.
  - simpl in H. inversion H; subst. simpl. rewrite app_nil_r. repeat split; lia.
  - simpl in H. destruct (lab_add l o) as [l1|] eqn:E; [|discriminate].
    apply IH in H. clear IH. destruct l as [os0 t0 m0 c0 ti0 u0 s0].
    cbn [lab_add] in E. cbn [how_many].
    unfold mutant_with at 1 3 5 7 9.
    destruct (is_mutant (oc_scenario o)) eqn:Em; cbn [andb].
    + destruct (summary o) as [[]|]; inversion E; subst l1; cbn [lo_outcomes lo_total lo_missed lo_caught lo_timeout lo_unviable lo_success sum_eqb] in *;
        rewrite <- app_assoc in H; simpl app in H; intuition lia.
    + inversion E; subst l1. cbn [lo_outcomes lo_total lo_missed lo_caught lo_timeout lo_unviable lo_success] in *.
      rewrite <- app_assoc in H; simpl app in H. intuition lia.
Qed.

Lemma lab_add_all_total : forall os l, Forall (fun o => oc_results o <> []) os ->
  exists l', lab_add_all l os = Some l'.
Proof.
  induction os as [|o os IH]; intros l H; simpl; eauto.
  inversion H; subst. destruct l as [os0 t0 m0 c0 ti0 u0 s0]. cbn [lab_add].
  destruct (is_mutant _); auto.
  destruct (summary_total _ H2) as [v Ev]. rewrite Ev. destruct v; auto.
Qed.

Lemma how_many_split : forall os, Forall (fun o => oc_results o <> []) os ->
  how_many (fun o => is_mutant (oc_scenario o)) os
  = how_many (mutant_with SumMissed) os + how_many (mutant_with SumCaught) os
    + how_many (mutant_with SumTimeout) os + how_many (mutant_with SumUnviable) os
    + how_many (mutant_with SumSuccess) os + how_many (mutant_with SumFailure) os.
Proof.
  induction os as [|o os IH]; intro H; [reflexivity|].
  inversion H; subst. specialize (IH H3). cbn [how_many]. unfold mutant_with at 1 3 5 7 9 11.
  destruct (is_mutant (oc_scenario o)); cbn [andb]; [|lia].
  destruct (summary_total _ H2) as [v Ev]. rewrite Ev. destruct v; cbn [sum_eqb]; lia.
Qed.

Lemma c08 : forall os, Forall (fun o => oc_results o <> []) os ->
  exists l, lab_add_all lab_new os = Some l
  /\ lo_outcomes l = os
  /\ lo_total l = how_many (fun o => is_mutant (oc_scenario o)) os
  /\ lo_missed l = how_many (mutant_with SumMissed) os
  /\ lo_caught l = how_many (mutant_with SumCaught) os
  /\ lo_timeout l = how_many (mutant_with SumTimeout) os
  /\ lo_unviable l = how_many (mutant_with SumUnviable) os
  /\ lo_success l = how_many (mutant_with SumSuccess) os
  /\ lo_total l = lo_missed l + lo_caught l + lo_timeout l + lo_unviable l + lo_success l
                  + how_many (mutant_with SumFailure) os.
Proof.
  intros os H. destruct (lab_add_all_total os lab_new H) as [l E]. exists l.
  pose proof (lab_add_all_counts _ _ _ E) as C. simpl in C.
  pose proof (how_many_split _ H). intuition lia.
Qed.

Lemma how_many_pos : forall A (f : A -> bool) l, 0 < how_many f l <-> exists x, In x l /\ f x = true.
Proof.
  induction l as [|a l IH]; simpl.
  - split; [lia|]. intros [x [[] _]].
  - split.
    + destruct (f a) eqn:E; intro H.
      * exists a. auto.
      * destruct IH as [IH _]. destruct IH as [x [H1 H2]]; [lia|]. exists x. auto.
    + intros [x [[->|H1] H2]].
      * rewrite H2. lia.
      * enough (0 < how_many f l) by lia. apply IH. eauto.
Qed.

Lemma any_baseline_failed_spec : forall os, Forall (fun o => oc_results o <> []) os ->
  (any_baseline_failed os = Some true /\ exists o, In o os /\ baseline_unsuccessful o)
  \/ (any_baseline_failed os = Some false /\ forall o, In o os -> ~ baseline_unsuccessful o).
Proof.
  induction os as [|o os IH]; intro H.
  - right. split; auto.
  - inversion H; subst. specialize (IH H3). cbn [any_baseline_failed].
    destruct (oc_scenario o) eqn:Es; simpl.
    + destruct (last_opt_some _ _ H2) as [pr Epr].
      unfold oc_success, last_result. rewrite Epr.
      destruct (pr_status pr) eqn:Ep; simpl.
      2-5: left; split; auto; exists o; split; [now left|]; split; auto;
           intros pr' E'; rewrite Epr in E'; inversion E'; subst; rewrite Ep; discriminate.
      destruct IH as [[IH1 [o' [IH2 IH3]]]|[IH1 IH2]].
      * left. split; auto. exists o'. split; [now right|]. exact IH3.
      * right. split; auto. intros o' [<-|Ho]; auto. intros [_ Hb]. apply (Hb pr); auto.
    + destruct IH as [[IH1 [o' [IH2 IH3]]]|[IH1 IH2]].
      * left. split; auto. exists o'. split; [now right|]. exact IH3.
      * right. split; auto. intros o' [<-|Ho]; auto. intros [Hb _]. congruence.
Qed.

Lemma mutant_with_iff : forall v o, mutant_with v o = true <->
  is_mutant (oc_scenario o) = true /\ summary o = Some v.
Proof.
  intros v o. unfold mutant_with. rewrite andb_true_iff.
  destruct (summary o) as [v'|]; split; intros [H1 H2]; split; auto; try discriminate.
  - destruct v, v'; try discriminate; reflexivity.
  - inversion H2; subst. destruct v; reflexivity.
Qed.

Lemma c09 : forall os, Forall (fun o => oc_results o <> []) os ->
  exists l code, lab_add_all lab_new os = Some l /\ lab_exit_code l = Some code /\
  ((code = 4%Z /\ exists o, In o os /\ baseline_unsuccessful o)
   \/ (code = 3%Z /\ (forall o, In o os -> ~ baseline_unsuccessful o)
       /\ exists o, In o os /\ is_mutant (oc_scenario o) = true /\ summary o = Some SumTimeout)
   \/ (code = 2%Z /\ (forall o, In o os -> ~ baseline_unsuccessful o)
       /\ (forall o, In o os -> is_mutant (oc_scenario o) = true -> summary o <> Some SumTimeout)
       /\ exists o, In o os /\ is_mutant (oc_scenario o) = true /\ summary o = Some SumMissed)
   \/ (code = 0%Z /\ (forall o, In o os -> ~ baseline_unsuccessful o)
       /\ (forall o, In o os -> is_mutant (oc_scenario o) = true ->
             summary o <> Some SumTimeout /\ summary o <> Some SumMissed))).
Proof.
  intros os H. destruct (c08 os H) as [l [E [Eo [_ [Em [_ [Et _]]]]]]].
  exists l. unfold lab_exit_code. rewrite Eo.
  assert (NT : forall v, ~ 0 < how_many (mutant_with v) os ->
     forall o, In o os -> is_mutant (oc_scenario o) = true -> summary o <> Some v).
  { intros v Hn o Ho Hm Hv. apply Hn. apply how_many_pos. exists o. split; auto.
    apply mutant_with_iff. auto. }
  destruct (any_baseline_failed_spec os H) as [[-> Hb]|[-> Hb]].
  - exists 4%Z. auto 6.
  - destruct (Nat.ltb_spec 0 (lo_timeout l)) as [Ht|Ht].
    + exists 3%Z. split; auto. split; auto. right. left. split; auto. split; auto.
      rewrite Et in Ht. apply how_many_pos in Ht. destruct Ht as [o [H1 H2]].
      apply mutant_with_iff in H2. exists o. tauto.
    + destruct (Nat.ltb_spec 0 (lo_missed l)) as [Hm|Hm].
      * exists 2%Z. split; auto. split; auto. right. right. left. split; auto. split; auto. split.
        -- apply NT. lia.
        -- rewrite Em in Hm. apply how_many_pos in Hm. destruct Hm as [o [H1 H2]].
           apply mutant_with_iff in H2. exists o. tauto.
      * exists 0%Z. split; auto. split; auto. right. right. right. split; auto. split; auto.
        intros o H1 H2. split; eapply NT; eauto; lia.
Qed.

Ltac split_and := match goal with
  | |- (_ <-> _) /\ _ => split
  | |- _ <> _ /\ _ => split
  | |- _ <> _ => discriminate
  end.

(** Phase loop *)
Lemma c10_table : forall (m : M) cargo o,
  run_scenario_outcome (Mutant m) false cargo = Some o ->
  exists v, summary o = Some v /\
    (v = SumUnviable <-> spec_unviable cargo) /\
    (v = SumTimeout <-> spec_timeout cargo) /\
    (v = SumCaught <-> spec_caught cargo) /\
    (v = SumMissed <-> spec_missed cargo) /\
    (v = SumFailure <-> spec_unclassified cargo) /\
    v <> SumSuccess.
Proof.
  intros m cargo o H. unfold run_scenario_outcome, phases in H. simpl in H.
  unfold spec_unviable, spec_timeout, spec_caught, spec_missed, spec_unclassified, gave_odd, gave_nonzero, gave.
  destruct (cargo Build) as [[eb db]|] eqn:Eb; [|discriminate].
  destruct eb; simpl in H;
    [destruct (cargo Test) as [[et dt]|] eqn:Et; [|discriminate]; destruct et; simpl in H| | | |];
    inversion H; subst o; cbv [summary check_or_build_failed has_timeout mutant_caught mutant_missed
      oc_success last_result last_opt oc_results oc_scenario is_mutant existsb phase_eqb pr_phase pr_status
      is_failure is_timeout is_success negb andb orb];
    eexists; (split; [reflexivity|]);
    repeat split_and; (split;
    [ intro HH; first [discriminate HH | eauto 10]
    | intro HH; first [reflexivity | exfalso; decompose [ex or and] HH; congruence] ]).
Qed.

Lemma c10_baseline : forall cargo (o : outcome M),
  run_scenario_outcome Baseline false cargo = Some o ->
  exists v, summary o = Some v /\
    (v = SumTimeout <-> spec_timeout cargo) /\
    (v = SumSuccess <-> gave cargo Build ExSuccess /\ gave cargo Test ExSuccess) /\
    (v = SumFailure <-> gave_nonzero cargo Build \/ spec_caught cargo \/ spec_unclassified cargo) /\
    (baseline_unsuccessful o <-> v <> SumSuccess).
Proof.
  intros cargo o H. unfold run_scenario_outcome, phases in H. simpl in H.
  unfold spec_timeout, spec_caught, spec_unclassified, gave_odd, gave_nonzero, gave, baseline_unsuccessful.
  destruct (cargo Build) as [[eb db]|] eqn:Eb; [|discriminate].
  destruct eb; simpl in H;
    [destruct (cargo Test) as [[et dt]|] eqn:Et; [|discriminate]; destruct et; simpl in H| | | |];
    inversion H; subst o; cbv [summary check_or_build_failed has_timeout mutant_caught mutant_missed
      oc_success last_result last_opt oc_results oc_scenario is_mutant existsb phase_eqb pr_phase pr_status
      is_failure is_timeout is_success negb andb orb];
    eexists; (split; [reflexivity|]);
    (split; [|split; [|split]]); (split;
    [ intro HH; first [discriminate HH | solve [eauto 10] | destruct HH as [_ HH]; specialize (HH _ eq_refl); cbn in HH; congruence]
    | intro HH; first [reflexivity | solve [exfalso; decompose [ex or and] HH; congruence] | split; [reflexivity|intros pr [= <-]; discriminate]] ]).
Qed.

Lemma c10_check_table : forall (m : M) cargo o,
  run_scenario_outcome (Mutant m) true cargo = Some o ->
  exists v, summary o = Some v /\
    (v = SumUnviable <-> gave_nonzero cargo Check) /\
    (v = SumTimeout <-> gave cargo Check ExTimeout) /\
    (v = SumSuccess <-> gave cargo Check ExSuccess) /\
    (v = SumFailure <-> gave_odd cargo Check) /\
    v <> SumCaught /\ v <> SumMissed.
Proof.
  intros m cargo o H. unfold run_scenario_outcome, phases in H. simpl in H.
  unfold gave_odd, gave_nonzero, gave.
  destruct (cargo Check) as [[eb db]|] eqn:Eb; [|discriminate].
  destruct eb; simpl in H;
    inversion H; subst o; cbv [summary check_or_build_failed has_timeout mutant_caught mutant_missed
      oc_success last_result last_opt oc_results oc_scenario is_mutant existsb phase_eqb pr_phase pr_status
      is_failure is_timeout is_success negb andb orb];
    eexists; (split; [reflexivity|]);
    repeat split_and; (split;
    [ intro HH; first [discriminate HH | eauto 10]
    | intro HH; first [reflexivity | exfalso; decompose [ex or and] HH; congruence] ]).
Qed.

(** Phases run in order and stop at the first one that is not a success. *)
Lemma phase_loop_spec : forall cargo ps rs, phase_loop cargo ps = Some rs ->
  exists rest, ps = map pr_phase rs ++ rest
  /\ (forall pr, In pr rs -> cargo (pr_phase pr) = Some (pr_status pr, pr_duration pr))
  /\ (forall pr a b, rs = a ++ pr :: b -> b <> [] -> pr_status pr = ExSuccess)
  /\ (rest <> [] -> exists a pr, rs = a ++ [pr] /\ pr_status pr <> ExSuccess).
Proof.
  intros cargo. induction ps as [|p ps IH]; intros rs H; simpl in H.
  - inversion H; subst. exists []. split; auto. split; [intros ? []|]. split.
    + intros pr a b E. destruct a; discriminate.
    + congruence.
  - destruct (cargo p) as [[e d]|] eqn:Ec; [|discriminate].
    destruct (is_success e) eqn:Es.
    + destruct (phase_loop cargo ps) as [l|] eqn:El; [|discriminate].
      inversion H; subst. destruct (IH l eq_refl) as [rest [H1 [H2 [H3 H4]]]].
      exists rest. split; [simpl; now rewrite H1|]. split; [|split].
      * intros pr [<-|Hin]; auto.
      * intros pr a b E Hb. destruct a as [|a0 a]; simpl in E; inversion E; subst.
        -- simpl. destruct e; try discriminate. reflexivity.
        -- eapply H3; eauto.
      * intro Hr. destruct (H4 Hr) as [a [pr [-> Hp]]].
        exists (mkPR p d e :: a), pr. auto.
    + inversion H; subst. exists ps. split; auto. split; [|split].
      * intros pr [<-|[]]. exact Ec.
      * intros pr a b E Hb. destruct a as [|a0 a]; simpl in E; inversion E; subst; try congruence.
        destruct a; discriminate.
      * intros _. exists [], (mkPR p d e). split; auto. simpl. intro; subst; discriminate.
Qed.

Lemma run_nonempty : forall (s : scenario M) c cargo o,
  run_scenario_outcome s c cargo = Some o -> oc_results o <> [].
Proof.
  intros s c cargo o H. unfold run_scenario_outcome in H.
  destruct (phase_loop cargo (phases c)) as [l|] eqn:E; [|discriminate].
  inversion H; subst. simpl. destruct c; simpl in E;
    destruct (cargo _) as [[e d]|]; try discriminate; destruct (is_success e);
    try (inversion E; subst; discriminate).
  destruct (match cargo Test with Some _ => _ | None => _ end); inversion E; discriminate.
Qed.

Lemma c09_zero : forall cargo_of ms os l,
  Forall2 (ran_as cargo_of) ms os ->
  lab_add_all lab_new os = Some l -> lab_exit_code l = Some 0%Z ->
  forall m, In m ms ->
    spec_caught (cargo_of m) \/ spec_unviable (cargo_of m) \/ spec_unclassified (cargo_of m).
Proof.
  intros cargo_of ms os l HF HA HE m Hm.
  assert (Hne : Forall (fun o => oc_results o <> []) os).
  { clear - HF. induction HF; constructor; auto. eapply run_nonempty; exact H. }
  destruct (c09 os Hne) as [l' [code [E1 [E2 E3]]]].
  rewrite HA in E1. inversion E1; subst l'. rewrite HE in E2. inversion E2; subst code.
  destruct E3 as [[F _]|[[F _]|[[F _]|[_ [_ F]]]]]; try discriminate.
  assert (exists o, In o os /\ ran_as cargo_of m o) as [o [Ho Hr]].
  { clear - HF Hm. induction HF; [destruct Hm|]. destruct Hm as [->|Hm].
    - exists y. split; [now left|auto].
    - destruct (IHHF Hm) as [o [H1 H2]]. exists o. split; [now right|auto]. }
  assert (Hmut : is_mutant (oc_scenario o) = true).
  { unfold ran_as, run_scenario_outcome in Hr. destruct (phase_loop _ _); inversion Hr. reflexivity. }
  destruct (F o Ho Hmut) as [F1 F2].
  destruct (c10_table m _ o Hr) as [v [Ev [V1 [V2 [V3 [V4 [V5 V6]]]]]]].
  rewrite Ev in F1, F2. destruct v; try congruence; intuition.
Qed.

Lemma c08_printed : forall (l : lab_outcome M),
  summary_string l = (if lo_total l =? 1 then tx "1 mutant" else show_nat (lo_total l) ++ tx " mutants") ++ tx " tested: "
    ++ join (tx ", ") (map (fun c => show_nat (fst c) ++ tx " " ++ snd c) (filter (fun c => negb (fst c =? 0))
         [(lo_missed l, tx "missed"); (lo_caught l, tx "caught"); (lo_unviable l, tx "unviable"); (lo_timeout l, tx "timeouts"); (lo_success l, tx "succeeded")])).
Proof.
  intros [os t a b c d e]. unfold summary_string, plural. cbn [lo_total lo_missed lo_caught lo_timeout lo_unviable lo_success].
  assert (F : forall n w (r : list (nat * text)), map (fun c => show_nat (fst c) ++ tx " " ++ snd c) (filter (fun c => negb (fst c =? 0)) ((n, w) :: r))
    = (if n =? 0 then [] else [show_nat n ++ [SP] ++ w]) ++ map (fun c => show_nat (fst c) ++ tx " " ++ snd c) (filter (fun c => negb (fst c =? 0)) r)).
  { intros n w r. cbn [filter fst]. destruct (n =? 0); reflexivity. }
  rewrite !F. cbn [filter map]. rewrite app_nil_r. destruct (t =? 1).
  - reflexivity.
  - rewrite <- !app_assoc. reflexivity.
Qed.

End P.

Lemma caught_missed : forall M (o : outcome M) b,
  (mutant_caught o = Some b -> (b = true <-> exists m pr c, oc_scenario o = Mutant m /\ last_opt (oc_results o) = Some pr
     /\ pr_phase pr = Test /\ pr_status pr = ExFailure c))
  /\ (mutant_missed o = Some b -> (b = true <-> exists m pr, oc_scenario o = Mutant m /\ last_opt (oc_results o) = Some pr
     /\ pr_phase pr = Test /\ pr_status pr = ExSuccess)).
Proof.
  intros M o b. unfold mutant_caught, mutant_missed, last_result. destruct (oc_scenario o) as [|m]; cbn [is_mutant].
  - split; intros [= <-]; (split; [discriminate|]); intros (m & pr & H); decompose [ex and] H; discriminate.
  - destruct (last_opt (oc_results o)) as [pr|]; [|split; discriminate].
    split; intros [= <-]; (split; [intro H; apply andb_prop in H as [H1 H2]|]).
    + exists m, pr. destruct (pr_phase pr); try discriminate. destruct (pr_status pr) eqn:Es; try discriminate. eexists. split; [reflexivity|]. split; [reflexivity|]. split; reflexivity.
    + intros (m' & pr' & c & _ & E & H1 & H2). injection E as <-. rewrite H1, H2. reflexivity.
    + exists m, pr. destruct (pr_phase pr); try discriminate. destruct (pr_status pr); try discriminate. auto.
    + intros (m' & pr' & _ & E & H1 & H2). injection E as <-. rewrite H1, H2. reflexivity.
Qed.

Lemma flags_total : forall M (o : outcome M),
  (mutant_caught o = None <-> oc_scenario o <> Baseline /\ oc_results o = [])
  /\ (mutant_missed o = None <-> oc_scenario o <> Baseline /\ oc_results o = []).
Proof.
  intros M o. unfold mutant_caught, mutant_missed, last_result. destruct (oc_scenario o) as [|m]; cbn [is_mutant].
  - split; (split; [discriminate|]); intros [H _]; congruence.
  - destruct (oc_results o) as [|r rs] eqn:E; [split; (split; [split; [discriminate|reflexivity]|reflexivity])|].
    destruct (last_opt (r :: rs)) as [pr|] eqn:L.
    + split; (split; [discriminate|]); intros [_ H]; discriminate.
    + exfalso. clear - L. revert r L. induction rs as [|x rs IH]; intros r L; [discriminate|]. apply (IH x). exact L.
Qed.
