From Coq Require Import String List NArith ZArith QArith Bool Lia.
Import ListNotations.
From Verif Require Import Text SpanM PathM MutantM GlobM GlobS GlobP ProcessM OutcomeM F64M TimeoutM TimeoutS TimeoutP OptionsM OptionsS.
Open Scope nat_scope.

Section P.
Variable re_ok : text -> bool.
Variable re_match : text -> text -> bool.

Definition lists_of (a : args) (c : config) (o : options) : Prop :=
  op_examine_names o = or_slices (ar_examine_re a) (cf_examine_re c)
  /\ op_exclude_names o = or_slices (ar_exclude_re a) (cf_exclude_re c)
  /\ build_glob_set (or_slices (ar_file a) (cf_examine_globs c)) = Some (op_examine_globset o)
  /\ build_glob_set (or_slices (ar_exclude a) (cf_exclude_globs c)) = Some (op_exclude_globset o).

Lemma regex_set_some : forall ps x, regex_set re_ok ps = Some x -> x = ps /\ forallb re_ok ps = true.
Proof. intros ps x H. unfold regex_set in H. destruct (forallb re_ok ps); [|discriminate]. injection H as <-. auto. Qed.

Lemma new_lists : forall a c o, options_new re_ok a c = NewOk o -> lists_of a c o.
Proof.
  intros a c o H. unfold options_new in H.
  destruct (from_secs _); [|discriminate]. destruct (opt_secs (ar_build_timeout a)); [|discriminate].
  destruct (regex_set re_ok (or_slices (ar_examine_re a) (cf_examine_re c))) eqn:E1; [|discriminate].
  destruct (regex_set re_ok (or_slices (ar_exclude_re a) (cf_exclude_re c))) eqn:E2; [|discriminate].
  destruct (build_glob_set (or_slices (ar_file a) (cf_examine_globs c))) eqn:E3; [|discriminate].
  destruct (build_glob_set (or_slices (ar_exclude a) (cf_exclude_globs c))) eqn:E4; [|discriminate].
  destruct (opt_secs (ar_timeout a)); [|discriminate]. injection H as <-.
  apply regex_set_some in E1, E2. destruct E1 as [-> _], E2 as [-> _].
  unfold lists_of. cbn. auto.
Qed.

Lemma glob_filter : forall globs x path, build_glob_set globs = Some x ->
  (globs = [] /\ x = None) \/
  (globs <> [] /\ exists gs, x = Some gs /\ (set_match gs path = true <-> exists g, In g globs /\ glob_hits g path)).
Proof.
  intros globs x path H. destruct globs as [|g globs].
  - left. cbn in H. injection H as <-. auto.
  - right. split; [discriminate|]. destruct x as [gs|].
    + exists gs. split; [reflexivity|]. rewrite (c39_set (g :: globs) gs path) by (auto; discriminate). unfold glob_hits. split.
      * intros (g' & y & K1 & K2 & K3). eauto.
      * intros (g' & K1 & y & K2 & K3). eauto.
    + exfalso. unfold build_glob_set in H. destruct (all_some glob_new _); discriminate.
Qed.

Lemma c21_file : forall a c o path, options_new re_ok a c = NewOk o ->
  allows_source_file_path o path = true <->
  (or_slices (ar_file a) (cf_examine_globs c) = [] \/ exists g, In g (or_slices (ar_file a) (cf_examine_globs c)) /\ glob_hits g path)
  /\ ~ exists g, In g (or_slices (ar_exclude a) (cf_exclude_globs c)) /\ glob_hits g path.
Proof.
  intros a c o path H. apply new_lists in H. destruct H as (_ & _ & H1 & H2). unfold allows_source_file_path.
  rewrite andb_true_iff, negb_true_iff.
  assert (A : match op_examine_globset o with None => true | Some g => set_match g path end = true <->
    (or_slices (ar_file a) (cf_examine_globs c) = [] \/ exists g, In g (or_slices (ar_file a) (cf_examine_globs c)) /\ glob_hits g path)).
  { destruct (glob_filter _ _ path H1) as [[-> ->]|(Hn & gs & -> & E)]; [tauto|]. rewrite E. split; [auto|]. intros [K|K]; [congruence|exact K]. }
  assert (B : match op_exclude_globset o with Some g => set_match g path | None => false end = false <->
    ~ exists g, In g (or_slices (ar_exclude a) (cf_exclude_globs c)) /\ glob_hits g path).
  { destruct (glob_filter _ _ path H2) as [[-> ->]|(Hn & gs & -> & E)].
    - split; [|auto]. intros _ (g & [] & _).
    - rewrite <- E. destruct (set_match gs path); split; congruence. }
  rewrite A, B. reflexivity.
Qed.

Lemma c21_name : forall a c o m name b, options_new re_ok a c = NewOk o -> mutant_name true m = Some name ->
  allows_mutant re_match o m = Some b ->
  b = true <->
  (or_slices (ar_examine_re a) (cf_examine_re c) = [] \/ exists p, In p (or_slices (ar_examine_re a) (cf_examine_re c)) /\ re_match p name = true)
  /\ ~ exists p, In p (or_slices (ar_exclude_re a) (cf_exclude_re c)) /\ re_match p name = true.
Proof.
  intros a c o m name b H Hn Hb. apply new_lists in H. destruct H as (H1 & H2 & _). unfold allows_mutant in Hb.
  rewrite Hn, H1, H2 in Hb. injection Hb as <-. rewrite andb_true_iff, !orb_true_iff, negb_true_iff.
  generalize (or_slices (ar_examine_re a) (cf_examine_re c)) as e. generalize (or_slices (ar_exclude_re a) (cf_exclude_re c)) as x.
  intros x e.
  assert (M : forall l, names_match re_match l name = true <-> exists p, In p l /\ re_match p name = true)
    by (intros l; apply existsb_exists).
  assert (E0 : forall l, names_empty l = true <-> l = []) by (intros [|? ?]; simpl; split; congruence).
  rewrite (E0 e), (E0 x), (M e). split.
  - intros [A B]. split; [exact A|]. rewrite <- (M x). destruct B as [->|B]; [discriminate|congruence].
  - intros [A B]. split; [exact A|]. right. rewrite <- (M x) in B. destruct (names_match re_match x name); congruence.
Qed.

Lemma precedence_or : forall A (a c : option A) d, precedence a c d (unwrap_or (opt_or a c) d).
Proof. intros A [a|] [c|] d; repeat split; simpl; intros; congruence. Qed.

Lemma precedence_opt_or : forall A (a c : option A), precedence_opt a c (opt_or a c).
Proof. intros A [a|] c; split; simpl; intros; congruence. Qed.

Lemma replaced_or : forall A (a c : list A), replaced a c (or_slices a c).
Proof. intros A [|x a] c; split; simpl; intros; congruence. Qed.

Lemma c22_scalars : forall a c o, options_new re_ok a c = NewOk o ->
  precedence_opt (ar_build_timeout_multiplier a) (cf_build_timeout_multiplier c) (op_build_timeout_multiplier o)
  /\ precedence_opt (ar_timeout_multiplier a) (cf_timeout_multiplier c) (op_test_timeout_multiplier o)
  /\ precedence_opt (ar_output a) (cf_output c) (op_output_in_dir o)
  /\ precedence_opt (ar_profile a) (cf_profile c) (op_profile o)
  /\ precedence (ar_cap_lints a) (Some (cf_cap_lints c)) false (op_cap_lints o)
  /\ precedence (ar_copy_vcs a) (cf_copy_vcs c) false (op_copy_vcs o)
  /\ precedence (ar_test_tool a) (cf_test_tool c) ToolCargo (op_test_tool o)
  /\ exists q, precedence (ar_minimum_test_timeout a) (cf_minimum_test_timeout c) (Fin (inject_Z 20)) q
               /\ duration_of q (op_minimum_test_timeout o).
Proof.
  intros a c o H. unfold options_new in H.
  destruct (from_secs _) eqn:E0; [|discriminate]. destruct (opt_secs (ar_build_timeout a)); [|discriminate].
  destruct (regex_set _ _); [|discriminate]. destruct (regex_set _ _); [|discriminate].
  destruct (build_glob_set _); [|discriminate]. destruct (build_glob_set _); [|discriminate].
  destruct (opt_secs (ar_timeout a)); [|discriminate]. injection H as <-. cbn -[from_secs unwrap_or opt_or inject_Z].
  split; [apply precedence_opt_or|]. split; [apply precedence_opt_or|]. split; [apply precedence_opt_or|].
  split; [apply precedence_opt_or|]. split; [destruct (ar_cap_lints a); repeat split; simpl; intros; congruence|].
  split; [apply precedence_or|]. split; [apply precedence_or|].
  eexists. split; [apply precedence_or|apply from_secs_duration; exact E0].
Qed.

Lemma opt_secs_some : forall q r, opt_secs q = Some r -> seconds q r.
Proof.
  intros [q|] r H; unfold opt_secs in H; [|injection H as <-; exact I]. destruct (from_secs q) as [n|] eqn:E; [|discriminate].
  injection H as <-. apply from_secs_duration. exact E.
Qed.

Lemma c22_flags : forall a c o, options_new re_ok a c = NewOk o ->
  seconds (ar_timeout a) (op_test_timeout o)
  /\ seconds (ar_build_timeout a) (op_build_timeout o)
  /\ op_baseline o = ar_baseline a /\ op_check_only o = ar_check a /\ op_emit_json o = ar_json a
  /\ op_emit_diffs o = ar_diff a /\ op_features o = ar_features a /\ op_gitignore o = ar_gitignore a
  /\ op_in_place o = ar_in_place a /\ op_jobs o = ar_jobs a /\ op_jobserver o = ar_jobserver a
  /\ op_jobserver_tasks o = ar_jobserver_tasks a /\ op_leak_dirs o = ar_leak_dirs a
  /\ op_print_caught o = ar_caught a /\ op_print_unviable o = ar_unviable a
  /\ op_shuffle o = negb (ar_no_shuffle a) /\ op_show_line_col o = ar_line_col a
  /\ op_show_times o = negb (ar_no_times a) /\ op_show_all_logs o = ar_all_logs a.
Proof.
  intros a c o H. unfold options_new in H.
  destruct (from_secs _) eqn:E0; [|discriminate]. destruct (opt_secs (ar_build_timeout a)) eqn:E1; [|discriminate].
  destruct (regex_set _ _); [|discriminate]. destruct (regex_set _ _); [|discriminate].
  destruct (build_glob_set _); [|discriminate]. destruct (build_glob_set _); [|discriminate].
  destruct (opt_secs (ar_timeout a)) eqn:E2; [|discriminate]. injection H as <-.
  split; [apply opt_secs_some; exact E2|]. split; [apply opt_secs_some; exact E1|]. repeat split.
Qed.

Lemma c22_panic : forall a c q, precedence (ar_minimum_test_timeout a) (cf_minimum_test_timeout c) (Fin (inject_Z 20)) q ->
  options_new re_ok a c = NewPanic ->
  no_duration q \/ exists t, (ar_build_timeout a = Some t \/ ar_timeout a = Some t) /\ no_duration t.
Proof.
  intros a c q Hq H. unfold options_new in H.
  assert (E : unwrap_or (opt_or (ar_minimum_test_timeout a) (cf_minimum_test_timeout c)) (Fin (inject_Z 20)) = q).
  { destruct Hq as (Q1 & Q2 & Q3). destruct (ar_minimum_test_timeout a) as [x|]; [symmetry; apply Q1; reflexivity|].
    destruct (cf_minimum_test_timeout c) as [x|]; [symmetry; apply Q2; reflexivity|symmetry; apply Q3; reflexivity]. }
  rewrite E in H. destruct (from_secs q) eqn:E0; [|left; apply from_secs_none; exact E0].
  right. destruct (ar_build_timeout a) as [t|] eqn:B; cbn [opt_secs] in H.
  - destruct (from_secs t) eqn:E1; [|exists t; split; [auto|apply from_secs_none; exact E1]].
    destruct (regex_set _ _); [|discriminate]. destruct (regex_set _ _); [|discriminate].
    destruct (build_glob_set _); [|discriminate]. destruct (build_glob_set _); [|discriminate].
    destruct (ar_timeout a) as [t'|] eqn:B'; cbn [opt_secs] in H; [|discriminate].
    destruct (from_secs t') eqn:E2; [discriminate|exists t'; split; [auto|apply from_secs_none; exact E2]].
  - destruct (regex_set _ _); [|discriminate]. destruct (regex_set _ _); [|discriminate].
    destruct (build_glob_set _); [|discriminate]. destruct (build_glob_set _); [|discriminate].
    destruct (ar_timeout a) as [t'|] eqn:B'; cbn [opt_secs] in H; [|discriminate].
    destruct (from_secs t') eqn:E2; [discriminate|exists t'; split; [auto|apply from_secs_none; exact E2]].
Qed.

Lemma c22_lists : forall a c o, options_new re_ok a c = NewOk o ->
  op_additional_cargo_args o = ar_cargo_arg a ++ cf_additional_cargo_args c
  /\ op_additional_cargo_test_args o = ar_cargo_test_args a ++ cf_additional_cargo_test_args c
  /\ op_error_values o = ar_error a ++ cf_error_values c
  /\ replaced (ar_examine_re a) (cf_examine_re c) (op_examine_names o)
  /\ replaced (ar_exclude_re a) (cf_exclude_re c) (op_exclude_names o)
  /\ (exists g, replaced (ar_file a) (cf_examine_globs c) g /\ build_glob_set g = Some (op_examine_globset o))
  /\ (exists g, replaced (ar_exclude a) (cf_exclude_globs c) g /\ build_glob_set g = Some (op_exclude_globset o)).
Proof.
  intros a c o H. pose proof (new_lists a c o H) as (L1 & L2 & L3 & L4). unfold options_new in H.
  destruct (from_secs _) eqn:E0; [|discriminate]. destruct (opt_secs (ar_build_timeout a)); [|discriminate].
  destruct (regex_set _ _); [|discriminate]. destruct (regex_set _ _); [|discriminate].
  destruct (build_glob_set (or_slices (ar_file a) (cf_examine_globs c))) eqn:G1; [|discriminate].
  destruct (build_glob_set (or_slices (ar_exclude a) (cf_exclude_globs c))) eqn:G2; [|discriminate].
  destruct (opt_secs (ar_timeout a)); [|discriminate]. injection H as <-.
  cbn [op_additional_cargo_args op_additional_cargo_test_args op_error_values op_examine_names op_exclude_names op_examine_globset op_exclude_globset] in *.
  split; [reflexivity|]. split; [reflexivity|]. split; [reflexivity|].
  split; [rewrite L1; apply replaced_or|]. split; [rewrite L2; apply replaced_or|].
  split; [eexists; split; [apply replaced_or|exact G1]|eexists; split; [apply replaced_or|exact G2]].
Qed.

Lemma c22_skip_calls : forall a c o, options_new re_ok a c = NewOk o -> forall n, In n (op_skip_calls o) <->
  (exists s, In s (ar_skip_calls a) /\ In n (split_on COMMA s))
  \/ In n (cf_skip_calls c)
  \/ (n = tx "with_capacity" /\ (ar_skip_calls_defaults a = Some true
        \/ (ar_skip_calls_defaults a = None /\ cf_skip_calls_defaults c <> Some false))).
Proof.
  intros a c o H n. unfold options_new in H.
  destruct (from_secs _) eqn:E0; [|discriminate]. destruct (opt_secs (ar_build_timeout a)); [|discriminate].
  destruct (regex_set _ _); [|discriminate]. destruct (regex_set _ _); [|discriminate].
  destruct (build_glob_set _); [|discriminate]. destruct (build_glob_set _); [|discriminate].
  destruct (opt_secs (ar_timeout a)); [|discriminate]. injection H as <-. cbn [op_skip_calls]. unfold merge_skip_calls.
  rewrite !in_app_iff. unfold split_commas. rewrite in_flat_map.
  assert (D : In n (if unwrap_or (opt_or (ar_skip_calls_defaults a) (cf_skip_calls_defaults c)) true then [tx "with_capacity"] else []) <->
    (n = tx "with_capacity" /\ (ar_skip_calls_defaults a = Some true
        \/ (ar_skip_calls_defaults a = None /\ cf_skip_calls_defaults c <> Some false)))).
  { destruct (ar_skip_calls_defaults a) as [[|]|], (cf_skip_calls_defaults c) as [[|]|]; cbn [opt_or unwrap_or In];
      (split; [intros K; try contradiction; destruct K as [<-|[]]; split; auto; right; split; congruence
              |intros [-> [K|[K1 K2]]]; try discriminate; try congruence; auto]). }
  rewrite D. reflexivity.
Qed.

Lemma c22_tests : forall a c o, options_new re_ok a c = NewOk o ->
  (ar_test_workspace a = Some true -> op_test_package o = TPWorkspace)
  /\ (ar_test_workspace a <> Some true -> ar_test_package a <> [] ->
        op_test_package o = TPNamed (flat_map (split_on COMMA) (ar_test_package a)))
  /\ (ar_test_workspace a = None -> ar_test_package a = [] -> cf_test_workspace c = Some true -> op_test_package o = TPWorkspace)
  /\ (ar_test_workspace a <> Some true -> ar_test_package a = [] ->
        ar_test_workspace a = Some false \/ cf_test_workspace c <> Some true ->
        op_test_package o = match cf_test_package c with [] => TPMutated | l => TPNamed l end).
Proof.
  intros a c o H. unfold options_new in H.
  destruct (from_secs _) eqn:E0; [|discriminate]. destruct (opt_secs (ar_build_timeout a)); [|discriminate].
  destruct (regex_set _ _); [|discriminate]. destruct (regex_set _ _); [|discriminate].
  destruct (build_glob_set _); [|discriminate]. destruct (build_glob_set _); [|discriminate].
  destruct (opt_secs (ar_timeout a)); [|discriminate]. injection H as <-. cbn [op_test_package]. unfold merge_test_package, split_commas.
  destruct (ar_test_workspace a) as [[|]|], (ar_test_package a) as [|xx ll], (cf_test_workspace c) as [[|]|], (cf_test_package c);
    repeat split; intros; try congruence; intuition congruence.
Qed.

Lemma c22_ok : forall a c,
  (exists o, options_new re_ok a c = NewOk o) <->
  forallb re_ok (or_slices (ar_examine_re a) (cf_examine_re c)) = true
  /\ forallb re_ok (or_slices (ar_exclude_re a) (cf_exclude_re c)) = true
  /\ (forall g, In g (or_slices (ar_file a) (cf_examine_globs c)) \/ In g (or_slices (ar_exclude a) (cf_exclude_globs c)) -> build_glob_set [g] <> None)
  /\ from_secs (unwrap_or (opt_or (ar_minimum_test_timeout a) (cf_minimum_test_timeout c)) (Fin (inject_Z 20))) <> None
  /\ (forall q, ar_build_timeout a = Some q \/ ar_timeout a = Some q -> from_secs q <> None).
Proof.
  intros a c.
  assert (G : forall l, build_glob_set l <> None <-> forall g, In g l -> build_glob_set [g] <> None).
  { intros l. rewrite (c39_error l). split.
    - intros H g Hg K. apply H. eauto.
    - intros H (g & Hg & K). apply (H g Hg K). }
  assert (S : forall q, opt_secs q <> None <-> forall x, q = Some x -> from_secs x <> None).
  { intros [q|]; simpl; [|split; congruence]. split.
    - intros H x E. injection E as <-. destruct (from_secs q); congruence.
    - intros H. specialize (H q eq_refl). destruct (from_secs q); congruence. }
  assert (R : forall l, regex_set re_ok l <> None <-> forallb re_ok l = true).
  { intros l. unfold regex_set. destruct (forallb re_ok l); split; congruence. }
  assert (Eq : (exists o, options_new re_ok a c = NewOk o) <->
    from_secs (unwrap_or (opt_or (ar_minimum_test_timeout a) (cf_minimum_test_timeout c)) (Fin (inject_Z 20))) <> None
    /\ opt_secs (ar_build_timeout a) <> None /\ opt_secs (ar_timeout a) <> None
    /\ regex_set re_ok (or_slices (ar_examine_re a) (cf_examine_re c)) <> None
    /\ regex_set re_ok (or_slices (ar_exclude_re a) (cf_exclude_re c)) <> None
    /\ build_glob_set (or_slices (ar_file a) (cf_examine_globs c)) <> None
    /\ build_glob_set (or_slices (ar_exclude a) (cf_exclude_globs c)) <> None).
  { unfold options_new. destruct (from_secs _); [|split; [intros [? ?]; discriminate|intuition congruence]].
    destruct (opt_secs (ar_build_timeout a)); [|split; [intros [? ?]; discriminate|intuition congruence]].
    destruct (regex_set re_ok (or_slices (ar_examine_re a) (cf_examine_re c))); [|split; [intros [? ?]; discriminate|intuition congruence]].
    destruct (regex_set re_ok (or_slices (ar_exclude_re a) (cf_exclude_re c))); [|split; [intros [? ?]; discriminate|intuition congruence]].
    destruct (build_glob_set (or_slices (ar_file a) (cf_examine_globs c))); [|split; [intros [? ?]; discriminate|intuition congruence]].
    destruct (build_glob_set (or_slices (ar_exclude a) (cf_exclude_globs c))); [|split; [intros [? ?]; discriminate|intuition congruence]].
    destruct (opt_secs (ar_timeout a)); [|split; [intros [? ?]; discriminate|intuition congruence]].
    split; [intros _; repeat split; discriminate|eauto]. }
  rewrite Eq, !G, !R, !S. split.
  - intros (A & B & C & D & E & F & G'). repeat split; auto; intros; intuition eauto.
  - intros (A & B & C & D & E). repeat split; auto; intros; intuition eauto.
Qed.
End P.

Lemma replaced_fun : forall A (a c l : list A), replaced a c l -> l = or_slices a c.
Proof. intros A a c l [H1 H2]. destruct a; [now apply H2|]. apply H1. discriminate. Qed.

Definition nomatch (_ _ : text) : bool := false.

Lemma c22_error : forall re_ok a c ere nre eg ng q,
  replaced (ar_examine_re a) (cf_examine_re c) ere -> replaced (ar_exclude_re a) (cf_exclude_re c) nre ->
  replaced (ar_file a) (cf_examine_globs c) eg -> replaced (ar_exclude a) (cf_exclude_globs c) ng ->
  precedence (ar_minimum_test_timeout a) (cf_minimum_test_timeout c) (Fin (inject_Z 20)) q ->
  options_new re_ok a c = NewErr <->
  (exists n, duration_of q n) /\ (forall t, ar_build_timeout a = Some t -> exists n, duration_of t n)
  /\ ((exists r, (In r ere \/ In r nre) /\ re_ok r = false) \/ exists g, (In g eg \/ In g ng) /\ build_glob_set [g] = None).
Proof.
  intros re_ok a c ere nre eg ng q E1 E2 E3 E4 E5.
  apply replaced_fun in E1, E2, E3, E4. subst.
  assert (q = unwrap_or (opt_or (ar_minimum_test_timeout a) (cf_minimum_test_timeout c)) (Fin (inject_Z 20))) as Q.
  { destruct E5 as [P1 [P2 P3]]. destruct (ar_minimum_test_timeout a); cbn; [now apply P1|].
    destruct (cf_minimum_test_timeout c); cbn; [now apply P2|now apply P3]. }
  assert (R : forall l, regex_set re_ok l = None <-> exists r, In r l /\ re_ok r = false).
  { intro l. unfold regex_set. destruct (forallb re_ok l) eqn:F.
    - rewrite forallb_forall in F. split; [discriminate|]. intros (r & Hr & K). rewrite (F r Hr) in K. discriminate.
    - split; [intros _|reflexivity]. clear - F. induction l as [|x l IH]; [discriminate|]. cbn in F. destruct (re_ok x) eqn:X.
      + destruct (IH F) as (r & Hr & K). exists r. split; [right; exact Hr|exact K].
      + exists x. split; [left; reflexivity|exact X]. }
  assert (D : forall x, (exists n, duration_of x n) <-> from_secs x <> None).
  { intro x. split.
    - intros (n & Hn) K. exact (from_secs_none x K n Hn).
    - intro H. destruct (from_secs x) as [n|] eqn:Ex; [|congruence]. exists n. exact (from_secs_duration x n Ex). }
  assert (S : (forall t, ar_build_timeout a = Some t -> exists n, duration_of t n) <-> opt_secs (ar_build_timeout a) <> None).
  { destruct (ar_build_timeout a) as [t|]; cbn [opt_secs]; [|split; [discriminate|discriminate]]. split.
    - intros H K. apply (proj1 (D t)); [apply H; reflexivity|]. destruct (from_secs t); [discriminate|reflexivity].
    - intros H t' [= <-]. apply D. intro K. rewrite K in H. congruence. }
  rewrite D, S, Q.
  assert (X : ((exists r, (In r (or_slices (ar_examine_re a) (cf_examine_re c)) \/ In r (or_slices (ar_exclude_re a) (cf_exclude_re c))) /\ re_ok r = false)
      \/ exists g, (In g (or_slices (ar_file a) (cf_examine_globs c)) \/ In g (or_slices (ar_exclude a) (cf_exclude_globs c))) /\ build_glob_set [g] = None)
    <-> (regex_set re_ok (or_slices (ar_examine_re a) (cf_examine_re c)) = None \/ regex_set re_ok (or_slices (ar_exclude_re a) (cf_exclude_re c)) = None
      \/ build_glob_set (or_slices (ar_file a) (cf_examine_globs c)) = None \/ build_glob_set (or_slices (ar_exclude a) (cf_exclude_globs c)) = None)).
  { rewrite !R, (c39_error (or_slices (ar_file a) _)), (c39_error (or_slices (ar_exclude a) _)). split.
    - intros [(r & [H|H] & K)|(r & [H|H] & K)]; eauto 8.
    - intros [(r & H & K)|[(r & H & K)|[(r & H & K)|(r & H & K)]]]; eauto 8. }
  rewrite X. clear. unfold options_new.
  destruct (from_secs _); [|split; [discriminate|intuition congruence]].
  destruct (opt_secs (ar_build_timeout a)); [|split; [discriminate|intuition congruence]].
  destruct (regex_set re_ok (or_slices (ar_examine_re a) (cf_examine_re c))); [|intuition congruence].
  destruct (regex_set re_ok (or_slices (ar_exclude_re a) (cf_exclude_re c))); [|intuition congruence].
  destruct (build_glob_set (or_slices (ar_file a) (cf_examine_globs c))); [|intuition congruence].
  destruct (build_glob_set (or_slices (ar_exclude a) (cf_exclude_globs c))); [|intuition congruence].
  destruct (opt_secs (ar_timeout a)); split; intuition discriminate.
Qed.

Lemma c21_file' : forall re_ok a c o ex no path, options_new re_ok a c = NewOk o ->
  replaced (ar_file a) (cf_examine_globs c) ex -> replaced (ar_exclude a) (cf_exclude_globs c) no ->
  allows_source_file_path o path = true <->
  (ex = [] \/ exists g, In g ex /\ glob_hits g path) /\ ~ exists g, In g no /\ glob_hits g path.
Proof.
  intros re_ok a c o ex no path H E N. apply replaced_fun in E. apply replaced_fun in N. subst.
  exact (c21_file re_ok nomatch a c o path H).
Qed.

Lemma c21_name' : forall re_ok re_match a c o ex no m name b, options_new re_ok a c = NewOk o ->
  replaced (ar_examine_re a) (cf_examine_re c) ex -> replaced (ar_exclude_re a) (cf_exclude_re c) no ->
  mutant_name true m = Some name -> allows_mutant re_match o m = Some b ->
  b = true <->
  (ex = [] \/ exists p, In p ex /\ re_match p name = true) /\ ~ exists p, In p no /\ re_match p name = true.
Proof.
  intros re_ok re_match a c o ex no m name b H E N. apply replaced_fun in E. apply replaced_fun in N. subst.
  exact (c21_name re_ok re_match a c o m name b H).
Qed.

Lemma c22_ok' : forall re_ok a c ere nre eg ng q,
  replaced (ar_examine_re a) (cf_examine_re c) ere -> replaced (ar_exclude_re a) (cf_exclude_re c) nre ->
  replaced (ar_file a) (cf_examine_globs c) eg -> replaced (ar_exclude a) (cf_exclude_globs c) ng ->
  precedence (ar_minimum_test_timeout a) (cf_minimum_test_timeout c) (Fin (inject_Z 20)) q ->
  (exists o, options_new re_ok a c = NewOk o) <->
  (forall r, In r ere \/ In r nre -> re_ok r = true)
  /\ (forall g, In g eg \/ In g ng -> build_glob_set [g] <> None)
  /\ from_secs q <> None
  /\ (forall q, ar_build_timeout a = Some q \/ ar_timeout a = Some q -> from_secs q <> None).
Proof.
  intros re_ok a c ere nre eg ng q E1 E2 E3 E4 E5.
  apply replaced_fun in E1, E2, E3, E4. subst.
  assert (q = unwrap_or (opt_or (ar_minimum_test_timeout a) (cf_minimum_test_timeout c)) (Fin (inject_Z 20))) as ->.
  { destruct E5 as [P1 [P2 P3]]. destruct (ar_minimum_test_timeout a); cbn; [now apply P1|].
    destruct (cf_minimum_test_timeout c); cbn; [now apply P2|now apply P3]. }
  rewrite (c22_ok re_ok nomatch). rewrite !forallb_forall. split.
  - intros [A [B [C [D E]]]]. split; [|now split]. intros r [R|R]; auto.
  - intros [A [C [D E]]]. split; [|split; [|now split]]; intros r R; apply A; auto.
Qed.
