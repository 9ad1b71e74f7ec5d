(** Proofs about the whole program. *)
From Coq Require Import String List NArith ZArith Bool Permutation Lia.
From Verif Require Import Text Sort SpanM PathM PathS PathP ProcessM MutantM OutcomeM OutcomeS OutcomeT OutputM IterateM InDiffM InDiffS ShardM PackageM PackageP
  OptionsM PrettyM FnValueM VisitM VisitS VisitP WalkM WalkS WalkP LabM LabS LabP LabT MainM MainS MainP ConsoleM ConsoleS ConsoleP ConsoleT DetP WholeM WholeS.
Import ListNotations.
Open Scope list_scope.

(** ** The exit status *)
Lemma recorded_in : forall (l : lab_outcome mutant) m, In m (recorded l) <-> exists o, In o (lo_outcomes l) /\ oc_scenario o = Mutant m.
Proof.
  intros l m. unfold recorded. rewrite in_flat_map. split; intros [o [I J]]; exists o; (split; [exact I|]).
  - destruct (oc_scenario o); [destruct J|destruct J as [->|[]]]; reflexivity.
  - rewrite J. left. reflexivity.
Qed.

Lemma verdict_recorded : forall l m v, verdict l m v -> In m (recorded l).
Proof. intros l m v (o & I & S & _). apply recorded_in. eauto. Qed.

Lemma summary_total : forall M (o : outcome M), oc_results o <> [] -> exists v, summary o = Some v.
Proof.
  intros M o N0. unfold summary, mutant_caught, mutant_missed, oc_success, last_result.
  assert (L : exists pr, last_opt (oc_results o) = Some pr).
  { clear -N0. induction (oc_results o) as [|x r IH]; [congruence|]. destruct r as [|y r]; [exists x; reflexivity|].
    destruct IH as [pr E]; [discriminate|]. exists pr. exact E. }
  destruct L as [pr L]. rewrite L. cbn [is_mutant].
  destruct (oc_scenario o); cbn [is_mutant].
  - destruct (has_timeout o); [eauto|]. destruct (is_success (pr_status pr)); eauto.
  - destruct (check_or_build_failed o); [eauto|]. destruct (has_timeout o); [eauto|]. destruct (_ && is_failure _); [eauto|].
    destruct (_ && _); [eauto|]. destruct (is_success _); eauto.
Qed.

Lemma lab_meaning : forall P o0 t0 ms q sh l ws, ms <> [] -> Permutation ms q ->
  reachable P o0 t0 q (mkLS sh (MEnd (ROk l)) ws) -> meaning (ETested ms l) (status (ETested ms l)).
Proof.
  intros P o0 t0 ms q sh l ws NE PQ R. destruct (totals_end _ _ _ _ _ _ _ R) as [_ A]. pose proof (results_end _ _ _ _ _ _ _ R) as F.
  destruct (C09_exit_code _ _ F) as (l' & code & A' & X & K). rewrite A in A'. injection A' as <-.
  unfold status. rewrite X. pose proof (c12_ok _ _ _ _ _ _ _ R) as [El _].
  assert (Bad : forall o, In o (lo_outcomes l) -> baseline_unsuccessful o -> forall m v, ~ verdict l m v).
  { intros o I [B U] m v V. subst l. destruct (C14_failed_baseline _ _ _ _ _ o R I B) as [E _].
    - unfold oc_success, last_result. destruct (last_opt (oc_results o)) as [pr|] eqn:L; [|discriminate].
      specialize (U pr eq_refl). destruct (pr_status pr); cbn; try discriminate. congruence.
    - apply verdict_recorded in V. cbn [ls_sh] in E. rewrite E in V. exact V. }
  assert (Mk : forall o, In o (lo_outcomes l) -> is_mutant (oc_scenario o) = true -> exists m, oc_scenario o = Mutant m /\ In m ms).
  { intros o I M. destruct (oc_scenario o) as [|m] eqn:Eo; [discriminate|]. exists m. split; [reflexivity|].
    apply (Permutation_in _ (Permutation_sym PQ)). assert (J : In m (recorded l)) by (apply recorded_in; eauto).
    destruct (C12_all_recorded _ _ _ _ _ _ _ R) as [PM|[E _]]; [exact (Permutation_in _ PM J)|rewrite E in J; destruct J]. }
  destruct K as [[-> [o [I U]]]|[[-> [_ [o (I & M & V)]]]|[[-> [_ [NT [o (I & M & V)]]]]|[-> [NB N0]]]]].
  - apply (me_baseline ms l o NE I U). exact (Bad o I U).
  - destruct (Mk o I M) as [m [Em Im]]. apply (me_timeout ms l m Im). exists o. auto.
  - destruct (Mk o I M) as [m [Em Im]]. apply (me_missed ms l m Im); [exists o; auto|].
    intros m' (o' & I' & S' & V'). apply (NT o' I'); [rewrite S'; reflexivity|exact V'].
  - apply me_success.
    2:{ intros m v (o & I & Eo & V). destruct (N0 o I) as [T1 T2]; [rewrite Eo; reflexivity|]. rewrite V in T1, T2. split; congruence. }
    intros m Im. apply (Permutation_in _ PQ) in Im.
    destruct (C12_all_recorded _ _ _ _ _ _ _ R) as [PM|[E [o [I [B S]]]]].
    + apply (Permutation_in _ (Permutation_sym PM)) in Im. apply recorded_in in Im. destruct Im as [o [I Eo]].
      rewrite Forall_forall in F. destruct (summary_total _ o (F o I)) as [v V].
      exists v, o. auto.
    + exfalso. apply (NB o I). split; [exact B|]. intros pr L Y. unfold oc_success, last_result in S. rewrite L, Y in S. discriminate.
Qed.

Lemma queued_perm : forall c ms q, queued c ms q -> Permutation ms q.
Proof. intros c ms q H. unfold queued in H. destruct (cl_shuffle c); [exact H|subst; apply Permutation_refl]. Qed.

Lemma status_meaning : forall w c e, ends w c e -> meaning e (status e).
Proof.
  intros w c e H.
  destruct H as [n| | | | | | | | | |a s lk fuel es l S A E|a s lk fuel ms es q P o0 t0 st r S A NE Q LF FT R M];
    try (cbn [status]; constructor; fail).
  - cbn [status]. destruct (Z.eqb_spec n 2) as [->|N2]; [constructor|]. destruct (Z.eqb_spec n 0) as [->|N0]; constructor; assumption.
  - injection E as <-. cbn. apply me_success; [intros m []|]. intros m v (o & [] & _).
  - destruct st as [sh mn ws]. cbn [ls_main] in M. subst mn. destruct r as [l| |]; try (cbn [status]; constructor; fail).
    eapply lab_meaning; [exact NE|eapply queued_perm; exact Q|exact R].
Qed.

Lemma meaning_fun : forall e n n', meaning e n -> meaning e n' -> n = n'.
Proof.
  intros e n n' H H'. destruct H as [| | | | | | |ms l A B|ms l m I V N0|ms l m I V|ms l o NE I U N0]; inversion H'; subst; try congruence; try reflexivity; exfalso;
  repeat match goal with
  | B : forall m v, verdict ?l m v -> v <> SumMissed /\ v <> SumTimeout, V : verdict ?l _ _ |- _ => destruct (B _ _ V); congruence
  | N0 : forall m v, ~ verdict ?l m v, V : verdict ?l _ _ |- _ => exact (N0 _ _ V)
  | N0 : forall m, ~ verdict ?l m SumTimeout, V : verdict ?l _ SumTimeout |- _ => exact (N0 _ V)
  end;
  match goal with NE : ?ms <> [] |- _ => destruct ms as [|m0 ms0]; [congruence|] end;
  match goal with A : forall m, In m (?x :: _) -> exists v, verdict _ m v, N0 : forall m v, ~ verdict _ m v |- _ =>
    destruct (A x (or_introl eq_refl)) as [v V]; exact (N0 _ _ V) end.
Qed.

(** ** Where everything comes from *)
Lemma settle_inv : forall w a s, settle w a = Done s ->
  start_dir (wo_is_file w) (ag_manifest a) (ag_dir a) = Some (se_start s)
  /\ open_workspace w (se_start s) = Done (se_meta s)
  /\ (exists cf, config_used w a (md_root (se_meta s)) cf /\ options_new (wo_re_ok w) (ag_options a) cf = OptionsM.NewOk (se_options s))
  /\ se_filter s = package_filter_of (ag_packages a) (ag_workspace a) (se_start s).
Proof.
  intros w a s H. unfold settle in H. destruct (start_dir _ _ _) as [start|] eqn:S; [|discriminate].
  destruct (open_workspace w start) as [md| |] eqn:O; try discriminate. cbn [bind] in H.
  destruct (if ag_no_config a then _ else _) as [cf| |] eqn:C; try discriminate. cbn [bind] in H.
  destruct (options_new _ _ cf) as [| |o] eqn:N0; try discriminate. injection H as <-. cbn [se_start se_meta se_options se_filter].
  split; [reflexivity|]. split; [exact O|]. split; [|reflexivity]. exists cf. split; [|exact N0].
  destruct (ag_no_config a) eqn:NC; [injection C as <-; apply cu_off; exact NC|]. unfold read_tree_config in C.
  destruct (wo_exists w _) eqn:X; [|injection C as <-; apply cu_absent; assumption].
  destruct (wo_read w _) as [t|] eqn:R; [|discriminate]. destruct (wo_toml w t) as [c|] eqn:T; [|discriminate]. injection C as <-.
  eapply cu_file; eassumption.
Qed.

Lemma errs_inv : forall w l errs, parsed_error_exprs w l = Some errs -> Forall2 (fun e t => wo_expr w e = Some t) l errs.
Proof.
  intros w l. induction l as [|e l IH]; intros errs H; cbn [parsed_error_exprs] in H.
  - injection H as <-. constructor.
  - destruct (wo_expr w e) as [t|] eqn:E; [|discriminate]. destruct (parsed_error_exprs w l) as [ts|]; [|discriminate].
    injection H as <-. constructor; auto.
Qed.

Lemma discover_inv : forall w fuel s v ms fs, discover w fuel s = WOk v ms fs ->
  exists ps errs, mutated_packages (fun d => locate_project w d false) (se_meta s) (se_filter s) = Some ps
    /\ Forall2 (fun e t => wo_expr w e = Some t) (op_error_values (se_options s)) errs
    /\ forall m, In m ms <-> of_packages w (md_root (se_meta s)) (se_options s) errs ps m.
Proof.
  intros w fuel s v ms fs H. unfold discover in H. destruct (relative_package w (se_filter s)); [discriminate|].
  destruct (mutated_packages _ _ _) as [ps|]; [|discriminate]. destruct (parsed_error_exprs w _) as [errs|] eqn:E; [|discriminate].
  exists ps, errs. split; [reflexivity|]. split; [apply errs_inv; exact E|]. intro m. exact (tree_mutants _ _ _ _ _ _ _ _ _ _ _ _ _ H m).
Qed.

(** ** Paths of visited files are relative *)
Lemma prefix_relative : forall p d r, p = d ++ r -> relative p -> relative d.
Proof. intros p d r -> H. destruct d as [|c d]; [reflexivity|]. unfold relative in *. rewrite absolute_app in H by discriminate. exact H. Qed.

Lemma join_relative : forall a b, relative a -> relative b -> relative (path_join a b).
Proof.
  intros a b A B. unfold path_join. rewrite B. destruct a as [|c a]; [exact B|]. unfold relative.
  destruct (ends_with _ _); rewrite absolute_app by discriminate; exact A.
Qed.

Lemma fold_relative : forall l d, relative d -> (forall x, In x l -> relative x) -> relative (fold_left path_join l d).
Proof.
  induction l as [|x l IH]; intros d D H; [exact D|]. cbn [fold_left]. apply IH; [|intros y I; apply H; right; exact I].
  apply join_relative; [exact D|apply H; left; reflexivity].
Qed.

Lemma trim_suffix : forall n r, length r <= n -> exists a, r = a ++ trim_rev r.
Proof.
  induction n as [|n IH]; intros r L; [destruct r; [exists []; reflexivity|cbn in L; lia]|].
  destruct r as [|c r]; [exists []; reflexivity|]. cbn in L. destruct (IH r) as [a E]; [lia|]. cbn [trim_rev].
  destruct (N.eqb c SLASH); [exists (c :: a); cbn [app]; f_equal; exact E|].
  destruct (N.eqb c DOT); [|exists []; reflexivity]. destruct r as [|d r]; [exists []; reflexivity|].
  destruct (N.eqb d SLASH); [exists (c :: a); cbn [app]; f_equal; exact E|exists []; reflexivity].
Qed.

Lemma split_rev : forall c p a b, split_once c (rev p) = Some (a, b) -> p = rev b ++ c :: rev a.
Proof.
  intros c p a b H. apply split_once_some in H as [H _]. apply (f_equal (@rev chr)) in H. rewrite rev_involutive in H.
  rewrite H, rev_app_distr. cbn [rev]. rewrite <- app_assoc. reflexivity.
Qed.

Lemma parent_relative : forall p d, relative p -> file_parent p = Some d -> relative d.
Proof.
  intros p d H E. unfold file_parent in E. destruct (split_once SLASH (rev p)) as [[a b]|] eqn:S.
  - injection E as <-. apply split_rev in S. destruct (trim_suffix (length b) b (le_n _)) as [x Ex].
    apply (f_equal (@rev chr)) in Ex. rewrite rev_app_distr in Ex. rewrite Ex, <- app_assoc in S. exact (prefix_relative _ _ _ S H).
  - destruct p; [discriminate|]. injection E as <-. reflexivity.
Qed.

Lemma stem_prefix : forall b, exists r, b = stem b ++ r.
Proof.
  intro b. unfold stem. destruct (text_eqb b [DOT; DOT]); [exists []; symmetry; apply app_nil_r|].
  destruct (split_once DOT (rev b)) as [[x [|y ys]]|] eqn:S; try (exists []; symmetry; apply app_nil_r).
  apply split_rev in S. eexists. exact S.
Qed.

Lemma stem_relative : forall p, relative p -> relative (without_extension p).
Proof.
  intros p H. unfold without_extension. destruct (split_once SLASH (rev p)) as [[a b]|] eqn:S.
  - apply split_rev in S. destruct (rev b) as [|c b'].
    + subst p. cbn [app] in H. unfold relative, is_absolute in H. cbn [starts_with] in H. rewrite N.eqb_refl in H. discriminate.
    + unfold relative in *. rewrite S in H. rewrite absolute_app in H by discriminate. rewrite absolute_app by discriminate. exact H.
  - destruct (stem_prefix p) as [r E]. eapply prefix_relative; [exact E|exact H].
Qed.

Lemma candidates_relative : forall f chain cands p, relative (sf_path f) ->
  (forall m, In m chain -> named m /\ forall q, mn_path m = Some q -> relative q) ->
  mod_candidates f chain = Some cands -> In p cands -> relative p.
Proof.
  intros f chain cands p F N0 H I. unfold mod_candidates in H. destruct (rev chain) as [|child rp] eqn:R; [discriminate|].
  assert (E : chain = rev rp ++ [child]) by (rewrite <- (rev_involutive chain), R; reflexivity).
  cbv zeta in H. match type of H with (match ?x with _ => _ end) = _ => destruct x as [d|] eqn:D end; [|discriminate].
  assert (Rd : relative d).
  { match type of D with (if ?b then _ else _) = _ => destruct b end; [exact (parent_relative _ _ F D)|]. injection D as <-. apply stem_relative. exact F. }
  assert (Rn : forall m x, In m chain -> relative (mn_name m ++ x)).
  { intros m x Im. destruct (N0 m Im) as [[A B] _]. unfold relative. rewrite absolute_app by exact A. exact B. }
  assert (Rf : forall m, In m chain -> relative (fs_name m)).
  { intros m Im. unfold fs_name. destruct (mn_path m) eqn:P; [exact (proj2 (N0 m Im) _ P)|exact (proj2 (proj1 (N0 m Im)))]. }
  assert (Rg : relative (fold_left path_join (map fs_name (rev rp)) d)).
  { apply fold_relative; [exact Rd|]. intros x Ix. apply in_map_iff in Ix as [m [<- Im]]. apply Rf. rewrite E. apply in_or_app. left. exact Im. }
  assert (Ic : In child chain) by (rewrite E; apply in_or_app; right; left; reflexivity).
  injection H as <-. destruct (mn_path child) as [q|] eqn:P.
  - destruct I as [<-|[]]. apply join_relative; [exact Rg|]. exact (proj2 (N0 child Ic) _ P).
  - destruct I as [<-|[<-|[]]]; (apply join_relative; [exact Rg|apply Rn; exact Ic]).
Qed.

Lemma reach_relative : forall read is_file parse tree sc package tops,
  (forall e, In e tops -> relative (fst e)) ->
  (forall t root chain m, parse t = Some root -> declared sc root chain -> In m chain -> named m) ->
  forall e, reach read is_file parse tree sc package tops e -> relative (fst e).
Proof.
  intros read is_file parse tree sc package tops T N0 e R. induction R as [e I|e c R IH K]; [auto|].
  destruct K as (f & root & chain & cands & L & P & D & C & (a & b & E & _) & _).
  apply (candidates_relative f chain cands (fst c)); [| |exact C|rewrite E; apply in_or_app; right; left; reflexivity].
  - unfold load in L. destruct (_ <? _)%Z; [discriminate|]. destruct (read _); [|discriminate]. injection L as <-. exact IH.
  - intros m I. split; [eapply N0; eassumption|]. intros q Q. destruct (declared_relative _ _ _ D) as [_ Rq]. eapply Rq; eassumption.
Qed.

Lemma no_root_relative : forall t, ~ In Root (components t) -> relative t.
Proof.
  intros t H. unfold relative. destruct (is_absolute t) eqn:A; [|reflexivity]. exfalso. apply H.
  destruct (components_shape t) as [h [r [E [_ [Hr _]]]]]. apply Hr in A. subst h. rewrite E. left. reflexivity.
Qed.

Lemma tops_relative : forall md p t, is_absolute (md_root md) = true -> In p (packages_from_metadata md) -> In t (pk_tops p) -> relative t.
Proof.
  intros md p t A I It. unfold packages_from_metadata, filter_map in I. apply in_flat_map in I as [mp [_ I]].
  destruct (from_cargo_metadata (md_root md) mp) as [p'|] eqn:F; [|destruct I]. destruct I as [->|[]].
  unfold from_cargo_metadata in F. destruct (strip_prefix _ _); [|discriminate]. destruct (path_parent _); [|discriminate]. injection F as <-.
  cbn [pk_tops] in It. unfold package_top_sources in It. apply dedup_in, isort_in, in_flat_map in It. destruct It as [tg [_ It]].
  destruct (should_mutate_target tg); [|destruct It]. destruct (strip_prefix (tg_src tg) (md_root md)) as [r|] eqn:S; [|destruct It].
  destruct It as [->|[]]. apply no_root_relative. intro K. destruct (strip_some_inv _ _ _ A S) as [E _].
  pose proof (suffix_inner _ _ _ A E) as In0. rewrite Forall_forall in In0. destruct (In0 Root K) as [X|[u [X _]]]; discriminate.
Qed.

Lemma by_name_in : forall ps names p, In p (packages_by_name ps names) -> In p ps.
Proof.
  intros ps names p I. unfold packages_by_name, filter_map in I. apply in_flat_map in I as [n [_ I]].
  destruct (find _ ps) as [q|] eqn:F; [|destruct I]. destruct I as [->|[]]. apply find_some in F. apply F.
Qed.

Lemma mutated_in : forall locate md f ps p, mutated_packages locate md f = Some ps -> In p ps -> In p (packages_from_metadata md).
Proof.
  intros locate md f ps p H I. unfold mutated_packages in H. destruct (filter_packages locate md f) as [s|] eqn:F; [|discriminate].
  injection H as <-. destruct s as [|l]; [exact I|]. cbn [expand_selection] in I. unfold filter_packages in F. destruct f as [|names|dir].
  - discriminate.
  - injection F as <-. eapply by_name_in. exact I.
  - destruct (locate dir) as [pd|]; [|discriminate]. destruct (negb _); [discriminate|]. destruct (find _ _) as [q|] eqn:Fd.
    + injection F as <-. destruct I as [<-|[]]. apply find_some in Fd. apply Fd.
    + destruct (path_eqb _ _); [|discriminate]. injection F as F. unfold default_packages in F. destruct (md_default md); [|discriminate].
      injection F as <-. eapply by_name_in. exact I.
Qed.

(** ** What is tested *)
Lemma found_relative : forall w a s ps errs m,
  (forall p md, wo_metadata w p = Some md -> is_absolute (md_root md) = true) ->
  (forall t root sc chain m, wo_syn w t = Some root -> declared sc root chain -> In m chain -> named m) ->
  settle w a = Done s -> mutated_packages (fun d => locate_project w d false) (se_meta s) (se_filter s) = Some ps ->
  of_packages w (md_root (se_meta s)) (se_options s) errs ps m -> relative (sf_path (mu_file m)).
Proof.
  intros w a s ps errs m Abs Nm S M (p & e & f & root & Ip & R & Ld & Sy & _ & Of & _).
  destruct Of as (anc & k & cs & _ & _ & _ & _ & ->).
  assert (Re : relative (fst e)).
  { eapply reach_relative; [| |exact R].
    - intros e' I. apply in_map_iff in I as [t [<- It]]. cbn [fst]. destruct (settle_inv _ _ _ S) as (_ & O & _).
      eapply tops_relative; [|eapply mutated_in; [exact M|exact Ip]|exact It].
      unfold open_workspace in O. destruct (locate_project w _ true); [|discriminate]. destruct (is_absolute _); [|discriminate].
      destruct (wo_metadata w _) as [md|] eqn:W; [|discriminate]. injection O as <-. eapply Abs. exact W.
    - intros t r chain m0. apply Nm. }
  unfold load in Ld. destruct (_ <? _)%Z; [discriminate|]. destruct (wo_read w _); [|discriminate]. injection Ld as <-. exact Re.
Qed.

Lemma select_scope : forall w a s ops ps errs found q,
  (forall s, ag_shard a = Some s -> (sh_k s < sh_n s)%N) ->
  (forall p md, wo_metadata w p = Some md -> is_absolute (md_root md) = true) ->
  (forall t root sc chain m, wo_syn w t = Some root -> declared sc root chain -> In m chain -> named m) ->
  patches_of w a ops -> settle w a = Done s ->
  mutated_packages (fun d => locate_project w d false) (se_meta s) (se_filter s) = Some ps ->
  (forall m, In m found <-> of_packages w (md_root (se_meta s)) (se_options s) errs ps m) ->
  select (wo_patch w) (cli_of w a (se_options s)) (wo_dir w (output_parent s)) found = Done q ->
  chosen (if ag_iterate a then Some (load_previously_caught (wo_dir w (output_parent s))) else None) ops (shard_of a) found q.
Proof.
  intros w a s ops ps errs found q Sh Abs Nm Pt S M Iff Sel.
  apply (select_chosen (wo_patch w) (cli_of w a (se_options s))); [| | |exact Sel].
  - cbn [cli_of cl_diff]. unfold patches_of in Pt. destruct (ag_in_diff a) as [p|]; [|exact Pt]. cbn [option_map].
    destruct Pt as (d & pp & R & -> & K). rewrite R. eauto.
  - intros m I. apply Iff in I. exact (found_relative _ _ _ _ _ _ Abs Nm S M I).
  - exact Sh.
Qed.

Lemma tested_scope : forall w a ms l ops,
  (forall s, ag_shard a = Some s -> (sh_k s < sh_n s)%N) ->
  (forall p md, wo_metadata w p = Some md -> is_absolute (md_root md) = true) ->
  (forall t root sc chain m, wo_syn w t = Some root -> declared sc root chain -> In m chain -> named m) ->
  patches_of w a ops -> ends w (CmdRun a) (ETested ms l) ->
  exists s ps errs found,
    settle w a = Done s
    /\ mutated_packages (fun d => locate_project w d false) (se_meta s) (se_filter s) = Some ps
    /\ Forall2 (fun e t => wo_expr w e = Some t) (op_error_values (se_options s)) errs
    /\ (forall m, In m found <-> of_packages w (md_root (se_meta s)) (se_options s) errs ps m)
    /\ chosen (if ag_iterate a then Some (load_previously_caught (wo_dir w (output_parent s))) else None) ops (shard_of a) found ms
    /\ ag_list a = false /\ ag_list_files a = false.
Proof.
  intros w a ms l ops Sh Abs Nm Pt E.
  assert (X : exists s lk fuel es, settle w a = Done s /\ after w lk fuel a s = Done (Tests ms es)).
  { inversion E; subst; eauto 10. destruct r; try discriminate. match goal with H : ETested _ _ = ETested _ _ |- _ => injection H as <- <- end. eauto 10. }
  clear E. destruct X as (s & lk & fuel & es & S & A). exists s. unfold after in A.
  destruct (discover w fuel s) as [v found fs| | |] eqn:D; try discriminate.
  destruct (discover_inv _ _ _ _ _ _ D) as (ps & errs & M & F & Iff). exists ps, errs, found.
  destruct (run_tests _ _ _ _ _ _ _ _ _ _ _ _ A) as (L1 & L2 & Sel).
  split; [exact S|]. split; [exact M|]. split; [exact F|]. split; [exact Iff|]. split; [|split; [exact L1|exact L2]].
  exact (select_scope _ _ _ _ _ _ _ _ Sh Abs Nm Pt S M Iff Sel).
Qed.

(** ** What is listed *)
Lemma tree_files : forall read is_file parse re_match tree opts errs skip_calls fuel ps v ms fs,
  walk_tree read is_file parse re_match tree opts errs skip_calls fuel ps = WOk v ms fs ->
  forall f, In f fs <-> exists p e, In p ps
    /\ reach read is_file parse tree skip_calls (pk_name p) (map (fun t => (t, true)) (pk_tops p)) e
    /\ load read tree (fst e) (pk_name p) (snd e) = Loaded f /\ allows_source_file_path opts (sf_path f) = true.
Proof.
  intros read is_file parse re_match tree opts errs skip_calls fuel ps. induction ps as [|p ps IH]; intros v ms fs H f; cbn [walk_tree] in H.
  - injection H as <- <- <-. split; [contradiction|]. intros [p [e [[] _]]].
  - destruct (walk_package read is_file parse re_match tree opts errs skip_calls fuel p) as [v1 ms1 fs1| | |] eqn:W; try discriminate.
    destruct (walk_tree read is_file parse re_match tree opts errs skip_calls fuel ps) as [v2 ms2 fs2| | |] eqn:T; try discriminate.
    injection H as <- <- <-. rewrite in_app_iff. rewrite (IH _ _ _ eq_refl f).
    unfold walk_package in W. rewrite (run_files _ _ _ _ _ _ _ _ _ _ _ _ _ _ W f). split.
    + intros [[e X]|[p' [e [I X]]]]; [exists p, e; split; [left; reflexivity|exact X]|exists p', e; split; [right; exact I|exact X]].
    + intros [p' [e [[<-|I] X]]]; [left; exists e; exact X|right; exists p', e; auto].
Qed.

Lemma discover_files : forall w fuel s v ms fs, discover w fuel s = WOk v ms fs ->
  exists ps, mutated_packages (fun d => locate_project w d false) (se_meta s) (se_filter s) = Some ps
    /\ forall f, In f fs <-> file_of_packages w (md_root (se_meta s)) (se_options s) ps f.
Proof.
  intros w fuel s v ms fs H. unfold discover in H. destruct (relative_package w (se_filter s)); [discriminate|].
  destruct (mutated_packages _ _ _) as [ps|]; [|discriminate]. destruct (parsed_error_exprs w _) as [errs|] eqn:E; [|discriminate].
  exists ps. split; [reflexivity|]. intro f. exact (tree_files _ _ _ _ _ _ _ _ _ _ _ _ _ H f).
Qed.

Lemma list_mutants_lists : forall w a o ms out, list_mutants (wo_diff w) (wo_json_mutants w) (cli_of w a o) ms = Some out -> lists_mutants w o ms out.
Proof.
  intros w a o ms out H. unfold list_mutants in H. cbn [cli_of cl_json cl_diffs] in H. destruct (op_emit_json o) eqn:J.
  - injection H as <-. destruct (op_emit_diffs o) eqn:D; [apply lm_json_diffs|apply lm_json]; auto.
  - revert out H. induction ms as [|m ms IH]; intros out H; cbn [list_text] in H; [injection H as <-; constructor; exact J|].
    unfold list_one in H. cbn [cli_of cl_line_col cl_diffs] in H. destruct (mutant_name _ m) as [n|] eqn:N; [|discriminate].
    destruct (list_text _ _ ms) as [b|] eqn:B; [|discriminate]. injection H as <-. specialize (IH _ eq_refl).
    rewrite <- app_assoc. destruct (op_emit_diffs o) eqn:D.
    + change (NL :: wo_diff w m ++ [NL]) with ([NL] ++ (wo_diff w m ++ [NL])). rewrite <- !app_assoc. apply lm_diff; auto.
    + apply lm_line; auto.
Qed.

Lemma list_files_lists : forall w a o fs, lists_files w o fs (list_files (wo_json_files w) (cli_of w a o) fs).
Proof.
  intros w a o fs. unfold list_files. cbn [cli_of cl_json]. destruct (op_emit_json o) eqn:J; [constructor; exact J|].
  induction fs as [|f fs IH]; cbn [flat_map]; [constructor; exact J|]. rewrite <- app_assoc. constructor; auto.
Qed.

Lemma listed_scope : forall w a out ops,
  (forall s, ag_shard a = Some s -> (sh_k s < sh_n s)%N) ->
  (forall p md, wo_metadata w p = Some md -> is_absolute (md_root md) = true) ->
  (forall t root sc chain m, wo_syn w t = Some root -> declared sc root chain -> In m chain -> named m) ->
  patches_of w a ops -> ends w (CmdRun a) (EListed out) ->
  exists s ps, settle w a = Done s
    /\ mutated_packages (fun d => locate_project w d false) (se_meta s) (se_filter s) = Some ps
    /\ (ag_list_files a = true /\ (exists fs, (forall f, In f fs <-> file_of_packages w (md_root (se_meta s)) (se_options s) ps f)
                                             /\ lists_files w (se_options s) fs out)
        \/ ag_list_files a = false /\ ag_list a = true
           /\ exists errs found ms,
             Forall2 (fun e t => wo_expr w e = Some t) (op_error_values (se_options s)) errs
             /\ (forall m, In m found <-> of_packages w (md_root (se_meta s)) (se_options s) errs ps m)
             /\ chosen (if ag_iterate a then Some (load_previously_caught (wo_dir w (output_parent s))) else None) ops (shard_of a) found ms
             /\ lists_mutants w (se_options s) ms out).
Proof.
  intros w a out ops Sh Abs Nm Pt E.
  assert (X : exists s lk fuel, settle w a = Done s /\ after w lk fuel a s = Done (Printed out)).
  { inversion E; subst; eauto 10. destruct r; discriminate. }
  clear E. destruct X as (s & lk & fuel & S & A). exists s. unfold after in A.
  destruct (discover w fuel s) as [v found fs| | |] eqn:D; try discriminate.
  destruct (discover_inv _ _ _ _ _ _ D) as (ps & errs & M & F & Iff).
  destruct (discover_files _ _ _ _ _ _ D) as (ps' & M' & Ff). assert (ps' = ps) by congruence. subst ps'. clear M'.
  exists ps. split; [exact S|]. split; [exact M|]. unfold main_run in A.
  destruct (iterate_step _ _ found) as [m1| |] eqn:I1; try discriminate. cbn [bind] in A.
  change (cl_list_files (cli_of w a (se_options s))) with (ag_list_files a) in A. destruct (ag_list_files a); [left|right; split; [reflexivity|]].
  - split; [reflexivity|]. exists fs. split; [exact Ff|]. injection A as <-. apply list_files_lists.
  - destruct (diff_step _ _ m1) as [m2| |] eqn:I2; try discriminate. cbn [bind] in A.
    destruct (shard_step _ m2) as [m3| |] eqn:I3; try discriminate. cbn [bind] in A.
    change (cl_list (cli_of w a (se_options s))) with (ag_list a) in A. destruct (ag_list a); [|destruct (set_up _ _ _); discriminate].
    split; [reflexivity|]. exists errs, found, m3. split; [exact F|]. split; [exact Iff|]. split.
    + apply (select_scope _ _ _ _ _ _ _ _ Sh Abs Nm Pt S M Iff). unfold select. rewrite I1. cbn [bind]. rewrite I2. exact I3.
    + destruct (list_mutants _ _ _ m3) as [t|] eqn:L; [|discriminate]. injection A as <-. exact (list_mutants_lists _ _ _ _ _ L).
Qed.

Lemma open_inv : forall w start md, open_workspace w start = Done md -> workspace_of w start md.
Proof.
  intros w start md H. unfold open_workspace, locate_project in H. split.
  - destruct (wo_is_dir w start); [reflexivity|discriminate].
  - destruct (wo_is_dir w start); [|discriminate]. destruct (wo_locate w true start) as [mf|]; [|discriminate].
    destruct (wo_is_file w mf) eqn:F; [|discriminate]. destruct (path_parent mf) as [root|] eqn:P; [|discriminate].
    destruct (wo_is_dir w root) eqn:D; [|discriminate]. destruct (is_absolute root) eqn:A; [|discriminate].
    destruct (wo_metadata w _) as [md'|] eqn:M; [|discriminate]. injection H as <-.
    destruct (parent_components _ _ P) as [c [C _]]. exists mf, root, c. auto 10.
Qed.

Lemma zero_whole : forall w a e,
  (forall p md, wo_metadata w p = Some md -> is_absolute (md_root md) = true) ->
  (forall t root sc chain m, wo_syn w t = Some root -> declared sc root chain -> In m chain -> named m) ->
  ends w (CmdRun a) e -> status e = 0%Z ->
  ag_list a = false -> ag_list_files a = false -> ag_iterate a = false -> ag_in_diff a = None -> ag_shard a = None ->
  exists s ps errs l, settle w a = Done s
    /\ mutated_packages (fun d => locate_project w d false) (se_meta s) (se_filter s) = Some ps
    /\ Forall2 (fun e t => wo_expr w e = Some t) (op_error_values (se_options s)) errs
    /\ forall m, of_packages w (md_root (se_meta s)) (se_options s) errs ps m ->
         (exists v, verdict l m v) /\ (forall v, verdict l m v -> v <> SumMissed /\ v <> SumTimeout).
Proof.
  intros w a e Abs Nm E Z L Lf It Df Sh. pose proof (status_meaning _ _ _ E) as M. rewrite Z in M.
  destruct e as [n| |out| | |ms l]; try (inversion M; fail).
  - exfalso. inversion E. match goal with H : match ?r with _ => _ end = EClap _ |- _ => destruct r; discriminate end.
  - exfalso. inversion E. match goal with H : match ?r with _ => _ end = EInfo |- _ => destruct r; discriminate end.
  - exfalso. inversion E as [| | | | | | | | |a' s lk fuel o S A| |]; subst.
    + unfold after, main_run in A. destruct (discover w fuel s) as [v ms fs| | |]; try discriminate.
      unfold iterate_step, diff_step, shard_step in A. cbn [cli_of cl_iterate cl_list_files cl_list cl_diff cl_shard] in A.
      rewrite It, L, Lf, Df, Sh in A. cbn [bind option_map] in A. destruct (set_up _ _ _); discriminate.
    + match goal with H : match ?r with _ => _ end = EListed _ |- _ => destruct r; discriminate end.
  - destruct (tested_scope w a ms l None) as (s & ps & errs & found & S & Mp & F & Iff & C & _); auto.
    + rewrite Sh. discriminate.
    + unfold patches_of. rewrite Df. reflexivity.
    + exists s, ps, errs, l. split; [exact S|]. split; [exact Mp|]. split; [exact F|]. intros m Hm.
      destruct C as (x & y & C1 & C2 & C3). rewrite It in C1. unfold shard_of in C3. rewrite Sh in C3. cbn [option_map] in C3. subst x y ms.
      inversion M as [| | | | | | |ms' l' A B| | |]; subst. split; [apply A, Iff, Hm|]. intros v. apply B.
Qed.

Lemma config_iff : forall w a root cf,
  (if ag_no_config a then Done config_default else read_tree_config w root) = Done cf <-> config_used w a root cf.
Proof.
  intros w a root cf. split.
  - intro C. destruct (ag_no_config a) eqn:NC; [injection C as <-; apply cu_off; exact NC|]. unfold read_tree_config in C.
    destruct (wo_exists w _) eqn:X; [|injection C as <-; apply cu_absent; assumption].
    destruct (wo_read w _) as [t|] eqn:R; [|discriminate]. destruct (wo_toml w t) as [c|] eqn:T; [|discriminate]. injection C as <-.
    eapply cu_file; eassumption.
  - intros [N0|N0 X|t c N0 X R T]; rewrite N0; [reflexivity| |]; unfold read_tree_config; rewrite X; [reflexivity|]. rewrite R, T. reflexivity.
Qed.
Lemma config_no_panic : forall w a root, (if ag_no_config a then Done config_default else read_tree_config w root) <> Panics.
Proof.
  intros w a root. destruct (ag_no_config a); [discriminate|]. unfold read_tree_config.
  destruct (wo_exists w _); [|discriminate]. destruct (wo_read w _); [|discriminate]. destruct (wo_toml w _); discriminate.
Qed.
Lemma settle_panics : forall w a, settle w a = Panics <->
  exists start, start_dir (wo_is_file w) (ag_manifest a) (ag_dir a) = Some start
    /\ ((exists manifest root, wo_is_dir w start = true /\ wo_locate w true start = Some manifest /\ wo_is_file w manifest = true
           /\ path_parent manifest = Some root /\ wo_is_dir w root = true /\ is_absolute root = false)
        \/ exists md cf, open_workspace w start = Done md /\ config_used w a (md_root md) cf
             /\ options_new (wo_re_ok w) (ag_options a) cf = OptionsM.NewPanic).
Proof.
  intros w a. unfold settle. split.
  - intro H. destruct (start_dir _ _ _) as [start|]; [|discriminate]. exists start. split; [reflexivity|].
    destruct (open_workspace w start) as [md| |] eqn:O.
    + right. cbn [bind] in H. destruct (if ag_no_config a then _ else _) as [cf| |] eqn:C; try discriminate.
      2:{ exfalso. exact (config_no_panic _ _ _ C). }
      cbn [bind] in H. destruct (options_new _ _ cf) as [| |o] eqn:N0; try discriminate. exists md, cf. rewrite config_iff in C. auto.
    + discriminate.
    + left. clear H. unfold open_workspace, locate_project in O. destruct (wo_is_dir w start); [|discriminate].
      destruct (wo_locate w true start) as [mf|]; [|discriminate]. destruct (wo_is_file w mf) eqn:F; [|discriminate].
      destruct (path_parent mf) as [root|] eqn:P; [|discriminate]. destruct (wo_is_dir w root) eqn:D; [|discriminate].
      exists mf, root. destruct (is_absolute root); [destruct (wo_metadata w _); discriminate|]. auto 10.
  - intros (start & -> & [(mf & root & D & L & F & P & R & A)|(md & cf & O & C & N0)]).
    + unfold open_workspace, locate_project. rewrite D, L, F, P, R, A. reflexivity.
    + rewrite O. cbn [bind]. apply config_iff in C. rewrite C. cbn [bind]. rewrite N0. reflexivity.
Qed.

Lemma as_options : forall w a ms l, ends w (CmdRun a) (ETested ms l) ->
  exists s, settle w a = Done s
    /\ (forall o r, In o (lo_outcomes l) -> In r (oc_results o) ->
          if op_check_only (se_options s) then pr_phase r = Check else pr_phase r = Build \/ pr_phase r = Test)
    /\ (ms <> [] -> (op_baseline (se_options s) = true <-> exists o, In o (lo_outcomes l) /\ oc_scenario o = Baseline))
    /\ (op_baseline (se_options s) = false -> status (ETested ms l) <> 4%Z).
Proof.
  intros w a ms l E. remember (CmdRun a) as c eqn:Ec. remember (ETested ms l) as e eqn:Ee. destruct E; try discriminate; injection Ec as ->.
  - injection Ee as <- <-. exists s. injection H1 as <-. split; [exact H|]. split; [intros o r []|]. split; [congruence|]. intros _. discriminate.
  - destruct r as [l'| |]; try discriminate. injection Ee as -> ->. exists s. split; [exact H|].
    destruct H3 as (CO & _ & _ & SB). destruct st as [sh mn ws]. cbn [ls_main] in H6. subst mn.
    destruct (totals_end _ _ _ _ _ _ _ H5) as [El _].
    assert (B : op_baseline (se_options s) = true <-> exists o, In o (lo_outcomes l) /\ oc_scenario o = Baseline).
    { destruct (scenarios_end _ _ _ _ _ _ _ H5) as [[PM _]|(Sk & o & Eo & So & _)]; rewrite SB in *.
      - assert (J : op_baseline (se_options s) = true <-> In Baseline (map oc_scenario (lo_outcomes l))).
        { split; intro J.
          - rewrite J in PM. apply (Permutation_in _ (Permutation_sym PM)). left. reflexivity.
          - apply (Permutation_in _ PM) in J. destruct (op_baseline (se_options s)); [reflexivity|]. cbn [negb app] in J.
            apply in_map_iff in J. destruct J as [m [J _]]. discriminate. }
        rewrite J, in_map_iff. split; intros [o [A1 A2]]; exists o; auto.
      - destruct (op_baseline (se_options s)); [|discriminate]. split; [|reflexivity]. intros _. exists o. rewrite Eo. split; [left; reflexivity|exact So]. }
    split; [|split; [intros _; exact B|]].
    + intros o r Io Ir. subst l. pose proof (C10_recorded _ _ _ _ _ o H5 Io) as FR. rewrite CO in FR.
      assert (Ip : In (pr_phase r) (phases (op_check_only (se_options s)))).
      { destruct FR as [[M _]|(bf & r' & lt & _ & M & _)]; rewrite <- M; [|apply in_or_app; left]; apply in_map; exact Ir. }
      unfold phases in Ip. destruct (op_check_only (se_options s)); cbn in Ip; intuition congruence.
    + intros NB X. assert (QP : Permutation ms q) by (eapply queued_perm; eassumption).
      pose proof (lab_meaning _ _ _ ms _ _ _ _ H1 QP H5) as M. rewrite X in M. inversion M; subst.
      destruct B as [_ B]. rewrite B in NB; [discriminate|]. match goal with U : baseline_unsuccessful ?o |- _ => exists o; split; [assumption|apply U] end.
Qed.

(** ** How discovery ends *)
Lemma located_dir : forall w d p, locate_project w d false = Some p <-> package_dir w d p.
Proof.
  intros w d p. unfold locate_project, package_dir. split.
  - destruct (wo_is_dir w d); [|discriminate]. destruct (wo_locate w false d) as [mf|]; [|discriminate].
    destruct (wo_is_file w mf) eqn:F; [|discriminate]. destruct (path_parent mf) as [root|] eqn:E; [|discriminate].
    destruct (wo_is_dir w root) eqn:D; [|discriminate]. injection 1 as <-. split; [reflexivity|]. exists mf. auto.
  - intros (D & mf & L & F & Pp & Dp). rewrite D, L, F, Pp, Dp. reflexivity.
Qed.

Lemma relative_iff : forall w s, relative_package w (se_filter s) = true <-> in_relative w s.
Proof.
  intros w s. unfold relative_package, in_relative. split.
  - destruct (se_filter s) as [| |d] eqn:F; try discriminate. destruct (locate_project w d false) as [p|] eqn:L; [|discriminate].
    intro N. apply negb_true_iff in N. exists d, p. split; [reflexivity|]. split; [apply located_dir; exact L|exact N].
  - intros (d & p & -> & L & N). apply located_dir in L. rewrite L, N. reflexivity.
Qed.

Lemma errs_iff : forall w l errs, parsed_error_exprs w l = Some errs <-> Forall2 (fun e t => wo_expr w e = Some t) l errs.
Proof.
  intros w l errs. split; [apply errs_inv|]. intro H. induction H as [|e t l errs E H IH]; [reflexivity|]. cbn [parsed_error_exprs]. rewrite E, IH. reflexivity.
Qed.
Lemma errs_none : forall w l, parsed_error_exprs w l = None <-> exists e, In e l /\ wo_expr w e = None.
Proof.
  intros w l. induction l as [|e l IH]; cbn [parsed_error_exprs].
  - split; [discriminate|intros (e & [] & _)].
  - destruct (wo_expr w e) as [t|] eqn:E.
    + destruct (parsed_error_exprs w l) as [ts|].
      * split; [discriminate|]. intros (e' & [<-|I] & N); [congruence|]. destruct IH as [_ IH]. discriminate IH. eauto.
      * split; [|reflexivity]. intros _. destruct IH as [IH _]. destruct (IH eq_refl) as (e' & I & N). exists e'. split; [right; exact I|exact N].
    + split; [|reflexivity]. intros _. exists e. split; [left; reflexivity|exact E].
Qed.

Lemma discover_ok : forall w fuel s v ms fs, discover w fuel s = WOk v ms fs <-> ~ in_relative w s /\ walks_to w fuel s (WOk v ms fs).
Proof.
  intros w fuel s v ms fs. unfold discover. rewrite <- relative_iff. destruct (relative_package w (se_filter s)); [split; [discriminate|intros [N _]; congruence]|].
  split.
  - intro H. split; [discriminate|]. unfold walks_to. destruct (mutated_packages _ _ _) as [ps|]; [|discriminate].
    destruct (parsed_error_exprs w _) as [errs|] eqn:E; [|discriminate]. apply errs_iff in E. exists ps, errs. auto.
  - intros [_ (ps & errs & M & F & W)]. rewrite M. apply errs_iff in F. rewrite F. exact W.
Qed.
Lemma discover_panic : forall w fuel s, discover w fuel s = WalkM.WPanic <-> in_relative w s \/ walks_to w fuel s WalkM.WPanic.
Proof.
  intros w fuel s. unfold discover. rewrite <- relative_iff. destruct (relative_package w (se_filter s)); [split; auto|].
  split.
  - intro H. right. unfold walks_to. destruct (mutated_packages _ _ _) as [ps|]; [|discriminate].
    destruct (parsed_error_exprs w _) as [errs|] eqn:E; [|discriminate]. apply errs_iff in E. exists ps, errs. auto.
  - intros [N|(ps & errs & M & F & W)]; [discriminate|]. rewrite M. apply errs_iff in F. rewrite F. exact W.
Qed.
Lemma discover_err : forall w fuel s, discover w fuel s = WErr <-> ~ in_relative w s /\
  (mutated_packages (fun d => locate_project w d false) (se_meta s) (se_filter s) = None
   \/ (exists e, In e (op_error_values (se_options s)) /\ wo_expr w e = None) \/ walks_to w fuel s WErr).
Proof.
  intros w fuel s. unfold discover. rewrite <- relative_iff. destruct (relative_package w (se_filter s)); [split; [discriminate|intros [N _]; congruence]|].
  split.
  - intro H. split; [discriminate|]. unfold walks_to. destruct (mutated_packages _ _ _) as [ps|]; [|auto]. right.
    destruct (parsed_error_exprs w _) as [errs|] eqn:E; [|left; apply errs_none; exact E]. apply errs_iff in E. right. exists ps, errs. auto.
  - intros [_ [M|[E|(ps & errs & M & F & W)]]].
    + rewrite M. reflexivity.
    + apply errs_none in E. rewrite E. destruct (mutated_packages _ _ _); reflexivity.
    + rewrite M. apply errs_iff in F. rewrite F. exact W.
Qed.
