(** Theorems: the runs of all shards are together one run of all the mutants (C73). *)
From Coq Require Import String List NArith ZArith Bool Arith Lia Permutation.
From Verif Require Import Text SpanM PathM MutantM ProcessM OutcomeM OutcomeS OutputM PackageM PackageS ShardM OptionsM CargoM LabM LabS LabP LabT MainM MainP
  WholeM WholeS WholeP WholeT LaunchM LaunchS LaunchP LaunchT EndM EndS EndP EndT TogetherM TogetherS TogetherP.
Import ListNotations.
Open Scope list_scope.

(** C73: the command lines of the runs are the same but for the shard, and the trees but for the output directory. *)
Theorem C73_same : forall w d d' a x x',
  for_shard (ag_shard a) a = a /\ ag_shard (for_shard x a) = x /\ for_shard x (for_shard x' a) = for_shard x a
  /\ elsewhere (wo_dir w) w = w /\ wo_dir (elsewhere d w) = d /\ elsewhere d (elsewhere d' w) = elsewhere d w.
Proof. intros [] d d' [] x x'. repeat split. Qed.
Print Assumptions C73_same.

(** C73: whatever the output directories, environments, job servers and schedules of the runs of all shards 0/n, 1/n and so on, and however deep their
    walks were allowed to go, their mutants are together exactly those that one run without --shard would test, each as often. *)
Theorem C73_partition : forall w a s n js, (0 < n)%N -> ag_iterate a = false -> Forall2 (fun k j => ran w a s k n j) (shards n) js ->
  (exists ms, whole_list w a s ms) /\ forall ms, whole_list w a s ms -> Permutation (flat_map jb_mutants js) ms.
Proof.
  intros w a s n js N0 I F. split; [|intros ms H; exact (together_lists _ _ _ _ _ _ N0 I H F)].
  assert (K : In 0%N (shards n)) by (apply in_map_iff; exists 0; split; [reflexivity|apply in_seq; lia]).
  assert (R : exists j, ran w a s 0 n j).
  { clear N0 I. induction F as [|k j ks js R F IH]; [destruct K|]. destruct K as [->|K]; [exists j; exact R|exact (IH K)]. }
  destruct R as [j R]. exact (whole_one _ _ _ _ _ _ N0 I R).
Qed.
Print Assumptions C73_partition.

(** C73: and they are shared out evenly: no shard has more than one mutant more than another. *)
Theorem C73_even : forall w a s n k1 k2 j1 j2, (k1 < n)%N -> (k2 < n)%N -> ag_iterate a = false -> ran w a s k1 n j1 -> ran w a s k2 n j2 ->
  length (jb_mutants j1) <= length (jb_mutants j2) + 1.
Proof. exact ran_even. Qed.
Print Assumptions C73_even.

(** C73: in each of them every cargo process had the right command, and found the source with the mutation that it was for. *)
Theorem C73_processes : forall w a s k n j, names_unique (se_meta s) -> (op_in_place (se_options s) = true -> op_jobs (se_options s) = None) ->
  ran w a s k n j -> exists e js P, lab_for (se_options s) P /\ tree_as_read w s P (jb_mutants j) /\
  forall l, In l (jb_log j) -> (la_scenario l = Baseline \/ exists m, In m (jb_mutants j) /\ la_scenario l = Mutant m)
    /\ right_command P (context_for e js s) (jb_mutants j) l /\ right_files P l.
Proof.
  intros w a s k n j U OK [d e js ms P r l H T E|d lk fuel es S A].
  - exists e, js, P. split; [destruct H; assumption|]. split; [exact T|]. intros x Hx. exact (C67_processes _ _ _ _ _ _ _ _ _ H T U OK Hx).
  - exists (fun _ => None), [], (mkParams (op_check_only (se_options s)) (op_jobs (se_options s)) (op_in_place (se_options s))
      (negb (op_baseline (se_options s))) false false (fun _ => None) (fun _ => true) (fun _ => [])).
    split; [repeat split|]. split; [intros m []|intros l []].
Qed.
Print Assumptions C73_processes.

(** C73: each ends with 0, 2, 3 or 4; with 4 only if its tests failed without mutations, which was then all that it ran. *)
Theorem C73_statuses : forall w a s k n j, names_unique (se_meta s) -> (op_in_place (se_options s) = true -> op_jobs (se_options s) = None) ->
  ran w a s k n j -> In (jb_status j) [0; 2; 3; 4]%Z /\ (jb_status j = 4%Z -> op_baseline (se_options s) = true /\ without_fails (jb_log j)).
Proof.
  intros w a s k n j U OK R. destruct (ran_made _ _ _ _ _ _ U OK R) as [(E & B & W)|(ts & _ & So)].
  - rewrite E. split; [right; right; right; left; reflexivity|auto].
  - destruct (status_range _ _ So) as [E|[E|E]]; rewrite E; (split; [cbn; auto|discriminate]).
Qed.
Print Assumptions C73_statuses.

(** C73: if none ends with 4, then their processes are, but for those of the tree without mutations, exactly one test of each mutant of the whole list, each
    as often as it is there; and the worst of their statuses is the status for the verdicts of all. *)
Theorem C73_together : forall w a s n js ms, (0 < n)%N -> ag_iterate a = false -> names_unique (se_meta s) ->
  (op_in_place (se_options s) = true -> op_jobs (se_options s) = None) ->
  Forall2 (fun k j => ran w a s k n j) (shards n) js -> whole_list w a s ms -> Forall (fun j => jb_status j <> 4%Z) js ->
  exists tss, Forall2 (made_of (op_baseline (se_options s)) (op_check_only (se_options s))) js tss
    /\ Permutation (map (fun t => fst (fst t)) (concat tss)) ms
    /\ Forall (tested_one (op_check_only (se_options s))) (concat tss)
    /\ forall x, worst (map jb_status js) x -> status_of (map (fun t => snd (fst t)) (concat tss)) x.
Proof.
  intros w a s n js ms N0 I U OK F WL N4. destruct (all_made _ _ _ _ _ _ U OK F N4) as [tss Ht]. exists tss.
  split; [clear - Ht; induction Ht as [|j ts js tss [M _] _ IH]; constructor; assumption|]. split; [|split].
  - rewrite <- (together_lists _ _ _ _ _ _ N0 I WL F). clear - Ht. induction Ht as [|j ts js tss [M _] _ IH]; [constructor|].
    cbn [concat flat_map]. rewrite map_app. apply Permutation_app; [|exact IH]. destruct M as (bl & rest & _ & _ & _ & PM & _). exact PM.
  - clear - Ht. induction Ht as [|j ts js tss [M _] _ IH]; [constructor|]. cbn [concat]. apply Forall_app. split; [|exact IH].
    destruct M as (bl & rest & _ & _ & Ts & _). exact Ts.
  - exact (worst_status _ _ _ _ Ht).
Qed.
Print Assumptions C73_together.

(** C73: there always is a worst status, and only one. *)
Theorem C73_worst : forall w a s n ks js, names_unique (se_meta s) -> (op_in_place (se_options s) = true -> op_jobs (se_options s) = None) ->
  Forall2 (fun k j => ran w a s k n j) ks js -> Forall (fun j => jb_status j <> 4%Z) js ->
  exists x, worst (map jb_status js) x /\ forall y, worst (map jb_status js) y -> y = x.
Proof.
  intros w a s n ks js U OK F N4.
  assert (A : Forall (fun x => x = 0%Z \/ x = 2%Z \/ x = 3%Z) (map jb_status js)).
  { clear - F N4 U OK. induction F as [|k j ks js R F IH]; [constructor|]. inversion N4 as [|? ? N1 N2]; subst. constructor; [|exact (IH N2)].
    destruct (C73_statuses _ _ _ _ _ _ U OK R) as [[E|[E|[E|[E|[]]]]] _]; auto. congruence. }
  assert (Un : forall x y, worst (map jb_status js) x -> worst (map jb_status js) y -> y = x).
  { intros x y [[-> X]|[(-> & X & X')|[-> X]]] [[-> Y]|[(-> & Y & Y')|[-> Y]]]; try reflexivity; try contradiction;
      rewrite ?Forall_forall in *; try (specialize (X _ Y); discriminate); try (specialize (Y _ X); discriminate). }
  assert (Ex : exists x, worst (map jb_status js) x).
  { destruct (in_dec Z.eq_dec 3%Z (map jb_status js)) as [I3|N3]; [exists 3%Z; left; auto|].
    destruct (in_dec Z.eq_dec 2%Z (map jb_status js)) as [I2|N2]; [exists 2%Z; right; left; auto|]. exists 0%Z. right. right. split; [reflexivity|].
    rewrite Forall_forall in *. intros x Hx. destruct (A x Hx) as [E|[-> | ->]]; [exact E|contradiction|contradiction]. }
  destruct Ex as [x W]. exists x. split; [exact W|]. intros y Y. exact (Un _ _ W Y).
Qed.
Print Assumptions C73_worst.

(** C73: so if all of them end with status 0, then for every mutant that the selected packages offer and the filters allow, some one of them has run cargo on
    the source with that mutation, and it did not build or its tests failed. *)
Theorem C73_zero : forall w a s n js, (0 < n)%N -> ag_iterate a = false -> ag_in_diff a = None -> names_unique (se_meta s) ->
  (op_in_place (se_options s) = true -> op_jobs (se_options s) = None) -> op_check_only (se_options s) = false ->
  Forall2 (fun k j => ran w a s k n j) (shards n) js -> Forall (fun j => jb_status j = 0%Z) js ->
  exists ps errs, mutated_packages (fun d => locate_project w d false) (se_meta s) (se_filter s) = Some ps
    /\ Forall2 (fun x t => wo_expr w x = Some t) (op_error_values (se_options s)) errs
    /\ forall m, of_packages w (md_root (se_meta s)) (se_options s) errs ps m ->
       exists j pre b st, In j js /\ (forall l, In l (pre ++ [b]) -> In l (jb_log j)) /\ one_job (Mutant m) (pre ++ [b])
         /\ st <> WExited 0 /\ ended b st /\ Forall (fun x => ended x (WExited 0)) pre.
Proof.
  intros w a s n js N0 I Df U OK Ck F Z. destruct (C73_partition _ _ _ _ _ N0 I F) as [(ms & d & lk & fuel & es & A) _].
  assert (N4 : Forall (fun j => jb_status j <> 4%Z) js) by (eapply Forall_impl; [|exact Z]; intros j E; rewrite E; discriminate).
  destruct (C73_together _ _ _ _ _ ms N0 I U OK F (ex_intro _ d (ex_intro _ lk (ex_intro _ fuel (ex_intro _ es A)))) N4) as (tss & Ht & PM & Ts & W).
  destruct (after_found _ _ _ _ _ _ _ A) as (ps & errs & M & Fe & _ & Al). exists ps, errs. split; [exact M|]. split; [exact Fe|]. intros m Hm.
  specialize (Al I Df eq_refl m Hm). apply (Permutation_in _ (Permutation_sym PM)) in Al. apply in_map_iff in Al as ([[m' v] b] & Em & Hb). cbn in Em. subst m'.
  assert (W0 : worst (map jb_status js) 0%Z).
  { right. right. split; [reflexivity|]. rewrite Forall_forall in *. intros x Hx. apply in_map_iff in Hx as (j & <- & Hj). exact (Z j Hj). }
  destruct (W _ W0) as [[Y _]|[(Y & _)|(_ & N1 & N2)]]; try discriminate.
  assert (Iv : In v (map (fun x => snd (fst x)) (concat tss))) by (apply in_map_iff; exists (m, v, b); auto).
  rewrite Forall_forall in Ts. destruct (Ts _ Hb) as [J Ex]. cbn in J, Ex. rewrite Ck in Ex.
  assert (Q : exists j, In j js /\ forall l, In l b -> In l (jb_log j)).
  { apply in_concat in Hb as (ts & Hts & Hb). clear - Ht Hts Hb. induction Ht as [|j ts' js tss Mj _ IH]; [destruct Hts|].
    destruct Hts as [->|Hts]; [|destruct (IH Hts) as (j' & A & B); exists j'; split; [right; exact A|exact B]]. exists j. split; [left; reflexivity|].
    destruct Mj as (bl & rest & El & Wv & _). intros l Hl. rewrite El. apply in_or_app. right. apply (woven_in _ _ Wv l). apply in_concat. exists b. split; [|exact Hl].
    apply in_map_iff. exists (m, v, b). auto. }
  destruct Q as (j & Hj & Hl). exists j.
  inversion Ex as [b0 t|b0 t c|b0 c|pre b0|b0|pre b0 w0]; subst; try congruence; try contradiction.
  - exists [b0], t, (WExited c). split; [exact Hj|]. split; [exact Hl|]. split; [exact J|]. split; [congruence|]. auto.
  - exists [], b0, (WExited c). split; [exact Hj|]. split; [exact Hl|]. split; [exact J|]. split; [congruence|]. auto.
  - exists pre, b0, w0. split; [exact Hj|]. split; [exact Hl|]. split; [exact J|]. split; [intros ->; assumption|]. auto.
Qed.
Print Assumptions C73_zero.

(** ** Example *)
(** The two mutants of WholeT in three shards, the last without mutants: the first mutant is caught, the other is missed or, in another series, caught as well. *)
Definition ex_args_for (k : N) : arguments := for_shard (Some (mkShard k 3)) (ex_arguments false).
Definition ex_first : list mutant := firstn 1 ex_ms.
Definition ex_second : list mutant := skipn 1 ex_ms.
Definition ex_shard_run (ms : list mutant) (xs : list (nat * option (exit_t * N))) : option rstate :=
  rexec ex_P2 ex_ctx ms xs (rstart ex_P2 ex_ctx ms ex_out (pa_root ex_P2)).
Definition ex_one_caught : list (nat * option (exit_t * N)) := ok 0 20 ++ fails 0 ++ ok 0 9.
Definition ex_one_missed : list (nat * option (exit_t * N)) := ok 0 31.
Lemma ex_shard_settle : forall k, settle ex_world (ex_args_for k) = Done ex_setting.
Proof. intro k. exact (ex_settle false). Qed.
Lemma ex_shard_after : (exists es, after ex_world (tx "L") 10 (ex_args_for 0) ex_setting = Done (Tests ex_first es))
  /\ (exists es, after ex_world (tx "L") 10 (ex_args_for 1) ex_setting = Done (Tests ex_second es))
  /\ (exists es, after ex_world (tx "L") 10 (ex_args_for 2) ex_setting = Done (Tests [] es)).
Proof. vm_compute. repeat split; eexists; reflexivity. Qed.
Lemma ex_shard_ran : forall k ms es xs r l, after ex_world (tx "L") 10 (ex_args_for k) ex_setting = Done (Tests ms es) -> ms <> [] ->
  (forall m, In m ms -> In m ex_ms) -> ex_shard_run ms xs = Some r -> ls_main (rs_lab r) = MEnd (ROk l) ->
  ran ex_world (ex_arguments false) ex_setting k 3 (mkJob ms (rs_log r) (status (ETested ms l))).
Proof.
  intros k ms es xs r l A NE Sub X E. apply (ra_runs _ _ _ _ _ (wo_dir ex_world) ex_env [] ms ex_P2 r l); [|intros m Hm; exact (ex_as_read m (Sub m Hm))|exact E].
  apply (pr_runs _ ex_env [] (ex_args_for k) ex_setting ms ex_P2 (tx "L") 10 es ms ex_out (pa_root ex_P2));
    [apply ex_shard_settle|exact A|exact NE|reflexivity|repeat split; reflexivity|apply LabT.C13_case|].
  eapply rexec_sound. exact X.
Qed.
Definition ex_shard_end (ms : list mutant) (xs : list (nat * option (exit_t * N))) : option (Z * nat) :=
  match ex_shard_run ms xs with
  | Some r => match ls_main (rs_lab r) with MEnd (ROk l) => Some (status (ETested ms l), length (rs_log r)) | _ => None end
  | None => None end.
Lemma ex_ends : ex_shard_end ex_first ex_one_caught = Some (0%Z, 4) /\ ex_shard_end ex_second ex_one_missed = Some (2%Z, 4)
  /\ ex_shard_end ex_second ex_one_caught = Some (0%Z, 4).
Proof. vm_compute. repeat split. Qed.
Lemma ex_job : forall k ms es xs z n, after ex_world (tx "L") 10 (ex_args_for k) ex_setting = Done (Tests ms es) -> ms <> [] ->
  (forall m, In m ms -> In m ex_ms) -> ex_shard_end ms xs = Some (z, n) ->
  exists log, length log = n /\ ran ex_world (ex_arguments false) ex_setting k 3 (mkJob ms log z).
Proof.
  intros k ms es xs z n A NE Sub E. unfold ex_shard_end in E. destruct (ex_shard_run ms xs) as [r|] eqn:X; [|discriminate].
  destruct (ls_main (rs_lab r)) as [| |[l| |]] eqn:M; try discriminate. pose proof (ex_shard_ran _ _ _ _ _ _ A NE Sub X M) as R.
  exists (rs_log r). injection E as E1 E2. split; [exact E2|]. rewrite <- E1. exact R.
Qed.
Lemma ex_first_in : forall m, In m ex_first -> In m ex_ms.
Proof. intros m [<-|[]]. left. reflexivity. Qed.
Lemma ex_second_in : forall m, In m ex_second -> In m ex_ms.
Proof. intros m [<-|[]]. right. left. reflexivity. Qed.
(** All that the theorems ask for is given; here the worst status is 2. *)
Example C73_case : exists js, Forall2 (fun k j => ran ex_world (ex_arguments false) ex_setting k 3 j) (shards 3) js
  /\ map jb_mutants js = [ex_first; ex_second; []] /\ map jb_status js = [0; 2; 0]%Z /\ map (fun j => length (jb_log j)) js = [4; 4; 0]
  /\ worst (map jb_status js) 2%Z /\ whole_list ex_world (ex_arguments false) ex_setting ex_ms
  /\ ag_iterate (ex_arguments false) = false /\ names_unique (se_meta ex_setting).
Proof.
  destruct ex_shard_after as ((es0 & A0) & (es1 & A1) & (es2 & A2)), ex_ends as (E0 & E1 & _).
  destruct (ex_job _ _ _ _ _ _ A0 ltac:(discriminate) ex_first_in E0) as (l0 & L0 & R0).
  destruct (ex_job _ _ _ _ _ _ A1 ltac:(discriminate) ex_second_in E1) as (l1 & L1 & R1).
  exists [mkJob ex_first l0 0%Z; mkJob ex_second l1 2%Z; mkJob [] [] 0%Z]. split; [|split; [|split; [|split; [|split; [|split; [|split]]]]]]; try reflexivity.
  - constructor; [exact R0|]. constructor; [exact R1|]. constructor; [|constructor].
    exact (ra_none ex_world (ex_arguments false) ex_setting 2 3 (wo_dir ex_world) (tx "L") 10 es2 (ex_shard_settle 2) A2).
  - cbn [map jb_log]. rewrite L0, L1. reflexivity.
  - right. left. cbn. split; [reflexivity|]. split; [auto|]. intros [Y|[Y|[Y|[]]]]; discriminate Y.
  - destruct ex_after as [es A]. exists (wo_dir ex_world), (tx "L"), 10, es. exact A.
  - exact ex_meta_unique.
Qed.
Example C73_case_zero : exists js, Forall2 (fun k j => ran ex_world (ex_arguments false) ex_setting k 3 j) (shards 3) js
  /\ Forall (fun j => jb_status j = 0%Z) js /\ map (fun j => length (jb_log j)) js = [4; 4; 0]
  /\ ag_in_diff (ex_arguments false) = None /\ op_check_only (se_options ex_setting) = false.
Proof.
  destruct ex_shard_after as ((es0 & A0) & (es1 & A1) & (es2 & A2)), ex_ends as (E0 & _ & E1).
  destruct (ex_job _ _ _ _ _ _ A0 ltac:(discriminate) ex_first_in E0) as (l0 & L0 & R0).
  destruct (ex_job _ _ _ _ _ _ A1 ltac:(discriminate) ex_second_in E1) as (l1 & L1 & R1).
  exists [mkJob ex_first l0 0%Z; mkJob ex_second l1 0%Z; mkJob [] [] 0%Z]. split; [|split; [|split; [|split]]]; try reflexivity.
  - constructor; [exact R0|]. constructor; [exact R1|]. constructor; [|constructor].
    exact (ra_none ex_world (ex_arguments false) ex_setting 2 3 (wo_dir ex_world) (tx "L") 10 es2 (ex_shard_settle 2) A2).
  - repeat constructor.
  - cbn [map jb_log]. rewrite L0, L1. reflexivity.
Qed.
