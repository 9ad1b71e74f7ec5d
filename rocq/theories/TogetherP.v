(** Proofs for C73: the runs of all shards together. *)
From Coq Require Import String List NArith ZArith Bool Arith Lia Permutation.
From Verif Require Import Text SpanM PathM MutantM ProcessM OutcomeM OutcomeS OutputM ShardM PackageM PackageS OptionsM CargoM WalkM WalkP LabM LabS LabP LabT MainM MainP
  WholeM WholeS WholeP WholeT LaunchM LaunchS LaunchP LaunchT EndM EndS EndP EndT TogetherM TogetherS.
Import ListNotations.
Open Scope list_scope.

(** Discovery finds the same with any fuel. *)
Lemma tree_mono : forall read is_file parse re_match tree opts errs sk ps fuel fuel' v ms fs, fuel <= fuel' ->
  walk_tree read is_file parse re_match tree opts errs sk fuel ps = WOk v ms fs -> walk_tree read is_file parse re_match tree opts errs sk fuel' ps = WOk v ms fs.
Proof.
  induction ps as [|p ps IH]; intros fuel fuel' v ms fs L H; [exact H|]. cbn [walk_tree] in *. unfold walk_package in *.
  destruct (walk_queue _ _ _ _ _ _ _ _ fuel (pk_name p) _) as [v1 m1 f1| | |] eqn:E; try discriminate.
  rewrite (run_mono _ _ _ _ _ _ _ _ _ fuel fuel' _ L) by (rewrite E; discriminate). rewrite E.
  destruct (walk_tree read is_file parse re_match tree opts errs sk fuel ps) as [v2 m2 f2| | |] eqn:T; try discriminate.
  rewrite (IH _ _ _ _ _ L T). exact H.
Qed.
Lemma discover_same : forall w s fuel fuel' v ms fs v' ms' fs', discover w fuel s = WOk v ms fs -> discover w fuel' s = WOk v' ms' fs' -> ms = ms'.
Proof.
  intros w s fuel fuel' v ms fs v' ms' fs' H H'. unfold discover in *. destruct (relative_package w (se_filter s)); [discriminate|].
  destruct (mutated_packages _ _ _) as [ps|]; [|discriminate]. destruct (parsed_error_exprs w _) as [errs|]; [|discriminate].
  destruct (Nat.le_ge_cases fuel fuel') as [L|L].
  - rewrite (tree_mono _ _ _ _ _ _ _ _ _ _ _ _ _ _ L H) in H'. congruence.
  - rewrite (tree_mono _ _ _ _ _ _ _ _ _ _ _ _ _ _ L H') in H. congruence.
Qed.

(** What is selected for a shard. *)
Lemma after_select : forall w d lk fuel a x s ms es, ag_iterate a = false -> after (elsewhere d w) lk fuel (for_shard x a) s = Done (Tests ms es) ->
  exists v found fs, discover w fuel s = WOk v found fs
    /\ select (wo_patch w) (with_shard x (cli_of w (for_shard None a) (se_options s))) None found = Done ms.
Proof.
  intros w d lk fuel a x s ms es I H. unfold after in H. change (discover (elsewhere d w) fuel s) with (discover w fuel s) in H.
  destruct (discover w fuel s) as [v found fs| | |] eqn:D; try discriminate. exists v, found, fs. split; [reflexivity|].
  destruct (run_tests _ _ _ _ _ _ _ _ _ _ _ _ H) as (_ & _ & S). unfold select, iterate_step in *. cbn [cli_of for_shard ag_iterate cl_iterate with_shard] in *.
  rewrite I in *. exact S.
Qed.

Lemma ran_after : forall w a s k n j, ran w a s k n j ->
  exists d lk fuel es, settle w a = Done s /\ after (elsewhere d w) lk fuel (for_shard (Some (mkShard k n)) a) s = Done (Tests (jb_mutants j) es).
Proof.
  intros w a s k n j [d e js ms P r l H T E|d lk fuel es S A].
  - destruct H as [lk fuel es q o0 t0 r S A NE Q LF FT R]. exists d, lk, fuel, es. split; [exact S|exact A].
  - exists d, lk, fuel, es. split; [exact S|exact A].
Qed.

Lemma shards_lt : forall n k, In k (shards n) -> (k < n)%N.
Proof. intros n k H. apply in_map_iff in H as (i & <- & H). apply in_seq in H. lia. Qed.

Lemma together_lists : forall w a s n js ms, (0 < n)%N -> ag_iterate a = false -> whole_list w a s ms ->
  Forall2 (fun k j => ran w a s k n j) (shards n) js -> Permutation (flat_map jb_mutants js) ms.
Proof.
  intros w a s n js ms N0 I (d & lk & fuel & es & A) F. destruct (after_select _ _ _ _ _ _ _ _ _ I A) as (v & found & fs & D & S).
  destruct (select_shards _ _ None found n ms N0 S) as (f & Sf & Pf).
  enough (E : flat_map jb_mutants js = flat_map f (shards n)) by (rewrite E; exact Pf).
  assert (K : forall k, In k (shards n) -> (k < n)%N) by apply shards_lt. clear Pf S N0 A. revert K. induction F as [|k j ks js R F IH]; intro K; [reflexivity|].
  cbn [flat_map]. rewrite (IH (fun k' H => K k' (or_intror H))). f_equal. destruct (ran_after _ _ _ _ _ _ R) as (d' & lk' & fuel' & es' & _ & A').
  destruct (after_select _ _ _ _ _ _ _ _ _ I A') as (v' & found' & fs' & D' & S'). pose proof (discover_same _ _ _ _ _ _ _ _ _ _ D D') as <-.
  specialize (Sf k (K k (or_introl eq_refl))). cbn [with_shard] in *. rewrite S' in Sf. congruence.
Qed.

Lemma made_nil : forall base check, made_of base check (mkJob [] [] (status (ETested [] lab_new))) [].
Proof.
  intros base check. exists [], []. split; [reflexivity|]. split; [apply (wv_none 0)|]. split; [constructor|]. split; [constructor|]. destruct base; [intro N; contradiction|reflexivity].
Qed.

Lemma ran_made : forall w a s k n j, names_unique (se_meta s) -> (op_in_place (se_options s) = true -> op_jobs (se_options s) = None) ->
  ran w a s k n j ->
  (jb_status j = 4%Z /\ op_baseline (se_options s) = true
     /\ without_fails (jb_log j))
  \/ exists ts, made_of (op_baseline (se_options s)) (op_check_only (se_options s)) j ts /\ status_of (map (fun t => snd (fst t)) ts) (jb_status j).
Proof.
  intros w a s k n j U OK [d e js ms P r l H T E|d lk fuel es S A].
  - assert (T' : tree_as_read (elsewhere d w) s P ms) by exact T. pose proof (C67_status _ _ _ _ _ _ _ _ _ H T' U OK E) as Ac. cbn [jb_status jb_log].
    assert (CO : pa_check_only P = op_check_only (se_options s)) by (destruct H as [? ? ? ? ? ? ? ? ? ? ? [L _] _ _]; exact L).
    remember (op_baseline (se_options s)) as base eqn:Eb. remember (status (ETested ms l)) as st eqn:Es.
    destruct Ac as [bl rest ts st' EL RC RF Bf PM Ts W So|B (pre & b & EL & Al & Ok & Bad & _)].
    + right. exists ts. split; [|cbn [jb_status]; exact So]. exists bl, rest. cbn [jb_log jb_mutants]. split; [exact EL|]. split; [exact W|].
      split; [eapply Forall_impl; [|exact Ts]; intros t [J Ex]; split; [exact J|rewrite <- CO; exact Ex]|]. split; [exact PM|].
      destruct base; [intros _; rewrite <- CO; exact Bf|exact Bf].
    + left. split; [reflexivity|]. split; [exact B|]. exists pre, b. auto.
  - right. exists []. split; [apply made_nil|]. right. right. cbn. split; [vm_compute; reflexivity|]. split; intros [].
Qed.

Lemma status_range : forall vs n, status_of vs n -> n = 0%Z \/ n = 2%Z \/ n = 3%Z.
Proof. intros vs n [[-> _]|[[-> _]|[-> _]]]; auto. Qed.

Lemma all_made : forall w a s n ks js, names_unique (se_meta s) -> (op_in_place (se_options s) = true -> op_jobs (se_options s) = None) ->
  Forall2 (fun k j => ran w a s k n j) ks js -> Forall (fun j => jb_status j <> 4%Z) js ->
  exists tss, Forall2 (fun j ts => made_of (op_baseline (se_options s)) (op_check_only (se_options s)) j ts /\ status_of (map (fun t => snd (fst t)) ts) (jb_status j)) js tss.
Proof.
  intros w a s n ks js U OK F. induction F as [|k j ks js R F IH]; intro N; [exists []; constructor|]. inversion N as [|? ? N1 N2]; subst.
  destruct (IH N2) as [tss Ht]. destruct (ran_made _ _ _ _ _ _ U OK R) as [[Y _]|(ts & M & So)]; [contradiction|]. exists (ts :: tss). constructor; [split; assumption|exact Ht].
Qed.

Lemma worst_status : forall base check js tss, Forall2 (fun j ts => made_of base check j ts /\ status_of (map (fun t => snd (fst t)) ts) (jb_status j)) js tss ->
  forall x, worst (map jb_status js) x -> status_of (map (fun t => snd (fst t)) (concat tss)) x.
Proof.
  intros base check js tss F x Wx.
  assert (V : forall v, In v (map (fun t => snd (fst t)) (concat tss)) <-> exists ts, In ts tss /\ In v (map (fun t : one_test => snd (fst t)) ts)).
  { intro v. split.
    - intro H. apply in_map_iff in H as (t & <- & H). apply in_concat in H as (ts & A & B). exists ts. split; [exact A|]. apply in_map_iff. eauto.
    - intros (ts & A & B). apply in_map_iff in B as (t & <- & B). apply in_map_iff. exists t. split; [reflexivity|]. apply in_concat. eauto. }
  assert (L : forall ts, In ts tss -> exists j, In j js /\ status_of (map (fun t => snd (fst t)) ts) (jb_status j)).
  { intros ts H. clear - F H. induction F as [|j t js tss [_ S] F IH]; [destruct H|]. destruct H as [<-|H]; [exists j; split; [left; reflexivity|exact S]|].
    destruct (IH H) as (j' & A & B). exists j'. split; [right; exact A|exact B]. }
  assert (R : forall n, In n (map jb_status js) -> exists ts, In ts tss /\ status_of (map (fun t => snd (fst t)) ts) n).
  { intros n H. clear - F H. induction F as [|j t js tss [_ S] F IH]; [destruct H|]. destruct H as [<-|H]; [exists t; split; [left; reflexivity|exact S]|].
    destruct (IH H) as (ts & A & B). exists ts. split; [right; exact A|exact B]. }
  assert (NT : ~ In 3%Z (map jb_status js) -> ~ In SumTimeout (map (fun t => snd (fst t)) (concat tss))).
  { intros N H. apply V in H as (ts & A & B). destruct (L ts A) as (j & Ij & So). destruct So as [[E _]|[(_ & _ & Y)|(_ & _ & Y)]]; try contradiction.
    apply N. rewrite <- E. apply in_map. exact Ij. }
  destruct Wx as [[-> I3]|[(-> & I2 & N3)|[-> A0]]].
  - left. split; [reflexivity|]. destruct (R _ I3) as (ts & A & [[_ B]|[(Y & _)|(Y & _)]]); try discriminate. apply V. eauto.
  - right. left. split; [reflexivity|]. split; [|exact (NT N3)]. destruct (R _ I2) as (ts & A & [[Y _]|[(_ & B & _)|(Y & _)]]); try discriminate. apply V. eauto.
  - right. right. split; [reflexivity|]. rewrite Forall_forall in A0. split.
    + intro H. apply V in H as (ts & A & B). destruct (L ts A) as (j & Ij & So). pose proof (A0 _ (in_map jb_status _ _ Ij)) as E. rewrite E in So.
      destruct So as [[Y _]|[(Y & _)|(_ & Y & _)]]; try discriminate. contradiction.
    + apply NT. intro Y. specialize (A0 _ Y). discriminate.
Qed.

Lemma whole_one : forall w a s k n j, (k < n)%N -> ag_iterate a = false -> ran w a s k n j -> exists ms, whole_list w a s ms.
Proof.
  intros w a s k n j L I R. destruct (ran_after _ _ _ _ _ _ R) as (d & lk & fuel & es & _ & A).
  enough (E : exists ms, after (elsewhere d w) lk fuel (for_shard None a) s = Done (Tests ms es)) by (destruct E as [ms E]; exists ms, d, lk, fuel, es; exact E).
  unfold after in *. change (discover (elsewhere d w) fuel s) with (discover w fuel s) in *. destruct (discover w fuel s) as [v found fs| | |]; try discriminate.
  unfold main_run in *. cbn [cli_of for_shard ag_iterate cl_iterate cl_list_files cl_list] in *.
  set (es0 := wo_dir (elsewhere d w) (output_parent s)) in *. set (c := cli_of (elsewhere d w) (for_shard None a) (se_options s)) in *.
  set (c' := cli_of (elsewhere d w) (for_shard (Some (mkShard k n)) a) (se_options s)) in *.
  change (iterate_step c' es0 found) with (iterate_step c es0 found) in A. destruct (iterate_step c es0 found) as [m1| |]; try discriminate. cbn [bind] in *.
  change (ag_list_files (for_shard None a)) with (ag_list_files a). change (ag_list_files (for_shard (Some (mkShard k n)) a)) with (ag_list_files a) in A.
  destruct (ag_list_files a); [discriminate|]. change (diff_step (wo_patch (elsewhere d w)) c' m1) with (diff_step (wo_patch (elsewhere d w)) c m1) in A.
  destruct (diff_step (wo_patch (elsewhere d w)) c m1) as [m2| |]; try discriminate. cbn [bind] in *. exists m2.
  change (shard_step c m2) with (Done m2). cbn [bind]. destruct (shard_step c' m2) as [m3| |]; try discriminate. cbn [bind] in A.
  change (ag_list (for_shard None a)) with (ag_list a). change (ag_list (for_shard (Some (mkShard k n)) a)) with (ag_list a) in A.
  destruct (ag_list a); [destruct (list_mutants _ _ _ _); discriminate|]. change (set_up lk c' es0) with (set_up lk c es0) in A.
  destruct (set_up lk c es0); try discriminate. injection A as _ ->. reflexivity.
Qed.

Lemma woven_in : forall bs log, woven bs log -> forall l, In l (concat bs) -> In l log.
Proof.
  intros bs log H. induction H as [n|bs1 b bs2 log x _ IH]; intros l Hl.
  - apply in_concat in Hl as (y & Hy & Hl). apply repeat_spec in Hy. subst y. destruct Hl.
  - apply in_or_app. rewrite concat_app in *. cbn [concat] in *. rewrite <- app_assoc in Hl. apply in_app_or in Hl as [Hl|Hl]; [left; apply IH, in_or_app; left; exact Hl|].
    apply in_app_or in Hl as [Hl|Hl]; [left; apply IH, in_or_app; right; apply in_or_app; left; exact Hl|].
    apply in_app_or in Hl as [Hl|Hl]; [right; exact Hl|left; apply IH, in_or_app; right; apply in_or_app; right; exact Hl].
Qed.

Lemma ran_even : forall w a s n k1 k2 j1 j2, (k1 < n)%N -> (k2 < n)%N -> ag_iterate a = false -> ran w a s k1 n j1 -> ran w a s k2 n j2 ->
  length (jb_mutants j1) <= length (jb_mutants j2) + 1.
Proof.
  assert (X : forall p c ms k n q, select p (with_shard (Some (mkShard k n)) c) None ms = Done q ->
    exists m2, select p (with_shard None c) None ms = Done m2 /\ shard_select (mkShard k n) m2 = Some q).
  { intros p c ms k n q H. unfold select in *. change (iterate_step (with_shard (Some (mkShard k n)) c) None ms) with (iterate_step c None ms) in H.
    change (iterate_step (with_shard None c) None ms) with (iterate_step c None ms). destruct (iterate_step c None ms) as [m1| |]; try discriminate. cbn [bind] in *.
    change (diff_step p (with_shard (Some (mkShard k n)) c) m1) with (diff_step p c m1) in H.
    change (diff_step p (with_shard None c) m1) with (diff_step p c m1). destruct (diff_step p c m1) as [m2| |]; try discriminate. cbn [bind] in *.
    unfold shard_step in *. cbn [with_shard cl_shard] in *. exists m2. split; [reflexivity|]. destruct (shard_select (mkShard k n) m2); [|discriminate]. cbn in H. congruence. }
  intros w a s n k1 k2 j1 j2 L1 L2 I R1 R2. destruct (ran_after _ _ _ _ _ _ R1) as (d1 & lk1 & fu1 & es1 & _ & A1), (ran_after _ _ _ _ _ _ R2) as (d2 & lk2 & fu2 & es2 & _ & A2).
  destruct (after_select _ _ _ _ _ _ _ _ _ I A1) as (v1 & f1 & fs1 & D1 & S1), (after_select _ _ _ _ _ _ _ _ _ I A2) as (v2 & f2 & fs2 & D2 & S2).
  pose proof (discover_same _ _ _ _ _ _ _ _ _ _ D1 D2) as <-. destruct (X _ _ _ _ _ _ S1) as (m & Em & P1), (X _ _ _ _ _ _ S2) as (m' & Em' & P2).
  rewrite Em in Em'. injection Em' as <-. destruct (ShardP.c03 _ m n ltac:(lia)) as (f & F & _ & _ & B). rewrite F in P1 by exact L1. rewrite F in P2 by exact L2.
  injection P1 as <-. injection P2 as <-. exact (B k1 k2 L1 L2).
Qed.
