(** C44, C51: what the program tests and lists, and where it starts. *)
From Coq Require Import String List NArith Bool Arith Lia Permutation.
From Verif Require Import Text SpanM PathM PathS PathP MutantM OutcomeM OutputM OutputS OutputP IterateM IterateP InDiffM InDiffS InDiffP
  ShardM ShardP PackageM PackageP WalkM LabM LabS LabT MainM MainS MainP.
Import ListNotations.
Open Scope nat_scope.

(** C44: with the same arguments, what is listed is what is tested; listing fails when testing would, and
    testing fails otherwise only for want of an output directory. *)
Theorem C44_same : forall parse diff jm jf lk c es found, cl_list_files c = false ->
  (forall out q es', main_run parse diff jm jf lk (with_list true c) es found = Done (Printed out) ->
     main_run parse diff jm jf lk (with_list false c) es found = Done (Tests q es') ->
     list_mutants diff jm c q = Some out)
  /\ (main_run parse diff jm jf lk (with_list true c) es found = Fails -> main_run parse diff jm jf lk (with_list false c) es found = Fails)
  /\ (main_run parse diff jm jf lk (with_list false c) es found = Fails ->
      main_run parse diff jm jf lk (with_list true c) es found <> Fails -> set_up lk c es = Fails)
  /\ (forall a, main_run parse diff jm jf lk (with_list true c) es found = Done a -> exists out, a = Printed out)
  /\ (forall a, main_run parse diff jm jf lk (with_list false c) es found = Done a -> exists q es', a = Tests q es').
Proof.
  intros parse diff jm jf lk c es found F. destruct found as [v ms fs| | |]; try (cbn [main_run]; repeat split; intros; try discriminate; try reflexivity; congruence).
  pose proof (same_selection parse diff jm jf lk c es v ms fs F) as S.
  assert (T : forall a, main_run parse diff jm jf lk (with_list false c) es (WOk v ms fs) = Done a -> exists q es', a = Tests q es').
  { intros [out|q es'] H; [|eauto]. exfalso. clear S. unfold main_run in H. cbn [with_list cl_list cl_list_files] in H. rewrite F in H.
    destruct (iterate_step _ es ms) as [m1| |]; try discriminate. cbn [bind] in H. destruct (diff_step _ _ m1) as [m2| |]; try discriminate. cbn [bind] in H.
    destruct (shard_step _ m2) as [m3| |]; try discriminate. cbn [bind] in H. destruct (set_up _ _ es); discriminate. }
  destruct (main_run parse diff jm jf lk (with_list true c) es (WOk v ms fs)) as [[out|]| |]; [| contradiction| |].
  - destruct (main_run parse diff jm jf lk (with_list false c) es (WOk v ms fs)) as [[out'|q es']| |].
    + destruct (T _ eq_refl) as [? [? K]]. discriminate.
    + destruct S as [_ S]. split; [congruence|]. split; [discriminate|]. split; [discriminate|]. split; [intros a [= <-]; eauto|exact T].
    + destruct S as [q [_ [_ [_ S]]]]. repeat split; intros; try discriminate; eauto. injection H as <-. eauto.
    + destruct S as [q [_ [_ [S _]]]]. discriminate.
  - destruct S as [-> _]. repeat split; intros; try discriminate; congruence.
  - destruct S as [[-> _]|[q [E1 E2]]].
    + repeat split; intros; try discriminate; congruence.
    + split; [discriminate|]. split; [discriminate|]. split; [|split; [discriminate|exact T]].
      intros H _. unfold main_run in H. cbn [with_list cl_list cl_list_files] in H. rewrite F in H. unfold select in E1.
      change (iterate_step (with_list false c) es ms) with (iterate_step c es ms) in H.
      destruct (iterate_step c es ms) as [m1| |]; try discriminate. cbn [bind] in *. change (diff_step parse (with_list false c) m1) with (diff_step parse c m1) in H.
      destruct (diff_step parse c m1) as [m2| |]; try discriminate. cbn [bind] in *. change (shard_step (with_list false c) m2) with (shard_step c m2) in H.
      rewrite E1 in H. cbn [bind] in H. change (set_up lk (with_list false c) es) with (set_up lk c es) in H. destruct (set_up lk c es); try discriminate. reflexivity.
Qed.
Print Assumptions C44_same.

(** The command lines compared are the same but for what is compared. *)
Theorem C44_compared : forall c s b,
  cl_shard (with_shard s c) = s /\ same_but_shard (with_shard s c) c
  /\ cl_list (with_list b c) = b /\ same_but_list (with_list b c) c.
Proof. intros [] s b. repeat split. Qed.
Print Assumptions C44_compared.

(** C44: the plain listing is the names, a line each, in order. *)
Theorem C44_lines : forall diff jm c ms out, cl_json c = false -> cl_diffs c = false -> list_mutants diff jm c ms = Some out ->
  (forall m n, In m ms -> mutant_name (cl_line_col c) m = Some n -> one_line n) ->
  map (mutant_name (cl_line_col c)) ms = map Some (lines out).
Proof. exact list_lines_names. Qed.
Print Assumptions C44_lines.

(** C44: the mutants tested are the ones found whose names are not among the previously caught, then of those the
    ones the diff touches, then of those every n-th; in the order found. *)
Theorem C44_chosen : forall parse diff jm jf lk c es v ms fs q es' ops,
  match cl_diff c with Some (Some d) => exists ps, ops = Some ps /\ asks parse d ps | _ => ops = None end ->
  (forall m, In m ms -> relative (sf_path (mu_file m))) ->
  (forall s, cl_shard c = Some s -> (sh_k s < sh_n s)%N) ->
  main_run parse diff jm jf lk c es (WOk v ms fs) = Done (Tests q es') ->
  chosen (if cl_iterate c then Some (load_previously_caught es) else None) ops
         (option_map (fun s => (N.to_nat (sh_k s), N.to_nat (sh_n s))) (cl_shard c)) ms q.
Proof.
  intros parse diff jm jf lk c es v ms fs q es' ops WF Rel Sh H.
  apply (select_chosen parse c es ms q ops WF Rel Sh). eapply run_tests; exact H.
Qed.
Print Assumptions C44_chosen.

(** C44: runs on the same disk that differ only in the shard divide the mutants of the run without shards.
    Missing: shards of runs with --iterate whose lists differ, see C44_iterate_shard_refuted. *)
Theorem C44_shards_partial : forall parse diff jm jf lk c es v ms fs q es' n, (0 < n)%N ->
  main_run parse diff jm jf lk (with_shard None c) es (WOk v ms fs) = Done (Tests q es') ->
  exists f : N -> list mutant,
    (forall k, (k < n)%N -> main_run parse diff jm jf lk (with_shard (Some (mkShard k n)) c) es (WOk v ms fs) = Done (Tests (f k) es'))
    /\ Permutation (flat_map f (map N.of_nat (seq 0 (N.to_nat n)))) q.
Proof.
  intros parse diff jm jf lk c es v ms fs q es' n N0 H. destruct (run_tests _ _ _ _ _ _ _ _ _ _ _ _ H) as [L [F S]].
  destruct (select_shards parse c es ms n q N0 S) as [f [A P]]. exists f. split; [|exact P]. intros k Lk. specialize (A k Lk).
  unfold main_run in *. cbn [with_shard cl_list cl_list_files] in *. rewrite L, F in *. unfold select in A, S.
  change (iterate_step (with_shard (Some (mkShard k n)) c) es ms) with (iterate_step c es ms) in *.
  change (iterate_step (with_shard None c) es ms) with (iterate_step c es ms) in *.
  destruct (iterate_step c es ms) as [m1| |]; try discriminate. cbn [bind] in *.
  change (diff_step parse (with_shard (Some (mkShard k n)) c) m1) with (diff_step parse c m1) in *.
  change (diff_step parse (with_shard None c) m1) with (diff_step parse c m1) in *.
  destruct (diff_step parse c m1) as [m2| |]; try discriminate. cbn [bind] in *. rewrite A. rewrite S in H. cbn [bind] in *.
  change (set_up lk (with_shard (Some (mkShard k n)) c) es) with (set_up lk c es).
  change (set_up lk (with_shard None c) es) with (set_up lk c es) in H.
  destruct (set_up lk c es); try discriminate. injection H as <-. reflexivity.
Qed.
Print Assumptions C44_shards_partial.

(** C19: a run with --iterate that gets to testing starts as the series of C19_exact_partial say: it has read the old
    lists before the old output directory was moved away, tests only mutants whose names are not in them, and has copied
    the names to the new output directory. *)
Theorem C19_main : forall parse diff jm jf lk c es v ms fs q es', cl_iterate c = true ->
  main_run parse diff jm jf lk c (Some es) (WOk v ms fs) = Done (Tests q es') ->
  exists cand es1 o2, iterate_start lk es ms = Some (cand, es1, o2) /\ es' = dset es1 OUTDIR (NDir o2)
    /\ (forall m, In m q -> In m cand)
    /\ (forall m n, In m q -> mutant_name true m = Some n -> ~ In n (load_previously_caught (Some es)))
    /\ (Forall one_line (load_previously_caught (Some es)) ->
        forall n, In n (load_previously_caught (Some es')) <-> In n (load_previously_caught (Some es))).
Proof. exact main_iterates. Qed.
Print Assumptions C19_main.

(** C44: with a diff that cannot be read, or that is not blank and cannot be parsed, nothing is listed and
    nothing tested. *)
Theorem C44_bad_diff : forall parse diff jm jf lk c es v ms fs a, cl_list_files c = false ->
  (cl_diff c = Some None \/ exists d, cl_diff c = Some (Some d) /\ (exists x, In x (fixed_diff d) /\ is_whitespace x = false)
     /\ parse (fixed_diff d) = None) ->
  main_run parse diff jm jf lk c es (WOk v ms fs) <> Done a.
Proof.
  intros parse diff jm jf lk c es v ms fs a L D H. unfold main_run in H. destruct (iterate_step c es ms) as [ms1| |] eqn:I; try discriminate.
  cbn [bind] in H. rewrite L in H. unfold diff_step in H. destruct D as [D|(d & D & (x & Ix & Wx) & K)]; rewrite D in H; [discriminate|].
  assert (B : forallb is_whitespace (fixed_diff d) = false).
  { destruct (forallb is_whitespace (fixed_diff d)) eqn:E; [|reflexivity]. rewrite forallb_forall in E. rewrite (E x Ix) in Wx. discriminate. }
  unfold diff_filter in H. rewrite B, K in H. discriminate.
Qed.
Print Assumptions C44_bad_diff.

Example C44_bad_diff_case : exists x, In x (fixed_diff (tx "junk")) /\ is_whitespace x = false.
Proof. exists 106%N. split; [vm_compute; auto|reflexivity]. Qed.

(** C44: the list of files does not depend on the diff, the shard, or --list. *)
Theorem C44_files : forall parse diff jm jf lk c es v ms fs, cl_list_files c = true -> cl_iterate c = false ->
  main_run parse diff jm jf lk c es (WOk v ms fs) = Done (Printed (list_files jf c fs)).
Proof. intros parse diff jm jf lk c es v ms fs F I. unfold main_run, iterate_step. rewrite I. cbn [bind]. rewrite F. reflexivity. Qed.
Print Assumptions C44_files.

(** C44 with C12: when a run ends without an error, and its baseline passed, the names it recorded are the lines that
    --list prints, in some order. *)
Theorem C44_end_to_end : forall parse diff jm jf lk c es v ms fs q es' q' out P o0 t0 sh l ws,
  cl_list_files c = false -> cl_json c = false -> cl_diffs c = false ->
  main_run parse diff jm jf lk (with_list true c) es (WOk v ms fs) = Done (Printed out) ->
  main_run parse diff jm jf lk (with_list false c) es (WOk v ms fs) = Done (Tests q es') ->
  (forall m n, In m q -> mutant_name (cl_line_col c) m = Some n -> one_line n) ->
  queued c q q' -> reachable P o0 t0 q' (mkLS sh (MEnd (ROk l)) ws) ->
  Permutation (map (mutant_name (cl_line_col c)) (recorded l)) (map Some (lines out))
  \/ (recorded l = [] /\ exists o, In o (lo_outcomes l) /\ oc_scenario o = Baseline /\ oc_success o = Some false).
Proof.
  intros parse diff jm jf lk c es v ms fs q es' q' out P o0 t0 sh l ws F J D H1 H2 One Q R.
  destruct (C12_all_recorded _ _ _ _ _ _ _ R) as [Pm|B]; [left|right; exact B].
  rewrite <- (list_lines_names diff jm c q out J D); [|eapply C44_same; eauto|exact One].
  apply Permutation_map. transitivity q'; [exact Pm|]. unfold queued in Q. destruct (cl_shuffle c); [symmetry; exact Q|subst; reflexivity].
Qed.
Print Assumptions C44_end_to_end.

(** ** A run over four mutants *)
Definition ex_src : source_file := mkSF (tx "p") (tx "src/lib.rs") [] true.
Definition ex_m (l : nat) : mutant := mkMutant ex_src (Some (mkFn (tx "f") [] (mkSpan (mkLC l 1) (mkLC l 9)))) (mkSpan (mkLC l 3) (mkLC l 4)) (tx "()") FnValue.
Definition ex_found : wresult := WOk [] (map ex_m [1; 2; 3; 4]) [ex_src].
Definition ex_cli (iterate list : bool) (s : option shard) : cli := mkCli iterate false list None s false false true false.
Definition ex_run := main_run (fun _ => None) (fun _ => []) (fun _ => []) (fun _ => []) (tx "lock").

Example C44_case : exists es',
  ex_run (ex_cli false false (Some (mkShard 1 2))) (Some []) ex_found = Done (Tests [ex_m 2; ex_m 4] es')
  /\ ex_run (ex_cli false true (Some (mkShard 1 2))) (Some []) ex_found
     = Done (Printed (tx "src/lib.rs:2:3: replace f with ()" ++ [NL] ++ tx "src/lib.rs:4:3: replace f with ()" ++ [NL])).
Proof. eexists. split; vm_compute; reflexivity. Qed.

(** The first mutant was caught and the second found unviable by an earlier run. *)
Example C19_main_case : exists es', ex_run (ex_cli true false None)
    (Some [(OUTDIR, NDir [(CAUGHT_TXT, NFile (tx "src/lib.rs:1:3: replace f with ()" ++ [NL])); (LOCK_JSON, NFile [])
                         ; (UNVIABLE_TXT, NFile (tx "src/lib.rs:2:3: replace f with ()" ++ [NL]))])]) ex_found
  = Done (Tests [ex_m 3; ex_m 4] es')
  /\ load_previously_caught (Some es') = [tx "src/lib.rs:1:3: replace f with ()"; tx "src/lib.rs:2:3: replace f with ()"].
Proof. eexists. split; vm_compute; reflexivity. Qed.

(** Finding: --iterate with --shard.  The first run tests shard 0/2 and catches all of it.  The second, of shard 1/2
    with --iterate, numbers what is left afresh, and leaves out a mutant that neither shard has tested. *)
Theorem C44_iterate_shard_refuted : exists found a b c es1 o1 o2 q m es3,
  ex_run (ex_cli false false (Some (mkShard 0 2))) (Some []) found = Done (Tests [a; b] es1)
  /\ dget es1 OUTDIR = Some (NDir o1) /\ record_all o1 [(a, SumCaught); (b, SumCaught)] = Some o2
  /\ ex_run (ex_cli true false (Some (mkShard 1 2))) (Some (dset es1 OUTDIR (NDir o2))) found = Done (Tests q es3)
  /\ found = WOk [] (a :: m :: b :: c) [ex_src] /\ ~ In m ([a; b] ++ q).
Proof.
  exists ex_found, (ex_m 1), (ex_m 3), [ex_m 4]. do 6 eexists.
  split; [vm_compute; reflexivity|]. split; [vm_compute; reflexivity|]. split; [vm_compute; reflexivity|]. split; [vm_compute; reflexivity|].
  split; [reflexivity|]. vm_compute. intuition discriminate.
Qed.
Print Assumptions C44_iterate_shard_refuted.

(** ** C51: the start directory *)

(** C51: with --manifest-path the run starts in the directory that holds that file, and a file with a directory in its
    path always works.
    Missing: a bare file name, see C51_bare_name_refuted. *)
Theorem C51_manifest_partial : forall is_file is_dir p dir, disk_ok is_file is_dir ->
  (forall d, opened is_file is_dir (Some p) dir = Some d -> is_file p = true /\ is_dir d = true /\ exists c, components p = components d ++ [c])
  /\ (is_file p = true -> 2 <= length (components p) -> exists d, opened is_file is_dir (Some p) dir = Some d).
Proof.
  intros is_file is_dir p dir K. unfold opened, start_dir. split.
  - intros d H. destruct (is_file p) eqn:F; [|discriminate]. destruct (path_parent p) as [d'|] eqn:E; [|discriminate].
    destruct (is_dir d') eqn:D; [|discriminate]. injection H as <-. destruct (parent_components _ _ E) as [c [C _]]. eauto.
  - intros F L. rewrite F. destruct (components p) as [|a [|b cs]] eqn:C; cbn in L; try lia.
    destruct (parent_of_two _ _ _ _ C) as [d [E N]]. rewrite E. destruct (parent_components _ _ E) as [x [C' _]].
    rewrite (dk_parent _ _ K p d x F C' N). eauto.
Qed.
Print Assumptions C51_manifest_partial.

(** C51: without it, the directory given or the current one. *)
Theorem C51_dir : forall is_file is_dir dir, is_dir (match dir with Some d => d | None => tx "." end) = true ->
  opened is_file is_dir None dir = Some (match dir with Some d => d | None => tx "." end).
Proof. intros is_file is_dir dir H. unfold opened, start_dir. rewrite H. reflexivity. Qed.
Print Assumptions C51_dir.

Definition ex_file (p : text) : bool := text_eqb p (tx "Cargo.toml") || text_eqb p (tx "./a/Cargo.toml").
Definition ex_dir (d : text) : bool := negb (text_eqb d []).
Lemma ex_disk : disk_ok ex_file ex_dir.
Proof. split; [|reflexivity]. intros p d c _ _ N. unfold ex_dir. destruct d; [congruence|reflexivity]. Qed.

Example C51_case : opened ex_file ex_dir (Some (tx "./a/Cargo.toml")) None = Some (tx "./a").
Proof. reflexivity. Qed.

(** Finding: --manifest-path Cargo.toml, a file in the current directory, is refused: its parent is the empty path,
    which is not a directory. *)
Theorem C51_bare_name_refuted : exists is_file is_dir p, disk_ok is_file is_dir /\ is_file p = true
  /\ opened is_file is_dir (Some p) None = None.
Proof. exists ex_file, ex_dir, (tx "Cargo.toml"). split; [exact ex_disk|]. split; reflexivity. Qed.
Print Assumptions C51_bare_name_refuted.
