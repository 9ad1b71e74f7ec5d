(** Proofs for C74: a series of runs with the same output directory. *)
From Coq Require Import String List NArith ZArith Bool Arith Lia Permutation.
From Verif Require Import Text SpanM PathM MutantM ProcessM OutcomeM OutcomeS OutputM OutputS OutputP IterateM IterateP ShardM PackageM PackageS OptionsM CargoM WalkM
  LabM LabS LabP LabT DiffP MainM MainP WholeM WholeS WholeP WholeT LaunchM LaunchS LaunchP LaunchT EndM EndS EndP EndT TogetherP RoundM RoundS.
Import ListNotations.
Open Scope list_scope.

(** ** The set-up *)
Lemma new_fresh : forall lk es es1, output_new lk es = OutputM.NewOk es1 -> dget es1 OUTDIR = Some (NDir (fresh_dir lk)).
Proof.
  intros lk es es1 H. unfold output_new in H. destruct (dget (match es with Some es => es | None => [] end) OUTDIR) as [[y|y]|]; try discriminate.
  - destruct (write_lock lk y); [|discriminate]. destruct (dget _ ROTATED) as [[z|z]|]; try discriminate; injection H as <-; apply dget_dset_same.
  - injection H as <-. apply dget_dset_same.
Qed.
Lemma fresh_lists : forall lk, lists_exact (fresh_dir lk) [].
Proof. intros lk f v H. repeat (destruct H as [E|H]; [injection E as <- <-; reflexivity|]). destruct H. Qed.
Lemma set_up_spec : forall lk c es es1, set_up lk c es = Done es1 ->
  exists o, dget es1 OUTDIR = Some (NDir o) /\ lists_exact o []
    /\ dget o PREVIOUSLY_CAUGHT_TXT = (if cl_iterate c then Some (NFile (previously_text (load_previously_caught es))) else None).
Proof.
  intros lk c es es1 H. unfold set_up in H. destruct (output_new lk es) as [e|] eqn:N; [|discriminate]. pose proof (new_fresh _ _ _ N) as G.
  destruct (cl_iterate c) eqn:I.
  - rewrite G in H. unfold write_previously_caught in H. change (dget (fresh_dir lk) PREVIOUSLY_CAUGHT_TXT) with (@None node) in H. injection H as <-.
    eexists. split; [apply dget_dset_same|]. split; [|apply dget_dset_same]. intros f v Hf. rewrite dget_dset_other; [exact (fresh_lists lk f v Hf)|].
    repeat (destruct Hf as [E|Hf]; [injection E as <- _; discriminate|]). destruct Hf.
  - injection H as <-. exists (fresh_dir lk). split; [exact G|]. split; [apply fresh_lists|reflexivity].
Qed.

Lemma after_parts : forall w lk fuel a s ms es1, after w lk fuel a s = Done (Tests ms es1) ->
  set_up lk (cli_of w a (se_options s)) (wo_dir w (output_parent s)) = Done es1
  /\ exists v found fs, discover w fuel s = WOk v found fs /\ select (wo_patch w) (cli_of w a (se_options s)) (wo_dir w (output_parent s)) found = Done ms.
Proof.
  intros w lk fuel a s ms es1 H. unfold after in H. destruct (discover w fuel s) as [v found fs| | |] eqn:D; try discriminate.
  split; [|exists v, found, fs; split; [reflexivity|exact (proj2 (proj2 (run_tests _ _ _ _ _ _ _ _ _ _ _ _ H)))]].
  unfold main_run in H. destruct (iterate_step _ _ found) as [m1| |]; try discriminate. cbn [bind] in H. destruct (cl_list_files _); [discriminate|].
  destruct (diff_step _ _ m1) as [m2| |]; try discriminate. cbn [bind] in H. destruct (shard_step _ m2) as [m3| |]; try discriminate. cbn [bind] in H.
  destruct (cl_list _); [destruct (list_mutants _ _ _ _); discriminate|]. destruct (set_up _ _ _); try discriminate. injection H as _ ->. reflexivity.
Qed.

Lemma after_fresh_names : forall w lk fuel a s ms es1 m n, after w lk fuel a s = Done (Tests ms es1) -> ag_iterate a = true ->
  In m ms -> mutant_name true m = Some n -> ~ In n (load_previously_caught (wo_dir w (output_parent s))).
Proof.
  intros w lk fuel a s ms es1 m n H I Hm Hn. destruct (after_parts _ _ _ _ _ _ _ H) as (_ & v & found & fs & _ & S). unfold select, iterate_step in S.
  cbn [cli_of cl_iterate] in S. rewrite I in S.
  destruct (remove_previously_caught (load_previously_caught (wo_dir w (output_parent s))) found) as [cand|] eqn:R; [|discriminate]. cbn [or_panic bind] in S.
  assert (Ic : In m cand).
  { assert (Sel : select (wo_patch w) (mkCli false (ag_list_files a) (ag_list a) (cl_diff (cli_of w a (se_options s))) (ag_shard a) false false false false) None cand = Done ms) by exact S.
    eapply select_incl; [exact Sel|exact Hm]. }
  apply (remove_prev_in _ _ _ R m n (remove_prev_incl _ _ _ R _ Ic) Hn). exact Ic.
Qed.

Lemma after_all : forall w lk fuel a s ms es1, after w lk fuel a s = Done (Tests ms es1) -> ag_iterate a = true -> ag_in_diff a = None -> ag_shard a = None ->
  exists ps errs, mutated_packages (fun d => locate_project w d false) (se_meta s) (se_filter s) = Some ps
    /\ Forall2 (fun e t => wo_expr w e = Some t) (op_error_values (se_options s)) errs
    /\ forall m, of_packages w (md_root (se_meta s)) (se_options s) errs ps m ->
       exists n, mutant_name true m = Some n /\ (In m ms \/ In n (load_previously_caught (wo_dir w (output_parent s)))).
Proof.
  intros w lk fuel a s ms es1 H I Df Sh. destruct (after_parts _ _ _ _ _ _ _ H) as (_ & v & found & fs & D & S).
  destruct (discover_inv _ _ _ _ _ _ D) as (ps & errs & M & F & Iff). exists ps, errs. split; [exact M|]. split; [exact F|]. intros m Hm. apply Iff in Hm.
  unfold select, iterate_step, diff_step, shard_step in S. cbn [cli_of cl_iterate cl_diff cl_shard] in S. rewrite I, Df, Sh in S.
  destruct (remove_previously_caught (load_previously_caught (wo_dir w (output_parent s))) found) as [cand|] eqn:R; [|discriminate]. cbn in S. injection S as <-.
  assert (N : exists n, mutant_name true m = Some n).
  { clear - R Hm. revert cand R. induction found as [|x found IH]; intros cand R; [destruct Hm|]. cbn [remove_previously_caught] in R.
    destruct (mutant_name true x) as [nx|] eqn:E; [|discriminate]. destruct (remove_previously_caught _ found) as [c'|] eqn:R'; [|discriminate].
    destruct Hm as [->|Hm]; [exists nx; exact E|exact (IH Hm _ eq_refl)]. }
  destruct N as [n Hn]. exists n. split; [exact Hn|].
  destruct (in_dec (list_eq_dec N.eq_dec) n (load_previously_caught (wo_dir w (output_parent s)))) as [Y|Y]; [right; exact Y|left].
  apply (remove_prev_in _ _ _ R m n Hm Hn). exact Y.
Qed.

(** ** In the lab *)
Section Lab.
Context (P : params) (o0 : entries) (t0 : tree) (ms : list mutant).

Lemma prev_step : forall i sh c sh' c', sstep P i sh c sh' c' -> dget (sh_out sh') PREVIOUSLY_CAUGHT_TXT = dget (sh_out sh) PREVIOUSLY_CAUGHT_TXT.
Proof.
  assert (A : forall o f v t, list_for v = Some f -> dget (append_file o f t) PREVIOUSLY_CAUGHT_TXT = dget o PREVIOUSLY_CAUGHT_TXT).
  { intros o f v t H. apply append_other. exact (proj1 (list_for_neq _ _ H)). }
  intros i sh c sh' c' H. destruct H; cbn [set_log set_used set_trees put_tree set_lab set_out sh_out]; try reflexivity;
    try (apply dget_dset_other; discriminate); eapply A; eassumption.
Qed.
Lemma prev_kept : forall st, reachable P o0 t0 ms st -> dget (sh_out (ls_sh st)) PREVIOUSLY_CAUGHT_TXT = dget o0 PREVIOUSLY_CAUGHT_TXT.
Proof.
  intros st H. unfold reachable in H. remember (start_state P o0 t0 ms) as s0 eqn:E. induction H as [s|s s' s'' H IH St]; [subst s; reflexivity|].
  rewrite <- (IH E). destruct St; cbn [ls_sh set_dir0 sh_out]; try reflexivity.
  - eapply prev_step. eassumption.
  - destruct H1; cbn [set_dir0 add_dir set_queue sh_out]; try reflexivity. eapply prev_step. eassumption.
Qed.
End Lab.

(** A state of the lab with the same files, and no thread half way through recording if the run has ended. *)
Lemma lab_state : forall P X o0 t0 ms r, rreachable P X ms o0 t0 r ->
  exists st, reachable P o0 t0 ms st /\ ls_sh st = ls_sh (rs_lab r)
    /\ (forall x, ls_main (rs_lab r) = MEnd x -> pa_faults P = false -> forall c, In c (threads st) -> recording c = None).
Proof.
  intros P X o0 t0 ms r H. destruct (project P X o0 t0 ms r H) as [Re|(sh & d & o & E & Re & _)].
  - exists (rs_lab r). split; [exact Re|]. split; [reflexivity|]. intros x Ex Fa c Hc.
    destruct (rs_lab r) as [sh mn ws] eqn:El. cbn [ls_main] in Ex. subst mn. unfold threads in Hc. cbn [ls_main ls_workers] in Hc.
    destruct (end_inv _ _ _ _ _ _ _ Re) as [(d & o & _ & _ & _ & ->)|[(_ & _ & ->)|[(_ & _ & ->)|(_ & H3 & _)]]]; try destruct Hc.
    rewrite forallb_forall in H3. specialize (H3 c Hc). destruct c; try discriminate; reflexivity.
  - exists (mkLS sh (MBaseline (WFin d o)) []). split; [exact Re|]. rewrite E. split; [reflexivity|]. intros x _ _ c [<-|[]]. reflexivity.
Qed.

(** ** One run *)
Lemma read_lists : forall d o, dget d OUTDIR = Some (NDir o) ->
  load_previously_caught (Some d) = list_lines o CAUGHT_TXT ++ list_lines o UNVIABLE_TXT ++ list_lines o PREVIOUSLY_CAUGHT_TXT.
Proof. intros d o H. unfold load_previously_caught. rewrite H. reflexivity. Qed.

Lemma outcome_mutant : forall P X ms o0 t0 r o m, rreachable P X ms o0 t0 r -> In o (lo_outcomes (sh_lab (ls_sh (rs_lab r)))) -> oc_scenario o = Mutant m -> In m ms.
Proof.
  intros P X ms o0 t0 r o m H Ho Es. destruct (lab_state _ _ _ _ _ _ H) as (st & Re & Esh & _). rewrite <- Esh in Ho.
  destruct (c12_accounted _ _ _ _ _ Re) as (lost & HP & _). eapply Permutation_in; [exact HP|]. rewrite !in_app_iff. right; right; left.
  unfold recorded. apply in_flat_map. exists o. split; [exact Ho|]. rewrite Es. left. reflexivity.
Qed.
Lemma outcome_block : forall P X ms o0 t0 r o m v, rreachable P X ms o0 t0 r -> In o (lo_outcomes (sh_lab (ls_sh (rs_lab r)))) -> oc_scenario o = Mutant m -> summary o = Some v ->
  exists b, one_job (Mutant m) b /\ incl b (rs_log r) /\ explains (pa_check_only P) b v.
Proof.
  intros P X ms o0 t0 r o m v H Io Es Ev. destruct (C65_parts P X o0 t0 ms r H) as (bl & rest & fin & opn & A & _ & _ & C & _ & _ & F & _).
  assert (If : In o (filter of_mutant (lo_outcomes (sh_lab (ls_sh (rs_lab r)))))) by (apply filter_In; split; [exact Io|unfold of_mutant; rewrite Es; reflexivity]).
  destruct (Forall2_in_l _ _ _ _ F If) as (b & Ib & [Jb _] & Ex). exists b. rewrite Es in Jb. split; [exact Jb|]. split; [|apply Ex; exact Ev].
  intros x Hx. rewrite A. apply in_or_app. right. apply (woven_in _ _ C). apply in_concat. exists b. split; [apply in_or_app; left; exact Ib|exact Hx].
Qed.

Definition good (es : option entries) : Prop := Forall one_line (load_previously_caught es).

Lemma round_load : forall es r es', round_runs es r es' -> good es -> plain_names r ->
  good (Some es')
  /\ (forall n, In n (load_previously_caught (Some es')) -> (iterating r /\ In n (load_previously_caught es)) \/ shown_by r n)
  /\ (forall n, iterating r -> In n (load_previously_caught es) -> In n (load_previously_caught (Some es')))
  /\ (forall n, decided_by r n -> In n (load_previously_caught (Some es'))).
Proof.
  intros es r es' H G Pl. destruct H as [w e js a s lk fuel ms es1 P q o0 t0 r Ed S A NE Q LF Fa FT Go R|w a s lk fuel es1 Ed S A].
  - destruct (after_parts _ _ _ _ _ _ _ A) as (Su & _). rewrite Ed in Su. destruct (set_up_spec _ _ _ _ Su) as (o & Go' & Le & Pr). rewrite Go in Go'. injection Go' as <-.
    cbn [cli_of cl_iterate] in Pr. destruct (lab_state _ _ _ _ _ _ R) as (st & Re & Esh & Rec). pose proof (prev_kept _ _ _ _ _ Re) as Pk. rewrite Esh in Pk.
    pose proof (Permutation_sym (queued_perm _ _ _ Q)) as PQ. unfold plain_names in Pl. cbn [rd_mutants] in Pl.
    assert (Nm : forall m, In m q -> exists n, mutant_name true m = Some n /\ one_line n) by (intros m Hm; apply Pl; eapply Permutation_in; [exact PQ|exact Hm]).
    assert (C49 : forall f v, In (f, v) lists -> 
      (forall n, In n (list_lines (sh_out (ls_sh (rs_lab r))) f) -> exists o m, In o (lo_outcomes (sh_lab (ls_sh (rs_lab r)))) /\ oc_scenario o = Mutant m /\ summary o = Some v /\ mutant_name true m = Some n)
      /\ (forall o m n, In o (lo_outcomes (sh_lab (ls_sh (rs_lab r)))) -> oc_scenario o = Mutant m -> summary o = Some v -> mutant_name true m = Some n ->
            In n (list_lines (sh_out (ls_sh (rs_lab r))) f) \/ exists c, In c (threads st) /\ recording c = Some o)).
    { intros f v Hf. rewrite <- Esh. apply (C49_any_crash_point_partial P o0 t0 q st f v); try assumption.
      - intros m Hm. destruct (Nm m Hm) as (n & E & _). congruence.
      - intros m n Hm En. destruct (Nm m Hm) as (n' & E & O). congruence. }
    pose proof (C49 _ _ (or_introl eq_refl) : _) as Cc. pose proof (C49 _ _ (or_intror (or_intror (or_intror (or_introl eq_refl)))) : _) as Cu.
    set (out := sh_out (ls_sh (rs_lab r))) in *.
    assert (Ld : load_previously_caught (Some (dset es1 OUTDIR (NDir out))) = list_lines out CAUGHT_TXT ++ list_lines out UNVIABLE_TXT ++ list_lines out PREVIOUSLY_CAUGHT_TXT)
      by (apply read_lists, dget_dset_same).
    assert (Lp : list_lines out PREVIOUSLY_CAUGHT_TXT = if ag_iterate a then load_previously_caught es else []).
    { unfold list_lines. rewrite Pk, Pr. destruct (ag_iterate a); [|reflexivity]. apply lines_of_names. exact G. }
    assert (Sh : forall o m v n, In o (lo_outcomes (sh_lab (ls_sh (rs_lab r)))) -> oc_scenario o = Mutant m -> summary o = Some v -> mutant_name true m = Some n ->
      v = SumCaught \/ v = SumUnviable -> shown_by (mkRound w a s ms (rs_log r) (lo_outcomes (sh_lab (ls_sh (rs_lab r)))) (match ls_main (rs_lab r) with MEnd x => Some x | _ => None end)) n).
    { intros o m v n Ho Es Ev En Dv. destruct (outcome_block _ _ _ _ _ _ _ _ _ R Ho Es Ev) as (b & B1 & B2 & B3). exists m, b, v. cbn [rd_mutants rd_log rd_setting].
      split; [eapply Permutation_in; [exact PQ|eapply outcome_mutant; eassumption]|]. destruct LF as (CO & _). rewrite <- CO. auto. }
    assert (One : forall o m v n, In o (lo_outcomes (sh_lab (ls_sh (rs_lab r)))) -> oc_scenario o = Mutant m -> summary o = Some v -> mutant_name true m = Some n -> one_line n).
    { intros o m v n Ho Es Ev En. destruct (Nm m ltac:(eapply outcome_mutant; eassumption)) as (n' & E & O). congruence. }
    split; [|split; [|split]].
    + unfold good. rewrite Ld, Lp. apply Forall_app. split; [|apply Forall_app; split].
      * apply Forall_forall. intros n Hn. destruct (proj1 Cc n Hn) as (o & m & Ho & Es & Ev & En). eapply One; eassumption.
      * apply Forall_forall. intros n Hn. destruct (proj1 Cu n Hn) as (o & m & Ho & Es & Ev & En). eapply One; eassumption.
      * destruct (ag_iterate a); [exact G|constructor].
    + intros n Hn. rewrite Ld, Lp in Hn. apply in_app_or in Hn as [Hn|Hn]; [|apply in_app_or in Hn as [Hn|Hn]].
      * right. destruct (proj1 Cc n Hn) as (o & m & Ho & Es & Ev & En). eapply Sh; eauto.
      * right. destruct (proj1 Cu n Hn) as (o & m & Ho & Es & Ev & En). eapply Sh; eauto.
      * left. unfold iterating. cbn [rd_args]. destruct (ag_iterate a); [auto|destruct Hn].
    + intros n I Hn. unfold iterating in I. cbn [rd_args] in I. rewrite Ld, Lp, I. apply in_or_app. right. apply in_or_app. right. exact Hn.
    + intros n (Ne & m & o & v & Ho & Es & En & Ev & Dv). cbn [rd_result rd_outcomes] in *. rewrite Ld. apply in_or_app.
      destruct (ls_main (rs_lab r)) as [| |x] eqn:Em; try congruence.
      destruct Dv as [-> | ->].
      * destruct (proj2 Cc o m n Ho Es Ev En) as [Y|(c & Hc & Y)]; [left; exact Y|]. rewrite (Rec x eq_refl Fa c Hc) in Y. discriminate.
      * destruct (proj2 Cu o m n Ho Es Ev En) as [Y|(c & Hc & Y)]; [right; apply in_or_app; left; exact Y|]. rewrite (Rec x eq_refl Fa c Hc) in Y. discriminate.
  - destruct (after_parts _ _ _ _ _ _ _ A) as (Su & _). rewrite Ed in Su. destruct (set_up_spec _ _ _ _ Su) as (o & Go & Le & Pr). cbn [cli_of cl_iterate] in Pr.
    assert (Ld : load_previously_caught (Some es1) = if ag_iterate a then load_previously_caught es else []).
    { rewrite (read_lists _ _ Go). unfold list_lines.
      change CAUGHT_TXT with (tx "caught.txt"). change UNVIABLE_TXT with (tx "unviable.txt").
      rewrite (Le _ _ (or_introl eq_refl)), (Le _ _ (or_intror (or_intror (or_intror (or_introl eq_refl))))). rewrite Pr.
      destruct (ag_iterate a); [|reflexivity]. apply lines_of_names. exact G. }
    split; [|split; [|split]].
    + unfold good. rewrite Ld. destruct (ag_iterate a); [exact G|constructor].
    + intros n Hn. rewrite Ld in Hn. left. unfold iterating. cbn [rd_args]. destruct (ag_iterate a); [auto|destruct Hn].
    + intros n I Hn. unfold iterating in I. cbn [rd_args] in I. rewrite Ld, I. exact Hn.
    + intros n (_ & m & o' & v & [] & _).
Qed.

(** ** The series *)
Lemma listed_load : forall es n, listed es n <-> In n (load_previously_caught es).
Proof.
  intros es n.
  assert (L : forall o f, In n (list_lines o f) <-> exists c, dget o f = Some (NFile c) /\ In n (lines c)).
  { intros o f. unfold list_lines. destruct (dget o f) as [[c|]|]; split; try (intros []; fail); try (intros (c' & E & _); discriminate).
    - intro Hn. exists c. auto.
    - intros (c' & E & Hn). injection E as <-. exact Hn. }
  unfold listed, load_previously_caught. split.
  - intros (d & o & f & c & -> & Go & Hf & Gf & Hn). change (tx "mutants.out") with OUTDIR in Go. rewrite Go, !in_app_iff, !L.
    destruct Hf as [<-|[<-|[<-|[]]]]; eauto.
  - destruct es as [d|]; [|intros []]. destruct (dget d OUTDIR) as [[|o]|] eqn:Go; try (intros []; fail). rewrite !in_app_iff, !L.
    intros [(c & Gf & Hn)|[(c & Gf & Hn)|(c & Gf & Hn)]]; exists d, o; eexists; exists c; (split; [reflexivity|]); (split; [exact Go|]);
      (split; [|split; [exact Gf|exact Hn]]); cbn; auto.
Qed.
Lemma load_same : forall d d', dget d' OUTDIR = dget d OUTDIR -> load_previously_caught (Some d') = load_previously_caught (Some d).
Proof. intros d d' H. unfold load_previously_caught. rewrite H. reflexivity. Qed.

Lemma shown_snoc : forall rs r n, iterating r -> shown rs n -> shown (rs ++ [r]) n.
Proof.
  intros rs r n I (rs1 & x & rs2 & -> & F & S). exists rs1, x, (rs2 ++ [r]). split; [rewrite <- app_assoc; reflexivity|]. split; [|exact S].
  apply Forall_app. split; [exact F|]. constructor; [exact I|constructor].
Qed.
Lemma decided_snoc : forall rs r n, decided (rs ++ [r]) n -> decided_by r n \/ iterating r /\ decided rs n.
Proof.
  intros rs r n (rs1 & x & rs2 & E & F & S). destruct (rev rs2) as [|y l] eqn:Er.
  - apply (f_equal (@rev _)) in Er. rewrite rev_involutive in Er. cbn in Er. subst rs2. apply app_inj_tail in E as [_ <-]. left. exact S.
  - apply (f_equal (@rev _)) in Er. rewrite rev_involutive in Er. cbn [rev] in Er. subst rs2.
    replace (rs1 ++ x :: rev l ++ [y]) with ((rs1 ++ x :: rev l) ++ [y]) in E by (rewrite <- app_assoc; reflexivity).
    apply app_inj_tail in E as [E <-]. apply Forall_app in F as [F1 F2]. inversion F2; subst. right. split; [assumption|]. exists rs1, x, (rev l). auto.
Qed.

Lemma rounds_load : forall es0 rs es, rounds es0 rs es -> good es0 -> Forall plain_names rs ->
  good es
  /\ (forall n, In n (load_previously_caught es) -> (Forall iterating rs /\ In n (load_previously_caught es0)) \/ shown rs n)
  /\ (forall n, Forall iterating rs -> In n (load_previously_caught es0) -> In n (load_previously_caught es))
  /\ (forall n, decided rs n -> In n (load_previously_caught es)).
Proof.
  intros es0 rs es H G. induction H as [|rs es es' H IH E|rs es r es' H IH R]; intro Pl.
  - split; [exact G|]. split; [intros n Hn; left; split; [constructor|exact Hn]|]. split; [auto|]. intros n (rs1 & x & rs2 & E & _). destruct rs1; discriminate.
  - destruct (IH Pl) as (A & B & C & D). unfold good. rewrite !(load_same _ _ E). auto.
  - apply Forall_app in Pl as [Pl Pr]. inversion Pr as [|? ? Pr' _]; subst. destruct (IH Pl) as (A & B & C & D).
    destruct (round_load _ _ _ R A Pr') as (A' & B' & C' & D'). split; [exact A'|]. split; [|split].
    + intros n Hn. destruct (B' n Hn) as [[I Hn']|S].
      * destruct (B n Hn') as [[F H0]|S]; [left; split; [apply Forall_app; split; [exact F|constructor; [exact I|constructor]]|exact H0]|right; apply shown_snoc; assumption].
      * right. exists rs, r, []. split; [reflexivity|]. split; [constructor|exact S].
    + intros n F Hn. apply Forall_app in F as [F I]. inversion I; subst. apply C'; [assumption|]. apply C; assumption.
    + intros n Dn. destruct (decided_snoc _ _ _ Dn) as [Y|[I Y]]; [apply D'; exact Y|apply C'; [exact I|apply D; exact Y]].
Qed.

Lemma rounds_last : forall es0 l es, rounds es0 l es -> forall rs r, l = rs ++ [r] -> exists es1 es2, rounds es0 rs es1 /\ round_runs es1 r es2.
Proof.
  intros es0 l es H. induction H as [|rs' es es' H IH E|rs' es r' es' H IH R]; intros rs r E'.
  - destruct rs; discriminate.
  - exact (IH rs r E').
  - apply app_inj_tail in E' as [-> ->]. exists es, es'. auto.
Qed.

Lemma left_out_if : forall es r es' n, round_runs es r es' -> iterating r -> In n (load_previously_caught es) -> left_out r n.
Proof.
  intros es r es' n H I Hn. destruct H as [w e js a s lk fuel ms es1 P q o0 t0 r Ed S A NE Q LF Fa FT Go R|w a s lk fuel es1 Ed S A].
  - unfold iterating in I. cbn [rd_args] in I. assert (Nm : forall m, In m ms -> mutant_name true m <> Some n).
    { intros m Hm E. apply (after_fresh_names _ _ _ _ _ _ _ _ _ A I Hm E). rewrite Ed. exact Hn. }
    split; cbn [rd_mutants rd_log]; [exact Nm|]. intros l m Hl Es. apply Nm.
    destruct (C65_parts P _ o0 t0 q r R) as (bl & rest & fin & opn & El & [d Bl] & _ & _ & D & _). rewrite El in Hl. apply in_app_or in Hl as [Hl|Hl].
    + rewrite Forall_forall in Bl. destruct (Bl l Hl) as [_ Y]. rewrite Y in Es. discriminate.
    + destruct (D l Hl) as (m' & Hm' & Es'). rewrite Es in Es'. injection Es' as <-.
      eapply Permutation_in; [exact (Permutation_sym (queued_perm _ _ _ Q))|exact Hm'].
  - split; [intros m []|intros l m []].
Qed.

Lemma round_all : forall es r es', round_runs es r es' -> iterating r -> ag_in_diff (rd_args r) = None -> ag_shard (rd_args r) = None ->
  let w := rd_world r in let s := rd_setting r in
  exists ps errs, mutated_packages (fun d => locate_project w d false) (se_meta s) (se_filter s) = Some ps
    /\ Forall2 (fun e t => wo_expr w e = Some t) (op_error_values (se_options s)) errs
    /\ forall m, of_packages w (md_root (se_meta s)) (se_options s) errs ps m ->
       exists n, mutant_name true m = Some n /\ (In m (rd_mutants r) \/ In n (load_previously_caught es)).
Proof.
  intros es r es' H I Df Sh. destruct H as [w e js a s lk fuel ms es1 P q o0 t0 r Ed S A NE Q LF Fa FT Go R|w a s lk fuel es1 Ed S A];
    cbn [rd_world rd_setting rd_mutants rd_args] in *; rewrite <- Ed; eapply after_all; eassumption.
Qed.

(** ** The exit status *)
Lemma round_zero : forall es r es' l m, round_runs es r es' -> rd_result r = Some (ROk l) -> status (ETested (rd_mutants r) l) = 0%Z ->
  op_check_only (se_options (rd_setting r)) = false -> In m (rd_mutants r) ->
  exists pre b st, one_job (Mutant m) (pre ++ [b]) /\ incl (pre ++ [b]) (rd_log r) /\ st <> WExited 0 /\ ended b st /\ Forall (fun x => ended x (WExited 0)) pre.
Proof.
  intros es r es' l m H Re St Ck Hm. destruct H as [w e js a s lk fuel ms es1 P q o0 t0 r Ed S A NE Q LF Fa FT Go R|w a s lk fuel es1 Ed S A]; [|destruct Hm].
  cbn [rd_result rd_mutants rd_setting rd_log] in *. destruct (ls_main (rs_lab r)) as [| |x] eqn:Em; try discriminate. injection Re as ->.
  assert (PR : program_runs w e js a s ms P r) by (apply (pr_runs w e js a s ms P lk fuel es1 q o0 t0 r); assumption).
  pose proof (C67_ends _ _ _ _ _ _ _ _ _ PR Em) as En. cbn in En. pose proof (proj1 (C63_status _ _ _ 0%Z En) St) as Me.
  inversion Me as [| | | | | | |ms' l' Al No| | |]; subst. destruct (Al m Hm) as [v (o & Ho & Es & Ev)].
  destruct (No m v (ex_intro _ o (conj Ho (conj Es Ev)))) as [N1 N2].
  assert (El : l = sh_lab (ls_sh (rs_lab r))).
  { destruct (project _ _ _ _ _ _ R) as [Rl|(sh & d & o' & E' & _)]; [|rewrite E' in Em; discriminate Em].
    destruct (rs_lab r) as [sh mn ws]. cbn [ls_main ls_sh] in *. subst mn. exact (proj1 (c12_ok _ _ _ _ _ _ _ Rl)). }
  rewrite El in Ho. destruct (outcome_block _ _ _ _ _ _ _ _ _ R Ho Es Ev) as (b & J & Inc & Ex).
  destruct LF as (CO & _). rewrite CO, Ck in Ex. inversion Ex as [b0 t|b0 t c|b0 c|pre b0|b0|pre b0 w0]; subst; try congruence; try contradiction.
  - exists [b0], t, (WExited c). split; [exact J|]. split; [exact Inc|]. split; [congruence|]. auto.
  - exists [], b0, (WExited c). split; [exact J|]. split; [exact Inc|]. split; [congruence|]. auto.
  - exists pre, b0, w0. split; [exact J|]. split; [exact Inc|]. split; [intros ->; assumption|]. auto.
Qed.

Lemma shown_failed : forall check b v, explains check b v -> v = SumCaught \/ v = SumUnviable ->
  exists pre x st, b = pre ++ [x] /\ st <> WExited 0 /\ ended x st /\ Forall (fun y => ended y (WExited 0)) pre.
Proof.
  intros check b v Ex Dv. destruct Ex; destruct Dv as [Y|Y]; try discriminate Y.
  - eexists [_], _, (WExited _). split; [reflexivity|]. split; [|split; [eassumption|auto]]. congruence.
  - eexists [], _, (WExited _). split; [reflexivity|]. split; [|split; [eassumption|auto]]. congruence.
Qed.
