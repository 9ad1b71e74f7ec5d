(** Theorems: a whole run, from the command line through the cargo processes to the exit status (C67). *)
From Coq Require Import String List NArith ZArith Bool Arith Permutation.
From Verif Require Import Text SpanM PathM MutantM ProcessM OutcomeM OutcomeS OutputM PackageM PackageS OptionsM CargoM LabM LabS LabP LabT MainM
  WholeM WholeS WholeP WholeT LaunchM LaunchS LaunchP LaunchT EndM EndS EndP.
Import ListNotations.
Open Scope list_scope.

(** C67: such a run is one of those that C63 is about: its exit status is that of C63_status. *)
Theorem C67_ends : forall w e js a s ms P r x, program_runs w e js a s ms P r -> ls_main (rs_lab r) = MEnd x ->
  ends w (CmdRun a) (match x with ROk l => ETested ms l | RErr => EError | RPanic => EPanic end).
Proof.
  intros w e js a s ms P r x H E. destruct H as [lk fuel es q o0 t0 r S A NE Q LF FT R].
  destruct (project _ _ _ _ _ _ R) as [Re|(sh & d & o & E' & _)].
  - eapply en_tested; eassumption.
  - rewrite E' in E. cbn [ls_main] in E. injection E as <-. apply en_closed.
Qed.
Print Assumptions C67_ends.

(** C67: every mutant of a run is one of the selected packages', and the package that it is tested with is the one it
    was found in. *)
Theorem C67_package : forall w e js a s ms P r m, program_runs w e js a s ms P r -> names_unique (se_meta s) -> In m ms ->
  exists ps errs, mutated_packages (fun d => locate_project w d false) (se_meta s) (se_filter s) = Some ps
    /\ Forall2 (fun x t => wo_expr w x = Some t) (op_error_values (se_options s)) errs
    /\ In (cx_package (context_for e js s) m) ps
    /\ of_packages w (md_root (se_meta s)) (se_options s) errs [cx_package (context_for e js s) m] m.
Proof.
  intros w e js a s ms P r m H U Hm. destruct H as [lk fuel es q o0 t0 r S A NE Q LF FT R].
  destruct (after_found _ _ _ _ _ _ _ A) as (ps & errs & M & F & I & _). exists ps, errs. split; [exact M|]. split; [exact F|].
  eapply found_package; eauto.
Qed.
Print Assumptions C67_package.

(** C67: cargo is run with the environment of the program and what the job server adds, in the workspace and with the options that were
    settled on. *)
Theorem C67_context : forall e js s, let X := context_for e js s in
  cx_env X = e /\ cx_jobserver X = js /\ cx_meta X = se_meta s /\ cx_options X = se_options s.
Proof. intros e js s. repeat split. Qed.
Print Assumptions C67_context.

(** C67: at any time of a run, every cargo process so far was for the tree as it is or for one of the mutants, had the right
    command and found the right files. *)
Theorem C67_processes : forall w e js a s ms P r l, program_runs w e js a s ms P r -> tree_as_read w s P ms -> names_unique (se_meta s) ->
  (op_in_place (se_options s) = true -> op_jobs (se_options s) = None) -> In l (rs_log r) ->
  (la_scenario l = Baseline \/ exists m, In m ms /\ la_scenario l = Mutant m)
  /\ right_command P (context_for e js s) ms l /\ right_files P l.
Proof.
  intros w e js a s ms P r l H T U OK Hl. destruct H as [lk fuel es q o0 t0 r S A NE Q LF FT R].
  destruct (after_found _ _ _ _ _ _ _ A) as (ps & errs & M & F & I & _). pose proof (queued_perm _ _ _ Q) as PQ.
  assert (Ok : options_ok P) by (destruct LF as (_ & L1 & L2 & _); unfold options_ok; rewrite L1, L2; exact OK).
  assert (G : right_command P (context_for e js s) ms l /\ right_files P l).
  { eapply (good_log P (context_for e js s) o0 t0 ms q r); try eassumption. eapply found_loaded; eassumption. }
  split; [|exact G]. destruct (la_scenario l) as [|m] eqn:Es; [left; reflexivity|]. right. exists m. split; [|reflexivity].
  destruct G as [(_ & ws & args & _ & _ & Rp & _) _]. rewrite Es in Rp. exact (proj1 Rp).
Qed.
Print Assumptions C67_processes.

(** C67: the exit status of a run is a true account of what its cargo processes did.  They are those of the tree without mutations, which passed, and
    then for each mutant of the list one test: the right tests were built from the source with that mutation and run, in one directory and one after the
    other, and the verdict is what they did; and there is no other process.  0: no mutant passed its tests or took longer than the limit; 2: some passed;
    3: some took longer; 4: without mutations the tests failed, and nothing else was run. *)
Theorem C67_status : forall w e js a s ms P r l, program_runs w e js a s ms P r -> tree_as_read w s P ms -> names_unique (se_meta s) ->
  (op_in_place (se_options s) = true -> op_jobs (se_options s) = None) -> ls_main (rs_lab r) = MEnd (ROk l) ->
  account P (context_for e js s) ms (rs_log r) (op_baseline (se_options s)) (status (ETested ms l)).
Proof.
  intros w e js a s ms P r l H T U OK E. destruct H as [lk fuel es q o0 t0 r S A NE Q LF FT R].
  destruct (after_found _ _ _ _ _ _ _ A) as (ps & errs & M & F & I & _). pose proof (queued_perm _ _ _ Q) as PQ.
  destruct LF as (_ & L1 & L2 & L3).
  replace (op_baseline (se_options s)) with (negb (pa_skip_baseline P)) by (rewrite L3; apply negb_involutive).
  destruct (rs_lab r) as [sh mn ws] eqn:El. cbn [ls_main] in E. subst mn.
  eapply account_end; try eassumption.
  - eapply found_loaded; eassumption.
  - unfold options_ok; rewrite L1, L2; exact OK.
Qed.
Print Assumptions C67_status.

(** C67: if no mutant is in the list twice, the test of a mutant is all the processes of that mutant. *)
Theorem C67_distinct : forall w e js a s ms P r l, program_runs w e js a s ms P r -> tree_as_read w s P ms -> names_unique (se_meta s) ->
  (op_in_place (se_options s) = true -> op_jobs (se_options s) = None) -> NoDup ms -> ls_main (rs_lab r) = MEnd (ROk l) ->
  evidence P (context_for e js s) ms (rs_log r) (op_baseline (se_options s)) (status (ETested ms l)).
Proof.
  intros w e js a s ms P r l H T U OK ND E. destruct H as [lk fuel es q o0 t0 r S A NE Q LF FT R].
  destruct (after_found _ _ _ _ _ _ _ A) as (ps & errs & M & F & I & _). pose proof (queued_perm _ _ _ Q) as PQ.
  destruct LF as (_ & L1 & L2 & L3).
  replace (op_baseline (se_options s)) with (negb (pa_skip_baseline P)) by (rewrite L3; apply negb_involutive).
  destruct (rs_lab r) as [sh mn ws] eqn:El. cbn [ls_main] in E. subst mn.
  eapply evidence_end; try eassumption.
  - eapply found_loaded; eassumption.
  - unfold options_ok; rewrite L1, L2; exact OK.
Qed.
Print Assumptions C67_distinct.

(** C67: so if a run of a whole tree ends with status 0, then for every mutant that the selected packages offer and the filters allow,
    cargo was run on the source with that mutation, and did not build it or ran the tests and they failed. *)
Theorem C67_zero : forall w e js a s ms P r l, program_runs w e js a s ms P r -> tree_as_read w s P ms -> names_unique (se_meta s) ->
  (op_in_place (se_options s) = true -> op_jobs (se_options s) = None) -> ls_main (rs_lab r) = MEnd (ROk l) ->
  status (ETested ms l) = 0%Z -> op_check_only (se_options s) = false ->
  ag_iterate a = false -> ag_in_diff a = None -> ag_shard a = None ->
  exists ps errs, mutated_packages (fun d => locate_project w d false) (se_meta s) (se_filter s) = Some ps
    /\ Forall2 (fun x t => wo_expr w x = Some t) (op_error_values (se_options s)) errs
    /\ exists bl rest bs, rs_log r = bl ++ rest /\ one_job Baseline bl /\ woven bs rest
    /\ Forall (right_command P (context_for e js s) ms) (rs_log r) /\ Forall (right_files P) (rs_log r)
    /\ forall m, of_packages w (md_root (se_meta s)) (se_options s) errs ps m ->
       exists pre b st, In (pre ++ [b]) bs /\ one_job (Mutant m) (pre ++ [b]) /\ st <> WExited 0 /\ ended b st /\ Forall (fun x => ended x (WExited 0)) pre.
Proof.
  intros w e js a s ms P r l H T U OK E St Ck It Df Sh.
  pose proof (C67_status _ _ _ _ _ _ _ _ _ H T U OK E) as Ev. rewrite St in Ev.
  destruct H as [lk fuel es q o0 t0 r S A NE Q LF FT R]. destruct (after_found _ _ _ _ _ _ _ A) as (ps & errs & M & F & _ & I).
  exists ps, errs. split; [exact M|]. split; [exact F|]. inversion Ev as [bl rest ts n El RC RF Bf PM Ts W So|]; subst.
  exists bl, rest, (map snd ts). split; [exact El|]. split; [destruct (op_baseline (se_options s)); [apply Bf|rewrite Bf; exists 0; constructor]|].
  split; [exact W|]. split; [exact RC|]. split; [exact RF|]. intros m Hm. specialize (I It Df Sh m Hm).
  apply (Permutation_in _ (Permutation_sym PM)) in I. apply in_map_iff in I as ([[m' v] b] & Em & I). cbn in Em. subst m'.
  rewrite Forall_forall in Ts. destruct (Ts _ I) as [J Ex]. cbn in J, Ex.
  destruct So as [[Y _]|[[Y _]|(_ & N1 & N2)]]; try discriminate Y.
  assert (Iv : In v (map (fun x => snd (fst x)) ts)) by (apply in_map_iff; exists (m, v, b); auto).
  assert (Ib : In b (map snd ts)) by (apply in_map_iff; exists (m, v, b); auto).
  destruct LF as (CO & _). rewrite CO, Ck in Ex. inversion Ex as [b0 t|b0 t c|b0 c|pre b0|b0|pre b0 w0]; subst; try congruence; try contradiction.
  - exists [b0], t, (WExited c). split; [exact Ib|]. split; [exact J|]. split; [congruence|]. auto.
  - exists [], b0, (WExited c). split; [exact Ib|]. split; [exact J|]. split; [congruence|]. auto.
  - exists pre, b0, w0. split; [exact Ib|]. split; [exact J|]. split; [intros ->; assumption|]. auto.
Qed.
Print Assumptions C67_zero.

(** ** Example *)
(** The world of WholeT: two mutants.  Cargo is run as in LaunchT, with one time-out, or fails without mutations, or
    fails for both. *)
Definition ex_env : env := fun v => if text_eqb v (tx "CARGO") then Some (tx "/bin/cargo") else None.
Definition ex_ctx : context := context_for ex_env [] ex_setting.
Definition ex_erun (xs : list (nat * option (exit_t * N))) : option rstate :=
  rexec ex_P2 ex_ctx ex_ms xs (rstart ex_P2 ex_ctx ex_ms ex_out (pa_root ex_P2)).
Definition ex_caught : list (nat * option (exit_t * N)) :=
  ok 0 5 ++ [(0, Some (ExSuccess, secs 7))] ++ ok 0 7 ++ ok 0 7 ++ ok 1 8 ++ fails 1 ++ ok 1 7 ++ fails 0 ++ ok 0 7 ++ ok 1 1 ++ ok 0 1 ++ ok 0 1.
Definition ex_fails : list (nat * option (exit_t * N)) := ok 0 5 ++ fails 0 ++ ok 0 6.

Lemma ex_runs : forall xs r, ex_erun xs = Some r -> program_runs ex_world ex_env [] (ex_arguments false) ex_setting ex_ms ex_P2 r.
Proof.
  intros xs r H. destruct ex_after as [es A].
  apply (pr_runs ex_world ex_env [] (ex_arguments false) ex_setting ex_ms ex_P2 (tx "L") 10 es ex_ms ex_out (pa_root ex_P2));
    [apply ex_settle|exact A|discriminate|reflexivity|repeat split; reflexivity|apply LabT.C13_case|].
  eapply rexec_sound. exact H.
Qed.
Lemma ex_as_read : tree_as_read ex_world ex_setting ex_P2 ex_ms.
Proof. intros m [<-|[<-|[]]]; vm_compute; split; reflexivity. Qed.
Definition ex_report (xs : list (nat * option (exit_t * N))) : option (option Z * list (bool * phase * list text * option exit_t)) :=
  match ex_erun xs with
  | Some r => Some (match ls_main (rs_lab r) with MEnd (ROk l) => Some (status (ETested ex_ms l)) | _ => None end,
                    map (fun l => (is_mutant (la_scenario l), la_phase l, la_argv l, option_map fst (la_result l))) (rs_log r))
  | None => None
  end.
Definition ex_b := [tx "/bin/cargo"; tx "test"; tx "--no-run"; tx "--verbose"; tx "--package=p@1.0.0"].
Definition ex_t := [tx "/bin/cargo"; tx "test"; tx "--verbose"; tx "--package=p@1.0.0"].
Example C67_case : ex_report ex_sched = Some (Some 3%Z,
  [ (false, Build, ex_b, Some ExSuccess); (false, Test, ex_t, Some ExSuccess); (true, Build, ex_b, Some ExSuccess);
    (true, Build, ex_b, Some ExSuccess); (true, Test, ex_t, Some ExTimeout); (true, Test, ex_t, Some ExSuccess) ]).
Proof. vm_compute. reflexivity. Qed.
(** Caught both: status 0.  Without mutations the tests fail: status 4, and nothing else was run. *)
Example C67_case_caught : ex_report ex_caught = Some (Some 0%Z,
  [ (false, Build, ex_b, Some ExSuccess); (false, Test, ex_t, Some ExSuccess); (true, Build, ex_b, Some ExSuccess);
    (true, Build, ex_b, Some ExSuccess); (true, Test, ex_t, Some (ExFailure 101)); (true, Test, ex_t, Some (ExFailure 101)) ]).
Proof. vm_compute. reflexivity. Qed.
Example C67_case_baseline : ex_report ex_fails = Some (Some 4%Z,
  [ (false, Build, ex_b, Some ExSuccess); (false, Test, ex_t, Some (ExFailure 101)) ]).
Proof. vm_compute. reflexivity. Qed.

(** The theorems apply to these runs; all that they ask for is given. *)
Lemma ex_zero : match ex_erun ex_caught with
  | Some r => match ls_main (rs_lab r) with MEnd (ROk l) => status (ETested ex_ms l) = 0%Z | _ => False end | None => False end.
Proof. vm_compute. reflexivity. Qed.
Lemma ex_meta_unique : names_unique (se_meta ex_setting).
Proof. unfold names_unique. vm_compute. repeat constructor; intros []. Qed.
Example C67_case_runs : exists r l, program_runs ex_world ex_env [] (ex_arguments false) ex_setting ex_ms ex_P2 r
  /\ tree_as_read ex_world ex_setting ex_P2 ex_ms /\ names_unique (se_meta ex_setting) /\ NoDup ex_ms
  /\ (op_in_place (se_options ex_setting) = true -> op_jobs (se_options ex_setting) = None)
  /\ ls_main (rs_lab r) = MEnd (ROk l) /\ status (ETested ex_ms l) = 0%Z /\ op_check_only (se_options ex_setting) = false.
Proof.
  pose proof ex_zero as Z. destruct (ex_erun ex_caught) as [r|] eqn:E; [|destruct Z].
  destruct (ls_main (rs_lab r)) as [| |[l| |]] eqn:M; try contradiction. exists r, l.
  split; [exact (ex_runs _ _ E)|]. split; [exact ex_as_read|]. split; [exact ex_meta_unique|]. split; [exact ex_ms_nodup|].
  split; [intro Y; vm_compute in Y; discriminate Y|]. split; [exact M|]. split; [exact Z|reflexivity].
Qed.
