(** Theorems: the files that a whole run leaves in mutants.out agree with each other and with the exit status (C79). *)
From Coq Require Import String List NArith ZArith Bool Arith Permutation.
From Verif Require Import Text SpanM PathM MutantM ProcessM OutcomeM OutcomeS OutputM OutputS OutputP IterateM IterateP ShardM PackageM PackageS OptionsM CargoM WalkM
  LabM LabS LabP LabT MainM MainP JsonM JsonS JsonP JsonT WholeM WholeS WholeP WholeT LaunchM LaunchS LaunchP LaunchT EndM EndS EndP EndT TogetherM GoesP RoundM RoundS RoundP RoundT FilesM FilesS FilesP.
Import ListNotations.
Open Scope list_scope.

(** C79: once the output directory has been set up, the lab can open it; the directory is never in the way. *)
Theorem C79_opens : forall w lk fuel a s ms es1 q, after w lk fuel a s = Done (Tests ms es1) ->
  exists o1 o0, dget es1 OUTDIR = Some (NDir o1) /\ lab_open o1 q = Some o0.
Proof.
  intros w lk fuel a s ms es1 q A. destruct (after_parts _ _ _ _ _ _ _ A) as (Su & _). destruct (set_up_files _ _ _ _ Su) as (o1 & G & _ & D & M & _).
  destruct (opens o1 q D M) as [o0 O]. eauto.
Qed.
Print Assumptions C79_opens.

(** C79: at any time of the run, and after it whatever its end, mutants.json describes exactly the mutants that were selected, in the order in which they
    are taken. *)
Theorem C79_mutants : forall w e js a s ms P lk r o, run_leaves w e js a s ms P lk r o ->
  exists q t vs, holds o (tx "mutants.json") t /\ read_json t = Some (JArr vs) /\ Forall2 is_mutant_object vs q
    /\ Permutation q ms /\ (op_shuffle (se_options s) = false -> q = ms).
Proof.
  intros w e js a s ms P lk r o H. destruct H as [r [fuel es1 q o1 o0 t0 S A Q G O NE LF FT R]|fuel es1 o1 o0 S A G O E].
  - destruct (mutants_back q) as (vs & Rd & F). exists q, (mutants_file q), vs. destruct (lab_state _ _ _ _ _ _ R) as (st & Re & Esh & _).
    split; [|split; [exact Rd|split; [exact F|split; [apply Permutation_sym; eapply queued_perm; exact Q|]]]].
    + unfold holds. rewrite <- Esh, (kept _ _ _ _ _ _ (once_untouched _ (or_introl eq_refl)) Re). exact (proj1 (open_files _ _ _ O)).
    + intro Sh. unfold queued in Q. cbn [cli_of cl_shuffle] in Q. rewrite Sh in Q. exact Q.
  - destruct (mutants_back ms) as (vs & Rd & F). exists ms, (mutants_file ms), vs.
    split; [exact (proj1 (open_files _ _ _ O))|]. split; [exact Rd|]. split; [exact F|]. split; [apply Permutation_refl|reflexivity].
Qed.
Print Assumptions C79_mutants.

(** C79: the order in mutants.json is that in which the mutants are taken, also with --shuffle: at any time it describes those that have been taken (they
    are being tested, have a verdict, or were given up with an error), then those that are left, the next one first. *)
Theorem C79_order : forall w e js a s ms P lk r, run_at w e js a s ms P lk r ->
  let sh := ls_sh (rs_lab r) in
  exists t vs taken, holds (sh_out sh) (tx "mutants.json") t /\ read_json t = Some (JArr vs) /\ Forall2 is_mutant_object vs (taken ++ sh_queue sh)
    /\ Permutation (taken ++ sh_queue sh) ms /\ incl (recorded (sh_lab sh)) taken.
Proof.
  intros w e js a s ms P lk r H sh. destruct H as [fuel es1 q o1 o0 t0 S A Q G O NE LF FT R].
  destruct (mutants_back q) as (vs & Rd & F). destruct (lab_state _ _ _ _ _ _ R) as (st & Re & Esh & _). destruct (C12_in_order _ _ _ _ _ Re) as [taken Eq].
  destruct (c12_accounted _ _ _ _ _ Re) as (lost & HP & _). exists (mutants_file q), vs, taken. unfold sh. rewrite <- Esh, <- Eq.
  split; [|split; [exact Rd|split; [exact F|split]]].
  - unfold holds. rewrite (kept _ _ _ _ _ _ (once_untouched _ (or_introl eq_refl)) Re). exact (proj1 (open_files _ _ _ O)).
  - apply Permutation_sym. eapply queued_perm. exact Q.
  - assert (Y : Permutation (flat_map in_hand (threads st) ++ recorded (sh_lab (ls_sh st)) ++ lost) taken).
    { apply (Permutation_app_inv_l (sh_queue (ls_sh st))). eapply Permutation_trans; [exact HP|]. rewrite Eq at 1. apply Permutation_app_comm. }
    intros m Hm. eapply Permutation_in; [exact Y|]. rewrite !in_app_iff. auto.
Qed.
Print Assumptions C79_order.

(** C79: at any time lock.json is as the run has written it, and previously_caught.txt has, with --iterate only, the names that the lists had before. *)
Theorem C79_kept : forall w e js a s ms P lk r o, run_leaves w e js a s ms P lk r o ->
  holds o (tx "lock.json") lk
  /\ dget o (tx "previously_caught.txt")
     = if ag_iterate a then Some (NFile (flat_map (fun n => n ++ [NL]) (load_previously_caught (wo_dir w (output_parent s))))) else None.
Proof.
  intros w e js a s ms P lk r o H. assert (K : exists fuel es1 o1 o0 q, after w lk fuel a s = Done (Tests ms es1) /\ dget es1 OUTDIR = Some (NDir o1)
    /\ lab_open o1 q = Some o0 /\ forall f, In f written_once -> dget o f = dget o0 f).
  { destruct H as [r [fuel es1 q o1 o0 t0 S A Q G O NE LF FT R]|fuel es1 o1 o0 S A G O E].
    - exists fuel, es1, o1, o0, q. repeat (split; [assumption|]). intros f Hf. destruct (lab_state _ _ _ _ _ _ R) as (st & Re & Esh & _).
      rewrite <- Esh. exact (kept _ _ _ _ _ _ (once_untouched _ Hf) Re).
    - exists fuel, es1, o1, o0, ms. repeat (split; [assumption|]). reflexivity. }
  clear H. destruct K as (fuel & es1 & o1 & o0 & q & A & G & O & K). destruct (after_parts _ _ _ _ _ _ _ A) as (Su & _).
  destruct (set_up_files _ _ _ _ Su) as (o1' & G' & _ & _ & _ & _ & L & Pr). rewrite G in G'. injection G' as <-. destruct (open_files _ _ _ O) as (_ & _ & Op).
  unfold holds. rewrite (K (tx "lock.json")) by (right; left; reflexivity). rewrite (K (tx "previously_caught.txt")) by (right; right; left; reflexivity).
  rewrite !Op by discriminate. split; [exact L|]. exact Pr.
Qed.
Print Assumptions C79_kept.

(** C79: when the run ends with a result, the four lists have exactly the mutants with the four verdicts, in the order of recording.  Either no mutant has been
    tested, as the tests fail without any, the lists are empty and the status is 4; or every selected mutant has exactly one verdict
    and the status is what the lists tell. *)
Theorem C79_lists : forall w e js a s ms P lk l o, run_leaves w e js a s ms P lk (Some (ROk l)) o ->
  lists_exact o (verdicts (lo_outcomes l))
  /\ ((verdicts (lo_outcomes l) = [] /\ status (ETested ms l) = 4%Z /\ op_baseline (se_options s) = true)
      \/ (Permutation (map fst (verdicts (lo_outcomes l))) ms /\ told_by_lists o (status (ETested ms l)))).
Proof.
  intros w e js a s ms P lk l o H. remember (Some (ROk l)) as x eqn:Ex. destruct H as [r [fuel es1 q o1 o0 t0 S A Q G O NE LF FT R]|fuel es1 o1 o0 S A G O E].
  - destruct (ls_main (rs_lab r)) as [| |y] eqn:Em; try discriminate. injection Ex as ->. destruct (rs_lab r) as [sh mn ws] eqn:El. cbn [ls_main ls_sh] in *. subst mn.
    destruct (at_end P _ o0 t0 q r R sh l ws El) as [Re _]. pose proof (queued_perm _ _ _ Q) as PQ.
    destruct (after_parts _ _ _ _ _ _ _ A) as (Su & _). destruct (set_up_files _ _ _ _ Su) as (o1' & G' & L1 & _). rewrite G in G'. injection G' as <-.
    destruct (lab_status P o0 t0 q sh l ws) as (LE & _ & D).
    { intros ->. apply NE. apply Permutation_nil, Permutation_sym. exact PQ. }
    { intros m Hm. eapply tests_named; [exact A|]. eapply Permutation_in; [apply Permutation_sym; exact PQ|exact Hm]. }
    { eapply opened_lists; eassumption. }
    { exact Re. }
    split; [exact LE|]. unfold status. destruct D as [(V & C & Sk)|(Pm & c & C & T)]; rewrite C.
    + left. split; [exact V|]. split; [reflexivity|]. destruct LF as (_ & _ & _ & L3). rewrite Sk in L3. destruct (op_baseline _); [reflexivity|discriminate].
    + right. split; [|exact T]. eapply Permutation_trans; [exact Pm|apply Permutation_sym; exact PQ].
  - injection Ex as <-. cbn [lab_new lo_outcomes verdicts flat_map map]. destruct (after_parts _ _ _ _ _ _ _ A) as (Su & _).
    destruct (set_up_files _ _ _ _ Su) as (o1' & G' & L1 & _). rewrite G in G'. injection G' as <-. pose proof (opened_lists _ _ _ O L1) as L0.
    split; [exact L0|]. right. subst ms. split; [constructor|]. exists [], []. split; [apply (L0 _ SumMissed); right; left; reflexivity|].
    split; [apply (L0 _ SumTimeout); right; right; left; reflexivity|]. right. right. repeat split.
Qed.
Print Assumptions C79_lists.

(** C79: then outcomes.json describes the same outcomes (if a write has failed without being noticed, a beginning of it does, see C53_end_refuted). *)
Theorem C79_outcomes : forall float argv log diff w e js a s ms P lk l o,
  (forall n, is_number (float n) = true) -> (forall x t, outcomes_file float argv log diff x = Some t -> pa_json P x = t) ->
  run_leaves w e js a s ms P lk (Some (ROk l)) o -> ms <> [] ->
  exists t rest v, holds o (tx "outcomes.json") t /\ read_json (t ++ rest) = Some v /\ is_lab float argv log diff v l /\ (pa_faults P = false -> rest = []).
Proof.
  intros float argv log diff w e js a s ms P lk l o F J H NE0. remember (Some (ROk l)) as x eqn:Ex.
  destruct H as [r [fuel es1 q o1 o0 t0 S A Q G O NE LF FT R]|fuel es1 o1 o0 S A G O E]; [|contradiction].
  destruct (ls_main (rs_lab r)) as [| |y] eqn:Em; try discriminate. injection Ex as ->. destruct (rs_lab r) as [sh mn ws] eqn:El. cbn [ls_main ls_sh] in *. subst mn.
  destruct (at_end P _ o0 t0 q r R sh l ws El) as [Re _]. pose proof (queued_perm _ _ _ Q) as PQ.
  destruct (after_parts _ _ _ _ _ _ _ A) as (Su & _). destruct (set_up_files _ _ _ _ Su) as (o1' & G' & L1 & _). rewrite G in G'. injection G' as <-.
  assert (Nm : forall m, In m q -> mutant_name true m <> None).
  { intros m Hm. eapply tests_named; [exact A|]. eapply Permutation_in; [apply Permutation_sym; exact PQ|exact Hm]. }
  assert (L0 : lists_exact o0 []) by (eapply opened_lists; eassumption).
  assert (NO : lo_outcomes l <> []).
  { eapply (lab_status P o0 t0 q sh l ws); [|exact Nm|exact L0|exact Re]. intros ->. apply NE. apply Permutation_nil, Permutation_sym. exact PQ. }
  destruct (pa_faults P) eqn:Fa.
  - destruct (C53_end_cut float argv log diff P o0 t0 q sh l ws F J Nm L0 Re NO) as (_ & t & rest & v & D & Rd & I).
    exists t, rest, v. repeat (split; [assumption|]). discriminate.
  - destruct (C53_end_partial float argv log diff P o0 t0 q sh l ws F J Nm Fa L0 Re NO) as (_ & t & v & D & Rd & I).
    exists t, [], v. rewrite app_nil_r. repeat (split; [assumption|]). reflexivity.
Qed.
Print Assumptions C79_outcomes.

(** C79: without mutants the run ends with status 0, mutants.json is an empty array, the lists are empty, and there is no outcomes.json. *)
Theorem C79_none : forall w e js a s P lk r o, run_leaves w e js a s [] P lk r o ->
  exists l, r = Some (ROk l) /\ status (ETested [] l) = 0%Z /\ holds o (tx "mutants.json") (tx "[]") /\ lists_exact o [] /\ dget o (tx "outcomes.json") = None.
Proof.
  intros w e js a s P lk r o H. remember [] as ms eqn:Em. destruct H as [r [fuel es1 q o1 o0 t0 S A Q G O NE LF FT R]|fuel es1 o1 o0 S A G O E]; [contradiction|].
  subst ms. exists lab_new. split; [reflexivity|]. split; [reflexivity|]. destruct (after_parts _ _ _ _ _ _ _ A) as (Su & _).
  destruct (set_up_files _ _ _ _ Su) as (o1' & G' & L1 & _ & _ & Oj & _). rewrite G in G'. injection G' as <-.
  destruct (open_files _ _ _ O) as (M & _ & K). split; [exact M|]. split; [eapply opened_lists; eassumption|]. rewrite K by discriminate. exact Oj.
Qed.
Print Assumptions C79_none.

(** ** Examples *)
Definition ex_files (it : bool) (xs : list (nat * option (exit_t * N))) : option (option result * entries) :=
  match ex_start [] it with
  | Some (ms, es1, o1) =>
      match lab_open o1 ms with
      | Some o0 => match rexec ex_PJ ex_ctx ms xs (rstart ex_PJ ex_ctx ms o0 (pa_root ex_PJ)) with
                   | Some r => Some (match ls_main (rs_lab r) with MEnd x => Some x | _ => None end, sh_out (ls_sh (rs_lab r)))
                   | None => None end
      | None => None end
  | None => None end.
Lemma ex_files_ms : forall it, match ex_start [] it with Some (ms, _, _) => Some ms | None => None end = Some ex_ms.
Proof. intros []; vm_compute; reflexivity. Qed.
Lemma ex_files_leaves : forall it xs r o, ex_files it xs = Some (r, o) ->
  run_leaves (ex_in []) ex_env [] (ex_again it) ex_setting ex_ms ex_PJ (tx "L") r o.
Proof.
  intros it xs r o H. pose proof (ex_files_ms it) as Ms. unfold ex_files, ex_start in *. assert (S : settle (ex_in []) (ex_again it) = Done ex_setting) by exact (ex_settle false).
  destruct (after (ex_in []) (tx "L") 10 (ex_again it) ex_setting) as [[out|ms es1]| |] eqn:A; try discriminate.
  destruct (dget es1 OUTDIR) as [[|o1]|] eqn:G; try discriminate. destruct (lab_open o1 ms) as [o0|] eqn:O; [|discriminate].
  destruct (rexec ex_PJ ex_ctx ms xs _) as [r0|] eqn:X; [|discriminate]. injection H as <- <-. injection Ms as ->.
  apply rl_tests. apply (ra_tests _ _ _ _ _ _ _ _ r0 10 es1 ex_ms o1 o0 (pa_root ex_PJ));
    [exact S|exact A|reflexivity|exact G|exact O|discriminate|repeat split; reflexivity|apply LabT.C13_case|eapply rexec_sound; exact X].
Qed.

(** The first mutant of WholeT is caught and the second is missed: the lists have one each, the status is 2. *)
Definition sizes (o : entries) : list (option nat) :=
  map (fun f => match dget o f with Some (NFile t) => Some (length (lines t)) | _ => None end)
    [tx "caught.txt"; tx "missed.txt"; tx "timeout.txt"; tx "unviable.txt"; tx "mutants.json"; tx "lock.json"; tx "previously_caught.txt"].
Lemma ex_half_files : match ex_files true ex_half with
  | Some (Some (ROk l), o) => status (ETested ex_ms l) = 2%Z /\ length ex_ms = 2 /\ length (verdicts (lo_outcomes l)) = 2
      /\ sizes o = [Some 1; Some 1; Some 0; Some 0; Some 36; Some 1; Some 0]
  | _ => False end.
Proof. vm_compute. repeat split. Qed.
Example C79_case : exists l o, run_leaves (ex_in []) ex_env [] (ex_again true) ex_setting ex_ms ex_PJ (tx "L") (Some (ROk l)) o
  /\ status (ETested ex_ms l) = 2%Z /\ length ex_ms = 2 /\ length (verdicts (lo_outcomes l)) = 2
  /\ sizes o = [Some 1; Some 1; Some 0; Some 0; Some 36; Some 1; Some 0].
Proof.
  generalize ex_half_files. destruct (ex_files true ex_half) as [[[[l| |]|] o]|] eqn:E; try (intros []; fail). intro Z. exists l, o.
  split; [eapply ex_files_leaves; exact E|exact Z].
Qed.

(** One mutant has been taken, the other is left; the state before the lab ends. *)
Definition ex_r (xs : list (nat * option (exit_t * N))) : option rstate :=
  match ex_start [] false with
  | Some (ms, es1, o1) => match lab_open o1 ms with Some o0 => rexec ex_PJ ex_ctx ms xs (rstart ex_PJ ex_ctx ms o0 (pa_root ex_PJ)) | None => None end
  | None => None end.
Lemma ex_r_at : forall xs r, ex_r xs = Some r -> run_at (ex_in []) ex_env [] (ex_again false) ex_setting ex_ms ex_PJ (tx "L") r.
Proof.
  intros xs r H. pose proof (ex_files_ms false) as Ms. unfold ex_r, ex_start in *. assert (S : settle (ex_in []) (ex_again false) = Done ex_setting) by exact (ex_settle false).
  destruct (after (ex_in []) (tx "L") 10 (ex_again false) ex_setting) as [[out|ms es1]| |] eqn:A; try discriminate.
  destruct (dget es1 OUTDIR) as [[|o1]|] eqn:G; try discriminate. destruct (lab_open o1 ms) as [o0|] eqn:O; [|discriminate]. injection Ms as ->.
  apply (ra_tests _ _ _ _ _ _ _ _ r 10 es1 ex_ms o1 o0 (pa_root ex_PJ));
    [exact S|exact A|reflexivity|exact G|exact O|discriminate|repeat split; reflexivity|apply LabT.C13_case|eapply rexec_sound; exact H].
Qed.
Lemma ex_r_is : match ex_r (ok 0 5 ++ [(0, Some (ExSuccess, secs 7))] ++ ok 0 7 ++ ok 0 3) with Some r => sh_queue (ls_sh (rs_lab r)) = [ex_minus] | None => False end.
Proof. vm_compute. reflexivity. Qed.
Example C79_case_order : exists r, run_at (ex_in []) ex_env [] (ex_again false) ex_setting ex_ms ex_PJ (tx "L") r
  /\ sh_queue (ls_sh (rs_lab r)) = [ex_minus] /\ ex_ms = [ex_plus] ++ sh_queue (ls_sh (rs_lab r)).
Proof.
  generalize ex_r_is. destruct (ex_r _) as [r|] eqn:E; [|intros []]. intro Z. exists r. split; [eapply ex_r_at; exact E|]. split; [exact Z|]. rewrite Z. reflexivity.
Qed.

(** The same run killed while the second mutant is being tested: mutants.json has both. *)
Lemma ex_cut_files : match ex_files false ex_cut with
  | Some (None, o) => sizes o = [Some 1; Some 0; Some 0; Some 0; Some 36; Some 1; None]
  | _ => False end.
Proof. vm_compute. reflexivity. Qed.
Example C79_case_killed : exists o, run_leaves (ex_in []) ex_env [] (ex_again false) ex_setting ex_ms ex_PJ (tx "L") None o
  /\ sizes o = [Some 1; Some 0; Some 0; Some 0; Some 36; Some 1; None].
Proof.
  generalize ex_cut_files. destruct (ex_files false ex_cut) as [[[|] o]|] eqn:E; try (intros []; fail). intro Z. exists o.
  split; [eapply ex_files_leaves; exact E|exact Z].
Qed.

(** The tests fail without any mutant: the lists are empty and the status is 4. *)
Lemma ex_bad_files : match ex_files false (ok 0 5 ++ fails 0 ++ ok 0 6) with
  | Some (Some (ROk l), o) => status (ETested ex_ms l) = 4%Z /\ sizes o = [Some 0; Some 0; Some 0; Some 0; Some 36; Some 1; None]
  | _ => False end.
Proof. vm_compute. repeat split. Qed.
Example C79_case_baseline : exists l o, run_leaves (ex_in []) ex_env [] (ex_again false) ex_setting ex_ms ex_PJ (tx "L") (Some (ROk l)) o
  /\ status (ETested ex_ms l) = 4%Z /\ sizes o = [Some 0; Some 0; Some 0; Some 0; Some 36; Some 1; None].
Proof.
  generalize ex_bad_files. destruct (ex_files false (ok 0 5 ++ fails 0 ++ ok 0 6)) as [[[[l| |]|] o]|] eqn:E; try (intros []; fail). intro Z. exists l, o.
  split; [eapply ex_files_leaves; exact E|exact Z].
Qed.

(** The third run of C74_case has nothing left to test; what the runs before have settled is in previously_caught.txt. *)
Definition ex_nothing : option entries :=
  match ex_round [] false ex_half with
  | Some (_, ea) => match ex_round ea true ex_rest with
    | Some (_, eb) => Some eb
    | None => None end
  | None => None end.
Lemma ex_nothing_files : match ex_nothing with
  | Some eb => match ex_start eb true with
    | Some ([], _, o1) => match lab_open o1 [] with
      | Some o => sizes o = [Some 0; Some 0; Some 0; Some 0; Some 1; Some 1; Some 2]
      | None => False end
    | _ => False end
  | None => False end.
Proof. vm_compute. reflexivity. Qed.
Example C79_case_none : exists eb o, run_leaves (ex_in eb) ex_env [] (ex_again true) ex_setting [] ex_PJ (tx "L") (Some (ROk lab_new)) o
  /\ sizes o = [Some 0; Some 0; Some 0; Some 0; Some 1; Some 1; Some 2].
Proof.
  generalize ex_nothing_files. destruct ex_nothing as [eb|]; [|intros []]. unfold ex_start.
  destruct (after (ex_in eb) (tx "L") 10 (ex_again true) ex_setting) as [[out|ms es1]| |] eqn:A; try (intros []; fail).
  destruct (dget es1 OUTDIR) as [[|o1]|] eqn:G; try (intros []; fail). destruct ms as [|m ms]; [|intros []].
  destruct (lab_open o1 []) as [o|] eqn:O; [|intros []]. intro Z. exists eb, o. split; [|exact Z].
  apply (rl_none _ _ _ _ _ _ _ _ 10 es1 o1 o); [exact (ex_settle false)|exact A|exact G|exact O|reflexivity].
Qed.
