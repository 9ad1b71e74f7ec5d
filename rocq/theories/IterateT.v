(** Property theorems: C19 and the disk side of C49. *)
From Coq Require Import String List NArith Bool.
From Verif Require Import Text SpanM PathM MutantM MutantP OutcomeM OutputM OutputS OutputP IterateM IterateS IterateP.
Import ListNotations.

(** C19: in any series of --iterate runs, a mutant found in the tree is a
    candidate for testing exactly when its name was not in the lists at the start
    and no earlier run in the series decided it (caught or unviable).
    Missing: names with a line break (C20_newline_refuted) and runs that crash during the set-up (C49_rotation_window_refuted). *)
Theorem C19_exact_partial : forall es rs r es' m n, series es (rs ++ [r]) es' ->
  (forall x, In x rs -> clean_names (ir_candidates x)) ->
  Forall one_line (load_previously_caught (Some es)) ->
  In m (ir_found r) -> mutant_name true m = Some n ->
  (In m (ir_candidates r) <->
   ~ In n (load_previously_caught (Some es)) /\ forall x, In x rs -> ~ decided (ir_tested x) n).
Proof. exact c19. Qed.
Print Assumptions C19_exact_partial.

(** C19: so a decided mutant is never tested again.
    Missing: names with a line break (C20_newline_refuted) and runs that crash during the set-up (C49_rotation_window_refuted). *)
Theorem C19_never_again_partial : forall es rs r es' m n v x, series es (rs ++ [r]) es' ->
  (forall x, In x rs -> clean_names (ir_candidates x)) ->
  Forall one_line (load_previously_caught (Some es)) ->
  In x rs -> decided (ir_tested x) n -> mutant_name true m = Some n ->
  ~ In (m, v) (ir_tested r).
Proof. exact c19_never. Qed.
Print Assumptions C19_never_again_partial.

(** A series of two runs from an empty directory: the first catches f, misses g
    and finds h unviable; the second has g and a new mutant k to test. *)
Definition ex_m (nm : string) :=
  mkMutant (mkSF [] (tx "src/a.rs") [] true) (Some (mkFn (tx nm) [] (mkSpan (mkLC 1 1) (mkLC 1 1))))
    (mkSpan (mkLC 1 1) (mkLC 1 1)) (tx "()") FnValue.
Definition ex_tested := [(ex_m "f", SumCaught); (ex_m "g", SumMissed); (ex_m "h", SumUnviable)].
Definition ex_end1 :=
  match iterate_start (tx "L") [] [ex_m "f"; ex_m "g"; ex_m "h"] with
  | Some (_, _, o2) => match record_all o2 ex_tested with Some o => o | None => [] end
  | None => []
  end.
Definition ex_r1 := mkIRun (tx "L") [ex_m "f"; ex_m "g"; ex_m "h"] [ex_m "f"; ex_m "g"; ex_m "h"] ex_tested ex_end1.
Definition ex_es1 :=
  match iterate_start (tx "L") [] [ex_m "f"; ex_m "g"; ex_m "h"] with
  | Some (_, es1, _) => dset es1 OUTDIR (NDir ex_end1)
  | None => []
  end.

Example C19_case : series [] [ex_r1] ex_es1
  /\ (exists es1 o2, iterate_start (tx "M") ex_es1 [ex_m "f"; ex_m "g"; ex_m "h"; ex_m "k"]
       = Some ([ex_m "g"; ex_m "k"], es1, o2))
  /\ Forall one_line (load_previously_caught (Some [])).
Proof.
  split; [|split].
  - apply (series_snoc [] [] [] ex_r1); [constructor|].
    do 3 eexists. split; [vm_compute; reflexivity|]. split.
    { intros m v Hi. simpl in Hi. simpl. intuition congruence. }
    split; [vm_compute; reflexivity|]. split.
    { intros k Hk. simpl in Hk.
      destruct Hk as [<-|[<-|[<-|[<-|[]]]]]; vm_compute; reflexivity. }
    vm_compute. reflexivity.
  - do 2 eexists. vm_compute. reflexivity.
  - constructor.
Qed.

(** C49: if the process dies after some results were recorded, the lists on disk
    hold exactly the earlier names and the decided names recorded so far.
    Missing: names with a line break (C20_newline_refuted) and a crash during the set-up (C49_rotation_window_refuted). *)
Theorem C49_lists_at_crash_partial : forall lk es found cand es1 o2 done o,
  iterate_start lk es found = Some (cand, es1, o2) ->
  record_all o2 done = Some o ->
  Forall one_line (load_previously_caught (Some es)) ->
  (forall m v n, In (m, v) done -> mutant_name true m = Some n -> one_line n) ->
  forall n, In n (load_previously_caught (Some (dset es1 OUTDIR (NDir o)))) <->
    In n (load_previously_caught (Some es)) \/ decided done n.
Proof. exact c49_run. Qed.
Print Assumptions C49_lists_at_crash_partial.

(** C49: the same if it dies between a name and its newline. *)
Theorem C49_lists_at_half_line : forall lk es found cand es1 o2 done o m v o',
  iterate_start lk es found = Some (cand, es1, o2) ->
  record_all o2 done = Some o -> record_name o m v = Some o' ->
  Forall one_line (load_previously_caught (Some es)) ->
  (forall m' v' n, In (m', v') (done ++ [(m, v)]) -> mutant_name true m' = Some n -> one_line n) ->
  forall n, In n (load_previously_caught (Some (dset es1 OUTDIR (NDir o')))) <->
    In n (load_previously_caught (Some es)) \/ decided (done ++ [(m, v)]) n.
Proof. exact c49_half. Qed.
Print Assumptions C49_lists_at_half_line.

(** C49: while the output directory is being set up the lists hold the earlier
    names or nothing, never a wrong name. *)
Theorem C49_setup : forall lk es e, Forall one_line (load_previously_caught (Some es)) ->
  In e (start_states lk es) ->
  load_previously_caught (Some e) = [] \/ load_previously_caught (Some e) = load_previously_caught (Some es).
Proof. exact c49_start. Qed.
Print Assumptions C49_setup.

(** C49: the states of the set-up end in the state testing starts from. *)
Theorem C49_setup_end : forall lk es found cand es1 o2,
  iterate_start lk es found = Some (cand, es1, o2) ->
  forall k, dget (last (start_states lk es) []) k = dget (dset es1 OUTDIR (NDir o2)) k.
Proof. exact start_states_last. Qed.
Print Assumptions C49_setup_end.

Example C49_case : exists done o cand es1 o2,
  iterate_start (tx "L") [] [ex_m "f"; ex_m "g"; ex_m "h"] = Some (cand, es1, o2)
  /\ record_all o2 done = Some o /\ length done = 2
  /\ load_previously_caught (Some (dset es1 OUTDIR (NDir o))) = [tx "src/a.rs:1:1: replace f with ()"].
Proof.
  exists [(ex_m "f", SumCaught); (ex_m "g", SumMissed)]. do 4 eexists.
  split; [vm_compute; reflexivity|]. split; [vm_compute; reflexivity|]. split; [reflexivity|].
  vm_compute. reflexivity.
Qed.

(** Finding: if the process dies after the rotation and before the old names are
    copied, the next --iterate run has forgotten them all: they are only in
    mutants.out.old, which is not read. *)
Theorem C49_rotation_window_refuted : exists lk es e n,
  In n (load_previously_caught (Some es)) /\ In e (start_states lk es)
  /\ ~ In n (load_previously_caught (Some e)).
Proof.
  exists (tx "M"), ex_es1, (nth 3 (start_states (tx "M") ex_es1) []), (tx "src/a.rs:1:1: replace f with ()").
  split; [vm_compute; left; reflexivity|]. split.
  - apply nth_In. vm_compute. repeat constructor.
  - vm_compute. tauto.
Qed.
Print Assumptions C49_rotation_window_refuted.

(** C19: the names read back are the lines of caught.txt, unviable.txt and
    previously_caught.txt in mutants.out. *)
Theorem C19_read : forall es n, In n (load_previously_caught (Some es)) <->
  exists o f c, dget es (tx "mutants.out") = Some (NDir o)
    /\ In f [tx "caught.txt"; tx "unviable.txt"; tx "previously_caught.txt"]
    /\ dget o f = Some (NFile c) /\ In n (lines c).
Proof.
  intros es n. unfold load_previously_caught. change (tx "mutants.out") with OUTDIR.
  change [tx "caught.txt"; tx "unviable.txt"; tx "previously_caught.txt"] with [CAUGHT_TXT; UNVIABLE_TXT; PREVIOUSLY_CAUGHT_TXT].
  assert (L : forall o f, In n (list_lines o f) <-> exists c, dget o f = Some (NFile c) /\ In n (lines c)).
  { intros o f. unfold list_lines. destruct (dget o f) as [[c|]|]; split; try (intros []; fail).
    - eauto. - intros (c' & E & H). congruence. - intros (c' & E & H). discriminate. - intros (c' & E & H). discriminate. }
  destruct (dget es OUTDIR) as [[c|o]|].
  - split; [intros []|]. intros (o & f & c' & E & _). discriminate.
  - rewrite !in_app_iff, !L. split.
    + intros [(c & H)|[(c & H)|(c & H)]]; exists o; eexists; exists c; (split; [reflexivity|]);
        (split; [|exact H]); simpl; tauto.
    + intros (o' & f & c & E & Hf & H). injection E as <-. destruct Hf as [<-|[<-|[<-|[]]]]; eauto.
  - split; [intros []|]. intros (o & f & c' & E & _). discriminate.
Qed.
Print Assumptions C19_read.

(** C19: and a parent directory that does not exist holds no names. *)
Theorem C19_read_none : load_previously_caught None = [].
Proof. reflexivity. Qed.
Print Assumptions C19_read_none.

Example C19_case_read : load_previously_caught (Some [(OUTDIR, NDir [(CAUGHT_TXT, NFile (tx "a
b
")); (MISSED_TXT, NFile (tx "c
"))])]) = [tx "a"; tx "b"].
Proof. vm_compute. reflexivity. Qed.
