(** Property theorems: C16, C17, C20. *)
From Coq Require Import String List NArith Bool.
From Verif Require Import Text SpanM PathM PathS PathP MutantM MutantP OutcomeM OutputM OutputS OutputP.
Import ListNotations.

(** C16: whatever the sequence of scenarios, the log files have different
    names, and so have the diff files. *)
Theorem C16_logs_distinct : forall ss,
  NoDup (map log_path (start_names [] ss)) /\ NoDup (map diff_path (start_names [] ss)).
Proof. exact c16_paths. Qed.
Print Assumptions C16_logs_distinct.

(** C16: each scenario gets one. *)
Theorem C16_each_has_one : forall ss, length (start_names [] ss) = length ss.
Proof. intros ss. exact (start_names_length ss []). Qed.
Print Assumptions C16_each_has_one.

(** C16: names hold no slash, so all are directly in log/ and diff/. *)
Theorem C16_no_slash : forall ss n, In n (start_names [] ss) -> ~ In SLASH n.
Proof. intros ss n. exact (name_no_slash ss [] [] n consistent_nil). Qed.
Print Assumptions C16_no_slash.

(** C16: where they are. *)
Theorem C16_paths : forall b, log_path b = tx "log/" ++ b ++ tx ".log" /\ diff_path b = tx "diff/" ++ b ++ tx ".diff".
Proof. intro b. split; reflexivity. Qed.
Print Assumptions C16_paths.

Definition ex_at p l c :=
  Mutant (mkMutant (mkSF [] p [] true) None (mkSpan (mkLC l c) (mkLC l c)) [] FnValue).

Example C16_case :
  start_names [] [Baseline; ex_at (tx "src/a.rs") 1 2; ex_at (tx "src/a.rs") 1 2;
                  ex_at (tx "src/a.rs_line_1_col_2") 1 2; ex_at (tx "src__a.rs") 1 2; Baseline]
  = [tx "baseline"; tx "src__a.rs_line_1_col_2"; tx "src__a.rs_line_1_col_2_001";
     tx "src__a.rs_line_1_col_2_line_1_col_2"; tx "src__a.rs_line_1_col_2_002"; tx "baseline_001"].
Proof. vm_compute. reflexivity. Qed.

(** C17: a run moves mutants.out to mutants.out.old (only its lock.json is
    touched), starts with a fresh one, and leaves everything else alone. *)
Theorem C17_rotation : forall lk es, rotatable (dget es (tx "mutants.out")) -> removable (dget es (tx "mutants.out.old")) ->
  exists es', output_new lk (Some es) = NewOk es'
  /\ dget es' (tx "mutants.out") = Some (NDir (fresh_dir lk))
  /\ (match dget es (tx "mutants.out") with
      | Some (NDir o) => exists o', dget es' (tx "mutants.out.old") = Some (NDir o') /\ same_but_lock o o'
      | _ => dget es' (tx "mutants.out.old") = dget es (tx "mutants.out.old")
      end)
  /\ (forall k, k <> (tx "mutants.out") -> k <> (tx "mutants.out.old") -> dget es' k = dget es k).
Proof. exact c17_one. Qed.
Print Assumptions C17_rotation.

(** C17: after any number of runs, from any starting directory, the last two
    runs' results are there and nothing else has changed. *)
Theorem C17_last_two_runs : forall es rs r1 r2,
  rotatable (dget es (tx "mutants.out")) -> removable (dget es (tx "mutants.out.old")) ->
  Forall ends_ok (rs ++ [r1; r2]) ->
  dget (fold_left run_in (rs ++ [r1; r2]) es) (tx "mutants.out") = Some (NDir (results r2))
  /\ (exists o, dget (fold_left run_in (rs ++ [r1; r2]) es) (tx "mutants.out.old") = Some (NDir o)
        /\ same_but_lock (results r1) o)
  /\ (forall k, k <> (tx "mutants.out") -> k <> (tx "mutants.out.old") ->
        dget (fold_left run_in (rs ++ [r1; r2]) es) k = dget es k).
Proof. exact c17_history. Qed.
Print Assumptions C17_last_two_runs.

(** C17: if mutants.out is something that cannot be rotated, nothing changes. *)
Theorem C17_refused : forall lk es, dget es (tx "mutants.out") <> None -> ~ rotatable (dget es (tx "mutants.out")) ->
  output_new lk (Some es) = NewErr es.
Proof. exact c17_refused. Qed.
Print Assumptions C17_refused.

Definition ex_run l t := mkRun (tx l) (fun o => append_file o CAUGHT_TXT (tx t)).
Example C17_case :
  let es := fold_left run_in [ex_run "1" "a"; ex_run "2" "b"; ex_run "3" "c"] [(tx "src", NDir [])] in
  (exists o, dget es OUTDIR = Some (NDir o) /\ dget o CAUGHT_TXT = Some (NFile (tx "c")))
  /\ (exists o, dget es ROTATED = Some (NDir o) /\ dget o CAUGHT_TXT = Some (NFile (tx "b")))
  /\ dget es (tx "src") = Some (NDir [])
  /\ rotatable (dget [(tx "src", NDir [])] OUTDIR) /\ ends_ok (ex_run "1" "a").
Proof.
  split; [eexists; split; reflexivity|]. split; [eexists; split; reflexivity|].
  split; [reflexivity|]. split; [exact I|]. intros x. vm_compute. discriminate.
Qed.

(** C20: names that take one line each are read back exactly.
    Missing: names with a line break, see C20_newline_refuted. *)
Theorem C20_round_trip_partial : forall ns, Forall one_line ns -> lines (previously_text ns) = ns.
Proof. exact lines_of_names. Qed.
Print Assumptions C20_round_trip_partial.

(** C20: a list file grown line by line is the same text. *)
Theorem C20_appended : forall ns n, previously_text (ns ++ [n]) = previously_text ns ++ name_line n.
Proof. exact (fun ns n => eq_trans (previously_app ns [n]) (f_equal _ (previously_one n))). Qed.
Print Assumptions C20_appended.

(** C20: a mutant's name takes one line if the texts it is made of hold no line
    break. *)
Theorem C20_names_take_one_line : forall m n, mutant_name true m = Some n ->
  (forall t, In t (pieces m) -> ~ In NL t /\ ~ In CR t) -> one_line n.
Proof. exact name_one_line. Qed.
Print Assumptions C20_names_take_one_line.

Example C20_case : lines (previously_text [tx "a.rs:1:2: replace f with ()"; []; tx "b"])
  = [tx "a.rs:1:2: replace f with ()"; []; tx "b"].
Proof. reflexivity. Qed.

(** Finding: a name with a line break, for instance from a string literal in a
    configured error value, is not read back. *)
Theorem C20_newline_refuted : exists m n, mutant_name true m = Some n
  /\ ~ In n (lines (previously_text [n])).
Proof.
  exists (mkMutant (mkSF [] (tx "a.rs") [] true) (Some (mkFn (tx "f") [] (mkSpan (mkLC 1 1) (mkLC 1 1))))
            (mkSpan (mkLC 1 1) (mkLC 1 1)) [97; NL; 98]%N FnValue).
  eexists. split; [reflexivity|]. vm_compute. intuition discriminate.
Qed.
Print Assumptions C20_newline_refuted.

(** C16: logs and diffs are all different files. *)
Theorem C16_files_distinct : forall ss,
  NoDup (map log_path (start_names [] ss) ++ map diff_path (start_names [] ss)).
Proof.
  intros ss. destruct (c16_paths ss) as [H1 H2]. revert H1 H2.
  generalize (map diff_path (start_names [] ss)) (in_map_iff diff_path (start_names [] ss)). intros ds Hds.
  assert (Hd : forall x, In x (map log_path (start_names [] ss)) -> ~ In x ds).
  { intros x Hx Hx'. apply in_map_iff in Hx. destruct Hx as (a & <- & _). apply Hds in Hx'.
    destruct Hx' as (b & E & _). discriminate. }
  revert Hd. generalize (map log_path (start_names [] ss)). induction l as [|x l IH]; intros Hd H1 H2; [exact H2|].
  inversion H1; subst. cbn [app]. constructor.
  - rewrite in_app_iff. intros [H|H]; [contradiction|]. apply (Hd x); [left; reflexivity|exact H].
  - apply IH; try assumption. intros y Hy. apply Hd. right. exact Hy.
Qed.
Print Assumptions C16_files_distinct.

(** C17: a new mutants.out holds the lock, two empty directories and four empty lists,
    and nothing else. *)
Theorem C17_fresh : forall lk,
  dget (fresh_dir lk) (tx "lock.json") = Some (NFile lk)
  /\ (forall k, In k [tx "log"; tx "diff"] -> dget (fresh_dir lk) k = Some (NDir []))
  /\ (forall k, In k [tx "missed.txt"; tx "caught.txt"; tx "timeout.txt"; tx "unviable.txt"] ->
        dget (fresh_dir lk) k = Some (NFile []))
  /\ (forall k, dget (fresh_dir lk) k <> None ->
        In k [tx "lock.json"; tx "log"; tx "diff"; tx "missed.txt"; tx "caught.txt"; tx "timeout.txt"; tx "unviable.txt"]).
Proof.
  intros lk. split; [reflexivity|]. split; [|split].
  - intros k [<-|[<-|[]]]; reflexivity.
  - intros k [<-|[<-|[<-|[<-|[]]]]]; reflexivity.
  - intros k. unfold fresh_dir. cbn [dget].
    repeat match goal with |- context[text_eqb k ?x] =>
      let E := fresh "E" in destruct (text_eqb k x) eqn:E; [apply text_eqb_eq in E; subst k; intros _; simpl; tauto|] end.
    intros H0. contradiction.
Qed.
Print Assumptions C17_fresh.

(** C17: when a run cannot start, nothing is lost: at most the lock text in mutants.out
    differs. *)
Theorem C17_error_keeps : forall lk es es', output_new lk (Some es) = NewErr es' ->
  (forall k, k <> OUTDIR -> dget es' k = dget es k)
  /\ (dget es' OUTDIR = dget es OUTDIR
      \/ exists o o', dget es OUTDIR = Some (NDir o) /\ dget es' OUTDIR = Some (NDir o') /\ same_but_lock o o').
Proof.
  intros lk es es' H. unfold output_new in H.
  destruct (dget es OUTDIR) as [[c|o]|] eqn:Eo; [| |discriminate].
  { injection H as <-. auto. }
  destruct (write_lock lk o) as [o'|] eqn:Ew; [|injection H as <-; auto].
  destruct (dget es ROTATED) as [[c|o2]|]; try discriminate. injection H as <-. split.
  - intros k Hk. apply dget_dset_other. congruence.
  - right. exists o, o'. split; [exact eq_refl|]. split; [apply dget_dset_same|].
    unfold write_lock in Ew. intros k Hk.
    destruct (dget o LOCK_JSON) as [[|]|]; try discriminate; injection Ew as <-; symmetry; apply dget_dset_other; (unfold LOCK_JSON in *; congruence).
Qed.
Print Assumptions C17_error_keeps.

Example C17_case_error : exists es',
  output_new (tx "L") (Some [(OUTDIR, NDir [(CAUGHT_TXT, NFile (tx "a"))]); (ROTATED, NFile (tx "keep"))]) = NewErr es'
  /\ dget es' ROTATED = Some (NFile (tx "keep")).
Proof. eexists. split; vm_compute; reflexivity. Qed.
