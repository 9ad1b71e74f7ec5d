(** C64: the counts shown while the tree is searched and copied. *)
From Coq Require Import String List NArith ZArith Bool Arith Lia.
Import ListNotations.
From Verif Require Import Text SpanM PathM PackageM MutantM GlobM OptionsM PrettyM FnValueM VisitM VisitS VisitP WalkM WalkS WalkP WalkT CopyM CopyT
  PrintM ProgressM ProgressS ProgressP.
Open Scope list_scope.

(** C64: whatever was shown before, and however the search ends, updating the display never panics; after any of its
    calls the two numbers shown are the sums of what has been reported, and the display is gone only after the last
    call. *)
Theorem C64_shown : forall read is_file parse re_match tree opts errs skip_calls fuel ps a b before,
  walk_calls read is_file parse re_match tree opts errs skip_calls fuel ps = WStarts :: a ++ b ->
  (walk_updates (WStarts :: a) before = Some None /\ b = [])
  \/ walk_updates (WStarts :: a) before = Some (Some (mkWM (files_told a) (mutants_told a))).
Proof. exact shown_always. Qed.
Print Assumptions C64_shown.

(** C64: when the search succeeds, the last numbers shown are those of all files that belong to the packages and of all
    the mutants in them that pass the name filters; those of the result are what the globs then leave of them. *)
Theorem C64_total : forall read is_file parse re_match tree opts errs skip_calls fuel ps visited ms files,
  walk_tree read is_file parse re_match tree opts errs skip_calls fuel ps = WOk visited ms files ->
  exists cs loaded all, walk_calls read is_file parse re_match tree opts errs skip_calls fuel ps = WStarts :: cs ++ [WFinishes]
    /\ (forall before, walk_updates (WStarts :: cs) before = Some (Some (mkWM (length loaded) (length all))))
    /\ (forall before, walk_updates (WStarts :: cs ++ [WFinishes]) before = Some None)
    /\ (forall f, In f loaded <-> belongs read is_file parse tree skip_calls ps f)
    /\ (forall m, In m all <-> passes read is_file parse re_match tree opts errs skip_calls ps m)
    /\ files = filter (fun f => allows_source_file_path opts (sf_path f)) loaded
    /\ ms = filter (fun m => allows_source_file_path opts (sf_path (mu_file m))) all.
Proof.
  intros read is_file parse re_match tree opts errs skip_calls fuel ps visited ms files H.
  destruct (tree_told _ _ _ _ _ _ _ _ _ _ _ _ _ H) as (cs & lo & al & E & C & F & M & A & B & P & Q).
  assert (U : forall before, walk_updates (WStarts :: cs) before = Some (Some (mkWM (length lo) (length al)))).
  { intro d. cbn [walk_updates walk_update]. rewrite updates_count by exact C. cbn. rewrite F, M. reflexivity. }
  exists cs, lo, al. split; [unfold walk_calls; rewrite E; reflexivity|]. split; [exact U|]. split.
  - intro d. change (WStarts :: cs ++ [WFinishes]) with ((WStarts :: cs) ++ [WFinishes]). rewrite updates_app, U. reflexivity.
  - repeat split; auto; try (apply P); apply Q.
Qed.
Print Assumptions C64_total.

(** C64: so the numbers shown last are those of the result exactly when the globs leave out no file (no mutant) that
    was counted. *)
Theorem C64_exact : forall read is_file parse re_match tree opts errs skip_calls fuel ps visited ms files,
  walk_tree read is_file parse re_match tree opts errs skip_calls fuel ps = WOk visited ms files ->
  exists cs m, walk_calls read is_file parse re_match tree opts errs skip_calls fuel ps = WStarts :: cs ++ [WFinishes]
    /\ walk_updates (WStarts :: cs) None = Some (Some m)
    /\ length files <= wm_files m /\ length ms <= wm_mutants m
    /\ (wm_files m = length files
        <-> forall f, belongs read is_file parse tree skip_calls ps f -> allows_source_file_path opts (sf_path f) = true)
    /\ (wm_mutants m = length ms
        <-> forall x, passes read is_file parse re_match tree opts errs skip_calls ps x
                 -> allows_source_file_path opts (sf_path (mu_file x)) = true).
Proof.
  intros read is_file parse re_match tree opts errs skip_calls fuel ps visited ms files H.
  destruct (C64_total _ _ _ _ _ _ _ _ _ _ _ _ _ H) as (cs & lo & al & E & U & _ & P & Q & -> & ->).
  exists cs, (mkWM (length lo) (length al)). split; [exact E|]. split; [apply U|]. cbn [wm_files wm_mutants].
  split; [apply filter_le|]. split; [apply filter_le|]. split.
  - split.
    + intros L f B. symmetry in L. rewrite filter_length_iff in L. apply L, P, B.
    + intros B. symmetry. apply filter_length_iff. intros f I. apply B, P, I.
  - split.
    + intros L f B. symmetry in L. rewrite filter_length_iff in L. apply (L f), Q, B.
    + intros B. symmetry. apply filter_length_iff. intros f I. apply B, Q, I.
Qed.
Print Assumptions C64_exact.

(** C64: with a file excluded, "mutants found" counts mutants that are not in the result. *)
Theorem C64_excluded_refuted : exists read is_file parse re_match tree opts fuel ps visited ms files cs m,
  walk_tree read is_file parse re_match tree opts [] [] fuel ps = WOk visited ms files
  /\ walk_calls read is_file parse re_match tree opts [] [] fuel ps = WStarts :: cs ++ [WFinishes]
  /\ walk_updates (WStarts :: cs) None = Some (Some m) /\ wm_mutants m = 6 /\ length ms = 4 /\ wm_files m = 4 /\ length files = 3.
Proof.
  destruct (ex_opts [tx "src/a.rs"]) as [o|] eqn:O; [|vm_compute in O; discriminate].
  pose (ps := [mkPackage (tx "p") (tx "1.0.0") (tx "/t") [tx "src/lib.rs"]]).
  destruct (walk_tree ex_read ex_is ex_code (fun _ _ => true) (tx "/t") o [] [] 20 ps) as [v ms fs| | |] eqn:W.
  2,3,4: vm_compute in O; injection O as <-; vm_compute in W; discriminate.
  exists ex_read, ex_is, ex_code, (fun _ _ => true), (tx "/t"), o, 20, ps, v, ms, fs,
    [WFiles 1; WMutants 0; WFiles 1; WMutants 2; WFiles 1; WMutants 2; WFiles 1; WMutants 2], (mkWM 4 6). split; [exact W|].
  vm_compute in O. injection O as <-. split; [vm_compute; reflexivity|]. vm_compute in W. injection W as <- <- <-.
  repeat split.
Qed.
Print Assumptions C64_excluded_refuted.

(** C64: the line drawn. *)
Theorem C64_line : forall m, walk_render m =
  match wm_files m with
  | 0 => tx "Scanning tree metadata..."
  | S _ => tx "Finding mutation opportunities: " ++ show_nat (wm_files m) ++ tx " files done, " ++ show_nat (wm_mutants m) ++ tx " mutants found"
  end ++ [NL].
Proof. intros [[|n] k]; [reflexivity|]. unfold walk_render. cbn [wm_files wm_mutants Nat.eqb]. rewrite <- !app_assoc. reflexivity. Qed.
Print Assumptions C64_line.

(** C64: while a tree is copied, the bytes shown are the running sums of the sizes of the files in the order of the walk:
    of a first part of them, and of all of them if the copy succeeds. *)
Theorem C64_copied : forall utf8 readable total dest walk, exists k,
  copy_totals utf8 readable total dest walk = firstn k (sums total (file_sizes walk))
  /\ (copy_all utf8 readable dest walk <> None -> k = length (file_sizes walk)).
Proof. intros. apply totals_prefix. Qed.
Print Assumptions C64_copied.

(** C64: so the last number shown is the number of bytes copied. *)
Theorem C64_copied_all : forall utf8 readable dest walk,
  copy_all utf8 readable dest walk <> None -> file_sizes walk <> [] ->
  last (copy_totals utf8 readable 0 dest walk) 0%N = fold_right N.add 0%N (file_sizes walk).
Proof.
  intros utf8 readable dest walk H N0. destruct (totals_prefix utf8 readable walk 0 dest) as (k & E & F). rewrite E, (F H).
  rewrite <- (sums_length (file_sizes walk) 0), firstn_all. rewrite sums_last by exact N0. lia.
Qed.
Print Assumptions C64_copied_all.

(** C64: the number that is shown is that of whole millions of bytes. *)
Theorem C64_mb : forall bytes, exists k, format_mb bytes = show_N k ++ tx " MB"
  /\ (k * 1000000 <= bytes)%N /\ (bytes < (k + 1) * 1000000)%N.
Proof.
  intro bytes. exists (bytes / 1000000)%N. split; [reflexivity|].
  rewrite (N.mul_comm _ 1000000), (N.mul_comm _ 1000000), N.add_1_r. split.
  - apply N.mul_div_le. discriminate.
  - apply N.mul_succ_div_gt. discriminate.
Qed.
Print Assumptions C64_mb.

(** C64: and these are the texts that are drawn. *)
Theorem C64_drawn : (forall m, walk_text (wm_files m) (wm_mutants m) = walk_render m)
  /\ (forall secs bytes elapsed, exists a b, copy_text secs false bytes elapsed = a ++ format_mb bytes ++ b).
Proof.
  split; [reflexivity|]. intros secs bytes elapsed. exists (paint false 8 (fg Cyan) (tx "copy") ++ [SP]). eexists.
  unfold copy_text. rewrite <- app_assoc. do 2 f_equal.
  assert (E : paint false 0 (fg Cyan) (show_N (bytes / 1000000) ++ tx " MB") = format_mb bytes) by (unfold paint; cbn [andb]; apply app_nil_r).
  rewrite E. reflexivity.
Qed.
Print Assumptions C64_drawn.

(** ** Examples *)
Example C64_case : walk_render (mkWM 4 6) = tx "Finding mutation opportunities: 4 files done, 6 mutants found" ++ [NL]
  /\ walk_updates [WStarts; WFiles 1; WMutants 2; WFiles 1] None = Some (Some (mkWM 2 2))
  /\ walk_updates [WFiles 1] None = None.
Proof. vm_compute. repeat split. Qed.

Example C64_case_copy :
  copy_totals (fun _ => true) (fun _ => true) 0 empty_dir (walk false true CopyT.ex_ignored (fun _ => true) [] CopyT.ex_tree) = [2; 3; 4]%N
  /\ copy_totals (fun _ => true) (fun p => negb (path_eqb p [tx ".hidden"])) 0 empty_dir
       (walk false true CopyT.ex_ignored (fun _ => true) [] CopyT.ex_tree) = [2; 3]%N
  /\ format_mb 2999999 = tx "2 MB".
Proof. vm_compute. repeat split. Qed.
