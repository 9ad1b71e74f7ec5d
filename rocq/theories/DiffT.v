(** Property theorems: C70. *)
From Coq Require Import String List NArith ZArith Bool Arith Permutation Lia.
From Verif Require Import Text SpanM PathM PathS MutantM ProcessM OutcomeM OutcomeS OutputM InDiffM InDiffS PackageM PackageS OptionsM PrettyM FnValueM
  VisitM VisitS CargoM LabM LabS LabP LabT MainM MainS MainP WalkM WalkS WholeM WholeS WholeP WholeT LaunchM LaunchS LaunchP LaunchT EndM EndS EndP EndT
  DiffS DiffP DiffRunP.
Import ListNotations.
Open Scope list_scope. Open Scope nat_scope.

(** C70: a diff of the tree with an older one, with at least one line of context, is accepted, and the mutants that it
    selects are those with a changed line. *)
Theorem C70_selects_edited : forall parse ms d chs ps,
  (exists c, In c (fixed_diff d) /\ is_whitespace c = false) ->
  parse (fixed_diff d) = Some ps -> Forall2 written chs ps -> different_files chs ->
  of_new_tree chs ms -> same_code ms -> (forall m, In m ms -> relative (sf_path (mu_file m))) ->
  exists sel, diff_filter parse ms d = DiffOk sel /\ selects (edited chs) ms sel.
Proof. exact c70_selects. Qed.
Print Assumptions C70_selects_edited.

(** C70: so it does not matter how much context there is, nor how the lines are put into hunks. *)
Theorem C70_any_context : forall parse parse' ms d d' chs ps ps',
  (exists c, In c (fixed_diff d) /\ is_whitespace c = false) -> parse (fixed_diff d) = Some ps -> Forall2 written chs ps ->
  (exists c, In c (fixed_diff d') /\ is_whitespace c = false) -> parse' (fixed_diff d') = Some ps' -> Forall2 written chs ps' ->
  different_files chs -> of_new_tree chs ms -> same_code ms -> (forall m, In m ms -> relative (sf_path (mu_file m))) ->
  diff_filter parse ms d = diff_filter parse' ms d'.
Proof.
  intros parse parse' ms d d' chs ps ps' V P W V' P' W' D T S R.
  destruct (c70_selects parse ms d chs ps V P W D T S R) as (sel & E & H).
  destruct (c70_selects parse' ms d' chs ps' V' P' W' D T S R) as (sel' & E' & H').
  rewrite E, E'. f_equal. eapply selects_fun; eassumption.
Qed.
Print Assumptions C70_any_context.

(** C70: the hunks that programs write for any width of context but 0 are such hunks. *)
Theorem C70_widths : forall c s, 1 <= c -> hunks_of 0 s (unified c s).
Proof. exact unified_hunks. Qed.
Print Assumptions C70_widths.

(** C70: for one file: the lines taken as changed are the changed ones, whatever the width. *)
Theorem C70_changed_lines : forall c s path n, 1 <= c -> (In n (affected_lines (mkPatch path (unified c s))) <-> changed_in s n).
Proof. intros c s path n H. apply hunks_affected. apply unified_hunks. exact H. Qed.
Print Assumptions C70_changed_lines.

(** Finding: not so with width 0: where a line is removed other lines are taken as changed than with width 1. *)
Theorem C70_no_context_refuted : exists s path n, In n (affected_lines (mkPatch path (unified 0 s))) /\ ~ changed_in s n.
Proof.
  exists [Ctx (tx "a"); Ctx (tx "b"); Rem (tx "c"); Ctx (tx "d")], (tx "b/x"), 1. split; [left; reflexivity|].
  intros F. apply changed_mk in F. simpl in F. lia.
Qed.
Print Assumptions C70_no_context_refuted.

(** A file of 8 lines: one replaced, two removed, one added at the end. *)
Definition ex_script : script :=
  [Ctx (tx "a"); Rem (tx "b"); Add (tx "B"); Ctx (tx "c"); Ctx (tx "d"); Ctx (tx "e"); Rem (tx "f"); Rem (tx "g"); Ctx (tx "h"); Ctx (tx "i"); Add (tx "j")].

Example C70_case_hunks :
  unified 1 ex_script =
    [mkHunk 1 3 [Ctx (tx "a"); Rem (tx "b"); Add (tx "B"); Ctx (tx "c")];
     mkHunk 5 4 [Ctx (tx "e"); Rem (tx "f"); Rem (tx "g"); Ctx (tx "h"); Ctx (tx "i"); Add (tx "j")]]
  /\ unified 3 ex_script = [mkHunk 1 8 ex_script]
  /\ affected_lines (mkPatch (tx "b/src/lib.rs") (unified 1 ex_script)) = [1; 2; 5; 6; 8]
  /\ affected_lines (mkPatch (tx "b/src/lib.rs") (unified 3 ex_script)) = [1; 2; 5; 6; 8].
Proof. repeat split; vm_compute; reflexivity. Qed.

Definition ex_lib := mkSF (tx "p") (tx "src/lib.rs") (tx "a
B
c
d
e
h
i
j
") true.
Definition ex_at a b := mkMutant ex_lib None (mkSpan (mkLC a 1) (mkLC b 2)) (tx "x") FnValue.
Definition ex_four := [ex_at 3 4; ex_at 2 2; ex_at 3 5; ex_at 7 7].
Definition ex_chs := [mkChange (tx "src/lib.rs") ex_script; mkChange (tx "src/old.rs") [Rem (tx "fn f() {}")]].
Definition ex_patches c := [mkPatch (tx "b/src/lib.rs") (unified c ex_script); mkPatch (tx "/dev/null") (unified c [Rem (tx "fn f() {}")])].

Example C70_case :
  Forall2 written ex_chs (ex_patches 1) /\ Forall2 written ex_chs (ex_patches 3) /\ different_files ex_chs /\ of_new_tree ex_chs ex_four
  /\ same_code ex_four /\ (forall m, In m ex_four -> relative (sf_path (mu_file m)))
  /\ diff_filter (fun _ => Some (ex_patches 1)) ex_four (tx "d") = DiffOk [ex_at 2 2; ex_at 3 5]
  /\ diff_filter (fun _ => Some (ex_patches 3)) ex_four (tx "d") = DiffOk [ex_at 2 2; ex_at 3 5].
Proof.
  assert (W : forall c, 1 <= c -> Forall2 written ex_chs (ex_patches c)).
  { intros c Hc. constructor; [split; [apply unified_hunks; exact Hc|left; left; reflexivity]|].
    constructor; [split; [apply unified_hunks; exact Hc|right; split; reflexivity]|constructor]. }
  assert (F : forall m, In m ex_four -> mu_file m = ex_lib).
  { intros m [<-|[<-|[<-|[<-|[]]]]]; reflexivity. }
  split; [apply W; lia|]. split; [apply W; lia|]. split; [|split; [|split; [|split; [|split]]]].
  - split.
    + vm_compute. constructor; [intros [E|[]]; discriminate|]. constructor; [intros []|constructor].
    + repeat constructor; vm_compute; reflexivity.
  - intros c m Hc Hm Ec. rewrite (F m Hm) in *. destruct Hc as [<-|[<-|[]]]; [reflexivity|]. vm_compute in Ec. discriminate.
  - intros m m' Hm Hm' _. rewrite (F m Hm), (F m' Hm'). reflexivity.
  - intros m Hm. rewrite (F m Hm). vm_compute. reflexivity.
  - vm_compute. reflexivity.
  - vm_compute. reflexivity.
Qed.

(** C70: a run of the program with such a diff is about the mutants of the selected packages with a changed line. *)
Theorem C70_scope : forall w a ms l chs,
  (forall p md, wo_metadata w p = Some md -> is_absolute (md_root md) = true) ->
  (forall t root sc chain m, wo_syn w t = Some root -> declared sc root chain -> In m chain -> named m) ->
  one_file w -> different_files chs -> (forall s, settle w a = Done s -> after_changes w (md_root (se_meta s)) chs) ->
  diff_given w a chs -> ag_iterate a = false -> ag_shard a = None -> ends w (CmdRun a) (ETested ms l) ->
  exists s ps errs, settle w a = Done s
    /\ mutated_packages (fun d => locate_project w d false) (se_meta s) (se_filter s) = Some ps
    /\ Forall2 (fun x t => wo_expr w x = Some t) (op_error_values (se_options s)) errs
    /\ forall m, In m ms <-> of_packages w (md_root (se_meta s)) (se_options s) errs ps m /\ edited chs m.
Proof.
  intros w a ms l chs Abs Nm One D T G It Sh E.
  assert (X : exists s lk fuel es, settle w a = Done s /\ after w lk fuel a s = Done (Tests ms es)).
  { inversion E; subst; eauto 10. destruct r; try discriminate. match goal with H : ETested _ _ = ETested _ _ |- _ => injection H as <- <- end. eauto 10. }
  clear E. destruct X as (s & lk & fuel & es & S & A). exists s. unfold after in A.
  destruct (discover w fuel s) as [v found fs| | |] eqn:Ds; try discriminate.
  destruct (discover_inv _ _ _ _ _ _ Ds) as (ps & errs & M & F & Iff). exists ps, errs.
  destruct (run_tests _ _ _ _ _ _ _ _ _ _ _ _ A) as (_ & _ & Sel).
  split; [exact S|]. split; [exact M|]. split; [exact F|].
  exact (diff_scope w a s ps errs chs Abs Nm One S M D (T s S) found ms Iff G It Sh Sel).
Qed.
Print Assumptions C70_scope.

(** C70: so if that run ends with status 0 then for every mutant with a changed line cargo was run on the source with the
    mutation, and did not build it or ran the tests and they failed; and cargo was run for no other mutant. *)
Theorem C70_zero : forall w e js a s ms P r l chs, program_runs w e js a s ms P r -> tree_as_read w s P ms -> names_unique (se_meta s) ->
  (op_in_place (se_options s) = true -> op_jobs (se_options s) = None) -> ls_main (rs_lab r) = MEnd (ROk l) ->
  status (ETested ms l) = 0%Z -> op_check_only (se_options s) = false ->
  (forall p md, wo_metadata w p = Some md -> is_absolute (md_root md) = true) ->
  (forall t root sc chain m, wo_syn w t = Some root -> declared sc root chain -> In m chain -> named m) ->
  one_file w -> different_files chs -> after_changes w (md_root (se_meta s)) chs -> diff_given w a chs ->
  ag_iterate a = false -> ag_shard a = None ->
  exists ps errs, mutated_packages (fun d => locate_project w d false) (se_meta s) (se_filter s) = Some ps
    /\ Forall2 (fun x t => wo_expr w x = Some t) (op_error_values (se_options s)) errs
    /\ exists bl rest bs, rs_log r = bl ++ rest /\ one_job Baseline bl /\ woven bs rest
    /\ Forall (right_command P (context_for e js s) ms) (rs_log r) /\ Forall (right_files P) (rs_log r)
    /\ (forall m, of_packages w (md_root (se_meta s)) (se_options s) errs ps m -> edited chs m ->
       exists pre b st, In (pre ++ [b]) bs /\ one_job (Mutant m) (pre ++ [b]) /\ st <> WExited 0 /\ ended b st /\ Forall (fun x => ended x (WExited 0)) pre)
    /\ forall x m, In x (rs_log r) -> la_scenario x = Mutant m -> edited chs m.
Proof.
  intros w e js a s ms P r l chs H T U OK E St Ck Abs Nm One D Af G It Sh.
  pose proof (C67_status _ _ _ _ _ _ _ _ _ H T U OK E) as Ev. rewrite St in Ev.
  destruct H as [lk fuel es q o0 t0 r S A NE Q LF FT R]. unfold after in A.
  destruct (discover w fuel s) as [v found fs| | |] eqn:Ds; try discriminate.
  destruct (discover_inv _ _ _ _ _ _ Ds) as (ps & errs & M & F & Iff). exists ps, errs.
  destruct (run_tests _ _ _ _ _ _ _ _ _ _ _ _ A) as (_ & _ & Sel).
  pose proof (diff_scope w a s ps errs chs Abs Nm One S M D Af found ms Iff G It Sh Sel) as I.
  split; [exact M|]. split; [exact F|]. inversion Ev as [bl rest ts n El RC RF Bf PM Ts W So|]; subst.
  exists bl, rest, (map snd ts). split; [exact El|]. split; [destruct (op_baseline (se_options s)); [apply Bf|rewrite Bf; exists 0; constructor]|].
  split; [exact W|]. split; [exact RC|]. split; [exact RF|]. split.
  - intros m Hm He. assert (Im : In m ms) by (apply I; auto).
    apply (Permutation_in _ (Permutation_sym PM)) in Im. apply in_map_iff in Im as ([[m' v'] b] & Em & Im). cbn in Em. subst m'.
    rewrite Forall_forall in Ts. destruct (Ts _ Im) as [J Ex]. cbn in J, Ex.
    destruct So as [[Y _]|[[Y _]|(_ & N1 & N2)]]; try discriminate Y.
    assert (Iv : In v' (map (fun x => snd (fst x)) ts)) by (apply in_map_iff; exists (m, v', b); auto).
    assert (Ib : In b (map snd ts)) by (apply in_map_iff; exists (m, v', b); auto).
    destruct LF as (CO & _). rewrite CO, Ck in Ex. inversion Ex as [b0 t|b0 t c|b0 c|pre b0|b0|pre b0 w0]; subst; try congruence; try contradiction.
    + exists [b0], t, (WExited c). split; [exact Ib|]. split; [exact J|]. split; [congruence|]. auto.
    + exists [], b0, (WExited c). split; [exact Ib|]. split; [exact J|]. split; [congruence|]. auto.
    + exists pre, b0, w0. split; [exact Ib|]. split; [exact J|]. split; [intros ->; assumption|]. auto.
  - intros x m Hx Em. rewrite Forall_forall in RC. specialize (RC x Hx). apply (I m).
    destruct RC as (_ & ws & args & _ & _ & RP & _). rewrite Em in RP. apply RP.
Qed.
Print Assumptions C70_zero.

(** The world of WholeT and the run of EndT in which both mutants are caught, with a diff in the file d that replaces the
    only line of the source. *)
Definition ex_line : script := [Rem (tx "a - b - c"); Add (tx "a + b - c")].
Definition ex_changes := [mkChange (tx "src/a.rs") ex_line].
Definition ex_read (p : text) : option text :=
  option_map snd (find (fun f => comps_eqb (components (fst f)) (components p)) ((tx "d", tx "diff") :: ex_disk)).
Definition ex_world_d : world := mkWorld (wo_is_file ex_world) (wo_is_dir ex_world) (wo_exists ex_world) ex_read (wo_dir ex_world)
  (wo_locate ex_world) (wo_metadata ex_world) (wo_toml ex_world) (wo_re_ok ex_world) (wo_re_match ex_world) (wo_expr ex_world)
  (wo_syn ex_world) (fun _ => Some [mkPatch (tx "b/src/a.rs") (unified 3 ex_line)]) (wo_diff ex_world) (wo_json_mutants ex_world) (wo_json_files ex_world).
Definition ex_args_d : arguments := mkArguments None None false [] false false false false (Some (tx "d")) None ex_args.

Lemma ex_settle_d : settle ex_world_d ex_args_d = Done ex_setting.
Proof. vm_compute. reflexivity. Qed.
Lemma ex_after_d : exists es, after ex_world_d (tx "L") 10 ex_args_d ex_setting = Done (Tests LabT.ex_ms es).
Proof. vm_compute. eexists. reflexivity. Qed.

Lemma ex_runs_d : forall xs r, ex_erun xs = Some r -> program_runs ex_world_d ex_env [] ex_args_d ex_setting LabT.ex_ms ex_P2 r.
Proof.
  intros xs r H. destruct ex_after_d as [es A].
  apply (pr_runs ex_world_d ex_env [] ex_args_d ex_setting LabT.ex_ms ex_P2 (tx "L") 10 es LabT.ex_ms ex_out (pa_root ex_P2));
    [apply ex_settle_d|exact A|discriminate|reflexivity|repeat split; reflexivity|apply LabT.C13_case|].
  eapply rexec_sound. exact H.
Qed.
Lemma ex_source_d : wo_read ex_world_d (path_join (md_root (se_meta ex_setting)) (tx "src/a.rs")) = Some LabT.ex_code.
Proof. vm_compute. reflexivity. Qed.

Example C70_case_run : exists r l, program_runs ex_world_d ex_env [] ex_args_d ex_setting LabT.ex_ms ex_P2 r
  /\ tree_as_read ex_world_d ex_setting ex_P2 LabT.ex_ms /\ ls_main (rs_lab r) = MEnd (ROk l) /\ status (ETested LabT.ex_ms l) = 0%Z
  /\ (forall p md, wo_metadata ex_world_d p = Some md -> is_absolute (md_root md) = true)
  /\ (forall t root sc chain m, wo_syn ex_world_d t = Some root -> declared sc root chain -> In m chain -> named m)
  /\ one_file ex_world_d /\ different_files ex_changes /\ after_changes ex_world_d (md_root (se_meta ex_setting)) ex_changes
  /\ diff_given ex_world_d ex_args_d ex_changes.
Proof.
  pose proof ex_zero as Z. destruct (ex_erun ex_caught) as [r|] eqn:E; [|destruct Z].
  destruct (ls_main (rs_lab r)) as [| |[l| |]] eqn:M; try contradiction. exists r, l.
  split; [exact (ex_runs_d _ _ E)|].
  split; [intros m [<-|[<-|[]]]; vm_compute; split; reflexivity|]. split; [exact M|]. split; [exact Z|]. split; [|split; [|split; [|split; [|split]]]].
  - intros p md. unfold ex_world_d, ex_world. cbn [wo_metadata]. destruct (text_eqb p _); [|discriminate]. intros H; injection H as <-. reflexivity.
  - exact (proj1 (proj2 C63_case_world)).
  - intros p q Ep. cbn [ex_world_d wo_read]. unfold ex_read. rewrite Ep. reflexivity.
  - split; [constructor; [intros []|constructor]|]. constructor; [reflexivity|constructor].
  - intros c t [<-|[]] H. cbn [ch_path] in H. rewrite ex_source_d in H. injection H as <-. vm_compute. reflexivity.
  - exists (tx "d"), (tx "diff"), [mkPatch (tx "b/src/a.rs") (unified 3 ex_line)]. split; [reflexivity|]. split; [reflexivity|].
    split; [exists 100%N; split; [left; reflexivity|reflexivity]|]. split; [reflexivity|]. constructor; [|constructor].
    split; [apply unified_hunks; lia|left; left; reflexivity].
Qed.
