(** Theorems: the exit status, and what a run is about (C63). *)
From Coq Require Import String List NArith ZArith Bool Permutation.
From Verif Require Import Text SpanM PathM PathS ProcessM MutantM OutcomeM OutcomeS OutputM IterateM InDiffM InDiffS ShardM F64M TimeoutM PackageM
  OptionsM PrettyM FnValueM VisitM VisitS WalkM WalkS LabM LabS LabP LabT MainM MainS WholeM WholeS WholeP.
Import ListNotations.
Open Scope list_scope.

(** However the program ends, its exit status says how. *)
Theorem C63_status : forall w c e n, ends w c e -> (status e = n <-> meaning e n).
Proof.
  intros w c e n H. pose proof (status_meaning w c e H) as M. split; [intros <-; exact M|].
  intro M'. exact (meaning_fun e _ _ M M').
Qed.
Print Assumptions C63_status.

(** A run that tests mutants is about these: the workspace around the start directory, with the configuration at its
    root, the mutants of the selected packages that the filters allow, without those caught before, in the diff, in the
    shard. *)
Theorem C63_scope : forall w a ms l ops,
  (forall s, ag_shard a = Some s -> (sh_k s < sh_n s)%N) ->
  (forall p md, wo_metadata w p = Some md -> is_absolute (md_root md) = true) ->
  (forall t root sc chain m, wo_syn w t = Some root -> declared sc root chain -> In m chain -> named m) ->
  patches_of w a ops -> ends w (CmdRun a) (ETested ms l) ->
  exists s ps errs cf found dir,
    start_dir (wo_is_file w) (ag_manifest a) (ag_dir a) = Some (se_start s)
    /\ workspace_of w (se_start s) (se_meta s)
    /\ config_used w a (md_root (se_meta s)) cf /\ options_new (wo_re_ok w) (ag_options a) cf = OptionsM.NewOk (se_options s)
    /\ mutated_packages (fun d => locate_project w d false) (se_meta s) (package_filter_of (ag_packages a) (ag_workspace a) (se_start s)) = Some ps
    /\ Forall2 (fun e t => wo_expr w e = Some t) (op_error_values (se_options s)) errs
    /\ (forall m, In m found <-> of_packages w (md_root (se_meta s)) (se_options s) errs ps m)
    /\ (op_output_in_dir (se_options s) = Some dir \/ op_output_in_dir (se_options s) = None /\ dir = md_root (se_meta s))
    /\ chosen (if ag_iterate a then Some (load_previously_caught (wo_dir w dir)) else None) ops (shard_of a) found ms.
Proof.
  intros w a ms l ops Sh Abs Nm Pt E. destruct (tested_scope w a ms l ops Sh Abs Nm Pt E) as (s & ps & errs & found & S & M & F & Iff & C & _).
  destruct (settle_inv _ _ _ S) as (St & O & (cf & Cu & On) & Fi). exists s, ps, errs, cf, found, (output_parent s). rewrite Fi in M.
  repeat (split; [first [exact St | exact (open_inv _ _ _ O) | exact Cu | exact On | exact M | exact F | exact Iff]|]). split; [|exact C].
  unfold output_parent. destruct (op_output_in_dir _); auto.
Qed.
Print Assumptions C63_scope.

(** A listing is printed only if --list or --list-files is given; it shows the mutants that the same arguments would
    test, or the files they may come from. *)
Theorem C63_listed : forall w a out ops,
  (forall s, ag_shard a = Some s -> (sh_k s < sh_n s)%N) ->
  (forall p md, wo_metadata w p = Some md -> is_absolute (md_root md) = true) ->
  (forall t root sc chain m, wo_syn w t = Some root -> declared sc root chain -> In m chain -> named m) ->
  patches_of w a ops -> ends w (CmdRun a) (EListed out) ->
  exists s ps, settle w a = Done s
    /\ mutated_packages (fun d => locate_project w d false) (se_meta s) (se_filter s) = Some ps
    /\ (ag_list_files a = true /\ (exists fs, (forall f, In f fs <-> file_of_packages w (md_root (se_meta s)) (se_options s) ps f)
                                             /\ lists_files w (se_options s) fs out)
        \/ ag_list_files a = false /\ ag_list a = true
           /\ exists errs found ms dir,
             Forall2 (fun e t => wo_expr w e = Some t) (op_error_values (se_options s)) errs
             /\ (forall m, In m found <-> of_packages w (md_root (se_meta s)) (se_options s) errs ps m)
             /\ (op_output_in_dir (se_options s) = Some dir \/ op_output_in_dir (se_options s) = None /\ dir = md_root (se_meta s))
             /\ chosen (if ag_iterate a then Some (load_previously_caught (wo_dir w dir)) else None) ops (shard_of a) found ms
             /\ lists_mutants w (se_options s) ms out).
Proof.
  intros w a out ops Sh Abs Nm Pt E. destruct (listed_scope w a out ops Sh Abs Nm Pt E) as (s & ps & S & M & X).
  exists s, ps. split; [exact S|]. split; [exact M|]. destruct X as [X|(L1 & L2 & errs & found & ms & F & Iff & C & L)]; [left; exact X|].
  right. split; [exact L1|]. split; [exact L2|]. exists errs, found, ms, (output_parent s). split; [exact F|]. split; [exact Iff|].
  split; [|split; [exact C|exact L]]. unfold output_parent. destruct (op_output_in_dir _); auto.
Qed.
Print Assumptions C63_listed.

(** Asking for the version or for completions does only that. *)
Theorem C63_information : forall w c e, c = CmdVersion \/ c = CmdCompletions -> ends w c e -> e = EInfo /\ status e = 0%Z \/ e = EPanic.
Proof. intros w c e [-> | ->] H; inversion H; subst; auto. Qed.
Print Assumptions C63_information.

(** So if a run of the whole tree exits with status 0 and is not a listing, every mutant that the selected packages offer
    and the filters allow was tested or built, and none was missed or timed out. *)
Theorem C63_zero : forall w a e,
  (forall p md, wo_metadata w p = Some md -> is_absolute (md_root md) = true) ->
  (forall t root sc chain m, wo_syn w t = Some root -> declared sc root chain -> In m chain -> named m) ->
  ends w (CmdRun a) e -> status e = 0%Z ->
  ag_list a = false -> ag_list_files a = false -> ag_iterate a = false -> ag_in_diff a = None -> ag_shard a = None ->
  exists s ps errs l, settle w a = Done s
    /\ mutated_packages (fun d => locate_project w d false) (se_meta s) (se_filter s) = Some ps
    /\ Forall2 (fun e t => wo_expr w e = Some t) (op_error_values (se_options s)) errs
    /\ forall m, of_packages w (md_root (se_meta s)) (se_options s) errs ps m ->
         (exists v, verdict l m v) /\ (forall v, verdict l m v -> v <> SumMissed /\ v <> SumTimeout).
Proof. exact zero_whole. Qed.
Print Assumptions C63_zero.

(** If the workspace, the configuration or the options are at fault, nothing is listed or tested. *)
Theorem C63_unsettled : forall w a e, (forall s, settle w a <> Done s) -> ends w (CmdRun a) e -> status e = 1%Z \/ status e = 101%Z.
Proof.
  intros w a e N0 E. inversion E; subst; try (exfalso; eapply N0; eassumption); cbn [status]; auto.
Qed.
Print Assumptions C63_unsettled.

(** The lab is run as the options say: with --check each recorded step is a check, otherwise a build or a test; there is a
    result for the tree without mutations exactly unless it was to be skipped, in which case the status is never 4. *)
Theorem C63_options : forall w a ms l, ends w (CmdRun a) (ETested ms l) ->
  exists s, settle w a = Done s
    /\ (forall o r, In o (lo_outcomes l) -> In r (oc_results o) ->
          if op_check_only (se_options s) then pr_phase r = Check else pr_phase r = Build \/ pr_phase r = Test)
    /\ (ms <> [] -> (op_baseline (se_options s) = true <-> exists o, In o (lo_outcomes l) /\ oc_scenario o = Baseline))
    /\ (op_baseline (se_options s) = false -> status (ETested ms l) <> 4%Z).
Proof. exact as_options. Qed.
Print Assumptions C63_options.

(** The program panics before it looks for mutants exactly if cargo names a manifest whose path is not absolute, or the options
    are such that [Options::new] panics. *)
Theorem C63_early_panic : forall w a, settle w a = Panics <->
  exists start, start_dir (wo_is_file w) (ag_manifest a) (ag_dir a) = Some start
    /\ ((exists manifest root, wo_is_dir w start = true /\ wo_locate w true start = Some manifest /\ wo_is_file w manifest = true
           /\ path_parent manifest = Some root /\ wo_is_dir w root = true /\ is_absolute root = false)
        \/ exists md cf, open_workspace w start = Done md /\ config_used w a (md_root md) cf
             /\ options_new (wo_re_ok w) (ag_options a) cf = OptionsM.NewPanic).
Proof. exact settle_panics. Qed.
Print Assumptions C63_early_panic.

(** How the search for mutants ends: with those that the walk over the selected packages finds; with an error if the packages cannot be
    told, an error value is not an expression, or the walk has one; with a panic if the directory of the package is not absolute or
    the walk panics. *)
Theorem C63_discovery : forall w fuel s,
  (forall v ms fs, discover w fuel s = WOk v ms fs <-> ~ in_relative w s /\ walks_to w fuel s (WOk v ms fs))
  /\ (discover w fuel s = WErr <-> ~ in_relative w s /\
        (mutated_packages (fun d => locate_project w d false) (se_meta s) (se_filter s) = None
         \/ (exists e, In e (op_error_values (se_options s)) /\ wo_expr w e = None) \/ walks_to w fuel s WErr))
  /\ (discover w fuel s = WalkM.WPanic <-> in_relative w s \/ walks_to w fuel s WalkM.WPanic).
Proof.
  intros w fuel s. split; [intros v ms fs; apply discover_ok|]. split; [apply discover_err|apply discover_panic].
Qed.
Print Assumptions C63_discovery.

(** An error in the search is the program's: status 1; and a panic, 101. *)
Theorem C63_search_fails : forall w lk fuel a s, settle w a = Done s ->
  (discover w fuel s = WErr -> after w lk fuel a s = Fails /\ exists e, ends w (CmdRun a) e /\ status e = 1%Z)
  /\ (discover w fuel s = WalkM.WPanic -> after w lk fuel a s = Panics /\ exists e, ends w (CmdRun a) e /\ status e = 101%Z).
Proof.
  intros w lk fuel a s S. split; intro D.
  - assert (A : after w lk fuel a s = Fails) by (unfold after, main_run; rewrite D; reflexivity). split; [exact A|].
    exists EError. split; [|reflexivity]. eapply en_fails; [exact S|rewrite D; discriminate|exact A].
  - assert (A : after w lk fuel a s = Panics) by (unfold after, main_run; rewrite D; reflexivity). split; [exact A|].
    exists EPanic. split; [|reflexivity]. eapply en_panics; [exact S|rewrite D; discriminate|exact A].
Qed.
Print Assumptions C63_search_fails.

(** The exit status of the lab on its own, as in C09 and C43, is that of the program. *)
Theorem C63_lab_status : forall ms r, let e := match r with ROk l => ETested ms l | RErr => EError | RPanic => EPanic end in
  (forall c, process_exit r = Some c -> status e = c) /\ (process_exit r = None -> status e = 101%Z /\ exists l, r = ROk l /\ lab_exit_code l = None).
Proof.
  intros ms [l| |]; cbn [process_exit status]; split; intros; try congruence.
  - rewrite H. reflexivity.
  - rewrite H. eauto.
Qed.
Print Assumptions C63_lab_status.

(** ** Example *)
(** The tree of LabT: one package at /t with the source [a + b - c]; mutants whose names end in a star or a slash are
    asked for, with two jobs. *)
Definition ex_syn (t : text) : option node :=
  if text_eqb t LabT.ex_code
  then Some (Node (KFile []) [Node (KBinary [] OAdd (mkSpan (mkLC 1 3) (mkLC 1 4))) []; Node (KBinary [] OSub (mkSpan (mkLC 1 7) (mkLC 1 8))) []])
  else None.
Definition ex_disk : list (text * text) := [(tx "/t/Cargo.toml", tx "M"); (tx "/t/src/a.rs", LabT.ex_code); (tx "/t/.cargo/mutants.toml", tx "C")].
Definition ex_meta : metadata :=
  mkMetadata [mkMeta (tx "id") (tx "p") (tx "1.0.0") (tx "/t/Cargo.toml") [mkTarget [KLib] (tx "/t/src/a.rs")]] [tx "id"] None (tx "/t").
Definition ex_config : config := mkConfig false None [] [] [] [] [tx "names"] [] [] None None None [] None [] None None None None.
Definition ex_world : world := mkWorld
  (fun p => match find (fun f => text_eqb (fst f) p) ex_disk with Some _ => true | None => false end)
  (fun p => text_eqb p (tx ".") || text_eqb p (tx "/t"))
  (fun p => match find (fun f => text_eqb (fst f) p) ex_disk with Some _ => true | None => false end)
  (fun p => option_map snd (find (fun f => text_eqb (fst f) p) ex_disk))
  (fun p => Some [])
  (fun _ p => Some (tx "/t/Cargo.toml"))
  (fun p => if text_eqb p (tx "/t/Cargo.toml") then Some ex_meta else None)
  (fun t => Some ex_config)
  (fun _ => true) (fun _ n => ends_with (tx "*") n || ends_with (tx "/") n)
  (fun _ => None) ex_syn (fun _ => None) (fun _ => []) (fun _ => []) (fun _ => []).
Definition ex_args : OptionsM.args :=
  mkArgs false true (Some true) false false None false [] [] [] [] []
    true false (Some 2) true None false false false true None None true None
    [] None [] None None None None None None false [] [] (mkFeatures [] false false).
Definition ex_arguments (list : bool) : arguments := mkArguments None None false [] false false false list None None ex_args.

Definition ex_setting : setting := match settle ex_world (ex_arguments false) with Done s => s | _ => mkSetting [] ex_meta (match options_new (fun _ => true) ex_args ex_config with OptionsM.NewOk o => o | _ => mkOptions [] [] true None None false false false false false [] [] [] None None (mkFeatures [] false false) true false None true None false 0%N None false false None false true true false [] TPMutated None None ToolCargo end) PFAll end.
Lemma ex_settle : forall b, settle ex_world (ex_arguments b) = Done ex_setting.
Proof. intros []; vm_compute; reflexivity. Qed.

(** Listing prints the two mutants. *)
Example C63_case_list : exists e, ends ex_world (CmdRun (ex_arguments true)) e /\ status e = 0%Z
  /\ e = EListed (tx "src/a.rs:1:3: replace + with *" ++ [NL] ++ tx "src/a.rs:1:7: replace - with /" ++ [NL]).
Proof.
  eexists. split; [|split; [|reflexivity]]; [|reflexivity].
  eapply (en_listed _ _ ex_setting [] 10); [apply ex_settle|]. vm_compute. reflexivity.
Qed.

Lemma ex_after : exists es, after ex_world (tx "L") 10 (ex_arguments false) ex_setting = Done (Tests LabT.ex_ms es).
Proof. vm_compute. eexists. reflexivity. Qed.

(** Testing them gives the run of LabT in which one is missed: status 2. *)
Example C63_case : exists l, ends ex_world (CmdRun (ex_arguments false)) (ETested LabT.ex_ms l) /\ status (ETested LabT.ex_ms l) = 2%Z
  /\ verdict l LabT.ex_plus SumMissed /\ verdict l LabT.ex_minus SumCaught.
Proof.
  assert (X : exists l, ls_main LabT.ex_end = MEnd (ROk l) /\ lab_exit_code l = Some 2%Z
    /\ map (fun o => (oc_scenario o, summary o)) (lo_outcomes l)
       = [(Baseline, Some SumSuccess); (Mutant LabT.ex_minus, Some SumCaught); (Mutant LabT.ex_plus, Some SumMissed)]).
  { vm_compute. eexists. split; [reflexivity|]. split; reflexivity. }
  destruct X as (l & M & C & O). exists l. split; [|split; [|split]].
  - destruct ex_after as [es A].
    apply (en_tested ex_world (ex_arguments false) ex_setting (tx "L") 10 LabT.ex_ms es LabT.ex_ms LabT.ex_P2 LabT.ex_out (pa_root LabT.ex_P2) LabT.ex_end (ROk l));
      [apply ex_settle|exact A|discriminate|reflexivity|repeat split; reflexivity| |apply LabT.ex_reach|exact M].
    apply LabT.C13_case.
  - unfold status. rewrite C. reflexivity.
  - assert (I : In (Mutant LabT.ex_plus, Some SumMissed) (map (fun o => (oc_scenario o, summary o)) (lo_outcomes l))) by (rewrite O; right; right; left; reflexivity).
    apply in_map_iff in I as [o [E I]]. injection E as E1 E2. exists o. auto.
  - assert (I : In (Mutant LabT.ex_minus, Some SumCaught) (map (fun o => (oc_scenario o, summary o)) (lo_outcomes l))) by (rewrite O; right; left; reflexivity).
    apply in_map_iff in I as [o [E I]]. injection E as E1 E2. exists o. auto.
Qed.

(** A usage error, help, and an unknown package directory. *)
Example C63_case_usage : status (EClap 2) = 1%Z /\ status (EClap 0) = 0%Z
  /\ settle ex_world (mkArguments None (Some (tx "/nowhere")) false [] false false false false None None ex_args) = Fails.
Proof. repeat split. Qed.

(** The conditions of C63_scope and C63_zero hold in this world. *)
Example C63_case_world : (forall p md, wo_metadata ex_world p = Some md -> is_absolute (md_root md) = true)
  /\ (forall t root sc chain m, wo_syn ex_world t = Some root -> declared sc root chain -> In m chain -> named m)
  /\ patches_of ex_world (ex_arguments false) None.
Proof.
  split; [|split; [|reflexivity]].
  - intros p md H. cbn in H. destruct (text_eqb p _); [injection H as <-; reflexivity|discriminate].
  - intros t root sc chain m H (anc & a & i & sp & cs & O & _) _. exfalso. cbn [ex_world wo_syn] in H. unfold ex_syn in H.
    destruct (text_eqb t _); [|discriminate]. injection H as <-. inversion O as [|k l c an n I O']; subst.
    destruct I as [<-|[<-|[]]]; inversion O' as [|k' l' c' an' n' I' O'']; subst; destruct I'.
Qed.

(** Cargo answers with a relative path. *)
Example C63_case_panic : settle
   (mkWorld (fun _ => true) (fun _ => true) (fun _ => true) (fun _ => None) (fun _ => None) (fun _ _ => Some (tx "t/Cargo.toml")) (fun _ => None)
      (fun _ => None) (fun _ => true) (fun _ _ => true) (fun _ => None) (fun _ => None) (fun _ => None) (fun _ => []) (fun _ => []) (fun _ => []))
   (ex_arguments false) = Panics
  /\ op_check_only (se_options ex_setting) = false /\ op_baseline (se_options ex_setting) = true.
Proof. vm_compute. repeat split. Qed.

(** Two mutants are found; from a directory whose package is relative, none. *)
Example C63_case_discovery : (exists v ms fs, discover ex_world 10 ex_setting = WOk v ms fs /\ length ms = 2)
  /\ discover (mkWorld (fun _ => true) (fun _ => true) (fun _ => true) (fun _ => None) (fun _ => None) (fun _ _ => Some (tx "t/Cargo.toml")) (fun _ => None)
      (fun _ => None) (fun _ => true) (fun _ _ => true) (fun _ => None) (fun _ => None) (fun _ => None) (fun _ => []) (fun _ => []) (fun _ => []))
      10 ex_setting = WalkM.WPanic.
Proof. vm_compute. split; [do 3 eexists; split; reflexivity|reflexivity]. Qed.
