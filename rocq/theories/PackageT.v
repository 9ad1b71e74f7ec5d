From Coq Require Import String List NArith Bool Lia Permutation Sorted.
Import ListNotations.
From Verif Require Import Text Sort PathM PathS PathP OptionsM PackageM PackageS PackageP.

(** C41: the packages known are the workspace members under the workspace root, with
    the source files of their library and program targets; sorted by name.
    Missing: members outside the workspace root, see C41_outside_refuted. *)
Theorem C41_packages_partial : forall md, is_absolute (md_root md) = true -> forall ps, ps = packages_from_metadata md ->
  (forall mp, member md mp -> exists p, In p ps /\ describes (md_root md) mp p)
  /\ (forall p, In p ps -> exists mp, member md mp /\ describes (md_root md) mp p)
  /\ sorted_by_name ps
  /\ (names_unique md -> NoDup (map pk_name ps)).
Proof. exact c41_packages. Qed.
Print Assumptions C41_packages_partial.

(** C41: --workspace. *)
Theorem C41_workspace : forall locate md, mutated_packages locate md PFAll = Some (packages_from_metadata md).
Proof. reflexivity. Qed.
Print Assumptions C41_workspace.

(** C41: --package.
    Missing: a name given twice, see C41_duplicates_refuted. *)
Theorem C41_named_partial : forall locate md names, names_unique md ->
  exists r, mutated_packages locate md (PFExplicit names) = Some r
  /\ (forall p, In p r <-> In p (packages_from_metadata md) /\ In (pk_name p) names)
  /\ sorted_by_name r
  /\ (NoDup names -> NoDup r).
Proof. exact c41_named. Qed.
Print Assumptions C41_named_partial.

(** C41: neither: the package of the start directory, else the default members (all
    with old versions of cargo). *)
Theorem C41_auto : forall locate md dir pdir, names_unique md -> is_absolute (md_root md) = true ->
  locate dir = Some pdir -> is_absolute pdir = true ->
  (forall p, In p (packages_from_metadata md) -> lives_in md p pdir ->
     exists q, mutated_packages locate md (PFAuto dir) = Some [q] /\ In q (packages_from_metadata md) /\ lives_in md q pdir)
  /\ ((forall p, In p (packages_from_metadata md) -> ~ lives_in md p pdir) ->
      (components pdir = components (md_root md) ->
         (md_default md = None -> mutated_packages locate md (PFAuto dir) = Some (packages_from_metadata md))
         /\ (forall ids, md_default md = Some ids -> exists r, mutated_packages locate md (PFAuto dir) = Some r
              /\ sorted_by_name r
              /\ (forall p, In p r <-> In p (packages_from_metadata md) /\
                    exists mp, In mp (md_packages md) /\ In (mp_id mp) ids /\ mp_name mp = pk_name p)))
      /\ (components pdir <> components (md_root md) -> mutated_packages locate md (PFAuto dir) = None)).
Proof. exact c41_auto'. Qed.
Print Assumptions C41_auto.

(** C41: which of the three applies. *)
Theorem C41_choice : forall mutate workspace start,
  (mutate <> [] -> package_filter_of mutate workspace start = PFExplicit mutate)
  /\ (mutate = [] -> workspace = true -> package_filter_of mutate workspace start = PFAll)
  /\ (mutate = [] -> workspace = false -> package_filter_of mutate workspace start = PFAuto start).
Proof. exact c41_choice. Qed.
Print Assumptions C41_choice.

Definition ex_target (k : target_kind) (s : text) := mkTarget [k] s.
Definition ex_md : metadata := mkMetadata
  [ mkMeta (tx "2") (tx "util") (tx "0.1.0") (tx "/ws/util/Cargo.toml")
      [ex_target KLib (tx "/ws/util/src/lib.rs"); ex_target KTest (tx "/ws/util/tests/t.rs"); ex_target KBin (tx "/ws/util/src/lib.rs")];
    mkMeta (tx "1") (tx "main") (tx "0.2.0") (tx "/ws/Cargo.toml")
      [ex_target KBin (tx "/ws/src/main.rs"); ex_target KCustomBuild (tx "/ws/build.rs")];
    mkMeta (tx "3") (tx "outer") (tx "0.3.0") (tx "/elsewhere/Cargo.toml") [ex_target KLib (tx "/elsewhere/src/lib.rs")];
    mkMeta (tx "4") (tx "dep") (tx "1.0.0") (tx "/ws/dep/Cargo.toml") [ex_target KLib (tx "/ws/dep/src/lib.rs")] ]
  [tx "1"; tx "2"; tx "3"] (Some [tx "2"]) (tx "/ws").

Example C41_case : packages_from_metadata ex_md =
  [ mkPackage (tx "main") (tx "0.2.0") [] [tx "src/main.rs"];
    mkPackage (tx "util") (tx "0.1.0") (tx "util") [tx "util/src/lib.rs"] ].
Proof. vm_compute. reflexivity. Qed.

Example C41_case_auto :
  option_map (map pk_name) (mutated_packages (fun _ => Some (tx "/ws/util")) ex_md (PFAuto (tx "."))) = Some [tx "util"]
  /\ option_map (map pk_name) (mutated_packages (fun _ => Some (tx "/ws")) ex_md (PFAuto (tx "."))) = Some [tx "main"]
  /\ option_map (map pk_name) (mutated_packages (fun _ => None) ex_md (package_filter_of [tx "util"; tx "main"; tx "no"] true (tx ".")))
     = Some [tx "main"; tx "util"].
Proof. vm_compute. auto. Qed.

(** C41 fails for a name given twice: its package is walked twice. *)
Theorem C41_duplicates_refuted : exists locate md names r, names_unique md /\ is_absolute (md_root md) = true
  /\ mutated_packages locate md (PFExplicit names) = Some r /\ ~ NoDup r.
Proof.
  exists (fun _ => None), ex_md, [tx "main"; tx "main"].
  exists (packages_by_name (packages_from_metadata ex_md) [tx "main"; tx "main"]).
  split; [vm_compute; repeat constructor; cbn; intuition discriminate|]. split; [reflexivity|]. split; [reflexivity|].
  intros H. vm_compute in H. inversion H as [|? ? K _]. apply K. now left.
Qed.
Print Assumptions C41_duplicates_refuted.

(** C41 fails for members outside the workspace root: --workspace leaves them out, and
    starting in one of them is an error. *)
Theorem C41_outside_refuted : exists locate md mp, names_unique md /\ is_absolute (md_root md) = true
  /\ In mp (md_packages md) /\ In (mp_id mp) (md_members md)
  /\ (forall r, mutated_packages locate md PFAll = Some r -> ~ In (mp_name mp) (map pk_name r))
  /\ (exists dir pdir, locate dir = Some pdir /\ components (mp_manifest mp) = components pdir ++ [Normal (tx "Cargo.toml")]
                       /\ mutated_packages locate md (PFAuto dir) = None).
Proof.
  exists (fun _ => Some (tx "/elsewhere")), ex_md.
  exists (mkMeta (tx "3") (tx "outer") (tx "0.3.0") (tx "/elsewhere/Cargo.toml") [ex_target KLib (tx "/elsewhere/src/lib.rs")]).
  split; [vm_compute; repeat constructor; cbn; intuition discriminate|]. split; [reflexivity|].
  split; [cbn; auto|]. split; [cbn; auto|]. split.
  - intros r H. vm_compute in H. injection H as <-. vm_compute. intuition discriminate.
  - exists (tx "."), (tx "/elsewhere"). split; [reflexivity|]. split; reflexivity.
Qed.
Print Assumptions C41_outside_refuted.

(** C42: the tests run for a mutant in package [p]. *)
Theorem C42_which_tests : forall md p, names_unique md ->
  mutant_selection md TPMutated p = SelExplicit [p]
  /\ mutant_selection md TPWorkspace p = SelAll
  /\ forall names q, tests_run (packages_from_metadata md) (mutant_selection md (TPNamed names) p) q <->
       In q (packages_from_metadata md) /\ In (pk_name q) names.
Proof. exact c42_which. Qed.
Print Assumptions C42_which_tests.

(** C42: the baseline runs the tests of all packages with mutants, once each. *)
Theorem C42_baseline : forall mps, exists l, baseline_selection mps = SelExplicit l
  /\ (forall p, In p l -> In p mps)
  /\ (forall p, In p mps -> exists q, In q l /\ pk_name q = pk_name p /\ pk_version q = pk_version p)
  /\ NoDup l.
Proof. exact c42_baseline. Qed.
Print Assumptions C42_baseline.

(** C42: by default every test run on a mutant was run on the baseline.
    Missing: --test-package and --test-workspace, see C42_baseline_refuted. *)
Theorem C42_default_partial : forall md mps p q, In p mps ->
  tests_run (packages_from_metadata md) (mutant_selection md TPMutated p) q ->
  exists b, tests_run (packages_from_metadata md) (baseline_selection mps) b /\ pk_name b = pk_name q /\ pk_version b = pk_version q.
Proof. exact c42_default. Qed.
Print Assumptions C42_default_partial.

(** C42's last clause fails with --test-package and --test-workspace: the mutant is
    tested only by tests that the baseline does not run. *)
Theorem C42_baseline_refuted : exists md names mps p q, In p mps /\ names_unique md
  /\ mutant_selection md (TPNamed names) p = SelExplicit [q]
  /\ tests_run (packages_from_metadata md) (mutant_selection md TPWorkspace p) q
  /\ forall b, tests_run (packages_from_metadata md) (baseline_selection mps) b -> pk_name b <> pk_name q.
Proof.
  exists ex_md, [tx "util"], [mkPackage (tx "main") (tx "0.2.0") [] [tx "src/main.rs"]],
    (mkPackage (tx "main") (tx "0.2.0") [] [tx "src/main.rs"]), (mkPackage (tx "util") (tx "0.1.0") (tx "util") [tx "util/src/lib.rs"]).
  split; [now left|]. split; [vm_compute; repeat constructor; cbn; intuition discriminate|].
  split; [reflexivity|]. split; [vm_compute; auto|].
  intros b [<-|[]]. discriminate.
Qed.
Print Assumptions C42_baseline_refuted.

Example C42_case : let a := mkPackage (tx "a") (tx "1") [] [] in let b := mkPackage (tx "b") (tx "1") (tx "b") [] in
  baseline_selection [b; a; b; a] = SelExplicit [a; b].
Proof. vm_compute. reflexivity. Qed.
