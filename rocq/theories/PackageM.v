(** Model of src/package.rs and of package selection in src/workspace.rs,
    src/main.rs and src/lab.rs. The output of [cargo metadata] and
    [cargo locate-project] is input to the model. *)
From Coq Require Import String List NArith Bool.
Import ListNotations.
From Verif Require Import Text Sort PathM OptionsM.

(** src/package.rs:18-33 [Package]. *)
Record package := mkPackage { pk_name : text; pk_version : text; pk_dir : text; pk_tops : list text }.

(** [cargo_metadata::TargetKind]; [KOther] is any kind it does not know. *)
Inductive target_kind :=
| KBench | KBin | KCustomBuild | KCDyLib | KDyLib | KExample | KLib | KProcMacro | KRLib | KStaticLib | KTest
| KOther (t : text).

(** The parts of [cargo_metadata::Target], [Package] and [Metadata] used here.
    Default members are [None] when cargo is too old to report them. *)
Record target := mkTarget { tg_kind : list target_kind; tg_src : text }.
Record meta_package := mkMeta {
  mp_id : text; mp_name : text; mp_version : text; mp_manifest : text; mp_targets : list target }.
Record metadata := mkMetadata {
  md_packages : list meta_package; md_members : list text; md_default : option (list text); md_root : text }.

(** [Ord for Path]: components in order. *)
Definition comp_leb (a b : comp) : bool :=
  match a, b with
  | Root, _ => true
  | Cur, Root => false | Cur, _ => true
  | Parent, (Root | Cur) => false | Parent, _ => true
  | Normal x, Normal y => text_leb x y
  | Normal _, _ => false
  end.
Fixpoint comps_leb (a b : list comp) : bool :=
  match a, b with
  | [], _ => true
  | _ :: _, [] => false
  | x :: a', y :: b' => if comp_eqb x y then comps_leb a' b' else comp_leb x y
  end.
Definition path_leb (a b : text) : bool := comps_leb (components a) (components b).

(** A path with the given components ([Components::as_path]); where the original had
    repeated slashes or "." pieces, as_path keeps them; they do not change the path's
    meaning. *)
Definition comps_path (cs : list comp) : text :=
  match cs with
  | Root :: cs' => SLASH :: join [SLASH] (map comp_str cs')
  | _ => join [SLASH] (map comp_str cs)
  end.

(** [Path::strip_prefix]. *)
Fixpoint strip_comps (cs pre : list comp) : option (list comp) :=
  match pre, cs with
  | [], _ => Some cs
  | p :: pre', c :: cs' => if comp_eqb c p then strip_comps cs' pre' else None
  | _ :: _, [] => None
  end.
Definition strip_prefix (p pre : text) : option text :=
  option_map comps_path (strip_comps (components p) (components pre)).

(** [Path::parent]. *)
Definition path_parent (p : text) : option text :=
  match rev (components p) with
  | [] | Root :: _ => None
  | _ :: cs => Some (comps_path (rev cs))
  end.

(** src/package.rs:117-129 [should_mutate_target]. *)
Definition should_mutate_kind (k : target_kind) : bool :=
  match k with KBin | KProcMacro | KCDyLib | KDyLib | KLib | KRLib | KStaticLib => true | _ => false end.
Definition should_mutate_target (t : target) : bool := existsb should_mutate_kind (tg_kind t).

(** src/package.rs:80-115 [package_top_sources]. *)
Definition package_top_sources (root : text) (p : meta_package) : list text :=
  dedup path_eqb (isort path_leb
    (flat_map (fun t => if should_mutate_target t
                        then match strip_prefix (tg_src t) root with Some r => [r] | None => [] end
                        else []) (mp_targets p))).

(** src/package.rs:47-72 [Package::from_cargo_metadata]. *)
Definition from_cargo_metadata (root : text) (p : meta_package) : option package :=
  match strip_prefix (mp_manifest p) root with
  | None => None
  | Some rel =>
      match path_parent rel with
      | None => None
      | Some dir => Some (mkPackage (mp_name p) (mp_version p) dir (package_top_sources root p))
      end
  end.

(** [Iterator::filter_map]. *)
Definition filter_map {A B} (f : A -> option B) (l : list A) : list B :=
  flat_map (fun x => match f x with Some y => [y] | None => [] end) l.

(** [Metadata::workspace_packages]: the packages whose id is a member. *)
Definition workspace_packages (md : metadata) : list meta_package :=
  filter (fun p => mem_text (mp_id p) (md_members md)) (md_packages md).

Definition by_name {A} (name : A -> text) (a b : A) : bool := text_leb (name a) (name b).

(** src/package.rs:36-44 [packages_from_metadata]. *)
Definition packages_from_metadata (md : metadata) : list package :=
  filter_map (from_cargo_metadata (md_root md)) (isort (by_name mp_name) (workspace_packages md)).

(** src/package.rs:132-139 [PackageSelection]. *)
Inductive selection := SelAll | SelExplicit (l : list package).

(** src/workspace.rs:38-59 [PackageFilter]. *)
Inductive package_filter := PFAll | PFExplicit (names : list text) | PFAuto (dir : text).

(** src/main.rs:471-477. *)
Definition package_filter_of (mutate_packages : list text) (workspace : bool) (start_dir : text) : package_filter :=
  match mutate_packages with
  | _ :: _ => PFExplicit mutate_packages
  | [] => if workspace then PFAll else PFAuto start_dir
  end.

(** src/workspace.rs:115-129 [packages_by_name]. *)
Definition packages_by_name (ps : list package) (names : list text) : list package :=
  filter_map (fun n => find (fun p => text_eqb (pk_name p) n) ps) (isort text_leb names).

(** src/workspace.rs:194-225 [default_packages]; names sorted, then looked up (and
    sorted again). *)
Definition default_packages (md : metadata) : selection :=
  match md_default md with
  | None => SelAll
  | Some ids =>
      SelExplicit (packages_by_name (packages_from_metadata md)
        (isort text_leb (map mp_name (filter (fun p => mem_text (mp_id p) ids) (md_packages md)))))
  end.

(** src/workspace.rs:131-170 [filter_packages]. [locate] is the result of
    [locate_project(dir, false)]; its assertion that the directory is absolute is
    [None] here, like an error. *)
Definition filter_packages (locate : text -> option text) (md : metadata) (f : package_filter) : option selection :=
  match f with
  | PFAuto dir =>
      match locate dir with
      | None => None
      | Some pdir =>
          if negb (is_absolute pdir) then None
          else match find (fun p => path_eqb (path_join (md_root md) (pk_dir p)) pdir) (packages_from_metadata md) with
               | Some p => Some (SelExplicit [p])
               | None => if path_eqb pdir (md_root md) then Some (default_packages md) else None
               end
      end
  | PFAll => Some SelAll
  | PFExplicit names => Some (SelExplicit (packages_by_name (packages_from_metadata md) names))
  end.

(** src/workspace.rs:172-177 [expand_selection]. *)
Definition expand_selection (md : metadata) (s : selection) : list package :=
  match s with SelAll => packages_from_metadata md | SelExplicit l => l end.

(** src/workspace.rs:179-192: the packages that [discover] walks. *)
Definition mutated_packages (locate : text -> option text) (md : metadata) (f : package_filter) : option (list package) :=
  option_map (expand_selection md) (filter_packages locate md f).

(** [PartialEq for Package] (derived). *)
Fixpoint paths_eqb (a b : list text) : bool :=
  match a, b with
  | [], [] => true
  | x :: a', y :: b' => path_eqb x y && paths_eqb a' b'
  | _, _ => false
  end.
Definition package_eqb (a b : package) : bool :=
  text_eqb (pk_name a) (pk_name b) && text_eqb (pk_version a) (pk_version b)
  && path_eqb (pk_dir a) (pk_dir b) && paths_eqb (pk_tops a) (pk_tops b).

(** src/lab.rs:176-188 [run_baseline]: the packages whose tests the baseline runs; the
    mutants are given by their packages. *)
Definition baseline_selection (mutant_packages : list package) : selection :=
  SelExplicit (unique package_eqb (isort (by_name pk_name) mutant_packages)).

(** src/lab.rs:325-347 [TestsForMutant::new] and 242-248 in [run_queue]: the packages
    whose tests are run for a mutant in package [p]. *)
Definition mutant_selection (md : metadata) (t : test_packages) (p : package) : selection :=
  match t with
  | TPWorkspace => SelAll
  | TPMutated => SelExplicit [p]
  | TPNamed names => SelExplicit (packages_by_name (packages_from_metadata md) names)
  end.
