(** Specification of package selection (C41) and of which tests run (C42). *)
From Coq Require Import String List NArith Bool Sorted.
Import ListNotations.
From Verif Require Import Text Sort PathM PackageM.

(** The path lies under the directory [root]. *)
Definition inside (root path : text) : Prop := exists r, r <> [] /\ components path = components root ++ r.

(** Targets that contain library or program code. *)
Definition code_kinds : list target_kind := [KBin; KLib; KRLib; KDyLib; KCDyLib; KStaticLib; KProcMacro].

(** [p] represents the cargo package [mp]. *)
Definition describes (root : text) (mp : meta_package) (p : package) : Prop :=
  pk_name p = mp_name mp
  /\ pk_version p = mp_version mp
  /\ (exists file, components (mp_manifest mp) = components root ++ components (pk_dir p) ++ [file])
  /\ (forall cs, (exists t, In t (pk_tops p) /\ components t = cs) <->
                 (exists tg k, In tg (mp_targets mp) /\ In k (tg_kind tg) /\ In k code_kinds
                               /\ components (tg_src tg) = components root ++ cs))
  /\ NoDup (map components (pk_tops p)).

(** [mp] is a workspace member below the workspace root. *)
Definition member (md : metadata) (mp : meta_package) : Prop :=
  In mp (md_packages md) /\ In (mp_id mp) (md_members md) /\ inside (md_root md) (mp_manifest mp).

Definition sorted_by_name (ps : list package) : Prop :=
  StronglySorted (fun a b => text_leb (pk_name a) (pk_name b) = true) ps.

(** Cargo's rule that no two workspace members have the same name. *)
Definition names_unique (md : metadata) : Prop :=
  NoDup (map mp_name (filter (fun p => mem_text (mp_id p) (md_members md)) (md_packages md))).

(** The packages whose tests a selection runs, out of all the workspace's. *)
Definition tests_run (all : list package) (s : selection) (p : package) : Prop :=
  match s with SelAll => In p all | SelExplicit l => In p l end.

(** The package's manifest is directly in the directory [dir]. *)
Definition lives_in (md : metadata) (p : package) (dir : text) : Prop :=
  components (md_root md) ++ components (pk_dir p) = components dir.
