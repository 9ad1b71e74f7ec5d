(** Model of src/main.rs:451-525 (after the options are built) and of src/list.rs. *)
From Coq Require Import String List NArith Bool Permutation.
From Verif Require Import Text SpanM PathM MutantM OutcomeM OutputM IterateM InDiffM ShardM PackageM WalkM.
Import ListNotations.

(** src/main.rs:451-460, the start directory; [None] is an error.  [is_file] asks the disk. *)
Definition start_dir (is_file : text -> bool) (manifest_path dir : option text) : option text :=
  match manifest_path with
  | Some p => if is_file p then path_parent p else None
  | None => Some (match dir with Some d => d | None => tx "." end)
  end.

(** src/workspace.rs:228-229 [locate_project], called with the start directory from
    src/workspace.rs:92-94, before it asks cargo. *)
Definition opened (is_file is_dir : text -> bool) (manifest_path dir : option text) : option text :=
  match start_dir is_file manifest_path dir with
  | Some d => if is_dir d then Some d else None
  | None => None
  end.

(** The arguments used after discovery.  [cl_diff] is the contents of the --in-diff file, the
    inner [None] if it cannot be read. *)
Record cli := mkCli {
  cl_iterate : bool; cl_list_files : bool; cl_list : bool;
  cl_diff : option (option text); cl_shard : option shard;
  cl_json : bool; cl_diffs : bool; cl_line_col : bool; cl_shuffle : bool }.

(** A result, an error, or a panic. *)
Inductive res (A : Type) := Done (a : A) | Fails | Panics.
Arguments Done {A} a. Arguments Fails {A}. Arguments Panics {A}.
Definition bind {A B} (r : res A) (f : A -> res B) : res B :=
  match r with Done a => f a | Fails => Fails | Panics => Panics end.
Definition or_panic {A} (o : option A) : res A := match o with Some a => Done a | None => Panics end.

Section Main.
(** [parse_patch] is [Patch::from_multiple] (the patch crate), [diff_of] is [Mutant::diff] (the similar crate), and
    [json_mutants], [json_files] are serde_json. *)
Variable parse_patch : text -> option (list patch).
Variable diff_of : mutant -> text.
Variable json_mutants : list (mutant * option text) -> text.
Variable json_files : list source_file -> text.

(** src/list.rs:19-52 [list_mutants], without colors. *)
Definition list_one (c : cli) (m : mutant) : option text :=
  match mutant_name (cl_line_col c) m with
  | Some n => Some (n ++ [NL] ++ if cl_diffs c then diff_of m ++ [NL] else [])
  | None => None
  end.
Fixpoint list_text (c : cli) (ms : list mutant) : option text :=
  match ms with
  | [] => Some []
  | m :: ms' =>
      match list_one c m, list_text c ms' with
      | Some a, Some b => Some (a ++ b)
      | _, _ => None
      end
  end.
Definition list_mutants (c : cli) (ms : list mutant) : option text :=
  if cl_json c then Some (json_mutants (map (fun m => (m, if cl_diffs c then Some (diff_of m) else None)) ms))
  else list_text c ms.

(** src/list.rs:56-76 [list_files]. *)
Definition list_files (c : cli) (fs : list source_file) : text :=
  if cl_json c then json_files fs else flat_map (fun f => to_slash_path (sf_path f) ++ [NL]) fs.

(** src/main.rs:486-496.  [es] is the output parent directory. *)
Definition iterate_step (c : cli) (es : option entries) (ms : list mutant) : res (list mutant) :=
  if cl_iterate c then or_panic (remove_previously_caught (load_previously_caught es) ms) else Done ms.

(** src/main.rs:504-509. *)
Definition diff_step (c : cli) (ms : list mutant) : res (list mutant) :=
  match cl_diff c with
  | None => Done ms
  | Some None => Fails
  | Some (Some d) => match diff_filter parse_patch ms d with DiffOk r => Done r | _ => Fails end
  end.

(** src/main.rs:510-512. *)
Definition shard_step (c : cli) (ms : list mutant) : res (list mutant) :=
  match cl_shard c with None => Done ms | Some s => or_panic (shard_select s ms) end.

(** What the process does after discovery. *)
Inductive action :=
| Printed (out : text)                                    (* and leaves the disk alone *)
| Tests (ms : list mutant) (es : entries).                (* and has set up mutants.out *)

(** src/main.rs:516-519: the output directory. *)
Definition set_up (lk : text) (c : cli) (es : option entries) : res entries :=
  match output_new lk es with
  | NewErr _ => Fails
  | NewOk es1 =>
      if cl_iterate c
      then match dget es1 OUTDIR with
           | Some (NDir o1) =>
               match write_previously_caught o1 (load_previously_caught es) with
               | Some o2 => Done (dset es1 OUTDIR (NDir o2))
               | None => Fails
               end
           | _ => Fails
           end
      else Done es1
  end.

(** src/main.rs:484-523; [found] is the result of [Workspace::discover]. *)
Definition main_run (lk : text) (c : cli) (es : option entries) (found : wresult) : res action :=
  match found with
  | WErr => Fails
  | WPanic | WFuel => Panics
  | WOk _ ms fs =>
      bind (iterate_step c es ms) (fun ms1 =>
      if cl_list_files c then Done (Printed (list_files c fs))
      else
        bind (diff_step c ms1) (fun ms2 =>
        bind (shard_step c ms2) (fun ms3 =>
        if cl_list c then bind (or_panic (list_mutants c ms3)) (fun t => Done (Printed t))
        else bind (set_up lk c es) (fun es' => Done (Tests ms3 es')))))
  end.

(** src/lab.rs:38-41: the order in which the mutants are queued. *)
Definition queued (c : cli) (ms q : list mutant) : Prop := if cl_shuffle c then Permutation ms q else q = ms.
End Main.

(** The same arguments with and without --list. *)
Definition with_list (b : bool) (c : cli) : cli :=
  mkCli (cl_iterate c) (cl_list_files c) b (cl_diff c) (cl_shard c) (cl_json c) (cl_diffs c) (cl_line_col c) (cl_shuffle c).
Definition with_shard (s : option shard) (c : cli) : cli :=
  mkCli (cl_iterate c) (cl_list_files c) (cl_list c) (cl_diff c) s (cl_json c) (cl_diffs c) (cl_line_col c) (cl_shuffle c).
