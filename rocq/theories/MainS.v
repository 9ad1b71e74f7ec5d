(** Which mutants are to be tested or listed. *)
From Coq Require Import String List NArith Bool Permutation.
From Verif Require Import Text SpanM PathM MutantM InDiffM InDiffS ShardM MainM.
Import ListNotations.

(** [every k n l r]: [r] is the elements of [l] at positions k, k + n, k + 2n, ... *)
Definition every {A} (k n : nat) (l r : list A) : Prop :=
  k < n /\ forall j, nth_error r j = nth_error l (k + j * n).

(** Not excluded by name. *)
Definition new_to (prev : list text) (m : mutant) : Prop := exists n, mutant_name true m = Some n /\ ~ In n prev.

(** The selection: by name, then by the diff, then by position among what is left. *)
Definition chosen (prev : option (list text)) (ps : option (list patch)) (sh : option (nat * nat)) (found r : list mutant) : Prop :=
  exists a b,
    match prev with None => a = found | Some p => selects (new_to p) found a end
    /\ match ps with None => b = a | Some p => selects (touched p) a b end
    /\ match sh with None => r = b | Some (k, n) => every k n b r end.

(** The patches a diff file asks for. *)
Definition asks (parse : text -> option (list patch)) (d : text) (ps : list patch) : Prop :=
  (ps = [] /\ forall x, In x (fixed_diff d) -> is_whitespace x = true)
  \/ (parse (fixed_diff d) = Some ps /\ Forall well_formed ps /\ exists x, In x (fixed_diff d) /\ is_whitespace x = false).

(** What is true of the files on any disk: a file's directory is there, and the empty path names
    nothing. *)
Record disk_ok (is_file is_dir : text -> bool) : Prop := {
  dk_parent : forall p d c, is_file p = true -> components p = components d ++ [c] -> d <> [] -> is_dir d = true;
  dk_empty : is_dir [] = false }.

(** Command lines that are the same but for the shard, and but for --list. *)
Definition same_but_shard (a b : cli) : Prop :=
  cl_iterate a = cl_iterate b /\ cl_list_files a = cl_list_files b /\ cl_list a = cl_list b /\ cl_diff a = cl_diff b
  /\ cl_json a = cl_json b /\ cl_diffs a = cl_diffs b /\ cl_line_col a = cl_line_col b /\ cl_shuffle a = cl_shuffle b.
Definition same_but_list (a b : cli) : Prop :=
  cl_iterate a = cl_iterate b /\ cl_list_files a = cl_list_files b /\ cl_shard a = cl_shard b /\ cl_diff a = cl_diff b
  /\ cl_json a = cl_json b /\ cl_diffs a = cl_diffs b /\ cl_line_col a = cl_line_col b /\ cl_shuffle a = cl_shuffle b.
