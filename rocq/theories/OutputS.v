(** Specification for C16, C17 and C20. *)
From Coq Require Import String List NArith Bool.
From Verif Require Import Text SpanM PathM MutantM OutcomeM OutputM.
Import ListNotations.

(** A name that takes exactly one line when written followed by a newline. *)
Definition one_line (n : text) : Prop := ~ In NL n /\ (forall a, n <> a ++ [CR]).

(** A run of the program, as far as the parent directory goes: the text of its
    lock file and what it does to the contents of its own mutants.out. *)
Record run := mkRun { run_lock : text; run_work : entries -> entries }.

(** The results of a run: what it leaves in mutants.out. *)
Definition results (r : run) : entries := run_work r (fresh_dir (run_lock r)).

(** Directories with the same entries, except that [lock.json] may differ. *)
Definition same_but_lock (a b : entries) : Prop := forall k, k <> (tx "lock.json") -> dget a k = dget b k.

(** One run in a parent directory. *)
Definition run_in (es : entries) (r : run) : entries :=
  match output_new (run_lock r) (Some es) with
  | NewOk es' => dset es' OUTDIR (NDir (results r))
  | NewErr es' => es'
  end.

(** A directory that a run can rotate away. *)
Definition rotatable (n : option node) : Prop :=
  match n with
  | None => True
  | Some (NDir o) => forall x, dget o (tx "lock.json") <> Some (NDir x)
  | Some (NFile _) => False
  end.

Definition removable (n : option node) : Prop :=
  match n with Some (NFile _) => False | _ => True end.

(** The run did not put a directory in place of its lock file. *)
Definition ends_ok (r : run) : Prop := forall x, dget (results r) (tx "lock.json") <> Some (NDir x).

(** The texts a mutant's name is made of. *)
Definition pieces (m : mutant) : list text :=
  [tree_relative_slashes (mu_file m); mu_replacement m; original_text m]
  ++ match mu_fn m with Some f => [fn_name f; fn_return_type f] | None => [] end.
