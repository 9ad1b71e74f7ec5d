(** Model of src/output.rs:60-84, 119-172 as an interleaving of processes that use
    the same output location. *)
From Coq Require Import List Bool Arith.
Import ListNotations.

(** Directories are numbered in the order they are created; a number stands for
    the directory itself (its inode), whatever its path. Process numbers are
    natural numbers too. *)
Inductive pc :=
| PStart               (* src/output.rs:125: about to ask whether mutants.out exists *)
| POpen                (* 62-67: about to open lock.json in it, by path *)
| PWait (d : nat)      (* 69-79: has lock.json of directory d open and polls for its lock *)
| PLocked (d : nat)    (* 80-83: holds the lock; the file is dropped at the end of line 126 *)
| PRemove              (* 131-134: lock released; about to remove mutants.out.old *)
| PRename              (* 135: about to rename mutants.out to mutants.out.old *)
| PCreate              (* 138: about to create mutants.out *)
| POpen2               (* 140: about to open lock.json in it, by path *)
| PWait2 (d : nat)     (* 69-79 *)
| PRun (d : nat)       (* the run: holds the lock of d *)
| PDone
| PFail.               (* an I/O error ended the process *)

Record state := mkState {
  st_out : option nat;          (* the directory at path mutants.out *)
  st_old : option nat;          (* the directory at path mutants.out.old *)
  st_next : nat;                (* number of the next new directory *)
  st_lock : nat -> option nat;  (* who holds the lock on lock.json of a directory *)
  st_removed : list nat;        (* directories deleted so far *)
  st_pc : nat -> pc
}.

Definition upd {A} (f : nat -> A) (k : nat) (v : A) : nat -> A :=
  fun x => if Nat.eqb x k then v else f x.

Definition set_pc (s : state) (p : nat) (c : pc) : state :=
  mkState (st_out s) (st_old s) (st_next s) (st_lock s) (st_removed s) (upd (st_pc s) p c).

Definition set_lock (s : state) (d : nat) (o : option nat) : state :=
  mkState (st_out s) (st_old s) (st_next s) (upd (st_lock s) d o) (st_removed s) (st_pc s).

(** One step of process [p].  Each file system call is atomic; [remove_dir_all] is
    taken as one step. *)
Inductive step (p : nat) (s : state) : state -> Prop :=
| st_exists : forall d, st_pc s p = PStart -> st_out s = Some d -> step p s (set_pc s p POpen)
| st_absent : st_pc s p = PStart -> st_out s = None -> step p s (set_pc s p PCreate)
| st_open : forall d, st_pc s p = POpen -> st_out s = Some d -> step p s (set_pc s p (PWait d))
| st_open_fail : st_pc s p = POpen -> st_out s = None -> step p s (set_pc s p PFail)
| st_lock1 : forall d, st_pc s p = PWait d -> st_lock s d = None ->
    step p s (set_pc (set_lock s d (Some p)) p (PLocked d))
| st_wait_fail : forall d, st_pc s p = PWait d -> step p s (set_pc s p PFail)  (* interrupted *)
| st_unlock1 : forall d, st_pc s p = PLocked d ->
    step p s (set_pc (set_lock s d None) p PRemove)
| st_remove : forall d, st_pc s p = PRemove -> st_old s = Some d ->
    step p s (mkState (st_out s) None (st_next s) (st_lock s) (d :: st_removed s)
                (upd (st_pc s) p PRename))
| st_no_old : st_pc s p = PRemove -> st_old s = None -> step p s (set_pc s p PRename)
| st_rename : forall d, st_pc s p = PRename -> st_out s = Some d -> st_old s = None ->
    step p s (mkState None (Some d) (st_next s) (st_lock s) (st_removed s) (upd (st_pc s) p PCreate))
| st_rename_fail : st_pc s p = PRename -> st_out s = None \/ st_old s <> None ->
    step p s (set_pc s p PFail)
| st_create : st_pc s p = PCreate -> st_out s = None ->
    step p s (mkState (Some (st_next s)) (st_old s) (S (st_next s)) (st_lock s) (st_removed s)
                (upd (st_pc s) p POpen2))
| st_create_fail : forall d, st_pc s p = PCreate -> st_out s = Some d -> step p s (set_pc s p PFail)
| st_open2 : forall d, st_pc s p = POpen2 -> st_out s = Some d -> step p s (set_pc s p (PWait2 d))
| st_open2_fail : st_pc s p = POpen2 -> st_out s = None -> step p s (set_pc s p PFail)
| st_lock2 : forall d, st_pc s p = PWait2 d -> st_lock s d = None ->
    step p s (set_pc (set_lock s d (Some p)) p (PRun d))
| st_wait2_fail : forall d, st_pc s p = PWait2 d -> step p s (set_pc s p PFail)
| st_end : forall d, st_pc s p = PRun d -> step p s (set_pc (set_lock s d None) p PDone).

(** Executions: steps of any processes in any order. *)
Inductive steps : state -> state -> Prop :=
| steps_refl : forall s, steps s s
| steps_more : forall s p s' s'', step p s s' -> steps s' s'' -> steps s s''.

(** Every process about to start, with possibly a directory left by an earlier
    run. *)
Definition initial (s : state) : Prop :=
  (forall p, st_pc s p = PStart) /\ (forall d, st_lock s d = None) /\ st_removed s = []
  /\ (forall d, st_out s = Some d \/ st_old s = Some d -> d < st_next s)
  /\ (forall d, st_out s = Some d -> st_old s <> Some d).

(** src/output.rs:195-202: outcomes.json is written by path: the directory that a
    running process's writes go to. *)
Definition writes_to (s : state) : option nat := st_out s.
