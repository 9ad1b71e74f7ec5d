(** Specification for C18. *)
From Coq Require Import List Bool Arith.
From Verif Require Import LockM.
Import ListNotations.

(** A process that has not got past the lock of [d], or is finished, or is about to
    create a directory. *)
Definition outside (d : nat) (c : pc) : Prop :=
  c = PStart \/ c = POpen \/ c = PWait d \/ c = PDone \/ c = PFail
  \/ c = PCreate \/ c = POpen2 \/ c = PWait2 d.

(** Process [p] is running in [d], which is at mutants.out, whole, and nobody else has
    got past its lock. *)
Definition safe (s : state) (p d : nat) : Prop :=
  st_pc s p = PRun d /\ st_out s = Some d /\ st_lock s d = Some p /\ ~ In d (st_removed s)
  /\ st_old s <> Some d
  /\ forall q, q <> p -> outside d (st_pc s q).

(** Executions in which [p] takes no step. *)
Inductive steps_without (p : nat) : state -> state -> Prop :=
| sw_refl : forall s, steps_without p s s
| sw_more : forall s q s' s'', q <> p -> step q s s' -> steps_without p s' s'' -> steps_without p s s''.

(** Executions in which only [p] takes steps. *)
Inductive steps_of (p : nat) : state -> state -> Prop :=
| so_refl : forall s, steps_of p s s
| so_more : forall s s' s'', steps_of p s s' -> step p s' s'' -> steps_of p s s''.

(** What a run in directory [d] has made of the directories that were there: mutants.out is a new directory, the
    former mutants.out is mutants.out.old and what was mutants.out.old before is gone; if there was no mutants.out then
    mutants.out.old is as it was. *)
Definition rotated (s0 s : state) (d : nat) : Prop :=
  st_out s = Some d /\ d = st_next s0
  /\ (forall o, st_out s0 = Some o -> st_old s = Some o)
  /\ (st_out s0 = None -> st_old s = st_old s0)
  /\ (forall x, In x (st_removed s) <-> st_old s0 = Some x /\ st_out s0 <> None).

(** Where a directory is: at mutants.out, at mutants.out.old, or deleted; and only in one of these places. *)
Definition one_place (s : state) (d : nat) : Prop :=
  (st_out s = Some d /\ st_old s <> Some d /\ ~ In d (st_removed s))
  \/ (st_out s <> Some d /\ st_old s = Some d /\ ~ In d (st_removed s))
  \/ (st_out s <> Some d /\ st_old s <> Some d /\ In d (st_removed s)).
(** It was there at the start, or has been created since. *)
Definition ever (s0 s : state) (d : nat) : Prop := st_out s0 = Some d \/ st_old s0 = Some d \/ st_next s0 <= d < st_next s.
