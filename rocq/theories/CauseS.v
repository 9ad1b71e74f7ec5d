(** Specification vocabulary for C43: where an error of a run begins. *)
From Coq Require Import List Bool.
From Verif Require Import Text MutantM OutcomeM LabM LabS.
Import ListNotations.

(** A thread waiting for cargo is told of an internal error or an interrupt, or a copy of the tree fails. *)
Definition trouble (c c' : wpc) : bool :=
  match c, c' with
  | WCargo _ _ _ _ _, WRevertErr _ _ => true
  | WCopy, WEnd false => true
  | _, _ => false
  end.

(** In the run that led to [st] there was such a step. *)
Definition had_trouble (P : params) (o0 : OutputM.entries) (t0 : tree) (ms : list mutant) (st : state) : Prop :=
  exists s s' i c c', reachable P o0 t0 ms s /\ step P (length ms) s s' /\ steps P (length ms) s' st
    /\ nth_error (threads s) i = Some c /\ nth_error (threads s') i = Some c' /\ trouble c c' = true.

(** Each build directory was made with the files of all mutants. *)
Definition copies_complete (ms : list mutant) (sh : shared) : Prop :=
  forall t m, In t (sh_base sh) -> In m ms -> t (file_key m) <> None.
