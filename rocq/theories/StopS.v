(** Words for the theorems about interrupts before and between tests (C76). *)
From Coq Require Import List Arith.
From Verif Require Import Text WalkM MainM StopM.
Import ListNotations.

(** How many files are parsed. *)
Fixpoint parsed (ev : list event) : nat :=
  match ev with [] => 0 | Parses _ :: l => S (parsed l) | Loads _ :: l => parsed l end.

(** The search did the same as another one up to a file, which it has read and not parsed. *)
Definition ends_before (ev whole : list event) : Prop :=
  exists l x rest, ev = l ++ [Loads x] /\ whole = l ++ Loads x :: Parses x :: rest.
