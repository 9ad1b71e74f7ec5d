(** Specification vocabulary for C60: the directory a thread is using. *)
From Coq Require Import String List NArith ZArith Bool Arith.
From Verif Require Import Text SpanM PathM MutantM ProcessM OutcomeM OutputM LabM LabS TempM.
Import ListNotations.

(** Thread [c] uses directory [d]: it is at work on a scenario there, or about to take one. *)
Definition uses (c : wpc) (d : nat) : Prop := c = WQueue d \/ exists s, active c = Some (d, s).

(** Directory [d] is the user's source tree. *)
Definition is_source_tree (P : params) (d : nat) : Prop := pa_in_place P = true /\ d = 0.

(** How many build directories were made or, in place, used. *)
Definition all_dirs (st : state) : nat := length (sh_trees (ls_sh st)).
