(** What the files of a run should say of each other (C79).  [lists_exact] is in LabS, [is_mutant_object] and [is_lab] are in JsonS. *)
From Coq Require Import String List NArith ZArith Bool.
From Verif Require Import Text MutantM OutputM.
Import ListNotations.
Open Scope list_scope.

(** The file [f] has the text [t]. *)
Definition holds (o : entries) (f : text) (t : text) : Prop := dget o f = Some (NFile t).

(** The exit status can be told from the lists alone: 3 if there is something in timeout.txt, else 2 if there is something in
    missed.txt, else 0 (book/src/exit-codes.md). *)
Definition told_by_lists (o : entries) (code : Z) : Prop :=
  exists missed timeout, holds o (tx "missed.txt") missed /\ holds o (tx "timeout.txt") timeout
    /\ ((timeout <> [] /\ code = 3%Z) \/ (timeout = [] /\ missed <> [] /\ code = 2%Z) \/ (timeout = [] /\ missed = [] /\ code = 0%Z)).

(** Files that no later step of the run changes. *)
Definition written_once : list text := [tx "mutants.json"; tx "lock.json"; tx "previously_caught.txt"].
