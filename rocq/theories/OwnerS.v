(** What lock.json should say. *)
From Coq Require Import String List NArith.
From Verif Require Import Text Utf8M JsonM JsonS OwnerM.
Import ListNotations.
Open Scope list_scope.

(** A reader of the file finds these four texts, and nothing else. *)
Definition says (file : list byte) (l : lock_file) : Prop :=
  exists t v, from_utf8 file = Some t /\ read_json t = Some v
    /\ keys v = [tx "cargo_mutants_version"; tx "start_time"; tx "hostname"; tx "username"]
    /\ has v (tx "cargo_mutants_version") (JStr (lf_version l)) /\ has v (tx "start_time") (JStr (lf_start_time l))
    /\ has v (tx "hostname") (JStr (lf_hostname l)) /\ has v (tx "username") (JStr (lf_username l)).

(** Texts of code points. *)
Definition good (l : lock_file) : Prop :=
  Forall (fun c => scalar c = true) (lf_version l) /\ Forall (fun c => scalar c = true) (lf_start_time l) /\ Forall (fun c => scalar c = true) (lf_hostname l) /\ Forall (fun c => scalar c = true) (lf_username l).

(** [b] is the first bytes of [a]. *)
Definition beginning_of (b a : list byte) : Prop := exists c, a = b ++ c.

(** Has the process the lock? *)
Definition has_lock (c : opc) : Prop := match c with OGot | OWrites _ | OHolds => True | _ => False end.

(** One process goes on while the others do nothing. *)
Inductive alone (info : nat -> lock_file) (p : nat) : ostate -> ostate -> Prop :=
| al_here s : alone info p s s
| al_step s s1 s2 : ostep info p s s1 -> alone info p s1 s2 -> alone info p s s2.
