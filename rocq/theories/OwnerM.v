(** src/output.rs:30-83: what is in lock.json, with any number of processes that open, lock, empty and write it. *)
From Coq Require Import String List NArith Arith Bool.
From Verif Require Import Text Utf8M JsonM.
Import ListNotations.
Open Scope list_scope.
Open Scope nat_scope.

(** src/output.rs:33-39 [LockFile].  The four texts are what [LockFile::new] (42-52) asks the system for. *)
Record lock_file := mkLockFile { lf_version : text; lf_start_time : text; lf_hostname : text; lf_username : text }.

(** Derived [Serialize] of [LockFile] (32), and [to_string_pretty] and [as_bytes] (79). *)
Definition lock_json (l : lock_file) : json :=
  JObj [(tx "cargo_mutants_version", JStr (lf_version l)); (tx "start_time", JStr (lf_start_time l));
        (tx "hostname", JStr (lf_hostname l)); (tx "username", JStr (lf_username l))].
Definition lock_bytes (l : lock_file) : list byte := encode (to_pretty (lock_json l)).

(** How far a process is in [acquire_lock] (58-83). *)
Inductive opc :=
| OStart
| OWait                 (* 60-65 done: the file is open; in the loop of 67-76 *)
| OGot                  (* the lock was given *)
| OWrites (n : nat)     (* 77 done; [n] bytes are written by [write_all] (78-80) *)
| OHolds                (* 81: the program goes on, and has the lock until it ends *)
| OGone.                (* ended or failed: the file is closed and the lock is given up by the system *)

(** One file; other directories have others. *)
Record ostate := mkOS { os_pc : nat -> opc; os_file : list byte; os_lock : option nat }.

Definition at_pc (s : ostate) (p : nat) (c : opc) : nat -> opc := fun q => if Nat.eqb q p then c else os_pc s q.

(** The file after [b] is written at place [n]: a gap is filled with zeros, and what is behind stays. *)
Definition write_at (n : nat) (b file : list byte) : list byte :=
  firstn n (file ++ repeat 0%N (n - length file)) ++ b ++ skipn (n + length b) file.

Section Owner.
(** What each process says about itself. *)
Variable info : nat -> lock_file.

Inductive ostep (p : nat) (s : ostate) : ostate -> Prop :=
(** 60-65: create(true), truncate(false), write(true). *)
| os_open : os_pc s p = OStart -> ostep p s (mkOS (at_pc s p OWait) (os_file s) (os_lock s))
(** 67: [try_lock_exclusive] of crate fs2: flock with LOCK_EX and LOCK_NB. *)
| os_locked : os_pc s p = OWait -> os_lock s = None -> ostep p s (mkOS (at_pc s p OGot) (os_file s) (Some p))
| os_waits q : os_pc s p = OWait -> os_lock s = Some q -> ostep p s s
(** 77: [set_len(0)]; the place of the next write stays at the start. *)
| os_clear : os_pc s p = OGot -> ostep p s (mkOS (at_pc s p (OWrites 0)) [] (os_lock s))
(** 78-80: [write_all] calls write until everything is written; each call may write less. *)
| os_write n m : os_pc s p = OWrites n -> 0 < m -> n + m <= length (lock_bytes (info p)) ->
    ostep p s (mkOS (at_pc s p (OWrites (n + m))) (write_at n (firstn m (skipn n (lock_bytes (info p)))) (os_file s)) (os_lock s))
| os_written n : os_pc s p = OWrites n -> n = length (lock_bytes (info p)) -> ostep p s (mkOS (at_pc s p OHolds) (os_file s) (os_lock s))
(** The end of the program, an error of any call, an interrupt (74), or a crash. *)
| os_gone : os_pc s p <> OGone ->
    ostep p s (mkOS (at_pc s p OGone) (os_file s) (if match os_lock s with Some q => Nat.eqb q p | None => false end then None else os_lock s)).

(** Any file may be there from earlier. *)
Inductive oreach (old : list byte) : ostate -> Prop :=
| or_start : oreach old (mkOS (fun _ => OStart) old None)
| or_step p s s' : oreach old s -> ostep p s s' -> oreach old s'.
End Owner.
