(** Model of interrupts (ctrl-c): src/interrupt.rs, and what its flag does to the
    machine of src/lab.rs in [LabM]. *)
From Coq Require Import String List NArith ZArith Bool Arith.
From Verif Require Import Text SpanM PathM MutantM ProcessM OutcomeM OutputM LabM LabS.
Import ListNotations.

(** src/interrupt.rs:13: the flag [INTERRUPTED], beside the state of the run. *)
Record istate := mkI { is_lab : state; is_flag : bool }.

(** src/cargo.rs:58-67: a thread that waits for cargo goes on with a result only past
    [check_interrupted], whatever way the command ended; [Process::poll]
    (src/process.rs:112-115) makes the same check earlier, after which the command is
    stopped and the result is an error too. *)
Definition past_check (c c' : wpc) : bool :=
  match c, c' with
  | WCargo _ _ _ _ _, (WPhase _ _ _ _ | WRevert _ _ _) => true
  | _, _ => false
  end.

(** No thread passes a check in this step. *)
Definition no_check_passed (st st' : state) : Prop :=
  forall i c c', nth_error (threads st) i = Some c -> nth_error (threads st') i = Some c' ->
    past_check c c' = false.

Section Interrupt.
Context (P : params).

(** src/interrupt.rs:15-18: the handler sets the flag at any time, and nothing clears
    it; 22-29: with the flag set [check_interrupted] is an error.  The check while
    copying a tree (src/copy_tree.rs:63) is left out: a copy that was begun may end
    well or not. *)
Inductive istep (n : nat) : istate -> istate -> Prop :=
| is_signal : forall st f, istep n (mkI st f) (mkI st true)
| is_step : forall st st' f, step P n st st' -> (f = true -> no_check_passed st st') ->
    istep n (mkI st f) (mkI st' f).

Inductive isteps (n : nat) : istate -> istate -> Prop :=
| isteps_refl : forall s, isteps n s s
| isteps_more : forall s s' s'', isteps n s s' -> istep n s' s'' -> isteps n s s''.

(** The run may be interrupted before it begins. *)
Definition ireachable (o : entries) (t0 : tree) (ms : list mutant) (s : istate) : Prop :=
  exists f, isteps (length ms) (mkI (start_state P o t0 ms) f) s.

End Interrupt.
