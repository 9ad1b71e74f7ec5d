(** Specification vocabulary for C59: what a thread is doing when ctrl-c is pressed. *)
From Coq Require Import String List NArith ZArith Bool Arith.
From Verif Require Import Text SpanM PathM MutantM ProcessM OutcomeM OutputM LabM LabS InterruptM.
Import ListNotations.

(** The thread has yet to run a cargo command for its scenario, or is running one. *)
Definition testing (c : wpc) : Prop :=
  match c with
  | WStart _ _ | WApply _ _ | WPhase _ _ _ (_ :: _) | WCargo _ _ _ _ _ => True
  | _ => False
  end.

(** All cargo commands of the scenario of [o] have ended, and their results are those
    of [o], which is not recorded yet. *)
Definition tested (c : wpc) (o : outcome mutant) : Prop :=
  match c with
  | WPhase _ s done [] | WRevert _ s done | WAdd _ s done => o = mkOutcome s done
  | _ => False
  end.

(** The steps of the threads, signals not counted. *)
Inductive isteps_k (P : params) (n : nat) : nat -> istate -> istate -> Prop :=
| ik_0 : forall s, isteps_k P n 0 s s
| ik_signal : forall k s st f, isteps_k P n k s (mkI st f) -> isteps_k P n k s (mkI st true)
| ik_step : forall k s st st' f, isteps_k P n k s (mkI st f) -> step P n st st' ->
    (f = true -> no_check_passed st st') -> isteps_k P n (S k) s (mkI st' f).
