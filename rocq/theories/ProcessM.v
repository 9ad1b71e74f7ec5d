(** Model of src/process.rs and src/process/unix.rs: running one subprocess. *)
From Coq Require Import String List NArith ZArith Bool.
From Verif Require Import Text.
Import ListNotations.

(** src/process.rs:142-156 [Exit]. *)
Inductive exit_t :=
| ExSuccess
| ExFailure (code : Z)
| ExTimeout
| ExSignalled (sig : Z)
| ExOther.

(** src/process.rs:159-161, 163-165, 167-169. *)
Definition is_success (e : exit_t) : bool := match e with ExSuccess => true | _ => false end.
Definition is_timeout (e : exit_t) : bool := match e with ExTimeout => true | _ => false end.
Definition is_failure (e : exit_t) : bool := match e with ExFailure _ => true | _ => false end.

(** The operating system's wait status, as seen through [ExitStatus::code] and
    [ExitStatus::signal]. *)
Inductive wait_status :=
| WExited (code : Z)
| WSignaled (sig : Z)
| WUnknown.

(** src/process/unix.rs:40-54 [From<ExitStatus> for Exit]. *)
Definition exit_of_status (w : wait_status) : exit_t :=
  match w with
  | WExited code => if (code =? 0)%Z then ExSuccess else ExFailure code
  | WSignaled s => ExSignalled s
  | WUnknown => ExOther
  end.

(** What one call of [poll] observes of the world:
    elapsed time since the start, the interrupt flag, the result of [try_wait]
    ([None]: still running), whether [try_wait] itself fails, whether [killpg]
    succeeds (or reports that the group is gone), and whether the child then
    ends so that [wait] returns. *)
Record sample := mkSample {
  sm_elapsed : N;
  sm_interrupted : bool;
  sm_status : option wait_status;
  sm_wait_err : bool;
  sm_kill_ok : bool;
  sm_dies : bool
}.

(** Result of one [poll]: nothing yet, a status, an error, or blocked forever in
    [Child::wait] (src/process.rs:134) because the child ignores SIGTERM. *)
Inductive poll_result :=
| PollPending
| PollExit (e : exit_t)
| PollErr
| PollBlocked.

(** Effects of a poll on the child, in order. *)
Inductive effect := EffKillGroup | EffReaped.

(** src/process.rs:129-139 [terminate] and src/process/unix.rs:16-33
    [terminate_child]: one SIGTERM to the group, then wait without limit.
    [Some true]: returned Ok; [Some false]: returned an error; [None]: blocks. *)
Definition terminate (s : sample) : option bool * list effect :=
  if sm_kill_ok s then
    if sm_dies s then (Some true, [EffKillGroup; EffReaped])
    else (None, [EffKillGroup])
  else (Some false, []).

(** src/process.rs:107-121 [poll]. *)
Definition poll (timeout : option N) (s : sample) : poll_result * list effect :=
  if match timeout with Some t => (t <? sm_elapsed s)%N | None => false end then
    match terminate s with
    | (Some true, fx) => (PollExit ExTimeout, fx)
    | (Some false, fx) => (PollErr, fx)
    | (None, fx) => (PollBlocked, fx)
    end
  else if sm_interrupted s then
    match terminate s with
    | (None, fx) => (PollBlocked, fx)
    | (Some _, fx) => (PollErr, fx)
    end
  else if sm_wait_err s then (PollErr, [])
  else match sm_status s with
       | Some w => (PollExit (exit_of_status w), [EffReaped])
       | None => (PollPending, [])
       end.

(** Result of the whole run over the polls seen so far. *)
Inductive run_result :=
| RunPending
| RunExit (e : exit_t)
| RunErr
| RunBlocked.

(** src/process.rs:58-64: the loop in [Process::run]; the list is the sequence
    of observations at successive polls.  Spawn errors (57, 95-97) and log
    writes (65) are not modelled here. *)
Fixpoint run_loop (timeout : option N) (samples : list sample) : run_result * list effect :=
  match samples with
  | [] => (RunPending, [])
  | s :: rest =>
      match poll timeout s with
      | (PollPending, fx) =>
          let (r, fx') := run_loop timeout rest in (r, fx ++ fx')
      | (PollExit e, fx) => (RunExit e, fx)
      | (PollErr, fx) => (RunErr, fx)
      | (PollBlocked, fx) => (RunBlocked, fx)
      end
  end.

(** src/process.rs:182-192: quoting of one char. *)
Definition quote_char (c : chr) : text :=
  if N.eqb c TAB then tx "\t"
  else if N.eqb c NL then tx "\n"
  else if N.eqb c CR then tx "\r"
  else if N.eqb c SP || N.eqb c BSLASH || N.eqb c APOS || N.eqb c QUOTE then [BSLASH; c]
  else [c].

(** src/process.rs:176-196 [quote_argv]. *)
Definition quote_argv (argv : list text) : text :=
  fold_left (fun r s => (match r with [] => r | _ => r ++ [SP] end) ++ flat_map quote_char s) argv [].
