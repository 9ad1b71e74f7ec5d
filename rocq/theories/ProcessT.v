(** Property theorems: C24, C46. *)
From Coq Require Import String List NArith ZArith Bool.
From Verif Require Import Text ProcessM ProcessS ProcessP.
Import ListNotations.

(** C24: the whole behaviour.  While every poll is quiet the run goes on and nothing is done to the
    child; the first poll that is not quiet ends it as specified, whatever comes after. *)
Theorem C24_complete : forall timeout samples,
  (Forall (quiet timeout) samples /\ run_loop timeout samples = (RunPending, []))
  \/ exists pre s post r fx, samples = pre ++ s :: post /\ Forall (quiet timeout) pre /\ ends_with timeout s r fx
       /\ run_loop timeout samples = (r, fx).
Proof. exact run_complete. Qed.
Print Assumptions C24_complete.

(** C43: an interrupt seen at a poll ends the run with an error, never with a result, after the
    process group was signalled if that is possible. *)
Theorem C43_interrupted_process : forall timeout pre s post, Forall (quiet timeout) pre -> ~ past timeout s -> sm_interrupted s = true ->
  (sm_kill_ok s = true -> sm_dies s = true -> run_loop timeout (pre ++ s :: post) = (RunErr, [EffKillGroup; EffReaped]))
  /\ forall e, fst (run_loop timeout (pre ++ s :: post)) <> RunExit e.
Proof. exact run_interrupted. Qed.
Print Assumptions C43_interrupted_process.

(** C24: a timeout is reported only at a poll after the limit, all earlier polls
    having seen the child running and within the limit; before it is reported
    the whole process group has been signalled and the child reaped. *)
Theorem C24_timeout_reported : forall timeout samples fx,
  run_loop timeout samples = (RunExit ExTimeout, fx) ->
  exists t pre s post, timeout = Some t /\ samples = pre ++ s :: post
    /\ (t < sm_elapsed s)%N
    /\ (forall q, In q pre -> (sm_elapsed q <= t)%N /\ sm_status q = None)
    /\ fx = [EffKillGroup; EffReaped].
Proof. exact run_timeout_iff. Qed.
Print Assumptions C24_timeout_reported.

(** C24: success means exit status 0 seen at a poll not later than the limit. *)
Theorem C24_success_is_real : forall timeout samples fx,
  run_loop timeout samples = (RunExit ExSuccess, fx) ->
  exists pre s post, samples = pre ++ s :: post /\ sm_status s = Some (WExited 0)
    /\ (forall t, timeout = Some t -> (sm_elapsed s <= t)%N)
    /\ sm_interrupted s = false /\ fx = [EffReaped].
Proof. exact run_success. Qed.
Print Assumptions C24_success_is_real.

(** C24: likewise a failure code is the code the child exited with. *)
Theorem C24_failure_is_real : forall timeout samples c fx,
  run_loop timeout samples = (RunExit (ExFailure c), fx) ->
  exists pre s post, samples = pre ++ s :: post /\ sm_status s = Some (WExited c) /\ c <> 0%Z
    /\ (forall t, timeout = Some t -> (sm_elapsed s <= t)%N).
Proof. exact run_failure. Qed.
Print Assumptions C24_failure_is_real.

(** C24: a hung child that dies on SIGTERM is reported as a timeout as soon as a
    poll happens past the limit.
    Missing: a child that ignores SIGTERM, see C24_sigterm_ignored_refuted. *)
Theorem C24_hung_child_times_out_partial : forall t samples,
  Forall hung samples -> (exists s, In s samples /\ (t < sm_elapsed s)%N) ->
  run_loop (Some t) samples = (RunExit ExTimeout, [EffKillGroup; EffReaped]).
Proof. exact run_hung. Qed.
Print Assumptions C24_hung_child_times_out_partial.

(** C24: if polls are at most [d] apart, the limit is overrun by at most [d].
    Missing: a child that ignores SIGTERM, see C24_sigterm_ignored_refuted. *)
Theorem C24_timeout_bound_partial : forall d t samples fx,
  spaced d 0 samples ->
  run_loop (Some t) samples = (RunExit ExTimeout, fx) ->
  exists pre s post, samples = pre ++ s :: post /\ (t < sm_elapsed s <= t + d)%N
    /\ (forall q, In q pre -> (sm_elapsed q <= t)%N).
Proof. exact run_timeout_bound. Qed.
Print Assumptions C24_timeout_bound_partial.

(** C24: without a limit no timeout is ever reported. *)
Theorem C24_no_limit_no_timeout : forall samples fx,
  run_loop None samples <> (RunExit ExTimeout, fx).
Proof. exact run_no_timeout. Qed.
Print Assumptions C24_no_limit_no_timeout.

Definition running (t : N) := mkSample t false None false true true.

Example C24_case :
  Forall hung [running 0; running 50; running 100; running 150]
  /\ spaced 50 0 [running 0; running 50; running 100; running 150]
  /\ run_loop (Some 120%N) [running 0; running 50; running 100; running 150]
     = (RunExit ExTimeout, [EffKillGroup; EffReaped])
  /\ run_loop (Some 120%N) [running 0; mkSample 50 false (Some (WExited 0)) false true true]
     = (RunExit ExSuccess, [EffReaped]).
Proof.
  split; [repeat constructor|]. split; [repeat constructor; vm_compute; discriminate|].
  split; reflexivity.
Qed.

Example C43_case_process :
  run_loop (Some 120%N) [running 0; mkSample 50 true None false true true; running 100] = (RunErr, [EffKillGroup; EffReaped])
  /\ run_loop None [running 0; mkSample 50 true (Some (WExited 0)) false true true] = (RunErr, [EffKillGroup; EffReaped])
  /\ quiet (Some 120%N) (running 0).
Proof.
  split; [reflexivity|]. split; [reflexivity|].
  split; [|repeat split]. intros (t & E & H). injection E as <-. discriminate H.
Qed.

(** Finding: only SIGTERM is sent and the wait afterwards is unbounded, so a hung
    child that ignores SIGTERM blocks the run: it is neither stopped nor
    reported, whatever the limit and however many more polls there would be. *)
Theorem C24_sigterm_ignored_blocks :
  forall t pre s post, Forall hung pre -> (forall q, In q pre -> (sm_elapsed q <= t)%N) ->
  (t < sm_elapsed s)%N -> sm_kill_ok s = true -> sm_dies s = false ->
  fst (run_loop (Some t) (pre ++ s :: post)) = RunBlocked.
Proof. exact run_blocked. Qed.
Print Assumptions C24_sigterm_ignored_blocks.

Theorem C24_sigterm_ignored_refuted :
  exists t samples, (exists s, In s samples /\ (t < sm_elapsed s)%N)
    /\ (forall s, In s samples -> sm_status s = None /\ sm_interrupted s = false)
    /\ fst (run_loop (Some t) samples) <> RunExit ExTimeout.
Proof.
  exists 20%N, [running 0; mkSample 50 false None false true false].
  split; [eexists; split; [right; left; reflexivity|reflexivity]|].
  split; [intros s [<-|[<-|[]]]; auto|discriminate].
Qed.
Print Assumptions C24_sigterm_ignored_refuted.

(** Finding: a child that exited with status 0 within the limit is still reported
    as a timeout if the first poll that could see it happens past the limit
    (polls are 50ms apart). *)
Theorem C24_late_poll_refuted :
  exists t samples, (forall s, In s samples -> sm_elapsed s = 0%N \/ sm_status s = Some (WExited 0))
    /\ run_loop (Some t) samples = (RunExit ExTimeout, [EffKillGroup; EffReaped]).
Proof.
  exists 20%N, [running 0; mkSample 50 false (Some (WExited 0)) false true true].
  split; [|reflexivity]. intros s [<-|[<-|[]]]; auto.
Qed.
Print Assumptions C24_late_poll_refuted.

(** C46: the logged command line determines the arguments when the first one, the program,
    is not empty (see C46_empty_first_refuted). *)
Theorem C46_quoted_argv_decodes : forall a args, a <> [] ->
  unquote [] (quote_argv (a :: args)) = a :: args.
Proof. exact quote_roundtrip. Qed.
Print Assumptions C46_quoted_argv_decodes.

(** C46: it stays on one line. *)
Theorem C46_quoted_argv_one_line : forall argv x, In x (quote_argv argv) -> x <> NL /\ x <> CR /\ x <> TAB.
Proof. exact quote_argv_chars. Qed.
Print Assumptions C46_quoted_argv_one_line.

(** C46: word for word: arguments separated by one space, each of their characters as in the
    table. *)
Theorem C46_quoting : forall c t, quote_char c = t <-> escaped c t.
Proof. exact quote_char_table. Qed.
Print Assumptions C46_quoting.

Theorem C46_words : forall a args, a <> [] -> quote_argv (a :: args) = join [SP] (map (flat_map quote_char) (a :: args)).
Proof. exact quote_argv_words. Qed.
Print Assumptions C46_words.

Example C46_case : quote_argv [tx "foo bar"; []; tx "\blah\x"; [NL; TAB]] = tx "foo\ bar  \\blah\\x \n\t"
  /\ quote_argv [[]; tx "a"] = quote_argv [tx "a"].
Proof. split; reflexivity. Qed.

(** Finding: an empty first argument leaves no trace. *)
Theorem C46_empty_first_refuted : exists a b, a <> b /\ quote_argv a = quote_argv b.
Proof. exists [[]; tx "a"], [tx "a"]. split; [discriminate|reflexivity]. Qed.
Print Assumptions C46_empty_first_refuted.
