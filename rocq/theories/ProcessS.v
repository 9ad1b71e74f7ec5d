(** Specification for C24 and C46. *)
From Coq Require Import String List NArith ZArith Bool.
From Verif Require Import Text ProcessM.
Import ListNotations.

(** The limit has passed at this poll. *)
Definition past (timeout : option N) (s : sample) : Prop :=
  exists t, timeout = Some t /\ (t < sm_elapsed s)%N.

(** Nothing to report at this poll. *)
Definition quiet (timeout : option N) (s : sample) : Prop :=
  ~ past timeout s /\ sm_interrupted s = false /\ sm_wait_err s = false /\ sm_status s = None.

(** A sample at which a well-behaved hung child is seen: still running, no
    interrupt, kill works. *)
Definition hung (s : sample) : Prop :=
  sm_status s = None /\ sm_interrupted s = false /\ sm_wait_err s = false
  /\ sm_kill_ok s = true /\ sm_dies s = true.

(** Polls are at most [d] apart. *)
Inductive spaced (d : N) : N -> list sample -> Prop :=
| spaced_nil : forall e, spaced d e []
| spaced_cons : forall e s l, (sm_elapsed s <= e + d)%N -> spaced d (sm_elapsed s) l -> spaced d e (s :: l).

(** What a poll that is not quiet ends the run with, and what is done to the child. *)
Inductive ends_with (timeout : option N) (s : sample) : run_result -> list effect -> Prop :=
| ew_timeout : past timeout s -> sm_kill_ok s = true -> sm_dies s = true ->
    ends_with timeout s (RunExit ExTimeout) [EffKillGroup; EffReaped]
| ew_interrupt : ~ past timeout s -> sm_interrupted s = true -> sm_kill_ok s = true -> sm_dies s = true ->
    ends_with timeout s RunErr [EffKillGroup; EffReaped]
| ew_blocked : past timeout s \/ sm_interrupted s = true -> sm_kill_ok s = true -> sm_dies s = false ->
    ends_with timeout s RunBlocked [EffKillGroup]
| ew_kill_failed : past timeout s \/ sm_interrupted s = true -> sm_kill_ok s = false ->
    ends_with timeout s RunErr []
| ew_wait_failed : ~ past timeout s -> sm_interrupted s = false -> sm_wait_err s = true ->
    ends_with timeout s RunErr []
| ew_success : ~ past timeout s -> sm_interrupted s = false -> sm_wait_err s = false ->
    sm_status s = Some (WExited 0) -> ends_with timeout s (RunExit ExSuccess) [EffReaped]
| ew_failure : forall c, ~ past timeout s -> sm_interrupted s = false -> sm_wait_err s = false ->
    sm_status s = Some (WExited c) -> c <> 0%Z -> ends_with timeout s (RunExit (ExFailure c)) [EffReaped]
| ew_signal : forall c, ~ past timeout s -> sm_interrupted s = false -> sm_wait_err s = false ->
    sm_status s = Some (WSignaled c) -> ends_with timeout s (RunExit (ExSignalled c)) [EffReaped]
| ew_other : ~ past timeout s -> sm_interrupted s = false -> sm_wait_err s = false ->
    sm_status s = Some WUnknown -> ends_with timeout s (RunExit ExOther) [EffReaped].

(** Decoder: backslash escapes, spaces separate arguments. *)
Fixpoint unquote (cur : text) (s : text) : list text :=
  match s with
  | [] => [cur]
  | c :: s' =>
      if N.eqb c BSLASH then
        match s' with
        | [] => [cur]
        | d :: s'' =>
            let ch := if N.eqb d 116 then TAB else if N.eqb d 110 then NL
                      else if N.eqb d 114 then CR else d in
            unquote (cur ++ [ch]) s''
        end
      else if N.eqb c SP then cur :: unquote [] s'
      else unquote (cur ++ [c]) s'
  end.


(** How a character is written in a command line in a log. *)
Inductive escaped : chr -> text -> Prop :=
| esc_tab : escaped 9%N (tx "\t")
| esc_nl : escaped 10%N (tx "\n")
| esc_cr : escaped 13%N (tx "\r")
| esc_space : escaped 32%N (tx "\ ")
| esc_backslash : escaped 92%N (tx "\\")
| esc_apostrophe : escaped 39%N (tx "\'")
| esc_quote : escaped 34%N [92%N; 34%N]
| esc_plain c : ~ In c [9; 10; 13; 32; 92; 39; 34]%N -> escaped c [c].
