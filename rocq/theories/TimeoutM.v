(** Model of src/timeouts.rs: choice of time limits.
    Durations are in nanoseconds.  Each operation on [f64] rounds its result by the
    function [rnd], which is [rnd64] of F64M in the program. *)
From Coq Require Import String List NArith ZArith QArith Qround Bool.
From Verif Require Import Text ProcessM OutcomeM F64M.
Import ListNotations.
Open Scope nat_scope.

Definition NS : N := 1000000000%N.

(** Largest whole number of seconds of a [std::time::Duration]. *)
Definition MAX_SECS : Z := 18446744073709551615%Z.

(** The options that matter here (src/options.rs fields [test_timeout],
    [build_timeout], [minimum_test_timeout], [test_timeout_multiplier],
    [build_timeout_multiplier], [check_only]). *)
Record timeout_opts := mkTO {
  to_test : option N;
  to_build : option N;
  to_minimum : N;
  to_test_mult : option f64;
  to_build_mult : option f64;
  to_check_only : bool
}.

(** src/timeouts.rs:14-18 [Timeouts]. *)
Record timeouts := mkTimeouts { tm_build : option N; tm_test : option N }.

(** [Duration::from_secs_f64] of a finite number: [None] is the panic on a negative value or
    overflow; otherwise the nearest nanosecond, an even one if two are as near. *)
Definition secs_of (q : Q) : option N :=
  if negb (Qle_bool 0 q) then None
  else if negb (Qle_bool q (inject_Z MAX_SECS)) then None
  else Some (Z.to_N (round_even (q * inject_Z (Z.of_N NS)))).

(** [Duration::from_secs_f64]; it panics also for infinity and for NaN. *)
Definition from_secs (x : f64) : option N :=
  match x with Fin q => secs_of q | Inf _ | NaN => None end.

(** src/timeouts.rs:49 [FALLBACK_TIMEOUT_SECS]. *)
Definition FALLBACK_TIMEOUT_SECS : N := 300%N.

Section F64.
Variable rnd : Q -> Q.

(** [Duration::as_secs_f64]: the seconds as [f64], plus the nanoseconds as [f64] (which is
    exact) divided by 10^9. *)
Definition as_secs (d : N) : Q :=
  rnd (rnd (inject_Z (Z.of_N (d / NS))) + rnd (Z.of_N (d mod NS) # 1000000000)).

(** src/timeouts.rs:54-79 [test_timeout]; [None] is the panic of
    [from_secs_f64]; messages are left out. *)
Definition test_timeout (baseline : option N) (o : timeout_opts) : option N :=
  match to_test o with
  | Some explicit => Some explicit
  | None =>
      match baseline with
      | Some d =>
          let m := match to_test_mult o with Some m => m | None => Fin (inject_Z 5) end in
          match from_secs (ceil64 (mul64 rnd (Fin (as_secs d)) m)) with
          | Some t => Some (N.max (to_minimum o) t)
          | None => None
          end
      | None => if to_check_only o then Some 0%N else Some (FALLBACK_TIMEOUT_SECS * NS)%N
      end
  end.

(** src/timeouts.rs:81-100 [build_timeout]; outer [None] is a panic. *)
Definition build_timeout (baseline : option N) (o : timeout_opts) : option (option N) :=
  match to_build o with
  | Some t => Some (Some t)
  | None =>
      match baseline, to_build_mult o with
      | Some d, Some m =>
          match from_secs (mul64 rnd (Fin (as_secs d)) m) with
          | Some t => Some (Some t)
          | None => None
          end
      | _, _ => Some None
      end
  end.

(** src/timeouts.rs:21-26 [for_baseline]. *)
Definition for_baseline (o : timeout_opts) : timeouts := mkTimeouts None (to_test o).

Definition both (b : option (option N)) (t : option N) : option timeouts :=
  match b, t with
  | Some b', Some t' => Some (mkTimeouts b' (Some t'))
  | _, _ => None
  end.

(** src/timeouts.rs:28-39 [from_baseline]. *)
Definition from_baseline {M} (baseline : outcome M) (o : timeout_opts) : option timeouts :=
  both (build_timeout (option_map pr_duration (find_phase baseline Build)) o)
       (test_timeout (option_map pr_duration (find_phase baseline Test)) o).

(** src/timeouts.rs:41-46 [without_baseline]. *)
Definition without_baseline (o : timeout_opts) : option timeouts :=
  both (build_timeout None o) (test_timeout None o).

End F64.

(** src/lab.rs:279-282: the limit for a phase. *)
Definition phase_timeout (t : timeouts) (p : phase) : option N :=
  match p with
  | Test => tm_test t
  | Build | Check => tm_build t
  end.

(** src/lab.rs:67-86: the limits used for mutants: [Some] baseline outcome when
    the baseline was run (and succeeded), [None] when it was skipped. *)
Definition mutant_timeouts {M} (rnd : Q -> Q) (baseline : option (outcome M)) (o : timeout_opts)
  : option timeouts :=
  match baseline with
  | Some b => from_baseline rnd b o
  | None => without_baseline rnd o
  end.
