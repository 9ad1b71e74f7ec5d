(** Specification of the time limits of C23 and of the times in options (C22): what numbers of
    seconds are durations, and how near to the exact product the limits are. *)
From Coq Require Import NArith ZArith QArith Qabs Bool.
From Verif Require Import F64M.
Open Scope Q_scope.

(** A time of [d] nanoseconds, in seconds. *)
Definition exact_secs (d : N) : Q := Z.of_N d # 1000000000.

(** [n] nanoseconds are as near as can be to [x] seconds; [x] is finite, not negative, and less than
    2^64. *)
Definition duration_of (x : f64) (n : N) : Prop :=
  exists q, x = Fin q /\ 0 <= q /\ q <= 18446744073709551615
    /\ Qabs (q * 1000000000 - inject_Z (Z.of_N n)) <= 1 # 2.

(** There is no such duration: [x] is infinite, not a number, negative, or too large. *)
Definition no_duration (x : f64) : Prop := forall n, ~ duration_of x n.

(** [s] is the least whole number that is not below [x]. *)
Definition least_whole (x : Q) (s : N) : Prop :=
  x <= inject_Z (Z.of_N s) /\ forall s', x <= inject_Z (Z.of_N s') -> (s <= s')%N.

(** [x] is [y] but for errors of 64-bit floats: 2^-51 of it, and half of the least float. *)
Definition close (x y : Q) : Prop := Qabs (x - y) <= y * (2 # 1) ^ (-51) + (2 # 1) ^ (-1075).

(** The multiplier, 5 if none is given. *)
Definition multiplier (given : option f64) (m : Q) : Prop :=
  given = Some (Fin m) \/ given = None /\ m = 5.

(** Just under 2^64 seconds, which is more than 10^11 years. *)
Definition LARGE : Q := 18000000000000000000.
