(** 32-bit floats, as far as src/console.rs uses them to print times: as F64M, with 24 binary digits. *)
From Coq Require Import ZArith NArith QArith Qround Qpower Bool.
From Verif Require Import F64M.
Open Scope Q_scope.

(** The exponent of the last of the 24 binary digits, which is not below that of the least
    subnormal number. *)
Definition last_digit32 (q : Q) : Z := Z.max (flog2 q - 23) (-149).

Definition rnd32_up (q : Q) : Q :=
  let e := last_digit32 q in inject_Z (round_even (q / pow2 e)) * pow2 e.

(** IEEE 754 round to nearest, ties to even, of Rust's [f32], for numbers that are not negative.  Overflow to
    infinity is left out: a number of seconds is below 2^64. *)
Definition rnd32 (q : Q) : Q :=
  match Qcompare 0 q with
  | Eq => 0
  | Lt => rnd32_up q
  | Gt => - rnd32_up (- q)
  end.
