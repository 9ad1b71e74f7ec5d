(** Specification of the rounding of 32-bit floats, without an algorithm. *)
From Coq Require Import ZArith NArith QArith Qabs Qpower Bool.
From Verif Require Import F64M F32M.
Open Scope Q_scope.

(** The numbers that are floats: 24 binary digits and an exponent that is not too small. *)
Definition is_float32 (y : Q) : Prop :=
  exists m e, (Z.abs m < 2 ^ 24)%Z /\ (-149 <= e)%Z /\ y == inject_Z m * pow2 e.

(** As near as any float. *)
Definition nearest32 (q r : Q) : Prop :=
  is_float32 r /\ forall y, is_float32 y -> Qabs (q - r) <= Qabs (q - y).

(** The last digit is even, all 24 digits being used unless the number is subnormal. *)
Definition even_float32 (r : Q) : Prop :=
  exists m e, (Z.abs m < 2 ^ 24)%Z /\ (-149 <= e)%Z /\ r == inject_Z m * pow2 e
    /\ Z.even m = true /\ ((2 ^ 23 <= Z.abs m)%Z \/ e = (-149)%Z).

(** The larger of two floats that are as near is taken only if it is the even one, and the
    smaller likewise. *)
Definition ties_to_even32 (q r : Q) : Prop :=
  forall y, is_float32 y -> Qabs (q - r) == Qabs (q - y) -> y == r \/ even_float32 r.
