(** Specification of the rounding of 64-bit floats, without an algorithm. *)
From Coq Require Import ZArith NArith QArith Qabs Qpower Bool.
From Verif Require Import F64M.
Open Scope Q_scope.

(** The numbers that are floats: 53 binary digits and an exponent that is not too small. *)
Definition is_float (y : Q) : Prop :=
  exists m e, (Z.abs m < 2 ^ 53)%Z /\ (-1074 <= e)%Z /\ y == inject_Z m * pow2 e.

(** As near as any float. *)
Definition nearest (q r : Q) : Prop :=
  is_float r /\ forall y, is_float y -> Qabs (q - r) <= Qabs (q - y).

(** The last digit is even, all 53 digits being used unless the number is subnormal. *)
Definition even_float (r : Q) : Prop :=
  exists m e, (Z.abs m < 2 ^ 53)%Z /\ (-1074 <= e)%Z /\ r == inject_Z m * pow2 e
    /\ Z.even m = true /\ ((2 ^ 52 <= Z.abs m)%Z \/ e = (-1074)%Z).

(** The larger of two floats that are as near is taken only if it is the even one, and the
    smaller likewise. *)
Definition ties_to_even (q r : Q) : Prop :=
  forall y, is_float y -> Qabs (q - r) == Qabs (q - y) -> y == r \/ even_float r.
