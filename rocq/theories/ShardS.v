(** Specification for shard arguments. *)
From Coq Require Import List NArith Bool.
From Verif Require Import Text.
Import ListNotations.

(** Value of a decimal numeral, by place value from the right. *)
Fixpoint place_value (rs : list chr) : N :=
  match rs with
  | [] => 0%N
  | c :: rs' => ((c - 48) + 10 * place_value rs')%N
  end.

(** [s] denotes the machine integer [n]: optional '+', then one or more ASCII
    digits of value [n] below 2^64. *)
Definition denotes (s : text) (n : N) : Prop :=
  exists ds, (s = ds \/ s = 43%N :: ds) /\ ds <> [] /\
    (forall c, In c ds -> (48 <= c <= 57)%N) /\
    place_value (rev ds) = n /\ (n < 2 ^ 64)%N.
