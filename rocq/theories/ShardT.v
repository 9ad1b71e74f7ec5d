(** Property theorems: C03, C04. *)
From Coq Require Import String List NArith Bool Permutation.
From Verif Require Import Text ShardM ShardS ShardP.
Import ListNotations.

(** C03: the shards 0/n .. (n-1)/n together are a permutation of the whole list
    (so each position is in exactly one shard); the j-th element of shard k is
    element k + j*n (so order is kept); sizes differ by at most one. *)
Theorem C03_shards_partition : forall A (l : list A) n, (0 < n)%N ->
  exists f : N -> list A,
    (forall k, (k < n)%N -> shard_select (mkShard k n) l = Some (f k))
    /\ Permutation (flat_map f (map N.of_nat (seq 0 (N.to_nat n)))) l
    /\ (forall k j, (k < n)%N -> nth_error (f k) j = nth_error l (N.to_nat (k + N.of_nat j * n)))
    /\ (forall k1 k2, (k1 < n)%N -> (k2 < n)%N -> length (f k1) <= length (f k2) + 1).
Proof. exact c03. Qed.
Print Assumptions C03_shards_partition.

Example C03_case :
  shard_select (mkShard 1 4) [0;1;2;3;4;5;6;7;8;9] = Some [1;5;9]
  /\ shard_select (mkShard 3 4) [0;1;2;3;4;5;6;7;8;9] = Some [3;7].
Proof. vm_compute. auto. Qed.

(** C04: which argument strings are accepted, and with which meaning. *)
Theorem C04_shard_argument : forall s k n, shard_from_str s = Some (mkShard k n) <->
  (exists a b, s = a ++ SLASH :: b /\ ~ In SLASH a /\ denotes a k /\ denotes b n /\ (k < n)%N).
Proof. exact shard_from_str_iff. Qed.
Print Assumptions C04_shard_argument.

(** C04: an accepted shard never makes the selection panic. *)
Theorem C04_accepted_shard_selects : forall A s sh (l : list A),
  shard_from_str s = Some sh -> exists r, shard_select sh l = Some r.
Proof. exact select_total. Qed.
Print Assumptions C04_accepted_shard_selects.

Example C04_case :
  shard_from_str (tx "2/5") = Some (mkShard 2 5) /\ shard_from_str (tx "+1/04") = Some (mkShard 1 4)
  /\ shard_from_str (tx "2") = None /\ shard_from_str (tx "2/0") = None /\ shard_from_str (tx "5/2") = None
  /\ shard_from_str (tx "1/18446744073709551616") = None /\ shard_from_str (tx "1/2/3") = None.
Proof. vm_compute. repeat split. Qed.
