(** Model of src/shard.rs. *)
From Coq Require Import String List NArith Bool Arith.
From Verif Require Import Text.
Import ListNotations.

(** src/shard.rs:11-16 [Shard]. *)
Record shard := mkShard { sh_k : N; sh_n : N }.

(** src/shard.rs:20-26: [enumerate().filter_map(i % n == k)], starting the
    enumeration at [i]. *)
Fixpoint select_from {A} (k n i : N) (l : list A) : list A :=
  match l with
  | [] => []
  | x :: l' =>
      if (i mod n =? k)%N then x :: select_from k n (i + 1)%N l'
      else select_from k n (i + 1)%N l'
  end.

(** src/shard.rs:20-26 [Shard::select].  [None] models the panic of [i % 0]. *)
Definition shard_select {A} (sh : shard) (l : list A) : option (list A) :=
  if (sh_n sh =? 0)%N then match l with [] => Some [] | _ => None end
  else Some (select_from (sh_k sh) (sh_n sh) 0%N l).

(** [usize::MAX] on a 64-bit target. *)
Definition usize_max : N := (2 ^ 64 - 1)%N.

(** Rust std: one step of the checked accumulation of a decimal integer. *)
Definition parse_step (acc : option N) (c : chr) : option N :=
  match acc with
  | None => None
  | Some a =>
      if is_digit c then
        let v := (a * 10 + digit_val c)%N in
        if (v <=? usize_max)%N then Some v else None
      else None
  end.

(** Rust std [str::parse::<usize>] (called at src/shard.rs:34-35): optional
    leading '+', at least one digit, digits only, checked overflow. *)
Definition parse_usize (s : text) : option N :=
  match s with
  | [] => None
  | c :: s' =>
      if N.eqb c 43 then (match s' with [] => None | _ => fold_left parse_step s' (Some 0%N) end)
      else fold_left parse_step s (Some 0%N)
  end.

(** src/shard.rs:29-39 [FromStr for Shard]; [None] models any error. *)
Definition shard_from_str (s : text) : option shard :=
  match split_once SLASH s with
  | None => None
  | Some (a, b) =>
      match parse_usize a, parse_usize b with
      | Some k, Some n => if (k <? n)%N then Some (mkShard k n) else None
      | _, _ => None
      end
  end.
