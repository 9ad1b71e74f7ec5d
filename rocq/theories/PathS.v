(** Specification for C27, C48 and C50. *)
From Coq Require Import String List NArith ZArith Bool Arith.
From Verif Require Import Text PathM.
Import ListNotations.

(** Follow a relative path from a directory of the tree, given as the list of
    names from the root (innermost first).  [None]: it steps out of the tree. *)
Fixpoint walk (here : list text) (cs : list comp) : option (list text) :=
  match cs with
  | [] => Some here
  | Normal t :: cs' => walk (t :: here) cs'
  | Cur :: cs' => walk here cs'
  | Parent :: cs' => match here with [] => None | _ :: up => walk up cs' end
  | Root :: _ => None
  end.

(** Numbers of steps down and up. *)
Definition downs (cs : list comp) : nat :=
  length (filter (fun c => match c with Normal _ => true | _ => false end) cs).
Definition ups (cs : list comp) : nat :=
  length (filter (fun c => match c with Parent => true | _ => false end) cs).

Definition relative (p : text) : Prop := is_absolute p = false.

(** Is position [i] of [s] a carriage return directly before a newline? *)
Definition cr_before_nl (s : text) (i : nat) : bool :=
  match nth_error s i, nth_error s (S i) with
  | Some c, Some d => N.eqb c CR && N.eqb d NL
  | _, _ => false
  end.

(** The text without those positions. *)
Definition without_crlf_cr (s : text) : text :=
  flat_map (fun i => if cr_before_nl s i then []
                     else match nth_error s i with Some c => [c] | None => [] end)
           (seq 0 (length s)).

(** The characters that must not occur in generated file names. *)
Definition special (c : chr) : Prop := In c (tx "/\ :<>?*|" ++ [QUOTE]).
