(** What a copy of a tree must contain. *)
From Coq Require Import String List NArith Bool Arith.
Import ListNotations.
From Verif Require Import Text CopyM.

(** [at_path e p s]: the tree [e] has an entry of shape [s] at [p]. *)
Inductive at_path : entry -> list text -> entry -> Prop :=
| at_here e : at_path e [] e
| at_below cs n c p s : In (n, c) cs -> at_path c p s -> at_path (EDir cs) (n :: p) s.

(** A tree as file systems have them: names in a directory differ. *)
Inductive well_formed : entry -> Prop :=
| wf_dir cs : NoDup (map fst cs) -> (forall n c, In (n, c) cs -> well_formed c) -> well_formed (EDir cs)
| wf_file m b : well_formed (EFile m b)
| wf_link t : well_formed (ELink t)
| wf_special : well_formed ESpecial.

(** Names that are left out. *)
Definition vcs_name (n : text) : Prop :=
  In n [tx ".git"; tx ".hg"; tx ".bzr"; tx ".svn"; tx "_darcs"; tx ".jj"; tx ".pijul"].
Definition left_out (copy_vcs gitignore : bool) (ignored : list text -> bool -> bool) (top : entry) (p : list text) : Prop :=
  exists above n below e, p = above ++ n :: below /\ at_path top (above ++ [n]) e
    /\ (n = tx "mutants.out" \/ n = tx "mutants.out.old" \/ (copy_vcs = false /\ vcs_name n)
        \/ (gitignore = true /\ ignored (above ++ [n]) (match e with EDir _ => true | _ => false end) = true)).
