(** Specification vocabulary for C58. *)
From Coq Require Import String List NArith ZArith Bool Arith.
From Verif Require Import Text Utf8M PathM PathS CopyM CopyS DiskM.
Import ListNotations.
Open Scope list_scope.

(** [q] is in the directory [b], at any depth. *)
Definition inside (b q : list text) : Prop := exists r, q = b ++ r.
(** There are no links in the directory [b]. *)
Definition no_links (d : disk) (b : list text) : Prop := forall r t, d (b ++ r) <> Some (SLink t).
(** The two disks differ at most at [q]. *)
Definition differ_only_at (q : list text) (d d' : disk) : Prop := forall p, p <> q -> d' p = d p.
(** [c] is what is in the directory [b]. *)
Definition holds (d : disk) (b : list text) (c : disk) : Prop := forall r, d (b ++ r) = c r.

(** From the directory [here] the components lead to [p]: [..] goes up, and a link stands for
    its target, read in the directory the link is in. *)
Inductive leads (d : disk) : list text -> list comp -> list text -> Prop :=
| ld_end : forall here, leads d here [] here
| ld_step : forall here m c cs p, hop d here c m -> leads d m cs p -> leads d here (c :: cs) p
with hop (d : disk) : list text -> comp -> list text -> Prop :=
| hop_root : forall here, hop d here Root []
| hop_cur : forall here, hop d here Cur here
| hop_up : forall here n, hop d (here ++ [n]) Parent here
| hop_top : hop d [] Parent []
| hop_name : forall here n x, d (here ++ [n]) = Some x -> (forall t, x <> SLink t) -> hop d here (Normal n) (here ++ [n])
| hop_link : forall here n t p, d (here ++ [n]) = Some (SLink t) -> leads d here (components t) p -> hop d here (Normal n) p.
