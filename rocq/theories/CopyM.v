(** Model of copying the source tree, src/copy_tree.rs. *)
From Coq Require Import String List NArith Bool Arith.
Import ListNotations.
From Verif Require Import Text.

(** What is in a directory.  [ESpecial] is a socket, device or pipe.  Children are in the
    order in which the directory is read.  Permission bits are those of the file. *)
Inductive entry :=
| EFile (mode : N) (bytes : list N)
| EDir (children : list (text * entry))
| ELink (target : text)
| ESpecial.

(** An entry without what is below it. *)
Inductive shape := SFile (mode : N) (bytes : list N) | SDir | SLink (target : text) | SSpecial.
Definition shape_of (e : entry) : shape :=
  match e with EFile m b => SFile m b | EDir _ => SDir | ELink t => SLink t | ESpecial => SSpecial end.

(** src/copy_tree.rs:25 [VCS_DIRS]. *)
Definition vcs_dirs : list text := [tx ".git"; tx ".hg"; tx ".bzr"; tx ".svn"; tx "_darcs"; tx ".jj"; tx ".pijul"].
Definition mem (n : text) (l : list text) : bool := existsb (text_eqb n) l.

Section Copy.
(** Options. *)
Variable copy_vcs gitignore : bool.
(** Whether git's rules (in the tree, above it, and of the user) hide a path of a file or
    directory; false everywhere outside a git tree ([require_git]). *)
Variable ignored : list text -> bool -> bool.
(** Whether a name is UTF-8, and whether a file or link can be read and a directory listed. *)
Variable utf8 : text -> bool.
Variable readable : list text -> bool.

(** src/copy_tree.rs:54-59, the filter on names. *)
Definition name_kept (n : text) : bool :=
  negb (text_eqb n (tx "mutants.out")) && negb (text_eqb n (tx "mutants.out.old"))
  && (copy_vcs || negb (mem n vcs_dirs)).
Definition is_dir (e : entry) : bool := match e with EDir _ => true | _ => false end.
Definition skips (p : list text) (n : text) (e : entry) : bool :=
  negb (name_kept n) || (gitignore && ignored (p ++ [n]) (is_dir e)).

(** The order of [ignore::Walk]: an entry before what is below it.  The top is not filtered.
    Paths are given relative to the top (src/copy_tree.rs:65-68); links are not followed.
    [false] in the last place stands for an entry that the walk reports as an error. *)
Fixpoint walk (p : list text) (e : entry) : list (list text * shape * bool) :=
  (p, shape_of e, match e with EDir _ => readable p | _ => true end)
  :: match e with
     | EDir cs => (fix go (l : list (text * entry)) : list (list text * shape * bool) :=
                     match l with
                     | [] => []
                     | (n, c) :: l' => (if skips p n c then [] else walk (p ++ [n]) c) ++ go l'
                     end) cs
     | _ => []
     end.

(** The new tree, as a map from paths. *)
Definition fs := list text -> option shape.
Definition empty_dir : fs := fun p => match p with [] => Some SDir | _ => None end.
Definition path_eqb (p q : list text) : bool := if list_eq_dec (list_eq_dec N.eq_dec) p q then true else false.
Definition put (d : fs) (p : list text) (s : shape) : fs := fun q => if path_eqb q p then Some s else d q.
Definition parent_is_dir (d : fs) (p : list text) : bool :=
  match p with [] => false | _ => match d (removelast p) with Some SDir => true | _ => false end end.

(** [create_dir_all]: makes every missing directory on the way. *)
Fixpoint create_dirs (d : fs) (above rest : list text) : option fs :=
  match d above with
  | Some SDir => match rest with [] => Some d | n :: rest' => create_dirs d (above ++ [n]) rest' end
  | Some _ => None
  | None => match rest with
            | [] => Some (put d above SDir)
            | n :: rest' => create_dirs (put d above SDir) (above ++ [n]) rest'
            end
  end.

(** One turn of the loop at src/copy_tree.rs:62-102; [None] is an error.  [std::fs::copy]
    copies contents and permission bits, and overwrites a file but not a directory; it is not
    asked to write through a link.  Interrupts are left out. *)
Definition copy_one (d : fs) (x : list text * shape * bool) : option fs :=
  let '(p, s, ok) := x in
  if negb ok then None
  else if negb (forallb utf8 p) then None
  else match s with
       | SFile m b =>
           if readable p && parent_is_dir d p
           then match d p with
                | None | Some (SFile _ _) => Some (put d p (SFile m b))
                | Some _ => None
                end
           else None
       | SDir => create_dirs d [] p
       | SLink t =>
           if readable p && parent_is_dir d p
           then match d p with None => Some (put d p (SLink t)) | Some _ => None end
           else None
       | SSpecial => Some d
       end.
Fixpoint copy_all (d : fs) (l : list (list text * shape * bool)) : option fs :=
  match l with
  | [] => Some d
  | x :: l' => match copy_one d x with Some d' => copy_all d' l' | None => None end
  end.

(** src/copy_tree.rs:28-106 [copy_tree], into a new empty directory. *)
Definition copy_tree (top : entry) : option fs := copy_all empty_dir (walk [] top).
End Copy.
