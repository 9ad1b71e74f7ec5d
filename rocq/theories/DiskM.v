(** Model of writing source files in a build directory, src/build_dir.rs, on a disk with symbolic
    links. *)
From Coq Require Import String List NArith ZArith Bool Arith.
From Verif Require Import Text Utf8M PathM CopyM.
Import ListNotations.
Open Scope list_scope.

(** The disk: what is at each path from the root, given by its names.  (The [fs] of CopyM.) *)
Definition disk := list text -> option shape.

(** How Unix finds the file meant by a path, starting at the directory [here]: links are followed, also
    the last one, at most [links] of them.  [None]: no such file, or too many links.  A trailing slash
    or dot is not looked at. *)
Fixpoint resolve (links : nat) (d : disk) : list text -> list comp -> option (list text) :=
  fix go (here : list text) (cs : list comp) : option (list text) :=
    match cs with
    | [] => Some here
    | Root :: cs' => go [] cs'
    | Cur :: cs' => go here cs'
    | Parent :: cs' => go (removelast here) cs'
    | Normal n :: cs' =>
        match d (here ++ [n]) with
        | Some SDir => go (here ++ [n]) cs'
        | Some (SLink t) => match links with O => None | S k => resolve k d here (components t ++ cs') end
        | Some _ => match cs' with [] => Some (here ++ [n]) | _ => None end
        | None => None
        end
    end.

(** [Path::is_file] and [fs::read]: both follow links. *)
Definition read_file (links : nat) (d : disk) (p : text) : option (list byte) :=
  match resolve links d [] (components p) with
  | Some q => match d q with Some (SFile _ b) => Some b | _ => None end
  | None => None
  end.

(** src/build_dir.rs:92-98 [overwrite_file]: [is_file], then [fs::write], which truncates the file and
    writes; [None] is an error.  The path of the build directory is absolute. *)
Definition overwrite (links : nat) (d : disk) (build rel : text) (code : text) : option disk :=
  match resolve links d [] (components (path_join build rel)) with
  | Some q => match d q with Some (SFile m _) => Some (put d q (SFile m (encode code))) | _ => None end
  | None => None
  end.
