(** Specification of manifest rewriting (C28). *)
From Coq Require Import String List NArith ZArith Bool.
Import ListNotations.
From Verif Require Import Text PathM PathS ManifestM.

(** Steps into a document: a key of a table or an index of an array. *)
Inductive step := Key (k : text) | Index (n : nat).

(** The value at a place in a document. *)
Fixpoint at_place (v : toml) (p : list step) : option toml :=
  match p with
  | [] => Some v
  | Key k :: p' =>
      match v with
      | TTab l => match find (fun kv => text_eqb k (fst kv)) l with Some kv => at_place (snd kv) p' | None => None end
      | _ => None
      end
  | Index n :: p' =>
      match v with
      | TArr l => match nth_error l n with Some x => at_place x p' | None => None end
      | _ => None
      end
  end.

(** A place's value without what is inside it: strings and scalars themselves; for
    arrays and tables only their length and keys. *)
Inductive leaf := LStr (s : text) | LScalar (n : N) | LNan | LArr (n : nat) | LTab (keys : list text).
Definition leaf_of (v : toml) : leaf :=
  match v with
  | TStr s => LStr s
  | TScalar n => LScalar n
  | TNan => LNan
  | TArr l => LArr (length l)
  | TTab l => LTab (map fst l)
  end.

(** Places of dependency paths in a manifest. *)
Inductive dependency_path : list step -> Prop :=
| dp_dep : forall n, dependency_path [Key (tx "dependencies"); Key n; Key (tx "path")]
| dp_replace : forall n, dependency_path [Key (tx "replace"); Key n; Key (tx "path")]
| dp_patch : forall r n, dependency_path [Key (tx "patch"); Key r; Key n; Key (tx "path")].

(** Places of path overrides in a configuration file. *)
Inductive override_path : list step -> Prop :=
| op_paths : forall i, override_path [Key (tx "paths"); Index i].

(** The path leaves the directory it starts from. *)
Definition leaves (p : text) : Prop := is_absolute p = false /\ walk [] (components p) = None.

(** The same document up to paths at places [P] that leave the tree; those are
    continued from [source_dir]. *)
Definition rewritten (P : list step -> Prop) (source_dir : text) (v v' : toml) : Prop :=
  (forall p s, P p -> at_place v p = Some (TStr s) -> leaves s ->
     exists s', at_place v' p = Some (TStr s') /\ is_absolute s' = true
                /\ components s' = components source_dir ++ filter (fun c => negb (comp_eqb c Cur)) (components s))
  /\ (forall p, ~ (P p /\ exists s, at_place v p = Some (TStr s) /\ leaves s) ->
        option_map leaf_of (at_place v' p) = option_map leaf_of (at_place v p)).

(** A value inside another one (or the same). *)
Inductive inside : toml -> toml -> Prop :=
| in_here v : inside v v
| in_arr l x v : In x l -> inside v x -> inside v (TArr l)
| in_tab l k x v : In (k, x) l -> inside v x -> inside v (TTab l).
