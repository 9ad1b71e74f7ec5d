(** Model of src/manifest.rs on parsed TOML documents. *)
From Coq Require Import String List NArith ZArith Bool.
Import ListNotations.
From Verif Require Import Text PathM.

(** [toml::Value]. Numbers, booleans and dates are opaque scalars; a float that is not a
    number is apart because it is not equal to itself. Tables are lists of entries. *)
Inductive toml :=
| TStr (s : text)
| TScalar (n : N)
| TNan
| TArr (l : list toml)
| TTab (l : list (text * toml)).

(** [get_mut]: change the first entry with this key, if there is one. *)
Fixpoint get_mut (k : text) (f : toml -> toml) (l : list (text * toml)) : list (text * toml) :=
  match l with
  | [] => []
  | (k', v) :: l' => if text_eqb k k' then (k', f v) :: l' else (k', v) :: get_mut k f l'
  end.

(** src/manifest.rs:148-159 [fix_path]. *)
Definition fix_path (path source_dir : text) : option text :=
  if is_absolute path || Z.eqb (ascent path) 0 then None
  else Some (path_join source_dir path).

(** src/manifest.rs:92-97: a path value. *)
Definition fix_value (source_dir : text) (v : toml) : toml :=
  match v with
  | TStr s => match fix_path s source_dir with Some s' => TStr s' | None => v end
  | _ => v
  end.

(** src/manifest.rs:90-92: one dependency. *)
Definition fix_dependency (source_dir : text) (v : toml) : toml :=
  match v with
  | TTab l => TTab (get_mut (tx "path") (fix_value source_dir) l)
  | _ => v
  end.

(** src/manifest.rs:87-103 [fix_dependency_table]. *)
Definition fix_dependency_table (source_dir : text) (v : toml) : toml :=
  match v with
  | TTab l => TTab (map (fun kv => (fst kv, fix_dependency source_dir (snd kv))) l)
  | _ => v
  end.

(** src/manifest.rs:55-62: the patch table. *)
Definition fix_patch (source_dir : text) (v : toml) : toml :=
  match v with
  | TTab l => TTab (map (fun kv => (fst kv, fix_dependency_table source_dir (snd kv))) l)
  | _ => v
  end.

(** src/manifest.rs:43-63: the changes made to the document. *)
Definition fix_document (source_dir : text) (v : toml) : toml :=
  match v with
  | TTab l =>
      TTab (get_mut (tx "patch") (fix_patch source_dir)
        (get_mut (tx "replace") (fix_dependency_table source_dir)
          (get_mut (tx "dependencies") (fix_dependency_table source_dir) l)))
  | _ => v
  end.

(** [PartialEq for toml::Value]. *)
Fixpoint toml_eqb (a b : toml) {struct a} : bool :=
  match a, b with
  | TStr x, TStr y => text_eqb x y
  | TScalar x, TScalar y => N.eqb x y
  | TArr l, TArr m =>
      (fix go (l m : list toml) : bool :=
         match l, m with
         | [], [] => true
         | x :: l', y :: m' => toml_eqb x y && go l' m'
         | _, _ => false
         end) l m
  | TTab l, TTab m =>
      (fix go (l m : list (text * toml)) : bool :=
         match l, m with
         | [], [] => true
         | (k, x) :: l', (j, y) :: m' => text_eqb k j && toml_eqb x y && go l' m'
         | _, _ => false
         end) l m
  | _, _ => false
  end.

(** src/manifest.rs:37-69 [fix_manifest_toml] after parsing: [None] when nothing changed. *)
Definition fix_manifest_toml (source_dir : text) (v : toml) : option toml :=
  if toml_eqb (fix_document source_dir v) v then None else Some (fix_document source_dir v).

(** src/manifest.rs:125-134: the elements of [paths], and whether one changed. *)
Definition fix_paths (source_dir : text) (v : toml) : toml :=
  match v with TArr l => TArr (map (fix_value source_dir) l) | _ => v end.
Definition path_changes (source_dir : text) (v : toml) : bool :=
  match v with
  | TStr s => match fix_path s source_dir with Some _ => true | None => false end
  | _ => false
  end.

(** The first entry with a key ([Table::get]). *)
Definition lookup (k : text) (l : list (text * toml)) : option toml :=
  match find (fun kv => text_eqb k (fst kv)) l with Some kv => Some (snd kv) | None => None end.

(** src/manifest.rs:122-141 [fix_cargo_config_toml] after parsing. *)
Definition fix_config_document (source_dir : text) (v : toml) : toml :=
  match v with TTab l => TTab (get_mut (tx "paths") (fix_paths source_dir) l) | _ => v end.
Definition fix_cargo_config_toml (source_dir : text) (v : toml) : option toml :=
  let changed := match v with
                 | TTab l => match lookup (tx "paths") l with
                             | Some (TArr a) => existsb (path_changes source_dir) a
                             | _ => false
                             end
                 | _ => false
                 end in
  if changed then Some (fix_config_document source_dir v) else None.

Section File.
(** The TOML parser and printer. *)
Variable parse : text -> option toml.
Variable print : toml -> text.

(** src/manifest.rs:21-34 [fix_manifest], src/manifest.rs:106-115 [fix_cargo_config]: the
    new content of the file; [None] is an error. I/O errors are left out. *)
Definition fix_manifest_file (source_dir content : text) : option text :=
  match parse content with
  | None => None
  | Some v => Some match fix_manifest_toml source_dir v with Some v' => print v' | None => content end
  end.
Definition fix_config_file (source_dir content : text) : option text :=
  match parse content with
  | None => None
  | Some v => Some match fix_cargo_config_toml source_dir v with Some v' => print v' | None => content end
  end.
End File.
