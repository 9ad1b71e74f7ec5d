(** Model of paths as [camino::Utf8Path] on Unix, of src/path.rs, and of
    [SourceFile::load] in src/source.rs. *)
From Coq Require Import String List NArith ZArith Bool.
From Verif Require Import Text.
Import ListNotations.

(** Components of a path ([std::path::Component] on Unix). *)
Inductive comp := Root | Cur | Parent | Normal (t : text).

(** [Component::as_str]. *)
Definition comp_str (c : comp) : text :=
  match c with
  | Root => [SLASH]
  | Cur => [DOT]
  | Parent => [DOT; DOT]
  | Normal t => t
  end.

Definition comp_eqb (a b : comp) : bool :=
  match a, b with
  | Root, Root | Cur, Cur | Parent, Parent => true
  | Normal x, Normal y => text_eqb x y
  | _, _ => false
  end.

(** One piece between slashes: empty and "." pieces vanish. *)
Definition piece (t : text) : list comp :=
  if text_eqb t [] then []
  else if text_eqb t [DOT] then []
  else if text_eqb t [DOT; DOT] then [Parent]
  else [Normal t].

(** [Path::components] on Unix: a leading slash is the root; empty pieces and
    "." pieces are dropped, except that a leading "." of a relative path is kept. *)
Definition components (p : text) : list comp :=
  match p with
  | [] => []
  | c :: rest =>
      if N.eqb c SLASH then Root :: flat_map piece (split_on SLASH rest)
      else match split_on SLASH p with
           | first :: more =>
               (if text_eqb first [DOT] then [Cur] else piece first) ++ flat_map piece more
           | [] => []
           end
  end.

Fixpoint comps_eqb (a b : list comp) : bool :=
  match a, b with
  | [], [] => true
  | x :: a', y :: b' => comp_eqb x y && comps_eqb a' b'
  | _, _ => false
  end.

(** [Path]'s equality and hash go by components. *)
Definition path_eqb (a b : text) : bool := comps_eqb (components a) (components b).

Definition is_absolute (p : text) : bool := starts_with [SLASH] p.

(** [Path::join] on Unix. *)
Definition path_join (base p : text) : text :=
  if is_absolute p then p
  else match base with
       | [] => p
       | _ => if ends_with [SLASH] base then base ++ p else base ++ [SLASH] ++ p
       end.

(** src/path.rs:17-31 [ascent]: the loop, with the current and the maximal
    ascent. *)
Fixpoint ascent_loop (mx cur : Z) (cs : list comp) : Z :=
  match cs with
  | [] => mx
  | c :: cs' =>
      if text_eqb (comp_str c) [DOT; DOT] then ascent_loop (Z.max (cur + 1) mx) (cur + 1) cs'
      else if text_eqb (comp_str c) [DOT] then ascent_loop mx cur cs'
      else ascent_loop mx (cur - 1) cs'
  end.

Definition ascent (p : text) : Z := ascent_loop 0 0 (components p).

(** src/path.rs:42-51 [to_slash_path]. *)
Definition to_slash_path (p : text) : text :=
  join [SLASH]
    (map (fun c => if text_eqb c [SLASH] || text_eqb c [BSLASH] then [] else c)
      (filter (fun c => negb (text_eqb c [])) (map comp_str (components p)))).

(** [str::replace("\r\n", "\n")], used at src/source.rs:67. *)
Fixpoint crlf_to_lf (s : text) : text :=
  match s with
  | [] => []
  | c :: s' =>
      match s' with
      | d :: s'' => if N.eqb c CR && N.eqb d NL then NL :: crlf_to_lf s'' else c :: crlf_to_lf s'
      | [] => [c]
      end
  end.

(** src/source.rs:24-44 [SourceFile]; the package is represented by its name. *)
Record source_file := mkSF {
  sf_package : text;
  sf_path : text;
  sf_code : text;
  sf_top : bool
}.

Inductive load_result := LoadErr | LoadSkipped | Loaded (f : source_file).

(** src/source.rs:50-76 [SourceFile::load].  [read] is the file system:
    [read p] is the content of the file at path [p]; [None] is an error.  The
    tree root is [tree]. *)
Definition load (read : text -> option text) (tree rel package : text) (is_top : bool)
  : load_result :=
  if (0 <? ascent rel)%Z then LoadSkipped
  else match read (path_join tree rel) with
       | None => LoadErr
       | Some s => Loaded (mkSF package rel (crlf_to_lf s) is_top)
       end.

(** src/output.rs:356-364 [clean_filename]. *)
Definition clean_char (c : chr) : text :=
  if N.eqb c SLASH then [USCORE; USCORE]
  else if existsb (N.eqb c) (tx "\ :<>?*|" ++ [QUOTE]) then [USCORE]
  else [c].

Definition clean_filename (s : text) : text := flat_map clean_char s.
