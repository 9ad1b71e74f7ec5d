(** Model of discovery over the files of a tree in src/visit.rs. *)
From Coq Require Import String List NArith ZArith Bool Arith.
Import ListNotations.
From Verif Require Import Text SpanM PathM PackageM MutantM GlobM OptionsM PrettyM FnValueM VisitM.

(** [Path::parent] for a relative path of a file, as text: the part before the last slash
    without trailing slashes and "/." pieces.  [None] for the empty path.  Paths that end
    in a slash do not come up, since they are not files. *)
Fixpoint trim_rev (r : text) : text :=
  match r with
  | [] => []
  | c :: r' =>
      if N.eqb c SLASH then trim_rev r'
      else if N.eqb c DOT then match r' with d :: _ => if N.eqb d SLASH then trim_rev r' else r | [] => r end
      else r
  end.
Definition file_parent (p : text) : option text :=
  match split_once SLASH (rev p) with
  | Some (_, rd) => Some (rev (trim_rev rd))
  | None => match p with [] => None | _ => Some [] end
  end.

(** [Path::file_stem] of a last piece, and [Path::with_extension("")]. *)
Definition stem (b : text) : text :=
  if text_eqb b [DOT; DOT] then b
  else match split_once DOT (rev b) with
       | Some (_, r :: rs) => rev (r :: rs)
       | _ => b
       end.
Definition without_extension (p : text) : text :=
  match split_once SLASH (rev p) with
  | Some (rb, rd) => rev rd ++ [SLASH] ++ stem (rev rb)
  | None => stem p
  end.

(** [Path::ends_with("mod.rs")]. *)
Definition named_mod_rs (p : text) : bool :=
  match rev (components p) with Normal t :: _ => text_eqb t (tx "mod.rs") | _ => false end.

(** src/visit.rs:203-210 [get_filesystem_name]. *)
Definition fs_name (m : mod_ns) : text := match mn_path m with Some p => p | None => mn_name m end.

(** src/visit.rs:690-723: the paths to try; [None] is a panic. *)
Definition mod_candidates (parent : source_file) (chain : list mod_ns) : option (list text) :=
  match rev chain with
  | [] => None
  | child :: rparents =>
      let parents := rev rparents in
      let dir :=
        if sf_top parent || named_mod_rs (sf_path parent)
           || (match mn_path child with Some _ => true | None => false end && match parents with [] => true | _ => false end)
        then file_parent (sf_path parent)
        else Some (without_extension (sf_path parent)) in
      match dir with
      | None => None
      | Some d =>
          let d := fold_left path_join (map fs_name parents) d in
          Some (match mn_path child with
                | Some p => [path_join d p]
                | None => [path_join d (mn_name child ++ tx ".rs"); path_join d (mn_name child ++ tx "/mod.rs")]
                end)
      end
  end.

Section Walk.
(** The file system, the parser ([None] is a syntax error), the regular expressions, and the
    tree. *)
Variable read : text -> option text.
Variable is_file : text -> bool.
Variable parse : text -> option node.
Variable re_match : text -> text -> bool.
Variable tree : text.
Variable opts : options.
Variable errs : list toks.
Variable skip_calls : list text.

(** src/visit.rs:659-738 [find_mod_source]; the outer [None] is a panic. *)
Definition find_mod_source (parent : source_file) (chain : list mod_ns) : option (option text) :=
  match mod_candidates parent chain with
  | None => None
  | Some cs => Some (find (fun c => is_file (path_join tree c)) cs)
  end.

Fixpoint find_all (parent : source_file) (chains : list (list mod_ns)) : option (list text) :=
  match chains with
  | [] => Some []
  | c :: cs =>
      match find_mod_source parent c, find_all parent cs with
      | Some (Some p), Some ps => Some (p :: ps)
      | Some None, Some ps => Some ps
      | _, _ => None
      end
  end.

(** [Vec::retain] with [allows_mutant]. *)
Fixpoint retain_allowed (ms : list mutant) : option (list mutant) :=
  match ms with
  | [] => Some []
  | m :: ms' =>
      match allows_mutant re_match opts m, retain_allowed ms' with
      | Some true, Some l => Some (m :: l)
      | Some false, Some l => Some l
      | _, _ => None
      end
  end.

(** One turn of the loop of src/visit.rs:95-126. *)
Inductive turn :=
| TErr | TPanic | TOutside
| TFile (f : source_file) (kept : list mutant) (mods : list text).
Definition one_file (package : text) (e : text * bool) : turn :=
  match load read tree (fst e) package (snd e) with
  | LoadErr => TErr
  | LoadSkipped => TOutside
  | Loaded f =>
      match parse (sf_code f) with
      | None => TErr
      | Some root =>
          match walk_syntax f errs skip_calls root with
          | None => TPanic
          | Some (ms, ext) =>
              match retain_allowed ms, find_all f ext with
              | Some kept, Some mods => TFile f kept mods
              | _, _ => TPanic
              end
          end
      end
  end.

(** src/visit.rs:84-128 [walk_package].  The loop need not end; [fuel] bounds its turns, and
    [WFuel] means that it was not enough.  The sequence of entries taken from the queue is
    not in the code; it is kept to state the order of visits. *)
Inductive wresult := WOk (visited : list (text * bool)) (ms : list mutant) (files : list source_file) | WErr | WPanic | WFuel.
Fixpoint walk_queue (fuel : nat) (package : text) (q : list (text * bool)) : wresult :=
  match fuel with
  | O => WFuel
  | S fuel' =>
      match q with
      | [] => WOk [] [] []
      | e :: q' =>
          match one_file package e with
          | TErr => WErr
          | TPanic => WPanic
          | TOutside =>
              match walk_queue fuel' package q' with
              | WOk v ms fs => WOk (e :: v) ms fs
              | r => r
              end
          | TFile f kept mods =>
              match walk_queue fuel' package (q' ++ map (fun p => (p, false)) mods) with
              | WOk v ms fs =>
                  if allows_source_file_path opts (sf_path f)
                  then WOk (e :: v) (kept ++ ms) (f :: fs)
                  else WOk (e :: v) ms fs
              | r => r
              end
          end
      end
  end.
Definition walk_package (fuel : nat) (p : package) : wresult :=
  walk_queue fuel (pk_name p) (map (fun t => (t, true)) (pk_tops p)).

(** src/visit.rs:61-79 [walk_tree]. *)
Fixpoint walk_tree (fuel : nat) (ps : list package) : wresult :=
  match ps with
  | [] => WOk [] [] []
  | p :: ps' =>
      match walk_package fuel p with
      | WOk v1 ms1 fs1 =>
          match walk_tree fuel ps' with
          | WOk v2 ms2 fs2 => WOk (v1 ++ v2) (ms1 ++ ms2) (fs1 ++ fs2)
          | r => r
          end
      | r => r
      end
  end.
End Walk.
