(** Model of the progress shown while the tree is searched and while it is copied: [WalkProgress] and [CopyModel] in
    src/console.rs with the calls from src/visit.rs and src/copy_tree.rs. *)
From Coq Require Import String List NArith ZArith Bool Arith.
Import ListNotations.
From Verif Require Import Text SpanM PathM PackageM MutantM GlobM OptionsM PrettyM FnValueM VisitM WalkM CopyM.
Open Scope list_scope.

(** src/console.rs:480-484 [WalkModel]. *)
Record walk_model := mkWM { wm_files : nat; wm_mutants : nat }.

(** src/console.rs:486-497: what is drawn. *)
Definition walk_render (m : walk_model) : text :=
  if Nat.eqb (wm_files m) 0 then tx "Scanning tree metadata..." ++ [NL]
  else tx "Finding mutation opportunities: " ++ show_nat (wm_files m) ++ tx " files done, " ++ show_nat (wm_mutants m)
       ++ tx " mutants found" ++ [NL].

(** src/console.rs:256-283: the calls of [WalkProgress]; [None] is the panic of [unwrap].  The field [walk_tree] of the
    display is all that they touch. *)
Inductive walk_call := WStarts | WFiles (n : nat) | WMutants (n : nat) | WFinishes.
Definition walk_update (c : walk_call) (d : option walk_model) : option (option walk_model) :=
  match c, d with
  | WStarts, _ => Some (Some (mkWM 0 0))
  | WFiles n, Some m => Some (Some (mkWM (wm_files m + n) (wm_mutants m)))
  | WMutants n, Some m => Some (Some (mkWM (wm_files m) (wm_mutants m + n)))
  | WFinishes, _ => Some None
  | _, None => None
  end.
Fixpoint walk_updates (cs : list walk_call) (d : option walk_model) : option (option walk_model) :=
  match cs with
  | [] => Some d
  | c :: cs' => match walk_update c d with Some d' => walk_updates cs' d' | None => None end
  end.

Section Walk.
Variable read : text -> option text.
Variable is_file : text -> bool.
Variable parse : text -> option node.
Variable re_match : text -> text -> bool.
Variable tree : text.
Variable opts : options.
Variable errs : list toks.
Variable skip_calls : list text.

(** src/visit.rs:96-105: the calls made for one entry of the queue; a file is counted before it is parsed, and its
    mutants before the globs are looked at. *)
Definition file_calls (package : text) (e : text * bool) : list walk_call :=
  match load read tree (fst e) package (snd e) with
  | Loaded f =>
      WFiles 1 ::
      match parse (sf_code f) with
      | Some root =>
          match walk_syntax f errs skip_calls root with
          | Some (ms, _) => match retain_allowed re_match opts ms with Some kept => [WMutants (length kept)] | None => [] end
          | None => []
          end
      | None => []
      end
  | _ => []
  end.

(** src/visit.rs:95-126: the calls of [walk_package], also of one that ends with an error. *)
Fixpoint queue_calls (fuel : nat) (package : text) (q : list (text * bool)) : list walk_call :=
  match fuel, q with
  | S fuel', e :: q' =>
      file_calls package e ++
      match one_file read is_file parse re_match tree opts errs skip_calls package e with
      | TErr | TPanic => []
      | TOutside => queue_calls fuel' package q'
      | TFile _ _ mods => queue_calls fuel' package (q' ++ map (fun p => (p, false)) mods)
      end
  | _, _ => []
  end.

(** src/visit.rs:69-78: [walk_tree] after the error values have been parsed. *)
Fixpoint package_calls (fuel : nat) (ps : list package) : list walk_call :=
  match ps with
  | [] => [WFinishes]
  | p :: ps' =>
      queue_calls fuel (pk_name p) (map (fun t => (t, true)) (pk_tops p)) ++
      match walk_package read is_file parse re_match tree opts errs skip_calls fuel p with
      | WOk _ _ _ => package_calls fuel ps'
      | _ => []
      end
  end.
Definition walk_calls (fuel : nat) (ps : list package) : list walk_call := WStarts :: package_calls fuel ps.
End Walk.

(** src/copy_tree.rs:34, 77-88: the totals given to [copy_progress], one for each file, while the entries of the walk are
    copied; it stops at an error. *)
Section Copy.
Variable utf8 : text -> bool.
Variable readable : list text -> bool.
Fixpoint copy_totals (total : N) (d : fs) (l : list (list text * shape * bool)) : list N :=
  match l with
  | [] => []
  | x :: l' =>
      match copy_one utf8 readable d x with
      | None => []
      | Some d' =>
          match snd (fst x) with
          | SFile _ b => let t := (total + N.of_nat (length b))%N in t :: copy_totals t d' l'
          | _ => copy_totals total d' l'
          end
      end
  end.
End Copy.

(** src/console.rs:634-636 [format_mb]. *)
Definition format_mb (bytes : N) : text := show_N (bytes / 1000000) ++ tx " MB".
