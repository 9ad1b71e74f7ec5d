(** Model of what an interrupt (ctrl-c) does before and between the tests: the checks of the flag of
    src/interrupt.rs while the workspace is opened (src/workspace.rs:101), while source files are searched
    (src/visit.rs:102), while the program waits for the lock of an output directory (src/output.rs:76) and while a tree is
    copied (src/copy_tree.rs:63). *)
From Coq Require Import String List NArith ZArith Bool Arith.
From Verif Require Import Text SpanM PathM MutantM OutcomeM OutputM IterateM InDiffM ShardM PackageM OptionsM PrettyM FnValueM VisitM
  WalkM MainM WholeM CopyM.
Import ListNotations.
Open Scope list_scope.
Open Scope nat_scope.

(** src/interrupt.rs:13-18: the handler sets the flag once and nothing clears it, so all that counts is how many checks
    still find it clear: [None] is all of them. *)
Definition signal := option nat.
(** src/interrupt.rs:22-29 [check_interrupted]; [None] is the error. *)
Definition check (s : signal) : option signal :=
  match s with None => Some None | Some O => None | Some (S k) => Some (Some k) end.

(** A part of the program comes to a result, or has been ended by a check. *)
Inductive stopped (A : Type) := Went (a : A) (s : signal) | Interrupted.
Arguments Went {A} a s. Arguments Interrupted {A}.

(** What the search does with a source file. *)
Inductive event := Loads (p : text) | Parses (p : text).

(** An entry of the queue was visited; a file of the tree was visited. *)
Definition visit_outside (e : text * bool) (r : stopped wresult) : stopped wresult :=
  match r with Went (WOk v ms fs) s => Went (WOk (e :: v) ms fs) s | _ => r end.
Definition visit_file (o : options) (e : text * bool) (f : source_file) (kept : list mutant) (r : stopped wresult) : stopped wresult :=
  match r with
  | Went (WOk v ms fs) s =>
      Went (if allows_source_file_path o (sf_path f) then WOk (e :: v) (kept ++ ms) (f :: fs) else WOk (e :: v) ms fs) s
  | _ => r
  end.

Section Search.
(** As in [WalkM]. *)
Variable read : text -> option text.
Variable is_file : text -> bool.
Variable syn : text -> option node.
Variable re_match : text -> text -> bool.
Variable tree : text.
Variable opts : options.
Variable errs : list toks.
Variable skip_calls : list text.

(** src/visit.rs:84-128 [walk_package] as in [WalkM.walk_queue], with the check at 102, which is after a file was read and
    before it is parsed; files outside of the tree are passed over before (95-100). *)
Fixpoint search_queue (fuel : nat) (s : signal) (package : text) (q : list (text * bool)) : stopped wresult * list event :=
  match fuel with
  | O => (Went WFuel s, [])
  | S fuel' =>
      match q with
      | [] => (Went (WOk [] [] []) s, [])
      | e :: q' =>
          match load read tree (fst e) package (snd e) with
          | LoadErr => (Went WErr s, [Loads (fst e)])
          | LoadSkipped => let (r, ev) := search_queue fuel' s package q' in (visit_outside e r, ev)
          | Loaded _ =>
              match check s with
              | None => (Interrupted, [Loads (fst e)])
              | Some s' =>
                  match one_file read is_file syn re_match tree opts errs skip_calls package e with
                  | TFile f kept mods =>
                      let (r, ev) := search_queue fuel' s' package (q' ++ map (fun p => (p, false)) mods) in
                      (visit_file opts e f kept r, Loads (fst e) :: Parses (fst e) :: ev)
                  | TPanic => (Went WalkM.WPanic s', [Loads (fst e); Parses (fst e)])
                  | TErr | TOutside => (Went WErr s', [Loads (fst e); Parses (fst e)])
                  end
              end
          end
      end
  end.

(** src/visit.rs:61-79 [walk_tree]. *)
Fixpoint search_tree (fuel : nat) (s : signal) (ps : list package) : stopped wresult * list event :=
  match ps with
  | [] => (Went (WOk [] [] []) s, [])
  | p :: ps' =>
      match search_queue fuel s (pk_name p) (map (fun t => (t, true)) (pk_tops p)) with
      | (Went (WOk v1 ms1 fs1) s', ev) =>
          let (r, ev') := search_tree fuel s' ps' in
          (match r with
           | Went (WOk v2 ms2 fs2) s'' => Went (WOk (v1 ++ v2) (ms1 ++ ms2) (fs1 ++ fs2)) s''
           | r => r
           end, ev ++ ev')
      | x => x
      end
  end.
End Search.

Section Program.
Variable w : world.

(** src/workspace.rs:92-113 [Workspace::open]: the check is between the two times that cargo is asked. *)
Definition open_checked (s : signal) (start : text) : stopped (res metadata) :=
  match locate_project w start true with
  | None => Went Fails s
  | Some dir =>
      if is_absolute dir then
        match check s with
        | None => Interrupted
        | Some s' => Went (match wo_metadata w (path_join dir (tx "Cargo.toml")) with Some md => Done md | None => Fails end) s'
        end
      else Went Panics s
  end.

(** src/main.rs:451-483, as in [WholeM.settle]. *)
Definition settle_checked (s : signal) (a : arguments) : stopped (res setting) :=
  match start_dir (wo_is_file w) (ag_manifest a) (ag_dir a) with
  | None => Went Fails s
  | Some start =>
      match open_checked s start with
      | Interrupted => Interrupted
      | Went r s' => Went (
          bind r (fun md =>
          bind (if ag_no_config a then Done config_default else read_tree_config w (md_root md)) (fun cf =>
          match options_new (wo_re_ok w) (ag_options a) cf with
          | OptionsM.NewErr => Fails
          | OptionsM.NewPanic => Panics
          | OptionsM.NewOk o =>
              Done (mkSetting start md o (package_filter_of (ag_packages a) (ag_workspace a) start))
          end))) s'
      end
  end.

(** src/workspace.rs:179-192 [discover], as in [WholeM.discover]. *)
Definition discover_checked (fuel : nat) (s : signal) (se : setting) : stopped wresult * list event :=
  if relative_package w (se_filter se) then (Went WalkM.WPanic s, [])
  else
    match mutated_packages (fun d => locate_project w d false) (se_meta se) (se_filter se) with
    | None => (Went WErr s, [])
    | Some ps =>
        match parsed_error_exprs w (op_error_values (se_options se)) with
        | None => (Went WErr s, [])
        | Some errs =>
            search_tree (wo_read w) (wo_is_file w) (wo_syn w) (wo_re_match w) (md_root (se_meta se)) (se_options se) errs
              (op_skip_calls (se_options se)) fuel s ps
        end
    end.

(** src/output.rs:69-79: polling for the lock; [free i] says whether the [i]-th attempt gets it.  [false] if it has not got
    it after as many attempts as [fuel] allows. *)
Fixpoint wait_lock (free : nat -> bool) (fuel : nat) (s : signal) (i : nat) : stopped bool :=
  match fuel with
  | O => Went false s
  | S fuel' => if free i then Went true s
               else match check s with None => Interrupted | Some s' => wait_lock free fuel' s' (S i) end
  end.

(** src/main.rs:484-515: what is printed, or which mutants are to be tested; as in [MainM.main_run]. *)
Definition selected (c : cli) (es : option entries) (found : wresult) : res (text + list mutant) :=
  match found with
  | WErr => Fails
  | WalkM.WPanic | WFuel => Panics
  | WOk _ ms fs =>
      bind (iterate_step c es ms) (fun ms1 =>
      if cl_list_files c then Done (inl (list_files (wo_json_files w) c fs))
      else
        bind (diff_step (wo_patch w) c ms1) (fun ms2 =>
        bind (shard_step c ms2) (fun ms3 =>
        if cl_list c then bind (or_panic (list_mutants (wo_diff w) (wo_json_mutants w) c ms3)) (fun t => Done (inl t))
        else Done (inr ms3))))
  end.

(** src/output.rs:119-172, 60-84: the lock of an old output directory, if there is one, is waited for, and then the lock of
    the new one. *)
Definition wait_locks (free free' : nat -> bool) (fuel : nat) (s : signal) (es : option entries) : stopped bool :=
  match (if match es with Some d => match dget d OUTDIR with Some _ => true | None => false end | None => false end
         then wait_lock free fuel s 0 else Went true s) with
  | Went true s' => wait_lock free' fuel s' 0
  | r => r
  end.

(** src/main.rs:451-519: from the command line to the beginning of the tests.  The result is [None] if the search or the
    waiting goes on for longer than [fuel]. *)
Definition before_tests (free free' : nat -> bool) (lk : text) (fuel : nat) (s : signal) (a : arguments) : stopped (option (res action)) :=
  match settle_checked s a with
  | Interrupted => Interrupted
  | Went Fails s' => Went (Some Fails) s'
  | Went Panics s' => Went (Some Panics) s'
  | Went (Done se) s1 =>
      match fst (discover_checked fuel s1 se) with
      | Interrupted => Interrupted
      | Went WFuel s2 => Went None s2
      | Went found s2 =>
          let c := cli_of w a (se_options se) in
          let es := wo_dir w (output_parent se) in
          match selected c es found with
          | Fails => Went (Some Fails) s2
          | Panics => Went (Some Panics) s2
          | Done (inl t) => Went (Some (Done (Printed t))) s2
          | Done (inr ms) =>
              match wait_locks free free' fuel s2 es with
              | Interrupted => Interrupted
              | Went false s3 => Went None s3
              | Went true s3 => Went (Some (bind (set_up lk c es) (fun es' => Done (Tests ms es')))) s3
              end
          end
      end
  end.
End Program.

(** Copying a tree comes to its end, meets an error, or is ended by a check; each with what there is in the new tree. *)
Inductive copied := Copied (d : fs) (s : signal) | CopyFailed (d : fs) | CopyStopped (d : fs).
Section Copying.
(** As in [CopyM]. *)
Variable copy_vcs gitignore : bool.
Variable ignored : list text -> bool -> bool.
Variable utf8 : text -> bool.
Variable readable : list text -> bool.

(** src/copy_tree.rs:62-102: the check is the first thing of every turn. *)
Fixpoint copy_checked (s : signal) (d : fs) (l : list (list text * shape * bool)) : copied :=
  match l with
  | [] => Copied d s
  | x :: l' =>
      match check s with
      | None => CopyStopped d
      | Some s' =>
          match copy_one utf8 readable d x with
          | Some d' => copy_checked s' d' l'
          | None => CopyFailed d
          end
      end
  end.
(** src/copy_tree.rs:28-106 [copy_tree]. *)
Definition copy_tree_checked (s : signal) (top : entry) : copied :=
  copy_checked s empty_dir (walk copy_vcs gitignore ignored readable [] top).
End Copying.
