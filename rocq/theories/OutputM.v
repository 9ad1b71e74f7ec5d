(** Model of src/output.rs: the mutants.out directory. *)
From Coq Require Import String List NArith Bool Arith.
From Verif Require Import Text SpanM PathM MutantM OutcomeM.
Import ListNotations.

(** * Names of log files *)

(** [format!("{index:03}")]: at least three digits. *)
Definition pad3 (n : nat) : text :=
  let s := show_nat n in repeat 48%N (3 - length s) ++ s.

(** The used names and their counts; src/output.rs:103-106 [used_log_names], a
    hash map. *)
Definition used := list (text * nat).

Fixpoint used_get (u : used) (k : text) : option nat :=
  match u with
  | [] => None
  | (k', v) :: u' => if text_eqb k k' then Some v else used_get u' k
  end.

Definition used_set (u : used) (k : text) (v : nat) : used := (k, v) :: u.

(** src/output.rs:176-179: the name of a scenario. *)
Definition scenario_name (s : scenario mutant) : text :=
  match s with
  | Baseline => tx "baseline"
  | Mutant m => log_file_name_base m
  end.

(** src/output.rs:175-192 [start_scenario], the choice of the base name. *)
Definition start_name (u : used) (s : scenario mutant) : used * text :=
  let n := scenario_name s in
  match used_get u n with
  | Some i => (used_set u n (i + 1), n ++ [USCORE] ++ pad3 (i + 1))
  | None => (used_set u n 0, n)
  end.

(** src/output.rs:287, 294: paths below mutants.out. *)
Definition log_path (base : text) : text := tx "log/" ++ base ++ tx ".log".
Definition diff_path (base : text) : text := tx "diff/" ++ base ++ tx ".diff".

(** The base names given to a sequence of scenarios. *)
Fixpoint start_names (u : used) (ss : list (scenario mutant)) : list text :=
  match ss with
  | [] => []
  | s :: ss' => let '(u', n) := start_name u s in n :: start_names u' ss'
  end.

(** * Lists of names as text files *)

(** src/output.rs:226 [writeln!]: the text appended for a name. *)
Definition name_line (n : text) : text := n ++ [NL].

(** src/output.rs:255-259: the text of previously_caught.txt. *)
Definition previously_text (ns : list text) : text := flat_map (fun n => n ++ [NL]) ns.

(** * Directories *)

(** A file system tree, without links and permissions. *)
Inductive node := NFile (content : text) | NDir (es : list (text * node)).
Definition entries := list (text * node).

Fixpoint dget (es : entries) (k : text) : option node :=
  match es with
  | [] => None
  | (k', n) :: es' => if text_eqb k k' then Some n else dget es' k
  end.

Definition ddel (es : entries) (k : text) : entries :=
  filter (fun e => negb (text_eqb k (fst e))) es.

Definition dset (es : entries) (k : text) (n : node) : entries := (k, n) :: ddel es k.

Definition OUTDIR : text := tx "mutants.out".
Definition ROTATED : text := tx "mutants.out.old".
Definition LOCK_JSON : text := tx "lock.json".
Definition MISSED_TXT : text := tx "missed.txt".
Definition CAUGHT_TXT : text := tx "caught.txt".
Definition TIMEOUT_TXT : text := tx "timeout.txt".
Definition UNVIABLE_TXT : text := tx "unviable.txt".
Definition PREVIOUSLY_CAUGHT_TXT : text := tx "previously_caught.txt".

(** src/output.rs:59-84 [acquire_lock] on a directory nobody else uses (waiting
    is modelled in LockM): opens or creates lock.json, empties it and writes the
    lock text [lk].  [None]: lock.json is a directory. *)
Definition write_lock (lk : text) (es : entries) : option entries :=
  match dget es LOCK_JSON with
  | Some (NDir _) => None
  | _ => Some (dset es LOCK_JSON (NFile lk))
  end.

(** src/output.rs:138-160: what a new mutants.out holds. *)
Definition fresh_dir (lk : text) : entries :=
  [(LOCK_JSON, NFile lk); (tx "log", NDir []); (tx "diff", NDir []);
   (MISSED_TXT, NFile []); (CAUGHT_TXT, NFile []); (UNVIABLE_TXT, NFile []); (TIMEOUT_TXT, NFile [])].

(** The parent directory after [OutputDir::new], on success or failure. *)
Inductive new_result := NewOk (es : entries) | NewErr (es : entries).

(** src/output.rs:119-172 [OutputDir::new].  [d] is the parent directory, [None]
    if it does not exist yet (its own parent is supposed to exist and be
    writable; other I/O errors are not modelled).  [remove_dir_all] of a plain
    file fails. *)
Definition output_new (lk : text) (d : option entries) : new_result :=
  let es := match d with Some es => es | None => [] end in
  match dget es OUTDIR with
  | None => NewOk (dset es OUTDIR (NDir (fresh_dir lk)))
  | Some (NFile _) => NewErr es
  | Some (NDir o) =>
      match write_lock lk o with
      | None => NewErr es
      | Some o' =>
          match dget es ROTATED with
          | Some (NFile _) => NewErr (dset es OUTDIR (NDir o'))
          | _ =>
              let es1 := dset (ddel (ddel es ROTATED) OUTDIR) ROTATED (NDir o') in
              NewOk (dset es1 OUTDIR (NDir (fresh_dir lk)))
          end
      end
  end.

(** src/output.rs:270-289 [load_previously_caught]: reads three lists in the
    existing mutants.out. *)
Definition list_lines (es : entries) (k : text) : list text :=
  match dget es k with Some (NFile c) => lines c | _ => [] end.

Definition load_previously_caught (d : option entries) : list text :=
  match d with
  | None => []
  | Some es =>
      match dget es OUTDIR with
      | Some (NDir o) =>
          list_lines o CAUGHT_TXT ++ list_lines o UNVIABLE_TXT ++ list_lines o PREVIOUSLY_CAUGHT_TXT
      | _ => []
      end
  end.

(** src/output.rs:251-267 [write_previously_caught]; the file is new in a fresh
    directory ([create_new]); [None] if it exists. *)
Definition write_previously_caught (o : entries) (ns : list text) : option entries :=
  match dget o PREVIOUSLY_CAUGHT_TXT with
  | Some _ => None
  | None => Some (dset o PREVIOUSLY_CAUGHT_TXT (NFile (previously_text ns)))
  end.

(** Appending to a file of a directory. *)
Definition append_file (o : entries) (k t : text) : entries :=
  match dget o k with
  | Some (NFile c) => dset o k (NFile (c ++ t))
  | _ => o
  end.

(** src/output.rs:216-224: the list for a verdict. *)
Definition list_for (s : summary_outcome) : option text :=
  match s with
  | SumMissed => Some MISSED_TXT
  | SumCaught => Some CAUGHT_TXT
  | SumTimeout => Some TIMEOUT_TXT
  | SumUnviable => Some UNVIABLE_TXT
  | SumSuccess | SumFailure => None
  end.
