(** Model of --iterate: src/main.rs:455-492, src/visit.rs:44-55 and the list
    files of src/output.rs. *)
From Coq Require Import String List NArith Bool.
From Verif Require Import Text SpanM PathM MutantM OutcomeM OutputM.
Import ListNotations.

(** src/visit.rs:44-55 [remove_previously_caught]; [None] is a panic in
    [Mutant::name]. *)
Fixpoint remove_previously_caught (prev : list text) (ms : list mutant) : option (list mutant) :=
  match ms with
  | [] => Some []
  | m :: ms' =>
      match mutant_name true m, remove_previously_caught prev ms' with
      | Some n, Some r => Some (if mem_text n prev then r else m :: r)
      | _, _ => None
      end
  end.

(** src/output.rs:210-230: the part of [add_scenario_outcome] that appends to a
    list, for a mutant with this verdict; the write of the name ... *)
Definition record_name (o : entries) (m : mutant) (v : summary_outcome) : option entries :=
  match list_for v with
  | None => Some o
  | Some f => match mutant_name true m with Some n => Some (append_file o f n) | None => None end
  end.

(** ... and the write of the newline ([writeln!] to an unbuffered file writes the
    two pieces one after the other). *)
Definition record_newline (o : entries) (v : summary_outcome) : entries :=
  match list_for v with
  | None => o
  | Some f => append_file o f [NL]
  end.

Definition record (o : entries) (mv : mutant * summary_outcome) : option entries :=
  match record_name o (fst mv) (snd mv) with
  | Some o' => Some (record_newline o' (snd mv))
  | None => None
  end.

Fixpoint record_all (o : entries) (l : list (mutant * summary_outcome)) : option entries :=
  match l with
  | [] => Some o
  | x :: l' => match record o x with Some o' => record_all o' l' | None => None end
  end.

(** src/main.rs:486-496, 516-519: what --iterate does before testing: read the
    old lists, drop the mutants in them, set up a new mutants.out and copy the
    old names to it.  [None] is an error or panic. *)
Definition iterate_start (lk : text) (es : entries) (found : list mutant)
  : option (list mutant * entries * entries) :=
  let prev := load_previously_caught (Some es) in
  match remove_previously_caught prev found with
  | None => None
  | Some candidates =>
      match output_new lk (Some es) with
      | NewErr _ => None
      | NewOk es1 =>
          match dget es1 OUTDIR with
          | Some (NDir o1) =>
              match write_previously_caught o1 prev with
              | Some o2 => Some (candidates, es1, o2)
              | None => None
              end
          | _ => None
          end
      end
  end.

(** The successive states of the parent directory in [iterate_start], one per
    effect on the disk (src/output.rs:125-160, 253-267): lock.json rewritten, the
    old rotated directory removed, the rename, then the new directory being
    filled.  Used for crash points; each write is taken as atomic. *)
Definition start_states (lk : text) (es : entries) : list entries :=
  let prev := load_previously_caught (Some es) in
  let fill (es0 : entries) (o : entries) := dset es0 OUTDIR (NDir o) in
  let fresh_steps (es0 : entries) : list entries :=
    [fill es0 []; fill es0 [(LOCK_JSON, NFile [])]; fill es0 (fresh_dir lk);
     fill es0 (dset (fresh_dir lk) PREVIOUSLY_CAUGHT_TXT (NFile []));
     fill es0 (dset (fresh_dir lk) PREVIOUSLY_CAUGHT_TXT (NFile (previously_text prev)))] in
  match dget es OUTDIR with
  | None => es :: fresh_steps es
  | Some (NFile _) => [es]
  | Some (NDir o) =>
      match write_lock lk o with
      | None => [es]
      | Some o' =>
          let es1 := dset es OUTDIR (NDir o') in
          let es2 := ddel es1 ROTATED in
          let es3 := dset (ddel es2 OUTDIR) ROTATED (NDir o') in
          [es; es1; es2; es3] ++ fresh_steps es3
      end
  end.
