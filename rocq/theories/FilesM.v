(** The files that a whole run leaves in mutants.out: MainM sets the directory up, the lab opens it here, and LabM writes in it. *)
From Coq Require Import String List NArith ZArith Bool.
From Verif Require Import Text SpanM PathM MutantM OutcomeM OutputM PackageM OptionsM CargoM LabM MainM JsonM WholeM LaunchM EndM.
Import ListNotations.
Open Scope list_scope.

Definition DEBUG_LOG := tx "debug.log".
Definition MUTANTS_JSON := tx "mutants.json".

(** src/output.rs:230-237 [open_debug_log]: opened to append, made if it is not there.  What is written to it later is not followed. *)
Definition open_debug_log (o : entries) : option entries :=
  match dget o DEBUG_LOG with
  | None => Some (dset o DEBUG_LOG (NFile []))
  | Some (NFile _) => Some o
  | Some (NDir _) => None
  end.

(** src/output.rs:239-245 [write_mutants_list].  The write does not fail. *)
Definition write_mutants_list (o : entries) (ms : list mutant) : option entries :=
  match dget o MUTANTS_JSON with
  | Some (NDir _) => None
  | _ => Some (dset o MUTANTS_JSON (NFile (mutants_file ms)))
  end.

(** src/lab.rs:39-43: the lab opens the directory, with the mutants [q] in the order in which they will be taken. *)
Definition lab_open (o : entries) (q : list mutant) : option entries :=
  match open_debug_log o with
  | Some o1 => write_mutants_list o1 q
  | None => None
  end.

(** src/main.rs:484-523 with src/lab.rs:31-127: a run that has come to testing some mutants, at any time. *)
Inductive run_at (w : world) (e : env) (js : list (text * text)) (a : arguments) (s : setting) (ms : list mutant) (P : params) (lk : text) (r : rstate) : Prop :=
| ra_tests fuel es1 q o1 o0 t0 : settle w a = Done s -> after w lk fuel a s = Done (Tests ms es1) ->
    queued (cli_of w a (se_options s)) ms q -> dget es1 OUTDIR = Some (NDir o1) -> lab_open o1 q = Some o0 -> ms <> [] ->
    lab_for (se_options s) P -> first_tree P t0 -> rreachable P (context_for e js s) q o0 t0 r -> run_at w e js a s ms P lk r.

(** The result of a run, if it has ended, and what is in mutants.out then, or at any time before (so, if it is killed at that time).
    Without mutants the run ends once the list has been written (src/lab.rs:45-48). *)
Inductive run_leaves (w : world) (e : env) (js : list (text * text)) (a : arguments) (s : setting) (ms : list mutant) (P : params) (lk : text) :
  option result -> entries -> Prop :=
| rl_tests r : run_at w e js a s ms P lk r ->
    run_leaves w e js a s ms P lk (match ls_main (rs_lab r) with MEnd x => Some x | _ => None end) (sh_out (ls_sh (rs_lab r)))
| rl_none fuel es1 o1 o0 : settle w a = Done s -> after w lk fuel a s = Done (Tests ms es1) ->
    dget es1 OUTDIR = Some (NDir o1) -> lab_open o1 ms = Some o0 -> ms = [] ->
    run_leaves w e js a s ms P lk (Some empty_result) o0.
