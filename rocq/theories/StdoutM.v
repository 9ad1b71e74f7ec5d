(** Everything that a run of the lab prints to standard output: the messages of PrintM between the first line and the last.
    Warnings and other messages of [tracing] and the display go to standard error (src/console.rs:302-321, 602-606). *)
From Coq Require Import String List NArith ZArith Bool Arith.
From Verif Require Import Text Utf8M SpanM PathM MutantM ProcessM OutcomeM OutputM OptionsM PackageM CargoM LabM ConsoleM MainM PrintM F32M TimesM WholeM LaunchM EndM FilesM.
Import ListNotations.
Open Scope list_scope.

(** src/console.rs:151-155: the message of [discovered_mutants]. *)
Definition found_text (n : nat) : text := tx "Found " ++ plural n (tx "mutant") ++ tx " to test" ++ [NL].

(** src/outcome.rs:113-141 [summary_string], with the time of the run in nanoseconds if times are shown, and src/console.rs:188-191. *)
Definition summary_line (times : bool) (elapsed : N) (l : lab_outcome mutant) : text :=
  let part (n : nat) (w : text) : list text := if Nat.eqb n 0 then [] else [show_nat n ++ [SP] ++ w] in
  plural (lo_total l) (tx "mutant") ++ tx " tested" ++ (if times then tx " in " ++ duration_text elapsed else []) ++ tx ": "
  ++ join (tx ", ")
       (part (lo_missed l) (tx "missed") ++ part (lo_caught l) (tx "caught")
        ++ part (lo_unviable l) (tx "unviable") ++ part (lo_timeout l) (tx "timeouts")
        ++ part (lo_success l) (tx "succeeded"))
  ++ [NL].

Section Run.
Context (P : params) (po : print_options) (on : bool) (log : outcome mutant -> option (list byte)) (o0 : entries) (t0 : tree) (ms : list mutant).
Notation XS := (xstep P (po_caught po) (po_unviable po) (po_all_logs po) true (length ms)).

(** What one step prints: a message for the scenario that it finishes (src/lab.rs:319-320), and the summary when the threads have been
    joined without an error (src/lab.rs:95-118), not after a baseline that failed (78-82).  [elapsed]: the time since the start of the lab.
    [None] is a panic.  Each message is printed with one call of [print!], which has the lock of standard output. *)
Definition step_says (elapsed : N) (x y : xstate) : option text :=
  match printed secs_text on po (map (fun o => (o, log o)) (skipn (length (x_finished x)) (x_finished y))) with
  | Some t => Some (t ++ match ls_main (x_lab x), ls_main (x_lab y) with
                         | MWork, MEnd (ROk l) => summary_line (po_times po) elapsed l
                         | _, _ => []
                         end)
  | None => None
  end.

(** A run of the lab and what it has printed so far. *)
Inductive prints : xstate -> text -> Prop :=
| pn_start now now' : prints (xstart P (po_caught po) (po_unviable po) (po_all_logs po) o0 t0 ms now now') (found_text (length ms))
| pn_step x t y elapsed u : prints x t -> XS x y -> step_says elapsed x y = Some u -> prints y (t ++ u).
End Run.

(** src/options.rs:311-317: what is to be printed. *)
Definition shown_by (o : options) : print_options := mkPO (op_print_caught o) (op_print_unviable o) (op_show_times o) (op_show_all_logs o).

(** src/main.rs:484-523 with src/lab.rs:31-127, as [run_leaves] in FilesM: a run that has come to testing some mutants, the lab and its display, and what has
    been printed.  Colors are off. *)
Inductive run_says (w : world) (a : arguments) (s : setting) (ms : list mutant) (P : params) (lk : text) (log : outcome mutant -> option (list byte)) : xstate -> text -> Prop :=
| ry_tests fuel es1 q o1 o0 t0 x t : settle w a = Done s -> after w lk fuel a s = Done (Tests ms es1) ->
    queued (cli_of w a (se_options s)) ms q -> dget es1 OUTDIR = Some (NDir o1) -> lab_open o1 q = Some o0 -> ms <> [] ->
    lab_for (se_options s) P -> first_tree P t0 -> prints P (shown_by (se_options s)) false log o0 t0 q x t ->
    run_says w a s ms P lk log x t.
