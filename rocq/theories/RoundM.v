(** A series of runs of the program with the same output directory, as for --iterate (book/src/iterate.md): each finds the
    directory as the one before has left it.  On top of WholeM and EndM. *)
From Coq Require Import String List NArith ZArith Bool.
From Verif Require Import Text SpanM PathM MutantM OutcomeM OutputM PackageM OptionsM CargoM LabM MainM WholeM LaunchM EndM.
Import ListNotations.
Open Scope list_scope.

(** One run: on which tree and with which arguments, what was settled, its mutants, its cargo processes, the outcomes that it has recorded,
    and its result if it has come to an end. *)
Record round := mkRound {
  rd_world : world; rd_args : arguments; rd_setting : setting;
  rd_mutants : list mutant; rd_log : list launch; rd_outcomes : list (outcome mutant); rd_result : option result
}.

(** src/main.rs:423-523: a run that finds [es] in the parent of its output directory, comes to testing and leaves the parent as it is when it has ended,
    or at the time when it is killed.  The lab works in the mutants.out that [set_up] has made.  Writes in it do not fail.  Without mutants nothing is
    run (src/lab.rs:45-48). *)
Inductive round_runs (es : option entries) : round -> entries -> Prop :=
| ru_tests w e js a s lk fuel ms es1 P q o0 t0 r : wo_dir w (output_parent s) = es ->
    settle w a = Done s -> after w lk fuel a s = Done (Tests ms es1) -> ms <> [] ->
    queued (cli_of w a (se_options s)) ms q -> lab_for (se_options s) P -> pa_faults P = false -> first_tree P t0 ->
    dget es1 OUTDIR = Some (NDir o0) -> rreachable P (context_for e js s) q o0 t0 r ->
    round_runs es (mkRound w a s ms (rs_log r) (lo_outcomes (sh_lab (ls_sh (rs_lab r)))) (match ls_main (rs_lab r) with MEnd x => Some x | _ => None end))
      (dset es1 OUTDIR (NDir (sh_out (ls_sh (rs_lab r)))))
| ru_none w a s lk fuel es1 : wo_dir w (output_parent s) = es ->
    settle w a = Done s -> after w lk fuel a s = Done (Tests [] es1) ->
    round_runs es (mkRound w a s [] [] [] (Some empty_result)) es1.

(** The runs one after the other.  Between them anything else in the parent may change; listings, and runs that do not come to the set-up of the output directory,
    change nothing. *)
Inductive rounds (es0 : option entries) : list round -> option entries -> Prop :=
| rn_start : rounds es0 [] es0
| rn_between rs es es' : rounds es0 rs (Some es) -> dget es' OUTDIR = dget es OUTDIR -> rounds es0 rs (Some es')
| rn_run rs es r es' : rounds es0 rs es -> round_runs es r es' -> rounds es0 (rs ++ [r]) (Some es').
