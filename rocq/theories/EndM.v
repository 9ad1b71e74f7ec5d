(** A whole run of the program, from the command line to its cargo processes: WholeM, which decides on the mutants
    and the options, together with LaunchM, which runs cargo for them. *)
From Coq Require Import String List NArith ZArith Bool Permutation.
From Verif Require Import Text SpanM PathM MutantM OutcomeM OutputM PackageM OptionsM CargoM LabM MainM WholeM LaunchM.
Import ListNotations.
Open Scope list_scope.

(** src/source.rs:27-28, 73: the package that a source file has a copy of.  PathM keeps only its name; it is found again
    among the packages of the workspace (the names are different in a workspace). *)
Definition package_of (md : metadata) (m : mutant) : package :=
  match find (fun p => text_eqb (pk_name p) (sf_package (mu_file m))) (packages_from_metadata md) with
  | Some p => p
  | None => mkPackage (sf_package (mu_file m)) [] [] []
  end.

(** src/lab.rs:32-127 with src/main.rs:484-520: what the lab is given.  [e] is the environment of the program and [js] what
    the job server adds to it. *)
Definition context_for (e : env) (js : list (text * text)) (s : setting) : context :=
  mkContext e (se_meta s) (se_options s) (package_of (se_meta s)) js.

(** src/main.rs:423-523: a run that has come to testing the mutants [ms], and is now at [r]. *)
Inductive program_runs (w : world) (e : env) (js : list (text * text)) (a : arguments) (s : setting) (ms : list mutant) (P : params) :
  rstate -> Prop :=
| pr_runs lk fuel es q o0 t0 r : settle w a = Done s -> after w lk fuel a s = Done (Tests ms es) -> ms <> [] ->
    queued (cli_of w a (se_options s)) ms q -> lab_for (se_options s) P -> first_tree P t0 ->
    rreachable P (context_for e js s) q o0 t0 r -> program_runs w e js a s ms P r.
