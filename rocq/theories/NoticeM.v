(** Model of the warnings and errors that a run reports on its way (tracing's [warn!] and [error!] in src/lab.rs,
    src/cargo.rs and src/outcome.rs), on top of the transition system of LaunchM. *)
From Coq Require Import String List NArith ZArith Bool Arith.
From Verif Require Import Text SpanM PathM MutantM ProcessM OutcomeM OutputM PackageM OptionsM CargoM ClapM LabM MainM WholeM LaunchM EndM.
Import ListNotations.
Open Scope list_scope.
Open Scope nat_scope.

(** The notices, without their words. *)
Inductive notice :=
| NNextest (code : Z)           (* src/cargo.rs:73, warning *)
| NInternal (p : phase)         (* src/lab.rs:302, error *)
| NUnclassified (m : mutant)    (* src/outcome.rs:87, warning *)
| NBaseline (p : phase)         (* src/lab.rs:74-77, error *)
| NWorker (i : nat)             (* src/lab.rs:147, error *)
| NGenerated                    (* src/lab.rs:123, warning *)
| NViable.                      (* src/lab.rs:125, warning *)

Definition severity (n : notice) : level :=
  match n with NInternal _ | NBaseline _ | NWorker _ => LError | _ => LWarn end.

(** src/console.rs:242-247: the level filter of the terminal (crate tracing-subscriber, [LevelFilter]): what is at least as severe
    as the level is shown. *)
Definition rank (l : level) : nat := match l with LError => 0 | LWarn => 1 | LInfo => 2 | LDebug => 3 | LTrace => 4 end.
Definition on_terminal (l : level) (ns : list notice) : list notice := filter (fun n => rank (severity n) <=? rank l) ns.

(** src/cargo.rs:26-30: the codes of crate nextest-metadata: [NO_TESTS_RUN], [TEST_RUN_FAILED], [BUILD_FAILED]. *)
Definition NEXTEST_ALLOWED_CODES : list Z := [4; 100; 101]%Z.

(** src/cargo.rs:68-75 and src/lab.rs:301-302: at the end of a cargo process.  [argv[1]] is in range
    (C72_in_range); out of range it would panic. *)
Definition second (argv : list text) : text := match nth_error argv 1 with Some w => w | None => [] end.
Definition cargo_notices (l : launch) : list notice :=
  match la_result l with
  | None => [NInternal (la_phase l)]
  | Some (ExFailure c, _) =>
      if text_eqb (second (la_argv l)) (tx "nextest") && negb (existsb (Z.eqb c) NEXTEST_ALLOWED_CODES) then [NNextest c] else []
  | Some _ => []
  end.

(** src/outcome.rs:76-92 [LabOutcome::add]. *)
Definition add_notices (o : outcome mutant) : list notice :=
  match oc_scenario o, summary o with Mutant m, Some SumFailure => [NUnclassified m] | _, _ => [] end.

(** src/lab.rs:131-158 [join_threads]: threads are joined in order; a panic is passed on at once.  [intr i]: the error
    of thread [i] is "interrupted". *)
Fixpoint join_notices (intr : nat -> bool) (i : nat) (ws : list wpc) : list notice :=
  match ws with
  | [] => []
  | WPanic :: _ => []
  | WEnd false :: ws' => (if intr i then [] else [NWorker i]) ++ join_notices intr (S i) ws'
  | _ :: ws' => join_notices intr (S i) ws'
  end.

(** src/lab.rs:119-126. *)
Definition final_notices (l : lab_outcome mutant) : list notice :=
  if lo_total l =? 0 then [NGenerated] else if lo_unviable l =? lo_total l then [NViable] else [].

(** What the main thread reports when it ends: src/lab.rs:73-83 after a failed baseline, 112-126 after joining. *)
Definition end_notices (intr : nat -> bool) (st st' : state) : list notice :=
  match ls_main st, ls_main st' with
  | MBaseline (WFin _ o), MEnd (ROk _) => match last_result o with Some pr => [NBaseline (pr_phase pr)] | None => [] end
  | MWork, MEnd x => join_notices intr 0 (ls_workers st) ++ match x with ROk l => final_notices l | _ => [] end
  | _, _ => []
  end.

(** What a step reports: for the process that has ended in it, the outcome that was recorded in it, and the end of the
    run.  In the program a report comes a little later than what it is about, so the order of the reports of different threads
    may be another one. *)
Definition step_notices (intr : nat -> bool) (r r' : rstate) : list notice :=
  flat_map cargo_notices (skipn (length (rs_log r)) (rs_log r'))
  ++ flat_map add_notices (skipn (length (lo_outcomes (sh_lab (ls_sh (rs_lab r))))) (lo_outcomes (sh_lab (ls_sh (rs_lab r')))))
  ++ end_notices intr (rs_lab r) (rs_lab r').

(** A run with what it has reported. *)
Inductive says (P : params) (X : context) (ms : list mutant) (intr : nat -> bool) (o0 : entries) (t0 : tree) : rstate -> list notice -> Prop :=
| sa_start : says P X ms intr o0 t0 (rstart P X ms o0 t0) []
| sa_step r ns r' : says P X ms intr o0 t0 r ns -> rstep P X ms r r' -> says P X ms intr o0 t0 r' (ns ++ step_notices intr r r').

(** A run of the program with what it has reported (as [program_runs] of EndM). *)
Inductive program_says (w : world) (e : env) (js : list (text * text)) (a : arguments) (s : setting) (ms : list mutant) (P : params)
  (intr : nat -> bool) : rstate -> list notice -> Prop :=
| ps_says lk fuel es q o0 t0 r ns : settle w a = Done s -> after w lk fuel a s = Done (Tests ms es) -> ms <> [] ->
    queued (cli_of w a (se_options s)) ms q -> lab_for (se_options s) P -> first_tree P t0 ->
    says P (context_for e js s) q intr o0 t0 r ns -> program_says w e js a s ms P intr r ns.
