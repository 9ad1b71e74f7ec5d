(** Model of the life of build directories: src/build_dir.rs, the [TempDir] it holds, and
    the owners of [BuildDir]s in src/lab.rs, beside the machine of [LabM]. *)
From Coq Require Import String List NArith ZArith Bool Arith.
From Verif Require Import Text SpanM PathM MutantM ProcessM OutcomeM OutputM LabM.
Import ListNotations.

(** The build directory a worker thread owns (src/lab.rs:102-107); it is dropped when the
    thread's closure ends, also by an error or a panic. *)
Definition held (c : wpc) : list nat :=
  match c with
  | WQueue d | WStart d _ | WApply d _ | WPhase d _ _ _ | WCargo d _ _ _ _ | WRevert d _ _
  | WRevertErr d _ | WAdd d _ _ | WJson d _ | WJson2 d _ | WName d _ | WNewline d _ | WFin d _ => [d]
  | WInit | WCopy | WEnd _ | WPanic => []
  end.

(** All build directories that have an owner: [baseline_build_dir] (src/lab.rs:50), which
    becomes [build_dir_0] (89) and is then taken by a thread (102). Nothing is owned
    after [test_mutants] has returned. *)
Definition owned (st : state) : list nat :=
  match ls_main st with
  | MBaseline _ => [0]
  | MWork => match sh_dir0 (ls_sh st) with Some d => [d] | None => [] end ++ flat_map held (ls_workers st)
  | MEnd _ => []
  end.

Definition member (d : nat) (l : list nat) : bool := existsb (Nat.eqb d) l.

(** Owned before a step and not after it. *)
Definition released (st st' : state) : list nat := filter (fun d => negb (member d (owned st'))) (owned st).

(** Directories made in a step: src/build_dir.rs:54-77 [copy_from].  A copy is one step; if
    it fails (src/build_dir.rs:57-68) its [TempDir] is dropped in the same step. *)
Definition made (st st' : state) : list nat :=
  seq (length (sh_trees (ls_sh st))) (length (sh_trees (ls_sh st')) - length (sh_trees (ls_sh st))).

Section Temp.
Context (P : params) (leak : bool).   (* leak: --leak-dirs *)

(** src/build_dir.rs:69-77 and 80-87: does the [BuildDir] hold a [TempDir], which deletes
    the directory when dropped? The source tree itself is number 0 with --in-place. *)
Definition has_temp (d : nat) : bool := negb leak && negb (pa_in_place P && Nat.eqb d 0).

(** The run, the directories on disk made by [copy_from], and those deleted so far.  Deleting
    is assumed to succeed (the tempfile crate ignores errors). *)
Record tstate := mkT { t_lab : state; t_disk : list nat; t_deleted : list nat }.

Inductive tstep (n : nat) : tstate -> tstate -> Prop :=
| ts_step : forall st st' disk del, step P n st st' ->
    let gone := filter has_temp (released st st') in
    tstep n (mkT st disk del)
            (mkT st' (filter (fun d => negb (member d gone)) (disk ++ made st st')) (del ++ gone)).

(** src/build_dir.rs:42-52 [for_baseline]. *)
Definition tstart (o : entries) (t0 : tree) (ms : list mutant) : tstate :=
  mkT (start_state P o t0 ms) (if pa_in_place P then [] else [0]) [].

Inductive tsteps (n : nat) : tstate -> tstate -> Prop :=
| tsteps_refl : forall s, tsteps n s s
| tsteps_more : forall s s' s'', tsteps n s s' -> tstep n s' s'' -> tsteps n s s''.

Definition treachable (o : entries) (t0 : tree) (ms : list mutant) (s : tstate) : Prop :=
  tsteps (length ms) (tstart o t0 ms) s.

End Temp.
