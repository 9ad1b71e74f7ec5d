(** What the runs of all shards have done together (C73). *)
From Coq Require Import String List NArith ZArith Bool Permutation.
From Verif Require Import Text SpanM PathM MutantM ProcessM OutcomeM OutputM PackageM OptionsM CargoM LabM MainM WholeM LaunchM LaunchS EndS TogetherM.
Import ListNotations.
Open Scope list_scope.

(** One test: a mutant, the verdict on it, and its processes. *)
Definition one_test : Type := mutant * summary_outcome * list launch.
Definition tested_one (check : bool) (t : one_test) : Prop := one_job (Mutant (fst (fst t))) (snd t) /\ explains check (snd t) (snd (fst t)).

(** The processes of a job are these tests, after those of the tree without mutations if there are to be any and the job has mutants. *)
Definition made_of (base check : bool) (j : job) (ts : list one_test) : Prop :=
  exists bl rest, jb_log j = bl ++ rest /\ woven (map snd ts) rest /\ Forall (tested_one check) ts
    /\ Permutation (map (fun t => fst (fst t)) ts) (jb_mutants j)
    /\ (if base then jb_mutants j <> [] -> one_job Baseline bl /\ map la_phase bl = (if check then [Check] else [Build; Test])
                     /\ Forall (fun l => ended l (WExited 0)) bl
        else bl = []).

(** The worst of several exit statuses: time-outs, then missed mutants. *)
Definition worst (sts : list Z) (n : Z) : Prop :=
  (n = 3%Z /\ In 3%Z sts) \/ (n = 2%Z /\ In 2%Z sts /\ ~ In 3%Z sts) \/ (n = 0%Z /\ Forall (fun x => x = 0%Z) sts).

(** The mutants that one run of all would test. *)
Definition whole_list (w : world) (a : arguments) (s : setting) (ms : list mutant) : Prop :=
  exists d lk fuel es, after (elsewhere d w) lk fuel (for_shard None a) s = Done (Tests ms es).
(** The tests of a run failed on the tree without mutations, and nothing else was run. *)
Definition without_fails (log : list launch) : Prop :=
  exists pre b, log = pre ++ [b] /\ Forall (fun l => la_scenario l = Baseline) (pre ++ [b]) /\ Forall (fun l => ended l (WExited 0)) pre
    /\ (stopped b \/ exists st, st <> WExited 0 /\ ended b st).
