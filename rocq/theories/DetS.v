(** Specification vocabulary for C61: a project whose builds and tests are deterministic, and
    what testing a mutant alone gives. *)
From Coq Require Import String List NArith ZArith Bool Permutation.
From Verif Require Import Text SpanM PathM PathS MutantM ProcessM OutcomeM OutputM LabM LabS.
Import ListNotations.

(** The same text, perhaps with line endings converted in one or both. *)
Definition alike (x y : option text) : Prop :=
  exists b, (x = b \/ x = option_map without_crlf_cr b) /\ (y = b \/ y = option_map without_crlf_cr b).

(** An outcome without the times. *)
Definition timeless (o : outcome mutant) : outcome mutant :=
  mkOutcome (oc_scenario o) (map (fun r => mkPR (pr_phase r) 0 (pr_status r)) (oc_results o)).

(** Run the phases in order until one does not succeed; [w] says how each ends. *)
Fixpoint trial (w : phase -> exit_t) (ps : list phase) : list phase_result :=
  match ps with
  | [] => []
  | p :: ps' => mkPR p 0 (w p) :: if is_success (w p) then trial w ps' else []
  end.

Section Det.
Context (P : params) (B : tree) (W : tree -> phase -> exit_t).   (* B: a fresh build tree; W: how cargo ends in a tree *)

(** How cargo ends depends on the source files alone, and not on their line endings. *)
Definition deterministic : Prop := forall t t' p,
  (forall k, pa_source P k = true -> alike (t k) (t' k)) -> W t p = W t' p.

Definition agrees (t : tree) : Prop := forall k, pa_source P k = true -> t k = B k.

(** In this step a cargo command ends as [W] says, and a new copy of the tree is as [B]. *)
Definition obeys (st st' : state) : Prop :=
  (forall i d s done p todo r, nth_error (threads st) i = Some (WCargo d s done p todo) ->
     nth_error (threads st') i = Some (WPhase d s (done ++ [r]) todo)
     \/ nth_error (threads st') i = Some (WRevert d s (done ++ [r])) ->
     pr_status r = W (get_tree (ls_sh st) d) p)
  /\ (forall d, length (sh_trees (ls_sh st)) <= d -> d < length (sh_trees (ls_sh st')) ->
        agrees (get_tree (ls_sh st') d)).

Inductive dsteps (n : nat) : state -> state -> Prop :=
| dsteps_refl : forall s, dsteps n s s
| dsteps_more : forall s s' s'', dsteps n s s' -> step P n s' s'' -> obeys s' s'' -> dsteps n s s''.

Definition det_run (o : entries) (t0 : tree) (ms : list mutant) (st : state) : Prop :=
  agrees t0 /\ dsteps (length ms) (start_state P o t0 ms) st.

(** The build tree with this scenario alone. *)
Definition tree_for (s : scenario mutant) : tree :=
  match s with Baseline => B | Mutant m => tree_set B (file_key m) (mutant_code m) end.

(** What testing the scenario alone gives. *)
Definition alone (s : scenario mutant) : outcome mutant := mkOutcome s (trial (W (tree_for s)) (phases (pa_check_only P))).

End Det.

(** Two ways to run the same project. *)
Definition same_project (P P' : params) : Prop :=
  pa_check_only P = pa_check_only P' /\ pa_skip_baseline P = pa_skip_baseline P'
  /\ (forall k, pa_source P k = pa_source P' k).
