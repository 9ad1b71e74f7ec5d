(** C60: temporary build directories. *)
From Coq Require Import String List NArith ZArith Bool Arith Lia.
From Verif Require Import Text SpanM PathM MutantM ProcessM OutcomeM OutputM LabM LabS LabP LabT TempM TempS TempP.
Import ListNotations.

(** C60: when the run has ended, well, with an error or by a panic, no copy of the tree is
    left on the disk. *)
Theorem C60_nothing_left : forall P o0 t0 ms s r,
  treachable P false o0 t0 ms s -> ls_main (t_lab s) = MEnd r -> t_disk s = [].
Proof.
  intros P o0 t0 ms s r H E. destruct (temp_inv P false o0 t0 ms s H) as (_ & _ & K & _).
  destruct (t_disk s) as [|d l]; [reflexivity|]. exfalso. specialize (K eq_refl d (or_introl eq_refl)).
  unfold owned in K. rewrite E in K. destruct K.
Qed.
Print Assumptions C60_nothing_left.

(** C60: a directory is not deleted under a thread that uses it: it is on the disk, or it
    is the source tree itself. *)
Theorem C60_in_use : forall P leak o0 t0 ms s c d,
  treachable P leak o0 t0 ms s -> (forall r, ls_main (t_lab s) <> MEnd r) ->
  In c (threads (t_lab s)) -> uses c d ->
  (In d (t_disk s) \/ is_source_tree P d) /\ ~ In d (t_deleted s).
Proof.
  intros P leak o0 t0 ms s c d H N Hc U. pose proof (treach_lab P leak o0 t0 ms s H) as R.
  destruct (temp_inv P leak o0 t0 ms s H) as (I1 & _ & _ & _ & _ & _ & I7 & _).
  assert (O : In d (owned (t_lab s))).
  { apply uses_held in U. unfold owned. unfold threads in Hc. destruct (ls_main (t_lab s)) as [c0| |r] eqn:E.
    - destruct Hc as [<-|[]]. left. symmetry. exact (proj2 (base_dir P o0 t0 ms _ _ R E) d U).
    - apply in_or_app. right. apply in_flat_map. exists c. split; assumption.
    - exfalso. exact (N r eq_refl). }
  split; [exact (I1 d O)|]. intro D. exact (proj1 (I7 d D) O).
Qed.
Print Assumptions C60_in_use.

(** C60: the directories deleted are exactly the copies made by this run that are no more
    on the disk; never the source tree. *)
Theorem C60_deleted : forall P leak o0 t0 ms s d,
  treachable P leak o0 t0 ms s ->
  In d (t_deleted s) <-> d < all_dirs (t_lab s) /\ ~ is_source_tree P d /\ ~ In d (t_disk s).
Proof.
  intros P leak o0 t0 ms s d H. destruct (temp_inv P leak o0 t0 ms s H) as (_ & _ & _ & _ & I5 & I6 & I7 & _). split.
  - intro D. destruct (I5 d D) as (A & B & _). destruct (I7 d D) as [_ C]. auto.
  - intros (A & B & C). destruct (I6 d A) as [X|[X|X]]; [tauto|exact X|tauto].
Qed.
Print Assumptions C60_deleted.

(** C60: with --leak-dirs nothing is deleted and every copy made stays. *)
Theorem C60_leaked : forall P o0 t0 ms s,
  treachable P true o0 t0 ms s ->
  t_deleted s = [] /\ forall d, In d (t_disk s) <-> d < all_dirs (t_lab s) /\ ~ is_source_tree P d.
Proof.
  intros P o0 t0 ms s H. destruct (temp_inv P true o0 t0 ms s H) as (_ & I2 & _ & _ & I5 & I6 & _).
  assert (D : t_deleted s = []).
  { destruct (t_deleted s) as [|d l]; [reflexivity|]. destruct (I5 d (or_introl eq_refl)) as (_ & _ & X). discriminate. }
  split; [exact D|]. intro d. split; [apply I2|]. intros [A B]. destruct (I6 d A) as [X|[X|X]]; [exact X| |tauto].
  rewrite D in X. destruct X.
Qed.
Print Assumptions C60_leaked.

(** C60: and a copy is deleted as soon as no thread uses it: one that is on the disk is in use,
    or is the first one, not yet taken by a worker. *)
Theorem C60_prompt : forall P o0 t0 ms s d,
  treachable P false o0 t0 ms s -> In d (t_disk s) ->
  (exists c, In c (threads (t_lab s)) /\ uses c d) \/ sh_dir0 (ls_sh (t_lab s)) = Some d
  \/ (exists c, ls_main (t_lab s) = MBaseline c /\ d = 0).
Proof.
  intros P o0 t0 ms s d H D. destruct (temp_inv P false o0 t0 ms s H) as (_ & _ & K & _).
  specialize (K eq_refl d D). unfold owned, threads in *. destruct (ls_main (t_lab s)) as [c| |r]; [| |destruct K].
  - right. right. exists c. destruct K as [<-|[]]. auto.
  - apply in_app_or in K as [K|K].
    + right. left. destruct (sh_dir0 (ls_sh (t_lab s))); [destruct K as [->|[]]; reflexivity|destruct K].
    + left. apply in_flat_map in K as (c & A & B). exists c. split; [exact A|]. apply uses_held. exact B.
Qed.
Print Assumptions C60_prompt.

(** C60: there are never more copies on the disk than worker threads. *)
Theorem C60_bounded : forall P o0 t0 ms s,
  treachable P false o0 t0 ms s -> NoDup (t_disk s) /\ length (t_disk s) <= n_threads (pa_jobs P) (length ms).
Proof.
  intros P o0 t0 ms s H. destruct (temp_inv P false o0 t0 ms s H) as (_ & _ & I3 & I4 & _). split; [exact I4|].
  eapply Nat.le_trans; [apply NoDup_incl_length; [exact I4|exact (I3 eq_refl)]|].
  exact (owned_le P o0 t0 ms _ (treach_lab P false o0 t0 ms s H)).
Qed.
Print Assumptions C60_bounded.

(** C60: every run of the machine of C11-C15 is such a run. *)
Theorem C60_every_run : forall P leak o0 t0 ms st, reachable P o0 t0 ms st ->
  exists s, treachable P leak o0 t0 ms s /\ t_lab s = st.
Proof. intros P leak o0 t0 ms st H. exact (tlift P leak (length ms) _ _ H (tstart P o0 t0 ms) eq_refl). Qed.
Print Assumptions C60_every_run.

(** Two jobs: both copies are there while two mutants are tested; each goes when its thread
    ends; with --leak-dirs both stay. *)
Definition ex_temp P leak xs := match texec P leak 2 xs (tstart P ex_out (pa_root P) ex_ms) with
                                | Some s => s
                                | None => tstart P ex_out (pa_root P) ex_ms
                                end.
Definition ex_dirs s := (t_disk s, t_deleted s).

Example C60_case :
  ex_dirs (ex_temp ex_P2 false ex_both) = ([0; 1], [])
  /\ ex_dirs (ex_temp ex_P2 false (removelast ex_whole)) = ([], [0; 1])
  /\ ex_dirs (ex_temp ex_P2 false (removelast (removelast ex_whole))) = ([1], [0])
  /\ ex_dirs (ex_temp ex_P2 true ex_whole) = ([0; 1], []).
Proof.
  split; [vm_compute; reflexivity|]. split; [vm_compute; reflexivity|]. split; [vm_compute; reflexivity|]. vm_compute. reflexivity.
Qed.

Example C60_case_reach : treachable ex_P2 false ex_out (pa_root ex_P2) ex_ms (ex_temp ex_P2 false ex_whole)
  /\ (exists r, ls_main (t_lab (ex_temp ex_P2 false ex_whole)) = MEnd r).
Proof.
  split; [|eexists; vm_compute; reflexivity].
  unfold ex_temp. destruct (texec ex_P2 false 2 ex_whole (tstart ex_P2 ex_out (pa_root ex_P2) ex_ms)) eqn:E.
  - eapply texec_sound. exact E.
  - apply tsteps_refl.
Qed.

(** Interrupted; a baseline that fails; and in place, where nothing is made or deleted. *)
Definition ex_ints := ex_both ++ [(0, None); (1, None)] ++ ok 0 1 ++ ok 1 1 ++ ok 0 1.
Definition ended s := match ls_main (t_lab s) with MEnd _ => true | _ => false end.
Definition ex_base := ok 0 5 ++ fails 0 ++ ok 0 6.
Example C60_case_ends :
  ls_main (t_lab (ex_temp ex_P2 false ex_ints)) = MEnd RErr /\ ex_dirs (ex_temp ex_P2 false ex_ints) = ([], [0; 1])
  /\ ended (ex_temp ex_P2 false ex_base) = true /\ ex_dirs (ex_temp ex_P2 false ex_base) = ([], [0])
  /\ ended (ex_temp (ex_P None true ex_code) false (ok 0 46)) = true
  /\ ex_dirs (ex_temp (ex_P None true ex_code) false (ok 0 46)) = ([], []).
Proof.
  split; [vm_compute; reflexivity|]. split; [vm_compute; reflexivity|]. split; [vm_compute; reflexivity|].
  split; [vm_compute; reflexivity|]. split; [vm_compute; reflexivity|]. vm_compute. reflexivity.
Qed.
