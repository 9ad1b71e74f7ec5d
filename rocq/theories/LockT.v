(** Property theorems: C18. *)
From Coq Require Import List Bool Arith.
From Verif Require Import LockM LockS LockP.
Import ListNotations.

(** C18: no two running processes hold the same directory, under any
    interleaving of any number of processes. *)
Theorem C18_own_directory : forall s0 s p q d, initial s0 -> steps s0 s ->
  st_pc s p = PRun d -> st_pc s q = PRun d -> p = q.
Proof. exact own_directory. Qed.
Print Assumptions C18_own_directory.

(** C18 (part): once a process runs in mutants.out and no other has got past the
    lock (others may be about to create a directory), then whatever the others do while it runs they wait, and its directory
    stays in place and whole.  Missing: others that got past the lock before; see
    the refutations. *)
Theorem C18_others_wait_partial : forall p s s' d, steps_without p s s' -> safe s p d -> safe s' p d.
Proof. exact safe_steps. Qed.
Print Assumptions C18_others_wait_partial.

(** C18: whatever many processes do at the same time, every directory that was there or that one of them has made is in one place: it is mutants.out or mutants.out.old, or
    it was deleted; and nothing else is there. *)
Theorem C18_places : forall s0 s, initial s0 -> steps s0 s ->
  (forall d, ever s0 s d -> one_place s d) /\ (forall d, st_out s = Some d \/ st_old s = Some d \/ In d (st_removed s) -> ever s0 s d) /\ NoDup (st_removed s).
Proof.
  intros s0 s I H. split; [intros d; apply one_place_of; assumption|]. destruct (places _ _ I H) as (_ & B & _ & _ & _ & N). split; [intros d X; apply B; exact X|exact N].
Qed.
Print Assumptions C18_places.

Definition ex_init : state :=
  mkState None None 0 (fun _ => None) [] (fun _ => PStart).

Lemma ex_initial : initial ex_init.
Proof.
  repeat split; intros d H; try discriminate. destruct H; discriminate.
Qed.

Ltac go p r := eapply (steps_more _ p); [eapply r; reflexivity|];
  cbv [ex_init set_pc set_lock st_out st_old st_next st_lock st_removed st_pc].

(** Process 1 runs, process 2 waits for it. *)
Example C18_case : exists s, steps ex_init s /\ safe s 1 0 /\ st_pc s 2 = PWait 0.
Proof.
  eexists. split.
  { go 1 st_absent. go 1 st_create. go 1 st_open2. go 1 st_lock2.
    go 2 st_exists. go 2 st_open. apply steps_refl. }
  split; [|reflexivity]. unfold safe. cbn. repeat split; try discriminate; try tauto.
  intros q Hq. unfold outside, upd. destruct (Nat.eqb q 2) eqn:E2; [auto|].
  destruct (Nat.eqb q 1) eqn:E1; [apply Nat.eqb_eq in E1; contradiction|auto].
Qed.

(** Three runs one after the other: the directory of the first is deleted, that of the second is mutants.out.old. *)
Example C18_case_places : exists s, steps ex_init s /\ st_out s = Some 2 /\ st_old s = Some 1 /\ st_removed s = [0]
  /\ ever ex_init s 0 /\ ever ex_init s 1 /\ ever ex_init s 2.
Proof.
  eexists. split.
  { go 1 st_absent. go 1 st_create. go 1 st_open2. go 1 st_lock2. go 1 st_end.
    go 2 st_exists. go 2 st_open. go 2 st_lock1. go 2 st_unlock1. go 2 st_no_old. go 2 st_rename. go 2 st_create. go 2 st_open2. go 2 st_lock2. go 2 st_end.
    go 3 st_exists. go 3 st_open. go 3 st_lock1. go 3 st_unlock1. go 3 st_remove. go 3 st_rename. go 3 st_create. apply steps_refl. }
  unfold ever. cbn. repeat split; right; right; auto with arith.
Qed.

(** C18: a process that nobody disturbs gets a directory of its own, new, at mutants.out; the one that was there is
    mutants.out.old and only what was mutants.out.old before is deleted.  It can always go on, and if it fails it was
    interrupted while it waited for a lock. *)
Theorem C18_alone : forall s0 p s, initial s0 -> steps_of p s0 s ->
  (forall d, st_pc s p = PRun d -> rotated s0 s d /\ st_lock s d = Some p)
  /\ (st_pc s p = PFail -> exists s' d, steps_of p s0 s' /\ (st_pc s' p = PWait d \/ st_pc s' p = PWait2 d) /\ step p s' s)
  /\ (st_pc s p <> PDone -> st_pc s p <> PFail -> exists s', step p s s' /\ st_pc s' p <> PFail).
Proof.
  intros s0 p s I H. split; [|split].
  - intros d. apply (alone_runs _ _ _ _ I H).
  - apply (alone_fails _ _ _ I H).
  - apply (alone_goes_on _ _ _ I H).
Qed.
Print Assumptions C18_alone.

Ltac by_front r := eapply so_front; [eapply r; reflexivity|];
  cbv [set_pc set_lock st_out st_old st_next st_lock st_removed st_pc].

(** With both directories there: directory 1 was mutants.out, 0 mutants.out.old. *)
Definition ex_left : state := mkState (Some 1) (Some 0) 2 (fun _ => None) [] (fun _ => PStart).
Example C18_alone_case : initial ex_left /\ exists s, steps_of 7 ex_left s /\ st_pc s 7 = PRun 2 /\ st_out s = Some 2 /\ st_old s = Some 1 /\ st_removed s = [0].
Proof.
  split; [repeat split; cbn; intuition (try congruence; auto with arith); injection H0 as <-; auto|].
  eexists. split.
  { by_front st_exists. by_front st_open. by_front st_lock1. by_front st_unlock1. by_front st_remove. by_front st_rename. by_front st_create. by_front st_open2. by_front st_lock2. apply so_refl. }
  repeat split.
Qed.

(** Finding: when two processes wait for a third, the second one to get the lock
    moves the directory of the first one away while that one is running: the lock
    it waited for is on the directory that has been moved aside, and is let go
    before the rename.  The first one's writes by path then go to the second
    one's directory. *)
Theorem C18_second_waiter_refuted : exists s0 s p q d d',
  initial s0 /\ steps s0 s /\ p <> q /\ d <> d'
  /\ st_pc s p = PRun d /\ st_old s = Some d
  /\ st_pc s q = PRun d' /\ writes_to s = Some d'.
Proof.
  exists ex_init. eexists. exists 2, 3, 1, 2. split; [apply ex_initial|]. split.
  { go 1 st_absent. go 1 st_create. go 1 st_open2. go 1 st_lock2.
    go 2 st_exists. go 2 st_open. go 3 st_exists. go 3 st_open.
    go 1 st_end.
    go 2 st_lock1. go 2 st_unlock1. go 2 st_no_old. go 2 st_rename. go 2 st_create. go 2 st_open2. go 2 st_lock2.
    go 3 st_lock1. go 3 st_unlock1. go 3 st_remove. go 3 st_rename. go 3 st_create. go 3 st_open2. go 3 st_lock2.
    apply steps_refl. }
  repeat split; discriminate || reflexivity.
Qed.
Print Assumptions C18_second_waiter_refuted.

(** Finding: one more process then deletes the running one's directory. *)
Theorem C18_deleted_while_running_refuted : exists s0 s p d,
  initial s0 /\ steps s0 s /\ st_pc s p = PRun d /\ In d (st_removed s).
Proof.
  exists ex_init. eexists. exists 2, 1. split; [apply ex_initial|]. split.
  { go 1 st_absent. go 1 st_create. go 1 st_open2. go 1 st_lock2.
    go 2 st_exists. go 2 st_open. go 3 st_exists. go 3 st_open.
    go 1 st_end.
    go 2 st_lock1. go 2 st_unlock1. go 2 st_no_old. go 2 st_rename. go 2 st_create. go 2 st_open2. go 2 st_lock2.
    go 3 st_lock1. go 3 st_unlock1. go 3 st_remove. go 3 st_rename. go 3 st_create. go 3 st_open2. go 3 st_lock2.
    go 3 st_end. go 4 st_exists. go 4 st_open. go 4 st_lock1. go 4 st_unlock1. go 4 st_remove.
    apply steps_refl. }
  split; [reflexivity|]. simpl. auto.
Qed.
Print Assumptions C18_deleted_while_running_refuted.

(** Finding: with two processes the same happens in the gap between letting go of
    the lock and the rename. *)
Theorem C18_two_process_race_refuted : exists s0 s d d',
  initial s0 /\ steps s0 s /\ st_pc s 1 = PRun d /\ st_pc s 2 = PRun d' /\ writes_to s = Some d' /\ d <> d'
  /\ (forall p, p <> 1 -> p <> 2 -> st_pc s p = PStart).
Proof.
  exists ex_init. eexists. exists 0, 1. split; [apply ex_initial|]. split.
  { go 1 st_absent. go 1 st_create. go 2 st_exists. go 2 st_open. go 2 st_lock1. go 2 st_unlock1.
    go 1 st_open2. go 1 st_lock2.
    go 2 st_no_old. go 2 st_rename. go 2 st_create. go 2 st_open2. go 2 st_lock2.
    apply steps_refl. }
  repeat split; try (discriminate || reflexivity).
  intros p H1 H2. cbn. unfold upd. apply Nat.eqb_neq in H1. apply Nat.eqb_neq in H2.
  rewrite H1, H2. reflexivity.
Qed.
Print Assumptions C18_two_process_race_refuted.
