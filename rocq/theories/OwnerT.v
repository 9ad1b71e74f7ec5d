(** C78: lock.json says which process has the output directory. *)
From Coq Require Import String List NArith Arith Bool Lia.
From Verif Require Import Text Utf8M Utf8P JsonM JsonS JsonP OwnerM OwnerS OwnerP.
Import ListNotations.
Open Scope list_scope.
Open Scope nat_scope.

(** C78: while a process has the directory, lock.json, read as JSON, says who it is and since when, whatever was in the file and
    whatever other processes do. *)
Theorem C78_holder : forall info old s p, oreach info old s -> os_pc s p = OHolds -> good (info p) -> says (os_file s) (info p).
Proof. intros info old s p R H G. rewrite (oi_holds info old s (inv_reach info old s R) p H). apply says_bytes. exact G. Qed.
Print Assumptions C78_holder.

(** C78: and it does not say so of any other. *)
Theorem C78_one : forall info old s p l, oreach info old s -> os_pc s p = OHolds -> good (info p) -> says (os_file s) l -> l = info p.
Proof. intros info old s p l R H G S. symmetry. exact (says_same _ _ _ (C78_holder info old s p R H G) S). Qed.
Print Assumptions C78_one.

(** C78: one process at a time has the lock. *)
Theorem C78_exclusive : forall info old s p q, oreach info old s -> has_lock (os_pc s p) -> has_lock (os_pc s q) -> p = q.
Proof. intros info old s p q R P Q. exact (inv_only info old s q p (inv_reach info old s R) Q P). Qed.
Print Assumptions C78_exclusive.

(** C78: processes that wait, give up or end leave the file alone. *)
Theorem C78_others : forall info old s s' p q, oreach info old s -> os_pc s p = OHolds -> ostep info q s s' -> os_file s' = os_file s.
Proof.
  intros info old s s' p q R H St. destruct (list_eq_dec N.eq_dec (os_file s') (os_file s)) as [E|N]; [exact E|exfalso].
  pose proof (step_file info q s s' St N) as L. assert (P : has_lock (os_pc s p)) by (rewrite H; exact Logic.I).
  pose proof (C78_exclusive info old s p q R P L) as E. subst q. destruct St as [E|E K|r E K|E|n m E M B|n E K|E]; cbn [os_file] in N; try congruence.
Qed.
Print Assumptions C78_others.

(** C78: at any time there is in the file what was there before, or the first bytes of what one process says that has or had the lock,
    never a mixture. *)
Theorem C78_beginning : forall info old s, oreach info old s -> os_file s = old
  \/ exists q, (has_lock (os_pc s q) \/ os_pc s q = OGone) /\ beginning_of (os_file s) (lock_bytes (info q)).
Proof.
  intros info old s R. destruct (oi_left info old s (inv_reach info old s R)) as [E|(q & A & B & C)]; [left; exact E|right].
  exists q. split; [|exact C]. destruct (os_pc s q); cbn; tauto.
Qed.
Print Assumptions C78_beginning.

(** C78: once nobody has the lock, a process that waits can get it and write the file, and one that has it can finish, without the
    others. *)
Theorem C78_gets : forall info old s p, oreach info old s -> os_pc s p = OWait /\ os_lock s = None \/ has_lock (os_pc s p) ->
  exists s', alone info p s s' /\ os_pc s' p = OHolds.
Proof.
  intros info old s p R [[E L]|H].
  - exact (alone_waits info p s E L).
  - destruct (os_pc s p) as [| | |n| |] eqn:E; try contradiction.
    + pose proof (os_clear info p s E) as S2.
      destruct (alone_writes info p (mkOS (at_pc s p (OWrites 0)) [] (os_lock s)) 0) as (s' & A & X); [apply at_same|lia|].
      exists s'. split; [|exact X]. eapply al_step; [exact S2|exact A].
    + apply (alone_writes info p s n E). apply (oi_writes info old s (inv_reach info old s R) p n E).
    + exists s. split; [apply al_here|exact E].
Qed.
Print Assumptions C78_gets.

(** C78: and when the one that has it is gone, nobody has it. *)
Theorem C78_released : forall info old s s' p, oreach info old s -> has_lock (os_pc s p) -> ostep info p s s' -> os_pc s' p = OGone -> os_lock s' = None.
Proof.
  intros info old s s' p R H St E. pose proof (inv_reach info old s R) as I. apply (oi_lock info old s I) in H.
  destruct St as [X|X K|r X K|X|n m X M B|n X K|X]; cbn [os_pc os_lock] in *; try (rewrite at_same in E; discriminate E); try congruence.
  rewrite H, Nat.eqb_refl. reflexivity.
Qed.
Print Assumptions C78_released.

(** A short text over a longer one of a process that crashed. *)
Definition ex_info (p : nat) : lock_file :=
  match p with
  | 0 => mkLockFile (tx "24.11.2") (tx "2024-12-01T10:00:00Z") (tx "a-machine-with-a-long-name") (tx "someone")
  | _ => mkLockFile (tx "24.11.2") (tx "2024-12-01T10:00:07Z") (tx "m") (tx "me ""x""")
  end.
Example C78_case_json : lock_bytes (ex_info 1) = encode (tx "{" ++ [NL] ++ tx "  ""cargo_mutants_version"": ""24.11.2""," ++ [NL]
  ++ tx "  ""start_time"": ""2024-12-01T10:00:07Z""," ++ [NL] ++ tx "  ""hostname"": ""m""," ++ [NL] ++ tx "  ""username"": ""me \""x\""""" ++ [NL] ++ tx "}").
Proof. vm_compute. reflexivity. Qed.
Example C78_case : exists s, oreach ex_info (lock_bytes (ex_info 0)) s /\ os_pc s 1 = OHolds /\ os_pc s 2 = OWait
  /\ os_file s = lock_bytes (ex_info 1) /\ length (lock_bytes (ex_info 1)) < length (lock_bytes (ex_info 0)).
Proof.
  pose proof (or_start ex_info (lock_bytes (ex_info 0))) as R0.
  unshelve epose proof (or_step _ _ 1 _ _ R0 (os_open _ 1 _ _)) as R1; [reflexivity|]. cbn [os_file os_lock] in R1.
  unshelve epose proof (or_step _ _ 1 _ _ R1 (os_locked _ 1 _ _ _)) as R2; [reflexivity|reflexivity|]. cbn [os_file os_lock] in R2.
  unshelve epose proof (or_step _ _ 2 _ _ R2 (os_open _ 2 _ _)) as R3; [reflexivity|]. cbn [os_file os_lock] in R3.
  unshelve epose proof (or_step _ _ 1 _ _ R3 (os_clear _ 1 _ _)) as R4; [reflexivity|]. cbn [os_file os_lock] in R4.
  unshelve epose proof (or_step _ _ 1 _ _ R4 (os_write ex_info 1 _ 0 20 _ _ _)) as R5; [reflexivity|lia|vm_compute; lia|]. cbn [os_file os_lock] in R5.
  unshelve epose proof (or_step _ _ 1 _ _ R5 (os_write ex_info 1 _ 20 (length (lock_bytes (ex_info 1)) - 20) _ _ _)) as R6;
    [reflexivity|vm_compute; lia|vm_compute; lia|]. cbn [os_file os_lock] in R6.
  unshelve epose proof (or_step _ _ 2 _ _ R6 (os_waits _ 2 _ 1 _ _)) as R7; [reflexivity|reflexivity|].
  unshelve epose proof (or_step _ _ 1 _ _ R7 (os_written ex_info 1 _ (length (lock_bytes (ex_info 1))) _ _)) as R8; [vm_compute; reflexivity|reflexivity|].
  eexists. split; [exact R8|]. split; [reflexivity|]. split; [reflexivity|]. split; [vm_compute; reflexivity|vm_compute; lia].
Qed.
