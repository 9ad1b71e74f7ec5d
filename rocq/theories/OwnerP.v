From Coq Require Import String List NArith Arith Bool Lia.
From Verif Require Import Text Utf8M Utf8P JsonM JsonS JsonP OwnerM OwnerS.
Import ListNotations.
Open Scope list_scope.
Open Scope nat_scope.

(** ** The text *)
Definition scalars (t : text) : Prop := Forall (fun c => scalar c = true) t.
Lemma scalars_escape : forall s, scalars s -> scalars (flat_map escape s).
Proof.
  intros s H. induction H as [|c s Hc H IH]; [constructor|]. cbn [flat_map]. apply Forall_app. split; [|exact IH].
  assert (X : forall n, (n < 16)%N -> scalar (hex_digit n) = true).
  { intros n L. unfold hex_digit. apply scalar_iff. destruct (n <? 10)%N; lia. }
  unfold escape. repeat match goal with |- Forall _ (if ?b then _ else _) => destruct b eqn:? end; repeat (constructor; try reflexivity).
  - apply X. apply N.div_lt_upper_bound; [discriminate|]. match goal with H : (c <? 32)%N = true |- _ => apply N.ltb_lt in H; lia end.
  - apply X. apply N.mod_lt. discriminate.
  - exact Hc.
Qed.
Lemma scalars_string : forall s, scalars s -> scalars (json_string s).
Proof.
  intros s H. unfold json_string. constructor; [reflexivity|]. apply Forall_app. split; [apply scalars_escape; exact H|repeat constructor].
Qed.
Lemma scalars_app : forall a b, scalars a -> scalars b -> scalars (a ++ b).
Proof. intros a b A B. apply Forall_app. split; assumption. Qed.

Lemma lock_text : forall l, good l -> scalars (to_pretty (lock_json l)).
Proof.
  intros l (A & B & C & D). unfold to_pretty, lock_json. cbn [pretty_json map join fst snd].
  repeat first [apply scalars_app | apply scalars_string; assumption | apply scalars_string; repeat (constructor; [reflexivity|]); constructor
               | unfold new_line, scalars; repeat (constructor; [reflexivity|]); constructor].
Qed.

Lemma says_bytes : forall l, good l -> says (lock_bytes l) l.
Proof.
  intros l G. exists (to_pretty (lock_json l)), (lock_json l). split; [apply from_utf8_encode, lock_text; exact G|].
  split; [apply round_trip; reflexivity|]. split; [reflexivity|].
  assert (N : NoDup (map fst [(tx "cargo_mutants_version", JStr (lf_version l)); (tx "start_time", JStr (lf_start_time l));
        (tx "hostname", JStr (lf_hostname l)); (tx "username", JStr (lf_username l))])).
  { apply nodup_dec. vm_compute. reflexivity. }
  repeat split; eexists; (split; [reflexivity|]); (split; [|exact N]); cbn [In]; tauto.
Qed.

Lemma says_same : forall f a b, says f a -> says f b -> a = b.
Proof.
  intros f a b (t & v & T & V & _ & A1 & A2 & A3 & A4) (t' & v' & T' & V' & _ & B1 & B2 & B3 & B4).
  assert (t' = t) by congruence. subst t'. assert (v' = v) by congruence. subst v'.
  pose proof (has_same _ _ _ _ A1 B1) as E1. pose proof (has_same _ _ _ _ A2 B2) as E2. pose proof (has_same _ _ _ _ A3 B3) as E3.
  pose proof (has_same _ _ _ _ A4 B4) as E4. destruct a, b. cbn in *. congruence.
Qed.

(** ** The file *)
Lemma at_same : forall s p c, at_pc s p c p = c.
Proof. intros. unfold at_pc. rewrite Nat.eqb_refl. reflexivity. Qed.
Lemma at_other : forall s p c q, q <> p -> at_pc s p c q = os_pc s q.
Proof. intros s p c q H. unfold at_pc. destruct (Nat.eqb_spec q p); [contradiction|reflexivity]. Qed.

Lemma write_next : forall n m t, n + m <= length t -> write_at n (firstn m (skipn n t)) (firstn n t) = firstn (n + m) t.
Proof.
  intros n m t H. unfold write_at. rewrite firstn_length_le by lia. rewrite Nat.sub_diag. cbn [repeat]. rewrite app_nil_r.
  rewrite firstn_firstn, Nat.min_id. rewrite (skipn_all2 (firstn n t)).
  - rewrite app_nil_r. rewrite <- (firstn_skipn n t) at 3. rewrite firstn_app. rewrite firstn_length_le by lia.
    replace (n + m - n) with m by lia. rewrite (firstn_all2 (firstn n t)); [reflexivity|]. rewrite firstn_length. lia.
  - rewrite firstn_length. lia.
Qed.

Section Inv.
Context (info : nat -> lock_file) (old : list byte).
Let bytes (p : nat) := lock_bytes (info p).

Record oinv (s : ostate) : Prop := mkInv {
  oi_lock : forall p, has_lock (os_pc s p) <-> os_lock s = Some p;
  oi_writes : forall p n, os_pc s p = OWrites n -> n <= length (bytes p) /\ os_file s = firstn n (bytes p);
  oi_holds : forall p, os_pc s p = OHolds -> os_file s = bytes p;
  oi_left : os_file s = old \/ exists q, os_pc s q <> OStart /\ os_pc s q <> OWait /\ beginning_of (os_file s) (bytes q) }.

Lemma inv_only : forall s p q, oinv s -> has_lock (os_pc s p) -> has_lock (os_pc s q) -> q = p.
Proof. intros s p q I P Q. apply (oi_lock s I) in P, Q. congruence. Qed.

Lemma first_beginning : forall n (a : list byte), beginning_of (firstn n a) a.
Proof. intros n a. exists (skipn n a). symmetry. apply firstn_skipn. Qed.

Lemma inv_step : forall p s s', oinv s -> ostep info p s s' -> oinv s'.
Proof.
  intros p s s' I St. pose proof (fun q => inv_only s p q I) as Only. destruct I as [L W H F].
  assert (Cs : forall q, q = p \/ q <> p) by (intro q; destruct (Nat.eq_dec q p); auto).
  assert (Left : forall c, c <> OStart -> c <> OWait -> os_file s = old \/
     exists q, at_pc s p c q <> OStart /\ at_pc s p c q <> OWait /\ beginning_of (os_file s) (bytes q)).
  { intros c C1 C2. destruct F as [F|(q & F1 & F2 & F3)]; [left; exact F|right]. exists q. destruct (Cs q) as [->|N].
    - rewrite at_same. repeat split; assumption.
    - rewrite at_other by exact N. repeat split; assumption. }
  destruct St as [E|E K|r E K|E|n m E M B|n E N|E].
  - constructor; cbn [os_pc os_file os_lock].
    + intro q. destruct (Cs q) as [->|N]; [rewrite at_same|rewrite at_other by exact N; apply L].
      specialize (L p). rewrite E in L. exact L.
    + intros q n. destruct (Cs q) as [->|N]; [rewrite at_same; discriminate|rewrite at_other by exact N; apply W].
    + intros q. destruct (Cs q) as [->|N]; [rewrite at_same; discriminate|rewrite at_other by exact N; apply H].
    + destruct F as [F|(q & F1 & F2 & F3)]; [left; exact F|right]. exists q. destruct (Cs q) as [->|N]; [congruence|].
      rewrite at_other by exact N. repeat split; assumption.
  - constructor; cbn [os_pc os_file os_lock].
    + intro q. destruct (Cs q) as [->|N]; [rewrite at_same; cbn; tauto|rewrite at_other by exact N]. rewrite L, K. split; [discriminate|].
      intro X. injection X as X. congruence.
    + intros q n. destruct (Cs q) as [->|N]; [rewrite at_same; discriminate|rewrite at_other by exact N; apply W].
    + intros q. destruct (Cs q) as [->|N]; [rewrite at_same; discriminate|rewrite at_other by exact N; apply H].
    + apply Left; discriminate.
  - constructor; assumption.
  - rewrite E in Only. specialize (L p) as Lp. rewrite E in Lp. constructor; cbn [os_pc os_file os_lock].
    + intro q. destruct (Cs q) as [->|N]; [rewrite at_same; exact Lp|rewrite at_other by exact N; apply L].
    + intros q n. destruct (Cs q) as [->|N]; [rewrite at_same|rewrite at_other by exact N].
      * intro X. injection X as <-. split; [lia|reflexivity].
      * intro X. exfalso. apply N, Only; [exact Logic.I|]. rewrite X. exact Logic.I.
    + intros q. destruct (Cs q) as [->|N]; [rewrite at_same; discriminate|rewrite at_other by exact N]. intro X. exfalso.
      apply N, Only; [exact Logic.I|]. rewrite X. exact Logic.I.
    + right. exists p. rewrite at_same. split; [discriminate|]. split; [discriminate|]. exists (bytes p). reflexivity.
  - rewrite E in Only. specialize (L p) as Lp. rewrite E in Lp. destruct (W p n E) as [Wn Wf].
    assert (Fl : write_at n (firstn m (skipn n (lock_bytes (info p)))) (os_file s) = firstn (n + m) (bytes p)).
    { rewrite Wf. apply write_next. exact B. }
    constructor; cbn [os_pc os_file os_lock].
    + intro q. destruct (Cs q) as [->|N]; [rewrite at_same; exact Lp|rewrite at_other by exact N; apply L].
    + intros q k. destruct (Cs q) as [->|N]; [rewrite at_same|rewrite at_other by exact N].
      * intro X. injection X as <-. split; [exact B|exact Fl].
      * intro X. exfalso. apply N, Only; [exact Logic.I|]. rewrite X. exact Logic.I.
    + intros q. destruct (Cs q) as [->|N]; [rewrite at_same; discriminate|rewrite at_other by exact N]. intro X. exfalso.
      apply N, Only; [exact Logic.I|]. rewrite X. exact Logic.I.
    + right. exists p. rewrite at_same. split; [discriminate|]. split; [discriminate|]. rewrite Fl. apply first_beginning.
  - rewrite E in Only. specialize (L p) as Lp. rewrite E in Lp. destruct (W p n E) as [Wn Wf]. constructor; cbn [os_pc os_file os_lock].
    + intro q. destruct (Cs q) as [->|Nq]; [rewrite at_same; exact Lp|rewrite at_other by exact Nq; apply L].
    + intros q k. destruct (Cs q) as [->|Nq]; [rewrite at_same; discriminate|rewrite at_other by exact Nq].
      intro X. exfalso. apply Nq, Only; [exact Logic.I|]. rewrite X. exact Logic.I.
    + intros q. destruct (Cs q) as [->|Nq]; [rewrite at_same|rewrite at_other by exact Nq].
      * intros _. rewrite Wf, N. apply firstn_all.
      * intro X. exfalso. apply Nq, Only; [exact Logic.I|]. rewrite X. exact Logic.I.
    + apply Left; discriminate.
  - constructor; cbn [os_pc os_file os_lock].
    + intro q. destruct (Cs q) as [->|N]; [rewrite at_same|rewrite at_other by exact N].
      * split; [intros []|]. destruct (os_lock s) as [r|]; [|discriminate]. destruct (Nat.eqb_spec r p); [discriminate|congruence].
      * rewrite L. destruct (os_lock s) as [r|]; [|reflexivity]. destruct (Nat.eqb_spec r p) as [->|Nr]; [|reflexivity].
        split; [intro X; injection X as X; congruence|discriminate].
    + intros q n. destruct (Cs q) as [->|N]; [rewrite at_same; discriminate|rewrite at_other by exact N; apply W].
    + intros q. destruct (Cs q) as [->|N]; [rewrite at_same; discriminate|rewrite at_other by exact N; apply H].
    + apply Left; discriminate.
Qed.

Lemma inv_reach : forall s, oreach info old s -> oinv s.
Proof.
  intros s R. induction R as [|p s s' R IH St].
  - constructor; cbn [os_pc os_file os_lock]; [|discriminate|discriminate|left; reflexivity]. intro p. split; [intros []|discriminate].
  - exact (inv_step p s s' IH St).
Qed.

(** Only the process with the lock changes the file. *)
Lemma step_file : forall p s s', ostep info p s s' -> os_file s' <> os_file s -> has_lock (os_pc s p).
Proof. intros p s s' St N. destruct St as [E|E K|r E K|E|n m E M B|n E K|E]; cbn [os_file] in N; try congruence; rewrite E; exact Logic.I. Qed.
End Inv.

(** ** A process with the lock can finish *)
Lemma bytes_some : forall l, 0 < length (lock_bytes l).
Proof. intro l. unfold lock_bytes, to_pretty, lock_json. cbn [pretty_json]. unfold encode. rewrite flat_map_app, app_length. cbn. lia. Qed.
Lemma alone_writes : forall info p s n, os_pc s p = OWrites n -> n <= length (lock_bytes (info p)) -> exists s', alone info p s s' /\ os_pc s' p = OHolds.
Proof.
  intros info p s n E B. destruct (Nat.eq_dec n (length (lock_bytes (info p)))) as [N|N].
  - eexists. split; [eapply al_step; [exact (os_written info p s n E N)|apply al_here]|]. cbn [os_pc]. apply at_same.
  - eexists. split; [eapply al_step; [apply (os_write info p s n (length (lock_bytes (info p)) - n)); [exact E|lia|lia]|]|].
    + eapply al_step; [eapply os_written; [cbn [os_pc]; apply at_same|lia]|apply al_here].
    + cbn [os_pc]. apply at_same.
Qed.
Lemma alone_waits : forall info p s, os_pc s p = OWait -> os_lock s = None -> exists s', alone info p s s' /\ os_pc s' p = OHolds.
Proof.
  intros info p s E L. pose proof (os_locked info p s E L) as S1. set (s1 := mkOS (at_pc s p OGot) (os_file s) (Some p)) in *.
  assert (E1 : os_pc s1 p = OGot) by apply at_same. pose proof (os_clear info p s1 E1) as S2.
  destruct (alone_writes info p (mkOS (at_pc s1 p (OWrites 0)) [] (os_lock s1)) 0) as (s' & A & H); [apply at_same|lia|].
  exists s'. split; [|exact H]. eapply al_step; [exact S1|]. eapply al_step; [exact S2|exact A].
Qed.
