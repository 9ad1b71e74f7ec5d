(** Proofs about temporary directories. *)
From Coq Require Import String List NArith ZArith Bool Arith Lia Permutation.
From Verif Require Import Text SpanM PathM MutantM ProcessM OutcomeM OutputM LabM LabS LabP TempM TempS.
Import ListNotations.

Lemma member_in : forall d l, member d l = true <-> In d l.
Proof.
  intros d l. unfold member. rewrite existsb_exists. split.
  - intros (x & H & E). apply Nat.eqb_eq in E. subst. exact H.
  - intro H. exists d. split; [exact H|apply Nat.eqb_refl].
Qed.

Lemma member_out : forall d l, member d l = false <-> ~ In d l.
Proof. intros d l. rewrite <- member_in. destruct (member d l); split; congruence. Qed.

Lemma held_use : forall c, held c = dir_in_use c.
Proof. destruct c; reflexivity. Qed.

Lemma held_flat : forall ts, flat_map held ts = flat_map dir_in_use ts.
Proof. induction ts as [|c ts IH]; cbn; [reflexivity|]. rewrite IH, held_use. reflexivity. Qed.

Lemma uses_held : forall c d, uses c d <-> In d (held c).
Proof.
  intros c d. split.
  - intros [->|[s H]]; [left; reflexivity|]. rewrite held_use, (active_use _ _ _ H). left. reflexivity.
  - intro H. destruct c; cbn in H; try destruct H as [->|[]]; try destruct H; try (left; reflexivity); right; eexists; reflexivity.
Qed.

Lemma NoDup_app_intro_temp : forall A (l l' : list A), NoDup l -> NoDup l' -> (forall x, In x l -> In x l' -> False) -> NoDup (l ++ l').
Proof.
  induction l as [|x l IH]; intros l' H H' D; [exact H'|]. inversion H; subst. cbn [app]. constructor.
  - rewrite in_app_iff. intros [K|K]; [auto|]. exact (D x (or_introl eq_refl) K).
  - apply IH; auto. intros y Hy. exact (D y (or_intror Hy)).
Qed.

Section T.
Context (P : params) (leak : bool) (o0 : entries) (t0 : tree) (ms : list mutant).
Notation treach := (treachable P leak o0 t0 ms).
Notation nt := (n_threads (pa_jobs P) (length ms)).

Lemma tsteps_steps : forall n s s', tsteps P leak n s s' -> steps P n (t_lab s) (t_lab s').
Proof.
  intros n s s' H. induction H as [s|s s' s'' H1 IH H2]; [apply steps_refl|].
  destruct H2. eapply steps_more; eassumption.
Qed.
Lemma treach_lab : forall s, treach s -> reachable P o0 t0 ms (t_lab s).
Proof. intros s H. exact (tsteps_steps _ _ _ H). Qed.

(** Every run of the lab machine is one with directories. *)
Lemma tlift : forall n s s', steps P n s s' -> forall a, t_lab a = s -> exists a', tsteps P leak n a a' /\ t_lab a' = s'.
Proof.
  intros n s s' H. induction H as [s|s s' s'' H1 IH H2]; intros a E.
  - exists a. split; [apply tsteps_refl|exact E].
  - destruct (IH a E) as ([l dk de] & K & E'). cbn [t_lab] in E'. subst l. eexists. split; [eapply tsteps_more; [exact K|apply ts_step; exact H2]|reflexivity].
Qed.

(** ** What a step does to the directories with an owner *)
Lemma sstep_trees : forall i sh c sh' c', sstep P i sh c sh' c' -> length (sh_trees sh') = length (sh_trees sh).
Proof. intros i sh c sh' c' H. pose proof (sstep_frame P _ _ _ _ _ H) as (_ & _ & _ & Fl & _). exact Fl. Qed.

Lemma list_set_in : forall (ts : list wpc) i c c' d, nth_error ts i = Some c ->
  In d (flat_map held (list_set ts i c')) -> In d (held c') \/ In d (flat_map held ts).
Proof.
  intros ts i c c' d Hn H. destruct (list_split _ _ _ _ Hn) as (l1 & l2 & -> & _ & E). rewrite E in H.
  rewrite flat_map_app in *. cbn [flat_map] in *. rewrite !in_app_iff in *. tauto.
Qed.

Lemma list_set_keep : forall (ts : list wpc) i c c' d, nth_error ts i = Some c ->
  In d (flat_map held ts) -> In d (held c) \/ In d (flat_map held (list_set ts i c')).
Proof.
  intros ts i c c' d Hn H. destruct (list_split _ _ _ _ Hn) as (l1 & l2 & -> & _ & E). rewrite E.
  rewrite flat_map_app in *. cbn [flat_map] in *. rewrite !in_app_iff in *. tauto.
Qed.

Lemma base_dir : forall st c, reachable P o0 t0 ms st -> ls_main st = MBaseline c ->
  all_dirs st = 1 /\ (forall d, In d (held c) -> d = 0).
Proof.
  intros st c H. revert c. unfold reachable in H. remember (start_state P o0 t0 ms) as s0 eqn:E0.
  induction H as [s|s s' s'' Hs IH Hst]; intros c E.
  - subst s. unfold start_state in *. destruct (pa_skip_baseline P); cbn [ls_main] in E; [discriminate|].
    injection E as <-. split; [reflexivity|]. intros d [<-|[]]. reflexivity.
  - specialize (IH E0). destruct Hst; cbn [ls_main ls_sh] in *; try discriminate.
    injection E as <-. destruct (IH c0 eq_refl) as [L K]. unfold all_dirs in *. cbn [ls_sh] in *.
    rewrite (sstep_trees _ _ _ _ _ H). split; [exact L|].
    pose proof (sstep_frame P _ _ _ _ _ H) as (_ & _ & _ & _ & d & sc & A & A' & _).
    assert (D : d = 0) by (apply K; rewrite held_use, (active_use _ _ _ A); left; reflexivity).
    intros d' Hd. destruct A' as [A'|[->| ->]]; [|destruct Hd|destruct Hd].
    rewrite held_use, (active_use _ _ _ A') in Hd. destruct Hd as [<-|[]]. exact D.
Qed.

Lemma step_owned : forall st st', reachable P o0 t0 ms st -> step P (length ms) st st' ->
  all_dirs st <= all_dirs st'
  /\ (forall d, In d (owned st') -> In d (owned st) \/ In d (made st st'))
  /\ (forall d, In d (made st st') -> In d (owned st')).
Proof.
  intros st st' R H. pose proof (dirs_inv P o0 t0 ms st R) as DI. pose proof (base_dir st) as BD. unfold all_dirs, made in *.
  destruct H as [sh c sh' c' H|sh d o H|sh d o H|sh|sh|sh ws i c sh' c' Hn H|sh ws H];
    unfold owned in *; cbn [ls_main ls_sh ls_workers set_dir0 sh_dir0 sh_trees] in *.
  - rewrite (sstep_trees _ _ _ _ _ H), Nat.sub_diag. cbn [seq]. split; [auto|]. split; [auto|intros d []].
  - rewrite Nat.sub_diag. cbn [seq]. split; [auto|]. split; [|intros d' []].
    rewrite held_flat, flat_use_spawn, app_nil_r. intros d' [<-|[]]. left. left.
    destruct (BD _ R eq_refl) as [_ K]. symmetry. apply K. left. reflexivity.
  - rewrite Nat.sub_diag. split; [auto|]. split; intros d' [].
  - rewrite Nat.sub_diag. split; [auto|]. split; intros d' [].
  - rewrite Nat.sub_diag. split; [auto|]. split; intros d' [].
  - unfold dirs_ok in DI. destruct DI as (_ & _ & DL). clear BD R.
    destruct (wstep_dirs P _ _ _ _ _ H DL) as (_ & Hle & Hk).
    assert (T : length (sh_trees sh') = length (sh_trees sh)
      \/ (length (sh_trees sh') = S (length (sh_trees sh)) /\ held c' = [length (sh_trees sh)])).
    { destruct H as [d Hd|Hd|t| |d m q Hq'| | |c sh' c' H]; cbn [sh_trees set_dir0 set_queue add_dir]; auto.
      - right. rewrite app_length. cbn [length]. split; [lia|reflexivity].
      - left. exact (sstep_trees _ _ _ _ _ H). }
    split; [exact Hle|]. fold (spare sh) (spare sh'). split.
    + intros d Hd. rewrite in_app_iff in *.
      assert (Hd' : In d (spare sh' ++ held c') \/ In d (flat_map held ws)).
      { rewrite in_app_iff. destruct Hd as [Hd|Hd]; [auto|]. destruct (list_set_in _ _ _ _ _ Hn Hd); auto. }
      destruct Hd' as [Hd'|Hd']; [|auto]. rewrite held_use in Hd'.
      assert (U : In d (dir_in_use c) -> In d (flat_map held ws)).
      { intro U. apply in_flat_map. exists c. split; [exact (nth_error_In _ _ Hn)|]. rewrite held_use. exact U. }
      destruct Hk as [Hk|[[Hk1 Hk2]|(Hk1 & Hk2 & Hk3 & Hk4)]].
      * rewrite Hk, in_app_iff in Hd'. tauto.
      * rewrite Hk1, Hk2, app_nil_r in Hd'. auto.
      * rewrite Hk1, Hk3, in_app_iff in Hd'. destruct Hd' as [Hd'|[<-|[]]]; [auto|]. right.
        rewrite Hk4. apply in_seq. lia.
    + intros d Hd. rewrite in_app_iff. right. apply in_seq in Hd. destruct T as [T|[T U]]; [lia|].
      assert (d = length (sh_trees sh)) as -> by lia.
      apply in_flat_map. exists c'. split; [|rewrite U; left; reflexivity].
      apply (nth_error_In _ i). destruct (list_split _ _ _ _ Hn) as (l1 & l2 & E1 & E2 & E3). rewrite E3, <- E2.
      rewrite nth_error_app2, Nat.sub_diag by lia. reflexivity.
  - rewrite Nat.sub_diag. split; [auto|]. split; intros d' [].
Qed.

(** ** The invariant *)
Definition source0 (d : nat) : Prop := is_source_tree P d.

Definition temp_ok (s : tstate) : Prop :=
  (forall d, In d (owned (t_lab s)) -> In d (t_disk s) \/ source0 d)
  /\ (forall d, In d (t_disk s) -> d < all_dirs (t_lab s) /\ ~ source0 d)
  /\ (leak = false -> forall d, In d (t_disk s) -> In d (owned (t_lab s)))
  /\ NoDup (t_disk s)
  /\ (forall d, In d (t_deleted s) -> d < all_dirs (t_lab s) /\ ~ source0 d /\ leak = false)
  /\ (forall d, d < all_dirs (t_lab s) -> In d (t_disk s) \/ In d (t_deleted s) \/ source0 d)
  /\ (forall d, In d (t_deleted s) -> ~ In d (owned (t_lab s)) /\ ~ In d (t_disk s))
  /\ 1 <= all_dirs (t_lab s).

Lemma has_temp_spec : forall d, has_temp P leak d = true <-> leak = false /\ ~ source0 d.
Proof.
  intro d. unfold has_temp, source0, is_source_tree. rewrite andb_true_iff, !negb_true_iff, andb_false_iff, Nat.eqb_neq.
  split; [intros [A [B|B]]; split; auto; intros [C D]; congruence|].
  intros [A B]. split; [exact A|]. destruct (pa_in_place P); [right|auto]. intro C. apply B. auto.
Qed.
Lemma has_temp_no : leak = true -> forall l, filter (has_temp P leak) l = [].
Proof. intros H. induction l as [|d l IH]; [reflexivity|]. cbn [filter]. unfold has_temp at 1. rewrite H. cbn. rewrite <- H. exact IH. Qed.

Lemma owned_lt : forall st d, reachable P o0 t0 ms st -> In d (owned st) -> d < all_dirs st.
Proof.
  intros st d R H. pose proof (dirs_inv P o0 t0 ms st R) as DI. pose proof (base_dir st) as BD.
  unfold owned in H. destruct (ls_main st) eqn:E.
  - destruct H as [<-|[]]. destruct (BD _ R eq_refl) as [-> _]. lia.
  - unfold threads in DI. rewrite E in DI. destruct DI as (_ & DL & _). apply DL. unfold spare. rewrite <- held_flat. exact H.
  - destruct H.
Qed.

Lemma source_dec : forall d, source0 d \/ ~ source0 d.
Proof.
  intro d. unfold source0, is_source_tree. destruct (pa_in_place P); [|right; intros []; congruence].
  destruct (Nat.eq_dec d 0); [left; auto|right; tauto].
Qed.

Lemma temp_inv : forall s, treach s -> temp_ok s.
Proof.
  intros s H. unfold treachable in H. remember (tstart P o0 t0 ms) as s0 eqn:E0. revert E0.
  induction H as [s|s s' s'' Hs IH Hst]; intro E0.
  - subst s. unfold temp_ok, tstart. cbn [t_lab t_disk t_deleted].
    assert (A : all_dirs (start_state P o0 t0 ms) = 1) by reflexivity. rewrite A.
    assert (O : owned (start_state P o0 t0 ms) = [0]).
    { unfold owned, start_state. destruct (pa_skip_baseline P); cbn [ls_main ls_sh sh_dir0 ls_workers]; [|reflexivity].
      rewrite held_flat, flat_use_spawn. reflexivity. }
    rewrite O. unfold source0, is_source_tree. destruct (pa_in_place P).
    + split; [intros d [<-|[]]; auto|]. split; [intros d []|]. split; [intros _ d []|]. split; [constructor|].
      split; [intros d []|]. split; [intros d Hd; right; right; split; [reflexivity|lia]|]. split; [intros d []|lia].
    + split; [intros d [<-|[]]; left; left; reflexivity|].
      split; [intros d [<-|[]]; split; [lia|intros []; discriminate]|]. split; [auto|].
      split; [constructor; [intros []|constructor]|]. split; [intros d []|].
      split; [intros d Hd; left; left; lia|]. split; [intros d []|lia].
  - assert (R : treach s') by (unfold treachable; rewrite <- E0; exact Hs).
    apply treach_lab in R. specialize (IH E0). subst s.
    destruct Hst as [st st' disk del Hst gone]. unfold temp_ok in *. cbn [t_lab t_disk t_deleted] in *.
    destruct IH as (I1 & I2 & I3 & I4 & I5 & I6 & I7 & I8).
    destruct (step_owned _ _ R Hst) as (SL & S1 & S2).
    assert (M : forall d, In d (made st st') <-> all_dirs st <= d < all_dirs st').
    { intro d. unfold made, all_dirs in *. rewrite in_seq. lia. }
    assert (G : forall d, In d gone <-> In d (owned st) /\ ~ In d (owned st') /\ leak = false /\ ~ source0 d).
    { intro d. unfold gone, released. rewrite !filter_In, negb_true_iff, member_out, has_temp_spec. tauto. }
    assert (K : forall d, In d (filter (fun d => negb (member d gone)) (disk ++ made st st')) <-> (In d disk \/ In d (made st st')) /\ ~ In d gone).
    { intro d. rewrite filter_In, in_app_iff, negb_true_iff, member_out. tauto. }
    split.
    { intros d Hd. destruct (source_dec d) as [Sd|Sd]; [auto|]. left. apply K. split; [|rewrite G; tauto].
      destruct (S1 d Hd) as [Ho|Hm]; [|auto]. destruct (I1 d Ho); tauto. }
    split.
    { intros d Hd. apply K in Hd as [[Hd|Hd] _]; [destruct (I2 d Hd); split; [lia|tauto]|].
      apply M in Hd. split; [lia|]. intros [_ ->]. lia. }
    split.
    { intros L d Hd. apply K in Hd as [[Hd|Hd] Hg]; [|apply S2, Hd].
      destruct (in_dec Nat.eq_dec d (owned st')) as [Ho|Ho]; [exact Ho|]. exfalso. apply Hg, G.
      split; [exact (I3 L d Hd)|]. split; [exact Ho|]. split; [exact L|]. apply I2, Hd. }
    split.
    { apply NoDup_filter. apply NoDup_app_intro_temp; [exact I4|apply seq_NoDup|]. intros d Hd Hm. apply I2 in Hd as [Hd _]. apply M in Hm. lia. }
    split.
    { intros d Hd. rewrite in_app_iff in Hd. destruct Hd as [Hd|Hd]; [destruct (I5 d Hd) as (A & B & C); split; [lia|auto]|].
      apply G in Hd as (A & _ & B & C). split; [|auto]. pose proof (owned_lt _ _ R A). lia. }
    split.
    { intros d Hd. rewrite in_app_iff, K. destruct (in_dec Nat.eq_dec d gone) as [Hg|Hg]; [auto|].
      destruct (le_lt_dec (all_dirs st) d) as [Hl|Hl]; [left; split; [right; apply M; lia|exact Hg]|].
      destruct (I6 d Hl) as [A|[A|A]]; auto. }
    split; [|lia].
    intros d Hd. rewrite in_app_iff in Hd. rewrite K. destruct Hd as [Hd|Hd].
    + destruct (I7 d Hd) as [A B]. destruct (I5 d Hd) as (C & _).
      assert (~ In d (made st st')) by (rewrite M; lia). split; [|tauto].
      intro Ho. destruct (S1 d Ho); tauto.
    + split; [|tauto]. apply G in Hd. tauto.
Qed.

(** ** How many *)
Lemma spare_init : forall st, reachable P o0 t0 ms st -> ls_main st = MWork ->
  sh_dir0 (ls_sh st) <> None -> Forall (eq WInit) (ls_workers st).
Proof.
  intros st H. unfold reachable in H. remember (start_state P o0 t0 ms) as s0 eqn:E0.
  assert (SP : forall k, Forall (eq WInit) (spawn k)) by (intro k; induction k; constructor; auto).
  induction H as [s|s s' s'' Hs IH Hst]; intros E N.
  - subst s. unfold start_state in *. destruct (pa_skip_baseline P); cbn [ls_main ls_workers] in *; [apply SP|discriminate].
  - specialize (IH E0). destruct Hst; cbn [ls_main ls_sh ls_workers] in *; try discriminate; [apply SP|]. specialize (IH eq_refl).
    destruct (sh_dir0 sh) as [d0|] eqn:D0.
    + specialize (IH ltac:(discriminate)). rewrite Forall_forall in IH.
      pose proof (IH _ (nth_error_In _ _ H)) as <-. inversion H0; subst; cbn [sh_dir0 set_dir0] in N; try congruence.
      pose proof (sstep_frame P _ _ _ _ _ H1) as (_ & _ & _ & _ & d & sc & A & _). discriminate A.
    + exfalso. inversion H0; subst; cbn [sh_dir0 set_dir0 set_queue add_dir] in N; try congruence.
      pose proof (sstep_frame P _ _ _ _ _ H1) as (_ & Fd & _). congruence.
Qed.

Lemma held_le : forall ts, length (flat_map held ts) <= length ts.
Proof.
  induction ts as [|c ts IH]; [auto|]. cbn [flat_map length]. rewrite app_length.
  assert (length (held c) <= 1) by (destruct c; cbn; lia). lia.
Qed.

Lemma owned_le : forall st, reachable P o0 t0 ms st -> length (owned st) <= nt.
Proof.
  intros st R. pose proof (base_inv P o0 t0 ms st R) as B. pose proof (spare_init st R) as SI.
  assert (N : 1 <= nt) by (unfold n_threads; lia).
  unfold owned. destruct (ls_main st); [cbn [length]; lia| |cbn [length]; lia].
  rewrite app_length. pose proof (held_le (ls_workers st)).
  destruct (sh_dir0 (ls_sh st)) as [d|] eqn:D; cbn [length]; [|lia].
  specialize (SI eq_refl ltac:(discriminate)).
  assert (flat_map held (ls_workers st) = []) as ->; [|cbn [length]; lia].
  clear - SI. induction SI as [|c l <- _ IH]; [reflexivity|exact IH].
Qed.

End T.

(** Executable runs, for the examples. *)
Fixpoint texec (P : params) (leak : bool) (n : nat) (xs : list (nat * option (exit_t * N))) (s : tstate) : option tstate :=
  match xs with
  | [] => Some s
  | x :: xs' =>
      match exec1 P n x (t_lab s) with
      | Some st' => let gone := filter (has_temp P leak) (released (t_lab s) st') in
                    texec P leak n xs' (mkT st' (filter (fun d => negb (member d gone)) (t_disk s ++ made (t_lab s) st')) (t_deleted s ++ gone))
      | None => None
      end
  end.

Lemma texec_sound : forall P leak o0 t0 ms xs s,
  texec P leak (length ms) xs (tstart P o0 t0 ms) = Some s -> treachable P leak o0 t0 ms s.
Proof.
  intros P leak o0 t0 ms xs s H. unfold treachable.
  assert (K : forall xs s s', tsteps P leak (length ms) (tstart P o0 t0 ms) s -> texec P leak (length ms) xs s = Some s' ->
            tsteps P leak (length ms) (tstart P o0 t0 ms) s').
  { clear. induction xs as [|x xs IH]; intros [st dk de] s' Hs E; cbn [texec t_lab t_disk t_deleted] in E; [injection E as <-; exact Hs|].
    destruct (exec1 P (length ms) x st) as [s1|] eqn:E1; [|discriminate]. eapply IH; [|exact E].
    eapply tsteps_more; [exact Hs|]. apply ts_step. apply exec1_sound with x. exact E1. }
  eapply K; [apply tsteps_refl|exact H].
Qed.
