(** Proofs for C43: an error has a cause outside the program. *)
From Coq Require Import String List NArith ZArith Bool Permutation Lia.
From Verif Require Import Text SpanM PathM PathS MutantM ProcessM OutcomeM OutputM OutputS IterateM LabM LabS LabP CauseS.
Import ListNotations.

Section Cause.
Context (P : params) (o0 : entries) (t0 : tree) (ms : list mutant).
Hypothesis Hf : pa_faults P = false.
Hypothesis Hw : pa_write_faults P = false.
Hypothesis Hsrc : forall m, In m ms -> pa_source P (file_key m) = true.
Notation reach := (reachable P o0 t0 ms).

Definition present (t : tree) : Prop := forall m, In m ms -> t (file_key m) <> None.
Definition fine (c : wpc) : Prop := match c with WEnd false | WRevertErr _ _ => False | _ => True end.
Definition calm (sh : shared) (ts : list wpc) : Prop := Forall fine ts /\ Forall present (sh_trees sh).

Lemma set_in : forall A (l : list A) i x y, In y (list_set l i x) -> y = x \/ In y l.
Proof.
  induction l as [|a l IH]; intros i x y H; [destruct H|]. destruct i; cbn in H.
  - destruct H as [<-|H]; [auto|right; right; auto].
  - destruct H as [<-|H]; [right; left; auto|]. destruct (IH _ _ _ H); [auto|right; right; auto].
Qed.

Lemma set_present : forall sh d t, Forall present (sh_trees sh) -> present t -> Forall present (sh_trees (put_tree sh d t)).
Proof.
  intros sh d t F H. apply Forall_forall. intros x Hx. cbn in Hx. destruct (set_in _ _ _ _ _ Hx) as [->|Hx']; [auto|].
  rewrite Forall_forall in F. auto.
Qed.

Lemma over_present : forall t k c t', overwrite_file t k c = Some t' -> present t -> present t'.
Proof.
  unfold overwrite_file. intros t k c t' H Pt m Hm. destruct (t k); [|discriminate]. injection H as <-.
  unfold tree_set. destruct (key_eqb _ _); [discriminate|auto].
Qed.

Lemma same_present : forall t t', same_sources P t t' -> present t -> present t'.
Proof. intros t t' H Pt m Hm. rewrite (H _ (Hsrc m Hm)). auto. Qed.

Lemma get_present : forall sh d, Forall present (sh_trees sh) -> d < length (sh_trees sh) -> present (get_tree sh d).
Proof. intros sh d F H. rewrite Forall_forall in F. apply F. apply nth_In. exact H. Qed.

Lemma over_some : forall t m c, present t -> In m ms -> overwrite_file t (file_key m) c <> None.
Proof. intros t m c Pt Hm. unfold overwrite_file. specialize (Pt m Hm). destruct (t (file_key m)); congruence. Qed.

Lemma in_ms : forall c d m, wf P ms c -> active c = Some (d, Mutant m) -> In m ms.
Proof. intros c d m W A. exact (proj1 W d m A). Qed.

Lemma sstep_calm : forall i sh c sh' c', sstep P i sh c sh' c' -> wf P ms c -> fine c -> logs_ok sh [c] ->
  (forall d, In d (dir_in_use c) -> d < length (sh_trees sh)) -> Forall present (sh_trees sh) ->
  trouble c c' = true \/ (fine c' /\ Forall present (sh_trees sh')).
Proof.
  intros i sh c sh' c' H W F L B T. destruct H; cbn [trouble fine] in *; try congruence;
    try (right; split; [exact I|exact T]); try (left; reflexivity).
  - exfalso. exact (proj1 (logs_start _ _ _ _ L H0) H1).
  - right. split; [exact I|]. apply set_present; [exact T|]. eapply over_present; [eassumption|].
    apply get_present; [exact T|]. apply B. left. reflexivity.
  - exfalso. eapply over_some; [|exact (in_ms _ d m W eq_refl)|exact H]. apply get_present; [exact T|]. apply B. left. reflexivity.
  - right. split; [exact I|]. apply set_present; [exact T|]. eapply same_present; [eassumption|].
    apply get_present; [exact T|]. apply B. left. reflexivity.
  - right. split; [exact I|]. apply set_present; [exact T|]. eapply same_present; [eassumption|].
    apply get_present; [exact T|]. apply B. left. reflexivity.
  - right. split; [exact I|]. apply set_present; [exact T|]. eapply over_present; [eassumption|].
    apply get_present; [exact T|]. apply B. left. reflexivity.
  - exfalso. eapply over_some; [|exact (in_ms _ d m W eq_refl)|exact H]. apply get_present; [exact T|]. apply B. left. reflexivity.
  - destruct F.
  - destruct F.
  - destruct F.
Qed.

Lemma wstep_calm : forall i sh c sh' c', wstep P i sh c sh' c' -> wf P ms c -> fine c -> logs_ok sh [c] ->
  (forall d, In d (dir_in_use c) -> d < length (sh_trees sh)) -> Forall present (sh_trees sh) -> copies_complete ms sh' ->
  trouble c c' = true \/ (fine c' /\ Forall present (sh_trees sh')).
Proof.
  intros i sh c sh' c' H W F L B T C. destruct H; cbn [trouble fine]; auto; try (right; split; [exact I|exact T]).
  - right. split; [exact I|]. cbn. apply Forall_app. split; [exact T|]. constructor; [|constructor].
    intros m Hm. apply C; [|exact Hm]. cbn. apply in_or_app. right. left. reflexivity.
  - eapply sstep_calm; eassumption.
Qed.

Lemma base_grows : forall i sh c sh' c', wstep P i sh c sh' c' -> incl (sh_base sh) (sh_base sh').
Proof.
  intros i sh c sh' c' H x Hx. destruct H as [| | | | | | |c sh' c' H]; auto.
  - cbn. apply in_or_app. auto.
  - destruct (sstep_frame _ _ _ _ _ _ H) as (_ & _ & E & _). rewrite E. exact Hx.
Qed.

Lemma steps_trans : forall k a b c, steps P k a b -> steps P k b c -> steps P k a c.
Proof. intros k a b c H1 H2. induction H2; [exact H1|]. econstructor; [apply IHsteps; exact H1|exact H]. Qed.

Lemma trouble_more : forall s s', had_trouble P o0 t0 ms s -> step P (length ms) s s' -> had_trouble P o0 t0 ms s'.
Proof.
  intros s s' (a & b & i & c & c' & H1 & H2 & H3 & H4) Hs. exists a, b, i, c, c'. repeat split; try apply H1; try apply H2; try apply H4.
  econstructor; eassumption.
Qed.

Lemma trouble_now : forall s s' i c c', reach s -> step P (length ms) s s' -> nth_error (threads s) i = Some c ->
  nth_error (threads s') i = Some c' -> trouble c c' = true -> had_trouble P o0 t0 ms s'.
Proof. intros s s' i c c' H1 H2 H3 H4 H5. exists s, s', i, c, c'. repeat split; auto. constructor. Qed.

Definition calm_state (st : state) : Prop :=
  match ls_main st with MEnd r => r <> RErr | _ => calm (ls_sh st) (threads st) end.

Lemma spawn_fine : forall k, Forall fine (spawn k).
Proof. intros k. apply Forall_forall. intros x Hx. apply repeat_spec in Hx. subst x. exact I. Qed.

Lemma base_step : forall k s s', step P k s s' -> incl (sh_base (ls_sh s)) (sh_base (ls_sh s')).
Proof.
  intros k s s' H. destruct H; cbn [ls_sh]; try apply incl_refl.
  - eapply base_grows with (i := 0). apply ws_scenario. eassumption.
  - eapply base_grows; eassumption.
Qed.

Lemma root_cause : forall st, reach st -> copies_complete ms (ls_sh st) -> had_trouble P o0 t0 ms st \/ calm_state st.
Proof.
  intros st H. unfold reachable in H. remember (start_state P o0 t0 ms) as s0 eqn:E0.
  induction H as [s|s s' s'' Hs IH Hst]; intros C.
  - right. subst s. unfold start_state, calm_state in *. destruct (pa_skip_baseline P); cbn in *.
    + split; [apply spawn_fine|]. constructor; [|constructor]. intros m Hm. apply C; [left; reflexivity|exact Hm].
    + split; [repeat constructor|]. constructor; [|constructor]. intros m Hm. apply C; [left; reflexivity|exact Hm].
  - specialize (IH E0). subst s.
    assert (C' : copies_complete ms (ls_sh s')). { intros t m Ht. apply C. eapply base_step; eassumption. }
    destruct (IH C') as [T|K]; [left; eapply trouble_more; eassumption|].
    pose proof (wf_inv _ _ _ _ _ Hs) as W. pose proof (dirs_inv _ _ _ _ _ Hs) as D. pose proof (logs_inv _ _ _ _ _ Hs) as L.
    pose proof Hst as Hst'.
    destruct Hst; unfold calm_state, calm, threads in *; cbn [ls_main ls_sh ls_workers] in *.
    + destruct K as [F T]. inversion F; subst. destruct W as (_ & W & _). inversion W; subst.
      destruct (sstep_calm _ _ _ _ _ H H4 H2 L) as [X|[X Y]]; try assumption.
      * intros d Hd. apply (proj1 (proj2 D)). apply in_or_app. right. cbn. rewrite app_nil_r. exact Hd.
      * left. eapply trouble_now with (i := 0); [exact Hs|exact Hst'|reflexivity|reflexivity|exact X].
      * right. split; [constructor; [exact X|constructor]|exact Y].
    + right. split; [apply spawn_fine|apply K].
    + right. discriminate.
    + destruct K as [F _]. inversion F as [|x y X]; subst. destruct X.
    + right. discriminate.
    + destruct K as [F T]. destruct W as (_ & W & _). rewrite Forall_forall in W, F.
      pose proof (nth_error_In _ _ H) as Hc.
      destruct (wstep_calm _ _ _ _ _ H0 (W _ Hc) (F _ Hc) L) as [X|[X Y]]; try assumption.
      * intros d Hd. apply (proj1 (proj2 D)). apply in_or_app. right. apply in_flat_map. eauto.
      * left. eapply trouble_now with (i := i); [exact Hs|exact Hst'|exact H| |exact X].
        cbn. apply nth_error_set_same. eapply nth_error_lt. exact H.
      * right. split; [|exact Y]. apply Forall_forall. intros x Hx. destruct (set_in _ _ _ _ _ Hx) as [->|Hx']; auto.
    + right. unfold join_threads. destruct (existsb is_panic ws); [discriminate|].
      destruct (existsb is_err ws) eqn:E; [|discriminate]. exfalso. apply existsb_exists in E. destruct E as (c & Hc & E).
      destruct K as [F _]. rewrite Forall_forall in F. specialize (F _ Hc). destruct c; try discriminate. destruct ok; [discriminate|exact F].
Qed.

End Cause.
