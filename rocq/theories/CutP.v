(** outcomes.json when writes may fail (C53): a run that ends without an error leaves a beginning of the text for all
    its outcomes. *)
From Coq Require Import String List NArith ZArith Bool Lia Permutation.
From Verif Require Import Text MutantM OutcomeM OutputM OutputP IterateM IterateP LabM LabS LabP.
Import ListNotations.
Open Scope list_scope.
Open Scope nat_scope.

Section Cut.
Context (P : params) (o0 : entries) (t0 : tree) (ms : list mutant).
Notation reach := (reachable P o0 t0 ms).

Definition begins (sh : shared) : Prop :=
  exists t r, dget (sh_out sh) OUTCOMES_JSON = Some (NFile t) /\ pa_json P (sh_lab sh) = t ++ r.

Definition cut_inv (sh : shared) (ts : list wpc) : Prop :=
  (exists c, In c ts /\ failed c = true)
  \/ match sh_mutex sh with
     | None => lo_outcomes (sh_lab sh) <> [] -> begins sh
     | Some i => exists c, nth_error ts i = Some c /\ critical c = true
                 /\ match c with WName _ _ | WNewline _ _ => begins sh | _ => True end
     end.

Lemma begins_append : forall sh out l i f t, begins sh -> out = append_file (sh_out sh) f t -> f <> OUTCOMES_JSON -> l = sh_lab sh ->
  begins (set_out sh out i).
Proof.
  intros sh out l i f t (x & r & A & B) -> N ->. exists x, r. cbn [set_out sh_out sh_lab]. split; [|exact B].
  rewrite append_other by (intro K; apply N; congruence). exact A.
Qed.

Lemma list_not_json : forall v f, list_for v = Some f -> f <> OUTCOMES_JSON.
Proof. intros [] f H; try discriminate; injection H as <-; discriminate. Qed.

Lemma failed_stays : forall i sh ts c sh' c', nth_error ts i = Some c -> wstep P i sh c sh' c' ->
  (exists c, In c ts /\ failed c = true) -> exists c, In c (list_set ts i c') /\ failed c = true.
Proof.
  intros i sh ts c sh' c' Hn Hs (x & Hx & Fx). exists x. split; [|exact Fx].
  destruct (list_split _ _ _ _ Hn) as (l1 & l2 & E & _ & S). rewrite S. rewrite E in Hx. apply in_app_iff in Hx. apply in_app_iff.
  destruct Hx as [Hx|[<-|Hx]]; [left; exact Hx| |right; right; exact Hx].
  exfalso. destruct c; try discriminate; (inversion Hs as [| | | | | | |? ? ? Hs']; inversion Hs').
Qed.

Lemma cut_step : forall i sh ts c sh' c', nth_error ts i = Some c -> wstep P i sh c sh' c' ->
  mutex_ok sh ts -> cut_inv sh ts -> cut_inv sh' (list_set ts i c').
Proof.
  intros i sh ts c sh' c' Hn Hs [M1 M2] H. pose proof (nth_error_lt _ _ _ _ Hn) as Hlt. unfold cut_inv in *.
  destruct H as [H|H]; [left; eapply failed_stays; eassumption|].
  assert (New : failed c' = true -> exists c, In c (list_set ts i c') /\ failed c = true).
  { intro F. exists c'. split; [|exact F]. eapply nth_error_In with (n := i). apply nth_error_set_same. exact Hlt. }
  destruct (failed c') eqn:Fc'; [left; apply New; reflexivity|]. right. clear New.
  destruct (critical c) eqn:Ec.
  - pose proof (M1 _ _ Hn Ec) as Hm. rewrite Hm in H. destruct H as (c1 & Hc1 & _ & H). rewrite Hn in Hc1. injection Hc1 as <-.
    assert (Hs' : sstep P i sh c sh' c') by (inversion Hs; subst; try discriminate; assumption).
    destruct Hs'; try discriminate; cbn [set_out sh_mutex sh_out sh_lab].
    + eexists. rewrite nth_error_set_same by assumption. split; [reflexivity|]. split; [reflexivity|exact I].
    + eexists. rewrite nth_error_set_same by assumption. split; [reflexivity|]. split; [reflexivity|].
      exists (pa_json P (sh_lab sh)), []. cbn [set_out sh_out sh_lab]. rewrite dget_dset_same, app_nil_r. auto.
    + eexists. rewrite nth_error_set_same by assumption. split; [reflexivity|]. split; [reflexivity|].
      exists t, r. cbn [set_out sh_out sh_lab]. rewrite dget_dset_same. auto.
    + eexists. rewrite nth_error_set_same by assumption. split; [reflexivity|]. split; [reflexivity|].
      eapply begins_append; [exact H|reflexivity|eapply list_not_json; eassumption|reflexivity].
    + intros _. destruct H as (t & r & A & B). exists t, r. auto.
    + intros _. destruct H as (t & r & A & B). exists t, r. auto.
    + intros _. eapply begins_append; [exact H|reflexivity|eapply list_not_json; eassumption|reflexivity].
  - destruct (critical c') eqn:Ec'.
    + assert (Hs' : sstep P i sh c sh' c') by (inversion Hs; subst; try discriminate; assumption).
      destruct Hs'; try discriminate. cbn [set_lab sh_mutex].
      eexists. rewrite nth_error_set_same by assumption. split; [reflexivity|]. split; [reflexivity|exact I].
    + destruct (wstep_quiet P _ _ _ _ _ Hs Ec Ec') as (Q1 & Q2 & Q3). rewrite Q3. destruct (sh_mutex sh) as [j|] eqn:Em.
      * destruct H as (cj & Hj & Cj & H). exists cj. split.
        -- rewrite nth_error_set_other; [exact Hj|]. intros ->. rewrite Hn in Hj. injection Hj as <-. congruence.
        -- split; [exact Cj|]. unfold begins in *. rewrite Q1, Q2. exact H.
      * unfold begins in *. rewrite Q1, Q2. exact H.
Qed.

Lemma cut_all : forall st, reach st ->
  match ls_main st with MEnd _ => True | _ => cut_inv (ls_sh st) (threads st) end.
Proof.
  intros st H. unfold reachable in H. remember (start_state P o0 t0 ms) as s0 eqn:E0.
  induction H as [s|s s' s'' Hs IH Hst].
  - subst s. unfold start_state. destruct (pa_skip_baseline P) eqn:E; unfold threads, cut_inv; cbn [ls_main ls_sh sh_mutex sh_lab lab_new lo_outcomes];
      right; congruence.
  - specialize (IH E0). subst s. pose proof (mutex_inv P o0 t0 ms s' Hs) as A.
    destruct Hst; unfold threads in *; cbn [ls_main ls_sh ls_workers] in *; auto.
    + apply (cut_step 0 sh [c] c sh' c'); auto. constructor. assumption.
    + destruct A as [_ A]. unfold cut_inv in *. cbn [set_dir0 sh_mutex sh_out sh_lab] in *. right.
      destruct IH as [(c & [<-|[]] & F)|IH]; [discriminate|].
      destruct (sh_mutex sh) as [j|] eqn:Em; [|exact IH].
      destruct IH as (cj & Hj & Cj & _). destruct j as [|[|j]]; try discriminate. injection Hj as <-. discriminate.
    + eapply cut_step; eauto.
Qed.

Lemma cut_end : forall sh l ws, reach (mkLS sh (MEnd (ROk l)) ws) -> lo_outcomes l <> [] ->
  exists t r, dget (sh_out sh) OUTCOMES_JSON = Some (NFile t) /\ pa_json P l = t ++ r.
Proof.
  intros sh l ws H NE. destruct (c12_ok P o0 t0 ms _ _ _ H) as [-> _].
  destruct (end_inv _ _ _ _ _ _ _ H) as [(d & o & H1 & _ & _ & ->)|[(_ & X & _)|[(_ & X & _)|(H1 & H3 & H4)]]]; try discriminate.
  - destruct (cut_all _ H1) as [(c & [<-|[]] & F)|K]; [discriminate|]. unfold threads in K. cbn [ls_main ls_sh ls_workers] in *.
    destruct (sh_mutex sh) as [j|] eqn:Em; [|exact (K NE)].
    destruct K as (cj & Hj & Cj & _). destruct j as [|[|j]]; try discriminate. injection Hj as <-. discriminate.
  - symmetry in H4. apply join_ok in H4. destruct H4 as [_ Nb]. rewrite forallb_forall in H3.
    destruct (cut_all _ H1) as [(c & Hc & Fc)|K]; unfold threads in *; cbn [ls_main ls_sh ls_workers] in *.
    + exfalso. enough (existsb bad ws = true) by congruence. apply existsb_exists. exists c. split; [exact Hc|]. destruct c as [| | | | | | | | | | | | | | |[|]|]; try discriminate; reflexivity.
    + destruct (sh_mutex sh) as [j|] eqn:Em; [|exact (K NE)]. destruct K as (cj & Hj & Cj & _).
      apply nth_error_In in Hj. specialize (H3 _ Hj). destruct cj; discriminate.
Qed.
End Cut.
