(** Proofs for C58. *)
From Coq Require Import String List NArith ZArith Bool Arith Lia.
From Verif Require Import Text Utf8M PathM PathS PathP CopyM CopyS CopyP CopyT DiskM DiskS.
Import ListNotations.
Open Scope list_scope.

Lemma resolve_eq : forall links d here cs, resolve links d here cs =
    match cs with
    | [] => Some here
    | Root :: cs' => resolve links d [] cs'
    | Cur :: cs' => resolve links d here cs'
    | Parent :: cs' => resolve links d (removelast here) cs'
    | Normal n :: cs' =>
        match d (here ++ [n]) with
        | Some SDir => resolve links d (here ++ [n]) cs'
        | Some (SLink t) => match links with O => None | S k => resolve k d here (PathM.components t ++ cs') end
        | Some _ => match cs' with [] => Some (here ++ [n]) | _ => None end
        | None => None
        end
    end.
Proof. intros [|k] d here [|c cs]; reflexivity. Qed.

(** More links allowed, same file. *)
Lemma resolve_more : forall k d here cs p, resolve k d here cs = Some p -> forall j, k <= j -> resolve j d here cs = Some p.
Proof.
  induction k as [|k IHk]; intros d here cs p; revert here; (induction cs as [|c cs IH]; intros here H j L; rewrite resolve_eq in *; [exact H|]).
  - destruct c as [| | |n]; [apply IH; auto..|]. destruct (d (here ++ [n])) as [[m b| |t|]|]; [exact H|apply IH; auto|discriminate|exact H|discriminate].
  - destruct c as [| | |n]; [apply IH; auto..|]. destruct (d (here ++ [n])) as [[m b| |t|]|]; [exact H|apply IH; auto| |exact H|discriminate].
    destruct j as [|j]; [lia|]. apply (IHk _ _ _ _ H). lia.
Qed.
Lemma resolve_same : forall k j d here cs p q, resolve k d here cs = Some p -> resolve j d here cs = Some q -> p = q.
Proof.
  intros k j d here cs p q H1 H2.
  pose proof (resolve_more k d here cs p H1 (k + j) ltac:(lia)) as E1.
  pose proof (resolve_more j d here cs q H2 (k + j) ltac:(lia)) as E2. congruence.
Qed.

Lemma resolve_app : forall k d here a b p, resolve k d here (a ++ b) = Some p ->
  exists h j, resolve k d here a = Some h /\ resolve j d h b = Some p.
Proof.
  induction k as [|k IHk]; intros d here a b p; revert here; (induction a as [|c a IH]; intros here H;
    [exists here; eexists; split; [destruct here; reflexivity|exact H]|]); cbn [app] in H; rewrite resolve_eq in H; rewrite resolve_eq.
  - destruct c as [| | |n]; [apply IH; auto..|]. destruct (d (here ++ [n])) as [[m x| |t|]|]; [|apply IH; auto|discriminate| |discriminate].
    + destruct (a ++ b) eqn:E; [|discriminate]. apply app_eq_nil in E. destruct E as [-> ->]. exists (here ++ [n]), 0. split; [reflexivity|]. destruct here; exact H.
    + destruct (a ++ b) eqn:E; [|discriminate]. apply app_eq_nil in E. destruct E as [-> ->]. exists (here ++ [n]), 0. split; [reflexivity|]. destruct here; exact H.
  - destruct c as [| | |n]; [apply IH; auto..|]. destruct (d (here ++ [n])) as [[m x| |t|]|]; [|apply IH; auto| | |discriminate].
    + destruct (a ++ b) eqn:E; [|discriminate]. apply app_eq_nil in E. destruct E as [-> ->]. exists (here ++ [n]), 0. split; [reflexivity|]. destruct here; exact H.
    + rewrite app_assoc in H. apply IHk. exact H.
    + destruct (a ++ b) eqn:E; [|discriminate]. apply app_eq_nil in E. destruct E as [-> ->]. exists (here ++ [n]), 0. split; [reflexivity|]. destruct here; exact H.
Qed.

(** What [resolve] means. *)
Lemma leads_split : forall d a here b p, leads d here (a ++ b) p -> exists m, leads d here a m /\ leads d m b p.
Proof.
  intros d a. induction a as [|c a IH]; intros here b p H; cbn [app] in H; [exists here; split; [constructor|exact H]|].
  inversion H; subst. destruct (IH _ _ _ H5) as (m' & A & B). exists m'. split; [econstructor; eassumption|exact B].
Qed.
Lemma hop_parent : forall d here, hop d here Parent (removelast here).
Proof.
  intros d here. destruct here as [|x l] using rev_ind; [apply hop_top|]. rewrite removelast_last. apply hop_up.
Qed.

Lemma resolve_leads : forall k d cs here p, resolve k d here cs = Some p -> leads d here cs p.
Proof.
  induction k as [|k IHk]; intros d cs; (induction cs as [|c cs IH]; intros here p H; rewrite resolve_eq in H;
    [injection H as <-; apply ld_end|]).
  all: destruct c as [| | |n]; [eapply ld_step; [apply hop_root|exact (IH _ _ H)]|eapply ld_step; [apply hop_cur|exact (IH _ _ H)]
       |eapply ld_step; [apply hop_parent|exact (IH _ _ H)]|].
  all: destruct (d (here ++ [n])) as [[m b| |t|]|] eqn:E; try discriminate.
  all: try (destruct cs; [|discriminate]; injection H as <-; eapply ld_step; [eapply hop_name; [exact E|discriminate]|apply ld_end]).
  - eapply ld_step; [eapply hop_name; [exact E|discriminate]|exact (IH _ _ H)].
  - eapply ld_step; [eapply hop_name; [exact E|discriminate]|exact (IH _ _ H)].
  - apply IHk in H. destruct (leads_split _ _ _ _ _ H) as (m & A & B). eapply ld_step; [|exact B].
    eapply hop_link; [exact E|exact A].
Qed.

Lemma removelast_rev_cons : forall (b : list text) x up, removelast (b ++ rev (x :: up)) = b ++ rev up.
Proof. intros b x up. cbn [rev]. rewrite app_assoc. apply removelast_last. Qed.

(** In a directory without links a path means what it says. *)
Lemma resolve_plain : forall k d b cs here p q, no_links d b -> resolve k d (b ++ rev here) cs = Some p ->
  PathS.walk here cs = Some q -> p = b ++ rev q.
Proof.
  intros k d b cs. induction cs as [|c cs IH]; intros here p q N R W; rewrite resolve_eq in R; cbn [PathS.walk] in W; [congruence|].
  destruct c as [| | |n].
  - discriminate.
  - exact (IH _ _ _ N R W).
  - destruct here as [|x up]; [discriminate|]. rewrite removelast_rev_cons in R. exact (IH _ _ _ N R W).
  - replace ((b ++ rev here) ++ [n]) with (b ++ rev (n :: here)) in R by (cbn [rev]; rewrite app_assoc; reflexivity).
    destruct (d (b ++ rev (n :: here))) as [[m x| |t|]|] eqn:E.
    + destruct cs; [|discriminate]. cbn [PathS.walk] in W. congruence.
    + exact (IH _ _ _ N R W).
    + destruct (N _ _ E).
    + destruct cs; [|discriminate]. cbn [PathS.walk] in W. congruence.
    + discriminate.
Qed.

Lemma walk_no_cur : forall here cs, PathS.walk here (no_cur cs) = PathS.walk here cs.
Proof. intros here [|[| | |n] cs]; reflexivity. Qed.

Lemma join_inside : forall k j d build rel b p q, relative rel -> build <> [] ->
  resolve j d [] (components build) = Some b -> no_links d b -> PathS.walk [] (components rel) = Some q ->
  resolve k d [] (components (path_join build rel)) = Some p -> p = b ++ rev q.
Proof.
  intros k j d build rel b p q R B E N W H. rewrite path_join_components in H by assumption.
  apply resolve_app in H. destruct H as (h & i & H1 & H2). assert (h = b) by (eapply resolve_same; eassumption). subst h.
  rewrite <- (app_nil_r b) in H2. change (b ++ []) with (b ++ rev []) in H2.
  eapply resolve_plain; [exact N|exact H2|]. rewrite walk_no_cur. exact W.
Qed.

Lemma overwrite_one : forall k d build rel code d', overwrite k d build rel code = Some d' ->
  exists p m old, resolve k d [] (components (path_join build rel)) = Some p /\ d p = Some (SFile m old)
  /\ d' = put d p (SFile m (encode code)).
Proof.
  intros k d build rel code d' H. unfold overwrite in H. destruct (resolve _ _ _ _) as [p|]; [|discriminate].
  destruct (d p) as [[m old| | |]|] eqn:E; try discriminate. injection H as <-. eauto 6.
Qed.

(** Writing a file does not change what paths mean. *)
Lemma resolve_put : forall k d p m old new here cs, d p = Some (SFile m old) ->
  resolve k (put d p (SFile m new)) here cs = resolve k d here cs.
Proof.
  intros k d p m old new here cs E. revert here cs. induction k as [|k IHk]; intros here cs; revert here;
    (induction cs as [|c cs IH]; intro here; rewrite resolve_eq; rewrite (resolve_eq _ d); [reflexivity|]);
    destruct c as [| | |n]; auto; unfold put at 1; destruct (CopyM.path_eqb (here ++ [n]) p) eqn:Q;
    try (apply CopyP.path_eqb_eq in Q; rewrite Q, E; reflexivity);
    destruct (d (here ++ [n])) as [[m' x| |t|]|]; auto.
Qed.

Lemma put_put : forall d p s t q, put (put d p s) p t q = put d p t q.
Proof. intros. unfold put. destruct (CopyM.path_eqb q p); reflexivity. Qed.
