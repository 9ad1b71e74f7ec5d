(** Proofs for C19 and C49. *)
From Coq Require Import String List NArith Bool.
From Verif Require Import Text SpanM PathM MutantM MutantP OutcomeM OutputM OutputS OutputP IterateM IterateS.
Import ListNotations.

Lemma remove_prev_incl : forall prev ms r, remove_previously_caught prev ms = Some r -> incl r ms.
Proof.
  intros prev ms. induction ms as [|a ms IH]; intros r H; simpl in *.
  - apply some_inj in H. subst. apply incl_refl.
  - destruct (mutant_name true a); [|discriminate].
    destruct (remove_previously_caught prev ms) as [r'|]; [|discriminate]. apply some_inj in H.
    specialize (IH r' eq_refl). destruct (mem_text t prev); subst r.
    + apply incl_tl; exact IH.
    + intros x [->|Hx]; [left; reflexivity|right; apply IH; exact Hx].
Qed.

Lemma remove_prev_in : forall prev ms r, remove_previously_caught prev ms = Some r ->
  forall m n, In m ms -> mutant_name true m = Some n -> (In m r <-> ~ In n prev).
Proof.
  intros prev ms. induction ms as [|a ms IH]; intros r H m n Hi Hn; simpl in *; [tauto|].
  destruct (mutant_name true a) as [na|] eqn:Ea; [|discriminate].
  destruct (remove_previously_caught prev ms) as [r'|] eqn:Er; [|discriminate]. apply some_inj in H.
  pose proof (remove_prev_incl _ _ _ Er) as Hincl.
  assert (Hsub : In m ms -> (In m r' <-> ~ In n prev)) by (intros; eapply IH; eauto).
  destruct (mem_text na prev) eqn:Em; subst r.
  - destruct Hi as [->|Hi]; [|auto].
    rewrite Hn in Ea. apply some_inj in Ea. subst na. apply mem_text_in in Em.
    split; [|tauto]. intros Hx. apply Hsub; [apply Hincl|]; exact Hx.
  - apply mem_text_false in Em. destruct Hi as [->|Hi].
    + rewrite Hn in Ea. apply some_inj in Ea. subst na. split; [auto|left; reflexivity].
    + split.
      * intros [->|Hx]; [|apply Hsub; assumption].
        rewrite Hn in Ea. apply some_inj in Ea. subst na. exact Em.
      * intros Hx. right. apply Hsub; assumption.
Qed.

(** * Contents of the lists *)

(** [holds o k ns]: file [k] has these names, one per line. *)
Definition holds (o : entries) (k : text) (ns : list text) : Prop :=
  dget o k = Some (NFile (previously_text ns)).

Definition names_for (f : text) (l : list (mutant * summary_outcome)) : list text :=
  flat_map (fun mv => match list_for (snd mv) with
                      | Some k => if text_eqb f k then
                                    match mutant_name true (fst mv) with Some n => [n] | None => [] end
                                  else []
                      | None => []
                      end) l.

Lemma append_same : forall o k c t, dget o k = Some (NFile c) -> dget (append_file o k t) k = Some (NFile (c ++ t)).
Proof. intros o k c t H. unfold append_file. rewrite H. apply dget_dset_same. Qed.

Lemma append_other : forall o k k' t, k <> k' -> dget (append_file o k t) k' = dget o k'.
Proof.
  intros o k k' t H. unfold append_file. destruct (dget o k) as [[c|x]|]; try reflexivity.
  apply dget_dset_other; assumption.
Qed.

Lemma record_one : forall o m v o' f ns, record o (m, v) = Some o' -> holds o f ns ->
  holds o' f (ns ++ names_for f [(m, v)]).
Proof.
  intros o m v o' f ns H Hh. unfold record, record_name, record_newline in H. simpl in H.
  unfold names_for. simpl. destruct (list_for v) as [k|].
  - destruct (mutant_name true m) as [n|]; [|discriminate]. apply some_inj in H. subst o'.
    destruct (text_eqb f k) eqn:E.
    + apply text_eqb_eq in E. subst k. unfold holds in *. simpl. rewrite previously_app, previously_one.
      rewrite (append_same _ _ (previously_text ns ++ n)); [rewrite <- app_assoc; reflexivity|].
      apply append_same. exact Hh.
    + apply text_eqb_neq in E. simpl. rewrite app_nil_r. unfold holds.
      rewrite !append_other by congruence. exact Hh.
  - apply some_inj in H. subst o'. simpl. rewrite app_nil_r. exact Hh.
Qed.

Lemma names_for_cons : forall f x l, names_for f (x :: l) = names_for f [x] ++ names_for f l.
Proof. intros. unfold names_for. simpl. rewrite app_nil_r. reflexivity. Qed.

Lemma record_all_holds : forall l o o' f ns, record_all o l = Some o' -> holds o f ns ->
  holds o' f (ns ++ names_for f l).
Proof.
  induction l as [|[m v] l IH]; intros o o' f ns H Hh; cbn [record_all] in H.
  - apply some_inj in H. subst. simpl. rewrite app_nil_r. exact Hh.
  - destruct (record o (m, v)) as [o1|] eqn:E; [|discriminate].
    rewrite names_for_cons, app_assoc. eapply IH; [exact H|]. eapply record_one; eassumption.
Qed.

Lemma list_for_neq : forall k v, list_for v = Some k ->
  k <> PREVIOUSLY_CAUGHT_TXT /\ k <> LOCK_JSON.
Proof. intros k [] H; try discriminate; injection H as <-; split; discriminate. Qed.

Lemma record_frame : forall o x o' k, record o x = Some o' ->
  k = PREVIOUSLY_CAUGHT_TXT \/ k = LOCK_JSON -> dget o' k = dget o k.
Proof.
  intros o [m v] o' k H Hk. unfold record, record_name, record_newline in H. simpl in H.
  destruct (list_for v) as [f|] eqn:Ef.
  - destruct (list_for_neq _ _ Ef) as [H1 H2].
    destruct (mutant_name true m); [|discriminate]. apply some_inj in H. subst o'.
    rewrite !append_other; [reflexivity| |]; destruct Hk; congruence.
  - apply some_inj in H. subst. reflexivity.
Qed.

Lemma record_all_frame : forall l o o' k, record_all o l = Some o' ->
  k = PREVIOUSLY_CAUGHT_TXT \/ k = LOCK_JSON -> dget o' k = dget o k.
Proof.
  induction l as [|x l IH]; intros o o' k H Hk; cbn [record_all] in H.
  - apply some_inj in H. subst. reflexivity.
  - destruct (record o x) as [o1|] eqn:E; [|discriminate].
    rewrite (IH _ _ _ H Hk). eapply record_frame; eassumption.
Qed.

Lemma names_for_in : forall f l n, In n (names_for f l) <->
  exists m v, In (m, v) l /\ mutant_name true m = Some n /\ list_for v = Some f.
Proof.
  intros f l n. unfold names_for. rewrite in_flat_map. split.
  - intros ([m v] & Hi & Hn). simpl in Hn. destruct (list_for v) as [k|] eqn:E; [|destruct Hn].
    destruct (text_eqb f k) eqn:Ek; [|destruct Hn]. apply text_eqb_eq in Ek. subst k.
    destruct (mutant_name true m) as [n'|] eqn:En; [|destruct Hn].
    destruct Hn as [->|[]]. exists m, v. auto.
  - intros (m & v & Hi & Hn & Hv). exists (m, v). split; [exact Hi|]. simpl. rewrite Hv, text_eqb_refl, Hn.
    left. reflexivity.
Qed.

Lemma decided_in : forall l n, decided l n <->
  In n (names_for CAUGHT_TXT l) \/ In n (names_for UNVIABLE_TXT l).
Proof.
  intros l n. rewrite !names_for_in. split.
  - intros (m & v & Hi & Hn & [-> | ->]); [left|right]; exists m; eexists; repeat split; eauto.
  - intros [(m & v & Hi & Hn & Hv)|(m & v & Hi & Hn & Hv)]; exists m, v; repeat split; auto;
      destruct v; try discriminate; auto.
Qed.

Lemma names_for_clean : forall f l, (forall m v n, In (m, v) l -> mutant_name true m = Some n -> one_line n) ->
  Forall one_line (names_for f l).
Proof.
  intros f l H. apply Forall_forall. intros n Hn. apply names_for_in in Hn.
  destruct Hn as (m & v & Hi & Hn & _). eapply H; eassumption.
Qed.

Lemma fresh_holds : forall lk f, In f [CAUGHT_TXT; UNVIABLE_TXT; MISSED_TXT; TIMEOUT_TXT] ->
  holds (fresh_dir lk) f [].
Proof. intros lk f Hf. simpl in Hf. intuition subst; reflexivity. Qed.

(** What a started run has on disk. *)
Lemma start_spec : forall lk es found cand es1 o2,
  iterate_start lk es found = Some (cand, es1, o2) ->
  let prev := load_previously_caught (Some es) in
  remove_previously_caught prev found = Some cand
  /\ output_new lk (Some es) = NewOk es1
  /\ (forall f, In f [CAUGHT_TXT; UNVIABLE_TXT; MISSED_TXT; TIMEOUT_TXT] -> holds o2 f [])
  /\ holds o2 PREVIOUSLY_CAUGHT_TXT prev
  /\ dget o2 LOCK_JSON = Some (NFile lk).
Proof.
  intros lk es found cand es1 o2 H prev. unfold iterate_start in H. fold prev in H.
  destruct (remove_previously_caught prev found) as [c|] eqn:Er; [|discriminate].
  destruct (output_new lk (Some es)) as [e|e] eqn:En; [|discriminate].
  destruct (dget e OUTDIR) as [[x|o1]|] eqn:Eo; try discriminate.
  destruct (write_previously_caught o1 prev) as [o|] eqn:Ew; [|discriminate].
  apply some_inj in H. injection H as <- <- <-.
  assert (Hf : o1 = fresh_dir lk).
  { unfold output_new in En. destruct (dget es OUTDIR) as [[y|y]|]; try discriminate.
    - destruct (write_lock lk y); [|discriminate].
      destruct (dget es ROTATED) as [[z|z]|]; try discriminate; injection En as <-;
        rewrite dget_dset_same in Eo; congruence.
    - injection En as <-. rewrite dget_dset_same in Eo. congruence. }
  subst o1. unfold write_previously_caught in Ew.
  change (dget (fresh_dir lk) PREVIOUSLY_CAUGHT_TXT) with (@None node) in Ew. apply some_inj in Ew. subst o.
  split; [reflexivity|]. split; [reflexivity|]. split; [|split].
  - intros f Hin. unfold holds. rewrite dget_dset_other; [apply fresh_holds; exact Hin|].
    intros <-. simpl in Hin. repeat (destruct Hin as [Hin|Hin]; [discriminate|]). exact Hin.
  - apply dget_dset_same.
  - rewrite dget_dset_other by discriminate. reflexivity.
Qed.

Lemma load_lists : forall es o c u p, dget es OUTDIR = Some (NDir o) ->
  holds o CAUGHT_TXT c -> holds o UNVIABLE_TXT u -> holds o PREVIOUSLY_CAUGHT_TXT p ->
  Forall one_line c -> Forall one_line u -> Forall one_line p ->
  load_previously_caught (Some es) = c ++ u ++ p.
Proof.
  intros es o c u p Ho Hc Hu Hp Fc Fu Fp. unfold load_previously_caught, list_lines.
  rewrite Ho, Hc, Hu, Hp. rewrite !lines_of_names by assumption. reflexivity.
Qed.

Lemma iterates_load : forall es r es', iterates es r es' ->
  clean_names (ir_candidates r) -> Forall one_line (load_previously_caught (Some es)) ->
  Forall one_line (load_previously_caught (Some es'))
  /\ (forall n, In n (load_previously_caught (Some es')) <->
        In n (load_previously_caught (Some es)) \/ decided (ir_tested r) n).
Proof.
  intros es r es' (es1 & o2 & o3 & Hs & Hin & Hrec & Hend & ->) Hcl Hprev.
  destruct (start_spec _ _ _ _ _ _ Hs) as (Hrm & Hnew & Hl & Hp & Hlk).
  assert (Hcln : forall m v n, In (m, v) (ir_tested r) -> mutant_name true m = Some n -> one_line n).
  { intros m v n Hi Hn. eapply Hcl; [eapply Hin; exact Hi|exact Hn]. }
  assert (HC : holds (ir_end r) CAUGHT_TXT (names_for CAUGHT_TXT (ir_tested r))).
  { unfold holds. rewrite Hend by (simpl; auto). apply (record_all_holds _ _ _ _ [] Hrec).
    apply Hl. simpl; auto. }
  assert (HU : holds (ir_end r) UNVIABLE_TXT (names_for UNVIABLE_TXT (ir_tested r))).
  { unfold holds. rewrite Hend by (simpl; auto). apply (record_all_holds _ _ _ _ [] Hrec).
    apply Hl. simpl; auto. }
  assert (HP : holds (ir_end r) PREVIOUSLY_CAUGHT_TXT (load_previously_caught (Some es))).
  { unfold holds. rewrite Hend by (simpl; auto).
    rewrite (record_all_frame _ _ _ _ Hrec) by (left; reflexivity). exact Hp. }
  assert (El : load_previously_caught (Some (dset es1 OUTDIR (NDir (ir_end r))))
      = names_for CAUGHT_TXT (ir_tested r) ++ names_for UNVIABLE_TXT (ir_tested r)
        ++ load_previously_caught (Some es)).
  { eapply load_lists; eauto; try (apply names_for_clean; exact Hcln). apply dget_dset_same. }
  rewrite El. split.
  - rewrite !Forall_app. repeat split; try assumption; apply names_for_clean; exact Hcln.
  - intros n. rewrite !in_app_iff, decided_in. tauto.
Qed.

Lemma series_load : forall es rs es', series es rs es' ->
  (forall r, In r rs -> clean_names (ir_candidates r)) ->
  Forall one_line (load_previously_caught (Some es)) ->
  Forall one_line (load_previously_caught (Some es'))
  /\ (forall n, In n (load_previously_caught (Some es')) <->
        In n (load_previously_caught (Some es)) \/ exists r, In r rs /\ decided (ir_tested r) n).
Proof.
  intros es rs es' H. induction H as [es|es rs es' r es'' Hs IH Hi]; intros Hc Hp.
  - split; [exact Hp|]. intros n. split; [auto|]. intros [Hn|(r & [] & _)]. exact Hn.
  - destruct IH as [IH1 IH2]; [intros; apply Hc; apply in_app_iff; auto|exact Hp|].
    destruct (iterates_load _ _ _ Hi) as [A B].
    { apply Hc. apply in_app_iff. right. left. reflexivity. }
    { exact IH1. }
    split; [exact A|]. intros n. rewrite B, IH2. split.
    + intros [[Hn|(r' & Hr & Hd)]|Hd]; [auto| |].
      * right. exists r'. rewrite in_app_iff. auto.
      * right. exists r. rewrite in_app_iff. simpl. auto.
    + intros [Hn|(r' & Hr & Hd)]; [auto|]. rewrite in_app_iff in Hr.
      destruct Hr as [Hr|[->|[]]]; [|auto]. left. right. exists r'. auto.
Qed.

Lemma series_snoc_inv : forall es l es', series es l es' -> forall rs r, l = rs ++ [r] ->
  exists es0, series es rs es0 /\ iterates es0 r es'.
Proof.
  intros es l es' H rs r E. destruct H as [es|es rs0 es' r0 es'' Hs Hi].
  - destruct rs; discriminate.
  - apply app_inj_tail in E. destruct E as [-> ->]. exists es'. auto.
Qed.

Lemma c19 : forall es rs r es' m n, series es (rs ++ [r]) es' ->
  (forall x, In x rs -> clean_names (ir_candidates x)) ->
  Forall one_line (load_previously_caught (Some es)) ->
  In m (ir_found r) -> mutant_name true m = Some n ->
  (In m (ir_candidates r) <->
   ~ In n (load_previously_caught (Some es)) /\ forall x, In x rs -> ~ decided (ir_tested x) n).
Proof.
  intros es rs r es' m n Hs Hc Hp Hm Hn.
  destruct (series_snoc_inv _ _ _ Hs _ _ eq_refl) as (es0 & Hs0 & Hi).
  destruct (series_load _ _ _ Hs0 Hc Hp) as [_ Hl].
  destruct Hi as (es1 & o2 & o3 & Hst & _).
  destruct (start_spec _ _ _ _ _ _ Hst) as (Hrm & _).
  rewrite (remove_prev_in _ _ _ Hrm m n Hm Hn). rewrite Hl. split.
  - intros H. split; [tauto|]. intros x Hx Hd. apply H. right. exists x. auto.
  - intros [H1 H2] [H|(x & Hx & Hd)]; [tauto|]. eapply H2; eassumption.
Qed.

(** * Crash points *)

Lemma lines_aux_end : forall (a : text) acc, ~ In NL a -> acc ++ a <> [] -> lines_aux acc a = [acc ++ a].
Proof.
  induction a as [|x a IH]; intros acc Hn Hne; simpl.
  - rewrite app_nil_r in *. destruct acc as [|y acc]; [congruence|reflexivity].
  - destruct (N.eqb x NL) eqn:E.
    + apply N.eqb_eq in E. subst. exfalso. apply Hn. left. reflexivity.
    + rewrite IH.
      * rewrite <- app_assoc. reflexivity.
      * intros H. apply Hn. right. exact H.
      * rewrite <- app_assoc. intros H. destruct acc; discriminate.
Qed.

Lemma lines_half : forall ns n, Forall one_line ns -> ~ In NL n -> n <> [] ->
  lines (previously_text ns ++ n) = ns ++ [n].
Proof.
  induction ns as [|a ns IH]; intros n H Hn Hne.
  - simpl. unfold lines. rewrite lines_aux_end; [reflexivity|exact Hn|exact Hne].
  - inversion H as [|? ? [Ha Hc] H']; subst. unfold previously_text in *. cbn [flat_map].
    rewrite <- !app_assoc.
    change ([NL] ++ flat_map (fun n => n ++ [NL]) ns ++ n) with (NL :: (flat_map (fun n => n ++ [NL]) ns ++ n)).
    rewrite lines_line by exact Ha. rewrite strip_cr_id by exact Hc. cbn [app]. f_equal. apply IH; assumption.
Qed.

Lemma name_nonempty : forall m n, mutant_name true m = Some n -> n <> [].
Proof.
  intros m n H. unfold mutant_name in H. destruct (describe_change m); [|discriminate].
  apply some_inj in H. subst n. intros E. apply app_eq_nil in E. destruct E as [_ E].
  apply app_eq_nil in E. destruct E as [E _]. discriminate.
Qed.

Lemma c49_run : forall lk es found cand es1 o2 done o,
  iterate_start lk es found = Some (cand, es1, o2) ->
  record_all o2 done = Some o ->
  Forall one_line (load_previously_caught (Some es)) ->
  (forall m v n, In (m, v) done -> mutant_name true m = Some n -> one_line n) ->
  forall n, In n (load_previously_caught (Some (dset es1 OUTDIR (NDir o)))) <->
    In n (load_previously_caught (Some es)) \/ decided done n.
Proof.
  intros lk es found cand es1 o2 done o Hs Hrec Hp Hc n.
  destruct (start_spec _ _ _ _ _ _ Hs) as (_ & _ & Hl & Hpv & _).
  erewrite load_lists with (o := o); [|apply dget_dset_same
    |apply (record_all_holds _ _ _ CAUGHT_TXT [] Hrec); apply Hl; simpl; auto
    |apply (record_all_holds _ _ _ UNVIABLE_TXT [] Hrec); apply Hl; simpl; auto
    |unfold holds; rewrite (record_all_frame _ _ _ _ Hrec) by (left; reflexivity); exact Hpv
    |apply names_for_clean; exact Hc|apply names_for_clean; exact Hc|exact Hp].
  rewrite !in_app_iff, decided_in. simpl. tauto.
Qed.

Lemma c49_half : forall lk es found cand es1 o2 done o m v o',
  iterate_start lk es found = Some (cand, es1, o2) ->
  record_all o2 done = Some o -> record_name o m v = Some o' ->
  Forall one_line (load_previously_caught (Some es)) ->
  (forall m' v' n, In (m', v') (done ++ [(m, v)]) -> mutant_name true m' = Some n -> one_line n) ->
  forall n, In n (load_previously_caught (Some (dset es1 OUTDIR (NDir o')))) <->
    In n (load_previously_caught (Some es)) \/ decided (done ++ [(m, v)]) n.
Proof.
  intros lk es found cand es1 o2 done o m v o' Hs Hrec Hname Hp Hc n.
  destruct (start_spec _ _ _ _ _ _ Hs) as (_ & _ & Hl & Hpv & _).
  assert (HC : holds o CAUGHT_TXT (names_for CAUGHT_TXT done)).
  { apply (record_all_holds _ _ _ CAUGHT_TXT [] Hrec). apply Hl. simpl; auto. }
  assert (HU : holds o UNVIABLE_TXT (names_for UNVIABLE_TXT done)).
  { apply (record_all_holds _ _ _ UNVIABLE_TXT [] Hrec). apply Hl. simpl; auto. }
  assert (HP : holds o PREVIOUSLY_CAUGHT_TXT (load_previously_caught (Some es))).
  { unfold holds. rewrite (record_all_frame _ _ _ _ Hrec) by (left; reflexivity). exact Hpv. }
  assert (Fd : forall f, Forall one_line (names_for f done)).
  { intros f. apply names_for_clean. intros m' v' n' Hi Hn. eapply Hc; [apply in_app_iff; left; exact Hi|exact Hn]. }
  assert (Ed : forall n, decided (done ++ [(m, v)]) n <-> decided done n \/ decided [(m, v)] n).
  { intros n'. unfold decided. split.
    - intros (a & b & Hi & H1 & H2). apply in_app_iff in Hi. destruct Hi as [Hi|Hi]; [left|right]; exists a, b; auto.
    - intros [(a & b & Hi & H1 & H2)|(a & b & Hi & H1 & H2)]; exists a, b; rewrite in_app_iff; auto. }
  assert (Eone : forall n, decided [(m, v)] n <-> mutant_name true m = Some n /\ (v = SumCaught \/ v = SumUnviable)).
  { intros n'. unfold decided. split.
    - intros (a & b & [H|[]] & H1 & H2). injection H as <- <-. auto.
    - intros [H1 H2]. exists m, v. simpl. auto. }
  rewrite Ed, Eone, decided_in. unfold load_previously_caught, list_lines in *. rewrite dget_dset_same.
  unfold record_name in Hname. destruct (list_for v) as [f|] eqn:Ef.
  2:{ apply some_inj in Hname. subst o'. rewrite HC, HU, HP, !lines_of_names by auto.
      rewrite !in_app_iff. destruct v; try discriminate; intuition discriminate. }
  destruct (mutant_name true m) as [nm|] eqn:En; [|discriminate]. apply some_inj in Hname. subst o'.
  assert (Hnm : one_line nm) by (eapply Hc; [apply in_app_iff; right; left; reflexivity|exact En]).
  destruct Hnm as [Hnl Hcr]. pose proof (name_nonempty _ _ En) as Hne.
  destruct v; try discriminate; injection Ef as <-.
  - rewrite (append_same _ _ _ _ HC), (append_other _ CAUGHT_TXT UNVIABLE_TXT),
      (append_other _ CAUGHT_TXT PREVIOUSLY_CAUGHT_TXT), HU, HP by discriminate.
    rewrite lines_half, !lines_of_names by auto. rewrite !in_app_iff. simpl.
    assert (Some nm = Some n <-> nm = n) by (split; congruence). intuition discriminate.
  - rewrite !append_other, HC, HU, HP, !lines_of_names by (auto; discriminate).
    rewrite !in_app_iff. intuition discriminate.
  - rewrite (append_other _ UNVIABLE_TXT CAUGHT_TXT), (append_same _ _ _ _ HU),
      (append_other _ UNVIABLE_TXT PREVIOUSLY_CAUGHT_TXT), HC, HP by discriminate.
    rewrite lines_half, !lines_of_names by auto. rewrite !in_app_iff. simpl.
    assert (Some nm = Some n <-> nm = n) by (split; congruence). intuition discriminate.
  - rewrite !append_other, HC, HU, HP, !lines_of_names by (auto; discriminate).
    rewrite !in_app_iff. intuition discriminate.
Qed.

Lemma load_lock : forall o lk o', write_lock lk o = Some o' -> forall k, k <> LOCK_JSON ->
  list_lines o' k = list_lines o k.
Proof.
  intros o lk o' H k Hk. unfold write_lock in H.
  assert (o' = dset o LOCK_JSON (NFile lk)) as ->.
  { destruct (dget o LOCK_JSON) as [[c|x]|]; congruence. }
  unfold list_lines. rewrite dget_dset_other by congruence. reflexivity.
Qed.

Lemma load_fill : forall es o, load_previously_caught (Some (dset es OUTDIR (NDir o)))
  = list_lines o CAUGHT_TXT ++ list_lines o UNVIABLE_TXT ++ list_lines o PREVIOUSLY_CAUGHT_TXT.
Proof. intros. unfold load_previously_caught. rewrite dget_dset_same. reflexivity. Qed.

Lemma fill_steps_load : forall lk prev e es0,
  Forall one_line prev ->
  In e [dset es0 OUTDIR (NDir []); dset es0 OUTDIR (NDir [(LOCK_JSON, NFile [])]);
        dset es0 OUTDIR (NDir (fresh_dir lk));
        dset es0 OUTDIR (NDir (dset (fresh_dir lk) PREVIOUSLY_CAUGHT_TXT (NFile [])));
        dset es0 OUTDIR (NDir (dset (fresh_dir lk) PREVIOUSLY_CAUGHT_TXT (NFile (previously_text prev))))] ->
  load_previously_caught (Some e) = [] \/ load_previously_caught (Some e) = prev.
Proof.
  intros lk prev e es0 Hp Hi. cbn [In] in Hi.
  destruct Hi as [<-|[<-|[<-|[<-|[<-|[]]]]]]; rewrite load_fill; try (left; reflexivity).
  right. change (list_lines (dset (fresh_dir lk) PREVIOUSLY_CAUGHT_TXT (NFile (previously_text prev))) CAUGHT_TXT) with (@nil text).
  change (list_lines (dset (fresh_dir lk) PREVIOUSLY_CAUGHT_TXT (NFile (previously_text prev))) UNVIABLE_TXT) with (@nil text).
  unfold list_lines. rewrite dget_dset_same. simpl. apply lines_of_names. exact Hp.
Qed.

Lemma c49_start : forall lk es e, Forall one_line (load_previously_caught (Some es)) ->
  In e (start_states lk es) ->
  load_previously_caught (Some e) = [] \/ load_previously_caught (Some e) = load_previously_caught (Some es).
Proof.
  intros lk es e Hp Hi. unfold start_states in Hi.
  destruct (dget es OUTDIR) as [[c|o]|] eqn:Eo.
  - destruct Hi as [<-|[]]. auto.
  - destruct (write_lock lk o) as [o'|] eqn:Ew; [|destruct Hi as [<-|[]]; auto].
    apply in_app_iff in Hi. destruct Hi as [Hi|Hi]; [|eapply fill_steps_load; eassumption].
    assert (El : load_previously_caught (Some (dset es OUTDIR (NDir o'))) = load_previously_caught (Some es)).
    { rewrite load_fill. rewrite !(load_lock _ _ _ Ew) by discriminate.
      unfold load_previously_caught. rewrite Eo. reflexivity. }
    cbn [In] in Hi. destruct Hi as [<-|[<-|[<-|[<-|[]]]]].
    + right. reflexivity.
    + right. exact El.
    + right. rewrite <- El. unfold load_previously_caught.
      rewrite (dget_ddel_other _ ROTATED OUTDIR) by discriminate. reflexivity.
    + left. unfold load_previously_caught. rewrite dget_dset_other by discriminate.
      rewrite dget_ddel_same. reflexivity.
  - destruct Hi as [<-|Hi]; [auto|]. eapply fill_steps_load; eassumption.
Qed.

(** The last state is the one from which testing starts. *)
Lemma start_states_last : forall lk es found cand es1 o2,
  iterate_start lk es found = Some (cand, es1, o2) ->
  forall k, dget (last (start_states lk es) []) k = dget (dset es1 OUTDIR (NDir o2)) k.
Proof.
  intros lk es found cand es1 o2 H k. unfold iterate_start in H.
  destruct (remove_previously_caught _ found) as [c|]; [|discriminate].
  unfold output_new in H. unfold start_states.
  destruct (dget es OUTDIR) as [[x|o]|] eqn:Eo; try discriminate.
  - destruct (write_lock lk o) as [o'|]; [|discriminate].
    assert (G : (let es1 := dset (dset (ddel (ddel es ROTATED) OUTDIR) ROTATED (NDir o')) OUTDIR (NDir (fresh_dir lk)) in
      match dget es1 OUTDIR with
      | Some (NDir o1) => match write_previously_caught o1 (load_previously_caught (Some es)) with
                          | Some o2 => Some (c, es1, o2) | None => None end
      | _ => None end) = Some (cand, es1, o2)).
    { destruct (dget es ROTATED) as [[z|z]|]; [discriminate|exact H|exact H]. }
    clear H. cbv zeta in G. rewrite dget_dset_same in G.
    unfold write_previously_caught in G.
    change (dget (fresh_dir lk) PREVIOUSLY_CAUGHT_TXT) with (@None node) in G. apply some_inj in G.
    injection G as <- <- <-. cbn [app last].
    destruct (text_dec k OUTDIR) as [->|Hk]; [rewrite !dget_dset_same; reflexivity|].
    rewrite !(dget_dset_other _ OUTDIR k) by congruence.
    destruct (text_dec k ROTATED) as [->|Hr]; [rewrite !dget_dset_same; reflexivity|].
    rewrite !(dget_dset_other _ ROTATED k) by congruence.
    rewrite !(dget_ddel_other _ OUTDIR k) by congruence.
    rewrite !(dget_ddel_other _ ROTATED k) by congruence.
    rewrite !(dget_dset_other _ OUTDIR k) by congruence. reflexivity.
  - rewrite dget_dset_same in H. unfold write_previously_caught in H.
    change (dget (fresh_dir lk) PREVIOUSLY_CAUGHT_TXT) with (@None node) in H. apply some_inj in H.
    injection H as <- <- <-. cbn [app last].
    destruct (text_dec k OUTDIR) as [->|Hk]; [rewrite !dget_dset_same; reflexivity|].
    rewrite !(dget_dset_other _ OUTDIR k) by congruence. reflexivity.
Qed.

Lemma c19_never : forall es rs r es' m n v x, series es (rs ++ [r]) es' ->
  (forall x, In x rs -> clean_names (ir_candidates x)) ->
  Forall one_line (load_previously_caught (Some es)) ->
  In x rs -> decided (ir_tested x) n -> mutant_name true m = Some n ->
  ~ In (m, v) (ir_tested r).
Proof.
  intros es rs r es' m n v x Hs Hc Hp Hx Hd Hn Hi.
  destruct (series_snoc_inv _ _ _ Hs _ _ eq_refl) as (es0 & Hs0 & (es1 & o2 & o3 & Hst & Hin & _)).
  pose proof (Hin _ _ Hi) as Hcand.
  destruct (start_spec _ _ _ _ _ _ Hst) as (Hrm & _).
  pose proof (remove_prev_incl _ _ _ Hrm _ Hcand) as Hf.
  apply (c19 _ _ _ _ _ _ Hs Hc Hp Hf Hn) in Hcand. destruct Hcand as [_ H]. eapply H; eassumption.
Qed.
