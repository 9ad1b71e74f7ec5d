(** Proofs for C16, C17 and C20. *)
From Coq Require Import String List NArith Bool Arith Lia.
From Verif Require Import Text SpanM PathM PathS PathP MutantM MutantP OutcomeM OutputM OutputS.
Import ListNotations.

(** * Names *)

Lemma app_sep_inj : forall (c : chr) (a a' d d' : text), ~ In c d -> ~ In c d' ->
  a ++ [c] ++ d = a' ++ [c] ++ d' -> a = a' /\ d = d'.
Proof.
  intros c a a' d d' Hd Hd' E.
  assert (E' : rev d ++ c :: rev a = rev d' ++ c :: rev a').
  { assert (H : rev (a ++ [c] ++ d) = rev (a' ++ [c] ++ d')) by (rewrite E; reflexivity).
    rewrite !rev_app_distr in H. rewrite <- !app_assoc in H. exact H. }
  assert (Hs : split_once c (rev d ++ c :: rev a) = Some (rev d, rev a)).
  { apply split_once_some. split; [reflexivity|]. rewrite <- in_rev. exact Hd. }
  assert (Hs' : split_once c (rev d' ++ c :: rev a') = Some (rev d', rev a')).
  { apply split_once_some. split; [reflexivity|]. rewrite <- in_rev. exact Hd'. }
  rewrite E' in Hs. rewrite Hs in Hs'. apply some_inj in Hs'.
  assert (H1 : rev d = rev d') by congruence. assert (H2 : rev a = rev a') by congruence.
  split; [rewrite <- (rev_involutive a), H2|rewrite <- (rev_involutive d), H1]; apply rev_involutive.
Qed.

Lemma parse_zeros : forall k s, parse_digits (repeat 48%N k ++ s) = parse_digits s.
Proof.
  induction k as [|k IH]; intros s; [reflexivity|]. change (repeat 48%N (S k) ++ s) with (48%N :: (repeat 48%N k ++ s)).
  rewrite <- (IH s). reflexivity.
Qed.

Lemma pad3_inj : forall a b, pad3 a = pad3 b -> a = b.
Proof.
  intros a b H. unfold pad3 in H.
  assert (E : parse_digits (show_nat a) = parse_digits (show_nat b)).
  { rewrite <- (parse_zeros (3 - length (show_nat a))), <- (parse_zeros (3 - length (show_nat b)) (show_nat b)).
    rewrite H. reflexivity. }
  unfold show_nat in E. rewrite !parse_show_N in E. apply Nat2N.inj. exact E.
Qed.

Lemma pad3_digits : forall a, forallb is_digit (pad3 a) = true.
Proof.
  intros a. unfold pad3. rewrite forallb_app. apply andb_true_iff. split; [|apply show_N_digits].
  generalize (3 - length (show_nat a)) as k. induction k; simpl; auto.
Qed.

Lemma digits_no_us : forall s, forallb is_digit s = true -> ~ In USCORE s.
Proof. intros s H. eapply is_digit_not; [exact H|reflexivity]. Qed.

Definition render (b : text) (k : nat) : text :=
  match k with 0 => b | S _ => b ++ [USCORE] ++ pad3 k end.

Definition good_base (b : text) : Prop :=
  b = tx "baseline" \/ exists p c, b = (p ++ tx "_col") ++ [USCORE] ++ show_nat c.

Lemma base_good : forall s, good_base (scenario_name s).
Proof.
  intros [|m]; [left; reflexivity|]. right. unfold scenario_name, log_file_name_base.
  eexists (clean_filename (tree_relative_slashes (mu_file m)) ++ tx "_line_"
           ++ show_nat (lc_line (sp_start (mu_span m)))), (lc_column (sp_start (mu_span m))).
  rewrite <- !app_assoc. reflexivity.
Qed.

Lemma snoc_last : forall (a b : text) (x y : chr), a ++ [x] = b ++ [y] -> x = y.
Proof. intros a b x y H. apply app_inj_tail in H. tauto. Qed.

Lemma digits_last : forall s, s <> [] -> forallb is_digit s = true -> exists a x, s = a ++ [x] /\ is_digit x = true.
Proof.
  intros s Hn Hd. destruct (exists_last Hn) as (a & x & ->). exists a, x. split; [reflexivity|].
  rewrite forallb_app in Hd. simpl in Hd. apply andb_true_iff in Hd. destruct Hd as [_ Hd].
  destruct (is_digit x); [reflexivity|discriminate].
Qed.

Lemma base_not_suffixed : forall b b' k, good_base b -> good_base b' ->
  b <> b' ++ [USCORE] ++ pad3 k.
Proof.
  intros b b' k [->|(p & c & ->)] Hb' E.
  - assert (Hi : In USCORE (tx "baseline")) by (rewrite E; apply in_app_iff; right; left; reflexivity).
    cbv in Hi. intuition discriminate.
  - apply app_sep_inj in E; [|apply digits_no_us, show_N_digits|apply digits_no_us, pad3_digits].
    destruct E as [E _]. destruct Hb' as [->|(p' & c' & ->)].
    + change (tx "baseline") with (tx "baselin" ++ [101%N]) in E.
      change (p ++ tx "_col") with (p ++ tx "_co" ++ [108%N]) in E. rewrite app_assoc in E.
      apply snoc_last in E. discriminate.
    + destruct (digits_last (show_nat c') (show_N_nonempty _) (show_N_digits _)) as (a & x & Ex & Hx).
      rewrite Ex in E. change (p ++ tx "_col") with (p ++ tx "_co" ++ [108%N]) in E.
      rewrite app_assoc in E. rewrite (app_assoc [USCORE]) in E. rewrite app_assoc in E.
      apply snoc_last in E. subst x. discriminate.
Qed.

Lemma render_inj : forall b b' k k', good_base b -> good_base b' ->
  render b k = render b' k' -> b = b' /\ k = k'.
Proof.
  intros b b' [|k] [|k'] Hb Hb' E; unfold render in E.
  - auto.
  - exfalso. eapply base_not_suffixed; [exact Hb|exact Hb'|exact E].
  - exfalso. eapply base_not_suffixed; [exact Hb'|exact Hb|symmetry; exact E].
  - apply app_sep_inj in E; [|apply digits_no_us, pad3_digits|apply digits_no_us, pad3_digits].
    destruct E as [E1 E2]. split; [exact E1|]. apply pad3_inj. exact E2.
Qed.

Fixpoint occ (n : text) (l : list text) : nat :=
  match l with
  | [] => 0
  | x :: l' => if text_eqb n x then S (occ n l') else occ n l'
  end.

Definition consistent (u : used) (past : list text) : Prop :=
  forall n, used_get u n = match occ n past with 0 => None | S i => Some i end.

Lemma start_name_render : forall u past s, consistent u past ->
  exists u', start_name u s = (u', render (scenario_name s) (occ (scenario_name s) past))
             /\ consistent u' (scenario_name s :: past).
Proof.
  intros u past s Hc. unfold start_name. rewrite Hc.
  destruct (occ (scenario_name s) past) as [|i] eqn:E; eexists.
  - split; [reflexivity|]. intros n. simpl. destruct (text_eqb n (scenario_name s)) eqn:En.
    + apply text_eqb_eq in En. subst. rewrite E. reflexivity.
    + apply Hc.
  - split; [rewrite Nat.add_1_r; reflexivity|]. intros n. simpl.
    destruct (text_eqb n (scenario_name s)) eqn:En.
    + apply text_eqb_eq in En. subst. rewrite E. f_equal; lia.
    + apply Hc.
Qed.

Lemma start_names_in : forall ss u past x, consistent u past -> In x (start_names u ss) ->
  exists s k, In s ss /\ x = render (scenario_name s) k /\ occ (scenario_name s) past <= k.
Proof.
  induction ss as [|s ss IH]; intros u past x Hc Hx; simpl in Hx; [tauto|].
  destruct (start_name_render u past s Hc) as (u' & E & Hc'). rewrite E in Hx.
  destruct Hx as [<-|Hx].
  - exists s, (occ (scenario_name s) past). repeat split; [left; reflexivity|lia].
  - destruct (IH _ _ _ Hc' Hx) as (s' & k & Hi & -> & Hle). exists s', k.
    split; [right; exact Hi|]. split; [reflexivity|]. simpl in Hle.
    destruct (text_eqb _ _); lia.
Qed.

Lemma start_names_nodup : forall ss u past, consistent u past -> NoDup (start_names u ss).
Proof.
  induction ss as [|s ss IH]; intros u past Hc; simpl; [constructor|].
  destruct (start_name_render u past s Hc) as (u' & E & Hc'). rewrite E.
  constructor; [|eapply IH; exact Hc'].
  intros Hx. destruct (start_names_in _ _ _ _ Hc' Hx) as (s' & k & _ & Er & Hle).
  apply render_inj in Er; [|apply base_good|apply base_good]. destruct Er as [En Ek].
  rewrite <- En in Hle. simpl in Hle. rewrite text_eqb_refl in Hle. lia.
Qed.

Lemma consistent_nil : consistent [] [].
Proof. intros n. reflexivity. Qed.

Lemma c16 : forall ss, NoDup (start_names [] ss).
Proof. intros ss. eapply start_names_nodup. apply consistent_nil. Qed.

Lemma map_nodup : forall {A B} (f : A -> B) l, (forall a b, f a = f b -> a = b) -> NoDup l -> NoDup (map f l).
Proof.
  intros A B f l Hf H. induction H as [|x l Hx Hn IH]; simpl; constructor; [|exact IH].
  intros Hi. apply in_map_iff in Hi. destruct Hi as (y & E & Hy). apply Hf in E. subst. contradiction.
Qed.

Lemma log_path_inj : forall a b, log_path a = log_path b -> a = b.
Proof. intros a b H. unfold log_path in H. apply app_inv_head, app_inv_tail in H. exact H. Qed.

Lemma diff_path_inj : forall a b, diff_path a = diff_path b -> a = b.
Proof. intros a b H. unfold diff_path in H. apply app_inv_head, app_inv_tail in H. exact H. Qed.

Lemma c16_paths : forall ss,
  NoDup (map log_path (start_names [] ss)) /\ NoDup (map diff_path (start_names [] ss)).
Proof.
  intros ss. split; apply map_nodup; try apply c16; [apply log_path_inj|apply diff_path_inj].
Qed.

Lemma start_names_length : forall ss u, length (start_names u ss) = length ss.
Proof.
  induction ss as [|s ss IH]; intros u; simpl; [reflexivity|].
  destruct (start_name u s) as [u' n]. simpl. rewrite IH. reflexivity.
Qed.

(** No name leaves the directory: no slash. *)
Lemma name_no_slash : forall ss u past n, consistent u past -> In n (start_names u ss) -> ~ In SLASH n.
Proof.
  intros ss u past n Hc Hi Hs. destruct (start_names_in _ _ _ _ Hc Hi) as (s & k & _ & -> & _).
  assert (Hb : ~ In SLASH (scenario_name s)).
  { destruct s as [|m]; [cbv; intuition discriminate|].
    unfold scenario_name, log_file_name_base. rewrite !in_app_iff.
    intros [H|[H|[H|[H|H]]]].
    - apply clean_safe in H. apply H. left. reflexivity.
    - cbv in H; intuition discriminate.
    - revert H. eapply is_digit_not; [apply show_N_digits|reflexivity].
    - cbv in H; intuition discriminate.
    - revert H. eapply is_digit_not; [apply show_N_digits|reflexivity]. }
  unfold render in Hs. destruct k as [|k]; [contradiction|].
  rewrite !in_app_iff in Hs. destruct Hs as [H|[H|H]]; [contradiction|cbv in H; intuition discriminate|].
  revert H. eapply is_digit_not; [apply pad3_digits|reflexivity].
Qed.

(** * Lists of names *)

Lemma lines_of_names : forall ns, Forall one_line ns -> lines (previously_text ns) = ns.
Proof.
  induction ns as [|n ns IH]; intros H; [reflexivity|]. inversion H as [|? ? [Hn Hc] H']; subst.
  unfold previously_text in *. cbn [flat_map]. rewrite <- app_assoc.
  change ([NL] ++ flat_map (fun n => n ++ [NL]) ns) with (NL :: flat_map (fun n => n ++ [NL]) ns).
  rewrite lines_line by exact Hn. rewrite strip_cr_id by exact Hc. f_equal. apply IH; assumption.
Qed.

Lemma previously_app : forall a b, previously_text (a ++ b) = previously_text a ++ previously_text b.
Proof. intros. apply flat_map_app. Qed.

Lemma previously_one : forall n, previously_text [n] = name_line n.
Proof. intros n. unfold previously_text. simpl. apply app_nil_r. Qed.

(** * Directories *)

Lemma dget_ddel_same : forall es k, dget (ddel es k) k = None.
Proof.
  induction es as [|[k' n] es IH]; intros k; simpl; [reflexivity|].
  destruct (text_eqb k k') eqn:E; simpl; [apply IH|]. rewrite E. apply IH.
Qed.

Lemma dget_ddel_other : forall es k k', k <> k' -> dget (ddel es k) k' = dget es k'.
Proof.
  induction es as [|[k1 n] es IH]; intros k k' Hn; simpl; [reflexivity|].
  destruct (text_eqb k k1) eqn:E; simpl.
  - apply text_eqb_eq in E. subst k1. rewrite IH by assumption.
    assert (text_eqb k' k = false) as -> by (apply text_eqb_neq; congruence). reflexivity.
  - destruct (text_eqb k' k1); [reflexivity|]. apply IH; assumption.
Qed.

Lemma dget_dset_same : forall es k n, dget (dset es k n) k = Some n.
Proof. intros. simpl. rewrite text_eqb_refl. reflexivity. Qed.

Lemma dget_dset_other : forall es k k' n, k <> k' -> dget (dset es k n) k' = dget es k'.
Proof.
  intros es k k' n Hn. simpl. assert (text_eqb k' k = false) as -> by (apply text_eqb_neq; congruence).
  apply dget_ddel_other; assumption.
Qed.

Lemma out_ne_rot : OUTDIR <> ROTATED.
Proof. discriminate. Qed.

Lemma write_lock_spec : forall lk o, (forall x, dget o LOCK_JSON <> Some (NDir x)) ->
  exists o', write_lock lk o = Some o' /\ same_but_lock o o' /\ dget o' LOCK_JSON = Some (NFile lk).
Proof.
  intros lk o H. unfold write_lock.
  assert (G : exists o', Some (dset o LOCK_JSON (NFile lk)) = Some o' /\ same_but_lock o o'
                         /\ dget o' LOCK_JSON = Some (NFile lk)).
  { eexists. split; [reflexivity|]. split; [|apply dget_dset_same].
    intros k Hk. symmetry. apply dget_dset_other. (unfold LOCK_JSON in *; congruence). }
  destruct (dget o LOCK_JSON) as [[c|x]|] eqn:E; [exact G| |exact G]. exfalso. eapply H. reflexivity.
Qed.

Lemma c17_one : forall lk es, rotatable (dget es OUTDIR) -> removable (dget es ROTATED) ->
  exists es', output_new lk (Some es) = NewOk es'
  /\ dget es' OUTDIR = Some (NDir (fresh_dir lk))
  /\ (match dget es OUTDIR with
      | Some (NDir o) => exists o', dget es' ROTATED = Some (NDir o') /\ same_but_lock o o'
      | _ => dget es' ROTATED = dget es ROTATED
      end)
  /\ (forall k, k <> OUTDIR -> k <> ROTATED -> dget es' k = dget es k).
Proof.
  intros lk es Ho Hr. unfold output_new. destruct (dget es OUTDIR) as [[c|o]|] eqn:E.
  - destruct Ho.
  - destruct (write_lock_spec lk o Ho) as (o' & Ew & Hs & _). rewrite Ew.
    assert (G : exists es', NewOk (dset (dset (ddel (ddel es ROTATED) OUTDIR) ROTATED (NDir o')) OUTDIR
                              (NDir (fresh_dir lk))) = NewOk es'
      /\ dget es' OUTDIR = Some (NDir (fresh_dir lk))
      /\ (exists o'', dget es' ROTATED = Some (NDir o'') /\ same_but_lock o o'')
      /\ (forall k, k <> OUTDIR -> k <> ROTATED -> dget es' k = dget es k)).
    { eexists. split; [reflexivity|]. split; [apply dget_dset_same|]. split.
      - exists o'. split; [|exact Hs]. rewrite dget_dset_other by discriminate. apply dget_dset_same.
      - intros k H1 H2. rewrite !dget_dset_other by congruence. rewrite !dget_ddel_other by congruence.
        reflexivity. }
    destruct (dget es ROTATED) as [[c|r]|]; [destruct Hr|exact G|exact G].
  - eexists. split; [reflexivity|]. split; [apply dget_dset_same|]. split.
    + apply dget_dset_other. discriminate.
    + intros k H1 H2. apply dget_dset_other. congruence.
Qed.

Lemma c17_refused : forall lk es, dget es OUTDIR <> None -> ~ rotatable (dget es OUTDIR) ->
  output_new lk (Some es) = NewErr es.
Proof.
  intros lk es Hn Hr. unfold output_new. destruct (dget es OUTDIR) as [[c|o]|] eqn:E; [reflexivity| |congruence].
  unfold write_lock. destruct (dget o LOCK_JSON) as [[c|x]|] eqn:El; [|reflexivity|];
    exfalso; apply Hr; simpl; intros y; (unfold LOCK_JSON in *; congruence).
Qed.

(** After a run. *)
Definition after (es : entries) (r : run) (es' : entries) : Prop :=
  dget es' OUTDIR = Some (NDir (results r))
  /\ (match dget es OUTDIR with
      | Some (NDir o) => exists o', dget es' ROTATED = Some (NDir o') /\ same_but_lock o o'
      | _ => dget es' ROTATED = dget es ROTATED
      end)
  /\ (forall k, k <> OUTDIR -> k <> ROTATED -> dget es' k = dget es k).

Lemma run_in_after : forall es r, rotatable (dget es OUTDIR) -> removable (dget es ROTATED) ->
  after es r (run_in es r).
Proof.
  intros es r Ho Hr. unfold run_in. destruct (c17_one (run_lock r) es Ho Hr) as (es' & E & H1 & H2 & H3).
  rewrite E. split; [apply dget_dset_same|]. split.
  - rewrite dget_dset_other by discriminate. exact H2.
  - intros k K1 K2. rewrite dget_dset_other by congruence. apply H3; assumption.
Qed.

Lemma run_in_ready : forall es r, rotatable (dget es OUTDIR) -> removable (dget es ROTATED) ->
  ends_ok r -> rotatable (dget (run_in es r) OUTDIR) /\ removable (dget (run_in es r) ROTATED).
Proof.
  intros es r Ho Hr He. destruct (run_in_after es r Ho Hr) as (H1 & H2 & _). split.
  - rewrite H1. exact He.
  - destruct (dget es OUTDIR) as [[c|o]|]; [rewrite H2; exact Hr| |rewrite H2; exact Hr].
    destruct H2 as (o' & -> & _). exact I.
Qed.

Lemma runs_ready : forall rs es, rotatable (dget es OUTDIR) -> removable (dget es ROTATED) ->
  Forall ends_ok rs ->
  rotatable (dget (fold_left run_in rs es) OUTDIR) /\ removable (dget (fold_left run_in rs es) ROTATED)
  /\ (forall k, k <> OUTDIR -> k <> ROTATED -> dget (fold_left run_in rs es) k = dget es k).
Proof.
  induction rs as [|r rs IH]; intros es Ho Hr He; simpl; [auto|].
  inversion He; subst. destruct (run_in_ready es r Ho Hr) as [A B]; [assumption|].
  destruct (IH _ A B) as (C & D & E); [assumption|]. split; [exact C|]. split; [exact D|].
  intros k K1 K2. rewrite E by assumption. apply (run_in_after es r Ho Hr); assumption.
Qed.

Lemma c17_history : forall es rs r1 r2, rotatable (dget es OUTDIR) -> removable (dget es ROTATED) ->
  Forall ends_ok (rs ++ [r1; r2]) ->
  dget (fold_left run_in (rs ++ [r1; r2]) es) OUTDIR = Some (NDir (results r2))
  /\ (exists o, dget (fold_left run_in (rs ++ [r1; r2]) es) ROTATED = Some (NDir o)
        /\ same_but_lock (results r1) o)
  /\ (forall k, k <> OUTDIR -> k <> ROTATED ->
        dget (fold_left run_in (rs ++ [r1; r2]) es) k = dget es k).
Proof.
  intros es rs r1 r2 Ho Hr He. pose proof He as He0. rewrite Forall_app in He. destruct He as [He1 He2].
  inversion He2 as [|? ? E1 He3]; inversion He3 as [|? ? E2 _]; subst.
  destruct (runs_ready rs es Ho Hr He1) as (A & B & _).
  destruct (run_in_ready _ r1 A B E1) as [A1 B1].
  destruct (run_in_after _ r1 A B) as (H1 & _ & _).
  destruct (run_in_after _ r2 A1 B1) as (G1 & G2 & _).
  destruct (runs_ready (rs ++ [r1; r2]) es Ho Hr He0) as (_ & _ & K).
  rewrite fold_left_app in *. simpl in *. split; [exact G1|]. split; [|exact K].
  rewrite H1 in G2. exact G2.
Qed.

(** * Which characters a name can hold *)

Lemma name_chars : forall c m n, is_digit c = false -> c = NL \/ c = CR ->
  mutant_name true m = Some n -> In c n -> exists t, In t (pieces m) /\ In c t.
Proof.
  intros c m n Hd Hc E Hi. unfold mutant_name in E.
  destruct (describe_change m) as [d|] eqn:Ed; [|discriminate]. apply some_inj in E. subst n.
  assert (Hfix : forall l, forallb (fun x => negb (N.eqb x NL || N.eqb x CR)) l = true -> ~ In c l).
  { intros l Hl Hx. rewrite forallb_forall in Hl. specialize (Hl c Hx).
    destruct Hc as [-> | ->]; discriminate. }
  assert (Hdg : forall k, ~ In c (show_nat k)).
  { intros k. eapply is_digit_not; [apply show_N_digits|exact Hd]. }
  rewrite !in_app_iff in Hi. destruct Hi as [Hi|[Hi|Hi]].
  - exists (tree_relative_slashes (mu_file m)). split; [left; reflexivity|exact Hi].
  - exfalso. destruct Hi as [Hi|[Hi|[Hi|[Hi|Hi]]]]; revert Hi; try apply Hdg; apply Hfix; reflexivity.
  - unfold describe_change in Ed. destruct (mu_genre m).
    + destruct (mu_fn m) as [f|] eqn:Ef; [|discriminate]. apply some_inj in Ed. subst d.
      rewrite !in_app_iff in Hi. destruct Hi as [Hi|[Hi|[Hi|[Hi|Hi]]]].
      * exfalso; revert Hi; apply Hfix; reflexivity.
      * exists (fn_name f). split; [|exact Hi]. unfold pieces. rewrite Ef. simpl. auto.
      * exists (fn_return_type f). split; [unfold pieces; rewrite Ef; simpl; auto 10|].
        destruct (fn_return_type f) as [|a r]; [exact Hi|]. rewrite in_app_iff in Hi.
        destruct Hi as [Hi|Hi]; [|exact Hi]. exfalso; revert Hi; apply Hfix; reflexivity.
      * exfalso; revert Hi; apply Hfix; reflexivity.
      * exists (mu_replacement m). split; [right; left; reflexivity|exact Hi].
    + apply some_inj in Ed. subst d. rewrite !in_app_iff in Hi. destruct Hi as [Hi|[Hi|[Hi|Hi]]].
      * exfalso; revert Hi; apply Hfix. destruct (mu_replacement m); reflexivity.
      * exists (original_text m). split; [right; right; left; reflexivity|exact Hi].
      * exists (mu_replacement m). split; [right; left; reflexivity|].
        destruct (mu_replacement m) as [|a r]; [exact Hi|]. rewrite in_app_iff in Hi.
        destruct Hi as [Hi|Hi]; [|exact Hi]. exfalso; revert Hi; apply Hfix; reflexivity.
      * destruct (mu_fn m) as [f|] eqn:Ef; [|destruct Hi]. exists (fn_name f).
        split; [unfold pieces; rewrite Ef; simpl; auto 10|]. rewrite in_app_iff in Hi.
        destruct Hi as [Hi|Hi]; [|exact Hi]. exfalso; revert Hi; apply Hfix; reflexivity.
    + apply some_inj in Ed. subst d. rewrite !in_app_iff in Hi. destruct Hi as [Hi|[Hi|[Hi|Hi]]].
      * exfalso; revert Hi; apply Hfix. destruct (mu_replacement m); reflexivity.
      * exists (original_text m). split; [right; right; left; reflexivity|exact Hi].
      * exists (mu_replacement m). split; [right; left; reflexivity|].
        destruct (mu_replacement m) as [|a r]; [exact Hi|]. rewrite in_app_iff in Hi.
        destruct Hi as [Hi|Hi]; [|exact Hi]. exfalso; revert Hi; apply Hfix; reflexivity.
      * destruct (mu_fn m) as [f|] eqn:Ef; [|destruct Hi]. exists (fn_name f).
        split; [unfold pieces; rewrite Ef; simpl; auto 10|]. rewrite in_app_iff in Hi.
        destruct Hi as [Hi|Hi]; [|exact Hi]. exfalso; revert Hi; apply Hfix; reflexivity.
    + apply some_inj in Ed. subst d. exfalso; revert Hi; apply Hfix; reflexivity.
    + apply some_inj in Ed. subst d. rewrite in_app_iff in Hi. destruct Hi as [Hi|Hi].
      * exfalso; revert Hi; apply Hfix; reflexivity.
      * exists (mu_replacement m). split; [right; left; reflexivity|exact Hi].
Qed.

Lemma name_one_line : forall m n, mutant_name true m = Some n ->
  (forall t, In t (pieces m) -> ~ In NL t /\ ~ In CR t) -> one_line n.
Proof.
  intros m n E H. split.
  - intros Hi. destruct (name_chars NL m n eq_refl (or_introl eq_refl) E Hi) as (t & Ht & Hc).
    destruct (H t Ht). contradiction.
  - intros a Ea. assert (Hi : In CR n) by (rewrite Ea; apply in_app_iff; right; left; reflexivity).
    destruct (name_chars CR m n eq_refl (or_intror eq_refl) E Hi) as (t & Ht & Hc).
    destruct (H t Ht). contradiction.
Qed.
