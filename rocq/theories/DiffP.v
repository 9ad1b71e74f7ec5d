(** Proofs for C70. *)
From Coq Require Import String List NArith Bool Arith Lia Sorted.
From Verif Require Import Text SpanM PathM PathS PathP MutantM InDiffM InDiffS InDiffP DiffS.
Import ListNotations.

Lemma new_len : forall s, length (new_file s) = new_lines s.
Proof. induction s as [|[t|t|t] s IH]; simpl; congruence. Qed.

Lemma new_file_app : forall a b, new_file (a ++ b) = new_file a ++ new_file b.
Proof. induction a as [|[t|t|t] a IH]; intros b; simpl; rewrite ?IH; reflexivity. Qed.

Lemma kept_len : forall s, Forall kept s -> length (new_file s) = length s.
Proof. induction s as [|x s IH]; intros H; [reflexivity|]. inversion H as [|? ? [t ->] H']; subst. simpl. rewrite IH; auto. Qed.

Lemma surv_split : forall b, new_file b <> [] <-> exists mid x post, b = mid ++ x :: post /\ Forall removal mid /\ surviving x.
Proof.
  induction b as [|x b IH]; simpl; [split; [tauto|intros (mid & x & post & E & _); destruct mid; discriminate]|].
  destruct x.
  - split; [|discriminate]. intros _. exists [], (Ctx t), b. repeat split; auto. apply surv_ctx.
  - split; [|discriminate]. intros _. exists [], (Add t), b. repeat split; auto. apply surv_add.
  - rewrite IH. split.
    + intros (mid & x & post & -> & Hm & Hx). exists (Rem t :: mid), x, post. repeat split; auto. constructor; [exists t; reflexivity|exact Hm].
    + intros (mid & x & post & E & Hm & Hx). destruct mid as [|y mid].
      * injection E as <- _. destruct Hx. exists t; reflexivity.
      * injection E as <- ->. inversion Hm; subst. exists mid, x, post; auto.
Qed.

Lemma changed_mk : forall s n, mk 1 false s n <-> changed_in s n.
Proof.
  intros s n. split.
  - intros H. apply mk_sp in H.
    destruct H as [(pre & t & post & E & Hn)|[(pre & t & post & E & Hn & En)|[(pre & t & mid & y & post & E & Hm & Hy & Hn)|[F _]]]]; [| | |discriminate].
    + eapply ci_added; [exact E|]. rewrite new_len. lia.
    + eapply ci_before; [exact E| |]; rewrite ?new_len; lia.
    + eapply ci_after; [exact E| |]; [rewrite new_len; lia|]. apply surv_split. exists mid, y, post; auto.
  - intros H. apply sp_mk. destruct H as [a t b E Hn|a t b E Hn H0|a t b E Hn H0]; rewrite new_len in Hn.
    + left. exists a, t, b. split; [exact E|lia].
    + right; left. exists a, t, b. split; [exact E|lia].
    + apply surv_split in H0. destruct H0 as (mid & x & post & -> & Hm & Hx). right; right; left. exists a, t, mid, x, post. repeat split; auto.
Qed.

Lemma mk_kept : forall pre l s n, Forall kept pre -> (mk l false (pre ++ s) n <-> mk (l + length pre) false s n).
Proof.
  induction pre as [|x pre IH]; intros l s n H; simpl; [rewrite Nat.add_0_r; tauto|].
  inversion H as [|? ? [t ->] H']; subst. rewrite IH by exact H'. replace (l + 1 + length pre) with (l + S (length pre)) by lia.
  intuition. discriminate.
Qed.

Lemma mk_kept_none : forall s l n, Forall kept s -> ~ mk l false s n.
Proof.
  intros s l n H F. rewrite <- (app_nil_r s) in F. apply mk_kept in F; [|exact H]. exact F.
Qed.

Lemma mk_no_new : forall s l pr n, new_file s = [] -> (mk l pr s n <-> mk l false s n).
Proof.
  induction s as [|[t|t|t] s IH]; intros l pr n H; try discriminate; [tauto|]. simpl in *. tauto.
Qed.

(** Leaving a body that ends with a removed line only where no new line follows. *)
Lemma mk_body : forall body l pr rest n, (forall b t, body = b ++ [Rem t] -> new_file rest = []) -> body <> [] ->
  (mk l pr (body ++ rest) n <-> mk l pr body n \/ mk (l + new_lines body) false rest n).
Proof.
  induction body as [|x body IH]; intros l pr rest n H Hne; [congruence|].
  destruct body as [|y body].
  - clear IH. destruct x; simpl.
    + replace (l + 1) with (l + 1) by lia. tauto.
    + tauto.
    + rewrite Nat.add_0_r. rewrite (mk_no_new rest l true n) by (apply (H [] t); reflexivity). tauto.
  - assert (H' : forall b t, y :: body = b ++ [Rem t] -> new_file rest = []).
    { intros b t E. apply (H (x :: b) t). rewrite E. reflexivity. }
    destruct x; rewrite <- app_comm_cons; cbn [mk new_lines]; rewrite IH by (auto; discriminate).
    + replace (l + 1 + new_lines (y :: body)) with (l + S (new_lines (y :: body))) by lia. tauto.
    + replace (l + 1 + new_lines (y :: body)) with (l + S (new_lines (y :: body))) by lia. tauto.
    + tauto.
Qed.

Lemma mk_low : forall s l pr n, new_file s = [] -> l <= 1 -> ~ mk l pr s n.
Proof.
  induction s as [|[t|t|t] s IH]; intros l pr n H Hl; try discriminate; simpl; [tauto|]. intros [[F _]|F]; [lia|].
  exact (IH _ _ _ H Hl F).
Qed.

Lemma hunk_at_mk : forall n pre body k, (new_file body = [] -> n = 0 /\ pre = []) ->
  (mk (h_start (hunk_at (n + @length dline pre) body)) false body k <-> mk (S n + length pre) false body k).
Proof.
  intros n pre body k H. cbn [hunk_at h_start]. destruct (new_file body) as [|u r] eqn:E.
  - destruct (H eq_refl) as [-> ->]. split; intros F; exfalso; revert F; apply mk_low; auto.
  - replace (S (n + length pre)) with (S n + length pre) by lia. tauto.
Qed.

Lemma hunks_mk : forall n s hs, hunks_of n s hs -> forall k,
  (exists h, In h hs /\ mk (h_start h) false (h_lines h) k) <-> mk (S n) false s k.
Proof.
  induction 1 as [n s H|n pre body rest hs Hp Hne He Hz H IH]; intros k.
  - split; [intros (h & [] & _)|]. intros F. exfalso. revert F. apply mk_kept_none. exact H.
  - rewrite mk_kept by exact Hp. rewrite mk_body by assumption. rewrite <- new_len.
    replace (S n + length pre + length (new_file body)) with (S (n + length pre + length (new_file body))) by lia.
    rewrite <- IH, <- (hunk_at_mk n pre body k Hz). split.
    + intros (h & [<-|Hi] & F); [left; exact F|right; exists h; auto].
    + intros [F|(h & Hi & F)]; [exists (hunk_at (n + length pre) body); split; [left; reflexivity|exact F]|exists h; split; [right; exact Hi|exact F]].
Qed.

Lemma hunks_affected : forall p s, hunks_of 0 s (p_hunks p) -> forall n, In n (affected_lines p) <-> changed_in s n.
Proof.
  intros p s H n. unfold affected_lines. rewrite affected_in_acc, (hunks_mk _ _ _ H), changed_mk. simpl. tauto.
Qed.

Lemma hunks_ascending : forall n s hs, hunks_of n s hs -> forall from, from <= S n -> (n = 0 -> from = 0) -> ascending from hs.
Proof.
  induction 1 as [n s H|n pre body rest hs Hp Hne He Hz H IH]; intros from Hf H0; [exact I|].
  cbn [ascending hunk_at h_start h_lines]. rewrite <- new_len. destruct (new_file body) as [|u r] eqn:E.
  - destruct (Hz eq_refl) as [-> ->]. cbn [length] in *. split; [rewrite H0; auto; lia|]. apply IH; lia.
  - split; [lia|]. apply IH; cbn [length] in *; lia.
Qed.

Lemma hunks_lines : forall n s hs, hunks_of n s hs -> forall h a l b t, In h hs -> h_lines h = a ++ l :: b -> l = Ctx t \/ l = Add t ->
  exists i, h_start h + new_lines a = S n + i /\ nth_error (new_file s) i = Some t.
Proof.
  induction 1 as [n s H|n pre body rest hs Hp Hne He Hz H IH]; intros h a l b t Hi E Hl; [destruct Hi|].
  rewrite !new_file_app. destruct Hi as [<-|Hi].
  - cbn [hunk_at h_start h_lines] in *. subst body.
    assert (En : new_file (a ++ l :: b) = new_file a ++ t :: new_file b).
    { rewrite new_file_app. destruct Hl as [->| ->]; reflexivity. }
    rewrite En. exists (length pre + new_lines a). split.
    + destruct (new_file a); cbn [app]; lia.
    + rewrite nth_error_app2; rewrite kept_len by exact Hp; [|lia]. replace (length pre + new_lines a - length pre) with (length (new_file a)) by (rewrite new_len; lia).
      rewrite <- app_assoc, nth_error_app2, Nat.sub_diag by lia. reflexivity.
  - destruct (IH h a l b t Hi E Hl) as (i & Ei & Hn). exists (length pre + length (new_file body) + i). split; [lia|].
    rewrite app_assoc, nth_error_app2; rewrite app_length, (kept_len pre Hp); [|lia]. replace (_ + i - _) with i by lia. exact Hn.
Qed.

Lemma hunks_quotes : forall p s code, hunks_of 0 s (p_hunks p) -> lines code = new_file s -> forall n t, quotes p n t -> line_is code n t.
Proof.
  intros p s code H E n t (h & pre & l & post & Hi & Eh & Hl & Hn).
  destruct (hunks_lines _ _ _ H _ _ _ _ _ Hi Eh Hl) as (i & Ei & Hnth). subst n. rewrite Ei. split; [lia|].
  rewrite E. replace (1 + i - 1) with i by lia. exact Hnth.
Qed.

(** * The filter *)

(** As [c05], for patches whose hunks are in order. *)
Lemma c05_lines : forall parse ms d ps sel,
  (exists c, In c (fixed_diff d) /\ is_whitespace c = false) ->
  parse (fixed_diff d) = Some ps -> Forall (fun p => ascending 0 (p_hunks p)) ps ->
  (forall m, In m ms -> relative (sf_path (mu_file m))) ->
  diff_filter parse ms d = DiffOk sel ->
  selects (fun m => exists p n, In p ps /\ patch_is_for p (sf_path (mu_file m)) /\ In n (affected_lines p)
    /\ lc_line (sp_start (mu_span m)) <= n <= lc_line (sp_end (mu_span m))) ms sel.
Proof.
  intros parse ms d ps sel (c & Hc & Hw) Hp Hwf Hrel H. unfold diff_filter in H.
  destruct (forallb is_whitespace (fixed_diff d)) eqn:Ef.
  { rewrite forallb_forall in Ef. specialize (Ef c Hc). congruence. }
  rewrite Hp in H. destruct (negb _); [discriminate|].
  destruct (changed_by_path [] ps) as [tbl|] eqn:Et; [|discriminate].
  injection H as <-. destruct (changed_table _ _ _ Et (NoDup_nil _)) as [E Hn]. simpl in E.
  apply filter_selects. intros m Hm. rewrite Forall_forall in Hwf.
  assert (Hin : forall p, In p ps -> patch_is_for p (sf_path (mu_file m)) ->
    lookup_path tbl (components (sf_path (mu_file m))) = Some (affected_lines p)).
  { intros p Hip Hfor. apply lookup_in; [exact Hn|]. rewrite E. apply in_map_iff. exists p. split.
    - unfold entry. apply strip_iff in Hfor. rewrite Hfor. reflexivity.
    - apply filter_In. split; [exact Hip|]. rewrite (devnull_abs p (sf_path (mu_file m))); auto. }
  destruct (lookup_path tbl (components (sf_path (mu_file m)))) as [ch|] eqn:El.
  - pose proof El as El'. apply lookup_in in El'; [|exact Hn]. rewrite E in El'. apply in_map_iff in El'.
    destruct El' as (p & Ep & Hip). unfold entry in Ep. injection Ep as Epath <-.
    apply filter_In in Hip. destruct Hip as [Hip Hdn].
    rewrite span_hits_iff by (apply affected_sorted; apply Hwf; exact Hip). split.
    + intros (n & Hi & Hb). exists p, n. repeat split; auto; try lia. apply strip_iff; exact Epath.
    + intros (p' & n & Hip' & Hfor & Hi & Hb). exists n. split; [|exact Hb].
      specialize (Hin p' Hip' Hfor). injection Hin as ->. exact Hi.
  - split; [discriminate|]. intros (p & n & Hip & Hfor & _). specialize (Hin p Hip Hfor). discriminate.
Qed.

Lemma selects_iff : forall {A} (P Q : A -> Prop) l k, (forall x, In x l -> (P x <-> Q x)) -> selects P l k -> selects Q l k.
Proof.
  intros A P Q l k H S. induction S as [|x a b Hx S IH|x a b Hx S IH]; constructor.
  - apply H; [left; reflexivity|exact Hx].
  - apply IH. intros; apply H; right; assumption.
  - intros F. apply Hx. apply H; [left; reflexivity|exact F].
  - apply IH. intros; apply H; right; assumption.
Qed.

Lemma selects_fun : forall {A} (P : A -> Prop) l k k', selects P l k -> selects P l k' -> k = k'.
Proof.
  intros A P l k k' S. revert k'. induction S as [|x a b Hx S IH|x a b Hx S IH]; intros k' S'; inversion S'; subst; try contradiction; auto.
  f_equal. auto.
Qed.

Lemma Forall2_in_r : forall {A B} (R : A -> B -> Prop) l k y, Forall2 R l k -> In y k -> exists x, In x l /\ R x y.
Proof.
  intros A B R l k y H. induction H as [|a b l k Hab H IH]; intros [].
  - subst. exists a. split; [left; reflexivity|assumption].
  - destruct IH as (x & Hx & Hr); auto. exists x. split; [right; exact Hx|exact Hr].
Qed.

Lemma Forall2_in_l : forall {A B} (R : A -> B -> Prop) l k x, Forall2 R l k -> In x l -> exists y, In y k /\ R x y.
Proof.
  intros A B R l k x H. induction H as [|a b l k Hab H IH]; intros [].
  - subst. exists b. split; [left; reflexivity|assumption].
  - destruct IH as (y & Hy & Hr); auto. exists y. split; [right; exact Hy|exact Hr].
Qed.

Lemma target_fun : forall p cs cs', target p cs -> target p cs' -> cs = cs'.
Proof.
  intros p cs cs' [H|[H N]] [H'|[H' N']].
  - congruence.
  - exfalso. apply (N' cs). congruence.
  - exfalso. apply (N cs'). congruence.
  - congruence.
Qed.

Lemma for_target : forall p path, patch_is_for p path <-> target p (components path).
Proof. intros p path. unfold patch_is_for, target. tauto. Qed.

Lemma deletes_target : forall p, deletes p -> target p (components (tx "/dev/null")).
Proof. intros p H. right. split; [exact H|]. intros r F. vm_compute in F. discriminate. Qed.

Lemma devnull_not_relative : forall path, relative path -> components path <> components (tx "/dev/null").
Proof.
  intros path Hr E. pose proof (relative_plain path Hr) as Hp. rewrite E in Hp.
  inversion Hp as [|? ? H1 _]. destruct H1 as [H1|[H1|(u & H1 & _)]]; discriminate.
Qed.

Lemma written_one_each : forall chs ps, Forall2 written chs ps -> different_files chs -> one_patch_each ps.
Proof.
  intros chs ps H [Hn Hr] a p1 b p2 c cs -> T1 T2.
  apply Forall2_app_inv_r in H. destruct H as (ca & rest & _ & H & ->).
  inversion H as [|c1 ? rest' ? W1 H' E1 E2]; subst. clear H.
  apply Forall2_app_inv_r in H'. destruct H' as (cb & rest & _ & H & ->).
  inversion H as [|c2 ? rest' ? W2 H' E1 E2]; subst. clear H.
  destruct W1 as [_ [W1|[W1 _]]]; [|exact W1]. exfalso.
  apply for_target in W1. pose proof (target_fun _ _ _ T1 W1) as E1. subst cs.
  assert (Hr1 : relative (ch_path c1)).
  { rewrite Forall_forall in Hr. apply Hr. apply in_or_app. right. left. reflexivity. }
  destruct W2 as [_ [W2|[W2 _]]].
  - apply for_target in W2. pose proof (target_fun _ _ _ T2 W2) as E2. rewrite map_app in Hn. cbn [map] in Hn.
    apply NoDup_remove_2 in Hn. apply Hn. apply in_or_app. right. rewrite map_app. apply in_or_app. right. left. symmetry. exact E2.
  - apply deletes_target in W2. pose proof (target_fun _ _ _ T2 W2) as E2. apply (devnull_not_relative _ Hr1 E2).
Qed.

Lemma no_lines_unchanged : forall s n, new_file s = [] -> ~ changed_in s n.
Proof. intros s n H F. apply changed_mk in F. revert F. apply mk_low; auto. Qed.

Lemma written_for : forall c p path, written c p -> relative path -> patch_is_for p path -> components (ch_path c) = components path.
Proof.
  intros c p path [_ [W|[W _]]] Hr H; apply for_target in H.
  - apply for_target in W. apply (target_fun p); assumption.
  - apply deletes_target in W. exfalso. apply (devnull_not_relative _ Hr). apply (target_fun p); assumption.
Qed.

Lemma c70_selects : forall parse ms d chs ps,
  (exists c, In c (fixed_diff d) /\ is_whitespace c = false) ->
  parse (fixed_diff d) = Some ps -> Forall2 written chs ps -> different_files chs ->
  of_new_tree chs ms -> same_code ms -> (forall m, In m ms -> relative (sf_path (mu_file m))) ->
  exists sel, diff_filter parse ms d = DiffOk sel /\ selects (edited chs) ms sel.
Proof.
  intros parse ms d chs ps Hv Hp Hw Hd Ht Hs Hr.
  destruct (c05_accepted parse ms d ps Hp Hs (written_one_each _ _ Hw Hd)) as [sel Hsel].
  { intros p m n t Hip Hm Hf Hq. destruct (Forall2_in_r _ _ _ _ Hw Hip) as (c & Hc & Hwr).
    eapply hunks_quotes; [exact (proj1 Hwr)| |exact Hq]. apply Ht; auto. eapply written_for; eauto. }
  exists sel. split; [exact Hsel|].
  eapply selects_iff; [|eapply c05_lines; eauto].
  - intros m Hm. split.
    + intros (p & n & Hip & Hf & Hi & Hb). destruct (Forall2_in_r _ _ _ _ Hw Hip) as (c & Hc & Hwr).
      exists c, n. split; [exact Hc|]. split; [eapply written_for; eauto|]. split; [|exact Hb].
      apply (hunks_affected p _ (proj1 Hwr)). exact Hi.
    + intros (c & n & Hc & Ec & Hch & Hb). destruct (Forall2_in_l _ _ _ _ Hw Hc) as (p & Hip & Hh & [Hf|[_ Hz]]).
      * exists p, n. split; [exact Hip|]. split; [apply for_target; rewrite <- Ec; apply for_target; exact Hf|]. split; [|exact Hb].
        apply (hunks_affected p _ Hh). exact Hch.
      * exfalso. exact (no_lines_unchanged _ _ Hz Hch).
  - apply Forall_forall. intros p Hip. destruct (Forall2_in_r _ _ _ _ Hw Hip) as (c & Hc & Hwr).
    eapply hunks_ascending; [exact (proj1 Hwr)|lia|auto].
Qed.

(** * What programs write *)

Lemma hunks_prepend : forall n t s hs, hunks_of (S n) s hs -> hunks_of n (Ctx t :: s) hs.
Proof.
  intros n t s hs H. inversion H as [? ? Hk|? pre body rest hs' Hp Hne He Hz H']; subst.
  - apply ho_rest. constructor; [exists t; reflexivity|exact Hk].
  - change (Ctx t :: pre ++ body ++ rest) with ((Ctx t :: pre) ++ body ++ rest).
    replace (hunk_at (S n + length pre) body) with (hunk_at (n + length (Ctx t :: pre)) body) by (cbn [length]; f_equal; lia).
    apply ho_hunk; auto.
    + constructor; [exists t; reflexivity|exact Hp].
    + intros E. destruct (Hz E). discriminate.
    + cbn [length]. replace (n + S (length pre)) with (S n + length pre) by lia. exact H'.
Qed.

Lemma near_false : forall c above l from, near (S c) above (l :: from) = false ->
  kept l /\ (forall y r, above = y :: r -> kept y) /\ (forall y r, from = y :: r -> kept y).
Proof.
  intros c above l from H. unfold near in H. apply orb_false_iff in H. destruct H as [Ha Hf].
  assert (K : forall x, is_change x = false -> kept x) by (intros [t|t|t]; [exists t; reflexivity|discriminate|discriminate]).
  cbn [firstn existsb] in Hf. apply orb_false_iff in Hf. destruct Hf as [Hl Hf].
  split; [auto|]. split; intros y r ->; apply K.
  - cbn [firstn existsb] in Ha. apply orb_false_iff in Ha. tauto.
  - apply orb_false_iff in Hf. tauto.
Qed.

Lemma runs_hunks : forall c from n a' cur, 
  (cur = [] -> n = 0 \/ forall y r, from = y :: r -> kept y) -> (cur <> [] -> new_file cur = [] -> n = 0) ->
  hunks_of n (cur ++ from) (runs (S c) n (rev cur ++ a') cur from).
Proof.
  intros c from. induction from as [|l from IH]; intros n a' cur H0 H1; cbn [runs].
  - rewrite app_nil_r. destruct cur as [|x cur]; [apply ho_rest; constructor|]. cbn [closed].
    assert (H : hunks_of n ([] ++ (x :: cur) ++ []) [hunk_at (n + length (@nil dline)) (x :: cur)]).
    { apply ho_hunk; [constructor|discriminate|reflexivity| |apply ho_rest; constructor].
      intros E. split; [apply H1; [discriminate|exact E]|reflexivity]. }
    cbn [length app] in H. rewrite app_nil_r, Nat.add_0_r in H. exact H.
  - destruct (near (S c) (rev cur ++ a') (l :: from)) eqn:En.
    + specialize (IH n a' (cur ++ [l])). rewrite rev_app_distr, <- app_assoc in IH. cbn [rev app] in IH. apply IH.
      * intros E. destruct cur; discriminate.
      * intros _ E. destruct cur as [|x cur]; [|apply H1; [discriminate|]].
        -- destruct (H0 eq_refl) as [Hn|Hk]; [exact Hn|]. destruct (Hk l from eq_refl) as [t ->]. discriminate.
        -- rewrite new_file_app in E. apply app_eq_nil in E. tauto.
    + destruct (near_false _ _ _ _ En) as (Hl & Ha & Hf). destruct Hl as [t ->].
      specialize (IH (n + length (new_file (cur ++ [Ctx t]))) (Ctx t :: rev cur ++ a') []).
      cbn [rev app] in IH. assert (IH' := IH (fun _ => or_intror Hf) (fun F => match F eq_refl with end)). clear IH.
      rewrite new_file_app, app_length in *. cbn [new_file length] in *.
      replace (n + (length (new_file cur) + 1)) with (S (n + length (new_file cur))) in * by lia. apply (hunks_prepend _ t) in IH'.
      destruct cur as [|x cur]; cbn [closed app].
      * cbn [new_file length] in *. rewrite Nat.add_0_r in *. exact IH'.
      * match goal with |- hunks_of _ _ (_ :: ?r) => set (R := r) in * end.
        assert (G : hunks_of n ([] ++ (x :: cur) ++ Ctx t :: from) (hunk_at (n + length (@nil dline)) (x :: cur) :: R)).
        { apply ho_hunk; [constructor|discriminate| | |].
          - intros b u E. exfalso. rewrite E, rev_app_distr in Ha. destruct (Ha _ _ eq_refl) as [v F]. discriminate.
          - intros E. split; [apply H1; [discriminate|exact E]|reflexivity].
          - cbn [length]. rewrite Nat.add_0_r. exact IH'. }
        cbn [length] in G. rewrite Nat.add_0_r in G. exact G.
Qed.

Lemma unified_hunks : forall c s, 1 <= c -> hunks_of 0 s (unified c s).
Proof.
  intros [|c] s H; [lia|]. apply (runs_hunks c s 0 [] []); auto.
Qed.
