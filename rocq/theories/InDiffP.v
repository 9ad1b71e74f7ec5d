(** Proofs for C05, C06 and C07. *)
From Coq Require Import String List NArith Bool Arith Lia Sorted.
From Verif Require Import Text SpanM PathM PathS PathP MutantM InDiffM InDiffS.
Import ListNotations.

(** * Lines of a hunk *)

Fixpoint mk (l : nat) (pr : bool) (ls : list dline) (n : nat) : Prop :=
  match ls with
  | [] => False
  | Rem _ :: r => (1 < l /\ n = l - 1) \/ mk l true r n
  | Ctx _ :: r => (pr = true /\ n = l) \/ mk (l + 1) false r n
  | Add _ :: r => n = l \/ mk (l + 1) false r n
  end.

Lemma push_if_in : forall l x n, In n (push_if (fun last => negb (last =? x)) l x) <-> In n l \/ n = x.
Proof.
  intros l x n. unfold push_if. destruct (rev l) as [|y r] eqn:E.
  - rewrite in_app_iff. simpl. intuition.
  - destruct (Nat.eqb_spec y x) as [->|Hne]; simpl.
    + assert (In x l) by (apply in_rev; rewrite E; left; reflexivity).
      intuition. subst; auto.
    + rewrite in_app_iff. simpl. intuition.
Qed.

Lemma loop_in : forall ls acc l pr n, In n (hunk_loop acc l pr ls) <-> In n acc \/ mk l pr ls n.
Proof.
  induction ls as [|x ls IH]; intros acc l pr n; simpl; [tauto|].
  destruct x; rewrite IH.
  - destruct pr; [rewrite in_app_iff; simpl|]; intuition; discriminate.
  - rewrite push_if_in. destruct pr; [rewrite in_app_iff; simpl|]; intuition.
  - destruct (Nat.ltb_spec 1 l) as [H|H]; [rewrite push_if_in|]; intuition; lia.
Qed.

Definition sp_add l ls n := exists pre t post, ls = pre ++ Add t :: post /\ n = l + new_lines pre.
Definition sp_before l ls n :=
  exists pre t post, ls = pre ++ Rem t :: post /\ 1 <= n /\ S n = l + new_lines pre.
Definition sp_after l ls n := exists pre t mid x post,
  ls = pre ++ Rem t :: mid ++ x :: post /\ Forall removal mid /\ surviving x /\ n = l + new_lines pre.
Definition sp_first (l : nat) ls n := exists mid x post,
  ls = mid ++ x :: post /\ Forall removal mid /\ surviving x /\ n = l.
Definition sp l pr ls n :=
  sp_add l ls n \/ sp_before l ls n \/ sp_after l ls n \/ (pr = true /\ sp_first l ls n).

Lemma surv_ctx : forall t, surviving (Ctx t).
Proof. intros t [u H]. discriminate. Qed.
Lemma surv_add : forall t, surviving (Add t).
Proof. intros t [u H]. discriminate. Qed.

Lemma new_lines_surv : forall x ls, surviving x -> new_lines (x :: ls) = S (new_lines ls).
Proof. intros [t|t|t] ls H; try reflexivity. destruct H; exists t; reflexivity. Qed.

(** The three kinds of mark are shifted by one more line in front. *)
Lemma sp_shift_surv : forall x l ls n, surviving x -> sp (l + 1) false ls n -> sp l false (x :: ls) n.
Proof.
  intros x l ls n Hx [(pre & t & post & -> & ->)|[(pre & t & post & -> & Hn & E)|
    [(pre & t & mid & y & post & -> & Hm & Hy & ->)|[F _]]]]; [| | |discriminate].
  - left. exists (x :: pre), t, post. split; [reflexivity|]. rewrite new_lines_surv by assumption. lia.
  - right; left. exists (x :: pre), t, post. split; [reflexivity|].
    rewrite new_lines_surv by assumption. lia.
  - right; right; left. exists (x :: pre), t, mid, y, post. split; [reflexivity|].
    rewrite new_lines_surv by assumption. repeat split; try assumption. lia.
Qed.

Lemma sp_weaken : forall l ls n pr, sp l false ls n -> sp l pr ls n.
Proof. intros l ls n pr [H|[H|[H|[F _]]]]; [left|right; left|right; right; left|discriminate]; auto. Qed.

Lemma mk_sp : forall ls l pr n, mk l pr ls n -> sp l pr ls n.
Proof.
  induction ls as [|x ls IH]; intros l pr n; simpl; [tauto|].
  destruct x.
  - intros [[-> ->]|H].
    + right; right; right. split; [reflexivity|]. exists [], (Ctx t), ls.
      repeat split; auto. apply surv_ctx.
    + apply sp_weaken. apply sp_shift_surv; [apply surv_ctx|]. apply IH; assumption.
  - intros [->|H].
    + left. exists [], t, ls. split; [reflexivity|]. simpl; lia.
    + apply sp_weaken. apply sp_shift_surv; [apply surv_add|]. apply IH; assumption.
  - intros [[Hl ->]|H].
    + right; left. exists [], t, ls. split; [reflexivity|]. simpl; lia.
    + destruct (IH _ _ _ H) as [(pre & u & post & -> & ->)|[(pre & u & post & -> & Hn & E)|
        [(pre & u & mid & y & post & -> & Hm & Hy & ->)|[_ (mid & y & post & -> & Hm & Hy & ->)]]]].
      * left. exists (Rem t :: pre), u, post. split; reflexivity.
      * right; left. exists (Rem t :: pre), u, post. repeat split; assumption.
      * right; right; left. exists (Rem t :: pre), u, mid, y, post. repeat split; assumption.
      * right; right; left. exists [], t, mid, y, post. repeat split; try assumption. simpl; lia.
Qed.

Lemma mk_first : forall mid x post l, Forall removal mid -> surviving x ->
  mk l true (mid ++ x :: post) l.
Proof.
  induction mid as [|y mid IH]; intros x post l Hm Hx; simpl.
  - destruct x; [left; auto|left; auto|]. destruct Hx. exists t; reflexivity.
  - inversion Hm as [|? ? [t ->] Hm']; subst. right. apply IH; assumption.
Qed.

Lemma mk_pr : forall ls l n, mk l false ls n -> mk l true ls n.
Proof. intros [|[t|t|t] ls] l n; simpl; intuition; discriminate. Qed.


Lemma mk_app : forall pre l pr rest n,
  (forall pr', mk (l + new_lines pre) pr' rest n) -> mk l pr (pre ++ rest) n.
Proof.
  induction pre as [|x pre IH]; intros l pr rest n H; simpl.
  - simpl in H. rewrite Nat.add_0_r in H. apply H.
  - destruct x; simpl; right; apply IH; intros pr'; specialize (H pr'); simpl in H;
      [replace (l + 1 + new_lines pre) with (l + S (new_lines pre)) by lia
      |replace (l + 1 + new_lines pre) with (l + S (new_lines pre)) by lia|]; exact H.
Qed.

Lemma sp_mk : forall ls l n, sp l false ls n -> mk l false ls n.
Proof.
  intros ls l n [(pre & t & post & -> & ->)|[(pre & t & post & -> & Hn & E)|
    [(pre & t & mid & y & post & -> & Hm & Hy & ->)|[F _]]]]; [| | |discriminate].
  - apply mk_app. intros pr. simpl. left; lia.
  - apply mk_app. intros pr. simpl. left. lia.
  - apply mk_app. intros pr. simpl. right. apply mk_first; assumption.
Qed.

Lemma mk_changed : forall h n, h_count h <> 0 ->
  (mk (h_start h) false (h_lines h) n <-> changed_by h n).
Proof.
  intros h n Hc.
  assert (Ef : first_new_line h = h_start h).
  { unfold first_new_line. destruct (Nat.eqb_spec (h_count h) 0); [contradiction|reflexivity]. }
  split.
  - intros H. apply mk_sp in H.
    destruct H as [(pre & t & post & E & Hn)|[(pre & t & post & E & Hn & En)|
      [(pre & t & mid & y & post & E & Hm & Hy & Hn)|[F _]]]]; [| | |discriminate].
    + eapply ch_added; [exact E|]. rewrite Ef; exact Hn.
    + eapply ch_before; [exact E|exact Hn|]. rewrite Ef; exact En.
    + eapply ch_after; [exact E|exact Hm|exact Hy|]. rewrite Ef; exact Hn.
  - intros H. apply sp_mk. destruct H as [pre t post E Hn|pre t post E Hn En|pre t mid y post E Hm Hy Hn];
      rewrite Ef in *.
    + left. exists pre, t, post; auto.
    + right; left. exists pre, t, post; auto.
    + right; right; left. exists pre, t, mid, y, post; auto.
Qed.

Lemma affected_in_acc : forall hs acc n,
  In n (fold_left (fun acc h => hunk_loop acc (h_start h) false (h_lines h)) hs acc)
  <-> In n acc \/ exists h, In h hs /\ mk (h_start h) false (h_lines h) n.
Proof.
  induction hs as [|h hs IH]; intros acc n; simpl.
  - split; [auto|intros [H|(h & [] & _)]; exact H].
  - rewrite IH, loop_in. split.
    + intros [[H|H]|(h' & Hi & H)]; [auto| |]; right; [exists h; auto|exists h'; auto].
    + intros [H|(h' & [->|Hi] & H)]; [auto|auto|]. right. exists h'; auto.
Qed.

Lemma affected_in : forall p n, Forall (fun h => h_count h <> 0) (p_hunks p) ->
  (In n (affected_lines p) <-> exists h, In h (p_hunks p) /\ changed_by h n).
Proof.
  intros p n Hc. unfold affected_lines. rewrite affected_in_acc. rewrite Forall_forall in Hc. split.
  - intros [[]|(h & Hi & H)]. exists h. split; [exact Hi|]. apply mk_changed; auto.
  - intros (h & Hi & H). right. exists h. split; [exact Hi|]. apply mk_changed; auto.
Qed.

(** * Sortedness *)

Definition below (b : nat) (l : list nat) : Prop := Forall (fun x => x < b) l.

Lemma sorted_snoc : forall l x, StronglySorted lt l -> below x l -> StronglySorted lt (l ++ [x]).
Proof.
  induction l as [|y l IH]; intros x Hs Hb; simpl.
  - constructor; constructor.
  - inversion Hs as [|? ? Hs' Hy]; inversion Hb as [|? ? Hyx Hb']; subst. constructor.
    + apply IH; assumption.
    + rewrite Forall_app. split; [exact Hy|]. constructor; [exact Hyx|constructor].
Qed.

Lemma below_snoc : forall l x b, below b l -> x < b -> below b (l ++ [x]).
Proof. intros. apply Forall_app. split; [assumption|]. constructor; [assumption|constructor]. Qed.

Lemma below_le : forall l a b, below a l -> a <= b -> below b l.
Proof. intros l a b H Hab. eapply Forall_impl; [|exact H]. simpl. intros; lia. Qed.

(** If everything is at most [x] and the last is not [x], everything is below [x]. *)
Lemma below_last : forall l y x, StronglySorted lt (l ++ [y]) -> below (S x) (l ++ [y]) -> y <> x ->
  below x (l ++ [y]).
Proof.
  intros l y x Hs Hb Hne. unfold below in *. rewrite Forall_app in *. destruct Hb as [Hl Hy].
  inversion Hy; subst. assert (y < x) by lia.
  split; [|constructor; [assumption|constructor]].
  apply Forall_forall. intros z Hz.
  assert (z < y). { clear - Hs Hz. induction l as [|w l IH]; [destruct Hz|]. simpl in Hs.
    inversion Hs as [|? ? Hs' Hw]; subst. destruct Hz as [->|Hz]; [|auto].
    rewrite Forall_app in Hw. destruct Hw as [_ Hw]. inversion Hw; assumption. }
  lia.
Qed.

Lemma push_sorted : forall l x, StronglySorted lt l -> below (S x) l ->
  StronglySorted lt (push_if (fun last => negb (last =? x)) l x)
  /\ below (S x) (push_if (fun last => negb (last =? x)) l x).
Proof.
  intros l x Hs Hb. unfold push_if. destruct (rev l) as [|y r] eqn:E.
  - assert (l = []) by (rewrite <- (rev_involutive l), E; reflexivity). subst. simpl.
    split; repeat constructor.
  - assert (El : l = rev r ++ [y]) by (rewrite <- (rev_involutive l), E; reflexivity).
    destruct (Nat.eqb_spec y x) as [->|Hne]; simpl; [split; assumption|].
    split; [|apply below_snoc; [assumption|lia]].
    apply sorted_snoc; [assumption|]. rewrite El in *. apply below_last; assumption.
Qed.

Lemma loop_sorted : forall ls acc l pr, StronglySorted lt acc -> below l acc ->
  StronglySorted lt (hunk_loop acc l pr ls) /\ below (l + new_lines ls) (hunk_loop acc l pr ls).
Proof.
  induction ls as [|x ls IH]; intros acc l pr Hs Hb; simpl.
  - rewrite Nat.add_0_r. auto.
  - assert (H1 : StronglySorted lt (if pr then acc ++ [l] else acc)
                 /\ below (S l) (if pr then acc ++ [l] else acc)).
    { destruct pr; split; auto.
      - apply sorted_snoc; assumption.
      - apply below_snoc; [eapply below_le; [exact Hb|lia]|lia].
      - eapply below_le; [exact Hb|lia]. }
    destruct H1 as [H1 H2].
    destruct x.
    + replace (l + S (new_lines ls)) with (l + 1 + new_lines ls) by lia.
      apply IH; [assumption|]. eapply below_le; [exact H2|lia].
    + replace (l + S (new_lines ls)) with (l + 1 + new_lines ls) by lia.
      destruct (push_sorted _ l H1 H2) as [H3 H4].
      apply IH; [assumption|]. eapply below_le; [exact H4|lia].
    + apply IH.
      * destruct (1 <? l) eqn:E; [|assumption]. apply push_sorted; [assumption|].
        apply Nat.ltb_lt in E. eapply below_le; [exact Hb|lia].
      * destruct (1 <? l) eqn:E; [|assumption]. apply Nat.ltb_lt in E.
        apply below_le with (a := S (l - 1)); [|lia].
        apply (push_sorted acc (l - 1)); [assumption|]. eapply below_le; [exact Hb|lia].
Qed.

Lemma affected_sorted_acc : forall hs acc b, StronglySorted lt acc -> below b acc -> ascending b hs ->
  StronglySorted lt (fold_left (fun acc h => hunk_loop acc (h_start h) false (h_lines h)) hs acc).
Proof.
  induction hs as [|h hs IH]; intros acc b Hs Hb Ha; simpl; [assumption|].
  destruct Ha as [Hle Ha].
  destruct (loop_sorted (h_lines h) acc (h_start h) false Hs) as [H1 H2].
  { eapply below_le; [exact Hb|exact Hle]. }
  eapply IH; [exact H1|exact H2|exact Ha].
Qed.

Lemma affected_sorted : forall p, ascending 0 (p_hunks p) -> StronglySorted lt (affected_lines p).
Proof. intros p H. eapply affected_sorted_acc; [constructor|constructor|exact H]. Qed.

(** * Binary search *)

Lemma sorted_nth : forall v i j, StronglySorted lt v -> i < j -> j < length v -> nth i v 0 < nth j v 0.
Proof.
  induction v as [|x v IH]; intros i j Hs Hij Hj; simpl in *; [lia|].
  inversion Hs as [|? ? Hs' Hx]; subst. destruct j as [|j]; [lia|]. destruct i as [|i].
  - rewrite Forall_forall in Hx. apply Hx. apply nth_In. lia.
  - apply IH; try assumption; lia.
Qed.

Lemma bsearch_inv : forall f v x base size i, StronglySorted lt v ->
  size <= f + 1 -> 1 <= size -> base + size <= length v ->
  i < length v -> nth i v 0 = x -> base <= i < base + size ->
  bsearch_loop f v x base size = i.
Proof.
  induction f as [|f IH]; intros v x base size i Hs Hf H1 Hl Hi Hx Hr; cbn [bsearch_loop].
  - lia.
  - destruct (Nat.leb_spec size 1) as [Hz|Hz]; [lia|].
    assert (Hh : 1 <= size / 2 /\ size / 2 + size / 2 <= size).
    { pose proof (Nat.div_mod size 2 ltac:(lia)). pose proof (Nat.mod_upper_bound size 2 ltac:(lia)). lia. }
    destruct (Nat.ltb_spec x (nth (base + size / 2) v 0)) as [Hlt|Hge].
    + apply IH; try assumption; try lia.
      destruct (Nat.lt_ge_cases i (base + size / 2)) as [Hc|Hc]; [lia|].
      destruct (Nat.eq_dec i (base + size / 2)) as [->|Hn]; [lia|].
      assert (nth (base + size / 2) v 0 < nth i v 0) by (apply sorted_nth; [assumption|lia|lia]). lia.
    + apply IH; try assumption; try lia.
      destruct (Nat.lt_ge_cases i (base + size / 2)) as [Hc|Hc]; [|lia].
      assert (nth i v 0 < nth (base + size / 2) v 0) by (apply sorted_nth; [assumption|lia|lia]). lia.
Qed.

Lemma bsearch_bound : forall f v x base size, 1 <= size -> base + size <= length v ->
  bsearch_loop f v x base size < length v.
Proof.
  induction f as [|f IH]; intros v x base size H1 Hl; cbn [bsearch_loop]; [lia|].
  destruct (Nat.leb_spec size 1) as [Hz|Hz]; [lia|].
  assert (Hh : size / 2 < size) by (apply Nat.div_lt; lia).
  destruct (x <? nth (base + size / 2) v 0); apply IH; lia.
Qed.

Lemma bsearch_sound : forall v x, binary_search v x = true -> In x v.
Proof.
  intros [|y v] x H; [discriminate|]. unfold binary_search in H. apply Nat.eqb_eq in H. rewrite <- H at 1.
  apply nth_In. apply bsearch_bound; simpl; lia.
Qed.

Lemma bsearch_complete : forall v x, StronglySorted lt v -> In x v -> binary_search v x = true.
Proof.
  intros v x Hs Hi. destruct (In_nth v x 0 Hi) as (i & Hl & Hx).
  destruct v as [|y v]; [destruct Hi|]. unfold binary_search. apply Nat.eqb_eq.
  rewrite (bsearch_inv _ _ _ _ _ i); try assumption; simpl in *; lia.
Qed.

Lemma span_hits_iff : forall v s, StronglySorted lt v ->
  (span_hits v s = true <-> exists n, In n v /\ lc_line (sp_start s) <= n <= lc_line (sp_end s)).
Proof.
  intros v s Hs. unfold span_hits. rewrite existsb_exists. split.
  - intros (n & Hi & Hb). apply in_seq in Hi. apply bsearch_sound in Hb. exists n. split; [exact Hb|lia].
  - intros (n & Hi & Hb). exists n. split; [apply in_seq; lia|]. apply bsearch_complete; assumption.
Qed.

(** * The table of paths *)

Lemma strip_spec : forall p path,
  strip_patch_path (p_new p) = components path <-> patch_is_for p path \/
   (exists r, components (p_new p) = Normal (tx "b") :: r /\ r = components path).
Proof.
  intros p path. unfold strip_patch_path, patch_is_for.
  destruct (components (p_new p)) as [|[| | |b] r] eqn:E;
    try (split; [intros H; left; right; split; [exact H|intros r' F; rewrite F in H; discriminate]
                |intros [[H|[H _]]|(r' & H & _)]; try discriminate; exact H]).
  destruct (text_eqb b (tx "b")) eqn:Eb.
  - apply text_eqb_eq in Eb. subst b. split.
    + intros ->. left; left; reflexivity.
    + intros [[H|[H N]]|(r' & H & ->)].
      * congruence.
      * exfalso. eapply N. rewrite <- H. reflexivity.
      * congruence.
  - apply text_eqb_neq in Eb. split.
    + intros H. left; right. split; [exact H|]. intros r' F. rewrite F in H. congruence.
    + intros [[H|[H N]]|(r' & H & ->)]; [congruence|exact H|congruence].
Qed.

Lemma strip_iff : forall p path,
  strip_patch_path (p_new p) = components path <-> patch_is_for p path.
Proof.
  intros p path. rewrite strip_spec. split; [|auto].
  intros [H|(r & H & ->)]; [exact H|]. left. exact H.
Qed.

Definition entry (p : patch) := (strip_patch_path (p_new p), affected_lines p).
Definition is_devnull (p : patch) := comps_eqb (strip_patch_path (p_new p)) (components (tx "/dev/null")).

Lemma nodup_snoc : forall {A} (l : list A) x, NoDup l -> ~ In x l -> NoDup (l ++ [x]).
Proof.
  intros A l x. induction l as [|y l IH]; intros Hn Hx; simpl.
  - constructor; [tauto|constructor].
  - inversion Hn as [|? ? Hy Hn']; subst. constructor.
    + rewrite in_app_iff. simpl. intros [H|[H|[]]]; [tauto|]. apply Hx. left. auto.
    + apply IH; [assumption|]. intros H. apply Hx. right. exact H.
Qed.

Lemma changed_table : forall ps acc tbl, changed_by_path acc ps = Some tbl ->
  NoDup (map fst acc) ->
  tbl = acc ++ map entry (filter (fun p => negb (is_devnull p)) ps) /\ NoDup (map fst tbl).
Proof.
  induction ps as [|p ps IH]; intros acc tbl H Hn; cbn [changed_by_path filter] in *.
  - injection H as <-. simpl. rewrite app_nil_r. auto.
  - unfold is_devnull at 1.
    destruct (comps_eqb (strip_patch_path (p_new p)) (components (tx "/dev/null"))) eqn:Ed; cbn [negb map].
    + apply IH; assumption.
    + destruct (existsb _ acc) eqn:Ee; [discriminate|].
      destruct (IH _ _ H) as [Et Hn'].
      { rewrite map_app. simpl.
        assert (Hx : ~ In (strip_patch_path (p_new p)) (map fst acc)).
        { intros Hi. apply in_map_iff in Hi. destruct Hi as (e & He & Hi).
          assert (Ht : existsb (fun e => comps_eqb (fst e) (strip_patch_path (p_new p))) acc = true).
          { apply existsb_exists. exists e. split; [exact Hi|]. apply comps_eqb_eq; exact He. }
          congruence. }
        apply nodup_snoc; assumption. }
      split; [|exact Hn']. rewrite Et. rewrite <- app_assoc. reflexivity.
Qed.

Lemma lookup_in : forall tbl path ch, NoDup (map fst tbl) ->
  (lookup_path tbl path = Some ch <-> In (path, ch) tbl).
Proof.
  induction tbl as [|[k v] tbl IH]; intros path ch Hn; unfold lookup_path in *; simpl.
  - split; [discriminate|tauto].
  - inversion Hn as [|? ? Hk Hn']; subst. simpl in Hk.
    destruct (comps_eqb k path) eqn:E; simpl.
    + apply comps_eqb_eq in E. subst k. split.
      * intros H; injection H as ->. auto.
      * intros [H|H]; [congruence|]. exfalso. apply Hk. apply in_map_iff. exists (path, ch). auto.
    + rewrite IH by assumption. split; [auto|]. intros [H|H]; [|exact H].
      injection H as -> ->. assert (comps_eqb path path = true) by (apply comps_eqb_eq; reflexivity). congruence.
Qed.

Lemma filter_selects : forall {A} (P : A -> Prop) f (l : list A),
  (forall x, In x l -> (f x = true <-> P x)) -> selects P l (filter f l).
Proof.
  intros A P f l. induction l as [|x l IH]; intros H; simpl; [constructor|].
  destruct (f x) eqn:E.
  - constructor; [apply H; [left; reflexivity|exact E]|]. apply IH. intros; apply H; right; assumption.
  - constructor; [|apply IH; intros; apply H; right; assumption].
    intros Hp. apply H in Hp; [congruence|left; reflexivity].
Qed.

Lemma well_formed_counts : forall p, well_formed p -> Forall (fun h => h_count h <> 0) (p_hunks p).
Proof.
  intros p [H _]. eapply Forall_impl; [|exact H]. intros h [_ Hc]. exact Hc.
Qed.

Lemma devnull_abs : forall p path, relative path -> patch_is_for p path -> is_devnull p = false.
Proof.
  intros p path Hr H. apply strip_iff in H. unfold is_devnull. rewrite H.
  destruct (comps_eqb (components path) (components (tx "/dev/null"))) eqn:E; [|reflexivity].
  apply comps_eqb_eq in E. exfalso.
  pose proof (relative_plain path Hr) as Hp. rewrite E in Hp. inversion Hp as [|? ? H1 _]. destruct H1 as [H1|[H1|(u & H1 & _)]]; discriminate.
Qed.

Lemma c05 : forall parse ms d ps sel,
  (exists c, In c (fixed_diff d) /\ is_whitespace c = false) ->
  parse (fixed_diff d) = Some ps -> Forall well_formed ps ->
  (forall m, In m ms -> relative (sf_path (mu_file m))) ->
  diff_filter parse ms d = DiffOk sel ->
  selects (touched ps) ms sel.
Proof.
  intros parse ms d ps sel (c & Hc & Hw) Hp Hwf Hrel H. unfold diff_filter in H.
  destruct (forallb is_whitespace (fixed_diff d)) eqn:Ef.
  { rewrite forallb_forall in Ef. specialize (Ef c Hc). congruence. }
  rewrite Hp in H. destruct (negb _); [discriminate|].
  destruct (changed_by_path [] ps) as [tbl|] eqn:Et; [|discriminate].
  injection H as <-. destruct (changed_table _ _ _ Et (NoDup_nil _)) as [E Hn]. simpl in E.
  apply filter_selects. intros m Hm. rewrite Forall_forall in Hwf.
  destruct (lookup_path tbl (components (sf_path (mu_file m)))) as [ch|] eqn:El.
  - apply lookup_in in El; [|exact Hn]. rewrite E in El. apply in_map_iff in El.
    destruct El as (p & Ep & Hip). unfold entry in Ep. injection Ep as Epath <-.
    apply filter_In in Hip. destruct Hip as [Hip Hdn].
    destruct (Hwf p Hip) as [Hcnt Hasc].
    rewrite span_hits_iff by (apply affected_sorted; exact Hasc). split.
    + intros (n & Hi & Hb). apply affected_in in Hi; [|apply well_formed_counts; split; assumption].
      destruct Hi as (h & Hh & Hch). exists p, h, n. repeat split; try assumption; try lia.
      apply strip_iff; exact Epath.
    + intros (p' & h & n & Hip' & Hfor & Hh & Hch & Hb).
      assert (p' = p).
      { clear - Hip Hip' Hfor Epath Hn E Hrel Hm Hdn.
        assert (Hd' : is_devnull p' = false) by (eapply devnull_abs; [apply Hrel; exact Hm|exact Hfor]).
        apply strip_iff in Hfor. rewrite E, map_map in Hn.
        assert (Hk : In p (filter (fun p => negb (is_devnull p)) ps)).
        { apply filter_In. split; assumption. }
        assert (Hk' : In p' (filter (fun p => negb (is_devnull p)) ps)).
        { apply filter_In. split; [assumption|]. rewrite Hd'. reflexivity. }
        revert Hn Hk Hk'. generalize (filter (fun p => negb (is_devnull p)) ps) as qs.
        induction qs as [|q qs IH]; simpl; intros Hn Hk Hk'; [tauto|].
        inversion Hn as [|? ? Hq Hn']; subst. destruct Hk as [->|Hk], Hk' as [->|Hk']; auto.
        - exfalso. apply Hq. apply in_map_iff. exists p'. split; [|exact Hk']. simpl in *. congruence.
        - exfalso. apply Hq. apply in_map_iff. exists p. split; [|exact Hk]. simpl in *. congruence. }
      subst p'. exists n. split; [|exact Hb]. apply affected_in; [apply well_formed_counts; split; assumption|].
      exists h; auto.
  - split; [discriminate|]. intros (p & h & n & Hip & Hfor & Hh & Hch & Hb). exfalso.
    assert (Hd : is_devnull p = false) by (eapply devnull_abs; [apply Hrel; exact Hm|exact Hfor]).
    apply strip_iff in Hfor.
    assert (In (components (sf_path (mu_file m)), affected_lines p) tbl).
    { rewrite E. apply in_map_iff. exists p. split; [unfold entry; rewrite Hfor; reflexivity|].
      apply filter_In. rewrite Hd. auto. }
    apply lookup_in in H; [|exact Hn]. congruence.
Qed.

(** * C07 *)

Lemma new_side_in : forall ls l n t, In (n, t) (new_side l ls) <->
  exists pre x post, ls = pre ++ x :: post /\ (x = Ctx t \/ x = Add t) /\ n = l + new_lines pre.
Proof.
  induction ls as [|x ls IH]; intros l n t; simpl.
  - split; [tauto|]. intros (pre & x & post & E & _). destruct pre; discriminate.
  - assert (Hs : (exists pre y post, x :: ls = pre ++ y :: post /\ (y = Ctx t \/ y = Add t) /\ n = l + new_lines pre)
      <-> ((x = Ctx t \/ x = Add t) /\ n = l) \/
          (exists pre y post, ls = pre ++ y :: post /\ (y = Ctx t \/ y = Add t) /\ n = l + new_lines (x :: pre))).
    { split.
      - intros ([|z pre] & y & post & E & Hy & Hn); simpl in E; injection E as -> E; subst.
        + left. simpl. split; [exact Hy|lia].
        + right. exists pre, y, post. auto.
      - intros [[Hx ->]|(pre & y & post & -> & Hy & Hn)].
        + exists [], x, ls. simpl. repeat split; auto.
        + exists (x :: pre), y, post. auto. }
    rewrite Hs. clear Hs. destruct x as [u|u|u]; simpl; rewrite IH; split.
    + intros [H|(pre & y & post & H1 & H2 & H3)]; [injection H as -> ->; auto|].
      right. exists pre, y, post. repeat split; auto. lia.
    + intros [[[H|H] ->]|(pre & y & post & H1 & H2 & H3)]; [injection H as ->; auto|discriminate|].
      right. exists pre, y, post. repeat split; auto. lia.
    + intros [H|(pre & y & post & H1 & H2 & H3)]; [injection H as -> ->; auto|].
      right. exists pre, y, post. repeat split; auto. lia.
    + intros [[[H|H] ->]|(pre & y & post & H1 & H2 & H3)]; [discriminate|injection H as ->; auto|].
      right. exists pre, y, post. repeat split; auto. lia.
    + auto.
    + intros [[[H|H] _]|H]; [discriminate|discriminate|exact H].
Qed.

Lemma partial_in : forall p n t, In (n, t) (partial_new_file p) <-> quotes p n t.
Proof.
  intros p n t. unfold partial_new_file, quotes. rewrite in_flat_map. split.
  - intros (h & Hh & Hi). apply new_side_in in Hi. destruct Hi as (pre & x & post & H1 & H2 & H3).
    exists h, pre, x, post. auto.
  - intros (h & pre & x & post & Hh & H1 & H2 & H3). exists h. split; [exact Hh|].
    apply new_side_in. exists pre, x, post. auto.
Qed.

Lemma source_line_spec : forall code n,
  (exists t, line_is code n t /\ source_line code n = t) \/ (past_end code n /\ source_line code n = []).
Proof.
  intros code [|i]; simpl.
  - right. split; [left; reflexivity|reflexivity].
  - destruct (nth_error (lines code) i) as [t|] eqn:E.
    + left. exists t. split; [|reflexivity]. split; [lia|]. simpl. rewrite Nat.sub_0_r. exact E.
    + right. split; [|reflexivity]. right. apply nth_error_None in E. lia.
Qed.

Lemma line_is_fun : forall code n t u, line_is code n t -> line_is code n u -> t = u.
Proof. intros code n t u [_ H] [_ G]. congruence. Qed.

Lemma line_not_past : forall code n t, line_is code n t -> ~ past_end code n.
Proof.
  intros code n t [H1 H2] [->|H]; [lia|]. assert (n - 1 < length (lines code)).
  { apply nth_error_Some. congruence. } lia.
Qed.

Lemma source_line_iff : forall code n t,
  source_line code n = t <-> line_is code n t \/ (past_end code n /\ t = []).
Proof.
  intros code n t. destruct (source_line_spec code n) as [(u & Hu & E)|[Hp E]]; rewrite E; split.
  - intros ->; auto.
  - intros [H|[H _]]; [eapply line_is_fun; eassumption|]. exfalso. eapply line_not_past; eassumption.
  - intros <-; auto.
  - intros [H|[_ ->]]; [|reflexivity]. exfalso. eapply line_not_past; eassumption.
Qed.

Lemma source_by_path_some : forall ms m, In m ms -> same_code ms ->
  exists f, source_by_path ms (components (sf_path (mu_file m))) = Some f
            /\ sf_code f = sf_code (mu_file m).
Proof.
  intros ms m Hm Hs. unfold source_by_path.
  destruct (find _ ms) as [m'|] eqn:E.
  - apply find_some in E. destruct E as [Hi E]. apply comps_eqb_eq in E.
    exists (mu_file m'). split; [reflexivity|]. apply Hs; assumption.
  - exfalso. apply find_none with (x := m) in E; [|exact Hm].
    assert (comps_eqb (components (sf_path (mu_file m))) (components (sf_path (mu_file m))) = true)
      by (apply comps_eqb_eq; reflexivity). congruence.
Qed.

Definition ok_quote (m : mutant) (n : nat) (t : text) : Prop :=
  line_is (sf_code (mu_file m)) n t \/ (past_end (sf_code (mu_file m)) n /\ t = []).

Lemma check_iff : forall ps ms, same_code ms ->
  (check_diff_new_text_matches ps ms = true <->
   forall p m n t, In p ps -> In m ms -> patch_is_for p (sf_path (mu_file m)) -> quotes p n t ->
     ok_quote m n t).
Proof.
  intros ps ms Hs. unfold check_diff_new_text_matches. rewrite forallb_forall. split.
  - intros H p m n t Hp Hm Hf Hq. specialize (H p Hp). unfold check_patch in H.
    apply strip_iff in Hf. rewrite Hf in H.
    destruct (source_by_path_some ms m Hm Hs) as (f & E & Ec). rewrite E in H.
    rewrite forallb_forall in H. apply partial_in in Hq. specialize (H _ Hq). simpl in H.
    apply text_eqb_eq in H. apply source_line_iff. rewrite <- Ec. symmetry; exact H.
  - intros H p Hp. unfold check_patch.
    destruct (source_by_path ms (strip_patch_path (p_new p))) as [f|] eqn:E; [|reflexivity].
    unfold source_by_path in E. destruct (find _ ms) as [m|] eqn:Ef; [|discriminate].
    simpl in E. injection E as <-. apply find_some in Ef. destruct Ef as [Hm Ef].
    apply comps_eqb_eq in Ef. apply forallb_forall. intros [n t] Hi. apply text_eqb_eq. symmetry.
    apply source_line_iff. apply partial_in in Hi. apply (H p m n t Hp Hm); [|exact Hi].
    apply strip_iff. symmetry. exact Ef.
Qed.

Lemma diff_ok_check : forall parse ms d ps sel,
  (exists c, In c (fixed_diff d) /\ is_whitespace c = false) ->
  parse (fixed_diff d) = Some ps -> diff_filter parse ms d = DiffOk sel ->
  check_diff_new_text_matches ps ms = true.
Proof.
  intros parse ms d ps sel (c & Hc & Hw) Hp H. unfold diff_filter in H.
  destruct (forallb is_whitespace (fixed_diff d)) eqn:Ef.
  { rewrite forallb_forall in Ef. specialize (Ef c Hc). congruence. }
  rewrite Hp in H. destruct (check_diff_new_text_matches ps ms); [reflexivity|discriminate].
Qed.

Lemma c07_accept : forall parse ms d ps sel,
  (exists c, In c (fixed_diff d) /\ is_whitespace c = false) ->
  parse (fixed_diff d) = Some ps -> same_code ms -> diff_filter parse ms d = DiffOk sel ->
  forall p m n t, In p ps -> In m ms -> patch_is_for p (sf_path (mu_file m)) -> quotes p n t ->
  line_is (sf_code (mu_file m)) n t \/ (past_end (sf_code (mu_file m)) n /\ t = []).
Proof.
  intros. eapply check_iff; try eassumption. eapply diff_ok_check; eassumption.
Qed.

Lemma c07_reject : forall parse ms d ps p m n t,
  (exists c, In c (fixed_diff d) /\ is_whitespace c = false) ->
  parse (fixed_diff d) = Some ps -> same_code ms ->
  In p ps -> In m ms -> patch_is_for p (sf_path (mu_file m)) -> quotes p n t ->
  ~ line_is (sf_code (mu_file m)) n t -> t <> [] ->
  diff_filter parse ms d = DiffMismatch.
Proof.
  intros parse ms d ps p m n t (c & Hc & Hw) Hp Hs Hi Hm Hf Hq Hn Ht. unfold diff_filter.
  destruct (forallb is_whitespace (fixed_diff d)) eqn:Ef.
  { rewrite forallb_forall in Ef. specialize (Ef c Hc). congruence. }
  rewrite Hp. destruct (check_diff_new_text_matches ps ms) eqn:E; [|reflexivity].
  exfalso. rewrite (check_iff ps ms Hs) in E.
  destruct (E p m n t Hi Hm Hf Hq) as [H|[_ H]]; contradiction.
Qed.

Lemma c07_no_false_alarm : forall parse ms d ps,
  parse (fixed_diff d) = Some ps -> same_code ms ->
  (forall p m n t, In p ps -> In m ms -> patch_is_for p (sf_path (mu_file m)) -> quotes p n t ->
    line_is (sf_code (mu_file m)) n t) ->
  diff_filter parse ms d <> DiffMismatch.
Proof.
  intros parse ms d ps Hp Hs H. unfold diff_filter.
  destruct (forallb _ _); [discriminate|]. rewrite Hp.
  assert (E : check_diff_new_text_matches ps ms = true).
  { apply check_iff; [exact Hs|]. intros. left. eapply H; eassumption. }
  rewrite E. simpl. destruct (changed_by_path [] ps); discriminate.
Qed.

(** * Remaining parts of C05 *)

Lemma c05_empty : forall parse ms d,
  (forall c, In c (fixed_diff d) -> is_whitespace c = true) -> diff_filter parse ms d = DiffOk [].
Proof.
  intros parse ms d H. unfold diff_filter.
  assert (E : forallb is_whitespace (fixed_diff d) = true) by (apply forallb_forall; exact H).
  rewrite E. reflexivity.
Qed.

Lemma selects_none : forall {A} (l : list A), selects (fun _ => False) l [].
Proof. induction l; constructor; auto. Qed.

Lemma c05_sub : forall parse ms d sel, diff_filter parse ms d = DiffOk sel ->
  exists P, selects P ms sel.
Proof.
  intros parse ms d sel H. unfold diff_filter in H.
  destruct (forallb _ _). { injection H as <-. exists (fun _ => False). apply selects_none. }
  destruct (parse _) as [ps|]; [|discriminate].
  destruct (negb _); [discriminate|]. destruct (changed_by_path [] ps) as [tbl|]; [|discriminate].
  injection H as <-. eexists. apply filter_selects. intros x _. apply iff_refl.
Qed.

Lemma c05_repeated : forall parse ms d ps p1 p2 a b c path,
  parse (fixed_diff d) = Some ps -> ps = a ++ p1 :: b ++ p2 :: c ->
  relative path -> patch_is_for p1 path -> patch_is_for p2 path ->
  (exists c, In c (fixed_diff d) /\ is_whitespace c = false) ->
  forall sel, diff_filter parse ms d <> DiffOk sel.
Proof.
  intros parse ms d ps p1 p2 a b c path Hp Eps Hr H1 H2 (ch & Hc & Hw) sel H. unfold diff_filter in H.
  destruct (forallb is_whitespace (fixed_diff d)) eqn:Ef.
  { rewrite forallb_forall in Ef. specialize (Ef ch Hc). congruence. }
  rewrite Hp in H. destruct (negb _); [discriminate|].
  destruct (changed_by_path [] ps) as [tbl|] eqn:Et; [|discriminate].
  destruct (changed_table _ _ _ Et (NoDup_nil _)) as [E Hn]. simpl in E.
  assert (D1 : is_devnull p1 = false) by (eapply devnull_abs; [exact Hr|exact H1]).
  assert (D2 : is_devnull p2 = false) by (eapply devnull_abs; [exact Hr|exact H2]).
  apply strip_iff in H1. apply strip_iff in H2.
  rewrite E, map_map, Eps, filter_app in Hn. cbn [filter] in Hn. rewrite D1 in Hn. cbn [negb] in Hn.
  rewrite filter_app in Hn. cbn [filter] in Hn. rewrite D2 in Hn. cbn [negb] in Hn.
  rewrite map_app in Hn. cbn [map] in Hn. apply NoDup_remove_2 in Hn. apply Hn.
  apply in_app_iff. right. rewrite map_app. apply in_app_iff. right. left. cbn. congruence.
Qed.

(** * What the parser is given, and which diffs are accepted *)

Lemma join_end : forall l, join [NL] (l ++ [[]]) = flat_map (fun x => x ++ [NL]) l.
Proof.
  induction l as [|x l IH]; [reflexivity|]. cbn [app flat_map]. rewrite join_cons by (destruct l; discriminate).
  rewrite IH, app_assoc. reflexivity.
Qed.

Lemma parser_input : forall d, parser_text d (fixed_diff d).
Proof.
  intros d. eexists. split; [|unfold fixed_diff; apply join_end].
  apply filter_selects. intros x _. rewrite negb_true_iff, <- starts_with_iff.
  destruct (starts_with (tx "Binary files ") x); split; intuition congruence.
Qed.

Lemma visible_not_blank : forall c, (33 <= c <= 126)%N -> is_whitespace c = false.
Proof.
  intros c [H1 H2]. unfold is_whitespace.
  rewrite !orb_false_iff, !andb_false_iff, !N.eqb_neq, !N.leb_gt. lia.
Qed.

Lemma strip_target : forall p, target p (strip_patch_path (p_new p)).
Proof.
  intros p. unfold target, strip_patch_path. destruct (components (p_new p)) as [|[| | |b] r] eqn:E;
    try (right; split; [reflexivity|intros; discriminate]).
  destruct (text_eqb b (tx "b")) eqn:Eb.
  - apply text_eqb_eq in Eb. subst. left. reflexivity.
  - right. split; [reflexivity|]. intros r' H. injection H as -> _. rewrite text_eqb_refl in Eb. discriminate.
Qed.

Lemma deletes_devnull : forall p, deletes p -> is_devnull p = true.
Proof.
  intros p H. unfold deletes in H. unfold is_devnull, strip_patch_path. rewrite H. reflexivity.
Qed.

Lemma table_built : forall ps pre acc, one_patch_each (pre ++ ps) ->
  acc = map entry (filter (fun p => negb (is_devnull p)) pre) ->
  exists tbl, changed_by_path acc ps = Some tbl.
Proof.
  induction ps as [|p ps IH]; intros pre acc H E; cbn [changed_by_path]; [eauto|].
  assert (H' : one_patch_each ((pre ++ [p]) ++ ps)) by (rewrite <- app_assoc; exact H).
  destruct (comps_eqb (strip_patch_path (p_new p)) (components (tx "/dev/null"))) eqn:Ed.
  { apply (IH (pre ++ [p])); [exact H'|]. rewrite filter_app, map_app. cbn [filter].
    unfold is_devnull at 2. rewrite Ed. cbn [negb map]. rewrite app_nil_r. exact E. }
  destruct (existsb _ acc) eqn:Ex.
  { exfalso. apply existsb_exists in Ex. destruct Ex as (x & Hx & Hc). apply comps_eqb_eq in Hc.
    rewrite E in Hx. apply in_map_iff in Hx. destruct Hx as (p1 & <- & Hp1). apply filter_In in Hp1.
    destruct Hp1 as [Hp1 Hd]. apply in_split in Hp1. destruct Hp1 as (a & b & ->).
    assert (D : deletes p1).
    { apply (H a p1 b p ps (strip_patch_path (p_new p))); [rewrite <- app_assoc; reflexivity| |apply strip_target].
      cbn [entry fst] in Hc. rewrite <- Hc. apply strip_target. }
    apply deletes_devnull in D. rewrite D in Hd. discriminate. }
  apply (IH (pre ++ [p])); [exact H'|]. rewrite filter_app, map_app. cbn [filter].
  unfold is_devnull at 2. rewrite Ed. cbn [negb map]. rewrite <- E. reflexivity.
Qed.

Lemma c05_accepted : forall parse ms d ps,
  parse (fixed_diff d) = Some ps -> same_code ms -> one_patch_each ps ->
  (forall p m n t, In p ps -> In m ms -> patch_is_for p (sf_path (mu_file m)) -> quotes p n t ->
    line_is (sf_code (mu_file m)) n t) ->
  exists sel, diff_filter parse ms d = DiffOk sel.
Proof.
  intros parse ms d ps Hp Hs Ho H. unfold diff_filter.
  destruct (forallb _ _); [eauto|]. rewrite Hp.
  assert (E : check_diff_new_text_matches ps ms = true).
  { apply check_iff; [exact Hs|]. intros. left. eapply H; eassumption. }
  rewrite E. cbn [negb]. destruct (table_built ps [] [] Ho eq_refl) as [tbl ->]. eauto.
Qed.

Lemma c05_unreadable : forall parse ms d, (exists c, In c (fixed_diff d) /\ is_whitespace c = false) ->
  parse (fixed_diff d) = None -> diff_filter parse ms d = DiffParseError.
Proof.
  intros parse ms d (c & Hc & Hw) Hp. unfold diff_filter.
  destruct (forallb is_whitespace (fixed_diff d)) eqn:Ef.
  { rewrite forallb_forall in Ef. specialize (Ef c Hc). congruence. }
  rewrite Hp. reflexivity.
Qed.

Lemma white_space_iff : forall c, is_whitespace c = true <-> In c white_space.
Proof.
  intro c. unfold is_whitespace. rewrite !orb_true_iff, !andb_true_iff, !N.leb_le, !N.eqb_eq. unfold white_space. cbn [In]. lia.
Qed.

Lemma c05_refused : forall parse ms d, same_code ms ->
  match diff_filter parse ms d with
  | DiffOk _ => True
  | DiffParseError => parse (fixed_diff d) = None
  | DiffMismatch => exists ps, parse (fixed_diff d) = Some ps
      /\ ~ forall p m n t, In p ps -> In m ms -> patch_is_for p (sf_path (mu_file m)) -> quotes p n t -> line_is (sf_code (mu_file m)) n t
  | DiffRepeated => exists ps, parse (fixed_diff d) = Some ps /\ ~ one_patch_each ps
  end.
Proof.
  intros parse ms d Hs. unfold diff_filter. destruct (forallb _ _); [exact I|].
  destruct (parse (fixed_diff d)) as [ps|] eqn:Hp; [|reflexivity].
  destruct (check_diff_new_text_matches ps ms) eqn:E; cbn [negb].
  - destruct (changed_by_path [] ps) eqn:T; [exact I|]. exists ps. split; [reflexivity|]. intro Ho.
    destruct (table_built ps [] [] Ho eq_refl) as [tbl K]. congruence.
  - exists ps. split; [reflexivity|]. intro H. enough (check_diff_new_text_matches ps ms = true) by congruence.
    apply check_iff; [exact Hs|]. intros. left. eapply H; eassumption.
Qed.
