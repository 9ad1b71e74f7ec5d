From Coq Require Import String List NArith Bool Arith Lia Permutation.
From Verif Require Import Text ShardM ShardS.
Import ListNotations.

Lemma select_nth : forall A (l : list A) k n i d,
  (0 < n)%N -> (k < n)%N -> (d < n)%N -> ((i + d) mod n = k)%N ->
  forall j, nth_error (select_from k n i l) j = nth_error l (N.to_nat (d + N.of_nat j * n)).
Proof.
  induction l as [|x l IH]; intros k n i d Hn Hk Hd Hm j.
  - simpl. destruct j; destruct (N.to_nat _); reflexivity.
  - cbn [select_from]. destruct (N.eqb_spec (i mod n) k) as [E|E].
    + assert (Ed : d = 0%N).
      { pose proof (N.mod_lt i n ltac:(lia)) as Hlt.
        rewrite <- E in Hm. rewrite N.add_mod in Hm by lia.
        rewrite (N.mod_small d n) in Hm by lia.
        destruct (N.lt_ge_cases (i mod n + d) n) as [Hs|Hs].
        - rewrite N.mod_small in Hm by lia. lia.
        - exfalso.
          assert (Hq : ((i mod n + d) mod n = i mod n + d - n)%N).
          { replace (i mod n + d)%N with ((i mod n + d - n) + 1 * n)%N at 1 by lia.
            rewrite N.mod_add by lia. apply N.mod_small. lia. }
          lia. }
      subst d. destruct j as [|j].
      * reflexivity.
      * cbn [nth_error].
        rewrite (IH k n (i + 1)%N (n - 1)%N); try lia.
        -- replace (N.to_nat (0 + N.of_nat (S j) * n))
             with (S (N.to_nat (n - 1 + N.of_nat j * n))) by nia.
           reflexivity.
        -- replace (i + 1 + (n - 1))%N with (i + 1 * n)%N by lia.
           now rewrite N.mod_add by lia.
    + assert (Hd0 : (d <> 0)%N).
      { intro; subst d. rewrite N.add_0_r in Hm. contradiction. }
      rewrite (IH k n (i + 1)%N (d - 1)%N); try lia.
      * replace (N.to_nat (d + N.of_nat j * n))
          with (S (N.to_nat (d - 1 + N.of_nat j * n))) by lia.
        reflexivity.
      * replace (i + 1 + (d - 1))%N with (i + d)%N by lia. exact Hm.
Qed.

Lemma shard_nth : forall A (l : list A) k n, (k < n)%N ->
  forall j, nth_error (select_from k n 0 l) j = nth_error l (N.to_nat (k + N.of_nat j * n)).
Proof.
  intros A l k n Hk j. apply select_nth; try lia.
  rewrite N.add_0_l. apply N.mod_small. lia.
Qed.

(** All shards 0..n-1. *)
Definition ks (n : N) : list N := map N.of_nat (seq 0 (N.to_nat n)).

Lemma flat_map_single : forall A (x : A) (m : N) l,
  NoDup l -> In m l -> flat_map (fun k => if (m =? k)%N then [x] else []) l = [x].
Proof.
  intros A x m l Hnd Hin. induction l as [|k l IH]; [destruct Hin|].
  inversion Hnd; subst. simpl. destruct (N.eqb_spec m k) as [->|E].
  - assert (Z : flat_map (fun k0 => if (k =? k0)%N then [x] else []) l = []).
    { clear - H1. induction l as [|a l IH]; auto. simpl.
      destruct (N.eqb_spec k a) as [->|]. exfalso; apply H1; now left.
      simpl. apply IH. intro; apply H1; now right. }
    rewrite Z. reflexivity.
  - simpl. apply IH; auto. destruct Hin as [->|]; auto. congruence.
Qed.

Lemma flat_map_app_perm : forall A B (f g : A -> list B) l,
  Permutation (flat_map (fun k => f k ++ g k) l) (flat_map f l ++ flat_map g l).
Proof.
  intros A B f g l. induction l as [|a l IH]; simpl; auto.
  rewrite <- !app_assoc. apply Permutation_app_head.
  rewrite IH. rewrite !app_assoc. apply Permutation_app_tail, Permutation_app_comm.
Qed.

Lemma ks_nodup : forall n, NoDup (ks n).
Proof.
  intro n. unfold ks. apply FinFun.Injective_map_NoDup; [|apply seq_NoDup].
  intros a b H. lia.
Qed.

Lemma in_ks : forall n k, In k (ks n) <-> (k < n)%N.
Proof.
  intros n k. unfold ks. rewrite in_map_iff. split.
  - intros [x [<- H]]. apply in_seq in H. lia.
  - intro H. exists (N.to_nat k). rewrite in_seq. lia.
Qed.

Lemma shards_perm : forall A (l : list A) n i, (0 < n)%N ->
  Permutation (flat_map (fun k => select_from k n i l) (ks n)) l.
Proof.
  intros A l n. induction l as [|x l IH]; intros i Hn.
  - simpl. induction (ks n); simpl; auto.
  - assert (E : flat_map (fun k => select_from k n i (x :: l)) (ks n)
              = flat_map (fun k => (if (i mod n =? k)%N then [x] else []) ++ select_from k n (i + 1) l) (ks n)).
    { apply flat_map_ext. intro k. cbn [select_from]. now destruct (i mod n =? k)%N. }
    rewrite E, flat_map_app_perm, flat_map_single.
    + simpl. constructor. now apply IH.
    + apply ks_nodup.
    + apply in_ks. apply N.mod_lt. lia.
Qed.

Lemma nth_error_length : forall A (l : list A) j, j < length l <-> nth_error l j <> None.
Proof. intros. now rewrite nth_error_Some. Qed.

Lemma shard_length_le : forall A (l : list A) k1 k2 n, (k1 < n)%N -> (k2 < n)%N ->
  length (select_from k1 n 0 l) <= length (select_from k2 n 0 l) + 1.
Proof.
  intros A l k1 k2 n H1 H2.
  destruct (Nat.le_gt_cases (length (select_from k1 n 0 l)) (length (select_from k2 n 0 l) + 1)) as [H|H]; auto.
  exfalso.
  set (j := length (select_from k2 n 0 l)) in *.
  assert (Ha : nth_error (select_from k1 n 0 l) (S j) <> None) by (apply nth_error_length; lia).
  rewrite shard_nth in Ha by auto. apply nth_error_length in Ha.
  assert (Hb : nth_error (select_from k2 n 0 l) j = None) by (apply nth_error_None; lia).
  rewrite shard_nth in Hb by auto. apply nth_error_None in Hb. nia.
Qed.

(** ** Parsing *)

Lemma place_value_snoc_horner : forall s a,
  fold_left (fun x c => (x * 10 + digit_val c)%N) s a
  = (place_value (rev s) + 10 ^ N.of_nat (length s) * a)%N.
Proof.
  assert (App : forall r1 r2, place_value (r1 ++ r2)
     = (place_value r1 + 10 ^ N.of_nat (length r1) * place_value r2)%N).
  { induction r1 as [|c r1 IH]; intro r2; cbn [app place_value length].
    - change (N.of_nat 0) with 0%N. rewrite N.pow_0_r. lia.
    - rewrite IH. rewrite Nat2N.inj_succ, N.pow_succ_r'. lia. }
  induction s as [|c s IH]; intro a; cbn [fold_left rev length].
  - change (N.of_nat 0) with 0%N. rewrite N.pow_0_r. simpl place_value. lia.
  - rewrite IH, App. cbn [place_value]. rewrite rev_length.
    rewrite Nat2N.inj_succ, N.pow_succ_r'. unfold digit_val. nia.
Qed.

Lemma fold_parse_none : forall s, fold_left parse_step s None = None.
Proof. induction s; simpl; auto. Qed.

Lemma fold_horner_ge : forall s a, (a <= fold_left (fun x c => (x * 10 + digit_val c)%N) s a)%N.
Proof.
  induction s as [|c s IH]; intro a; cbn [fold_left]; [lia|].
  eapply N.le_trans; [|apply IH]. lia.
Qed.

Lemma fold_parse : forall s a n, (a <= usize_max)%N ->
  (fold_left parse_step s (Some a) = Some n <->
   (forallb is_digit s = true /\
    fold_left (fun x c => (x * 10 + digit_val c)%N) s a = n /\ (n <= usize_max)%N)).
Proof.
  induction s as [|c s IH]; intros a n Ha.
  - cbn [fold_left forallb]. split.
    + intro H. inversion H; subst. auto.
    + intros [_ [-> _]]. reflexivity.
  - cbn [fold_left forallb]. unfold parse_step at 2.
    destruct (is_digit c).
    + destruct (N.leb_spec (a * 10 + digit_val c) usize_max) as [Hle|Hgt].
      * rewrite IH by auto. simpl. tauto.
      * rewrite fold_parse_none. split; [discriminate|].
        intros [_ [H1 H2]]. exfalso.
        pose proof (fold_horner_ge s (a * 10 + digit_val c)). lia.
    + rewrite fold_parse_none. split; [discriminate|]. intros [H _]. discriminate.
Qed.

Lemma is_digit_iff : forall c, is_digit c = true <-> (48 <= c <= 57)%N.
Proof. intro c. unfold is_digit. rewrite andb_true_iff, !N.leb_le. tauto. Qed.

Lemma digits_ok : forall ds n, ds <> [] ->
  (fold_left parse_step ds (Some 0%N) = Some n <->
   ((forall c, In c ds -> (48 <= c <= 57)%N) /\ place_value (rev ds) = n /\ (n < 2 ^ 64)%N)).
Proof.
  intros ds n _. rewrite fold_parse by (unfold usize_max; lia).
  rewrite place_value_snoc_horner, N.mul_0_r, N.add_0_r, forallb_forall.
  assert (E : (n <= usize_max)%N <-> (n < 2 ^ 64)%N) by (unfold usize_max; lia).
  rewrite E. split; intros [H1 H2]; split; auto; intros c Hc; apply is_digit_iff; auto.
Qed.

Lemma parse_usize_iff : forall s n, parse_usize s = Some n <-> denotes s n.
Proof.
  intros s n. unfold parse_usize, denotes. destruct s as [|c s].
  - split; [discriminate|]. intros [ds [[<-|E] [H _]]]; [congruence|discriminate].
  - destruct (N.eqb_spec c 43) as [->|Hc].
    + destruct s as [|d s].
      * split; [discriminate|]. intros [ds [[<-|E] [H1 [H2 _]]]].
        -- specialize (H2 43%N (or_introl eq_refl)). lia.
        -- inversion E; subst. congruence.
      * rewrite digits_ok by discriminate. split.
        -- intro H. exists (d :: s). split; [now right|]. split; [discriminate|exact H].
        -- intros [ds [[<-|E] [H1 [H2 H3]]]].
           ++ specialize (H2 43%N (or_introl eq_refl)). lia.
           ++ inversion E; subst. auto.
    + rewrite digits_ok by discriminate. split.
      * intro H. exists (c :: s). split; [now left|]. split; [discriminate|exact H].
      * intros [ds [[<-|E] [H1 [H2 H3]]]]; auto. inversion E; congruence.
Qed.

Lemma shard_from_str_iff : forall s k n, shard_from_str s = Some (mkShard k n) <->
  (exists a b, s = a ++ SLASH :: b /\ ~ In SLASH a /\ denotes a k /\ denotes b n /\ (k < n)%N).
Proof.
  intros s k n. unfold shard_from_str.
  destruct (split_once SLASH s) as [[a b]|] eqn:E.
  - pose proof (proj1 (split_once_some _ _ _ _) E) as [E1 E2]. split.
    + destruct (parse_usize a) as [k'|] eqn:Ea; [|discriminate].
      destruct (parse_usize b) as [n'|] eqn:Eb; [|discriminate].
      destruct (N.ltb_spec k' n'); [|discriminate]. intro H0. inversion H0; subst.
      exists a, b. rewrite <- !parse_usize_iff. auto.
    + intros [a' [b' [F1 [F2 [F3 [F4 F5]]]]]].
      assert (F : split_once SLASH s = Some (a', b')) by (apply split_once_some; auto).
      rewrite E in F. inversion F; subst a' b'.
      apply parse_usize_iff in F3, F4. rewrite F3, F4.
      destruct (N.ltb_spec k n); auto. lia.
  - split; [discriminate|]. intros [a [b [F1 [F2 _]]]].
    apply split_once_none in E. exfalso. apply E. rewrite F1.
    apply in_or_app. right. now left.
Qed.

Lemma select_total : forall A s sh (l : list A), shard_from_str s = Some sh ->
  exists r, shard_select sh l = Some r.
Proof.
  intros A s [k n] l H. apply shard_from_str_iff in H.
  destruct H as [a [b [_ [_ [_ [_ H]]]]]]. unfold shard_select. simpl.
  destruct (N.eqb_spec n 0) as [->|E]; [lia|]. eauto.
Qed.

Lemma c03 : forall A (l : list A) n, (0 < n)%N ->
  (exists f : N -> list A,
    (forall k, (k < n)%N -> shard_select (mkShard k n) l = Some (f k))
    /\ Permutation (flat_map f (map N.of_nat (seq 0 (N.to_nat n)))) l
    /\ (forall k j, (k < n)%N -> nth_error (f k) j = nth_error l (N.to_nat (k + N.of_nat j * n)))
    /\ (forall k1 k2, (k1 < n)%N -> (k2 < n)%N -> length (f k1) <= length (f k2) + 1)).
Proof.
  intros A l n Hn. exists (fun k => select_from k n 0 l).
  split; [|split; [|split]].
  - intros k Hk. unfold shard_select. simpl. destruct (N.eqb_spec n 0); [lia|reflexivity].
  - now apply shards_perm.
  - intros k j Hk. now apply shard_nth.
  - intros. now apply shard_length_le.
Qed.
