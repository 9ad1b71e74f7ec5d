(** Stable insertion sort, deduplication and text order, used for [sort], [sorted],
    [sorted_by_key], [dedup] and [unique] of Rust and itertools. *)
From Coq Require Import List NArith Bool Lia Permutation Sorted.
Import ListNotations.
From Verif Require Import Text.

Section Sort.
Context {A : Type}.
Variable le : A -> A -> bool.

Fixpoint insert (x : A) (l : list A) : list A :=
  match l with
  | [] => [x]
  | y :: l' => if le x y then x :: l else y :: insert x l'
  end.

(** A stable sort ([slice::sort], [Itertools::sorted], [sorted_by_key]). *)
Fixpoint isort (l : list A) : list A :=
  match l with [] => [] | x :: l' => insert x (isort l') end.

Lemma insert_perm : forall x l, Permutation (x :: l) (insert x l).
Proof.
  induction l as [|y l IH]; cbn; [auto|]. destruct (le x y); [auto|].
  rewrite perm_swap. now rewrite IH.
Qed.

Lemma isort_perm : forall l, Permutation l (isort l).
Proof. induction l as [|x l IH]; cbn; [auto|]. rewrite IH at 1. apply insert_perm. Qed.

Lemma isort_in : forall x l, In x (isort l) <-> In x l.
Proof.
  intros. split; apply Permutation_in; [apply Permutation_sym|]; apply isort_perm.
Qed.

Hypothesis le_trans : forall a b c, le a b = true -> le b c = true -> le a c = true.
Hypothesis le_total : forall a b, le a b = false -> le b a = true.

Lemma insert_sorted : forall x l, StronglySorted (fun a b => le a b = true) l ->
  StronglySorted (fun a b => le a b = true) (insert x l).
Proof.
  induction l as [|y l IH]; cbn; intros H; [repeat constructor|].
  inversion H as [|? ? H1 H2]; subst. destruct (le x y) eqn:E.
  - constructor; [exact H|]. constructor; [exact E|].
    apply Forall_forall. intros z Hz. rewrite Forall_forall in H2. eauto.
  - constructor; [auto|]. apply Forall_forall. intros z Hz.
    apply (Permutation_in z (Permutation_sym (insert_perm x l))) in Hz. destruct Hz as [<-|Hz]; [auto|].
    rewrite Forall_forall in H2. auto.
Qed.

Lemma isort_sorted : forall l, StronglySorted (fun a b => le a b = true) (isort l).
Proof. induction l; cbn; [constructor|now apply insert_sorted]. Qed.

End Sort.

Section Dedup.
Context {A : Type}.
Variable eqb : A -> A -> bool.

(** [Vec::dedup]: drop elements equal to the one kept just before. *)
Fixpoint dedup_from (x : A) (l : list A) : list A :=
  match l with
  | [] => []
  | y :: l' => if eqb x y then dedup_from x l' else y :: dedup_from y l'
  end.
Definition dedup (l : list A) : list A := match l with [] => [] | x :: l' => x :: dedup_from x l' end.

(** [Itertools::unique]: keep first occurrences. *)
Fixpoint unique_from (seen : list A) (l : list A) : list A :=
  match l with
  | [] => []
  | x :: l' => if existsb (eqb x) seen then unique_from seen l' else x :: unique_from (x :: seen) l'
  end.
Definition unique (l : list A) : list A := unique_from [] l.

Lemma dedup_in : forall x l, In x (dedup l) -> In x l.
Proof.
  assert (H : forall l y x, In x (dedup_from y l) -> In x l).
  { induction l as [|z l IH]; cbn; intros y x; [auto|]. destruct (eqb y z); cbn; intros K; [eauto|].
    destruct K as [K|K]; eauto. }
  intros x [|y l]; cbn; [auto|]. intros [K|K]; eauto.
Qed.

Hypothesis eqb_refl : forall x, eqb x x = true.
Hypothesis eqb_sym : forall x y, eqb x y = true -> eqb y x = true.
Hypothesis eqb_trans : forall x y z, eqb x y = true -> eqb y z = true -> eqb x z = true.

Lemma dedup_keeps : forall x l, In x l -> exists y, In y (dedup l) /\ eqb y x = true.
Proof.
  assert (H : forall l y x, In x (y :: l) -> exists z, In z (y :: dedup_from y l) /\ eqb z x = true).
  { induction l as [|z l IH]; cbn; intros y x H.
    - destruct H as [<-|[]]. exists y. auto.
    - destruct (eqb y z) eqn:E.
      + destruct H as [<-|[<-|H]]; [exists y; auto|exists y; auto|]. apply IH. now right.
      + destruct H as [<-|[<-|H]]; [exists y; auto|exists z; cbn; auto|].
        destruct (IH z x (or_intror H)) as [w [W1 W2]]. exists w. split; [|auto]. cbn in *. tauto. }
  intros x [|y l]; [intros []|]. apply H.
Qed.

Lemma unique_from_in : forall l seen x, In x (unique_from seen l) -> In x l.
Proof.
  induction l as [|y l IH]; cbn; intros seen x; [auto|]. destruct (existsb (eqb y) seen); cbn; [eauto|].
  intros [K|K]; eauto.
Qed.

Lemma unique_in : forall x l, In x (unique l) -> In x l.
Proof. intros x l. apply unique_from_in. Qed.

Lemma unique_from_keeps : forall l seen x, In x l -> exists y, (In y seen \/ In y (unique_from seen l)) /\ eqb x y = true.
Proof.
  induction l as [|z l IH]; intros seen x [].
  - subst z. cbn. destruct (existsb (eqb x) seen) eqn:E.
    + apply existsb_exists in E. destruct E as [y [Y1 Y2]]. exists y. auto.
    + exists x. cbn. auto.
  - cbn. destruct (existsb (eqb z) seen) eqn:E; [auto|].
    destruct (IH (z :: seen) x H) as [y [[[Y|Y]|Y] E2]]; exists y; cbn; auto.
Qed.

Lemma unique_keeps : forall x l, In x l -> exists y, In y (unique l) /\ eqb x y = true.
Proof. intros x l H. destruct (unique_from_keeps l [] x H) as [y [[[]|K] E]]. eauto. Qed.

(** No two elements kept are equal. *)
Lemma unique_from_distinct : forall l seen,
  (forall x y, In x (unique_from seen l) -> In y seen -> eqb x y = false)
  /\ StronglySorted (fun a b => eqb b a = false) (unique_from seen l).
Proof.
  induction l as [|z l IH]; intros seen; cbn; [split; [intros x y []|constructor]|].
  destruct (existsb (eqb z) seen) eqn:E; [apply IH|].
  destruct (IH (z :: seen)) as [H1 H2]. split.
  - intros x y [<-|K] Y; [|apply H1; cbn; auto].
    destruct (eqb z y) eqn:F; [|auto]. rewrite <- E. symmetry. apply existsb_exists. eauto.
  - constructor; [exact H2|]. apply Forall_forall. intros w W. apply H1; cbn; auto.
Qed.

Lemma unique_distinct : forall l, StronglySorted (fun a b => eqb b a = false) (unique l).
Proof. intros l. apply unique_from_distinct. Qed.

Lemma unique_NoDup : forall l, NoDup (unique l).
Proof.
  intros l. generalize (unique_distinct l). induction 1 as [|x m S IH F]; constructor; [|exact IH].
  intros K. rewrite Forall_forall in F. specialize (F x K). rewrite eqb_refl in F. discriminate.
Qed.

Variable le : A -> A -> bool.
Hypothesis le_trans : forall a b c, le a b = true -> le b c = true -> le a c = true.
Hypothesis le_antisym : forall a b, le a b = true -> le b a = true -> eqb a b = true.
Hypothesis le_refl : forall a b, eqb a b = true -> le a b = true.

Lemma dedup_from_in : forall l y x, In x (dedup_from y l) -> In x l.
Proof.
  induction l as [|z l IH]; cbn; intros y x; [auto|]. destruct (eqb y z); cbn; intros K; [eauto|].
  destruct K as [K|K]; eauto.
Qed.

(** A deduplicated sorted list has no two equal elements. *)
Lemma dedup_strict : forall l, StronglySorted (fun a b => le a b = true) l ->
  StronglySorted (fun a b => le a b = true /\ eqb a b = false) (dedup l).
Proof.
  assert (H : forall l y, StronglySorted (fun a b => le a b = true) (y :: l) ->
     StronglySorted (fun a b => le a b = true /\ eqb a b = false) (y :: dedup_from y l)).
  { induction l as [|z l IH]; intros y S; [repeat constructor|].
    inversion S as [|? ? S1 S2]; subst. inversion S2 as [|? ? S3 S4]; subst.
    inversion S1 as [|? ? S5 S6]; subst. cbn. destruct (eqb y z) eqn:E.
    - apply IH. constructor; auto.
    - specialize (IH z S1). constructor; [exact IH|]. constructor; [auto|].
      apply Forall_forall. intros w W. apply dedup_from_in in W.
      rewrite Forall_forall in S4, S6. split; [auto|].
      destruct (eqb y w) eqn:F; [|reflexivity]. exfalso.
      assert (le z y = true) as G.
      { eapply le_trans; [exact (S6 w W)|]. apply le_refl. now apply eqb_sym. }
      rewrite (le_antisym y z S3 G) in E. discriminate. }
  intros [|y l] S; cbn; [constructor|]. now apply H.
Qed.
End Dedup.

(** [Ord for str]: UTF-8 keeps the order of code points. *)
Fixpoint text_leb (a b : text) : bool :=
  match a, b with
  | [], _ => true
  | _ :: _, [] => false
  | x :: a', y :: b' => if N.ltb x y then true else if N.eqb x y then text_leb a' b' else false
  end.

Lemma text_leb_trans : forall a b c, text_leb a b = true -> text_leb b c = true -> text_leb a c = true.
Proof.
  induction a as [|x a IH]; intros [|y b] [|z c]; cbn; auto; try discriminate.
  destruct (N.ltb_spec x y), (N.ltb_spec y z), (N.ltb_spec x z), (N.eqb_spec x y), (N.eqb_spec y z), (N.eqb_spec x z);
    subst; try lia; try discriminate; auto. apply IH.
Qed.

Lemma text_leb_total : forall a b, text_leb a b = false -> text_leb b a = true.
Proof.
  induction a as [|x a IH]; intros [|y b]; cbn; auto; try discriminate.
  destruct (N.ltb_spec x y), (N.ltb_spec y x), (N.eqb_spec x y), (N.eqb_spec y x);
    subst; try lia; try discriminate; auto.
Qed.

Lemma text_leb_antisym : forall a b, text_leb a b = true -> text_leb b a = true -> a = b.
Proof.
  induction a as [|x a IH]; intros [|y b]; cbn; auto; try discriminate.
  destruct (N.ltb_spec x y), (N.ltb_spec y x), (N.eqb_spec x y), (N.eqb_spec y x);
    subst; try lia; try discriminate. intros H1 H2. f_equal. auto.
Qed.

Lemma text_leb_refl : forall a, text_leb a a = true.
Proof. induction a as [|x a IH]; cbn; auto. rewrite N.ltb_irrefl, N.eqb_refl. exact IH. Qed.
