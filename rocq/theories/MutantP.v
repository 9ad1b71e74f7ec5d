From Coq Require Import String List NArith Bool Arith Lia.
From Verif Require Import Text SpanM PathM PathS PathP MutantM.
Import ListNotations.

(** First occurrence of a separator splits uniquely. *)
Lemma split_first : forall (c : chr) (a a' b b' : text), ~ In c a -> ~ In c a' ->
  a ++ c :: b = a' ++ c :: b' -> a = a' /\ b = b'.
Proof.
  intros c. induction a as [|x a IH]; intros [|x' a'] b b' Ha Ha' E; simpl in E.
  - now inversion E.
  - inversion E; subst. exfalso. apply Ha'. now left.
  - inversion E; subst. exfalso. apply Ha. now left.
  - inversion E; subst. destruct (IH a' b b') as [-> ->]; auto.
    + intro H. apply Ha. now right.
    + intro H. apply Ha'. now right.
Qed.

Lemma show_nat_no : forall n c, is_digit c = false -> ~ In c (show_nat n).
Proof. intros n c H. apply is_digit_not; auto. apply show_N_digits. Qed.

Lemma name_inj : forall m1 m2 n,
  ~ In COLON (tree_relative_slashes (mu_file m1)) ->
  ~ In COLON (tree_relative_slashes (mu_file m2)) ->
  mutant_name true m1 = Some n -> mutant_name true m2 = Some n ->
  tree_relative_slashes (mu_file m1) = tree_relative_slashes (mu_file m2)
  /\ sp_start (mu_span m1) = sp_start (mu_span m2)
  /\ describe_change m1 = describe_change m2.
Proof.
  intros m1 m2 n C1 C2 H1 H2. unfold mutant_name in *.
  destruct (describe_change m1) as [d1|]; [|discriminate].
  destruct (describe_change m2) as [d2|]; [|discriminate].
  rewrite <- H1 in H2. injection H2 as E. clear H1.
  cbn [app] in E. symmetry in E. rewrite <- ?app_assoc in E. cbn [app] in E.
  apply split_first in E; auto. destruct E as [E1 E].
  rewrite <- ?app_assoc in E. cbn [app] in E.
  apply split_first in E; try (apply show_nat_no; reflexivity). destruct E as [E2 E].
  rewrite <- ?app_assoc in E. cbn [app] in E.
  apply split_first in E; try (apply show_nat_no; reflexivity). destruct E as [E3 E].
  apply show_nat_inj in E2, E3. inversion E; subst.
  destruct (sp_start (mu_span m1)), (sp_start (mu_span m2)); simpl in *; subst. auto.
Qed.

Lemma some_inj : forall (A : Type) (x y : A), Some x = Some y -> x = y.
Proof. intros A x y H. now inversion H. Qed.

(** What the description determines. *)
Lemma describe_inj : forall m1 m2,
  mu_genre m1 = mu_genre m2 -> mu_fn m1 = mu_fn m2 -> original_text m1 = original_text m2 ->
  mu_genre m1 <> MatchArm ->
  describe_change m1 <> None ->
  describe_change m1 = describe_change m2 -> mu_replacement m1 = mu_replacement m2.
Proof.
  intros m1 m2 Hg Hf Ho Hn Hd E. unfold describe_change in *. rewrite <- Hg, <- Hf, <- Ho in E.
  destruct (mu_genre m1).
  - destruct (mu_fn m1) as [f|]; [|congruence]. apply some_inj in E.
    repeat apply app_inv_head in E. exact E.
  - destruct (mu_replacement m1) as [|c1 r1], (mu_replacement m2) as [|c2 r2]; auto.
    + exfalso. apply some_inj in E; discriminate.
    + exfalso. apply some_inj in E; discriminate.
    + apply some_inj in E. repeat apply app_inv_head in E. apply app_inv_tail in E. now apply app_inv_head in E.
  - destruct (mu_replacement m1) as [|c1 r1], (mu_replacement m2) as [|c2 r2]; auto.
    + exfalso. apply some_inj in E; discriminate.
    + exfalso. apply some_inj in E; discriminate.
    + apply some_inj in E. repeat apply app_inv_head in E. apply app_inv_tail in E. now apply app_inv_head in E.
  - congruence.
  - apply some_inj in E. repeat apply app_inv_head in E. exact E.
Qed.

(** Slash paths determine the components. *)
Definition shown (c : comp) : text := match c with Root => [] | _ => comp_str c end.

Definition nice (c : comp) : Prop :=
  match c with Normal t => good_name t /\ t <> [BSLASH] | _ => True end.

Lemma to_slash_shown : forall p, Forall nice (components p) ->
  to_slash_path p = join [SLASH] (map shown (components p)).
Proof.
  intros p H. unfold to_slash_path. f_equal. induction H as [|c cs Hc H IH]; [reflexivity|].
  cbn [map filter]. destruct c as [| | |t]; try (simpl; now rewrite IH).
  simpl in Hc. destruct Hc as [[H1 [H2 [H3 H4]]] H5]. cbn [comp_str].
  replace (text_eqb t []) with false by (symmetry; now apply text_eqb_neq).
  cbn [negb map]. rewrite IH. f_equal. cbn [shown comp_str].
  replace (text_eqb t [SLASH]) with false.
  2: { symmetry. apply text_eqb_neq. intros ->. apply H4. now left. }
  replace (text_eqb t [BSLASH]) with false by (symmetry; now apply text_eqb_neq). reflexivity.
Qed.

Lemma components_head : forall p c cs, components p = c :: cs -> Forall (fun x => x <> Root /\ x <> Cur) cs.
Proof.
  intros p c cs E. destruct (components_shape p) as [h [t [E' [H [_ T]]]]].
  assert (A : Forall (fun x => x <> Root /\ x <> Cur) t).
  { apply Forall_forall. intros x Hx. destruct (T x Hx) as [->|[u [-> _]]]; split; discriminate. }
  rewrite E' in E. destruct H as [->|[->| ->]]; simpl in E; subst.
  - now inversion A.
  - inversion E; now subst.
  - inversion E; now subst.
Qed.

Lemma shown_no_slash : forall c, nice c -> ~ In SLASH (shown c).
Proof.
  intros [| | |t] H; simpl; try (intros [E|[]]; discriminate); auto.
  - intros [E|[E|[]]]; discriminate.
  - destruct H as [[_ [_ [_ H]]] _]. exact H.
Qed.

Lemma shown_inj : forall c d, nice c -> nice d -> shown c = shown d -> c = d.
Proof.
  intros [| | |t] [| | |u]; simpl; intros Hc Hd E; try discriminate; auto.
  - destruct Hd as [[H _] _]. congruence.
  - destruct Hd as [[_ [H _]] _]. congruence.
  - destruct Hd as [[_ [_ [H _]]] _]. congruence.
  - destruct Hc as [[H _] _]. congruence.
  - destruct Hc as [[_ [H _]] _]. congruence.
  - destruct Hc as [[_ [_ [H _]]] _]. congruence.
  - now subst.
Qed.

Lemma map_shown_inj : forall a b, Forall nice a -> Forall nice b -> map shown a = map shown b -> a = b.
Proof.
  induction a as [|c a IH]; intros [|d b] Ha Hb E; simpl in E; try discriminate; auto.
  inversion E. inversion Ha; inversion Hb; subst. f_equal; auto. now apply shown_inj.
Qed.

Lemma slash_path_inj : forall p q,
  Forall nice (components p) -> Forall nice (components q) ->
  relative p -> relative q ->
  to_slash_path p = to_slash_path q -> components p = components q.
Proof.
  intros p q Hp Hq Rp Rq E. rewrite !to_slash_shown in E by auto.
  assert (Ne : forall p, relative p -> Forall nice (components p) ->
            forall c, In c (components p) -> shown c <> []).
  { intros r Rr Hr c Hc. pose proof (relative_plain r Rr) as P. rewrite Forall_forall in P.
    destruct (P c Hc) as [->|[->|[u [-> [H _]]]]]; try discriminate. exact H. }
  assert (S : forall r, Forall nice (components r) -> forall w, In w (map shown (components r)) -> ~ In SLASH w).
  { intros r Hr w Hw. apply in_map_iff in Hw. destruct Hw as [c [<- Hc]]. apply shown_no_slash.
    rewrite Forall_forall in Hr. auto. }
  assert (D : forall r, relative r -> Forall nice (components r) ->
     components r = [] \/ (map shown (components r) <> []
        /\ join [SLASH] (map shown (components r)) <> []
        /\ split_on SLASH (join [SLASH] (map shown (components r))) = map shown (components r))).
  { intros r Rr Hr. destruct (components r) as [|c cs] eqn:Ec; auto. right.
    assert (X : map shown (c :: cs) <> []) by discriminate.
    split; auto.
    split.
    - assert (Hsc : shown c <> []) by (apply (Ne r); [exact Rr|rewrite Ec; exact Hr|rewrite Ec; now left]).
      simpl. destruct (map shown cs); auto.
      intro Z. apply app_eq_nil in Z. tauto.
    - apply split_on_join; auto. intros w Hw. apply (S r); rewrite Ec; assumption. }
  destruct (D p Rp Hp) as [Ep|[Np [Jp Sp]]], (D q Rq Hq) as [Eq|[Nq [Jq Sq]]].
  - congruence.
  - rewrite Ep in E. simpl in E. congruence.
  - rewrite Eq in E. simpl in E. congruence.
  - rewrite E in Sp. rewrite Sp in Sq. now apply map_shown_inj.
Qed.

Lemma c45 : forall m1 m2 n,
  relative (sf_path (mu_file m1)) -> relative (sf_path (mu_file m2)) ->
  Forall nice (components (sf_path (mu_file m1))) ->
  Forall nice (components (sf_path (mu_file m2))) ->
  ~ In COLON (tree_relative_slashes (mu_file m1)) ->
  ~ In COLON (tree_relative_slashes (mu_file m2)) ->
  mutant_name true m1 = Some n -> mutant_name true m2 = Some n ->
  components (sf_path (mu_file m1)) = components (sf_path (mu_file m2))
  /\ sp_start (mu_span m1) = sp_start (mu_span m2)
  /\ describe_change m1 = describe_change m2.
Proof.
  intros m1 m2 n R1 R2 N1 N2 C1 C2 H1 H2.
  destruct (name_inj _ _ _ C1 C2 H1 H2) as [E [A B]]. split; auto.
  now apply slash_path_inj.
Qed.
