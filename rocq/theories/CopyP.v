(** Proofs about copying a tree. *)
From Coq Require Import String List NArith Bool Arith Lia.
Import ListNotations.
From Verif Require Import Text CopyM CopyS.

Section EntryInd.
Variable P : entry -> Prop.
Hypothesis Hf : forall m b, P (EFile m b).
Hypothesis Hd : forall cs, (forall n c, In (n, c) cs -> P c) -> P (EDir cs).
Hypothesis Hl : forall t, P (ELink t).
Hypothesis Hs : P ESpecial.
Fixpoint entry_all (e : entry) : P e :=
  match e return P e with
  | EFile m b => Hf m b
  | ELink t => Hl t
  | ESpecial => Hs
  | EDir cs => Hd cs ((fix go (l : list (text * entry)) : forall n c, In (n, c) l -> P c :=
      match l return forall n c, In (n, c) l -> P c with
      | [] => fun n c F => match F with end
      | x :: l' => fun n c I => match I with
                                | or_introl E => eq_ind (snd x) P (entry_all (snd x)) c (f_equal snd E)
                                | or_intror J => go l' n c J
                                end
      end) cs)
  end.
End EntryInd.

Lemma path_eqb_eq : forall p q, path_eqb p q = true <-> p = q.
Proof. intros p q. unfold path_eqb. destruct (list_eq_dec (list_eq_dec N.eq_dec) p q); split; intro H; auto; try discriminate; contradiction. Qed.
Lemma put_same : forall d p s, put d p s p = Some s.
Proof. intros d p s. unfold put. replace (path_eqb p p) with true; [reflexivity|]. symmetry. apply path_eqb_eq. reflexivity. Qed.
Lemma put_other : forall d p s q, q <> p -> put d p s q = d q.
Proof. intros d p s q H. unfold put. destruct (path_eqb q p) eqn:E; [|reflexivity]. apply path_eqb_eq in E. contradiction. Qed.

Section Copy.
Variable copy_vcs gitignore : bool.
Variable ignored : list text -> bool -> bool.
Variable utf8 : text -> bool.
Variable readable : list text -> bool.
Notation skips := (skips copy_vcs gitignore ignored).
Notation walk := (walk copy_vcs gitignore ignored readable).
Notation copy_one := (copy_one utf8 readable).
Notation copy_all := (copy_all utf8 readable).

Definition go_walk (p : list text) : list (text * entry) -> list (list text * shape * bool) :=
  fix go l := match l with [] => [] | (n, c) :: l' => (if skips p n c then [] else walk (p ++ [n]) c) ++ go l' end.
Lemma walk_dir : forall p cs, walk p (EDir cs) = (p, SDir, readable p) :: go_walk p cs.
Proof. reflexivity. Qed.

Inductive route : list text -> entry -> list text -> entry -> Prop :=
| rt_here p e : route p e [] e
| rt_below p cs n c r x : In (n, c) cs -> skips p n c = false -> route (p ++ [n]) c r x -> route p (EDir cs) (n :: r) x.

Definition good (p : list text) (e : entry) : Prop :=
  forall r c, route p e r c -> forallb utf8 (p ++ r) = true /\ (c = ESpecial \/ readable (p ++ r) = true).
Definition sub (p : list text) (e : entry) (d : fs) : Prop :=
  (forall r c, route p e r c -> c <> ESpecial -> d (p ++ r) = Some (shape_of c))
  /\ (forall r, (forall c, route p e r c -> c = ESpecial) -> d (p ++ r) = None).

Lemma copy_all_app : forall a b d, copy_all d (a ++ b) = match copy_all d a with Some d' => copy_all d' b | None => None end.
Proof. induction a as [|x a IH]; intros b d; cbn [app CopyM.copy_all]; [reflexivity|]. destruct (copy_one d x); auto. Qed.

Lemma create_new : forall rest above d,
  (forall a b, rest = a ++ b -> b <> [] -> d (above ++ a) = Some SDir) -> d (above ++ rest) = None ->
  create_dirs d above rest = Some (put d (above ++ rest) SDir).
Proof.
  induction rest as [|n rest IH]; intros above d H N1.
  - rewrite app_nil_r in *. cbn [create_dirs]. rewrite N1. reflexivity.
  - cbn [create_dirs]. assert (E : d above = Some SDir). { rewrite <- (app_nil_r above). apply (H [] (n :: rest)); [reflexivity|discriminate]. }
    rewrite E. rewrite IH.
    + rewrite <- app_assoc. reflexivity.
    + intros a b E2 B. rewrite <- app_assoc. apply (H (n :: a) b); [cbn [app]; congruence|exact B].
    + rewrite <- app_assoc. exact N1.
Qed.

Lemma skips_app_ne : forall (p : list text) n1 n2 r1 r2, p ++ n1 :: r1 = p ++ n2 :: r2 -> n1 = n2 /\ r1 = r2.
Proof. intros p n1 n2 r1 r2 E. apply app_inv_head in E. injection E as -> ->. auto. Qed.

Lemma route_unskipped : forall cs p n c r x, NoDup (map fst cs) -> In (n, c) cs -> route p (EDir cs) (n :: r) x ->
  skips p n c = false /\ route (p ++ [n]) c r x.
Proof.
  intros cs p n c r x ND I R. inversion R as [|p' cs' n' c' r' x' I' S R']; subst.
  assert (c' = c).
  { clear -ND I I'. induction cs as [|[m d] cs IH]; [contradiction|]. cbn [map fst] in ND. inversion ND as [|y l N1 N2]; subst.
    destruct I as [E|I]; destruct I' as [E'|I'].
    - congruence.
    - injection E as -> ->. exfalso. apply N1. apply in_map_iff. exists (n, c'). auto.
    - injection E' as -> ->. exfalso. apply N1. apply in_map_iff. exists (n, c). auto.
    - auto. }
  subst c'. auto.
Qed.

(** Copying what the walk gives from [e] at [p]. *)
Definition pre (p : list text) (d : fs) : Prop :=
  d [] = Some SDir /\ (forall a b, p = a ++ b -> b <> [] -> d a = Some SDir) /\ (forall r, p ++ r <> [] -> d (p ++ r) = None).
Definition outcome_ok (p : list text) (e : entry) (d : fs) : Prop :=
  (exists d', copy_all d (walk p e) = Some d' /\ good p e /\ sub p e d' /\ forall q, (forall r, q <> p ++ r) -> d' q = d q)
  \/ (copy_all d (walk p e) = None /\ ~ good p e).

Lemma leaf_routes : forall p e r x, is_dir e = false -> route p e r x -> r = [] /\ x = e.
Proof. intros p e r x D R. inversion R; subst; [auto|discriminate]. Qed.

Lemma snoc_ne : forall (p : list text) (x : text) r, p ++ x :: r <> p.
Proof. intros p x r E. apply (f_equal (@length text)) in E. rewrite app_length in E. cbn in E. lia. Qed.

Lemma copy_leaf : forall p e d, is_dir e = false -> p <> [] -> pre p d -> outcome_ok p e d.
Proof.
  intros p e d D NE [R0 [R1 R2]].
  assert (W : walk p e = [(p, shape_of e, true)]) by (destruct e; try reflexivity; discriminate).
  assert (Dp : d p = None) by (rewrite <- (app_nil_r p); apply R2; rewrite app_nil_r; exact NE).
  assert (PD : parent_is_dir d p = true).
  { unfold parent_is_dir. destruct p as [|x p']; [congruence|].
    rewrite (R1 (removelast (x :: p')) [last (x :: p') []]); [reflexivity|apply app_removelast_last; exact NE|discriminate]. }
  assert (G : good p e <-> forallb utf8 p = true /\ (e = ESpecial \/ readable p = true)).
  { split.
    - intro G. specialize (G [] e (rt_here p e)). rewrite app_nil_r in G. exact G.
    - intros G r c R. apply leaf_routes in R; [|exact D]. destruct R as [-> ->]. rewrite app_nil_r. exact G. }
  assert (Sub : forall d', (forall r, p ++ r <> p -> d' (p ++ r) = d (p ++ r)) ->
    (e = ESpecial /\ d' p = None \/ e <> ESpecial /\ d' p = Some (shape_of e)) -> sub p e d').
  { intros d' O V. split.
    - intros r c R N1. apply leaf_routes in R; [|exact D]. destruct R as [-> ->]. rewrite app_nil_r. destruct V as [[V _]|[_ V]]; [contradiction|exact V].
    - intros r H. destruct r as [|x r].
      + rewrite app_nil_r. destruct V as [[_ V]|[V _]]; [exact V|]. exfalso. apply V. apply H. constructor.
      + rewrite O by apply snoc_ne. apply R2. intro E. apply app_eq_nil in E. destruct E; discriminate. }
  unfold outcome_ok. rewrite W. cbn [CopyM.copy_all]. unfold CopyM.copy_one. cbn [negb].
  destruct (forallb utf8 p) eqn:U; cbn [negb].
  2: { right. split; [reflexivity|]. intro H. apply G in H. destruct H; discriminate. }
  destruct e as [m b|cs|t|]; try discriminate; cbn [shape_of].
  - destruct (readable p) eqn:Rd; cbn [andb].
    + rewrite PD, Dp. left. eexists. split; [reflexivity|]. split; [apply G; auto|]. split.
      * apply Sub; [intros r N1; apply put_other; exact N1|right; split; [discriminate|apply put_same]].
      * intros q H. apply put_other. intro E. apply (H []). rewrite app_nil_r. exact E.
    + right. split; [reflexivity|]. intro H. apply G in H. destruct H as [_ [H|H]]; discriminate.
  - destruct (readable p) eqn:Rd; cbn [andb].
    + rewrite PD, Dp. left. eexists. split; [reflexivity|]. split; [apply G; auto|]. split.
      * apply Sub; [intros r N1; apply put_other; exact N1|right; split; [discriminate|apply put_same]].
      * intros q H. apply put_other. intro E. apply (H []). rewrite app_nil_r. exact E.
    + right. split; [reflexivity|]. intro H. apply G in H. destruct H as [_ [H|H]]; discriminate.
  - left. eexists. split; [reflexivity|]. split; [apply G; auto|]. split; [|auto]. apply Sub; auto.
Qed.

Definition children_good p (cs : list (text * entry)) : Prop :=
  forall n c, In (n, c) cs -> skips p n c = false -> good (p ++ [n]) c.

Lemma copy_children : forall p cs, (forall n c, In (n, c) cs -> forall d, pre (p ++ [n]) d -> outcome_ok (p ++ [n]) c d) ->
  NoDup (map fst cs) -> forall d, (forall a b, p = a ++ b -> d a = Some SDir) -> (forall n c r, In (n, c) cs -> d (p ++ n :: r) = None) ->
  (exists d', copy_all d (go_walk p cs) = Some d' /\ children_good p cs
     /\ (forall n c, In (n, c) cs -> skips p n c = false -> sub (p ++ [n]) c d')
     /\ (forall n c r, In (n, c) cs -> skips p n c = true -> d' (p ++ n :: r) = None)
     /\ (forall q, (forall n c r, In (n, c) cs -> q <> p ++ n :: r) -> d' q = d q))
  \/ (copy_all d (go_walk p cs) = None /\ ~ children_good p cs).
Proof.
  intros p cs. induction cs as [|[n c] cs IH]; intros IHc ND d Up Free.
  - left. exists d. split; [reflexivity|]. split; [intros n c []|]. split; [intros n c []|]. split; [intros n c r []|auto].
  - cbn [map fst] in ND. inversion ND as [|y l N1 N2]; subst.
    assert (IHt : forall d, (forall a b, p = a ++ b -> d a = Some SDir) -> (forall n c r, In (n, c) cs -> d (p ++ n :: r) = None) -> _)
      by (apply IH; [intros n0 c0 I0; apply IHc; right; exact I0|exact N2]). clear IH.
    assert (Diff : forall n0 c0, In (n0, c0) cs -> n0 <> n).
    { intros n0 c0 I ->. apply N1. apply in_map_iff. exists (n, c0). auto. }
    change (go_walk p ((n, c) :: cs)) with ((if skips p n c then [] else walk (p ++ [n]) c) ++ go_walk p cs).
    rewrite copy_all_app. destruct (skips p n c) eqn:S.
    + cbn [CopyM.copy_all]. destruct (IHt d Up) as [[d' [E [G [Sb [Sk O]]]]]|[E G]].
      { intros n0 c0 r I. apply (Free n0 c0). right. exact I. }
      * left. exists d'. split; [exact E|]. split; [|split; [|split]].
        -- intros n0 c0 [I|I] Sk0; [injection I as <- <-; congruence|eapply G; eauto].
        -- intros n0 c0 [I|I] Sk0; [injection I as <- <-; congruence|eapply Sb; eauto].
        -- intros n0 c0 r [I|I] Sk0; [injection I as <- <-|eapply Sk; eauto].
           rewrite O; [apply (Free n c); left; reflexivity|]. intros n1 c1 r1 I1 E1. apply skips_app_ne in E1. destruct E1 as [-> _]. eapply Diff; eauto.
        -- intros q H. apply O. intros n0 c0 r I. eapply H. right. exact I.
      * right. split; [exact E|]. intro H. apply G. intros n0 c0 I Sk0. apply (H n0 c0); [right; exact I|exact Sk0].
    + assert (Pre : pre (p ++ [n]) d).
      { split; [apply (Up [] p); reflexivity|]. split.
        - intros a b E B. destruct (exists_last B) as [b' [y E']]. subst b. rewrite app_assoc in E. apply app_inj_tail in E. destruct E as [-> _]. eapply Up. reflexivity.
        - intros r _. rewrite <- app_assoc. apply (Free n c). left. reflexivity. }
      destruct (IHc n c (or_introl eq_refl) d Pre) as [[d1 [E1 [G1 [S1 O1]]]]|[E1 G1]]; rewrite E1.
      2: { right. split; [reflexivity|]. intro H. apply G1. apply (H n c); [left; reflexivity|exact S]. }
      destruct (IHt d1) as [[d' [E [G [Sb [Sk O]]]]]|[E G]].
      { intros a b E. rewrite O1; [eapply Up; exact E|]. intros r E2. subst a. rewrite <- !app_assoc in E.
        cbn [app] in E. symmetry in E. apply snoc_ne in E. exact E. }
      { intros n0 c0 r I. rewrite O1; [eapply Free; right; exact I|]. intros r2 E2. rewrite <- app_assoc in E2.
        apply skips_app_ne in E2. destruct E2 as [-> _]. eapply Diff; eauto. }
      * left. exists d'. split; [exact E|]. split; [|split; [|split]].
        -- intros n0 c0 [I|I] Sk0; [injection I as <- <-; exact G1|eapply G; eauto].
        -- intros n0 c0 [I|I] Sk0; [injection I as <- <-|eapply Sb; eauto].
           assert (Same : forall r, d' ((p ++ [n]) ++ r) = d1 ((p ++ [n]) ++ r)).
           { intro r. apply O. intros n1 c1 r1 I1 E2. rewrite <- app_assoc in E2. apply skips_app_ne in E2. destruct E2 as [<- _]. eapply Diff; eauto. }
           destruct S1 as [S1 S2]. split.
           ++ intros r x R X. rewrite Same. auto.
           ++ intros r X. rewrite Same. auto.
        -- intros n0 c0 r [I|I] Sk0; [injection I as <- <-; congruence|eapply Sk; eauto].
        -- intros q H. rewrite O; [apply O1|].
           ++ intros r E2. rewrite <- app_assoc in E2. apply (H n c r (or_introl eq_refl) E2).
           ++ intros n0 c0 r I. eapply H. right. exact I.
      * right. split; [exact E|]. intro H. apply G. intros n0 c0 I Sk0. apply (H n0 c0); [right; exact I|exact Sk0].
Qed.

Lemma copy_entry : forall e, well_formed e -> forall p d, (p <> [] \/ is_dir e = true) -> pre p d -> outcome_ok p e d.
Proof.
  induction e as [m b|cs IH|t|] using entry_all; intros WF p d NE Pre.
  1,3,4: apply copy_leaf; auto; destruct NE as [NE|NE]; [exact NE|discriminate].
  inversion WF as [cs' ND WFc| | |]; subst. destruct Pre as [R0 [R1 R2]].
  unfold outcome_ok. rewrite walk_dir. cbn [CopyM.copy_all]. unfold CopyM.copy_one.
  assert (Here : good p (EDir cs) -> forallb utf8 p = true /\ readable p = true).
  { intro G. destruct (G [] _ (rt_here p _)) as [A [B|B]]; [discriminate|]. rewrite app_nil_r in *. auto. }
  destruct (readable p) eqn:Rd; cbn [negb].
  2: { right. split; [reflexivity|]. intro G. apply Here in G. destruct G; discriminate. }
  destruct (forallb utf8 p) eqn:U; cbn [negb].
  2: { right. split; [reflexivity|]. intro G. apply Here in G. destruct G; discriminate. }
  assert (C : exists d1, create_dirs d [] p = Some d1 /\ d1 p = Some SDir /\ forall q, q <> p -> d1 q = d q).
  { destruct p as [|x p'].
    - exists d. cbn [create_dirs]. rewrite R0. auto.
    - exists (put d (x :: p') SDir). split; [|split; [apply put_same|intros q H; apply put_other; exact H]].
      apply (create_new (x :: p') [] d); [exact R1|]. cbn [app]. rewrite <- (app_nil_r (x :: p')). apply R2. discriminate. }
  destruct C as [d1 [-> [Dp Do]]].
  assert (Free : forall n c r, In (n, c) cs -> d1 (p ++ n :: r) = None).
  { intros n c r I. rewrite Do by apply snoc_ne. apply R2. intro E. apply app_eq_nil in E. destruct E; discriminate. }
  assert (Up : forall a b, p = a ++ b -> d1 a = Some SDir).
  { intros a b E. destruct b as [|y b].
    - rewrite app_nil_r in E. subst a. exact Dp.
    - rewrite Do; [eapply R1; [exact E|discriminate]|]. intros ->. symmetry in E. apply snoc_ne in E. exact E. }
  assert (IHc : forall n c, In (n, c) cs -> forall d0, pre (p ++ [n]) d0 -> outcome_ok (p ++ [n]) c d0).
  { intros n c I d0 P0. apply (IH n c I); [eapply WFc; exact I| |exact P0]. left. intro E. apply app_eq_nil in E. destruct E; discriminate. }
  destruct (copy_children p cs IHc ND d1 Up Free) as [[d' [E [G [Sb [Sk O]]]]]|[E G]].
  - left. exists d'. split; [exact E|].
    assert (GG : good p (EDir cs)).
    { intros r c R. inversion R as [|p0 cs0 n c0 r0 x I S R']; subst.
      - rewrite app_nil_r. auto.
      - specialize (G n c0 I S r0 c R'). rewrite <- app_assoc in G. exact G. }
    split; [exact GG|]. split.
    + split.
      * intros r c R N1. inversion R as [|p0 cs0 n c0 r0 x I S R']; subst.
        -- rewrite app_nil_r. rewrite O; [exact Dp|]. intros n c r I E2. symmetry in E2. apply snoc_ne in E2. exact E2.
        -- destruct (Sb n c0 I S) as [S1 _]. specialize (S1 r0 c R' N1). rewrite <- app_assoc in S1. exact S1.
      * intros r H. destruct r as [|n r].
        -- specialize (H _ (rt_here p _)). discriminate.
        -- destruct (in_dec (list_eq_dec N.eq_dec) n (map fst cs)) as [I|I].
           ++ apply in_map_iff in I. destruct I as [[n' c] [E2 I]]. cbn [fst] in E2. subst n'.
              destruct (skips p n c) eqn:S; [eapply Sk; eauto|].
              destruct (Sb n c I S) as [_ S2]. specialize (S2 r). rewrite <- app_assoc in S2. apply S2.
              intros x R. apply H. eapply rt_below; eauto.
           ++ rewrite O; [rewrite Do by apply snoc_ne|].
              ** apply R2. intro E2. apply app_eq_nil in E2. destruct E2; discriminate.
              ** intros n0 c0 r0 I0 E2. apply skips_app_ne in E2. destruct E2 as [<- _]. apply I. apply in_map_iff. exists (n, c0). auto.
    + intros q H. rewrite O; [apply Do|].
      * intros ->. apply (H []). rewrite app_nil_r. reflexivity.
      * intros n c r I. apply H.
  - right. split; [exact E|]. intro GG. apply G. intros n c I S r x R. rewrite <- app_assoc. apply GG. eapply rt_below; eauto.
Qed.

(** Routes and the specification. *)
Lemma skips_iff : forall p n e, skips p n e = true <->
  n = tx "mutants.out" \/ n = tx "mutants.out.old" \/ (copy_vcs = false /\ vcs_name n)
  \/ (gitignore = true /\ ignored (p ++ [n]) (match e with EDir _ => true | _ => false end) = true).
Proof.
  intros p n e. unfold CopyM.skips, name_kept. rewrite orb_true_iff, negb_true_iff, !andb_false_iff, !negb_false_iff, !text_eqb_eq, orb_false_iff, negb_false_iff, andb_true_iff.
  assert (V : mem n vcs_dirs = true <-> vcs_name n).
  { unfold mem, vcs_name, vcs_dirs. rewrite existsb_exists. split.
    - intros [x [I E]]. apply text_eqb_eq in E. subst x. exact I.
    - intro I. exists n. split; [exact I|apply text_eqb_eq; reflexivity]. }
  rewrite V. unfold is_dir. tauto.
Qed.

Lemma at_fun : forall p e x y, well_formed e -> at_path e p x -> at_path e p y -> x = y.
Proof.
  intros p e x y WF A. revert y WF. induction A as [e|cs n c p s I A IH]; intros y WF B; inversion B as [|cs' n' c' p' s' I' B']; subst; [reflexivity|].
  inversion WF as [cs' ND WFc| | |]; subst. apply IH; [eapply WFc; exact I|].
  assert (c' = c); [|subst; exact B'].
  clear -ND I I'. induction cs as [|[m d] cs IH]; [contradiction|]. cbn [map fst] in ND. inversion ND as [|y l N1 N2]; subst.
  destruct I as [E|I]; destruct I' as [E'|I'].
  - congruence.
  - injection E as -> ->. exfalso. apply N1. apply in_map_iff. exists (n, c'). auto.
  - injection E' as -> ->. exfalso. apply N1. apply in_map_iff. exists (n, c). auto.
  - auto.
Qed.

Lemma at_split : forall a b e x, at_path e (a ++ b) x -> exists m, at_path e a m /\ at_path m b x.
Proof.
  induction a as [|n a IH]; intros b e x A; [exists e; split; [constructor|exact A]|].
  cbn [app] in A. inversion A as [|cs n' c p s I A']; subst. destruct (IH _ _ _ A') as [m [B C]]. exists m. split; [econstructor; eauto|exact C].
Qed.
Lemma at_join : forall a e m b x, at_path e a m -> at_path m b x -> at_path e (a ++ b) x.
Proof. intros a e m b x A B. induction A as [|cs n c p s I A IH]; cbn [app]; [exact B|]. econstructor; eauto. Qed.

Lemma route_at : forall p e r x, route p e r x -> at_path e r x.
Proof. intros p e r x R. induction R; [constructor|econstructor; eauto]. Qed.

Lemma route_iff : forall top, well_formed top -> forall r x, route [] top r x <-> at_path top r x /\ ~ left_out copy_vcs gitignore ignored top r.
Proof.
  intros top WF.
  assert (F : forall p e r x, route p e r x -> at_path top p e -> forall above n below y,
    p ++ r = above ++ n :: below -> (length p <= length above)%nat -> at_path top (above ++ [n]) y -> skips above n y = false).
  { intros p e r x R. induction R as [p e|p cs n c r x I S R IH]; intros At above m below y E L Ay.
    - rewrite app_nil_r in E. apply (f_equal (@length text)) in E. rewrite app_length in E. cbn in E. lia.
    - destruct (Nat.eq_dec (length above) (length p)) as [El|El].
      + assert (above = p /\ m = n) as [-> ->].
        { clear -E El. revert above El E. induction p as [|z p IH]; intros [|w above] El E; cbn in *; try lia; injection E; intros; subst; auto.
          destruct (IH above) as [-> ->]; auto. }
        assert (An : at_path top (p ++ [n]) c). { eapply at_join; [exact At|]. econstructor; [exact I|constructor]. }
        rewrite (at_fun _ _ _ _ WF Ay An). exact S.
      + eapply (IH) with (below := below).
        * eapply at_join; [exact At|]. econstructor; [exact I|constructor].
        * rewrite <- app_assoc. exact E.
        * rewrite app_length. cbn. lia.
        * exact Ay. }
  assert (B : forall r p e x, at_path top p e -> at_path e r x ->
    (forall above n below y, p ++ r = above ++ n :: below -> (length p <= length above)%nat -> at_path top (above ++ [n]) y -> skips above n y = false) ->
    route p e r x).
  { induction r as [|n r IH]; intros p e x At A H; inversion A as [|cs n' c p' s I A']; subst; [constructor|].
    assert (An : at_path top (p ++ [n]) c). { eapply at_join; [exact At|]. econstructor; [exact I|constructor]. }
    eapply rt_below; [exact I| |].
    - eapply H; [reflexivity|lia|exact An].
    - apply IH; [exact An|exact A'|]. intros above m below y E L Ay. rewrite <- app_assoc in E. cbn [app] in E. eapply H; [exact E| |exact Ay].
      rewrite app_length in L. cbn in L. lia. }
  intros r x. split.
  - intro R. split; [eapply route_at; exact R|]. intros [above [n [below [y [E [Ay Sk]]]]]]. apply skips_iff in Sk.
    rewrite (F [] top r x R (at_here top) above n below y E (Nat.le_0_l _) Ay) in Sk. discriminate.
  - intros [A NL]. apply B; [constructor|exact A|]. intros above n below y E _ Ay. destruct (skips above n y) eqn:S; [|reflexivity].
    exfalso. apply NL. exists above, n, below, y. split; [exact E|]. split; [exact Ay|]. apply skips_iff. exact S.
Qed.

Lemma copied : forall cs, well_formed (EDir cs) ->
  (forall d, copy_tree copy_vcs gitignore ignored utf8 readable (EDir cs) = Some d ->
     forall p s, d p = Some s <-> exists e, at_path (EDir cs) p e /\ ~ left_out copy_vcs gitignore ignored (EDir cs) p /\ e <> ESpecial /\ s = shape_of e)
  /\ (copy_tree copy_vcs gitignore ignored utf8 readable (EDir cs) <> None <->
      forall p e, at_path (EDir cs) p e -> ~ left_out copy_vcs gitignore ignored (EDir cs) p ->
        (forall n, In n p -> utf8 n = true) /\ (e = ESpecial \/ readable p = true)).
Proof.
  intros cs WF.
  assert (Pre : pre [] empty_dir).
  { split; [reflexivity|]. split.
    - intros a b E B. destruct a; [reflexivity|discriminate].
    - intros r H. destruct r; [exfalso; apply H; reflexivity|reflexivity]. }
  assert (GI : good [] (EDir cs) <-> forall p e, at_path (EDir cs) p e -> ~ left_out copy_vcs gitignore ignored (EDir cs) p ->
        (forall n, In n p -> utf8 n = true) /\ (e = ESpecial \/ readable p = true)).
  { unfold good. split.
    - intros G p e A NL. destruct (G p e) as [U R]; [apply route_iff; auto|]. split; [apply forallb_forall; exact U|exact R].
    - intros G r c R. apply route_iff in R; [|exact WF]. destruct R as [A NL]. destruct (G r c A NL) as [U R]. split; [apply forallb_forall; exact U|exact R]. }
  unfold copy_tree. destruct (copy_entry (EDir cs) WF [] empty_dir (or_intror eq_refl) Pre) as [[d' [E [G [[S1 S2] O]]]]|[E G]]; rewrite E.
  - split; [|split; [intros _; apply GI; exact G|intros _; discriminate]].
    intros d H p s. injection H as <-. split.
    + intro D.
      assert (Dec : (exists e, route [] (EDir cs) p e /\ e <> ESpecial) \/ forall e, route [] (EDir cs) p e -> e = ESpecial).
      { assert (Find : forall p e q, well_formed e -> (exists x, route q e p x) \/ ~ exists x, route q e p x).
        { clear. induction p as [|n p IH]; intros e q WF; [left; exists e; constructor|].
          destruct e as [m b|cs|t|]; try (right; intros [x R]; inversion R; fail).
          inversion WF as [cs' ND WFc| | |]; subst.
          destruct (in_dec (list_eq_dec N.eq_dec) n (map fst cs)) as [I|I].
          - apply in_map_iff in I. destruct I as [[n' c] [E2 I]]. cbn [fst] in E2. subst n'.
            destruct (skips q n c) eqn:S.
            + right. intros [x R]. apply (route_unskipped cs q n c) in R; auto. destruct R as [R _]. congruence.
            + destruct (IH c (q ++ [n])) as [[x R]|N1]; [eapply WFc; exact I|left; exists x; eapply rt_below; eauto|].
              right. intros [x R]. apply N1. exists x. apply (route_unskipped cs q n c) in R; auto. apply R.
          - right. intros [x R]. inversion R; subst. apply I. apply in_map_iff. exists (n, c). auto. }
        destruct (Find p (EDir cs) [] WF) as [[x R]|N1].
        - destruct x; try (left; eexists; split; [exact R|discriminate]).
          right. intros e Re. apply route_at in R, Re. eapply at_fun; eauto.
        - right. intros e Re. exfalso. apply N1. eauto. }
      destruct Dec as [[e [R N1]]|N1].
      * exists e. pose proof R as R'. apply route_iff in R'; [|exact WF]. destruct R' as [A NL].
        split; [exact A|]. split; [exact NL|]. split; [exact N1|]. specialize (S1 p e R N1). cbn [app] in S1. congruence.
      * specialize (S2 p N1). cbn [app] in S2. congruence.
    + intros [e [A [NL [N1 ->]]]]. apply (S1 p e); [apply route_iff; auto|exact N1].
  - split; [intros d H; discriminate|]. split; [intro H; contradiction|]. intro H. exfalso. apply G. apply GI. exact H.
Qed.
End Copy.
