From Coq Require Import String List NArith Bool Lia Permutation Sorted.
Import ListNotations.
From Verif Require Import Text Sort PathM PathS PathP OptionsM PackageM PackageS.

(** ** Paths *)

Definition inner (c : comp) : Prop := c = Parent \/ exists u, c = Normal u /\ good_name u.

Lemma inner_str : forall c, inner c -> comp_str c <> [] /\ ~ In SLASH (comp_str c) /\ comp_str c <> [DOT] /\ piece (comp_str c) = [c].
Proof.
  intros c [->|[u [-> [G1 [G2 [G3 G4]]]]]].
  - repeat split; try discriminate. intros [H|[H|[]]]; discriminate H.
  - cbn [comp_str]. repeat split; auto. unfold piece.
    apply text_eqb_neq in G1, G2, G3. now rewrite G1, G2, G3.
Qed.

Lemma pieces_inner : forall cs, Forall inner cs -> flat_map piece (map comp_str cs) = cs.
Proof.
  induction 1 as [|c cs H F IH]; [reflexivity|]. cbn [map flat_map].
  rewrite (proj2 (proj2 (proj2 (inner_str c H)))), IH. reflexivity.
Qed.

Lemma components_comps_path : forall cs, Forall inner cs -> components (comps_path cs) = cs.
Proof.
  intros [|c cs] F; [reflexivity|]. inversion F as [|? ? H F']; subst.
  assert (comps_path (c :: cs) = join [SLASH] (map comp_str (c :: cs))) as ->.
  { destruct H as [->|[u [-> _]]]; reflexivity. }
  destruct (inner_str c H) as [N [S [D P]]].
  assert (split_on SLASH (join [SLASH] (map comp_str (c :: cs))) = map comp_str (c :: cs)) as E.
  { apply split_on_join; [discriminate|]. intros w Hw. apply in_map_iff in Hw. destruct Hw as [d [<- Hd]].
    rewrite Forall_forall in F. exact (proj1 (proj2 (inner_str d (F d Hd)))). }
  destruct (join [SLASH] (map comp_str (c :: cs))) as [|x s] eqn:J.
  { exfalso. cbn [map] in E. cbn in E. injection E as E _. now apply N. }
  assert (N.eqb x SLASH = false) as X.
  { destruct (N.eqb_spec x SLASH) as [->|]; [|reflexivity]. exfalso. cbn [map] in E.
    cbn [split_on] in E. rewrite N.eqb_refl in E. injection E as E _. now apply N. }
  rewrite (components_rel_eq x s X), E. cbn [map]. apply text_eqb_neq in D. rewrite D, P.
  now rewrite (pieces_inner cs F').
Qed.

Lemma strip_comps_iff : forall cs pre r, strip_comps cs pre = Some r <-> cs = pre ++ r.
Proof.
  intros cs pre. revert cs. induction pre as [|p pre IH]; intros cs r.
  - assert (strip_comps cs [] = Some cs) as -> by (now destruct cs). split; [now intros [= ->]|now intros ->].
  - destruct cs as [|c cs]; [split; [discriminate|discriminate]|]. cbn.
    destruct (comp_eqb c p) eqn:E.
    + apply comp_eqb_eq in E. subst p. rewrite IH. split; [now intros ->|now intros [= ->]].
    + split; [discriminate|]. intros [= -> ->]. rewrite (proj2 (comp_eqb_eq p p) eq_refl) in E. discriminate.
Qed.

(** What remains of a path below an absolute one. *)
Lemma suffix_inner : forall root path r, is_absolute root = true -> components path = components root ++ r -> Forall inner r.
Proof.
  intros root path r A E.
  destruct (components_shape root) as [h [t [Er [_ [Hr _]]]]]. apply Hr in A. subst h.
  destruct (components_shape path) as [h' [t' [Ep [Hh [_ Ht]]]]].
  rewrite Er, Ep in E. destruct Hh as [->|[->| ->]]; cbn [app] in E.
  - subst t'. exfalso. destruct (Ht Root (or_introl eq_refl)) as [K|[u [K _]]]; discriminate K.
  - injection E as ->. apply Forall_forall. intros c Hc. apply Ht. apply in_or_app. now right.
  - discriminate E.
Qed.

Lemma strip_some : forall root path r, is_absolute root = true -> components path = components root ++ r ->
  strip_prefix path root = Some (comps_path r) /\ components (comps_path r) = r.
Proof.
  intros root path r A E. split.
  - unfold strip_prefix. rewrite (proj2 (strip_comps_iff _ _ r) E). reflexivity.
  - apply components_comps_path. eapply suffix_inner; eauto.
Qed.

Lemma strip_none : forall root path, strip_prefix path root = None -> forall r, components path <> components root ++ r.
Proof.
  intros root path H r E. unfold strip_prefix in H. rewrite (proj2 (strip_comps_iff _ _ r) E) in H. discriminate.
Qed.

Lemma strip_some_inv : forall root path rel, is_absolute root = true -> strip_prefix path root = Some rel ->
  components path = components root ++ components rel /\ rel = comps_path (components rel).
Proof.
  intros root path rel A H. unfold strip_prefix in H.
  destruct (strip_comps (components path) (components root)) as [r|] eqn:E; [|discriminate].
  injection H as <-. apply strip_comps_iff in E. rewrite (proj2 (strip_some root path r A E)). auto.
Qed.

Lemma parent_some : forall r c, Forall inner (r ++ [c]) -> path_parent (comps_path (r ++ [c])) = Some (comps_path r)
  /\ components (comps_path r) = r.
Proof.
  intros r c F. assert (Forall inner r) as Fr by (apply Forall_app in F; tauto).
  split; [|now apply components_comps_path].
  unfold path_parent. rewrite components_comps_path by exact F. rewrite rev_app_distr. cbn [rev app].
  rewrite rev_involutive. apply Forall_app in F. destruct F as [_ F]. inversion F as [|? ? H _]; subst.
  destruct H as [->|[u [-> _]]]; reflexivity.
Qed.

(** ** Order on paths *)

Lemma comp_leb_trans : forall a b c, comp_leb a b = true -> comp_leb b c = true -> comp_leb a c = true.
Proof. intros [| | |x] [| | |y] [| | |z]; cbn; auto; try discriminate. apply text_leb_trans. Qed.
Lemma comp_leb_total : forall a b, comp_leb a b = false -> comp_leb b a = true.
Proof. intros [| | |x] [| | |y]; cbn; auto; try discriminate. apply text_leb_total. Qed.
Lemma comp_leb_antisym : forall a b, comp_leb a b = true -> comp_leb b a = true -> a = b.
Proof. intros [| | |x] [| | |y]; cbn; auto; try discriminate. intros H1 H2. f_equal. now apply text_leb_antisym. Qed.

Lemma comp_eqb_refl : forall a, comp_eqb a a = true.
Proof. intros a. now apply comp_eqb_eq. Qed.
Lemma comp_eqb_neq : forall a b, comp_eqb a b = false -> a <> b.
Proof. intros a b H ->. rewrite comp_eqb_refl in H. discriminate. Qed.

Lemma comps_leb_trans : forall a b c, comps_leb a b = true -> comps_leb b c = true -> comps_leb a c = true.
Proof.
  induction a as [|x a IH]; intros [|y b] [|z c]; cbn; auto; try discriminate.
  destruct (comp_eqb x y) eqn:E1, (comp_eqb y z) eqn:E2.
  - apply comp_eqb_eq in E1, E2. subst. rewrite comp_eqb_refl. apply IH.
  - apply comp_eqb_eq in E1. subst. rewrite E2. auto.
  - apply comp_eqb_eq in E2. subst. rewrite E1. auto.
  - intros H1 H2. destruct (comp_eqb x z) eqn:E3.
    + apply comp_eqb_eq in E3. subst z. exfalso. apply comp_eqb_neq in E1. apply E1. now apply comp_leb_antisym.
    + now apply (comp_leb_trans x y z).
Qed.

Lemma comps_leb_total : forall a b, comps_leb a b = false -> comps_leb b a = true.
Proof.
  induction a as [|x a IH]; intros [|y b]; cbn; auto; try discriminate.
  destruct (comp_eqb x y) eqn:E1.
  - apply comp_eqb_eq in E1. subst. rewrite comp_eqb_refl. apply IH.
  - intros H. apply comp_leb_total in H. destruct (comp_eqb y x) eqn:E2; [|exact H].
    apply comp_eqb_eq in E2. subst. rewrite comp_eqb_refl in E1. discriminate.
Qed.

Lemma comps_leb_antisym : forall a b, comps_leb a b = true -> comps_leb b a = true -> a = b.
Proof.
  induction a as [|x a IH]; intros [|y b]; cbn; auto; try discriminate.
  destruct (comp_eqb x y) eqn:E1.
  - apply comp_eqb_eq in E1. subst. rewrite comp_eqb_refl. intros. f_equal. auto.
  - intros H1 H2. destruct (comp_eqb y x) eqn:E2.
    + apply comp_eqb_eq in E2. subst. rewrite comp_eqb_refl in E1. discriminate.
    + exfalso. apply comp_eqb_neq in E1. apply E1. now apply comp_leb_antisym.
Qed.

Lemma comps_leb_refl : forall a, comps_leb a a = true.
Proof. induction a as [|x a IH]; cbn; auto. now rewrite comp_eqb_refl. Qed.

Lemma path_leb_trans : forall a b c, path_leb a b = true -> path_leb b c = true -> path_leb a c = true.
Proof. intros a b c. apply comps_leb_trans. Qed.
Lemma path_leb_total : forall a b, path_leb a b = false -> path_leb b a = true.
Proof. intros a b. apply comps_leb_total. Qed.
Lemma path_leb_antisym : forall a b, path_leb a b = true -> path_leb b a = true -> path_eqb a b = true.
Proof. intros a b H1 H2. apply path_eqb_eq. now apply comps_leb_antisym. Qed.
Lemma path_leb_refl : forall a b, path_eqb a b = true -> path_leb a b = true.
Proof. intros a b H. apply path_eqb_eq in H. unfold path_leb. rewrite H. apply comps_leb_refl. Qed.
Lemma path_eqb_refl : forall a, path_eqb a a = true.
Proof. intros. now apply path_eqb_eq. Qed.
Lemma path_eqb_sym : forall a b, path_eqb a b = true -> path_eqb b a = true.
Proof. intros a b H. apply path_eqb_eq in H. now apply path_eqb_eq. Qed.

(** ** Packages *)

Lemma filter_map_in : forall A B (f : A -> option B) l y, In y (filter_map f l) <-> exists x, In x l /\ f x = Some y.
Proof.
  intros A B f l y. unfold filter_map. rewrite in_flat_map. split.
  - intros [x [H K]]. exists x. split; [exact H|]. destruct (f x); [|destruct K]. destruct K as [->|[]]. reflexivity.
  - intros [x [H K]]. exists x. split; [exact H|]. rewrite K. now left.
Qed.

Lemma kind_spec : forall k, should_mutate_kind k = true <-> In k code_kinds.
Proof.
  intros k. split.
  - destruct k; cbn; intros H; try discriminate; tauto.
  - intros H. repeat (destruct H as [<-|H]; [reflexivity|]). destruct H.
Qed.

Lemma target_spec : forall t, should_mutate_target t = true <-> exists k, In k (tg_kind t) /\ In k code_kinds.
Proof.
  intros t. unfold should_mutate_target. rewrite existsb_exists. split; intros [k [H1 H2]]; exists k; split; auto;
    now apply kind_spec.
Qed.

Lemma tops_in : forall root mp cs, is_absolute root = true ->
  (exists t, In t (package_top_sources root mp) /\ components t = cs) <->
  (exists tg k, In tg (mp_targets mp) /\ In k (tg_kind tg) /\ In k code_kinds
                /\ components (tg_src tg) = components root ++ cs).
Proof.
  intros root mp cs A. unfold package_top_sources. set (raw := flat_map _ (mp_targets mp)).
  assert (R : forall t, In t raw <-> exists tg, In tg (mp_targets mp) /\ should_mutate_target tg = true
                                     /\ strip_prefix (tg_src tg) root = Some t).
  { intros t. unfold raw. rewrite in_flat_map. split.
    - intros [tg [H1 H2]]. exists tg. destruct (should_mutate_target tg); [|destruct H2].
      destruct (strip_prefix (tg_src tg) root); [|destruct H2]. destruct H2 as [->|[]]. auto.
    - intros [tg [H1 [H2 H3]]]. exists tg. split; [exact H1|]. rewrite H2, H3. now left. }
  split.
  - intros [t [H <-]]. apply dedup_in in H. apply isort_in in H. apply R in H.
    destruct H as [tg [H1 [H2 H3]]]. apply target_spec in H2. destruct H2 as [k [K1 K2]].
    exists tg, k. repeat split; auto. exact (proj1 (strip_some_inv root _ t A H3)).
  - intros [tg [k [H1 [H2 [H3 H4]]]]].
    destruct (strip_some root (tg_src tg) cs A H4) as [S1 S2].
    assert (In (comps_path cs) (isort path_leb raw)) as I.
    { apply isort_in. apply R. exists tg. repeat split; auto. apply target_spec. eauto. }
    destruct (dedup_keeps path_eqb path_eqb_refl _ _ I) as [y [Y1 Y2]].
    exists y. split; [exact Y1|]. apply path_eqb_eq in Y2. now rewrite Y2.
Qed.

Lemma tops_nodup : forall root mp, NoDup (map components (package_top_sources root mp)).
Proof.
  intros root mp. unfold package_top_sources.
  assert (S : StronglySorted (fun a b => path_leb a b = true /\ path_eqb a b = false)
    (dedup path_eqb (isort path_leb (flat_map (fun t => if should_mutate_target t
                        then match strip_prefix (tg_src t) root with Some r => [r] | None => [] end
                        else []) (mp_targets mp))))).
  { apply (dedup_strict path_eqb path_eqb_sym path_leb path_leb_trans path_leb_antisym path_leb_refl).
    apply isort_sorted; [exact path_leb_trans|exact path_leb_total]. }
  induction S as [|x l S IH F]; [constructor|]. cbn [map]. constructor; [|exact IH].
  intros H. apply in_map_iff in H. destruct H as [y [E H]]. rewrite Forall_forall in F. destruct (F y H) as [_ K].
  symmetry in E. apply path_eqb_eq in E. rewrite E in K. discriminate.
Qed.

Lemma from_some : forall root mp, is_absolute root = true -> inside root (mp_manifest mp) ->
  exists p, from_cargo_metadata root mp = Some p.
Proof.
  intros root mp A [r [N E]]. destruct (strip_some root _ r A E) as [S _]. unfold from_cargo_metadata. rewrite S.
  destruct (exists_last N) as [r' [c Er]]. subst r.
  rewrite (proj1 (parent_some r' c (suffix_inner root _ _ A E))). eauto.
Qed.

Lemma from_inv : forall root mp p, is_absolute root = true -> from_cargo_metadata root mp = Some p ->
  inside root (mp_manifest mp) /\ describes root mp p.
Proof.
  intros root mp p A H. unfold from_cargo_metadata in H.
  destruct (strip_prefix (mp_manifest mp) root) as [rel|] eqn:S; [|discriminate].
  destruct (strip_some_inv root _ rel A S) as [E Er].
  destruct (path_parent rel) as [dir|] eqn:P; [|discriminate]. injection H as <-.
  assert (components rel <> []) as N.
  { intros K. unfold path_parent in P. rewrite K in P. discriminate. }
  split; [exists (components rel); auto|].
  destruct (exists_last N) as [r' [c Ec]].
  pose proof (suffix_inner root _ _ A E) as F. rewrite Ec in F.
  destruct (parent_some r' c F) as [P1 P2]. rewrite Er, Ec, P1 in P. injection P as <-.
  split; [reflexivity|]. split; [reflexivity|]. split.
  - exists c. cbn [pk_dir]. rewrite P2, E, Ec. reflexivity.
  - split; [intros cs; now apply tops_in|apply tops_nodup].
Qed.

Lemma packages_in : forall md p, In p (packages_from_metadata md) <->
  exists mp, In mp (md_packages md) /\ In (mp_id mp) (md_members md) /\ from_cargo_metadata (md_root md) mp = Some p.
Proof.
  intros md p. unfold packages_from_metadata. rewrite filter_map_in. split.
  - intros [mp [H K]]. apply isort_in in H. unfold workspace_packages in H. apply filter_In in H.
    destruct H as [H1 H2]. apply mem_text_in in H2. eauto.
  - intros [mp [H1 [H2 H3]]]. exists mp. split; [|exact H3]. apply isort_in. apply filter_In. split; [exact H1|].
    now apply mem_text_in.
Qed.

Lemma from_name : forall root mp p, from_cargo_metadata root mp = Some p -> pk_name p = mp_name mp.
Proof.
  intros root mp p H. unfold from_cargo_metadata in H. destruct (strip_prefix _ _); [|discriminate].
  destruct (path_parent _); [|discriminate]. now injection H as <-.
Qed.

Lemma filter_map_sorted : forall A B (f : A -> option B) (R : A -> A -> Prop) (S : B -> B -> Prop) l,
  (forall a b x y, f a = Some x -> f b = Some y -> R a b -> S x y) -> StronglySorted R l -> StronglySorted S (filter_map f l).
Proof.
  intros A B f R S l H. induction 1 as [|a l SS IH F]; [constructor|]. unfold filter_map in *. cbn [flat_map].
  destruct (f a) as [x|] eqn:E; [|exact IH]. cbn [app]. constructor; [exact IH|].
  apply Forall_forall. intros y Hy. fold (filter_map f l) in Hy. apply filter_map_in in Hy. destruct Hy as [b [Hb Eb]].
  rewrite Forall_forall in F. eauto.
Qed.

Lemma packages_sorted : forall md, sorted_by_name (packages_from_metadata md).
Proof.
  intros md. unfold packages_from_metadata, sorted_by_name.
  apply (filter_map_sorted _ _ _ (fun a b => by_name mp_name a b = true)).
  - intros a b x y Ha Hb K. rewrite (from_name _ _ _ Ha), (from_name _ _ _ Hb). exact K.
  - apply isort_sorted.
    + intros a b c. apply text_leb_trans.
    + intros a b. apply text_leb_total.
Qed.

Lemma filter_map_nodup : forall A (f : A -> option package) (name : A -> text) l,
  (forall a x, f a = Some x -> pk_name x = name a) -> NoDup (map name l) -> NoDup (map pk_name (filter_map f l)).
Proof.
  intros A f name l H. induction l as [|a l IH]; intros N; [constructor|]. cbn [map] in N. inversion N as [|? ? N1 N2]; subst.
  unfold filter_map in *. cbn [flat_map]. destruct (f a) as [x|] eqn:E; [|auto]. cbn [app map]. constructor; [|auto].
  rewrite (H _ _ E). intros K. apply N1. apply in_map_iff in K. destruct K as [y [Ey Hy]].
  fold (filter_map f l) in Hy. apply filter_map_in in Hy. destruct Hy as [b [Hb Eb]]. rewrite (H _ _ Eb) in Ey.
  rewrite <- Ey. now apply in_map.
Qed.

Lemma packages_nodup : forall md, names_unique md -> NoDup (map pk_name (packages_from_metadata md)).
Proof.
  intros md U. unfold packages_from_metadata. apply (filter_map_nodup _ _ mp_name); [intros; eapply from_name; eauto|].
  eapply Permutation_NoDup; [apply Permutation_map; apply isort_perm|]. exact U.
Qed.

(** ** Selections *)

Lemma c41_packages : forall md, is_absolute (md_root md) = true -> forall ps, ps = packages_from_metadata md ->
  (forall mp, member md mp -> exists p, In p ps /\ describes (md_root md) mp p)
  /\ (forall p, In p ps -> exists mp, member md mp /\ describes (md_root md) mp p)
  /\ sorted_by_name ps
  /\ (names_unique md -> NoDup (map pk_name ps)).
Proof.
  intros md A ps ->. split; [|split; [|split]].
  - intros mp [H1 [H2 H3]]. destruct (from_some _ _ A H3) as [p P]. exists p. split.
    + apply packages_in. eauto.
    + exact (proj2 (from_inv _ _ _ A P)).
  - intros p H. apply packages_in in H. destruct H as [mp [H1 [H2 H3]]]. exists mp.
    destruct (from_inv _ _ _ A H3) as [I D]. split; [split; auto|exact D].
  - apply packages_sorted.
  - apply packages_nodup.
Qed.

Lemma nodup_name_inj : forall ps p q, NoDup (map pk_name ps) -> In p ps -> In q ps -> pk_name p = pk_name q -> p = q.
Proof.
  induction ps as [|a ps IH]; intros p q N Hp Hq E; [destruct Hp|]. inversion N as [|? ? N1 N2]; subst.
  destruct Hp as [->|Hp], Hq as [->|Hq]; auto.
  - exfalso. apply N1. rewrite E. now apply in_map.
  - exfalso. apply N1. rewrite <- E. now apply in_map.
Qed.

Lemma find_name : forall ps n p, NoDup (map pk_name ps) -> (find (fun p => text_eqb (pk_name p) n) ps = Some p <-> In p ps /\ pk_name p = n).
Proof.
  intros ps n p N. split.
  - intros H. apply find_some in H. destruct H as [H1 H2]. apply text_eqb_eq in H2. auto.
  - intros [H <-]. destruct (find _ ps) as [q|] eqn:E.
    + apply find_some in E. destruct E as [H1 H2]. apply text_eqb_eq in H2. f_equal.
      now apply (nodup_name_inj ps).
    + exfalso. apply (find_none _ _ E p) in H. now rewrite text_eqb_refl in H.
Qed.

Lemma by_name_in : forall ps names p, NoDup (map pk_name ps) ->
  In p (packages_by_name ps names) <-> In p ps /\ In (pk_name p) names.
Proof.
  intros ps names p N. unfold packages_by_name. rewrite filter_map_in. split.
  - intros [n [H K]]. apply isort_in in H. apply find_name in K; [|exact N]. destruct K as [K <-]. auto.
  - intros [H K]. exists (pk_name p). split; [now apply isort_in|]. apply find_name; auto.
Qed.

Lemma by_name_sorted : forall ps names, sorted_by_name (packages_by_name ps names).
Proof.
  intros ps names. unfold packages_by_name, sorted_by_name.
  apply (filter_map_sorted _ _ _ (fun a b => text_leb a b = true)).
  - intros a b x y Ha Hb K. apply find_some in Ha, Hb. destruct Ha as [_ Ha], Hb as [_ Hb].
    apply text_eqb_eq in Ha, Hb. now rewrite Ha, Hb.
  - apply isort_sorted; [apply text_leb_trans|apply text_leb_total].
Qed.

Lemma by_name_nodup : forall ps names, NoDup names -> NoDup (map pk_name (packages_by_name ps names)).
Proof.
  intros ps names N. unfold packages_by_name. apply (filter_map_nodup _ _ (fun n => n)).
  - intros a x H. apply find_some in H. now apply text_eqb_eq.
  - rewrite map_id. eapply Permutation_NoDup; [apply isort_perm|exact N].
Qed.

Lemma c41_named : forall locate md names, names_unique md ->
  exists r, mutated_packages locate md (PFExplicit names) = Some r
  /\ (forall p, In p r <-> In p (packages_from_metadata md) /\ In (pk_name p) names)
  /\ sorted_by_name r
  /\ (NoDup names -> NoDup r).
Proof.
  intros locate md names U. eexists. split; [reflexivity|]. cbn [expand_selection].
  split; [|split].
  - intros p. apply by_name_in. now apply packages_nodup.
  - apply by_name_sorted.
  - intros N. eapply NoDup_map_inv. now apply by_name_nodup.
Qed.

Lemma c41_auto : forall locate md dir pdir, names_unique md -> locate dir = Some pdir -> is_absolute pdir = true ->
  (forall p, In p (packages_from_metadata md) -> path_eqb (path_join (md_root md) (pk_dir p)) pdir = true ->
     exists q, mutated_packages locate md (PFAuto dir) = Some [q] /\ In q (packages_from_metadata md)
               /\ path_eqb (path_join (md_root md) (pk_dir q)) pdir = true)
  /\ ((forall p, In p (packages_from_metadata md) -> path_eqb (path_join (md_root md) (pk_dir p)) pdir = false) ->
      (path_eqb pdir (md_root md) = true ->
         (md_default md = None -> mutated_packages locate md (PFAuto dir) = Some (packages_from_metadata md))
         /\ (forall ids, md_default md = Some ids -> exists r, mutated_packages locate md (PFAuto dir) = Some r
              /\ sorted_by_name r
              /\ (forall p, In p r <-> In p (packages_from_metadata md) /\
                    exists mp, In mp (md_packages md) /\ In (mp_id mp) ids /\ mp_name mp = pk_name p)))
      /\ (path_eqb pdir (md_root md) = false -> mutated_packages locate md (PFAuto dir) = None)).
Proof.
  intros locate md dir pdir U L A. unfold mutated_packages, filter_packages. rewrite L, A. cbn [negb]. split.
  - intros p H K. destruct (find _ (packages_from_metadata md)) as [q|] eqn:F.
    + apply find_some in F. destruct F as [F1 F2]. exists q. auto.
    + exfalso. apply (find_none _ _ F p) in H. congruence.
  - intros H. destruct (find _ (packages_from_metadata md)) as [q|] eqn:F.
    + exfalso. apply find_some in F. destruct F as [F1 F2]. rewrite (H q F1) in F2. discriminate.
    + split; intros R; rewrite R; [|reflexivity]. split.
      * intros D. unfold default_packages. rewrite D. reflexivity.
      * intros ids D. unfold default_packages. rewrite D. eexists. split; [reflexivity|]. cbn [expand_selection].
        split; [apply by_name_sorted|]. intros p. rewrite by_name_in by (now apply packages_nodup).
        rewrite isort_in, in_map_iff. split.
        -- intros [P [mp [E K]]]. split; [exact P|]. exists mp. apply filter_In in K. destruct K as [K1 K2].
           apply mem_text_in in K2. auto.
        -- intros [P [mp [K1 [K2 E]]]]. split; [exact P|]. exists mp. split; [exact E|]. apply filter_In.
           split; [exact K1|now apply mem_text_in].
Qed.

(** ** Tests *)

Lemma paths_eqb_iff : forall a b, paths_eqb a b = true <-> map components a = map components b.
Proof.
  induction a as [|x a IH]; intros [|y b]; cbn; split; try discriminate; auto.
  - intros H. apply andb_true_iff in H. destruct H as [H1 H2]. apply path_eqb_eq in H1. apply IH in H2. congruence.
  - intros [= H1 H2]. apply path_eqb_eq in H1. apply IH in H2. now rewrite H1, H2.
Qed.

Lemma package_eqb_refl : forall a, package_eqb a a = true.
Proof.
  intros a. unfold package_eqb. rewrite !text_eqb_refl, path_eqb_refl. cbn. now apply paths_eqb_iff.
Qed.

Lemma c42_baseline : forall mps, exists l, baseline_selection mps = SelExplicit l
  /\ (forall p, In p l -> In p mps)
  /\ (forall p, In p mps -> exists q, In q l /\ pk_name q = pk_name p /\ pk_version q = pk_version p)
  /\ NoDup l.
Proof.
  intros mps. eexists. split; [reflexivity|]. split; [|split].
  - intros p H. apply unique_in in H. now apply isort_in in H.
  - intros p H.
    destruct (unique_keeps package_eqb package_eqb_refl p (isort (by_name pk_name) mps)) as [q [Q E]].
    { now apply isort_in. }
    exists q. split; [exact Q|]. unfold package_eqb in E. rewrite !andb_true_iff in E.
    destruct E as [[[E1 E2] _] _]. apply text_eqb_eq in E1, E2. auto.
  - apply unique_NoDup. exact package_eqb_refl.
Qed.

Lemma lives_iff : forall md p dir, is_absolute (md_root md) = true -> In p (packages_from_metadata md) ->
  (path_eqb (path_join (md_root md) (pk_dir p)) dir = true <-> lives_in md p dir).
Proof.
  intros md p dir A H. apply packages_in in H. destruct H as [mp [_ [_ F]]]. unfold from_cargo_metadata in F.
  destruct (strip_prefix (mp_manifest mp) (md_root md)) as [rel|] eqn:S; [|discriminate].
  destruct (strip_some_inv _ _ rel A S) as [E Er].
  destruct (path_parent rel) as [d|] eqn:P; [|discriminate]. injection F as <-. cbn [pk_dir].
  assert (components rel <> []) as N. { intros K. unfold path_parent in P. rewrite K in P. discriminate. }
  destruct (exists_last N) as [r' [c Ec]].
  pose proof (suffix_inner _ _ _ A E) as F. rewrite Ec in F.
  destruct (parent_some r' c F) as [P1 P2]. rewrite Er, Ec, P1 in P. injection P as <-.
  apply Forall_app in F. destruct F as [F _].
  rewrite path_eqb_eq. unfold lives_in. cbn [pk_dir]. rewrite path_join_components.
  - rewrite P2. assert (no_cur r' = r') as ->; [|reflexivity].
    destruct F as [|a l [->|[u [-> _]]]]; reflexivity.
  - destruct (components_shape (comps_path r')) as [h [t [Es [Hh [Hr _]]]]]. unfold relative.
    destruct (is_absolute (comps_path r')) eqn:G; [|reflexivity]. exfalso.
    pose proof (proj2 Hr eq_refl) as K. subst h. rewrite P2 in Es. cbn in Es. subst r'.
    inversion F as [|? ? K _]; subst. destruct K as [K|[u [K _]]]; discriminate K.
  - destruct (md_root md); [discriminate A|discriminate].
Qed.

Lemma c41_auto' : forall locate md dir pdir, names_unique md -> is_absolute (md_root md) = true ->
  locate dir = Some pdir -> is_absolute pdir = true ->
  (forall p, In p (packages_from_metadata md) -> lives_in md p pdir ->
     exists q, mutated_packages locate md (PFAuto dir) = Some [q] /\ In q (packages_from_metadata md) /\ lives_in md q pdir)
  /\ ((forall p, In p (packages_from_metadata md) -> ~ lives_in md p pdir) ->
      (components pdir = components (md_root md) ->
         (md_default md = None -> mutated_packages locate md (PFAuto dir) = Some (packages_from_metadata md))
         /\ (forall ids, md_default md = Some ids -> exists r, mutated_packages locate md (PFAuto dir) = Some r
              /\ sorted_by_name r
              /\ (forall p, In p r <-> In p (packages_from_metadata md) /\
                    exists mp, In mp (md_packages md) /\ In (mp_id mp) ids /\ mp_name mp = pk_name p)))
      /\ (components pdir <> components (md_root md) -> mutated_packages locate md (PFAuto dir) = None)).
Proof.
  intros locate md dir pdir U A L B. destruct (c41_auto locate md dir pdir U L B) as [H1 H2]. split.
  - intros p P V. apply lives_iff in V; [|exact A|exact P]. destruct (H1 p P V) as [q [Q1 [Q2 Q3]]].
    exists q. split; [exact Q1|]. split; [exact Q2|]. now apply lives_iff.
  - intros K. destruct H2 as [H2 H3].
    + intros p P. destruct (path_eqb _ _) eqn:E; [|reflexivity]. exfalso. apply (K p P). now apply lives_iff in E.
    + split.
      * intros E. apply H2. now apply path_eqb_eq.
      * intros E. apply H3. destruct (path_eqb pdir (md_root md)) eqn:F; [|reflexivity]. apply path_eqb_eq in F. now exfalso.
Qed.

Lemma c42_which : forall md p, names_unique md ->
  mutant_selection md TPMutated p = SelExplicit [p]
  /\ mutant_selection md TPWorkspace p = SelAll
  /\ forall names q, tests_run (packages_from_metadata md) (mutant_selection md (TPNamed names) p) q <->
       In q (packages_from_metadata md) /\ In (pk_name q) names.
Proof.
  intros md p U. split; [reflexivity|]. split; [reflexivity|]. intros names q. cbn [mutant_selection tests_run].
  apply by_name_in. now apply packages_nodup.
Qed.

Lemma c42_default : forall md mps p q, In p mps ->
  tests_run (packages_from_metadata md) (mutant_selection md TPMutated p) q ->
  exists b, tests_run (packages_from_metadata md) (baseline_selection mps) b /\ pk_name b = pk_name q /\ pk_version b = pk_version q.
Proof.
  intros md mps p q H [<-|[]]. destruct (c42_baseline mps) as [l [-> [_ [K _]]]]. cbn [tests_run].
  destruct (K p H) as [b [B1 [B2 B3]]]. eauto.
Qed.

Lemma c41_choice : forall mutate workspace start,
  (mutate <> [] -> package_filter_of mutate workspace start = PFExplicit mutate)
  /\ (mutate = [] -> workspace = true -> package_filter_of mutate workspace start = PFAll)
  /\ (mutate = [] -> workspace = false -> package_filter_of mutate workspace start = PFAuto start).
Proof.
  intros [|m ms] w s; split; try congruence; split; try discriminate; intros _ ->; reflexivity.
Qed.
