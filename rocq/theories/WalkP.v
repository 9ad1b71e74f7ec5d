(** Proofs about discovery over a tree. *)
From Coq Require Import String List NArith ZArith Bool Arith Lia.
Import ListNotations.
From Verif Require Import Text SpanM PathM PathS PathP PackageM MutantM GlobM OptionsM PrettyM FnValueM VisitM VisitS VisitP WalkM WalkS.

(** ** Paths *)
Lemma tidy_app : forall a b, tidy (a ++ b) = tidy a ++ tidy b.
Proof. intros. unfold tidy. apply filter_app. Qed.
Lemma tidy_no_cur : forall a, tidy (no_cur a) = tidy a.
Proof. induction a as [|c a IH]; [reflexivity|]. destruct c; cbn; rewrite ?IH; auto; f_equal; auto. Qed.

Lemma steps_join : forall b p, is_absolute p = false -> steps (path_join b p) = steps b ++ steps p.
Proof.
  intros b p R. destruct b as [|c b].
  - unfold path_join. rewrite R. reflexivity.
  - unfold steps. rewrite path_join_components by (auto; discriminate). rewrite tidy_app, tidy_no_cur. reflexivity.
Qed.

Lemma steps_slash : forall d p, d <> [] -> steps (d ++ [SLASH] ++ p) = steps d ++ tidy (flat_map piece (split_on SLASH p)).
Proof. intros d p H. unfold steps. rewrite components_app_slash by auto. apply tidy_app. Qed.

Definition ok_name (n : text) : Prop := ~ In SLASH n /\ n <> [] /\ n <> [DOT] /\ n <> [DOT; DOT].
Lemma piece_name : forall n, ok_name n -> piece n = [Normal n].
Proof.
  intros n [_ [A [B C]]]. unfold piece.
  apply text_eqb_neq in A, B, C. rewrite A, B, C. reflexivity.
Qed.
Lemma components_name : forall n, ok_name n -> components n = [Normal n].
Proof.
  intros n H. pose proof H as H'. destruct H' as [S [A [B C]]]. destruct n as [|c n]; [congruence|].
  rewrite components_rel_eq.
  - rewrite split_on_none by auto. apply text_eqb_neq in B. rewrite B. cbn [flat_map]. rewrite app_nil_r. apply piece_name. exact H.
  - apply N.eqb_neq. intro E. apply S. left. exact E.
Qed.
Lemma steps_name : forall n, ok_name n -> steps n = [Normal n].
Proof. intros n H. unfold steps. rewrite components_name by auto. reflexivity. Qed.
Lemma name_relative : forall n m, ok_name n -> is_absolute (n ++ m) = false.
Proof.
  intros [|c n] m [S [A _]]; [congruence|]. destruct (is_absolute ((c :: n) ++ m)) eqn:E; [|reflexivity].
  unfold is_absolute in E. apply starts_with_iff in E. destruct E as [r E]. injection E as -> E. exfalso. apply S. left. reflexivity.
Qed.
Lemma steps_slash_name : forall d n, d <> [] -> ok_name n -> steps (d ++ [SLASH] ++ n) = steps d ++ [Normal n].
Proof. intros d n D H. rewrite steps_slash by auto. rewrite split_on_none by apply H. cbn [flat_map]. rewrite app_nil_r, piece_name by auto. reflexivity. Qed.

Lemma absolute_app : forall a b, a <> [] -> is_absolute (a ++ b) = is_absolute a.
Proof.
  intros [|c a] b H; [congruence|]. unfold is_absolute. cbn [app starts_with]. reflexivity.
Qed.

Lemma trim_steps : forall k r, length r <= k -> is_absolute (rev r) = false -> steps (rev (trim_rev r)) = steps (rev r).
Proof.
  induction k as [|k IH]; intros r L A.
  - destruct r; [reflexivity|cbn in L; lia].
  - destruct r as [|c r]; [reflexivity|]. cbn [trim_rev].
    assert (Tail : forall r', is_absolute (rev r' ++ [SLASH]) = false -> rev r' <> [] /\ is_absolute (rev r') = false).
    { intros r' H. destruct (rev r') as [|x y] eqn:E; [discriminate H|]. split; [discriminate|].
      rewrite absolute_app in H by discriminate. exact H. }
    destruct (N.eqb c SLASH) eqn:C.
    + apply N.eqb_eq in C. subst c. cbn [rev] in A |- *. destruct (Tail _ A) as [N1 A'].
      rewrite IH; [|cbn in L; lia|exact A']. unfold steps. rewrite components_trailing by auto. reflexivity.
    + destruct (N.eqb c DOT) eqn:C2; [|reflexivity]. apply N.eqb_eq in C2. subst c.
      destruct r as [|d r]; [reflexivity|]. destruct (N.eqb d SLASH) eqn:C3; [|reflexivity].
      apply N.eqb_eq in C3. subst d. cbn [trim_rev]. rewrite N.eqb_refl.
      cbn [rev] in A |- *. rewrite <- app_assoc in A |- *.
      assert (A2 : is_absolute (rev r ++ [SLASH]) = false).
      { destruct (rev r) as [|x y]; [discriminate A|]. rewrite absolute_app in A |- * by discriminate. exact A. }
      destruct (Tail _ A2) as [N1 A'].
      rewrite IH; [|cbn in L; lia|exact A']. rewrite (steps_slash (rev r) [DOT]) by auto. cbn. rewrite app_nil_r. reflexivity.
Qed.

Lemma split_once_at : forall c a b, ~ In c a -> split_once c (a ++ c :: b) = Some (a, b).
Proof.
  intros c a b H. induction a as [|x a IH]; cbn [app split_once].
  - rewrite N.eqb_refl. reflexivity.
  - destruct (N.eqb x c) eqn:E; [apply N.eqb_eq in E; exfalso; apply H; left; auto|].
    rewrite IH; [reflexivity|]. intro I. apply H. right. exact I.
Qed.

Lemma file_path_facts : forall p n, file_path p n ->
  exists d, steps p = steps d ++ [Normal n]
    /\ (exists d', file_parent p = Some d' /\ steps d' = steps d)
    /\ steps (without_extension p) = steps d ++ [Normal (stem n)]
    /\ (named_mod_rs p = true <-> n = tx "mod.rs").
Proof.
  intros p n [R [P [S [A [B [C [S1 S2]]]]]]].
  assert (Ok : ok_name n) by (repeat split; auto).
  assert (OkS : ok_name (stem n)).
  { unfold stem in *. destruct (text_eqb n [DOT; DOT]) eqn:E; [exact Ok|].
    destruct (split_once DOT (rev n)) as [[x [|y z]]|] eqn:Sp; try exact Ok.
    apply split_once_some in Sp. destruct Sp as [Sp _].
    repeat split; auto.
    - intro I. apply S. rewrite <- (rev_involutive n), Sp. apply in_rev in I. apply in_rev. rewrite rev_involutive.
      apply in_or_app. right. right. exact I.
    - destruct (rev (y :: z)) eqn:Q; [|discriminate]. apply (f_equal (@length N)) in Q. rewrite rev_length in Q. discriminate. }
  assert (NR : ~ In SLASH (rev n)) by (intro I; apply in_rev in I; contradiction).
  destruct P as [->|[d ->]].
  - exists []. rewrite steps_name by auto. split; [reflexivity|].
    assert (Sp : split_once SLASH (rev n) = None) by (apply split_once_none; exact NR).
    split; [|split].
    + exists []. unfold file_parent. rewrite Sp. destruct n; [congruence|]. auto.
    + unfold without_extension. rewrite Sp. rewrite steps_name by auto. reflexivity.
    + unfold named_mod_rs. rewrite components_name by auto. cbn. apply text_eqb_eq.
  - assert (D : d <> []).
    { intros ->. discriminate R. }
    exists d. rewrite steps_slash_name by auto. split; [reflexivity|].
    assert (Sp : split_once SLASH (rev (d ++ [SLASH] ++ n)) = Some (rev n, rev d)).
    { rewrite !rev_app_distr. cbn [rev app]. rewrite <- app_assoc. apply split_once_at. exact NR. }
    split; [|split].
    + exists (rev (trim_rev (rev d))). unfold file_parent. rewrite Sp. split; [reflexivity|].
      rewrite (trim_steps (length (rev d))); [rewrite rev_involutive; reflexivity|lia|].
      rewrite rev_involutive. rewrite absolute_app in R by auto. exact R.
    + unfold without_extension. rewrite Sp. rewrite !rev_involutive. apply steps_slash_name; auto.
    + unfold named_mod_rs. rewrite components_app_slash by auto. rewrite split_on_none by auto. cbn [flat_map].
      rewrite app_nil_r, piece_name by auto. rewrite rev_app_distr. cbn [rev app]. apply text_eqb_eq.
Qed.

Lemma stem_rs : forall n, n <> [] -> stem (n ++ tx ".rs") = n.
Proof.
  intros n H. unfold stem.
  destruct (text_eqb (n ++ tx ".rs") [DOT; DOT]) eqn:E.
  - apply text_eqb_eq in E. apply (f_equal (@length N)) in E. rewrite app_length in E. cbn in E. lia.
  - rewrite rev_app_distr. change (rev (tx ".rs") ++ rev n) with (tx "sr" ++ DOT :: rev n).
    rewrite split_once_at by (cbn; intuition discriminate).
    destruct (rev n) eqn:R; [|rewrite <- R; apply rev_involutive].
    apply (f_equal (@rev N)) in R. rewrite rev_involutive in R. exfalso. apply H. exact R.
Qed.

(** ** Module lookup *)
Lemma fs_relative : forall chain m, plain_chain chain -> In m chain -> is_absolute (fs_name m) = false.
Proof.
  intros chain m P I. destruct (P m I) as [A [B [C [D E]]]]. unfold fs_name. destruct (mn_path m) as [p|]; [auto|].
  rewrite <- (app_nil_r (mn_name m)). apply name_relative. repeat split; auto.
Qed.

Lemma fold_join : forall ms d, (forall m, In m ms -> is_absolute (fs_name m) = false) ->
  steps (fold_left path_join (map fs_name ms) d) = steps d ++ flat_map (fun m => steps (fs_name m)) ms.
Proof.
  induction ms as [|m ms IH]; intros d H; cbn [map fold_left flat_map]; [rewrite app_nil_r; reflexivity|].
  rewrite IH by (intros; apply H; right; auto). rewrite steps_join by (apply H; left; auto). rewrite app_assoc. reflexivity.
Qed.

Lemma fold_enter : forall ms d, plain_chain ms ->
  fold_left enter ms (mkPlace d None) = mkPlace (d ++ flat_map (fun m => steps (fs_name m)) ms) None.
Proof.
  induction ms as [|m ms IH]; intros d P; cbn [fold_left flat_map]; [rewrite app_nil_r; reflexivity|].
  replace (enter (mkPlace d None) m) with (mkPlace (d ++ steps (fs_name m)) None).
  - rewrite IH by (intros x I; apply P; right; exact I). rewrite app_assoc. reflexivity.
  - unfold enter, fs_name. destruct (P m (or_introl eq_refl)) as [A [B [C [D E]]]].
    destruct (mn_path m) as [p|]; [reflexivity|]. unfold own_dir. cbn [pl_dir pl_rel]. rewrite app_nil_r.
    rewrite steps_name by (repeat split; auto). reflexivity.
Qed.


Lemma candidates_compiler : forall f n pl parents child,
  file_path (sf_path f) n -> plain_chain (parents ++ [child]) -> assumed f pl ->
  (pl_rel pl = None \/ match parents with [] => True | m :: _ => mn_path m = None end) ->
  exists cands, mod_candidates f (parents ++ [child]) = Some cands
    /\ map steps cands = compiler_lookups pl parents child.
Proof.
  intros f n pl parents child FP PC As Cond.
  destruct (file_path_facts _ _ FP) as [d [St [[d' [Fp Sd]] [We Nm]]]].
  assert (PCp : plain_chain parents) by (intros m I; apply PC; apply in_or_app; auto).
  assert (Rel : forall m, In m parents -> is_absolute (fs_name m) = false) by (intros m I; eapply fs_relative; eauto).
  destruct (PC child) as [CA [CB [CC [CD CE]]]]; [apply in_or_app; right; left; reflexivity|].
  assert (OkC : ok_name (mn_name child)) by (repeat split; auto).
  unfold mod_candidates. rewrite rev_app_distr. cbn [rev app]. rewrite rev_involutive.
  (* the directory *)
  assert (Fin : forall base, fold_left path_join (map fs_name parents) base = fold_left path_join (map fs_name parents) base) by reflexivity.
  assert (Look : forall base pl',
     fold_left enter parents pl = pl' ->
     (forall p, mn_path child = Some p -> steps (fold_left path_join (map fs_name parents) base) = pl_dir pl') ->
     (mn_path child = None -> steps (fold_left path_join (map fs_name parents) base) = own_dir pl') ->
     map steps (match mn_path child with
                | Some p => [path_join (fold_left path_join (map fs_name parents) base) p]
                | None => [path_join (fold_left path_join (map fs_name parents) base) (mn_name child ++ tx ".rs");
                           path_join (fold_left path_join (map fs_name parents) base) (mn_name child ++ tx "/mod.rs")]
                end) = compiler_lookups pl parents child).
  { intros base pl' E H1 H2. unfold compiler_lookups. rewrite E. unfold lookups. destruct (mn_path child) as [p|] eqn:Ep.
    - cbn [map]. rewrite steps_join by auto. rewrite (H1 p eq_refl). reflexivity.
    - cbn [map]. rewrite !steps_join by (apply name_relative; exact OkC). rewrite (H2 eq_refl).
      f_equal; [|f_equal].
      + rewrite steps_name; [reflexivity|]. repeat split.
        * intro I. apply in_app_or in I. destruct I as [I|I]; [contradiction|]. cbn in I. intuition discriminate.
        * destruct (mn_name child); discriminate.
        * intro X. apply (f_equal (@length N)) in X. rewrite app_length in X. cbn in X. lia.
        * intro X. apply (f_equal (@length N)) in X. rewrite app_length in X. cbn in X. lia.
      + change (tx "/mod.rs") with ([SLASH] ++ tx "mod.rs"). rewrite steps_slash_name; [|exact CB|].
        * rewrite steps_name by exact OkC. reflexivity.
        * repeat split; cbn; try discriminate. intuition discriminate. }
  inversion As as [f0 dd nn E Cnd Ef Epl|f0 dd nn E Ct Cn Ef Epl]; subst f0 pl.
  - rewrite St in E. apply app_inj_tail in E. destruct E as [<- E]. injection E as <-.
    assert (B : sf_top f || named_mod_rs (sf_path f) = true).
    { destruct Cnd as [-> | ->]; [reflexivity|]. apply orb_true_iff. right. apply Nm. reflexivity. }
    rewrite B. cbn [orb]. rewrite Fp. eexists. split; [reflexivity|].
    eapply Look; [reflexivity| |]; rewrite fold_join by exact Rel; rewrite fold_enter by exact PCp; cbn [pl_dir]; rewrite Sd; [reflexivity|].
    intro. unfold own_dir. cbn [pl_dir pl_rel]. rewrite app_nil_r. reflexivity.
  - rewrite St in E. apply app_inj_tail in E. destruct E as [<- E]. injection E as <-.
    assert (B : sf_top f || named_mod_rs (sf_path f) = false).
    { rewrite Ct. cbn [orb]. destruct (named_mod_rs (sf_path f)) eqn:Q; [|reflexivity]. exfalso. apply Cn. apply Nm. reflexivity. }
    rewrite B. cbn [orb]. cbn [pl_rel] in Cond. destruct Cond as [Cond|Cond]; [discriminate|].
    destruct parents as [|m ms].
    + destruct (mn_path child) as [p|] eqn:Ep; cbn [andb].
      * rewrite Fp. eexists. split; [reflexivity|]. apply (Look d' _ eq_refl).
        -- intros p' _. cbn [map fold_left pl_dir]. exact Sd.
        -- discriminate.
      * eexists. split; [reflexivity|]. apply (Look (without_extension (sf_path f)) _ eq_refl).
        -- discriminate.
        -- intros _. cbn [map fold_left]. exact We.
    + rewrite andb_false_r. eexists. split; [reflexivity|].
      assert (En : fold_left enter (m :: ms) (mkPlace (steps d) (Some (stem n)))
                   = mkPlace (steps d ++ [Normal (stem n)] ++ flat_map (fun m => steps (fs_name m)) (m :: ms)) None).
      { cbn [fold_left]. unfold enter at 2. rewrite Cond. unfold own_dir. cbn [pl_dir pl_rel].
        rewrite fold_enter by (intros x I; apply PCp; right; exact I). cbn [flat_map].
        unfold fs_name at 2. rewrite Cond.
        destruct (PCp m (or_introl eq_refl)) as [A1 [B1 [C1 [D1 _]]]].
        rewrite (steps_name (mn_name m)) by (repeat split; auto). rewrite <- !app_assoc. reflexivity. }
      eapply Look; [exact En| |]; rewrite fold_join by exact Rel; rewrite We; cbn [pl_dir]; rewrite <- app_assoc.
      * reflexivity.
      * intro. unfold own_dir. cbn [pl_dir pl_rel]. rewrite app_nil_r. reflexivity.
Qed.

(** The place that the code assumes for a file found without a path attribute is the
    compiler's. *)
Lemma place_agrees : forall f n pl pl' m,
  file_path (sf_path f) n -> sf_top f = false -> mn_path m = None ->
  mn_name m <> [] -> mn_name m <> tx "mod" ->
  assumed f pl -> loaded_place m (steps (sf_path f)) pl' -> pl = pl'.
Proof.
  intros f n pl pl' m FP T P N1 N2 As L.
  destruct (file_path_facts _ _ FP) as [d [St _]]. rewrite St in L.
  inversion As as [f0 dd nn E Cnd Ef Epl|f0 dd nn E Ct Cn Ef Epl]; subst f0 pl; rewrite St in E; apply app_inj_tail in E; destruct E as [<- E]; injection E as <-.
  - destruct Cnd as [Cnd|Cnd]; [congruence|]. subst n.
    inversion L as [p d0 x Hp E1 E2|d0 Hp E1 E2|d0 Hp E1 E2].
    + congruence.
    + apply app_inj_tail in E1. destruct E1 as [_ E1]. injection E1 as E1. exfalso. apply N2.
      change (tx "mod.rs") with (tx "mod" ++ tx ".rs") in E1. apply app_inv_tail in E1. exact E1.
    + replace (d0 ++ [Normal (mn_name m); Normal (tx "mod.rs")]) with ((d0 ++ [Normal (mn_name m)]) ++ [Normal (tx "mod.rs")]) in E1 by (rewrite <- app_assoc; reflexivity).
      apply app_inj_tail in E1. destruct E1 as [-> _]. reflexivity.
  - inversion L as [p d0 x Hp E1 E2|d0 Hp E1 E2|d0 Hp E1 E2].
    + congruence.
    + apply app_inj_tail in E1. destruct E1 as [-> E1]. injection E1 as E1. rewrite <- E1. rewrite stem_rs by exact N1. reflexivity.
    + replace (d0 ++ [Normal (mn_name m); Normal (tx "mod.rs")]) with ((d0 ++ [Normal (mn_name m)]) ++ [Normal (tx "mod.rs")]) in E1 by (rewrite <- app_assoc; reflexivity).
      apply app_inj_tail in E1. destruct E1 as [_ E1]. injection E1 as E1. exfalso. apply Cn. auto.
Qed.

Lemma place_agrees_attr : forall f n pl pl' m p,
  file_path (sf_path f) n -> sf_top f = false -> mn_path m = Some p ->
  assumed f pl -> loaded_place m (steps (sf_path f)) pl' -> (pl = pl' <-> n = tx "mod.rs").
Proof.
  intros f n pl pl' m p FP T P As L.
  destruct (file_path_facts _ _ FP) as [d [St _]]. rewrite St in L.
  inversion L as [p0 d0 x Hp E1 E2|d0 Hp E1 E2|d0 Hp E1 E2]; try congruence.
  apply app_inj_tail in E1. destruct E1 as [-> _].
  inversion As as [f0 dd nn E Cnd Ef Epl|f0 dd nn E Ct Cn Ef Epl]; subst f0 pl; rewrite St in E; apply app_inj_tail in E; destruct E as [<- E]; injection E as <-.
  - destruct Cnd as [Cnd|Cnd]; [congruence|]. tauto.
  - split; intro X; [discriminate|contradiction].
Qed.

Lemma declared_relative : forall skip_calls root chain, declared skip_calls root chain ->
  chain <> [] /\ forall m p, In m chain -> mn_path m = Some p -> is_absolute p = false.
Proof.
  intros skip_calls root chain [anc [a [i [sp [cs [O [N1 M]]]]]]]. split.
  - assert (Z : forall ks l, modules ks l -> (exists a i s b, In (KMod a i s b) ks) -> l <> []).
    { intros ks l H. induction H as [|a0 i0 s0 b0 path ks l P H IH|k ks l D H IH]; intros [a' [i' [s' [b' I]]]].
      - contradiction.
      - discriminate.
      - apply IH. destruct I as [I|I]; [exfalso; eapply D; exact I|eauto]. }
    eapply Z; [exact M|]. exists a, i, sp, false. apply in_or_app. right. left. reflexivity.
  - clear O. induction M as [|a0 i0 s0 b0 path ks l P H IH|k ks l D H IH]; intros m p I E.
    + contradiction.
    + destruct I as [<-|I].
      * cbn [mn_path] in E. subst path. destruct (is_absolute p) eqn:A; [|reflexivity]. exfalso.
        apply (N1 _ (or_introl eq_refl)). cbn [skipped]. right. unfold is_absolute in A. apply starts_with_iff in A.
        destruct A as [r ->]. exists r. exact P.
      * eapply IH; eauto. intros k' I'. apply N1. right. exact I'.
    + eapply IH; eauto. intros k' I'. apply N1. right. exact I'.
Qed.

(** ** The queue *)
Section Queue.
Variable read : text -> option text.
Variable is_file : text -> bool.
Variable parse : text -> option node.
Variable re_match : text -> text -> bool.
Variable tree : text.
Variable opts : options.
Variable errs : list toks.
Variable skip_calls : list text.
Variable package : text.
Notation one := (one_file read is_file parse re_match tree opts errs skip_calls package).
Notation run := (fun fuel q => walk_queue read is_file parse re_match tree opts errs skip_calls fuel package q).
Notation Kid := (kid read is_file parse tree skip_calls package).
Notation Reach := (reach read is_file parse tree skip_calls package).

Definition kids (e : text * bool) : list (text * bool) :=
  match one e with TFile _ _ mods => map (fun p => (p, false)) mods | _ => [] end.
Definition fine (e : text * bool) : Prop := one e <> TErr /\ one e <> TPanic.

(** The order of a queue: take the first, append its kids. *)
Inductive fifo : list (text * bool) -> list (text * bool) -> Prop :=
| fifo_nil : fifo [] []
| fifo_cons e q v : fifo (q ++ kids e) v -> fifo (e :: q) (e :: v).

Lemma fifo_split : forall a b v, fifo (a ++ b) v -> exists v', v = a ++ v' /\ fifo (b ++ flat_map kids a) v'.
Proof.
  induction a as [|e a IH]; intros b v H.
  - exists v. cbn [flat_map]. rewrite app_nil_r. auto.
  - cbn [app] in H. inversion H as [|e' q v' H' E1 E2]; subst. rewrite <- app_assoc in H'.
    destruct (IH _ _ H') as [w [-> Hw]]. exists w. split; [reflexivity|]. cbn [flat_map]. rewrite <- app_assoc in Hw. exact Hw.
Qed.
Lemma fifo_join : forall a b v, fifo (b ++ flat_map kids a) v -> fifo (a ++ b) (a ++ v).
Proof.
  induction a as [|e a IH]; intros b v H.
  - cbn [flat_map app] in *. rewrite app_nil_r in H. exact H.
  - cbn [app]. constructor. rewrite <- app_assoc. apply IH. cbn [flat_map] in H. rewrite <- app_assoc. exact H.
Qed.

Fixpoint level (n : nat) (q : list (text * bool)) : list (text * bool) :=
  match n with O => q | S n' => level n' (flat_map kids q) end.

Lemma fifo_levels : forall k q v, length v <= k -> fifo q v ->
  exists n, level n q = [] /\ v = flat_map (fun i => level i q) (seq 0 n).
Proof.
  induction k as [|k IH]; intros q v L H.
  - destruct v; [|cbn in L; lia]. inversion H; subst. exists 0. auto.
  - destruct q as [|e q].
    + inversion H; subst. exists 0. auto.
    + assert (H' : fifo ((e :: q) ++ []) v) by (rewrite app_nil_r; exact H).
      destruct (fifo_split (e :: q) [] v H') as [w [-> Hw]]. cbn [app] in Hw.
      destruct (IH (flat_map kids (e :: q)) w) as [n [L1 L2]]; [rewrite app_length in L; cbn [length] in L; lia|exact Hw|].
      exists (S n). split; [exact L1|]. cbn [seq flat_map]. f_equal. rewrite <- seq_shift, flat_map_concat_map, map_map, <- flat_map_concat_map. exact L2.
Qed.

Lemma levels_fifo : forall n q, level n q = [] -> exists v, fifo q v.
Proof.
  induction n as [|n IH]; intros q H; cbn [level] in H.
  - subst. exists []. constructor.
  - destruct (IH _ H) as [v Hv]. exists (q ++ v). rewrite <- (app_nil_r q) at 1. apply fifo_join. exact Hv.
Qed.


(** Results of the loop. *)
Definition keep (e : text * bool) : list mutant :=
  match one e with TFile f kept _ => if allows_source_file_path opts (sf_path f) then kept else [] | _ => [] end.
Definition listed (e : text * bool) : list source_file :=
  match one e with TFile f _ _ => if allows_source_file_path opts (sf_path f) then [f] else [] | _ => [] end.

Lemma run_ok : forall fuel q v ms fs, run fuel q = WOk v ms fs ->
  fifo q v /\ (forall e, In e v -> fine e) /\ ms = flat_map keep v /\ fs = flat_map listed v.
Proof.
  induction fuel as [|fuel IH]; intros q v ms fs H; [discriminate|]. cbn [walk_queue] in H.
  destruct q as [|e q]; [injection H as <- <- <-; split; [constructor|]; split; [intros e []|auto]|].
  destruct (one e) as [| | |f kept mods] eqn:E; try discriminate.
  - destruct (run fuel q) as [v1 ms1 fs1| | |] eqn:R; try discriminate. injection H as <- <- <-.
    destruct (IH _ _ _ _ R) as [F [G [M L]]]. split.
    + constructor. unfold kids. rewrite E, app_nil_r. exact F.
    + split.
      * intros x [<-|I]; [|auto]. unfold fine. rewrite E. split; discriminate.
      * cbn [flat_map]. unfold keep at 1, listed at 1. rewrite E. auto.
  - destruct (run fuel (q ++ map (fun p => (p, false)) mods)) as [v1 ms1 fs1| | |] eqn:R; try discriminate.
    destruct (IH _ _ _ _ R) as [F [G [M L]]].
    assert (K : forall x, v = e :: x -> x = v1 -> fifo (e :: q) v /\ (forall y, In y v -> fine y)).
    { intros x -> ->. split.
      - constructor. unfold kids. rewrite E. exact F.
      - intros y [<-|I]; [|auto]. unfold fine. rewrite E. split; discriminate. }
    destruct (allows_source_file_path opts (sf_path f)) eqn:A; injection H as <- <- <-; destruct (K v1 eq_refl eq_refl) as [K1 K2]; (split; [exact K1|]; split; [exact K2|]);
      cbn [flat_map]; unfold keep at 1, listed at 1; rewrite E, A; rewrite <- M, <- L; auto.
Qed.

Lemma run_fifo : forall v q fuel, fifo q v -> length v < fuel -> run fuel q <> WFuel.
Proof.
  induction v as [|e v IH]; intros q fuel F L.
  - inversion F; subst. destruct fuel; [lia|]. discriminate.
  - inversion F as [|e' q' v' F' E1 E2]; subst. destruct fuel as [|fuel]; [lia|]. cbn [walk_queue].
    unfold kids in F'. destruct (one e) as [| | |f kept mods] eqn:E; try discriminate.
    + rewrite app_nil_r in F'. specialize (IH _ fuel F'). cbn [length] in L.
      destruct (run fuel q') eqn:R; try discriminate. apply IH. lia.
    + specialize (IH _ fuel F'). cbn [length] in L.
      destruct (run fuel (q' ++ map (fun p => (p, false)) mods)) eqn:R; try discriminate.
      * destruct (allows_source_file_path opts (sf_path f)); discriminate.
      * apply IH. lia.
Qed.

Lemma run_mono : forall fuel fuel' q, fuel <= fuel' -> run fuel q <> WFuel -> run fuel' q = run fuel q.
Proof.
  induction fuel as [|fuel IH]; intros fuel' q L H; [exfalso; apply H; reflexivity|].
  destruct fuel' as [|fuel']; [lia|]. cbn [walk_queue] in *. destruct q as [|e q]; [reflexivity|].
  destruct (one e) as [| | |f kept mods]; try reflexivity.
  - rewrite IH; [reflexivity|lia|]. intro E. rewrite E in H. apply H. reflexivity.
  - rewrite IH; [reflexivity|lia|]. intro E. rewrite E in H. apply H. reflexivity.
Qed.

(** Kids in the model and in the specification. *)
Lemma find_first : forall (p : text -> bool) l x, find p l = Some x <-> first_existing (fun y => p y = true) l x.
Proof.
  intros p l x. split.
  - intro H. induction l as [|y l IH]; [discriminate|]. cbn [find] in H. destruct (p y) eqn:E.
    + injection H as ->. exists [], l. split; [reflexivity|]. split; [exact E|]. intros q [].
    + destruct (IH H) as [a [b [-> [P Q]]]]. exists (y :: a), b. split; [reflexivity|]. split; [exact P|].
      intros q [<-|I]; [congruence|auto].
  - intros [a [b [-> [P Q]]]]. induction a as [|y a IH]; cbn [app find].
    + rewrite P. reflexivity.
    + destruct (p y) eqn:E; [exfalso; apply (Q y (or_introl eq_refl) E)|]. apply IH. intros q I. apply Q. right. exact I.
Qed.

Lemma find_all_in : forall f chains mods, find_all is_file tree f chains = Some mods ->
  (forall c, In c chains -> mod_candidates f c <> None)
  /\ forall p, In p mods <-> exists c cands, In c chains /\ mod_candidates f c = Some cands /\ first_existing (fun q => is_file (path_join tree q) = true) cands p.
Proof.
  induction chains as [|c chains IH]; intros mods H; cbn [find_all] in H.
  - injection H as <-. split; [intros c []|]. intro p. split; [contradiction|]. intros [c [cands [[] _]]].
  - unfold find_mod_source in H. destruct (mod_candidates f c) as [cands|] eqn:E; [|discriminate].
    destruct (find (fun c0 => is_file (path_join tree c0)) cands) as [p0|] eqn:F; destruct (find_all is_file tree f chains) as [ps|] eqn:G; try discriminate;
      injection H as <-; destruct (IH ps eq_refl) as [I1 I2]; (split; [intros x [<-|I]; [congruence|auto]|]); intro p; split.
    + intros [<-|I].
      * exists c, cands. split; [left; reflexivity|]. split; [exact E|]. apply (find_first (fun q => is_file (path_join tree q))). exact F.
      * apply I2 in I. destruct I as [c' [cands' [J K]]]. exists c', cands'. split; [right; exact J|exact K].
    + intros [c' [cands' [[<-|J] [K1 K2]]]].
      * left. rewrite E in K1. injection K1 as <-. apply (find_first (fun q => is_file (path_join tree q))) in K2. congruence.
      * right. apply I2. eauto.
    + intro I. apply I2 in I. destruct I as [c' [cands' [J K]]]. exists c', cands'. split; [right; exact J|exact K].
    + intros [c' [cands' [[<-|J] [K1 K2]]]].
      * rewrite E in K1. injection K1 as <-. apply (find_first (fun q => is_file (path_join tree q))) in K2. congruence.
      * apply I2. eauto.
Qed.

Lemma one_file_inv : forall e f kept mods, one e = TFile f kept mods ->
  exists root ms ext, load read tree (fst e) package (snd e) = Loaded f /\ parse (sf_code f) = Some root
    /\ walk_syntax f errs skip_calls root = Some (ms, ext)
    /\ retain_allowed re_match opts ms = Some kept /\ find_all is_file tree f ext = Some mods.
Proof.
  intros e f kept mods H. unfold one_file in H.
  destruct (load read tree (fst e) package (snd e)) as [| |f'] eqn:L; try discriminate.
  destruct (parse (sf_code f')) as [root|] eqn:P; [|discriminate].
  destruct (walk_syntax f' errs skip_calls root) as [[ms ext]|] eqn:W; [|discriminate].
  destruct (retain_allowed re_match opts ms) as [k|] eqn:R; [|discriminate].
  destruct (find_all is_file tree f' ext) as [m|] eqn:F; [|discriminate].
  injection H as <- <- <-. exists root, ms, ext. auto.
Qed.

Lemma kids_sound : forall e c, In c (kids e) -> Kid e c.
Proof.
  intros e c H. unfold kids in H. destruct (one e) as [| | |f kept mods] eqn:E; try contradiction.
  apply in_map_iff in H. destruct H as [p [<- I]].
  destruct (one_file_inv _ _ _ _ E) as [root [ms [ext [L [P [W [R F]]]]]]].
  destruct (find_all_in _ _ _ F) as [_ K]. apply K in I. destruct I as [chain [cands [J [C X]]]].
  exists f, root, chain, cands. repeat split; auto. apply (walk_declared _ _ _ _ _ _ W). exact J.
Qed.
Lemma kids_complete : forall e c, fine e -> Kid e c -> In c (kids e).
Proof.
  intros e [p b] [F1 F2] [f [root [chain [cands [L [P [D [C [X T]]]]]]]]]. cbn [fst snd] in *. subst b.
  unfold kids, one_file in *. rewrite L, P in *.
  destruct (walk_syntax f errs skip_calls root) as [[ms ext]|] eqn:W; [|congruence].
  destruct (retain_allowed re_match opts ms) as [k|] eqn:R; [|congruence].
  destruct (find_all is_file tree f ext) as [mods|] eqn:F; [|congruence].
  apply in_map_iff. exists p. split; [reflexivity|]. apply (proj2 (find_all_in _ _ _ F)). exists chain, cands.
  split; [apply (walk_declared _ _ _ _ _ _ W); exact D|]. auto.
Qed.

Lemma fifo_in : forall q v, fifo q v -> (forall e, In e q -> In e v) /\ (forall e c, In e v -> In c (kids e) -> In c v)
  /\ (forall e, In e v -> In e q \/ exists p, In p v /\ In e (kids p)).
Proof.
  intros q v F. induction F as [|e q v F [A [B C]]].
  - split; [auto|]. split; [contradiction|]. contradiction.
  - split; [|split].
    + intros x [<-|I]; [left; reflexivity|]. right. apply A. apply in_or_app. auto.
    + intros x c [<-|I] K; right.
      * apply A. apply in_or_app. auto.
      * eapply B; eauto.
    + intros x [<-|I]; [left; left; reflexivity|]. destruct (C x I) as [J|[p [J K]]].
      * apply in_app_or in J. destruct J as [J|J]; [left; right; exact J|]. right. exists e. split; [left; reflexivity|exact J].
      * right. exists p. split; [right; exact J|exact K].
Qed.

Lemma fifo_closed : forall q v tops, fifo q v -> (forall e, In e q -> Reach tops e) -> forall e, In e v -> Reach tops e.
Proof.
  intros q v tops F. induction F as [|e q v F IH]; intros H x I; [contradiction|].
  destruct I as [<-|I]; [apply H; left; reflexivity|]. apply IH; [|exact I].
  intros y J. apply in_app_or in J. destruct J as [J|J]; [apply H; right; exact J|].
  eapply reach_kid; [apply H; left; reflexivity|apply kids_sound; exact J].
Qed.

Lemma run_reach : forall fuel q v ms fs, run fuel q = WOk v ms fs -> forall e, In e v <-> Reach q e.
Proof.
  intros fuel q v ms fs H e. destruct (run_ok _ _ _ _ _ H) as [F [G _]]. destruct (fifo_in _ _ F) as [A [B _]]. split.
  - apply (fifo_closed q v q F). intros x I. apply reach_top. exact I.
  - intro R. induction R as [e I|e c R IH K]; [apply A; exact I|]. eapply B; [exact IH|]. apply kids_complete; auto.
Qed.

Lemma level_app : forall n a b, level n (a ++ b) = level n a ++ level n b.
Proof. induction n as [|n IH]; intros a b; cbn [level]; [reflexivity|]. rewrite flat_map_app. apply IH. Qed.
Lemma level_nil : forall n, level n [] = [].
Proof. induction n; auto. Qed.
Lemma level_add : forall a b q, level (a + b) q = level b (level a q).
Proof. induction a as [|a IH]; intros b q; cbn; auto. Qed.
Lemma level_more : forall n m q, n <= m -> level n q = [] -> level m q = [].
Proof. intros n m q L H. replace m with (n + (m - n)) by lia. rewrite level_add, H. apply level_nil. Qed.

Lemma list_depth : forall l, (forall e, In e l -> exists n, level n [e] = []) -> exists n, level n l = [].
Proof.
  induction l as [|e l IH]; intro H; [exists 0; reflexivity|].
  destruct IH as [n Hn]; [intros x I; apply H; right; exact I|]. destruct (H e (or_introl eq_refl)) as [m Hm].
  exists (n + m). change (e :: l) with ([e] ++ l). rewrite level_app.
  rewrite (level_more m _ [e]) by (auto; lia). rewrite (level_more n _ l) by (auto; lia). reflexivity.
Qed.
Lemma acc_depth : forall e, Acc (fun c p => Kid p c) e -> exists n, level n [e] = [].
Proof.
  intros e A. induction A as [e _ IH].
  destruct (list_depth (kids e)) as [n Hn]; [intros c I; apply IH; apply kids_sound; exact I|].
  exists (S n). cbn [level flat_map]. rewrite app_nil_r. exact Hn.
Qed.

Lemma run_terminates : forall q, (forall e, In e q -> Acc (fun c p => Kid p c) e) ->
  exists fuel, forall fuel', fuel <= fuel' -> run fuel' q = run fuel q /\ run fuel q <> WFuel.
Proof.
  intros q H. destruct (list_depth q) as [n Hn]; [intros e I; apply acc_depth; auto|].
  destruct (levels_fifo _ _ Hn) as [v F]. exists (S (length v)). intros fuel' L.
  assert (N1 : run (S (length v)) q <> WFuel) by (eapply run_fifo; [exact F|lia]).
  split; [|exact N1]. apply run_mono; auto.
Qed.

(** Mutants. *)
Lemma retain_in : forall ms l, retain_allowed re_match opts ms = Some l -> forall m, In m l <-> In m ms /\ allows_mutant re_match opts m = Some true.
Proof.
  induction ms as [|x ms IH]; intros l H m; cbn [retain_allowed] in H.
  - injection H as <-. cbn [In]. tauto.
  - destruct (allows_mutant re_match opts x) as [[|]|] eqn:A; destruct (retain_allowed re_match opts ms) as [l'|] eqn:R; try discriminate; injection H as <-; specialize (IH l' eq_refl m); cbn [In].
    + split; [intros [<-|I]; [auto|tauto]|]. intros [[<-|I] B]; [left; reflexivity|right; tauto].
    + split; [tauto|]. intros [[<-|I] B]; [congruence|tauto].
Qed.

Lemma run_mutants : forall fuel q v ms fs, run fuel q = WOk v ms fs ->
  forall m, In m ms <-> exists e f root,
    Reach q e /\ load read tree (fst e) package (snd e) = Loaded f /\ parse (sf_code f) = Some root
    /\ allows_source_file_path opts (sf_path f) = true
    /\ offered f errs skip_calls root m /\ allows_mutant re_match opts m = Some true.
Proof.
  intros fuel q v ms fs H m. pose proof (run_reach _ _ _ _ _ H) as R. destruct (run_ok _ _ _ _ _ H) as [F [G [-> ->]]].
  rewrite in_flat_map. split.
  - intros [e [I K]]. unfold keep in K. destruct (one e) as [| | |f kept mods] eqn:E; try contradiction.
    destruct (allows_source_file_path opts (sf_path f)) eqn:A; [|contradiction].
    destruct (one_file_inv _ _ _ _ E) as [root [mm [ext [L [P [W [Rt _]]]]]]].
    apply (retain_in _ _ Rt) in K. destruct K as [K1 K2]. exists e, f, root. repeat split; auto.
    + apply R. exact I.
    + apply (walk_offered _ _ _ _ _ _ W). exact K1.
  - intros [e [f [root [Re [L [P [A [O B]]]]]]]]. apply R in Re. exists e. split; [exact Re|].
    destruct (G e Re) as [G1 G2]. unfold keep. unfold one_file in *. rewrite L, P in *.
    destruct (walk_syntax f errs skip_calls root) as [[mm ext]|] eqn:W; [|congruence].
    destruct (retain_allowed re_match opts mm) as [k|] eqn:Rt; [|congruence].
    destruct (find_all is_file tree f ext) as [mods|] eqn:Fa; [|congruence].
    rewrite A. apply (retain_in _ _ Rt). split; [|exact B]. apply (walk_offered _ _ _ _ _ _ W). exact O.
Qed.

Lemma run_files : forall fuel q v ms fs, run fuel q = WOk v ms fs ->
  forall f, In f fs <-> exists e, Reach q e /\ load read tree (fst e) package (snd e) = Loaded f /\ allows_source_file_path opts (sf_path f) = true.
Proof.
  intros fuel q v ms fs H f. pose proof (run_reach _ _ _ _ _ H) as R. destruct (run_ok _ _ _ _ _ H) as [F [G [-> ->]]].
  rewrite in_flat_map. split.
  - intros [e [I K]]. unfold listed in K. destruct (one e) as [| | |f' kept mods] eqn:E; try contradiction.
    destruct (allows_source_file_path opts (sf_path f')) eqn:A; [|contradiction]. destruct K as [<-|[]].
    destruct (one_file_inv _ _ _ _ E) as [root [mm [ext [L _]]]]. exists e. split; [apply R; exact I|]. auto.
  - intros [e [Re [L A]]]. apply R in Re. exists e. split; [exact Re|]. destruct (G e Re) as [G1 G2].
    unfold listed. unfold one_file in *. rewrite L in *.
    destruct (parse (sf_code f)) as [root|]; [|congruence].
    destruct (walk_syntax f errs skip_calls root) as [[mm ext]|]; [|congruence].
    destruct (retain_allowed re_match opts mm); [|congruence].
    destruct (find_all is_file tree f ext); [|congruence]. rewrite A. left. reflexivity.
Qed.
End Queue.

Section Levels.
Variable read : text -> option text.
Variable is_file : text -> bool.
Variable parse : text -> option node.
Variable re_match : text -> text -> bool.
Variable tree : text.
Variable opts : options.
Variable errs : list toks.
Variable skip_calls : list text.
Variable package : text.
Notation K := (kids read is_file parse re_match tree opts errs skip_calls package).
Notation Kid := (kid read is_file parse tree skip_calls package).
Notation Fifo := (fifo read is_file parse re_match tree opts errs skip_calls package).

Lemma next_kids : forall q, (forall e, In e q -> fine read is_file parse re_match tree opts errs skip_calls package e) ->
  next_level Kid q (flat_map K q).
Proof.
  induction q as [|e q IH]; intro G; [constructor|]. cbn [flat_map]. constructor.
  - intro c. split; [apply kids_sound|apply kids_complete; apply G; left; reflexivity].
  - apply IH. intros x I. apply G. right. exact I.
Qed.

Lemma fifo_is_levels : forall k q v, length v <= k -> Fifo q v ->
  (forall e, In e v -> fine read is_file parse re_match tree opts errs skip_calls package e) -> levels Kid q v.
Proof.
  induction k as [|k IH]; intros q v L F G.
  - destruct v; [|cbn in L; lia]. inversion F; subst. constructor.
  - destruct q as [|e q]; [inversion F; subst; constructor|].
    assert (F' : Fifo ((e :: q) ++ []) v) by (rewrite app_nil_r; exact F).
    destruct (fifo_split _ _ _ _ _ _ _ _ _ _ _ _ F') as [w [-> Fw]]. cbn [app] in Fw.
    apply lv_cons with (q' := flat_map K (e :: q)).
    + discriminate.
    + apply next_kids. intros x I. apply G. apply in_or_app. left. exact I.
    + apply IH; [rewrite app_length in L; cbn [length] in L; lia|exact Fw|]. intros x I. apply G. apply in_or_app. right. exact I.
Qed.

Lemma run_levels : forall fuel q v ms fs,
  walk_queue read is_file parse re_match tree opts errs skip_calls fuel package q = WOk v ms fs -> levels Kid q v.
Proof.
  intros fuel q v ms fs H. destruct (run_ok _ _ _ _ _ _ _ _ _ _ _ _ _ _ H) as [F [G _]].
  apply (fifo_is_levels (length v)); auto.
Qed.

Lemma run_err : forall fuel q, walk_queue read is_file parse re_match tree opts errs skip_calls fuel package q = WErr ->
  exists e, reach read is_file parse tree skip_calls package q e
    /\ (load read tree (fst e) package (snd e) = LoadErr
        \/ exists f, load read tree (fst e) package (snd e) = Loaded f /\ parse (sf_code f) = None).
Proof.
  assert (Z : forall fuel q tops, (forall e, In e q -> reach read is_file parse tree skip_calls package tops e) ->
    walk_queue read is_file parse re_match tree opts errs skip_calls fuel package q = WErr ->
    exists e, reach read is_file parse tree skip_calls package tops e
    /\ (load read tree (fst e) package (snd e) = LoadErr
        \/ exists f, load read tree (fst e) package (snd e) = Loaded f /\ parse (sf_code f) = None)).
  { induction fuel as [|fuel IH]; intros q tops R H; [discriminate|]. cbn [walk_queue] in H.
    destruct q as [|e q]; [discriminate|].
    destruct (one_file read is_file parse re_match tree opts errs skip_calls package e) as [| | |f kept mods] eqn:E; try discriminate.
    - exists e. split; [apply R; left; reflexivity|]. unfold one_file in E.
      destruct (load read tree (fst e) package (snd e)) as [| |f] eqn:L; try discriminate; [auto|]. right. exists f. split; [reflexivity|].
      destruct (parse (sf_code f)) as [root|] eqn:P; [|reflexivity].
      destruct (walk_syntax f errs skip_calls root) as [[ms ext]|]; [|discriminate].
      destruct (retain_allowed re_match opts ms); [|discriminate]. destruct (find_all is_file tree f ext); discriminate.
    - apply (IH q tops); [intros x I; apply R; right; exact I|].
      destruct (walk_queue read is_file parse re_match tree opts errs skip_calls fuel package q); try discriminate; reflexivity.
    - apply (IH (q ++ map (fun p => (p, false)) mods) tops).
      + intros x I. apply in_app_or in I. destruct I as [I|I]; [apply R; right; exact I|].
        eapply reach_kid; [apply R; left; reflexivity|]. apply (kids_sound read is_file parse re_match tree opts errs skip_calls package).
        unfold kids. rewrite E. exact I.
      + destruct (walk_queue read is_file parse re_match tree opts errs skip_calls fuel package (q ++ map (fun p => (p, false)) mods)); try discriminate; try reflexivity.
        destruct (allows_source_file_path opts (sf_path f)); discriminate. }
  intros fuel q H. apply (Z fuel q q); [|exact H]. intros e I. apply reach_top. exact I.
Qed.

(** The whole tree. *)
Lemma tree_mutants : forall fuel ps v ms fs,
  walk_tree read is_file parse re_match tree opts errs skip_calls fuel ps = WOk v ms fs ->
  forall m, In m ms <-> exists p e f root, In p ps
    /\ reach read is_file parse tree skip_calls (pk_name p) (map (fun t => (t, true)) (pk_tops p)) e
    /\ load read tree (fst e) (pk_name p) (snd e) = Loaded f /\ parse (sf_code f) = Some root
    /\ allows_source_file_path opts (sf_path f) = true
    /\ offered f errs skip_calls root m /\ allows_mutant re_match opts m = Some true.
Proof.
  intros fuel ps. induction ps as [|p ps IH]; intros v ms fs H m; cbn [walk_tree] in H.
  - injection H as <- <- <-. split; [contradiction|]. intros [p [e [f [root [[] _]]]]].
  - destruct (walk_package read is_file parse re_match tree opts errs skip_calls fuel p) as [v1 ms1 fs1| | |] eqn:W; try discriminate.
    destruct (walk_tree read is_file parse re_match tree opts errs skip_calls fuel ps) as [v2 ms2 fs2| | |] eqn:T; try discriminate.
    injection H as <- <- <-. rewrite in_app_iff. rewrite (IH _ _ _ eq_refl m).
    unfold walk_package in W. rewrite (run_mutants _ _ _ _ _ _ _ _ _ _ _ _ _ _ W m). split.
    + intros [[e [f [root X]]]|[p' [e [f [root [I X]]]]]].
      * exists p, e, f, root. split; [left; reflexivity|exact X].
      * exists p', e, f, root. split; [right; exact I|exact X].
    + intros [p' [e [f [root [[<-|I] X]]]]]; [left; eauto|right; exists p', e, f, root; auto].
Qed.
End Levels.

(** ** Agreement with the compiler *)
Lemma join_shape : forall d n, is_absolute d = false -> is_absolute n = false ->
  (path_join d n = n \/ exists x, path_join d n = x ++ [SLASH] ++ n) /\ is_absolute (path_join d n) = false.
Proof.
  intros d n D R. unfold path_join. rewrite R. destruct d as [|c d]; [split; [left; reflexivity|exact R]|].
  destruct (ends_with [SLASH] (c :: d)) eqn:E.
  - apply ends_with_slash in E. destruct E as [a E]. split.
    + right. exists a. rewrite E. rewrite <- app_assoc. reflexivity.
    + rewrite absolute_app by discriminate. exact D.
  - split; [right; exists (c :: d); reflexivity|]. rewrite absolute_app by discriminate. exact D.
Qed.

Lemma file_path_join : forall d n, is_absolute d = false -> ok_name n -> stem n <> [DOT] -> stem n <> [DOT; DOT] -> file_path (path_join d n) n.
Proof.
  intros d n D Ok S1 S2. assert (R : is_absolute n = false) by (rewrite <- (app_nil_r n); apply name_relative; exact Ok).
  destruct (join_shape d n D R) as [J A]. destruct Ok as [O1 [O2 [O3 O4]]].
  split; [exact A|]. split; [exact J|]. tauto.
Qed.

Lemma file_path_join2 : forall d m n, is_absolute d = false -> ok_name m -> ok_name n -> stem n <> [DOT] -> stem n <> [DOT; DOT] ->
  file_path (path_join d (m ++ [SLASH] ++ n)) n.
Proof.
  intros d m n D Om Ok S1 S2.
  assert (R : is_absolute (m ++ [SLASH] ++ n) = false) by (apply name_relative; exact Om).
  destruct (join_shape d _ D R) as [J A]. destruct Ok as [O1 [O2 [O3 O4]]].
  split; [exact A|]. split; [|tauto]. right. destruct J as [->|[x ->]].
  - exists m. reflexivity.
  - exists (x ++ [SLASH] ++ m). rewrite <- !app_assoc. reflexivity.
Qed.

Lemma trim_prefix : forall r, exists s, r = s ++ trim_rev r.
Proof.
  assert (Z : forall k r, length r <= k -> exists s, r = s ++ trim_rev r).
  { induction k as [|k IH]; intros r L; (destruct r as [|c r]; [exists []; reflexivity|]); [cbn in L; lia|].
    cbn [trim_rev]. cbn [length] in L.
    destruct (N.eqb c SLASH); [destruct (IH r) as [s E]; [lia|]; exists (c :: s); cbn [app]; congruence|].
    destruct (N.eqb c DOT); [|exists []; reflexivity].
    destruct r as [|d r]; [exists []; reflexivity|]. destruct (N.eqb d SLASH); [|exists []; reflexivity].
    destruct (IH (d :: r)) as [s E]; [lia|]. exists (c :: s). cbn [app]. congruence. }
  intro r. apply (Z (length r)). lia.
Qed.

Lemma base_relative : forall p n, file_path p n ->
  (forall d, file_parent p = Some d -> is_absolute d = false) /\ is_absolute (without_extension p) = false.
Proof.
  intros p n FP. pose proof FP as [R [P [S [A [B [C [S1 S2]]]]]]]. 
  assert (NR : ~ In SLASH (rev n)) by (intro I; apply in_rev in I; contradiction).
  assert (Stem : ~ In SLASH (stem n)).
  { unfold stem. destruct (text_eqb n [DOT; DOT]); [exact S|].
    destruct (split_once DOT (rev n)) as [[x [|y z]]|] eqn:Sp; try exact S.
    apply split_once_some in Sp. destruct Sp as [Sp _]. intro I. apply NR. rewrite Sp. apply in_or_app. right. right.
    apply in_rev. exact I. }
  assert (NoSlash : forall t, ~ In SLASH t -> is_absolute t = false).
  { intros [|c t] H; [reflexivity|]. destruct (is_absolute (c :: t)) eqn:E; [|reflexivity]. unfold is_absolute in E.
    apply starts_with_iff in E. destruct E as [r E]. injection E as -> _. exfalso. apply H. left. reflexivity. }
  destruct P as [->|[d ->]].
  - assert (Sp : split_once SLASH (rev n) = None) by (apply split_once_none; exact NR).
    unfold file_parent, without_extension. rewrite Sp. split; [|apply NoSlash; exact Stem].
    intros d H. destruct n; [discriminate|]. injection H as <-. reflexivity.
  - assert (D : d <> []) by (intros ->; discriminate R).
    assert (Sp : split_once SLASH (rev (d ++ [SLASH] ++ n)) = Some (rev n, rev d)).
    { rewrite !rev_app_distr. cbn [rev app]. rewrite <- app_assoc. apply split_once_at. exact NR. }
    assert (Rd : is_absolute d = false) by (rewrite absolute_app in R by exact D; exact R).
    unfold file_parent, without_extension. rewrite Sp. split.
    + intros d' H. injection H as <-. destruct (trim_prefix (rev d)) as [s E].
      assert (E' : d = rev (trim_rev (rev d)) ++ rev s) by (rewrite <- rev_app_distr, <- E; symmetry; apply rev_involutive).
      destruct (rev (trim_rev (rev d))) as [|c t] eqn:Q; [reflexivity|]. rewrite E' in Rd. rewrite absolute_app in Rd by discriminate. exact Rd.
    + rewrite !rev_involutive. rewrite absolute_app by exact D. exact Rd.
Qed.

Lemma fold_relative : forall ns d, is_absolute d = false -> (forall n, In n ns -> is_absolute n = false) -> is_absolute (fold_left path_join ns d) = false.
Proof.
  induction ns as [|n ns IH]; intros d D H; cbn [fold_left]; [exact D|]. apply IH; [|intros x I; apply H; right; exact I].
  apply join_shape; [exact D|]. apply H. left. reflexivity.
Qed.

Lemma simple_plain : forall chain, simple_chain chain -> plain_chain chain.
Proof.
  intros chain H m I. destruct (H m I) as [P [S [D [N1 N2]]]]. split; [exact S|]. split; [exact N1|].
  split; [intro E; apply D; rewrite E; left; reflexivity|]. split; [intro E; apply D; rewrite E; left; reflexivity|].
  intros p E. congruence.
Qed.

Lemma ok_rs : forall n, ~ In SLASH n -> n <> [] -> ok_name (n ++ tx ".rs").
Proof.
  intros n S N1. split; [|split; [|split]].
  - intro I. apply in_app_or in I. destruct I as [I|I]; [contradiction|]. cbn in I. intuition discriminate.
  - destruct n; discriminate.
  - intro X. apply (f_equal (@length N)) in X. rewrite app_length in X. cbn in X. lia.
  - intro X. apply (f_equal (@length N)) in X. rewrite app_length in X. cbn in X. lia.
Qed.

(** Candidates are again inner paths. *)
Lemma candidates_inner : forall f n parents child cands,
  inner_path (sf_path f) n -> simple_chain (parents ++ [child]) ->
  mod_candidates f (parents ++ [child]) = Some cands ->
  forall c, In c cands -> exists n', inner_path c n' /\ (n' = mn_name child ++ tx ".rs" \/ n' = tx "mod.rs").
Proof.
  intros f n parents child cands [FP IP] SC H c I.
  pose proof (simple_plain _ SC) as PC.
  destruct (SC child) as [CP [CS [CD [CN CM]]]]; [apply in_or_app; right; left; reflexivity|].
  assert (OkC : ok_name (mn_name child)).
  { destruct (PC child) as [A [B [C [D _]]]]; [apply in_or_app; right; left; reflexivity|]. repeat split; auto. }
  assert (As : exists pl, assumed f pl /\ pl_dir pl ++ [Normal n] = steps (sf_path f)).
  { destruct (file_path_facts _ _ FP) as [d [St _]].
    destruct (sf_top f) eqn:T.
    - exists (mkPlace (steps d) None). split; [eapply as_dir; [exact St|auto]|auto].
    - destruct (text_eqb n (tx "mod.rs")) eqn:E.
      + apply text_eqb_eq in E. exists (mkPlace (steps d) None). split; [eapply as_dir; [exact St|auto]|auto].
      + apply text_eqb_neq in E. exists (mkPlace (steps d) (Some (stem n))). split; [eapply as_stem; [exact St|exact T|exact E]|auto]. }
  destruct As as [pl [As Ed]].
  destruct (candidates_compiler f n pl parents child FP PC As) as [cands' [H' St]].
  { right. destruct parents as [|m ms]; [exact Logic.I|]. apply (SC m). left. reflexivity. }
  rewrite H in H'. injection H' as <-.
  (* shape *)
  assert (Shape : exists b, is_absolute b = false /\ cands = [path_join b (mn_name child ++ tx ".rs"); path_join b (mn_name child ++ tx "/mod.rs")]).
  { unfold mod_candidates in H. rewrite rev_app_distr in H. cbn [rev app] in H. rewrite rev_involutive in H. rewrite CP in H.
    destruct (base_relative _ _ FP) as [B1 B2].
    assert (FR : forall x, In x (map fs_name parents) -> is_absolute x = false).
    { intros x J. apply in_map_iff in J. destruct J as [m [<- J]]. apply (fs_relative (parents ++ [child])); [exact PC|apply in_or_app; auto]. }
    destruct (sf_top f || named_mod_rs (sf_path f) || false && match parents with [] => true | _ => false end).
    - destruct (file_parent (sf_path f)) as [d|] eqn:E; [|discriminate]. injection H as <-. eexists. split; [|reflexivity].
      apply fold_relative; auto.
    - injection H as <-. eexists. split; [|reflexivity]. apply fold_relative; auto. }
  destruct Shape as [b [Rb ->]].
  assert (Inner : forall x, In x (compiler_lookups pl parents child) -> forall s, In s x -> exists t, s = Normal t).
  { assert (OD : forall s, In s (own_dir pl) -> exists t, s = Normal t).
    { intros s J. unfold own_dir in J. apply in_app_or in J. destruct J as [J|J].
      - apply IP. rewrite <- Ed. apply in_or_app. auto.
      - destruct (pl_rel pl); [destruct J as [<-|[]]; eauto|contradiction]. }
    assert (EN : forall ms pl0, simple_chain ms -> (forall s, In s (own_dir pl0) -> exists t, s = Normal t) -> forall s, In s (own_dir (fold_left enter ms pl0)) -> exists t, s = Normal t).
    { induction ms as [|m ms IH]; intros pl0 Sm O s J; cbn [fold_left] in J; [auto|].
      eapply IH; [intros x Ix; apply Sm; right; exact Ix| |exact J]. intros s' J'. unfold enter in J'.
      destruct (Sm m (or_introl eq_refl)) as [E _]. rewrite E in J'. unfold own_dir in J'. cbn [pl_dir pl_rel] in J'.
      rewrite app_nil_r in J'. apply in_app_or in J'. destruct J' as [J'|[<-|[]]]; [apply O; exact J'|eauto]. }
    intros x J s J'. unfold compiler_lookups, lookups in J. rewrite CP in J.
    assert (O2 : forall s, In s (own_dir (fold_left enter parents pl)) -> exists t, s = Normal t).
    { apply EN; [intros m Im; apply SC; apply in_or_app; auto|exact OD]. }
    destruct J as [<-|[<-|[]]]; apply in_app_or in J'; destruct J' as [J'|J']; auto; cbn [In] in J'; intuition; subst; eauto. }
  assert (Ic : forall s, In s (steps c) -> exists t, s = Normal t).
  { apply Inner. rewrite <- St. apply in_map. exact I. }
  destruct I as [<-|[<-|[]]].
  - exists (mn_name child ++ tx ".rs"). split; [|auto]. split; [|exact Ic]. apply file_path_join; [exact Rb|apply ok_rs; auto| |].
    + rewrite stem_rs by exact CN. intro E. apply CD. rewrite E. left. reflexivity.
    + rewrite stem_rs by exact CN. intro E. apply CD. rewrite E. left. reflexivity.
  - exists (tx "mod.rs"). split; [|auto]. split; [|exact Ic]. change (tx "/mod.rs") with ([SLASH] ++ tx "mod.rs").
    apply file_path_join2; [exact Rb|exact OkC| | |].
    + repeat split; cbn; try discriminate. intuition discriminate.
    + vm_compute. discriminate.
    + vm_compute. discriminate.
Qed.

Lemma inner_not_outside : forall p n, inner_path p n -> (0 <? ascent p)%Z = false.
Proof.
  intros p n [_ H]. destruct (0 <? ascent p)%Z eqn:E; [|reflexivity]. apply Z.ltb_lt in E. apply ascent_pos in E.
  destruct E as [a [b [E C]]]. exfalso.
  assert (Z : forall a, (forall c, In c a -> c <> Parent) -> Forall (fun c => c = Root \/ c = Cur \/ exists t, c = Normal t /\ t <> [DOT; DOT]) a -> (climb a <= 0)%Z).
  { clear. induction a as [|c a IH]; intros N1 F; [cbn; lia|]. inversion F as [|x y G1 G2]; subst. cbn [climb].
    specialize (IH (fun c I => N1 c (or_intror I)) G2).
    destruct G1 as [->|[->|[t [-> G]]]].
    - change (step_of Root) with (-1)%Z. lia.
    - change (step_of Cur) with 0%Z. lia.
    - unfold step_of. cbn [comp_str]. apply text_eqb_neq in G. rewrite G. destruct (text_eqb t [DOT]); lia. }
  assert (Q : (climb a <= 0)%Z).
  { apply Z.
    - intros c I ->. assert (J : In Parent (steps p)).
      { unfold steps, tidy. apply filter_In. split; [rewrite E; apply in_or_app; auto|reflexivity]. }
      destruct (H _ J) as [t X]. discriminate.
    - apply Forall_forall. intros c I. destruct c as [| | |t]; auto.
      + assert (J : In Parent (steps p)). { unfold steps, tidy. apply filter_In. split; [rewrite E; apply in_or_app; auto|reflexivity]. }
        destruct (H _ J) as [t X]. discriminate.
      + right. right. exists t. split; [reflexivity|]. destruct (components_shape p) as [h [tl [Ec [Hh [_ T]]]]].
        rewrite Ec in E. assert (J : In (Normal t) (h ++ tl)) by (rewrite E; apply in_or_app; auto).
        apply in_app_or in J. destruct J as [J|J].
        * destruct Hh as [->|[->| ->]]; [contradiction| |]; destruct J as [J|[]]; discriminate.
        * destruct (T _ J) as [J'|[u [J' G]]]; [discriminate|]. injection J' as ->. apply G. }
  lia.
Qed.

Section Agree.
Variable read : text -> option text.
Variable is_file : text -> bool.
Variable parse : text -> option node.
Variable tree : text.
Variable skip_calls : list text.
Variable package : text.
Variable content : list comp -> option text.
Variable tops : list text.
Hypothesis Hread : forall p, is_absolute p = false -> read (path_join tree p) = content (steps p).
Hypothesis Hfile : forall p, is_absolute p = false -> (is_file (path_join tree p) = true <-> content (steps p) <> None).
Hypothesis Htops : forall p, In p tops -> exists n, inner_path p n.
Hypothesis Hsimple : forall s code root chain, content s = Some code -> parse (crlf_to_lf code) = Some root -> declared skip_calls root chain -> simple_chain chain.
Notation Reach := (reach read is_file parse tree skip_calls package (map (fun t => (t, true)) tops)).
Notation Compiled := (compiled content parse skip_calls tops).

Definition stands (e : text * bool) (s : list comp) (pl : place) : Prop :=
  exists n, inner_path (fst e) n /\ steps (fst e) = s /\ forall code, assumed (mkSF package (fst e) code (snd e)) pl.

Lemma split_end : forall (A : Type) (l : list A), l <> [] -> exists a x, l = a ++ [x].
Proof. intros A l H. destruct (exists_last H) as [a [x E]]. eauto. Qed.

Lemma first_map : forall (cands : list text) P Q c, (forall x, In x cands -> (P x <-> Q (steps x))) ->
  first_existing P cands c -> exists a b, map steps cands = a ++ steps c :: b /\ Q (steps c) /\ forall x, In x a -> ~ Q x.
Proof.
  intros cands P Q c H [a [b [-> [Pc N1]]]]. exists (map steps a), (map steps b). rewrite map_app. split; [reflexivity|]. split.
  - apply H; [apply in_or_app; right; left; reflexivity|exact Pc].
  - intros x I Qx. apply in_map_iff in I. destruct I as [y [<- I]]. apply (N1 y I). apply H; [apply in_or_app; left; exact I|exact Qx].
Qed.

Lemma first_unmap : forall (cands : list text) P (Q : list comp -> Prop) s a b, (forall x, In x cands -> (P x <-> Q (steps x))) ->
  map steps cands = a ++ s :: b -> Q s -> (forall x, In x a -> ~ Q x) -> exists c, first_existing P cands c /\ steps c = s.
Proof.
  intros cands P Q s a. revert cands. induction a as [|y a IH]; intros cands b H E Qs N1; destruct cands as [|c cands]; try discriminate; cbn [map app] in E; injection E as E1 E2.
  - exists c. split; [|exact E1]. exists [], cands. split; [reflexivity|]. split; [|intros q []]. apply H; [left; reflexivity|]. rewrite E1. exact Qs.
  - destruct (IH cands b (fun x I => H x (or_intror I)) E2 Qs (fun x I => N1 x (or_intror I))) as [c' [[a' [b' [-> [Pc N2]]]] Ec]].
    exists c'. split; [|exact Ec]. exists (c :: a'), b'. split; [reflexivity|]. split; [exact Pc|].
    intros q [<-|I]; [|apply N2; exact I]. intro Pq. apply (N1 y (or_introl eq_refl)). rewrite <- E1. apply (proj1 (H c (or_introl eq_refl)) Pq).
Qed.

Lemma not_none : forall (A : Type) (o : option A), ~ o <> None -> o = None.
Proof. intros A [x|] H; [exfalso; apply H; discriminate|reflexivity]. Qed.

Lemma assumed_code : forall p t c1 c2 pl, assumed (mkSF package p c1 t) pl -> assumed (mkSF package p c2 t) pl.
Proof.
  intros p t c1 c2 pl H. inversion H as [f d n E C Ef Ep|f d n E T C Ef Ep]; subst.
  - eapply as_dir; eauto.
  - eapply (as_stem (mkSF package p c2 t)); eauto.
Qed.

(** One step, in both directions. *)
Lemma kid_place : forall c child parents pl f n cands,
  inner_path (sf_path f) n -> simple_chain (parents ++ [child]) -> assumed f pl ->
  mod_candidates f (parents ++ [child]) = Some cands -> In c cands ->
  exists pl', loaded_place child (steps c) pl' /\ stands (c, false) (steps c) pl'.
Proof.
  intros c child parents pl f n cands IP SC As H I.
  destruct (candidates_inner f n parents child cands IP SC H c I) as [n' [IPc Nn]].
  destruct (SC child) as [CP [CS [CD [CN CM]]]]; [apply in_or_app; right; left; reflexivity|].
  destruct (candidates_compiler f n pl parents child (proj1 IP) (simple_plain _ SC) As) as [cands' [H' St]].
  { right. destruct parents as [|m ms]; [exact Logic.I|]. apply (SC m). left. reflexivity. }
  rewrite H in H'. injection H' as <-.
  assert (J : In (steps c) (compiler_lookups pl parents child)) by (rewrite <- St; apply in_map; exact I).
  unfold compiler_lookups, lookups in J. rewrite CP in J.
  assert (L : exists pl', loaded_place child (steps c) pl').
  { destruct J as [<-|[<-|[]]]; eexists; [apply lp_plain|apply lp_mod]; exact CP. }
  destruct L as [pl' L]. exists pl'. split; [exact L|]. exists n'. split; [exact IPc|]. split; [reflexivity|].
  intro code. cbn [fst snd].
  destruct (file_path_facts _ _ (proj1 IPc)) as [d [Sd _]].
  set (g := mkSF package c code false).
  assert (Ag : exists q, assumed g q).
  { destruct (text_eqb n' (tx "mod.rs")) eqn:E.
    - apply text_eqb_eq in E. eexists. eapply as_dir; [exact Sd|right; exact E].
    - apply text_eqb_neq in E. eexists. eapply as_stem; [exact Sd|reflexivity|exact E]. }
  destruct Ag as [q Ag]. replace pl' with q; [exact Ag|].
  eapply (place_agrees g n' q pl' child); eauto. apply IPc.
Qed.

Lemma agree_forward : forall e, Reach e -> exists pl, stands e (steps (fst e)) pl /\ Compiled (steps (fst e)) pl.
Proof.
  intros e R. induction R as [e I|e c R IH Kd].
  - apply in_map_iff in I. destruct I as [p [<- I]]. cbn [fst]. destruct (Htops p I) as [n IP].
    destruct (file_path_facts _ _ (proj1 IP)) as [d [St _]]. exists (mkPlace (steps d) None). split.
    + exists n. split; [exact IP|]. split; [reflexivity|]. intro code. eapply as_dir; [exact St|left; reflexivity].
    + eapply co_top; eauto.
  - destruct IH as [pl [[n [IP [_ As]]] Co]].
    destruct Kd as [f [root [chain [cands [L [P [D [Mc [Fe T]]]]]]]]].
    pose proof (inner_not_outside _ _ IP) as Asc. unfold load in L. rewrite Asc in L.
    rewrite Hread in L by apply IP. destruct (content (steps (fst e))) as [code|] eqn:Ct; [|discriminate]. injection L as <-.
    cbn [sf_code] in P.
    pose proof (Hsimple _ _ _ _ Ct P D) as SC.
    destruct (declared_relative _ _ _ D) as [NE _]. destruct (split_end _ chain NE) as [parents [child ->]].
    set (f := mkSF package (fst e) (crlf_to_lf code) (snd e)) in *.
    assert (Af : assumed f pl) by apply As.
    assert (Ic : In (fst c) cands). { destruct Fe as [a [b [-> _]]]. apply in_or_app. right. left. reflexivity. }
    destruct (kid_place (fst c) child parents pl f n cands) as [pl' [Lp St]]; auto.
    exists pl'. split; [destruct c as [cp cb]; cbn [fst snd] in *; subst cb; exact St|].
    destruct (candidates_compiler f n pl parents child (proj1 IP) (simple_plain _ SC) Af) as [cands' [Mc' Sm]].
    { right. destruct parents as [|m ms]; [exact Logic.I|]. apply (SC m). left. reflexivity. }
    rewrite Mc in Mc'. injection Mc' as <-.
    eapply co_mod; [exact Co|exact Ct|exact P|exact D| |exact Lp].
    rewrite <- Sm.
    destruct (first_map cands (fun p => is_file (path_join tree p) = true) (fun s => content s <> None) (fst c)) as [a [b [E [Q N1]]]]; [|exact Fe|].
    + intros x Ix. destruct (candidates_inner f n parents child cands IP SC Mc x Ix) as [nx [[[Rx _] _] _]]. apply Hfile. exact Rx.
    + exists a, b. split; [exact E|]. split; [exact Q|]. intros x Ix. apply not_none. apply N1. exact Ix.
Qed.

Lemma assumed_fun : forall f pl pl', assumed f pl -> assumed f pl' -> pl = pl'.
Proof.
  intros f pl pl' H H'. inversion H as [f0 d n E C Ef Ep|f0 d n E T C Ef Ep]; inversion H' as [f1 d1 n1 E1 C1 Ef1 Ep1|f1 d1 n1 E1 T1 C1 Ef1 Ep1]; subst;
    rewrite E in E1; apply app_inj_tail in E1; destruct E1 as [<- E1]; injection E1 as <-; try reflexivity.
  - destruct C; congruence.
  - destruct C1; congruence.
Qed.

Lemma loaded_fun : forall m s pl pl', mn_path m = None -> mn_name m <> tx "mod" -> loaded_place m s pl -> loaded_place m s pl' -> pl = pl'.
Proof.
  assert (A2 : forall (d : list comp) x y, d ++ [x; y] = (d ++ [x]) ++ [y]) by (intros; rewrite <- app_assoc; reflexivity).
  assert (NM : forall m, mn_name m <> tx "mod" -> Normal (mn_name m ++ tx ".rs") <> Normal (tx "mod.rs")).
  { intros m N1 E. injection E as E. apply N1. change (tx "mod.rs") with (tx "mod" ++ tx ".rs") in E. apply app_inv_tail in E. exact E. }
  intros m s pl pl' P N1 H H'. inversion H as [p d x Hp E E2|d Hp E E2|d Hp E E2]; inversion H' as [p' d' x' Hp' E' E2'|d' Hp' E' E2'|d' Hp' E' E2']; subst; try congruence.
  - apply app_inj_tail in E'. destruct E' as [-> _]. reflexivity.
  - rewrite A2 in E'. apply app_inj_tail in E'. destruct E' as [_ E']. exfalso. symmetry in E'. apply (NM m N1 E').
  - rewrite A2 in E'. apply app_inj_tail in E'. destruct E' as [_ E']. exfalso. apply (NM m N1 E').
  - rewrite !A2 in E'. apply app_inj_tail in E'. destruct E' as [E' _]. rewrite E'. reflexivity.
Qed.

Lemma agree_backward : forall s pl, Compiled s pl -> exists e, Reach e /\ stands e s pl.
Proof.
  intros s pl C. induction C as [p d x I St|s pl code root parents child c pl' C IH Ct P D Lk Lp].
  - destruct (Htops p I) as [n IP]. exists (p, true). split; [apply reach_top; apply in_map_iff; exists p; auto|].
    exists n. split; [exact IP|]. split; [reflexivity|]. intro code. cbn [fst snd].
    destruct (file_path_facts _ _ (proj1 IP)) as [d' [St' _]]. rewrite St in St'. apply app_inj_tail in St'. destruct St' as [-> ->].
    eapply as_dir; [exact St|left; reflexivity].
  - destruct IH as [e [R [n [IP [Es As]]]]].
    pose proof (Hsimple _ _ _ _ Ct P D) as SC.
    set (f := mkSF package (fst e) (crlf_to_lf code) (snd e)).
    assert (Af : assumed f pl) by apply As.
    destruct (candidates_compiler f n pl parents child (proj1 IP) (simple_plain _ SC) Af) as [cands [Mc Sm]].
    { right. destruct parents as [|m ms]; [exact Logic.I|]. apply (SC m). left. reflexivity. }
    destruct Lk as [a [b [E [Q N1]]]]. rewrite <- Sm in E.
    destruct (first_unmap cands (fun q => is_file (path_join tree q) = true) (fun s => content s <> None) c a b) as [cp [Fe Ec]]; [|exact E|exact Q| |].
    { intros x Ix. destruct (candidates_inner f n parents child cands IP SC Mc x Ix) as [nx [[[Rx _] _] _]]. apply Hfile. exact Rx. }
    { intros x Ix Hx. apply Hx. apply N1. exact Ix. }
    assert (Ic : In cp cands). { destruct Fe as [a' [b' [-> _]]]. apply in_or_app. right. left. reflexivity. }
    destruct (kid_place cp child parents pl f n cands IP SC Af Mc Ic) as [pl2 [Lp2 St]].
    exists (cp, false). split.
    + eapply reach_kid; [exact R|]. exists f, root, (parents ++ [child]), cands. cbn [fst snd]. split.
      * unfold load. rewrite (inner_not_outside _ _ IP). rewrite Hread by apply IP. rewrite Es, Ct. reflexivity.
      * repeat split; auto.
    + destruct (SC child) as [CP [_ [_ [_ CM]]]]; [apply in_or_app; right; left; reflexivity|].
      rewrite Ec in *. rewrite (loaded_fun child c pl' pl2 CP CM Lp Lp2). exact St.
Qed.

Lemma agree : forall s, (exists pl, Compiled s pl) <-> exists e, Reach e /\ steps (fst e) = s.
Proof.
  intro s. split.
  - intros [pl C]. destruct (agree_backward _ _ C) as [e [R [n [_ [E _]]]]]. eauto.
  - intros [e [R <-]]. destruct (agree_forward _ R) as [pl [_ C]]. eauto.
Qed.
End Agree.
