From Coq Require Import String List NArith ZArith Bool Lia.
Import ListNotations.
From Verif Require Import Text PathM PathS PathP ManifestM ManifestS.

Lemma no_cur_filter : forall p, is_absolute p = false ->
  no_cur (components p) = filter (fun c => negb (comp_eqb c Cur)) (components p).
Proof.
  intros p R. destruct (components_shape p) as [h [t [E [H [A T]]]]].
  assert (filter (fun c => negb (comp_eqb c Cur)) t = t) as F.
  { clear - T. induction t as [|c t IH]; [reflexivity|]. cbn [filter].
    destruct (T c (or_introl eq_refl)) as [->|[u [-> _]]]; cbn [comp_eqb negb]; rewrite IH; auto; intros d Hd; apply T; now right. }
  rewrite E, filter_app, F. destruct H as [->|[->| ->]].
  - cbn [app filter]. destruct t as [|c t]; [reflexivity|]. destruct (T c (or_introl eq_refl)) as [->|[u [-> _]]]; reflexivity.
  - destruct A as [A _]. rewrite (A eq_refl) in R. discriminate.
  - reflexivity.
Qed.

Lemma ascent_nonneg : forall p, (0 <= ascent p)%Z.
Proof.
  intros p. destruct (Z_lt_ge_dec (ascent p) 0) as [H|H]; [|lia]. exfalso.
  assert (forall cs mx cur, (mx <= ascent_loop mx cur cs)%Z) as K.
  { induction cs as [|c cs IH]; intros mx cur; cbn [ascent_loop]; [lia|].
    destruct (text_eqb _ _); [specialize (IH (Z.max (cur + 1) mx) (cur + 1)%Z); lia|].
    destruct (text_eqb _ _); apply IH. }
  specialize (K (components p) 0%Z 0%Z). unfold ascent in H. lia.
Qed.

Lemma fix_path_some : forall s dir, leaves s -> fix_path s dir = Some (path_join dir s).
Proof.
  intros s dir [R W]. unfold fix_path. rewrite R. cbn [orb].
  destruct (Z.eqb_spec (ascent s) 0) as [E|]; [|reflexivity].
  apply (ascent_walk s R) in W. lia.
Qed.

Lemma fix_path_none : forall s dir, ~ leaves s -> fix_path s dir = None.
Proof.
  intros s dir N. unfold fix_path. destruct (is_absolute s) eqn:A; [reflexivity|]. cbn [orb].
  destruct (Z.eqb_spec (ascent s) 0) as [E|E]; [reflexivity|]. exfalso. apply N. split; [exact A|].
  apply ascent_walk; [exact A|]. pose proof (ascent_nonneg s). lia.
Qed.

Lemma leaves_dec : forall s, leaves s \/ ~ leaves s.
Proof.
  intros s. unfold leaves. destruct (is_absolute s); [right; now intros [K _]|].
  destruct (walk [] (components s)); [right; now intros [_ K]|left; auto].
Qed.

Lemma join_absolute : forall dir s, is_absolute dir = true -> is_absolute (path_join dir s) = true.
Proof.
  intros dir s A. unfold path_join. destruct (is_absolute s) eqn:R; [exact R|].
  destruct dir as [|c dir]; [discriminate A|]. destruct (ends_with _ _); exact A.
Qed.

Section R.
Variable src : text.
Hypothesis src_abs : is_absolute src = true.

Lemma rw_leaf : forall v, rewritten (fun p => p = []) src v (fix_value src v).
Proof.
  intros v. split.
  - intros p s -> H L. cbn in H. injection H as ->. cbn [fix_value]. rewrite (fix_path_some s src L).
    exists (path_join src s). split; [reflexivity|]. split; [now apply join_absolute|].
    destruct L as [R _]. rewrite path_join_components; [|exact R|now destruct src].
    now rewrite no_cur_filter.
  - intros p N. destruct v as [s|n| |l|l]; try reflexivity. cbn [fix_value].
    destruct (leaves_dec s) as [L|L].
    + destruct p as [|st p]; [exfalso; apply N; split; [reflexivity|]; exists s; auto|].
      rewrite (fix_path_some s src L). destruct st; reflexivity.
    + now rewrite (fix_path_none s src L).
Qed.

Lemma rw_id : forall (P : list step -> Prop) v, (forall p s, P p -> at_place v p <> Some (TStr s)) -> rewritten P src v v.
Proof. intros P v H. split; [|reflexivity]. intros p s Pp E. exfalso. exact (H p s Pp E). Qed.

Lemma rw_iff : forall (P Q : list step -> Prop) v v', (forall p, P p <-> Q p) -> rewritten P src v v' -> rewritten Q src v v'.
Proof.
  intros P Q v v' H [A B]. split.
  - intros p s Hp. apply A. now apply H.
  - intros p N. apply B. intros [K1 K2]. apply N. split; [now apply H|exact K2].
Qed.

Lemma find_get_mut : forall k k0 f (l : list (text * toml)), find (fun kv : text * toml => text_eqb k (fst kv)) (get_mut k0 f l) =
  match find (fun kv => text_eqb k (fst kv)) l with
  | Some kv => Some (if text_eqb k k0 then (fst kv, f (snd kv)) else kv)
  | None => None
  end.
Proof.
  induction l as [|[j v] l IH]; [reflexivity|]. cbn [get_mut]. destruct (text_eqb k0 j) eqn:E.
  - apply text_eqb_eq in E. subst j. cbn [find fst]. destruct (text_eqb k k0) eqn:F; [reflexivity|].
    destruct (find _ l); reflexivity.
  - cbn [find fst]. destruct (text_eqb k j) eqn:F.
    + apply text_eqb_eq in F. subst j. destruct (text_eqb k k0) eqn:G; [|reflexivity].
      apply text_eqb_eq in G. subst. rewrite text_eqb_refl in E. discriminate.
    + exact IH.
Qed.

Lemma keys_get_mut : forall k f l, map fst (get_mut k f l) = map fst l.
Proof.
  induction l as [|[j v] l IH]; [reflexivity|]. cbn [get_mut]. destruct (text_eqb k j); [reflexivity|].
  cbn [map fst]. now rewrite IH.
Qed.

Lemma rw_get : forall (Q : list step -> Prop) k f l, (forall x, rewritten Q src x (f x)) ->
  rewritten (fun p => exists q, p = Key k :: q /\ Q q) src (TTab l) (TTab (get_mut k f l)).
Proof.
  intros Q k f l H. split.
  - intros p s [q [-> Hq]] E L. cbn [at_place] in *. rewrite find_get_mut, text_eqb_refl.
    destruct (find _ l) as [[j x]|]; [|discriminate]. cbn [snd fst] in *. destruct (H x) as [A _]. eauto.
  - intros [|[k'|n] p] N; cbn [at_place].
    + cbn [option_map leaf_of]. now rewrite keys_get_mut.
    + cbn [at_place] in N. rewrite find_get_mut. destruct (find _ l) as [[j x]|] eqn:F; [|reflexivity]. cbn [fst snd] in *.
      destruct (text_eqb k' k) eqn:E; [|reflexivity]. apply text_eqb_eq in E. subst k'.
      destruct (H x) as [_ B]. apply B. intros [K1 K2]. apply N. split; [eauto|]. exact K2.
    + reflexivity.
Qed.

Lemma find_map_snd : forall k (f : toml -> toml) (l : list (text * toml)), find (fun kv : text * toml => text_eqb k (fst kv)) (map (fun kv : text * toml => (fst kv, f (snd kv))) l) =
  match find (fun kv => text_eqb k (fst kv)) l with Some kv => Some (fst kv, f (snd kv)) | None => None end.
Proof.
  induction l as [|[j v] l IH]; [reflexivity|]. cbn [map find fst snd]. destruct (text_eqb k j); [reflexivity|exact IH].
Qed.

Lemma rw_map : forall (Q : list step -> Prop) f l, (forall x, rewritten Q src x (f x)) ->
  rewritten (fun p => exists k q, p = Key k :: q /\ Q q) src (TTab l) (TTab (map (fun kv : text * toml => (fst kv, f (snd kv))) l)).
Proof.
  intros Q f l H. split.
  - intros p s [k [q [-> Hq]]] E L. cbn [at_place] in *. rewrite find_map_snd.
    destruct (find _ l) as [[j x]|]; [|discriminate]. cbn [snd fst] in *. destruct (H x) as [A _]. eauto.
  - intros [|[k|n] p] N; cbn [at_place].
    + cbn [option_map leaf_of]. now rewrite map_map.
    + cbn [at_place] in N. rewrite find_map_snd. destruct (find _ l) as [[j x]|] eqn:F; [|reflexivity]. cbn [fst snd] in *.
      destruct (H x) as [_ B]. apply B. intros [K1 K2]. apply N. split; [eauto|]. exact K2.
    + reflexivity.
Qed.

Lemma rw_arr : forall (Q : list step -> Prop) f l, (forall x, rewritten Q src x (f x)) ->
  rewritten (fun p => exists i q, p = Index i :: q /\ Q q) src (TArr l) (TArr (map f l)).
Proof.
  intros Q f l H. split.
  - intros p s [i [q [-> Hq]]] E L. cbn [at_place] in *. rewrite nth_error_map.
    destruct (nth_error l i) as [x|]; [|discriminate]. cbn [option_map] in *. destruct (H x) as [A _]. eauto.
  - intros [|[k|n] p] N; cbn [at_place].
    + cbn [option_map leaf_of]. now rewrite map_length.
    + reflexivity.
    + cbn [at_place] in N. rewrite nth_error_map. destruct (nth_error l n) as [x|] eqn:F; [|reflexivity]. cbn [option_map] in *.
      destruct (H x) as [_ B]. apply B. intros [K1 K2]. apply N. split; [eauto|]. exact K2.
Qed.

Lemma leaf_str : forall v s, option_map leaf_of v = Some (LStr s) -> v = Some (TStr s).
Proof. intros [[t| | | |]|] s H; try discriminate H. now injection H as ->. Qed.

Lemma rw_comp : forall (P Q : list step -> Prop) v1 v2 v3, (forall p, P p -> ~ Q p) ->
  rewritten P src v1 v2 -> rewritten Q src v2 v3 -> rewritten (fun p => P p \/ Q p) src v1 v3.
Proof.
  intros P Q v1 v2 v3 D [A1 B1] [A2 B2]. split.
  - intros p s [Hp|Hp] E L.
    + destruct (A1 p s Hp E L) as [s' [E' [Ab C]]]. exists s'. split; [|auto].
      apply leaf_str. rewrite B2; [now rewrite E'|]. intros [K _]. exact (D p Hp K).
    + apply A2; [exact Hp| |exact L]. apply leaf_str. rewrite B1; [now rewrite E|].
      intros [K _]. exact (D p K Hp).
  - intros p N. rewrite B2.
    + apply B1. intros [K1 K2]. apply N. auto.
    + intros [K1 [s [K2 K3]]].
      assert (at_place v1 p = Some (TStr s)) as E.
      { apply leaf_str. rewrite <- B1; [now rewrite K2|]. intros [K4 _]. exact (D p K4 K1). }
      apply N. split; [auto|]. eauto.
Qed.

Lemma rw_dependency : forall v, rewritten (fun p => p = [Key (tx "path")]) src v (fix_dependency src v).
Proof.
  intros v. destruct v as [s|n| |l|l]; try (apply rw_id; intros p t -> H; discriminate H).
  eapply rw_iff; [|apply rw_get; exact rw_leaf]. intros p. split; [intros [q [-> ->]]; reflexivity|intros ->; eauto].
Qed.

Lemma rw_table : forall v, rewritten (fun p => exists n, p = [Key n; Key (tx "path")]) src v (fix_dependency_table src v).
Proof.
  intros v. destruct v as [s|n| |l|l]; try (apply rw_id; intros p t [n' ->] H; discriminate H).
  eapply rw_iff; [|apply rw_map; exact rw_dependency]. intros p. split; [intros [k [q [-> ->]]]; eauto|intros [n ->]; eauto].
Qed.

Lemma rw_patch : forall v, rewritten (fun p => exists r n, p = [Key r; Key n; Key (tx "path")]) src v (fix_patch src v).
Proof.
  intros v. destruct v as [s|n| |l|l]; try (apply rw_id; intros p t [n' [n'' ->]] H; discriminate H).
  eapply rw_iff; [|apply rw_map; exact rw_table]. intros p. split; [intros [k [q [-> [n ->]]]]; eauto|intros [r [n ->]]; eauto 6].
Qed.

Lemma rw_document : forall v, rewritten dependency_path src v (fix_document src v).
Proof.
  intros v. destruct v as [s|n| |l|l]; try (apply rw_id; intros p t K H; destruct K; discriminate H).
  cbn [fix_document].
  eapply rw_iff; [|eapply rw_comp; [|eapply rw_comp; [|apply (rw_get (fun p => exists n, p = [Key n; Key (tx "path")]) (tx "dependencies")); exact rw_table|apply rw_get; exact rw_table]|apply rw_get; exact rw_patch]].
  - intros p. split.
    + intros [[[q [-> [n ->]]]|[q [-> [n ->]]]]|[q [-> [r [n ->]]]]]; constructor.
    + intros []; eauto 10.
  - intros p [[q [-> _]]|[q [-> _]]] [q' [K _]]; discriminate K.
  - intros p [q [-> _]] [q' [K _]]. discriminate K.
Qed.

Lemma rw_config : forall v, rewritten override_path src v (fix_config_document src v).
Proof.
  intros v. destruct v as [s|n| |l|l]; try (apply rw_id; intros p t K H; destruct K; discriminate H).
  cbn [fix_config_document].
  eapply rw_iff; [|apply (rw_get (fun p => exists i, p = [Index i]))].
  - intros p. split; [intros [q [-> [i ->]]]; constructor|intros []; eauto].
  - intros x. destruct x as [s|n| |a|a]; try (apply rw_id; intros p t [i ->] H; discriminate H).
    eapply rw_iff; [|apply rw_arr; exact rw_leaf]. intros p. split; [intros [i [q [-> ->]]]; eauto|intros [i ->]; eauto].
Qed.

(** ** Twice is once *)

Lemma fix_value_idem : forall v, fix_value src (fix_value src v) = fix_value src v.
Proof.
  intros [s| | | |]; try reflexivity. cbn [fix_value]. destruct (leaves_dec s) as [L|L].
  - rewrite (fix_path_some s src L). cbn [fix_value]. unfold fix_path. now rewrite join_absolute.
  - rewrite (fix_path_none s src L). cbn [fix_value]. now rewrite (fix_path_none s src L).
Qed.

Lemma get_mut_idem : forall k f l, (forall v, f (f v) = f v) -> get_mut k f (get_mut k f l) = get_mut k f l.
Proof.
  intros k f l H. induction l as [|[j v] l IH]; [reflexivity|]. cbn [get_mut]. destruct (text_eqb k j) eqn:E; cbn [get_mut]; rewrite E.
  - now rewrite H.
  - now rewrite IH.
Qed.

Lemma get_mut_comm : forall k1 k2 f g l, k1 <> k2 -> get_mut k1 f (get_mut k2 g l) = get_mut k2 g (get_mut k1 f l).
Proof.
  intros k1 k2 f g l N. induction l as [|[j v] l IH]; [reflexivity|]. cbn [get_mut].
  destruct (text_eqb k2 j) eqn:E2, (text_eqb k1 j) eqn:E1; cbn [get_mut]; rewrite ?E1, ?E2, ?IH; try reflexivity.
  apply text_eqb_eq in E1, E2. congruence.
Qed.

Lemma fix_dependency_idem : forall v, fix_dependency src (fix_dependency src v) = fix_dependency src v.
Proof. intros []; try reflexivity. cbn. f_equal. apply get_mut_idem. apply fix_value_idem. Qed.

Lemma map_snd_idem : forall (f : toml -> toml) (l : list (text * toml)), (forall v, f (f v) = f v) ->
  map (fun kv : text * toml => (fst kv, f (snd kv))) (map (fun kv : text * toml => (fst kv, f (snd kv))) l)
  = map (fun kv : text * toml => (fst kv, f (snd kv))) l.
Proof. intros f l H. rewrite map_map. apply map_ext. intros [k v]. cbn. now rewrite H. Qed.

Lemma fix_table_idem : forall v, fix_dependency_table src (fix_dependency_table src v) = fix_dependency_table src v.
Proof. intros []; try reflexivity. cbn [fix_dependency_table]. f_equal. apply map_snd_idem. apply fix_dependency_idem. Qed.

Lemma fix_patch_idem : forall v, fix_patch src (fix_patch src v) = fix_patch src v.
Proof. intros []; try reflexivity. cbn [fix_patch]. f_equal. apply map_snd_idem. apply fix_table_idem. Qed.

Lemma fix_document_idem : forall v, fix_document src (fix_document src v) = fix_document src v.
Proof.
  intros []; try reflexivity. cbn [fix_document]. f_equal.
  set (fd := fix_dependency_table src). set (fp := fix_patch src).
  rewrite (get_mut_comm (tx "dependencies") (tx "patch")) by discriminate.
  rewrite (get_mut_comm (tx "dependencies") (tx "replace")) by discriminate.
  rewrite (get_mut_idem (tx "dependencies")) by apply fix_table_idem.
  rewrite (get_mut_comm (tx "replace") (tx "patch")) by discriminate.
  rewrite (get_mut_idem (tx "replace")) by apply fix_table_idem.
  now rewrite (get_mut_idem (tx "patch")) by apply fix_patch_idem.
Qed.

Lemma fix_config_idem : forall v, fix_config_document src (fix_config_document src v) = fix_config_document src v.
Proof.
  intros []; try reflexivity. cbn [fix_config_document]. f_equal. apply get_mut_idem.
  intros []; try reflexivity. cbn [fix_paths]. f_equal. rewrite map_map. apply map_ext. apply fix_value_idem.
Qed.

End R.

Lemma toml_eqb_eq : forall a b, toml_eqb a b = true -> a = b.
Proof.
  fix IH 1. intros [s|n| |l|l] [t|m| |r|r] H; cbn [toml_eqb] in H; try discriminate.
  - f_equal. now apply text_eqb_eq.
  - f_equal. now apply N.eqb_eq.
  - f_equal. revert r H. induction l as [|x l L]; intros [|y r] H; try discriminate; auto.
    apply andb_true_iff in H. destruct H as [H1 H2]. f_equal; [now apply IH|now apply L].
  - f_equal. revert r H. induction l as [|[k x] l L]; intros [|[j y] r] H; try discriminate; auto.
    apply andb_true_iff in H. destruct H as [H1 H2]. apply andb_true_iff in H1. destruct H1 as [H0 H1].
    apply text_eqb_eq in H0. subst. apply IH in H1. subst. f_equal. now apply L.
Qed.

Lemma toml_eqb_refl : forall v, ~ inside TNan v -> toml_eqb v v = true.
Proof.
  fix IH 1. intros [s|n| |l|l] H; cbn [toml_eqb].
  - apply text_eqb_refl.
  - apply N.eqb_refl.
  - destruct H. constructor.
  - assert (F : forall x, In x l -> ~ inside TNan x) by (intros x I J; apply H; econstructor; eassumption). clear H.
    induction l as [|x l L]; [reflexivity|]. rewrite IH by (apply F; left; reflexivity). apply L. intros y I. apply F. right. exact I.
  - assert (F : forall k x, In (k, x) l -> ~ inside TNan x) by (intros k x I J; apply H; eapply in_tab; eassumption). clear H.
    induction l as [|[k x] l L]; [reflexivity|]. rewrite text_eqb_refl, IH by (apply (F k); left; reflexivity). apply L. intros j y I. apply (F j). right. exact I.
Qed.

Lemma config_unchanged : forall src v, fix_cargo_config_toml src v = None -> fix_config_document src v = v.
Proof.
  intros src [s|n| |a|l] H; try reflexivity. unfold fix_cargo_config_toml, lookup in H. cbn [fix_config_document]. f_equal.
  revert H. induction l as [|[k x] l IH]; intros H; [reflexivity|]. cbn [find fst snd get_mut] in *.
  destruct (text_eqb (tx "paths") k) eqn:E.
  - f_equal. f_equal. destruct x as [s|n| |a|a]; try reflexivity. cbn [fix_paths snd] in *. f_equal.
    destruct (existsb (path_changes src) a) eqn:X; [discriminate|]. clear H E. induction a as [|y a IHa]; [reflexivity|].
    cbn [existsb map] in *. apply orb_false_iff in X. destruct X as [X1 X2]. rewrite IHa by exact X2. f_equal.
    destruct y as [s| | | |]; try reflexivity. cbn [path_changes fix_value] in *. destruct (fix_path s src); [discriminate|reflexivity].
  - f_equal. apply IH. destruct (match match find _ l with Some _ => _ | None => _ end with Some _ => _ | None => _ end); [discriminate H|reflexivity].
Qed.

Lemma c28_manifest_file : forall parse print src content v, is_absolute src = true ->
  parse content = Some v -> (forall v, parse (print v) = Some v) ->
  exists content' v', fix_manifest_file parse print src content = Some content' /\ parse content' = Some v'
    /\ rewritten dependency_path src v v'
    /\ (v' = v -> ~ inside TNan v -> content' = content)
    /\ exists v'', fix_manifest_file parse print src content' = Some v'' /\ parse v'' = Some v'.
Proof.
  intros parse print src content v A P RT. unfold fix_manifest_file. rewrite P. unfold fix_manifest_toml.
  destruct (toml_eqb (fix_document src v) v) eqn:E.
  - apply toml_eqb_eq in E. exists content, v. split; [reflexivity|]. split; [exact P|].
    split; [rewrite <- E at 2; now apply rw_document|]. split; [auto|]. rewrite P. rewrite E.
    destruct (toml_eqb v v) eqn:V; eexists; split; try reflexivity; [exact P|apply RT].
  - exists (print (fix_document src v)), (fix_document src v). split; [reflexivity|]. split; [apply RT|].
    split; [now apply rw_document|]. split; [intros K1 K2; rewrite K1, toml_eqb_refl in E; [discriminate|exact K2]|].
    rewrite RT, fix_document_idem by exact A.
    destruct (toml_eqb (fix_document src v) (fix_document src v)); eexists; split; try reflexivity; apply RT.
Qed.

Lemma c28_config_file : forall parse print src content v, is_absolute src = true ->
  parse content = Some v -> (forall v, parse (print v) = Some v) ->
  exists content' v', fix_config_file parse print src content = Some content' /\ parse content' = Some v'
    /\ rewritten override_path src v v'
    /\ ((forall p s, override_path p -> at_place v p = Some (TStr s) -> ~ leaves s) -> content' = content)
    /\ fix_config_file parse print src content' = Some content'.
Proof.
  intros parse print src content v A P RT. unfold fix_config_file. rewrite P.
  destruct (fix_cargo_config_toml src v) as [v'|] eqn:E.
  - assert (v' = fix_config_document src v) as ->.
    { unfold fix_cargo_config_toml in E. destruct (match v with TTab _ => _ | _ => _ end); [|discriminate]. now injection E as <-. }
    exists (print (fix_config_document src v)), (fix_config_document src v). split; [reflexivity|]. split; [apply RT|].
    split; [now apply rw_config|]. split.
    + intros N. exfalso. unfold fix_cargo_config_toml in E. destruct v as [s|n| |a|l]; try discriminate E.
      unfold lookup in E. destruct (find _ l) as [[k x]|] eqn:F; [|discriminate E]. cbn [snd] in E.
      destruct x as [s|n| |a|a]; try discriminate E. destruct (existsb _ a) eqn:X; [|discriminate E].
      apply existsb_exists in X. destruct X as [y [Hy Hc]]. apply In_nth_error in Hy. destruct Hy as [i Hi].
      destruct y as [s| | | |]; try discriminate Hc. cbn [path_changes] in Hc.
      apply (N [Key (tx "paths"); Index i] s); [constructor| |].
      * cbn [at_place]. rewrite F. cbn [snd]. now rewrite Hi.
      * destruct (leaves_dec s) as [L|L]; [exact L|]. rewrite (fix_path_none s src L) in Hc. discriminate.
    + rewrite RT. destruct (fix_cargo_config_toml src (fix_config_document src v)) as [w|] eqn:G; [|reflexivity].
      unfold fix_cargo_config_toml in G. destruct (match fix_config_document src v with TTab _ => _ | _ => _ end); [|discriminate].
      injection G as <-. now rewrite fix_config_idem by exact A.
  - exists content, v. split; [reflexivity|]. split; [exact P|].
    split; [rewrite <- (config_unchanged src v E) at 2; now apply rw_config|]. split; [auto|]. rewrite P, E. reflexivity.
Qed.
