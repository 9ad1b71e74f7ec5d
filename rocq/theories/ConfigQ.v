(** Proofs about the configuration file in a run. *)
From Coq Require Import String List NArith ZArith QArith Bool.
From Verif Require Import Text PathM F64M TimeoutM TimeoutS GlobM OptionsM OptionsS OptionsP OptionsT PackageM MainM WholeM WholeS WholeP ConfigM ConfigS ConfigP.
Import ListNotations.
Open Scope list_scope.

Lemma sets_given : forall A (l : list entry) k (means : value -> A -> Prop) x d, sets l k (given means) None x ->
  sets l k means d (match x with Some y => y | None => d end).
Proof.
  intros A l k means x d [(v & I & M)|[N ->]]; [|right; auto]. left. exists v. split; [exact I|]. inversion M; subst. assumption.
Qed.
Lemma prec_cfg : forall A (c : option A) d r, precedence None c d r -> r = match c with Some y => y | None => d end.
Proof. intros A c d r (_ & P1 & P2). destruct c as [x|]; [apply P1|apply P2]; reflexivity. Qed.
Lemma sets_bool_in : forall l k b x, NoDup (map fst l) -> sets l k (given is_bool) None x -> x = Some b <-> In (k, VBool b) l.
Proof.
  intros l k b x ND S. split.
  - intros ->. destruct S as [(v & I & M)|[_ E]]; [|discriminate]. inversion M as [v' b' B]; subst. unfold is_bool in B. subst v. exact I.
  - intro I. destruct S as [(v & I' & M)|[N _]]; [|destruct (N _ I)]. rewrite (entry_one l k v (VBool b) ND I' I) in M.
    inversion M as [v' b' B]; subst. unfold is_bool in B. congruence.
Qed.

Lemma acts_new : forall et re_ok l c a o, NoDup (map fst l) -> says et l c -> options_new re_ok a c = OptionsM.NewOk o -> acts et l a o.
Proof.
  intros et re_ok l c a o ND S H.
  destruct (C22_single_values _ _ _ _ H) as (P1 & P2 & P3 & P4 & P5 & P6 & P7 & q & P8 & P9).
  destruct (C22_lists _ _ _ _ H) as (L1 & L2 & L3 & L4 & L5 & (g & L6 & G6) & (g' & L7 & G7)).
  pose proof (C22_skip_calls _ _ _ _ H) as K. pose proof (C22_test_packages _ _ _ _ H) as (_ & _ & T1 & T2).
  constructor.
  - intro E. rewrite E in P5. rewrite (prec_cfg _ _ _ _ P5). apply S.
  - intro E. rewrite E in P6. rewrite (prec_cfg _ _ _ _ P6). apply sets_given, S.
  - intro E. rewrite E in P7. rewrite (prec_cfg _ _ _ _ P7). apply sets_given, S.
  - intro E. rewrite (proj2 P3 E). apply S.
  - intro E. rewrite (proj2 P4 E). apply S.
  - intro E. rewrite (proj2 P2 E). apply S.
  - intro E. rewrite (proj2 P1 E). apply S.
  - intro E. exists q. split; [|exact P9]. rewrite E in P8. rewrite (prec_cfg _ _ _ _ P8). apply sets_given, S.
  - exists (cf_error_values c). split; [apply S|exact L3].
  - exists (cf_additional_cargo_args c). split; [apply S|exact L1].
  - exists (cf_additional_cargo_test_args c). split; [apply S|exact L2].
  - intro E. rewrite (proj2 L4 E). apply S.
  - intro E. rewrite (proj2 L5 E). apply S.
  - intro E. exists g. split; [|exact G6]. rewrite (proj2 L6 E). apply S.
  - intro E. exists g'. split; [|exact G7]. rewrite (proj2 L7 E). apply S.
  - exists (cf_skip_calls c). split; [apply S|]. intro n. rewrite (K n). rewrite <- (sets_bool_in l _ false _ ND (sy_skip_calls_defaults _ _ _ S)). reflexivity.
  - intros E1 E2. rewrite <- (sets_bool_in l _ true _ ND (sy_test_workspace _ _ _ S)).
    destruct (cf_test_workspace c) as [[|]|] eqn:W.
    + left. split; [reflexivity|]. apply T1; auto.
    + right. split; [discriminate|]. exists (cf_test_package c). split; [apply S|]. rewrite T2; auto; [destruct (cf_test_package c); reflexivity|rewrite E1; discriminate|right; discriminate].
    + right. split; [discriminate|]. exists (cf_test_package c). split; [apply S|]. rewrite T2; auto; [destruct (cf_test_package c); reflexivity|rewrite E1; discriminate|right; discriminate].
Qed.

Section Run.
Variables (et : list entry -> option test_tool) (parse : text -> option (list entry)) (w : world) (a : arguments).
Hypothesis toml : forall t, wo_toml w t = config_from_str et parse t.

Lemma file_used : forall s, settle w a = Done s -> ag_no_config a = false -> wo_exists w (config_path (md_root (se_meta s))) = true ->
  exists t l c, wo_read w (config_path (md_root (se_meta s))) = Some t /\ parse t = Some l
    /\ NoDup (map fst l) /\ (forall k v, In (k, v) l -> In k setting_names) /\ says et l c
    /\ options_new (wo_re_ok w) (ag_options a) c = OptionsM.NewOk (se_options s).
Proof.
  intros s S N X. destruct (settle_inv w a s S) as (_ & _ & (c & U & O) & _).
  inversion U as [N'|N' X'|t c' N' X' R T]; [congruence|unfold config_path in X; congruence|]. subst c'.
  rewrite toml in T. unfold config_from_str in T. destruct (parse t) as [l|] eqn:P; [|discriminate]. apply (ConfigP.config_iff et) in T. destruct T as (ND & K & Sy).
  exists t, l, c. repeat (split; [assumption|]). assumption.
Qed.
Lemma wrong_rejected : forall start md, start_dir (wo_is_file w) (ag_manifest a) (ag_dir a) = Some start -> open_workspace w start = Done md ->
  ag_no_config a = false -> wo_exists w (config_path (md_root md)) = true -> wrong et parse (wo_read w (config_path (md_root md))) ->
  settle w a = Fails.
Proof.
  intros start md S O N X W. unfold settle. rewrite S, O. cbn [bind]. rewrite N. unfold read_tree_config.
  fold (config_path (md_root md)). rewrite X.
  inversion W as [E|t P E|t l P D E|t l k v P I F E]; [reflexivity| | |]; rewrite toml; unfold config_from_str; rewrite P; [reflexivity| |].
  - destruct (config_of et l) as [c|] eqn:C; [|reflexivity]. exfalso. apply D. exact (proj1 (proj1 (accepted_iff et l) (ex_intro _ c C))).
  - destruct (config_of et l) as [c|] eqn:C; [|reflexivity]. exfalso. apply F. apply (proj2 (proj1 (accepted_iff et l) (ex_intro _ c C)) k v I).
Qed.
End Run.
