(** Proofs for C70: the whole program. *)
From Coq Require Import String List NArith ZArith Bool Arith Lia Permutation.
From Verif Require Import Text SpanM PathM PathS PathP MutantM OutcomeM OutputM IterateM InDiffM InDiffS InDiffP ShardM PackageM OptionsM
  PrettyM FnValueM VisitM VisitS WalkM WalkS WalkP LabM MainM MainS MainP WholeM WholeS WholeP DiffS DiffP.
Import ListNotations.
Open Scope list_scope.

Section Scope.
Variables (w : world) (a : arguments) (s : setting) (ps : list package) (errs : list toks) (chs : list change).
Hypothesis Abs : forall p md, wo_metadata w p = Some md -> is_absolute (md_root md) = true.
Hypothesis Nm : forall t root sc chain m, wo_syn w t = Some root -> declared sc root chain -> In m chain -> named m.
Hypothesis One : one_file w.
Hypothesis S : settle w a = Done s.
Hypothesis M : mutated_packages (fun d => locate_project w d false) (se_meta s) (se_filter s) = Some ps.
Hypothesis D : different_files chs.
Hypothesis T : after_changes w (md_root (se_meta s)) chs.
Let root := md_root (se_meta s).
Let offered_here := of_packages w root (se_options s) errs ps.

Lemma root_absolute : is_absolute root = true.
Proof.
  destruct (settle_inv _ _ _ S) as (_ & O & _). unfold open_workspace in O. destruct (locate_project w _ true); [|discriminate].
  destruct (is_absolute _); [|discriminate]. destruct (wo_metadata w _) as [md|] eqn:W; [|discriminate]. injection O as O. subst md.
  eapply Abs. exact W.
Qed.

Lemma join_same : forall p q, relative p -> relative q -> components p = components q -> wo_read w (path_join root p) = wo_read w (path_join root q).
Proof.
  intros p q Hp Hq E. apply One. assert (N : root <> []) by (intro E0; pose proof root_absolute as A; rewrite E0 in A; discriminate).
  rewrite !path_join_components by assumption. rewrite E. reflexivity.
Qed.

Lemma offered_read : forall m, offered_here m ->
  exists t, wo_read w (path_join root (sf_path (mu_file m))) = Some t /\ sf_code (mu_file m) = without_crlf_cr t.
Proof.
  intros m (p & e & f & tree & _ & _ & L & _ & _ & Of & _). destruct Of as (anc & k & cs & _ & _ & _ & _ & Em).
  assert (Ef : mu_file m = f) by (rewrite Em; reflexivity). unfold load in L. destruct (_ <? _)%Z; [discriminate|].
  destruct (wo_read w _) as [c|] eqn:R; [|discriminate]. injection L as L. exists c. rewrite Ef, <- L. cbn [sf_path sf_code].
  split; [exact R|apply crlf_spec].
Qed.

Lemma offered_relative : forall m, offered_here m -> relative (sf_path (mu_file m)).
Proof. intros m H. eapply found_relative; eassumption. Qed.

Lemma offered_same : forall ms, (forall m, In m ms -> offered_here m) -> same_code ms.
Proof.
  intros ms H m m' Hm Hm' E. destruct (offered_read m (H m Hm)) as (t & R & C). destruct (offered_read m' (H m' Hm')) as (t' & R' & C').
  rewrite (join_same _ _ (offered_relative m (H m Hm)) (offered_relative m' (H m' Hm')) E) in R. rewrite C, C'. congruence.
Qed.

Lemma offered_new : forall ms, (forall m, In m ms -> offered_here m) -> of_new_tree chs ms.
Proof.
  intros ms H c m Hc Hm E. destruct (offered_read m (H m Hm)) as (t & R & C). rewrite C. apply (T c t Hc). rewrite <- R.
  apply join_same; [|apply offered_relative; auto|exact E]. destruct D as [_ Dr]. rewrite Forall_forall in Dr. auto.
Qed.

Lemma diff_scope : forall found ms, (forall m, In m found <-> offered_here m) -> diff_given w a chs -> ag_iterate a = false -> ag_shard a = None ->
  select (wo_patch w) (cli_of w a (se_options s)) (wo_dir w (output_parent s)) found = Done ms -> forall m, In m ms <-> offered_here m /\ edited chs m.
Proof.
  intros found ms F (f & d & pps & Ed & Er & V & P & W) It Sh Sel m.
  destruct (c70_selects (wo_patch w) found d chs pps V P W D) as (sel & E & H).
  { apply offered_new. apply F. } { apply offered_same. apply F. } { intros m' Hm'. apply offered_relative. apply F. exact Hm'. }
  unfold select, iterate_step, diff_step, shard_step in Sel. cbn [cli_of cl_iterate cl_diff cl_shard] in Sel.
  rewrite It, Ed, Sh in Sel. cbn [option_map bind] in Sel. rewrite Er, E in Sel. cbn [bind] in Sel. injection Sel as <-.
  rewrite <- F. clear - H. induction H as [|x k l Hx H IH|x k l Hx H IH]; cbn [In].
  - tauto.
  - rewrite IH. intuition. subst; auto.
  - rewrite IH. intuition. subst; contradiction.
Qed.

(** With such a diff the program does not fail for it. *)
Lemma diff_accepted : forall found, (forall m, In m found <-> offered_here m) -> diff_given w a chs ->
  exists ms, diff_step (wo_patch w) (cli_of w a (se_options s)) found = Done ms.
Proof.
  intros found F (f & d & pps & Ed & Er & V & P & W).
  destruct (c70_selects (wo_patch w) found d chs pps V P W D) as (sel & E & H).
  { apply offered_new. apply F. } { apply offered_same. apply F. } { intros m' Hm'. apply offered_relative. apply F. exact Hm'. }
  exists sel. unfold diff_step. cbn [cli_of cl_diff]. rewrite Ed. cbn [option_map]. rewrite Er, E. reflexivity.
Qed.
End Scope.
