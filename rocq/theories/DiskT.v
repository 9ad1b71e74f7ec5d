(** C58: which files applying a mutant writes. *)
From Coq Require Import String List NArith ZArith Bool Arith Lia.
From Verif Require Import Text Utf8M Utf8P PathM PathS PathP CopyM CopyS CopyP CopyT DiskM DiskS DiskP.
Import ListNotations.
Open Scope list_scope.

(** C58: writing source changes the contents of one file, which was there before and is the one the path
    leads to, and nothing else. *)
Theorem C58_one_file : forall links d build rel code d', overwrite links d build rel code = Some d' ->
  exists p m old, leads d [] (components (path_join build rel)) p /\ d p = Some (SFile m old) /\ d' p = Some (SFile m (encode code)) /\ differ_only_at p d d'
  /\ read_file links d' (path_join build rel) = Some (encode code).
Proof.
  intros links d build rel code d' H. destruct (overwrite_one _ _ _ _ _ _ H) as (p & m & old & R & E & ->).
  exists p, m, old. split; [exact (resolve_leads _ _ _ _ _ R)|]. split; [exact E|]. split; [apply put_same|]. split; [intros q N; apply put_other; exact N|].
  unfold read_file. rewrite (resolve_put _ _ _ _ old) by exact E. rewrite R, put_same. reflexivity.
Qed.
Print Assumptions C58_one_file.

(** C58: if there are no links in the build directory, the file is the one in the build directory that the
    path says. *)
Theorem C58_inside_partial : forall links links' d build b rel code d', relative rel -> build <> [] ->
  resolve links' d [] (components build) = Some b -> no_links d b -> (ascent rel <= 0)%Z ->
  overwrite links d build rel code = Some d' ->
  exists q, PathS.walk [] (components rel) = Some q /\ differ_only_at (b ++ rev q) d d'
  /\ forall p, ~ inside b p -> d' p = d p.
Proof.
  intros links links' d build b rel code d' R B E N A H. destruct (overwrite_one _ _ _ _ _ _ H) as (p & m & old & Rp & Ep & ->).
  destruct (PathS.walk [] (components rel)) as [q|] eqn:W; [|apply ascent_walk in W; [lia|exact R]].
  exists q. split; [reflexivity|]. assert (p = b ++ rev q) by (eapply join_inside; eassumption). subst p.
  split; [intros x Nx; apply put_other; exact Nx|]. intros x Nx. apply put_other. intros ->. apply Nx. eexists. reflexivity.
Qed.
Print Assumptions C58_inside_partial.

(** C58: so in a copy of a source tree without links nothing outside the copy is ever written, in particular not the
    source tree.
    Missing: trees with links, see C58_link_refuted. *)
Theorem C58_copy_partial : forall copy_vcs gitignore ignored utf8 readable cs c links links' d build b rel code d',
  well_formed (EDir cs) -> copy_tree copy_vcs gitignore ignored utf8 readable (EDir cs) = Some c ->
  (forall p t, ~ at_path (EDir cs) p (ELink t)) -> holds d b c ->
  relative rel -> build <> [] -> resolve links' d [] (components build) = Some b -> (ascent rel <= 0)%Z ->
  overwrite links d build rel code = Some d' ->
  (forall p, ~ inside b p -> d' p = d p)
  /\ exists q m old, PathS.walk [] (components rel) = Some q /\ at_path (EDir cs) (rev q) (EFile m old)
     /\ d' (b ++ rev q) = Some (SFile m (encode code)).
Proof.
  intros copy_vcs gitignore ignored utf8 readable cs c links links' d build b rel code d' WF C NL Hd R B E A H.
  assert (N : no_links d b).
  { intros r t Er. rewrite Hd in Er. apply (C38_copy _ _ _ _ _ _ WF _ C) in Er. destruct Er as (e & Ae & _ & _ & S).
    destruct e; try discriminate. apply (NL r target). exact Ae. }
  destruct (C58_inside_partial _ _ _ _ _ _ _ _ R B E N A H) as (q & W & D & O). split; [exact O|].
  destruct (overwrite_one _ _ _ _ _ _ H) as (p & m & old & Rp & Ep & ->).
  assert (p = b ++ rev q) by (eapply join_inside; eassumption). subst p.
  exists q, m. pose proof Ep as Ep'. rewrite Hd in Ep'. apply (C38_copy _ _ _ _ _ _ WF _ C) in Ep'. destruct Ep' as (e & Ae & _ & _ & S).
  destruct e as [m' old'| | |]; try discriminate. injection S as <- <-. exists old. split; [exact W|]. split; [exact Ae|]. apply put_same.
Qed.
Print Assumptions C58_copy_partial.

(** C58: putting the code back restores the whole disk, links or not. *)
Theorem C58_restored : forall links d build rel code original d' d'', read_file links d (path_join build rel) = Some (encode original) ->
  overwrite links d build rel code = Some d' -> overwrite links d' build rel original = Some d'' -> forall p, d'' p = d p.
Proof.
  intros links d build rel code original d' d'' Rd H1 H2 p.
  destruct (overwrite_one _ _ _ _ _ _ H1) as (q & m & old & Rq & Eq & ->). destruct (overwrite_one _ _ _ _ _ _ H2) as (q' & m' & old' & Rq' & Eq' & ->).
  rewrite (resolve_put _ _ _ _ old) in Rq' by exact Eq. assert (q' = q) by congruence. subst q'.
  rewrite put_same in Eq'. injection Eq' as <- <-. unfold read_file in Rd. rewrite Rq, Eq in Rd. injection Rd as ->.
  rewrite put_put. destruct (list_eq_dec (list_eq_dec N.eq_dec) p q) as [->|X]; [rewrite put_same; congruence|apply put_other; exact X].
Qed.
Print Assumptions C58_restored.

(** ** A source file that is a link to an absolute path *)
Definition ex_source : entry :=
  EDir [(tx "real.rs", EFile 420 (encode (tx "fn f() {}"))); (tx "lib.rs", ELink (tx "/w/real.rs"))].
(** The source tree at /w and copies of it at /t and /u. *)
Definition ex_disk : disk := fun p =>
  match p with
  | [] => Some SDir
  | top :: r =>
      match copy_tree false false (fun _ _ => false) (fun _ => true) (fun _ => true) ex_source with
      | Some c => if text_eqb top (tx "w") || text_eqb top (tx "t") || text_eqb top (tx "u") then c r else None
      | None => None
      end
  end.

(** C58, not so: the mutated code is written to the source tree although the build directory is a copy; the check in
    [overwrite_file], "for safety, don't follow symlinks", follows them. *)
Theorem C58_link_refuted : exists d d' build rel code, relative rel /\ (ascent rel <= 0)%Z
  /\ resolve 40 d [] (components build) = Some [tx "t"]
  /\ overwrite 40 d build rel code = Some d'
  /\ ~ inside [tx "t"] [tx "w"; tx "real.rs"] /\ d' [tx "w"; tx "real.rs"] <> d [tx "w"; tx "real.rs"].
Proof.
  exists ex_disk. destruct (overwrite 40 ex_disk (tx "/t") (tx "lib.rs") (tx "fn f() {panic!()}")) as [d'|] eqn:E; [|vm_compute in E; discriminate].
  exists d', (tx "/t"), (tx "lib.rs"), (tx "fn f() {panic!()}"). split; [reflexivity|]. split; [vm_compute; discriminate|].
  split; [vm_compute; reflexivity|]. split; [exact E|]. split; [intros (r & X); discriminate|].
  destruct (overwrite_one _ _ _ _ _ _ E) as (p & m & old & Rp & Ep & ->).
  assert (p = [tx "w"; tx "real.rs"]) by (vm_compute in Rp; injection Rp as <-; reflexivity). subst p.
  rewrite put_same. assert (Em : m = 420%N) by (vm_compute in Ep; injection Ep as <- <-; reflexivity). subst m. vm_compute. discriminate.
Qed.
Print Assumptions C58_link_refuted.

(** C58, not so: two build directories then share the file, so a test in one of them sees the mutant of the other. *)
Theorem C58_shared_refuted : exists d d' rel code, overwrite 40 d (tx "/t") rel code = Some d'
  /\ read_file 40 d (path_join (tx "/u") rel) <> read_file 40 d' (path_join (tx "/u") rel)
  /\ resolve 40 d [] (components (tx "/t")) = Some [tx "t"] /\ resolve 40 d [] (components (tx "/u")) = Some [tx "u"].
Proof.
  exists ex_disk. destruct (overwrite 40 ex_disk (tx "/t") (tx "lib.rs") (tx "fn f() {panic!()}")) as [d'|] eqn:E; [|vm_compute in E; discriminate].
  exists d', (tx "lib.rs"), (tx "fn f() {panic!()}"). split; [exact E|]. split; [|split; vm_compute; reflexivity].
  unfold overwrite in E. vm_compute in E. injection E as <-. vm_compute. discriminate.
Qed.
Print Assumptions C58_shared_refuted.

(** Without links. *)
Example C58_case : exists d', overwrite 0 ex_disk (tx "/t") (tx "src/../real.rs") (tx "x") = None
  /\ overwrite 0 ex_disk (tx "/t") (tx "real.rs") (tx "x") = Some d'
  /\ d' [tx "t"; tx "real.rs"] = Some (SFile 420 [120%N]) /\ d' [tx "u"; tx "real.rs"] = ex_disk [tx "u"; tx "real.rs"].
Proof. eexists. split; [vm_compute; reflexivity|]. split; [reflexivity|]. split; vm_compute; reflexivity. Qed.
