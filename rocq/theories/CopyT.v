(** Theorems about copying a tree. *)
From Coq Require Import String List NArith Bool Arith Lia.
Import ListNotations.
From Verif Require Import Text CopyM CopyS CopyP.

(** C38: a successful copy has exactly the entries of the source that are not left out
    (nor devices and such), with the same contents, permissions of files, and link targets. *)
Theorem C38_copy : forall copy_vcs gitignore ignored utf8 readable cs, well_formed (EDir cs) ->
  forall d, copy_tree copy_vcs gitignore ignored utf8 readable (EDir cs) = Some d ->
  forall p s, d p = Some s <->
    exists e, at_path (EDir cs) p e /\ ~ left_out copy_vcs gitignore ignored (EDir cs) p /\ e <> ESpecial /\ s = shape_of e.
Proof. intros copy_vcs gitignore ignored utf8 readable cs WF. exact (proj1 (copied copy_vcs gitignore ignored utf8 readable cs WF)). Qed.
Print Assumptions C38_copy.

(** C38: it succeeds iff everything that is not left out has a UTF-8 path and can be read. *)
Theorem C38_succeeds : forall copy_vcs gitignore ignored utf8 readable cs, well_formed (EDir cs) ->
  (copy_tree copy_vcs gitignore ignored utf8 readable (EDir cs) <> None <->
   forall p e, at_path (EDir cs) p e -> ~ left_out copy_vcs gitignore ignored (EDir cs) p ->
     (forall n, In n p -> utf8 n = true) /\ (e = ESpecial \/ readable p = true)).
Proof. intros copy_vcs gitignore ignored utf8 readable cs WF. exact (proj2 (copied copy_vcs gitignore ignored utf8 readable cs WF)). Qed.
Print Assumptions C38_succeeds.

(** C38: with gitignore off and version control copied, only mutants.out and mutants.out.old
    are missing. *)
Theorem C38_everything : forall ignored utf8 readable cs d, well_formed (EDir cs) ->
  copy_tree true false ignored utf8 readable (EDir cs) = Some d ->
  forall p e, at_path (EDir cs) p e -> e <> ESpecial -> ~ In (tx "mutants.out") p -> ~ In (tx "mutants.out.old") p ->
  d p = Some (shape_of e).
Proof.
  intros ignored utf8 readable cs d WF H p e A S N1 N2. apply (C38_copy _ _ _ _ _ _ WF _ H). exists e.
  split; [exact A|]. split; [|auto]. intros [above [n [below [x [-> [_ [->|[->|[[E _]|[E _]]]]]]]]]]; try discriminate.
  - apply N1. apply in_or_app. right. left. reflexivity.
  - apply N2. apply in_or_app. right. left. reflexivity.
Qed.
Print Assumptions C38_everything.

(** C38: "directories" is false: a plain file with such a name is left out as well. *)
Theorem C38_directories_refuted : exists cs p m b d,
  well_formed (EDir cs) /\ at_path (EDir cs) p (EFile m b)
  /\ copy_tree false false (fun _ _ => false) (fun _ => true) (fun _ => true) (EDir cs) = Some d /\ d p = None.
Proof.
  exists [(tx "src", EDir [(tx "_darcs", EFile 420 [1%N])])], [tx "src"; tx "_darcs"], 420%N, [1%N].
  eexists. split; [|split; [|split; [vm_compute; reflexivity|reflexivity]]].
  - constructor; [constructor; [intros []|constructor]|]. intros n c [E|[]]. injection E as <- <-.
    constructor; [constructor; [intros []|constructor]|]. intros n c [E|[]]. injection E as <- <-. constructor.
  - econstructor; [left; reflexivity|]. econstructor; [left; reflexivity|constructor].
Qed.
Print Assumptions C38_directories_refuted.

(** A tree with a repository, an old output directory, a link and an ignored file. *)
Definition ex_tree : entry := EDir [
  (tx "Cargo.toml", EFile 420 [1; 2]%N); (tx ".git", EDir [(tx "HEAD", EFile 420 [3]%N)]);
  (tx "src", EDir [(tx "lib.rs", EFile 493 [4]%N); (tx "link", ELink (tx "../Cargo.toml"))]);
  (tx "mutants.out", EDir [(tx "log", EFile 420 [])]); (tx "target", EDir [(tx "x", ESpecial)]); (tx ".hidden", EFile 384 [5]%N)].
Definition ex_ignored (p : list text) (_ : bool) : bool := path_eqb p [tx "target"].
Example C38_case : exists d, copy_tree false true ex_ignored (fun _ => true) (fun p => negb (path_eqb p [tx ".git"])) ex_tree = Some d
  /\ map d [[tx "Cargo.toml"]; [tx "src"; tx "lib.rs"]; [tx "src"; tx "link"]; [tx ".hidden"]]
     = [Some (SFile 420 [1; 2]%N); Some (SFile 493 [4]%N); Some (SLink (tx "../Cargo.toml")); Some (SFile 384 [5]%N)]
  /\ map d [[tx ".git"]; [tx ".git"; tx "HEAD"]; [tx "mutants.out"]; [tx "target"]; [tx "target"; tx "x"]] = [None; None; None; None; None].
Proof. eexists. split; [vm_compute; reflexivity|]. split; vm_compute; reflexivity. Qed.
Example C38_case_copied : exists d, copy_tree true false ex_ignored (fun _ => true) (fun _ => true) ex_tree = Some d
  /\ map d [[tx ".git"; tx "HEAD"]; [tx "mutants.out"; tx "log"]; [tx "target"]; [tx "target"; tx "x"]] = [Some (SFile 420 [3]%N); None; Some SDir; None].
Proof. eexists. split; [vm_compute; reflexivity|]. vm_compute; reflexivity. Qed.
Example C38_case_wf : well_formed ex_tree /\ left_out false true ex_ignored ex_tree [tx "target"; tx "x"].
Proof.
  split.
  - repeat first [constructor | intros n c H; cbn [In] in H; repeat destruct H as [H|H]; try contradiction; injection H as <- <-
      | intro H; cbn [In] in H; intuition discriminate].
  - exists [], (tx "target"), [tx "x"]. eexists. split; [reflexivity|]. split; [econstructor; [do 4 right; left; reflexivity|constructor]|].
    right. right. right. auto.
Qed.
