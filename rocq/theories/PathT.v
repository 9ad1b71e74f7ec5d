(** Property theorems: C27, C48, C50. *)
From Coq Require Import String List NArith ZArith Bool.
From Verif Require Import Text PathM PathS PathP.
Import ListNotations.

(** C27: a source file is skipped exactly when following its path from the root
    of the tree steps out of the tree at some point ([walk] in PathS). *)
Theorem C27_skipped_iff_leaves_tree : forall read tree rel pkg top, relative rel ->
  (load read tree rel pkg top = LoadSkipped <-> walk [] (components rel) = None).
Proof. exact load_skip_iff. Qed.
Print Assumptions C27_skipped_iff_leaves_tree.

(** C27: nothing is read for a skipped file: the result is the same whatever the
    file system holds. *)
Theorem C27_skipped_not_read : forall read read' tree rel pkg top,
  load read tree rel pkg top = LoadSkipped -> load read' tree rel pkg top = LoadSkipped.
Proof. exact load_skip_no_read. Qed.
Print Assumptions C27_skipped_not_read.

(** C27: the file that is loaded is the one at its path below the tree root, and
    no initial part of that path is above the root. *)
Theorem C27_loaded_is_inside : forall read tree rel pkg top f, relative rel -> tree <> [] ->
  load read tree rel pkg top = Loaded f ->
  exists s, read (path_join tree rel) = Some s
  /\ components (path_join tree rel) = components tree ++ no_cur (components rel)
  /\ (forall a b, components rel = a ++ b -> walk [] a <> None)
  /\ sf_code f = crlf_to_lf s /\ sf_path f = rel.
Proof. exact load_inside. Qed.
Print Assumptions C27_loaded_is_inside.

(** C27: [ascent] is positive exactly for the paths that leave the tree. *)
Theorem C27_ascent : forall p, relative p -> ((0 < ascent p)%Z <-> walk [] (components p) = None).
Proof. exact ascent_walk. Qed.
Print Assumptions C27_ascent.

Example C27_case :
  load (fun _ => Some (tx "fn f() {}")) (tx "/tree") (tx "src/../../x.rs") (tx "p") false = LoadSkipped
  /\ relative (tx "src/../../x.rs")
  /\ (exists f, load (fun _ => Some (tx "fn f() {}")) (tx "/tree") (tx "src/./a/../x.rs") (tx "p") false = Loaded f)
  /\ path_join (tx "/tree") (tx "src/./a/../x.rs") = tx "/tree/src/./a/../x.rs".
Proof. split; [reflexivity|]. split; [reflexivity|]. split; [eexists; reflexivity|reflexivity]. Qed.

(** C48: generated names contain no separator, space or other special
    character. *)
Theorem C48_clean_names : forall s c, In c (clean_filename s) -> ~ special c.
Proof. exact clean_safe. Qed.
Print Assumptions C48_clean_names.

(** C48: names without such characters are not changed. *)
Theorem C48_clean_keeps_ordinary : forall s, (forall c, In c s -> ~ special c) -> clean_filename s = s.
Proof. exact clean_id. Qed.
Print Assumptions C48_clean_keeps_ordinary.

Example C48_case : clean_filename (tx "src/a b.rs") = tx "src__a_b.rs"
  /\ clean_filename (tx "build.rs") = tx "build.rs".
Proof. split; reflexivity. Qed.

(** C50: loading removes exactly the carriage returns directly before a newline. *)
Theorem C50_crlf_normalised : forall s, crlf_to_lf s = without_crlf_cr s.
Proof. exact crlf_spec. Qed.
Print Assumptions C50_crlf_normalised.

(** C50: a file of lines ended by CRLF loads as the same lines ended by LF. *)
Theorem C50_crlf_file : forall ls, (forall l c, In l ls -> In c l -> c <> CR) ->
  crlf_to_lf (join [CR; NL] ls) = join [NL] ls.
Proof. exact crlf_file. Qed.
Print Assumptions C50_crlf_file.

(** C50: the text kept in memory, which is what reverting a mutant writes back,
    is byte for byte the file's content iff the file has no CRLF. *)
Theorem C50_restore_exact_iff : forall read tree rel pkg top f s,
  load read tree rel pkg top = Loaded f -> read (path_join tree rel) = Some s ->
  (sf_code f = s <-> forall i, cr_before_nl s i = false).
Proof. exact restore_exact. Qed.
Print Assumptions C50_restore_exact_iff.

Example C50_case : crlf_to_lf [97; CR; NL; CR; CR; NL; 98]%N = [97; NL; CR; NL; 98]%N.
Proof. reflexivity. Qed.

(** Finding: one pass is not enough to remove all CRLF pairs. *)
Theorem C50_one_pass_refuted : exists s, crlf_to_lf (crlf_to_lf s) <> crlf_to_lf s.
Proof. exists [CR; CR; NL]. discriminate. Qed.
Print Assumptions C50_one_pass_refuted.
