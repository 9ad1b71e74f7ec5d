From Coq Require Import String List NArith ZArith Bool Lia.
Import ListNotations.
From Verif Require Import Text PathM PathS PathP ManifestM ManifestS ManifestP.

(** C28: the document changes only in dependency paths that leave the tree, which are
    continued from the original directory.
    Missing: dependency tables other than [dependencies], see C28_other_tables_refuted. *)
Theorem C28_document_partial : forall src, is_absolute src = true -> forall v, rewritten dependency_path src v (fix_document src v).
Proof. exact rw_document. Qed.
Print Assumptions C28_document_partial.

Theorem C28_config_document : forall src, is_absolute src = true -> forall v, rewritten override_path src v (fix_config_document src v).
Proof. exact rw_config. Qed.
Print Assumptions C28_config_document.

(** C28: twice is once. *)
Theorem C28_idempotent : forall src, is_absolute src = true -> forall v,
  fix_document src (fix_document src v) = fix_document src v
  /\ fix_config_document src (fix_config_document src v) = fix_config_document src v.
Proof. intros src A v. split; [now apply fix_document_idem|now apply fix_config_idem]. Qed.
Print Assumptions C28_idempotent.

(** C28: the manifest file. When nothing is to change (and there is no NaN in it,
    which differs from itself) its text stays as it is.
    Missing: dependency tables other than [dependencies], see C28_other_tables_refuted. *)
Theorem C28_manifest_file_partial : forall parse print src content v, is_absolute src = true ->
  parse content = Some v -> (forall v, parse (print v) = Some v) ->
  exists content' v', fix_manifest_file parse print src content = Some content' /\ parse content' = Some v'
    /\ rewritten dependency_path src v v'
    /\ (v' = v -> ~ inside TNan v -> content' = content)
    /\ exists v'', fix_manifest_file parse print src content' = Some v'' /\ parse v'' = Some v'.
Proof. exact c28_manifest_file. Qed.
Print Assumptions C28_manifest_file_partial.

(** C28: the configuration file. *)
Theorem C28_config_file : forall parse print src content v, is_absolute src = true ->
  parse content = Some v -> (forall v, parse (print v) = Some v) ->
  exists content' v', fix_config_file parse print src content = Some content' /\ parse content' = Some v'
    /\ rewritten override_path src v v'
    /\ ((forall p s, override_path p -> at_place v p = Some (TStr s) -> ~ leaves s) -> content' = content)
    /\ fix_config_file parse print src content' = Some content'.
Proof. exact c28_config_file. Qed.
Print Assumptions C28_config_file.

Definition dep (p : text) : toml := TTab [(tx "version", TStr (tx "1")); (tx "path", TStr p)].
Definition ex_manifest : toml := TTab
  [ (tx "package", TTab [(tx "name", TStr (tx "x"))]);
    (tx "dependencies", TTab [(tx "a", dep (tx "../a")); (tx "b", dep (tx "sub/../b")); (tx "c", TStr (tx "../1.0")); (tx "d", dep (tx "/abs"))]);
    (tx "dev-dependencies", TTab [(tx "t", dep (tx "../t"))]);
    (tx "patch", TTab [(tx "crates-io", TTab [(tx "p", dep (tx "./q/../../p"))])]) ].

Example C28_case : fix_manifest_toml (tx "/src/ws") ex_manifest = Some (TTab
  [ (tx "package", TTab [(tx "name", TStr (tx "x"))]);
    (tx "dependencies", TTab [(tx "a", dep (tx "/src/ws/../a")); (tx "b", dep (tx "sub/../b")); (tx "c", TStr (tx "../1.0")); (tx "d", dep (tx "/abs"))]);
    (tx "dev-dependencies", TTab [(tx "t", dep (tx "../t"))]);
    (tx "patch", TTab [(tx "crates-io", TTab [(tx "p", dep (tx "/src/ws/./q/../../p"))])]) ]).
Proof. vm_compute. reflexivity. Qed.

Example C28_case_config : fix_cargo_config_toml (tx "/src/ws") (TTab [(tx "paths", TArr [TStr (tx "../o"); TStr (tx "in"); TScalar 3])])
  = Some (TTab [(tx "paths", TArr [TStr (tx "/src/ws/../o"); TStr (tx "in"); TScalar 3])])
  /\ fix_cargo_config_toml (tx "/src/ws") (TTab [(tx "paths", TArr [TStr (tx "in")]); (tx "build", TNan)]) = None.
Proof. vm_compute. auto. Qed.

(** C28 fails for the other places where cargo allows dependency paths: an escaping path
    under [dev-dependencies], [build-dependencies], [target.*.dependencies] or
    [workspace.dependencies] is left relative, so it is wrong in the copy. *)
Theorem C28_other_tables_refuted : exists src v p, is_absolute src = true /\ leaves p
  /\ (forall pl, In pl [ [Key (tx "dev-dependencies"); Key (tx "x"); Key (tx "path")];
                  [Key (tx "build-dependencies"); Key (tx "x"); Key (tx "path")];
                  [Key (tx "target"); Key (tx "cfg(unix)"); Key (tx "dependencies"); Key (tx "x"); Key (tx "path")];
                  [Key (tx "workspace"); Key (tx "dependencies"); Key (tx "x"); Key (tx "path")] ] ->
        at_place v pl = Some (TStr p))
  /\ fix_manifest_toml src v = None.
Proof.
  exists (tx "/src/ws").
  exists (TTab [ (tx "dev-dependencies", TTab [(tx "x", dep (tx "../x"))]); (tx "build-dependencies", TTab [(tx "x", dep (tx "../x"))]);
                 (tx "target", TTab [(tx "cfg(unix)", TTab [(tx "dependencies", TTab [(tx "x", dep (tx "../x"))])])]);
                 (tx "workspace", TTab [(tx "dependencies", TTab [(tx "x", dep (tx "../x"))])]) ]).
  exists (tx "../x"). split; [reflexivity|]. split; [split; reflexivity|]. split; [|reflexivity].
  intros pl H. repeat (destruct H as [<-|H]; [reflexivity|]). destruct H.
Qed.
Print Assumptions C28_other_tables_refuted.
