From Coq Require Import String List NArith Bool Arith Lia.
Import ListNotations.
From Verif Require Import Text GlobM GlobS GlobP.

(** C39: a glob without a slash matches a path iff it matches one of its components.
    Missing: the empty glob and classes that match a slash, see C39_empty_refuted and C39_class_refuted. *)
Theorem C39_no_slash_partial : forall g gs path, g <> [] -> ~ In SLASH g -> classes_without_slash g ->
  build_glob_set [g] = Some (Some gs) ->
  set_match gs path = true <-> exists c, In c (split_on SLASH path) /\ cmatch g c.
Proof. exact c39_free. Qed.
Print Assumptions C39_no_slash_partial.

Definition ex_match (globs : list text) (path : text) : option bool :=
  match build_glob_set globs with Some (Some gs) => Some (set_match gs path) | _ => None end.

Lemma no_class : forall g, ~ In 91%N g -> classes_without_slash g.
Proof. intros g H a b c neg rs E _. exfalso. apply H. rewrite E. apply in_or_app. right. left. reflexivity. Qed.

Example C39_case_no_slash :
  classes_without_slash (tx "con*") /\
  map (ex_match [tx "con*"]) [tx "console.rs"; tx "src/console/a.rs"; tx "src/x/con"; tx "src/a.rs"]
  = [Some true; Some true; Some true; Some false].
Proof. split; [|vm_compute; reflexivity]. apply no_class. vm_compute. intuition discriminate. Qed.

(** C39: a glob with a slash is matched against the whole path, component by component.
    Missing: classes that match a slash, see C39_class_refuted. *)
Theorem C39_slash_partial : forall g path, In SLASH g ->
  (forall c, In c (split_on SLASH g) -> c <> [] /\ glob_new c <> None /\ classes_without_slash c) ->
  exists gs, build_glob_set [g] = Some (Some gs)
    /\ (set_match gs path = true <-> pmatch (split_on SLASH g) (split_on SLASH path)).
Proof. exact c39_slash. Qed.
Print Assumptions C39_slash_partial.

Example C39_case_slash :
  (forall c, In c (split_on SLASH (tx "src/**/f?*.rs")) -> c <> [] /\ glob_new c <> None /\ classes_without_slash c) /\
  map (ex_match [tx "src/**/f?*.rs"]) [tx "src/foo.rs"; tx "src/a/b/foo.rs"; tx "x/src/foo.rs"; tx "src/f.rs"; tx "src/foo.rs/a"]
  = [Some true; Some true; Some false; Some false; Some false].
Proof.
  split; [|vm_compute; reflexivity].
  intros c H. repeat (destruct H as [<-|H]; [repeat split; try discriminate; apply no_class; vm_compute; intuition discriminate|]). destruct H.
Qed.

(** C39: how classes are read: characters and ranges, negated by "!" or "^". *)
Theorem C39_class_read : forall is, Forall plain_item is -> is <> [] ->
  class_body (flat_map item_text is ++ tx "]") false (map item_range is)
  /\ class_body (tx "!" ++ flat_map item_text is ++ tx "]") true (map item_range is)
  /\ class_body (tx "^" ++ flat_map item_text is ++ tx "]") true (map item_range is).
Proof. exact c39_class_read. Qed.
Print Assumptions C39_class_read.

Example C39_case_class :
  map (ex_match [tx "a[0-9x]"; tx "b[!a-c]"]) [tx "a7"; tx "ax"; tx "ay"; tx "bd"; tx "bb"]
  = [Some true; Some true; Some false; Some true; Some false]
  /\ flat_map item_text [Range 48%N 57%N; One 120%N] ++ tx "]" = tx "0-9x]" /\ Forall plain_item [Range 48%N 57%N; One 120%N].
Proof.
  split; [vm_compute; reflexivity|]. split; [reflexivity|].
  repeat constructor; vm_compute; intuition discriminate.
Qed.

(** C39: a set matches iff one of its globs does; it is an error iff one of them is. *)
Theorem C39_set : forall globs gs path, globs <> [] -> build_glob_set globs = Some (Some gs) ->
  set_match gs path = true <->
  exists g x, In g globs /\ build_glob_set [g] = Some (Some x) /\ set_match x path = true.
Proof. exact c39_set. Qed.
Print Assumptions C39_set.

Theorem C39_error : forall globs, build_glob_set globs = None <-> exists g, In g globs /\ build_glob_set [g] = None.
Proof. exact c39_error. Qed.
Print Assumptions C39_error.

Example C39_case_set :
  map (ex_match [tx "foo.rs"; tx "src/*.rs"]) [tx "a/foo.rs"; tx "src/bar.rs"; tx "a/bar.rs"] = [Some true; Some true; Some false]
  /\ build_glob_set [tx "foo.rs"; tx "x["] = None /\ build_glob_set [] = Some None.
Proof. vm_compute. auto. Qed.

(** C39 is false of the empty glob, which matches every file. *)
Theorem C39_empty_refuted : exists gs, build_glob_set [[]] = Some (Some gs)
  /\ (forall path, set_match gs path = true)
  /\ exists path, ~ exists c, In c (split_on SLASH path) /\ cmatch [] c.
Proof.
  eexists. split; [vm_compute; reflexivity|]. split; [reflexivity|].
  exists (tx "src/lib.rs"). intros (c & H & M). inversion M; subst. vm_compute in H. intuition discriminate.
Qed.
Print Assumptions C39_empty_refuted.

(** C39 is false of a negated class, which matches a slash (as in globset 0.4.10, where
    [literal_separator] affects only "*" and "?"). *)
Theorem C39_class_refuted : exists g gs path, ~ In SLASH g /\ build_glob_set [g] = Some (Some gs)
  /\ set_match gs path = true /\ ~ exists c, In c (split_on SLASH path) /\ cmatch g c.
Proof.
  exists (tx "c[!x]d"), [[TPrefix; TLit 99; TClass true [(120, 120)]; TLit 100]; [TPrefix; TLit 99; TClass true [(120, 120)]; TLit 100; TSuffix]]%N, (tx "c/d").
  split; [vm_compute; intuition discriminate|]. split; [vm_compute; reflexivity|]. split; [vm_compute; reflexivity|].
  intros (c & H & M). apply cmatch_tmatch in M; [|vm_compute; intuition discriminate].
  destruct M as (ts & E & M). vm_compute in E. injection E as <-.
  vm_compute in H. destruct H as [<-|[<-|[]]]; vm_compute in M; discriminate.
Qed.
Print Assumptions C39_class_refuted.
