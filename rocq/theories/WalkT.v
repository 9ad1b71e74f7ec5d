(** Theorems about discovery over the files of a tree. *)
From Coq Require Import String List NArith ZArith Bool Arith Lia.
Import ListNotations.
From Verif Require Import Text SpanM PathM PackageM MutantM GlobM OptionsM PrettyM FnValueM VisitM VisitS WalkM WalkS VisitP WalkP VisitT.

(** C29: the visited files are exactly those reachable from the top files through the
    declared modules whose file exists. *)
Theorem C29_visits : forall read is_file parse re_match tree opts errs skip_calls package fuel q visited ms files,
  walk_queue read is_file parse re_match tree opts errs skip_calls fuel package q = WOk visited ms files ->
  forall e, In e visited <-> reach read is_file parse tree skip_calls package q e.
Proof. exact run_reach. Qed.
Print Assumptions C29_visits.

(** C29: they are visited level by level. *)
Theorem C29_breadth_first : forall read is_file parse re_match tree opts errs skip_calls package fuel q visited ms files,
  walk_queue read is_file parse re_match tree opts errs skip_calls fuel package q = WOk visited ms files ->
  levels (kid read is_file parse tree skip_calls package) q visited.
Proof. exact run_levels. Qed.
Print Assumptions C29_breadth_first.

(** C29: the files found are where the compiler looks, for sources without path attributes
    on modules: the same set of files as the compiler loads when it follows the same
    declarations. *)
Theorem C29_compiler_partial : forall read is_file parse tree skip_calls package content tops,
  (forall p, is_absolute p = false -> read (path_join tree p) = content (steps p)) ->
  (forall p, is_absolute p = false -> (is_file (path_join tree p) = true <-> content (steps p) <> None)) ->
  (forall p, In p tops -> exists n, inner_path p n) ->
  (forall s code root chain, content s = Some code -> parse (crlf_to_lf code) = Some root ->
     declared skip_calls root chain -> simple_chain chain) ->
  forall s, (exists pl, compiled content parse skip_calls tops s pl)
    <-> exists e, reach read is_file parse tree skip_calls package (map (fun t => (t, true)) tops) e /\ steps (fst e) = s.
Proof. exact agree. Qed.
Print Assumptions C29_compiler_partial.

(** C29: the walk ends when no module contains itself ...
    Missing: module graphs with a cycle, see C29_ends_refuted. *)
Theorem C29_terminates_partial : forall read is_file parse re_match tree opts errs skip_calls package q,
  (forall e, In e q -> Acc (fun c p => kid read is_file parse tree skip_calls package p c) e) ->
  exists fuel, forall fuel', fuel <= fuel' ->
    walk_queue read is_file parse re_match tree opts errs skip_calls fuel' package q
    = walk_queue read is_file parse re_match tree opts errs skip_calls fuel package q
    /\ walk_queue read is_file parse re_match tree opts errs skip_calls fuel package q <> WFuel.
Proof. exact run_terminates. Qed.
Print Assumptions C29_terminates_partial.

(** C29: it fails only for a reachable file that cannot be read or parsed. *)
Theorem C29_errors : forall read is_file parse re_match tree opts errs skip_calls package fuel q,
  walk_queue read is_file parse re_match tree opts errs skip_calls fuel package q = WErr ->
  exists e, reach read is_file parse tree skip_calls package q e
    /\ (load read tree (fst e) package (snd e) = LoadErr
        \/ exists f, load read tree (fst e) package (snd e) = Loaded f /\ parse (sf_code f) = None).
Proof. exact run_err. Qed.
Print Assumptions C29_errors.

(** C29: the listed files are the reachable ones that the globs allow. *)
Theorem C29_files : forall read is_file parse re_match tree opts errs skip_calls package fuel q visited ms files,
  walk_queue read is_file parse re_match tree opts errs skip_calls fuel package q = WOk visited ms files ->
  forall f, In f files <-> exists e, reach read is_file parse tree skip_calls package q e
    /\ load read tree (fst e) package (snd e) = Loaded f /\ allows_source_file_path opts (sf_path f) = true.
Proof. intros. eapply run_files; eauto. Qed.
Print Assumptions C29_files.

(** C21: over a whole tree, the mutants are those of the allowed files that the names allow;
    files reached only through excluded files count too. *)
Theorem C21_tree : forall read is_file parse re_match tree opts errs skip_calls fuel ps visited ms files,
  walk_tree read is_file parse re_match tree opts errs skip_calls fuel ps = WOk visited ms files ->
  forall m, In m ms <-> exists p e f root, In p ps
    /\ reach read is_file parse tree skip_calls (pk_name p) (map (fun t => (t, true)) (pk_tops p)) e
    /\ load read tree (fst e) (pk_name p) (snd e) = Loaded f /\ parse (sf_code f) = Some root
    /\ allows_source_file_path opts (sf_path f) = true
    /\ offered f errs skip_calls root m /\ allows_mutant re_match opts m = Some true.
Proof. exact tree_mutants. Qed.
Print Assumptions C21_tree.

(** C47: for a module declared in a file that the code and the compiler place alike, the
    code looks exactly where the compiler does, unless the outermost inline module around
    has a path attribute and the file is one like foo.rs. *)
Theorem C47_as_compiler_partial : forall f n pl parents child,
  file_path (sf_path f) n -> plain_chain (parents ++ [child]) -> assumed f pl ->
  (pl_rel pl = None \/ match parents with [] => True | m :: _ => mn_path m = None end) ->
  exists cands, mod_candidates f (parents ++ [child]) = Some cands
    /\ map steps cands = compiler_lookups pl parents child.
Proof. exact candidates_compiler. Qed.
Print Assumptions C47_as_compiler_partial.

(** C47: a file found without a path attribute is placed as by the compiler ... *)
Theorem C47_next_place : forall f n pl pl' m,
  file_path (sf_path f) n -> sf_top f = false -> mn_path m = None -> mn_name m <> [] -> mn_name m <> tx "mod" ->
  assumed f pl -> loaded_place m (steps (sf_path f)) pl' -> pl = pl'.
Proof. exact place_agrees. Qed.
Print Assumptions C47_next_place.

(** ... and one found through a path attribute only if its name is mod.rs. *)
Theorem C47_attribute_place : forall f n pl pl' m p,
  file_path (sf_path f) n -> sf_top f = false -> mn_path m = Some p ->
  assumed f pl -> loaded_place m (steps (sf_path f)) pl' -> (pl = pl' <-> n = tx "mod.rs").
Proof. exact place_agrees_attr. Qed.
Print Assumptions C47_attribute_place.

(** C47: no absolute path is ever followed. *)
Theorem C47_relative : forall skip_calls root chain, declared skip_calls root chain ->
  chain <> [] /\ forall m p, In m chain -> mn_path m = Some p -> is_absolute p = false.
Proof. exact declared_relative. Qed.
Print Assumptions C47_relative.

(** ** Examples *)
Definition ex_opts (exclude : list text) : option options :=
  match options_new (fun _ => true)
    (mkArgs false true (Some true) false false None false [] [] exclude [] []
      true false None true None false false false true None None false None
      [] None [] None None None None None None false [] [] (mkFeatures [] false false))
    (mkConfig false None [] [] [] [] [] [] [] None None None [] None [] None None None None) with
  | NewOk o => Some o | _ => None end.
Definition decl (name : text) : node := Node (KMod [] name (ex_sp 1) false) [].
Definition ex_code (t : text) : option node :=
  if text_eqb t (tx "LIB") then Some (Node (KFile []) [decl (tx "a"); decl (tx "c"); decl (tx "gone")])
  else if text_eqb t (tx "A") then Some (Node (KFile []) [Node (KMod [] (tx "in") (ex_sp 2) true) [decl (tx "b")]; Node (KFn (ex_fn FreeFn [] false (tx "f") 4)) []])
  else if text_eqb t (tx "LEAF") then Some (Node (KFile []) [Node (KFn (ex_fn FreeFn [] false (tx "g") 4)) []])
  else None.
Definition ex_files : list (text * text) :=
  [(tx "/t/src/lib.rs", tx "LIB"); (tx "/t/src/main.rs", tx "LIB"); (tx "/t/src/a.rs", tx "A"); (tx "/t/src/c/mod.rs", tx "LEAF"); (tx "/t/src/a/in/b.rs", tx "LEAF")].
Definition ex_read (p : text) : option text := option_map snd (find (fun f => text_eqb (fst f) p) ex_files).
Definition ex_is (p : text) : bool := match ex_read p with Some _ => true | None => false end.
Definition ex_run (exclude : list text) (tops : list text) : option wresult :=
  option_map (fun o => walk_package ex_read ex_is ex_code (fun _ _ => true) (tx "/t") o [] [] 20 (mkPackage (tx "p") (tx "1.0.0") (tx "/t") tops)) (ex_opts exclude).

Example C29_case : exists ms fs, ex_run [] [tx "src/lib.rs"]
  = Some (WOk [(tx "src/lib.rs", true); (tx "src/a.rs", false); (tx "src/c/mod.rs", false); (tx "src/a/in/b.rs", false)] ms fs)
  /\ map (fun m => (sf_path (mu_file m), mu_replacement m)) ms
     = [(tx "src/a.rs", tx "true"); (tx "src/a.rs", tx "false"); (tx "src/c/mod.rs", tx "true"); (tx "src/c/mod.rs", tx "false");
        (tx "src/a/in/b.rs", tx "true"); (tx "src/a/in/b.rs", tx "false")]
  /\ length fs = 4.
Proof. vm_compute. eexists _, _. split; [reflexivity|]. split; reflexivity. Qed.

(** With src/a.rs excluded its module is still found. *)
Example C21_tree_case : exists v ms fs, ex_run [tx "src/a.rs"] [tx "src/lib.rs"] = Some (WOk v ms fs)
  /\ map (fun m => (sf_path (mu_file m), mu_replacement m)) ms
     = [(tx "src/c/mod.rs", tx "true"); (tx "src/c/mod.rs", tx "false"); (tx "src/a/in/b.rs", tx "true"); (tx "src/a/in/b.rs", tx "false")]
  /\ length v = 4.
Proof. vm_compute. eexists _, _, _. split; [reflexivity|]. split; reflexivity. Qed.

(** C29: "each once" is false: a module that two targets declare is visited twice, and its
    mutants are listed twice. *)
Theorem C29_once_refuted : exists read is_file parse re_match tree opts p fuel visited ms files,
  walk_package read is_file parse re_match tree opts [] [] fuel p = WOk visited ms files
  /\ NoDup (pk_tops p) /\ ~ NoDup visited /\ ~ NoDup ms.
Proof.
  destruct (ex_opts []) as [o|] eqn:O; [|vm_compute in O; discriminate].
  pose (p := mkPackage (tx "p") (tx "1.0.0") (tx "/t") [tx "src/lib.rs"; tx "src/main.rs"]).
  destruct (walk_package ex_read ex_is ex_code (fun _ _ => true) (tx "/t") o [] [] 20 p) as [v ms fs| | |] eqn:W.
  2,3,4: vm_compute in O; injection O as <-; vm_compute in W; discriminate.
  exists ex_read, ex_is, ex_code, (fun _ _ => true), (tx "/t"), o, p, 20, v, ms, fs. split; [exact W|].
  vm_compute in O. injection O as <-. vm_compute in W. injection W as <- <- <-.
  assert (T : forall (A : Type) (l : list A) i j x, i <> j -> nth_error l i = Some x -> nth_error l j = Some x -> ~ NoDup l).
  { intros A l i j x D E1 E2 N1. apply D. apply (proj1 (NoDup_nth_error l) N1); [|congruence]. apply nth_error_Some. congruence. }
  split; [|split].
  - constructor; [intros [E|[]]; discriminate|]. constructor; [intros []|constructor].
  - eapply (T _ _ 2 4); [lia|reflexivity|reflexivity].
  - eapply (T _ _ 0 4); [lia|reflexivity|reflexivity].
Qed.
Print Assumptions C29_once_refuted.

(** C29: a file that names itself as a module is visited for ever. *)
Definition loop_code (t : text) : option node :=
  Some (Node (KFile []) [Node (KMod [MNameValue (mkPath false [tx "path"]) (Some (tx "lib.rs"))] (tx "again") (ex_sp 1) false) []]).
Theorem C29_ends_refuted : exists read is_file parse re_match tree opts p,
  forall fuel, walk_package read is_file parse re_match tree opts [] [] fuel p = WFuel.
Proof.
  destruct (ex_opts []) as [o|] eqn:O; [|vm_compute in O; discriminate].
  exists ex_read, ex_is, loop_code, (fun _ _ => true), (tx "/t"), o, (mkPackage (tx "p") (tx "1.0.0") (tx "/t") [tx "src/lib.rs"]).
  assert (One : forall b, exists f kept, one_file ex_read ex_is loop_code (fun _ _ => true) (tx "/t") o [] [] (tx "p") (tx "src/lib.rs", b) = TFile f kept [tx "src/lib.rs"]).
  { intro b. vm_compute in O. injection O as <-. destruct b; vm_compute; eexists _, _; reflexivity. }
  assert (Z : forall fuel b, walk_queue ex_read ex_is loop_code (fun _ _ => true) (tx "/t") o [] [] fuel (tx "p") [(tx "src/lib.rs", b)] = WFuel).
  { induction fuel as [|fuel IH]; intro b; [reflexivity|]. cbn [walk_queue]. destruct (One b) as [f [kept E]]. rewrite E.
    cbn [app map]. rewrite IH. reflexivity. }
  intro fuel. unfold walk_package. cbn [pk_name pk_tops map]. apply Z.
Qed.
Print Assumptions C29_ends_refuted.

(** C47: the two cases in which the compiler looks elsewhere. *)
Definition ex_mod (name : text) (p : option text) : mod_ns := mkModNs name p (ex_sp 1).
Theorem C47_inline_attribute_refuted : exists f n pl parents child cands,
  file_path (sf_path f) n /\ plain_chain (parents ++ [child]) /\ assumed f pl
  /\ mod_candidates f (parents ++ [child]) = Some cands
  /\ forall c, In c cands -> ~ In (steps c) (compiler_lookups pl parents child).
Proof.
  exists (mkSF (tx "p") (tx "src/a/b.rs") [] false), (tx "b.rs"), (mkPlace [Normal (tx "src"); Normal (tx "a")] (Some (tx "b"))),
    [ex_mod (tx "inline") (Some (tx "foo"))], (ex_mod (tx "x") None), [tx "src/a/b/foo/x.rs"; tx "src/a/b/foo/x/mod.rs"].
  split; [|split; [|split; [|split]]].
  - split; [reflexivity|]. split; [right; exists (tx "src/a"); reflexivity|]. split; [cbn; intuition discriminate|].
    repeat split; vm_compute; discriminate.
  - intros m I. cbn [app] in I. destruct I as [<-|[<-|[]]]; cbn [ex_mod mn_name mn_path];
      (split; [cbn; intuition discriminate|]; split; [discriminate|]; split; [discriminate|]; split; [discriminate|]);
      intros q E; [injection E as <-; reflexivity|discriminate].
  - apply (as_stem (mkSF (tx "p") (tx "src/a/b.rs") [] false) [Normal (tx "src"); Normal (tx "a")] (tx "b.rs")); [reflexivity|reflexivity|discriminate].
  - reflexivity.
  - intros c I J. destruct I as [<-|[<-|[]]]; vm_compute in J; intuition discriminate.
Qed.
Print Assumptions C47_inline_attribute_refuted.
Example C47_case : mod_candidates (mkSF (tx "p") (tx "src/a/b.rs") [] false) [ex_mod (tx "c") None; ex_mod (tx "d") None]
  = Some [tx "src/a/b/c/d.rs"; tx "src/a/b/c/d/mod.rs"]
  /\ compiler_lookups (mkPlace [Normal (tx "src"); Normal (tx "a")] (Some (tx "b"))) [ex_mod (tx "c") None] (ex_mod (tx "d") None)
     = map steps [tx "src/a/b/c/d.rs"; tx "src/a/b/c/d/mod.rs"].
Proof. vm_compute. auto. Qed.
(** Below a file loaded through [#[path = "foo_file.rs"] mod a;] in src/lib.rs the compiler
    looks in src, the code in src/foo_file. *)
Theorem C47_below_attribute_refuted : exists f n pl m child cands,
  file_path (sf_path f) n /\ loaded_place m (steps (sf_path f)) pl /\ plain_chain [child]
  /\ mod_candidates f [child] = Some cands
  /\ forall c, In c cands -> ~ In (steps c) (compiler_lookups pl [] child).
Proof.
  exists (mkSF (tx "p") (tx "src/foo_file.rs") [] false), (tx "foo_file.rs"), (mkPlace [Normal (tx "src")] None),
    (ex_mod (tx "a") (Some (tx "foo_file.rs"))), (ex_mod (tx "x") None), [tx "src/foo_file/x.rs"; tx "src/foo_file/x/mod.rs"].
  split; [|split; [|split; [|split]]].
  - split; [reflexivity|]. split; [right; exists (tx "src"); reflexivity|]. split; [cbn; intuition discriminate|].
    repeat split; vm_compute; discriminate.
  - apply (lp_attr (ex_mod (tx "a") (Some (tx "foo_file.rs"))) (tx "foo_file.rs") [Normal (tx "src")] (Normal (tx "foo_file.rs"))). reflexivity.
  - intros m [<-|[]]. cbn [ex_mod mn_name mn_path].
    split; [cbn; intuition discriminate|]; split; [discriminate|]; split; [discriminate|]; split; [discriminate|]. intros q E. discriminate.
  - reflexivity.
  - intros c I J. destruct I as [<-|[<-|[]]]; vm_compute in J; intuition discriminate.
Qed.
Print Assumptions C47_below_attribute_refuted.

(** A chain that meets the conditions of [C29_compiler_partial]. *)
Example C29_compiler_case : simple_chain [ex_mod (tx "in") None; ex_mod (tx "b") None] /\ inner_path (tx "src/lib.rs") (tx "lib.rs")
  /\ compiled (fun s => option_map snd (find (fun f => match list_eq_dec (fun a b : comp => ltac:(decide equality; apply (list_eq_dec N.eq_dec))) (steps (fst f)) s with left _ => true | _ => false end)
       [(tx "src/lib.rs", tx "LIB"); (tx "src/a.rs", tx "A"); (tx "src/a/in/b.rs", tx "LEAF")])) ex_code [] [tx "src/lib.rs"]
       [Normal (tx "src"); Normal (tx "a.rs")] (mkPlace [Normal (tx "src")] (Some (tx "a"))).
Proof.
  split; [|split].
  - intros m [<-|[<-|[]]]; (split; [reflexivity|]; split; [cbn; intuition discriminate|]; split; [cbn; intuition discriminate|]; split; discriminate).
  - split; [|intros c I; vm_compute in I; intuition; subst; eauto].
    split; [reflexivity|]. split; [right; exists (tx "src"); reflexivity|]. split; [cbn; intuition discriminate|].
    repeat split; vm_compute; discriminate.
  - eapply (co_mod _ _ _ _ [Normal (tx "src"); Normal (tx "lib.rs")] (mkPlace [Normal (tx "src")] None) (tx "LIB") _ [] (ex_mod (tx "a") None)).
    + apply (co_top _ _ _ [tx "src/lib.rs"] (tx "src/lib.rs") [Normal (tx "src")] (Normal (tx "lib.rs"))); [left; reflexivity|reflexivity].
    + vm_compute. reflexivity.
    + reflexivity.
    + cbn [app]. destruct (walk_syntax ex_file [] [] (Node (KFile []) [decl (tx "a"); decl (tx "c"); decl (tx "gone")])) as [[ms ext]|] eqn:E; [|vm_compute in E; discriminate].
      apply (walk_declared _ _ _ _ _ _ E). vm_compute in E. injection E as <- <-. left. reflexivity.
    + exists [], [[Normal (tx "src"); Normal (tx "a"); Normal (tx "mod.rs")]]. split; [reflexivity|]. split; [vm_compute; discriminate|intros x []].
    + apply (lp_plain (ex_mod (tx "a") None) [Normal (tx "src")]). reflexivity.
Qed.
