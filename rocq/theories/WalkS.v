(** What discovery over a tree must visit and produce. *)
From Coq Require Import String List NArith ZArith Bool Arith.
Import ListNotations.
From Verif Require Import Text SpanM PathM PackageM MutantM GlobM OptionsM PrettyM FnValueM VisitM VisitS WalkM.

(** ** Where the compiler looks for modules *)
(** Components without ".". *)
Definition tidy (cs : list comp) : list comp := filter (fun c => match c with Cur => false | _ => true end) cs.
Definition steps (p : text) : list comp := tidy (components p).

(** Where a piece of source stands: the directory of its file (or of its inline module), and
    the name that modules below a file such as foo.rs get as a prefix. *)
Record place := mkPlace { pl_dir : list comp; pl_rel : option text }.
Definition own_dir (pl : place) : list comp :=
  pl_dir pl ++ match pl_rel pl with Some r => [Normal r] | None => [] end.
(** Going into [mod name { .. }]. *)
Definition enter (pl : place) (m : mod_ns) : place :=
  match mn_path m with
  | Some p => mkPlace (pl_dir pl ++ steps p) None
  | None => mkPlace (own_dir pl ++ [Normal (mn_name m)]) None
  end.
(** The files that [mod name;] may mean. *)
Definition lookups (pl : place) (m : mod_ns) : list (list comp) :=
  match mn_path m with
  | Some p => [pl_dir pl ++ steps p]
  | None => [own_dir pl ++ [Normal (mn_name m ++ tx ".rs")]; own_dir pl ++ [Normal (mn_name m); Normal (tx "mod.rs")]]
  end.
Definition compiler_lookups (pl : place) (parents : list mod_ns) (child : mod_ns) : list (list comp) :=
  lookups (fold_left enter parents pl) child.
(** The place of the contents of a file: which of the lookups found it decides. *)
Inductive loaded_place (m : mod_ns) : list comp -> place -> Prop :=
| lp_attr p d x : mn_path m = Some p -> loaded_place m (d ++ [x]) (mkPlace d None)
| lp_plain d : mn_path m = None -> loaded_place m (d ++ [Normal (mn_name m ++ tx ".rs")]) (mkPlace d (Some (mn_name m)))
| lp_mod d : mn_path m = None ->
    loaded_place m (d ++ [Normal (mn_name m); Normal (tx "mod.rs")]) (mkPlace (d ++ [Normal (mn_name m)]) None).

(** The place that the code assumes for a file. *)
Inductive assumed : source_file -> place -> Prop :=
| as_dir f d n : steps (sf_path f) = d ++ [Normal n] -> sf_top f = true \/ n = tx "mod.rs" -> assumed f (mkPlace d None)
| as_stem f d n : steps (sf_path f) = d ++ [Normal n] -> sf_top f = false -> n <> tx "mod.rs" ->
    assumed f (mkPlace d (Some (stem n))).

(** A relative path whose last piece is the name of a file (other than "..rs" and such). *)
Definition file_path (p n : text) : Prop :=
  is_absolute p = false /\ (p = n \/ exists d, p = d ++ [SLASH] ++ n)
  /\ ~ In SLASH n /\ n <> [] /\ n <> [DOT] /\ n <> [DOT; DOT]
  /\ stem n <> [DOT] /\ stem n <> [DOT; DOT].
(** A module chain with relative path attributes and ordinary names. *)
Definition plain_chain (chain : list mod_ns) : Prop :=
  forall m, In m chain ->
    ~ In SLASH (mn_name m) /\ mn_name m <> [] /\ mn_name m <> [DOT] /\ mn_name m <> [DOT; DOT]
    /\ forall p, mn_path m = Some p -> is_absolute p = false.

(** ** Which files are visited *)
Definition first_existing (exists_ : text -> Prop) (l : list text) (p : text) : Prop :=
  exists a b, l = a ++ p :: b /\ exists_ p /\ forall q, In q a -> ~ exists_ q.

Section Reach.
Variable read : text -> option text.
Variable is_file : text -> bool.
Variable parse : text -> option node.
Variable tree : text.
Variable skip_calls : list text.
Variable package : text.

(** [kid e c]: the file of [e] declares a module whose file is [c]. *)
Definition kid (e c : text * bool) : Prop :=
  exists f root chain cands,
    load read tree (fst e) package (snd e) = Loaded f
    /\ parse (sf_code f) = Some root
    /\ declared skip_calls root chain
    /\ mod_candidates f chain = Some cands
    /\ first_existing (fun p => is_file (path_join tree p) = true) cands (fst c)
    /\ snd c = false.
Inductive reach (tops : list (text * bool)) : text * bool -> Prop :=
| reach_top e : In e tops -> reach tops e
| reach_kid e c : reach tops e -> kid e c -> reach tops c.
End Reach.

(** ** The order of visits *)
Section Order.
Variable K : text * bool -> text * bool -> Prop.
(** The next level lists the kids of each entry in turn. *)
Inductive next_level : list (text * bool) -> list (text * bool) -> Prop :=
| nl_nil : next_level [] []
| nl_cons e l ks l' : (forall c, In c ks <-> K e c) -> next_level l l' -> next_level (e :: l) (ks ++ l').
(** All levels one after the other, until one is empty. *)
Inductive levels : list (text * bool) -> list (text * bool) -> Prop :=
| lv_nil : levels [] []
| lv_cons q q' v : q <> [] -> next_level q q' -> levels q' v -> levels q (q ++ v).
End Order.

(** ** The compiler's view of a crate *)
Section Compiler.
(** Contents of files by the steps of their path; [None] where there is no file. *)
Variable content : list comp -> option text.
Variable parse : text -> option node.
Variable skip_calls : list text.

(** Files with the place of their contents, from the top files of the targets. *)
Inductive compiled (tops : list text) : list comp -> place -> Prop :=
| co_top p d x : In p tops -> steps p = d ++ [x] -> compiled tops (steps p) (mkPlace d None)
| co_mod s pl code root parents child c pl' :
    compiled tops s pl -> content s = Some code -> parse (crlf_to_lf code) = Some root ->
    declared skip_calls root (parents ++ [child]) ->
    (exists a b, compiler_lookups pl parents child = a ++ c :: b /\ content c <> None /\ forall x, In x a -> content x = None) ->
    loaded_place child c pl' ->
    compiled tops c pl'.
End Compiler.

(** Module declarations without path attributes, with ordinary names. *)
Definition simple_chain (chain : list mod_ns) : Prop :=
  forall m, In m chain -> mn_path m = None /\ ~ In SLASH (mn_name m) /\ ~ In DOT (mn_name m)
    /\ mn_name m <> [] /\ mn_name m <> tx "mod".
(** A path of ordinary names. *)
Definition inner_path (p n : text) : Prop := file_path p n /\ forall c, In c (steps p) -> exists t, c = Normal t.
