(** Theorems about discovery within one file: C30 (skipped code), C31 (names), C32
    (operators), C33 (match arms), and the module declarations for C29. *)
From Coq Require Import String List NArith Bool Arith.
Import ListNotations.
From Verif Require Import Text SpanM PathM MutantM PrettyM FnValueM VisitM VisitS VisitP.

(** ** C30 *)
(** Attributes are read with this notion of identifiers. *)
Theorem C30_identifiers : forall w, ident_word w = true <-> identifier w.
Proof. exact identifier_iff. Qed.
Print Assumptions C30_identifiers.
Example C30_case_identifiers : map ident_word [tx "skip"; tx "r#mod"; tx "_9"; tx "9a"; tx "a-b"; tx ""; [20986%N]]
  = [true; true; true; false; false; false; true].
Proof. reflexivity. Qed.

(** The mutants of a file are exactly those offered at positions that are not skipped and
    not inside something skipped. *)
Theorem C30_mutants : forall file errs skip_calls root ms ext,
  walk_syntax file errs skip_calls root = Some (ms, ext) ->
  forall m, In m ms <-> offered file errs skip_calls root m.
Proof. exact walk_offered. Qed.
Print Assumptions C30_mutants.

(** In any context, visiting a skipped node changes nothing, whatever it contains. *)
Theorem C30_inside_skipped : forall file errs skip_calls k cs s,
  skipped skip_calls k -> visit file errs skip_calls (Node k cs) s = Some s.
Proof. exact skipped_visit. Qed.
Print Assumptions C30_inside_skipped.

(** Which attributes are recognised. *)
Theorem C30_attributes : forall attrs, attrs_excluded attrs = true <-> marked attrs.
Proof. exact excluded_iff. Qed.
Print Assumptions C30_attributes.

(** [#[cfg(p)]] excludes code only when [p] is [test] itself, so only code that is compiled
    for tests alone.
    Missing: other conditions that are false outside tests, see C30_nested_cfg_refuted. *)
Theorem C30_cfg_partial : forall lead p,
  (attr_is_cfg_test (MList (mkPath lead [tx "cfg"]) (cfg_toks p)) = true <-> p = CId (tx "test"))
  /\ (attr_is_cfg_test (MList (mkPath lead [tx "cfg"]) (cfg_toks p)) = true -> test_only p).
Proof.
  intros lead p. split; [apply cfg_exact|]. intro H. apply cfg_exact in H. subst p. intros ids keys T. exact T.
Qed.
Print Assumptions C30_cfg_partial.

(** Every function with a body, not inside anything skipped, gets its replacements. *)
Theorem C30_every_body : forall file errs skip_calls root ms ext anc f b cs rep,
  walk_syntax file errs skip_calls root = Some (ms, ext) ->
  occurs root anc (Node (KFn f) cs) ->
  (forall k, In k (anc ++ [KFn f]) -> ~ skipped skip_calls k) ->
  fd_block f = Some b ->
  In rep (return_type_replacements errs (fd_ret f)) ->
  pretty [Group Brace (blk_toks b)] <> pretty [Group Brace rep] ->
  exists m, In m ms /\ mu_replacement m = pretty rep /\ mu_genre m = FnValue /\ mu_fn m = Some (info anc f).
Proof.
  intros file errs skip_calls root ms ext anc f b cs rep H O N1 B I D.
  destruct (blk_stmts b) as [|s0 ss] eqn:Bs.
  - exfalso. apply (N1 (KFn f)); [apply in_or_app; right; left; reflexivity|]. cbn. eauto 10.
  - destruct (@exists_last _ (s0 :: ss)) as [more [z E]]; [discriminate|].
    exists (mkMutant file (Some (info anc f)) (mkSpan (sp_start s0) (sp_end z)) (pretty rep) FnValue).
    split; [|auto]. apply (walk_offered _ _ _ _ _ _ H). exists anc, (KFn f), cs.
    cbn [mu_span mu_replacement mu_genre mu_fn mu_file]. split; [exact O|]. split; [exact N1|]. split.
    + apply (y_fn errs f b s0 z rep); auto; rewrite Bs; eauto.
    + split; [|reflexivity]. apply in_some. intros g [].
Qed.
Print Assumptions C30_every_body.

(** ** C31 *)
(** The nesting checks in the visitor never fail. *)
Theorem C31_no_panic : forall file errs skip_calls root,
  exists ms ext, walk_syntax file errs skip_calls root = Some (ms, ext).
Proof. intros file errs skip_calls root. rewrite walk_run. eauto. Qed.
Print Assumptions C31_no_panic.

(** Each mutant is at a position for which its function is the innermost one around it (or
    the one whose body it replaces), with the names of everything around that function. *)
Theorem C31_function : forall file errs skip_calls root ms ext m,
  walk_syntax file errs skip_calls root = Some (ms, ext) -> In m ms ->
  exists anc k cs,
    occurs root anc (Node k cs) /\ yields errs k (mu_span m) (mu_replacement m) (mu_genre m)
    /\ match mu_fn m with
       | None => forall f, ~ In (KFn f) (anc ++ [k])
       | Some fi => exists above f below,
           anc ++ [k] = above ++ KFn f :: below /\ (forall g, ~ In (KFn g) below)
           /\ fn_name fi = join (tx "::") (flat_map names above ++ [fd_ident f])
           /\ fn_return_type fi = pretty (fd_ret_toks f) /\ fn_span fi = fd_span f
       end.
Proof.
  intros file errs skip_calls root ms ext m H I. apply (walk_offered _ _ _ _ _ _ H) in I.
  destruct I as [anc [k [cs [O [N1 [Y [F _]]]]]]]. exists anc, k, cs. split; [exact O|]. split; [exact Y|].
  inversion F as [anc' D E1 E2|above f below D E1 E2].
  - exact D.
  - exists above, f, below. split; [congruence|]. split; [exact D|]. auto.
Qed.
Print Assumptions C31_function.

(** The mutants are in the order of the nodes, and each node contributes its own once. *)
Theorem C31_order : forall file errs skip_calls root ms ext,
  walk_syntax file errs skip_calls root = Some (ms, ext) ->
  exists l, ms = concat l /\ Forall2 (fun (p : list kind * kind) mm =>
    ((exists k, In k (fst p ++ [snd p]) /\ skipped skip_calls k) -> mm = [])
    /\ ((forall k, In k (fst p ++ [snd p]) -> ~ skipped skip_calls k) ->
        forall m, In m mm <-> (yields errs (snd p) (mu_span m) (mu_replacement m) (mu_genre m)
                               /\ in_fn (fst p ++ [snd p]) (mu_fn m) /\ mu_file m = file)))
    (positions [] root) l.
Proof. exact walk_positions. Qed.
Print Assumptions C31_order.

(** ** C29: declarations *)
(** The external modules that are followed are exactly the [mod name;] declarations outside
    skipped code, with the inline modules around them. *)
Theorem C29_declared : forall file errs skip_calls root ms ext,
  walk_syntax file errs skip_calls root = Some (ms, ext) ->
  forall chain, In chain ext <-> declared skip_calls root chain.
Proof. exact walk_declared. Qed.
Print Assumptions C29_declared.

(** ** C32 *)
Theorem C32_same_kind : forall o r, In r (binary_replacements o) ->
  exists o', pretty r = op_text o' /\ o' <> o /\ op_text o' <> op_text o /\ kind_of o' = kind_of o.
Proof.
  intros o r I. apply (in_map pretty) in I. rewrite binary_alts in I. apply in_map_iff in I.
  destruct I as [o' [E I]]. destruct (alts_good _ _ I) as [D K]. exists o'. split; [auto|]. split; [exact D|]. split; [|exact K].
  intro E'. apply op_text_inj in E'. contradiction.
Qed.
Print Assumptions C32_same_kind.
Theorem C32_distinct : forall o, NoDup (map pretty (binary_replacements o)) /\ binary_replacements o <> [].
Proof.
  intro o. split; [|destruct o; discriminate]. rewrite binary_alts. apply NoDup_map_inj; [exact op_text_inj|apply alts_NoDup].
Qed.
Print Assumptions C32_distinct.
Theorem C32_table : forall o t, In t (map pretty (binary_replacements o)) <-> exists o', swap o o' /\ t = op_text o'.
Proof. exact binary_swap. Qed.
Print Assumptions C32_table.
Theorem C32_compound : forall o a, assign_of o = Some a ->
  map pretty (binary_replacements a) = map (fun t => t ++ tx "=") (map pretty (binary_replacements o)).
Proof. exact compound. Qed.
Print Assumptions C32_compound.
(** In a file: the operator mutants are those of the table, at operators that are not in
    skipped code. *)
Theorem C32_in_file : forall file errs skip_calls root ms ext m,
  walk_syntax file errs skip_calls root = Some (ms, ext) -> In m ms -> mu_genre m = BinaryOperator ->
  exists anc a o o' cs, occurs root anc (Node (KBinary a o (mu_span m)) cs)
    /\ mu_replacement m = op_text o' /\ o' <> o /\ kind_of o' = kind_of o /\ swap o o'.
Proof.
  intros file errs skip_calls root ms ext m H I G. apply (walk_offered _ _ _ _ _ _ H) in I.
  destruct I as [anc [k [cs [O [N1 [Y _]]]]]]. rewrite G in Y. inversion Y as [|a o sp o' W E1 E2 E3| | |]; subst.
  destruct (alts_good _ _ (swap_alts _ _ W)) as [D K]. exists anc, a, o, o', cs. repeat split; auto.
Qed.
Print Assumptions C32_in_file.
(** Unary: [!] and [-] are deleted, [*] is left alone. *)
Theorem C32_unary : forall file errs skip_calls root ms ext m,
  walk_syntax file errs skip_calls root = Some (ms, ext) -> In m ms -> mu_genre m = UnaryOperator ->
  mu_replacement m = [] /\ exists anc a o cs, occurs root anc (Node (KUnary a o (mu_span m)) cs) /\ (o = UNot \/ o = UNeg).
Proof.
  intros file errs skip_calls root ms ext m H I G. apply (walk_offered _ _ _ _ _ _ H) in I.
  destruct I as [anc [k [cs [O [N1 [Y _]]]]]]. rewrite G in Y. inversion Y as [| |a o sp U E1 E2 E3| |]; subst.
  split; [auto|]. exists anc, a, o, cs. auto.
Qed.
Print Assumptions C32_unary.

(** ** C33 *)
Theorem C33_arms : forall file errs skip_calls root ms ext m,
  walk_syntax file errs skip_calls root = Some (ms, ext) -> In m ms -> mu_genre m = MatchArm ->
  mu_replacement m = [] /\
  exists anc a arms cs x y, occurs root anc (Node (KMatch a arms) cs)
    /\ In x arms /\ mu_span m = arm_span x /\ arm_wild x = false /\ arm_guard x = None
    /\ In y arms /\ arm_wild y = true.
Proof.
  intros file errs skip_calls root ms ext m H I G. apply (walk_offered _ _ _ _ _ _ H) in I.
  destruct I as [anc [k [cs [O [N1 [Y _]]]]]]. rewrite G in Y. inversion Y as [| | |a arms x y Ix W Gx Iy Wy E1 E2 E3|]; subst.
  split; [auto|]. exists anc, a, arms, cs, x, y. repeat split; auto.
Qed.
Print Assumptions C33_arms.
Theorem C33_guards : forall file errs skip_calls root ms ext m,
  walk_syntax file errs skip_calls root = Some (ms, ext) -> In m ms -> mu_genre m = MatchArmGuard ->
  (mu_replacement m = tx "true" \/ mu_replacement m = tx "false") /\
  exists anc a arms cs x, occurs root anc (Node (KMatch a arms) cs) /\ In x arms /\ arm_guard x = Some (mu_span m).
Proof.
  intros file errs skip_calls root ms ext m H I G. apply (walk_offered _ _ _ _ _ _ H) in I.
  destruct I as [anc [k [cs [O [N1 [Y _]]]]]]. rewrite G in Y. inversion Y as [| | | |a arms x g t Ix Gx T E1 E2 E3]; subst.
  split; [auto|]. exists anc, a, arms, cs, x. auto.
Qed.
Print Assumptions C33_guards.
(** Conversely, for a match outside skipped code: each unguarded arm that is not [_] is
    offered when there is a [_] arm, and each guard gets both values. *)
Theorem C33_complete : forall file errs skip_calls root ms ext anc a arms cs x,
  walk_syntax file errs skip_calls root = Some (ms, ext) ->
  occurs root anc (Node (KMatch a arms) cs) ->
  (forall k, In k (anc ++ [KMatch a arms]) -> ~ skipped skip_calls k) ->
  In x arms ->
  (arm_guard x = None -> arm_wild x = false -> (exists y, In y arms /\ arm_wild y = true) ->
   exists m, In m ms /\ mu_genre m = MatchArm /\ mu_span m = arm_span x /\ mu_replacement m = [])
  /\ (forall g t, arm_guard x = Some g -> (t = tx "true" \/ t = tx "false") ->
   exists m, In m ms /\ mu_genre m = MatchArmGuard /\ mu_span m = g /\ mu_replacement m = t).
Proof.
  intros file errs skip_calls root ms ext anc a arms cs x H O N1 I.
  assert (F : exists o, in_fn (anc ++ [KMatch a arms]) o).
  { exists (hd_error (rfns (KMatch a arms :: rev anc))). pose proof (in_fn_rfns (KMatch a arms :: rev anc)) as P.
    cbn [rev] in P. rewrite rev_involutive in P. exact P. }
  destruct F as [o F]. split.
  - intros G W [y [Iy Wy]]. exists (mkMutant file o (arm_span x) [] MatchArm). split; [|auto].
    apply (walk_offered _ _ _ _ _ _ H). exists anc, (KMatch a arms), cs. cbn. repeat split; auto. eapply y_arm; eauto.
  - intros g t G T. exists (mkMutant file o g t MatchArmGuard). split; [|auto].
    apply (walk_offered _ _ _ _ _ _ H). exists anc, (KMatch a arms), cs. cbn. repeat split; auto. eapply y_guard; eauto.
Qed.
Print Assumptions C33_complete.

(** ** Examples *)
Definition ex_sp (n : nat) : span := mkSpan (mkLC n 5) (mkLC n 20).
Definition ex_bool : ret := RType (TPath false [] (tx "bool") true None).
Definition ex_arrow : toks := [Punct MINUS; Punct GT; Word (tx "bool")].
Definition ex_body : toks := [Word (tx "a"); Punct EQ; Punct EQ; Word (tx "b")].
Definition ex_fn (form : fn_form) (attrs : list meta) (uns : bool) (name : text) (line : nat) : fn_decl :=
  mkFnDecl form attrs uns name ex_bool ex_arrow (ex_sp line) (Some (mkBlk [ex_sp (S line)] ex_body)).
Definition ex_op (line : nat) : node := Node (KBinary [] OEq (ex_sp line)) [].
Definition ex_file : source_file := mkSF (tx "p") (tx "src/lib.rs") [] true.
Definition cfg_test : meta := MList (mkPath false [tx "cfg"]) [Word (tx "test")].
Definition ex_match : node := Node (KMatch [] [mkArm false None (ex_sp 40); mkArm false (Some (ex_sp 41)) (ex_sp 42); mkArm true None (ex_sp 43)]) [].
Definition ex_root : node := Node (KFile []) [
  Node (KMod [] (tx "m") (ex_sp 1) true) [
    Node (KImpl [] false [Word (tx "Foo")] (Some ([Word (tx "Tr")], tx "Tr"))) [
      Node (KFn (ex_fn ImplFn [] false (tx "get") 2)) [
        Node (KFn (ex_fn FreeFn [] false (tx "inner") 4)) [ex_op 5];
        ex_op 7;
        Node (KCall [] (Some (tx "with_capacity"))) [ex_op 8];
        ex_match];
      Node (KFn (ex_fn ImplFn [] false (tx "new") 10)) [ex_op 11]];
    Node (KMod [] (tx "r#deep") (ex_sp 12) false) []];
  Node (KMod [cfg_test] (tx "tests") (ex_sp 20) true) [Node (KFn (ex_fn FreeFn [] false (tx "t") 21)) [ex_op 22]];
  Node (KFn (ex_fn FreeFn [] true (tx "danger") 30)) [ex_op 31];
  Node (KOther []) [Node (KUnary [] UNot (ex_sp 33)) []]].
Example ex_walk : option_map (fun r => (map (fun m => (option_map fn_name (mu_fn m), mu_replacement m, lc_line (sp_start (mu_span m)))) (fst r), map (map mn_name) (snd r)))
   (walk_syntax ex_file [] [tx "with_capacity"] ex_root)
 = Some ([(Some (tx "m::<impl Tr for Foo>::get"), tx "true", 3); (Some (tx "m::<impl Tr for Foo>::get"), tx "false", 3);
          (Some (tx "m::<impl Tr for Foo>::get::inner"), tx "true", 5); (Some (tx "m::<impl Tr for Foo>::get::inner"), tx "false", 5);
          (Some (tx "m::<impl Tr for Foo>::get::inner"), tx "!=", 5);
          (Some (tx "m::<impl Tr for Foo>::get"), tx "!=", 7);
          (Some (tx "m::<impl Tr for Foo>::get"), [], 40);
          (Some (tx "m::<impl Tr for Foo>::get"), tx "true", 41);
          (Some (tx "m::<impl Tr for Foo>::get"), tx "false", 41);
          (None, [], 33)],
         [[tx "m"; tx "deep"]]).
Proof. vm_compute. reflexivity. Qed.
Example ex_offered : exists m, offered ex_file [] [] ex_root m /\ mu_genre m = BinaryOperator /\ mu_replacement m = tx "!="
  /\ option_map fn_name (mu_fn m) = Some (tx "m::<impl Tr for Foo>::get::inner").
Proof.
  destruct (walk_syntax ex_file [] [] ex_root) as [[ms ext]|] eqn:E; [|vm_compute in E; discriminate].
  pose proof (walk_offered _ _ _ _ _ _ E) as W.
  assert (M : nth_error (match walk_syntax ex_file [] [] ex_root with Some (l, _) => l | None => [] end) 4 <> None) by (vm_compute; discriminate).
  assert (Q : forall m, nth_error (match walk_syntax ex_file [] [] ex_root with Some (l, _) => l | None => [] end) 4 = Some m ->
    mu_genre m = BinaryOperator /\ mu_replacement m = tx "!=" /\ option_map fn_name (mu_fn m) = Some (tx "m::<impl Tr for Foo>::get::inner")).
  { intros m H. vm_compute in H. injection H as <-. vm_compute. auto. }
  rewrite E in M, Q. destruct (nth_error ms 4) as [m|] eqn:N1; [|congruence].
  exists m. split; [apply W; eapply nth_error_In; exact N1|]. apply Q. reflexivity.
Qed.
Example ex_skipped : skipped [] (KMod [cfg_test] (tx "tests") (ex_sp 20) true)
  /\ skipped [] (KFn (ex_fn ImplFn [] false (tx "new") 10)) /\ skipped [tx "with_capacity"] (KCall [] (Some (tx "with_capacity")))
  /\ ~ skipped [] (KFn (ex_fn FreeFn [] false (tx "new") 10)).
Proof.
  split; [|split; [|split]].
  - apply skips_iff. reflexivity.
  - apply skips_iff. reflexivity.
  - apply skips_iff. reflexivity.
  - intro H. apply skips_iff in H. discriminate.
Qed.
Example ex_marks : marks_test cfg_test
  /\ marks_skip (MList (mkPath false [tx "cfg_attr"]) [Word (tx "test"); Punct COMMA_; Word (tx "mutants"); Punct COLON; Punct COLON; Word (tx "skip")]).
Proof.
  split.
  - right. exists false, [Word (tx "test")], [mkPath false [tx "test"]]. split; [reflexivity|]. split; [|left; reflexivity].
    apply (args_last (mkPath false [tx "test"])). split; [discriminate|]. intros w [<-|[]]. reflexivity.
  - apply skip_iff. reflexivity.
Qed.
Example ex_swap : swap OLt OLe /\ swap OShlAssign OShrAssign /\ ~ swap OEq OLe.
Proof.
  split; [|split].
  - apply alts_swap. right; right; left; reflexivity.
  - apply (swap_assign OShl OShr); [apply alts_swap; left; reflexivity|reflexivity|reflexivity].
  - intro H. apply swap_alts in H. destruct H as [H|[]]. discriminate.
Qed.

(** ** Where C30 fails *)
(** [#[cfg(test)]] on an item that is not a function, impl, trait or module (a [const] or
    [static], say) is not looked at. *)
Theorem C30_other_items_refuted : exists root ms ext anc attrs m k cs,
  walk_syntax ex_file [] [] root = Some (ms, ext) /\ In m ms
  /\ occurs root anc (Node k cs) /\ yields [] k (mu_span m) (mu_replacement m) (mu_genre m)
  /\ In (KOther attrs) anc /\ marked attrs.
Proof.
  exists (Node (KFile []) [Node (KOther [cfg_test]) [ex_op 1]]). eexists. eexists.
  exists [KFile []; KOther [cfg_test]], [cfg_test]. eexists. exists (KBinary [] OEq (ex_sp 1)), [].
  split; [reflexivity|]. split; [left; reflexivity|]. split.
  - eapply occ_below; [left; reflexivity|]. eapply occ_below; [left; reflexivity|]. apply occ_here.
  - split; [apply (y_binary [] [] OEq (ex_sp 1) ONe); apply alts_swap; left; reflexivity|].
    split; [right; left; reflexivity|]. apply excluded_iff. reflexivity.
Qed.
Print Assumptions C30_other_items_refuted.

(** [#[cfg(all(test, unix))]]: a function configured for tests only is mutated. *)
Theorem C30_nested_cfg_refuted : exists p a ms ext m,
  a = MList (mkPath false [tx "cfg"]) (cfg_toks p) /\ test_only p
  /\ walk_syntax ex_file [] [] (Node (KFile []) [Node (KFn (ex_fn FreeFn [a] false (tx "f") 1)) [ex_op 2]]) = Some (ms, ext)
  /\ In m ms.
Proof.
  exists (CAll [CId (tx "test"); CId (tx "unix")]). eexists. eexists. eexists. eexists. split; [reflexivity|]. split.
  - intros ids keys T. cbn [holds forallb]. rewrite T. reflexivity.
  - split; [vm_compute; reflexivity|]. left. reflexivity.
Qed.
Print Assumptions C30_nested_cfg_refuted.

(** [#[cfg_attr(feature = "x", mutants::skip)]] is not seen, even when the feature is on. *)
Definition cfg_attr_feature : meta :=
  MList (mkPath false [tx "cfg_attr"]) (cfg_toks (CKey (tx "feature") [34; 120; 34]%N) ++ Punct COMMA_ :: path_toks (mkPath false [tx "mutants"; tx "skip"])).
Theorem C30_cfg_attr_refuted : exists ms ext m,
  walk_syntax ex_file [] [] (Node (KFile []) [Node (KFn (ex_fn FreeFn [cfg_attr_feature] false (tx "f") 1)) [ex_op 2]]) = Some (ms, ext)
  /\ In m ms.
Proof. eexists. eexists. eexists. split; [vm_compute; reflexivity|]. left. reflexivity. Qed.
Print Assumptions C30_cfg_attr_refuted.

(** [unsafe impl] and [unsafe trait] are not skipped, only [unsafe fn]. *)
Theorem C30_unsafe_impl_refuted : exists root ms ext m,
  root = Node (KFile []) [Node (KImpl [] true [Word (tx "Foo")] (Some ([Word (tx "Tr")], tx "Tr"))) [Node (KFn (ex_fn ImplFn [] false (tx "f") 1)) []]]
  /\ walk_syntax ex_file [] [] root = Some (ms, ext) /\ In m ms.
Proof.
  eexists. eexists. eexists. eexists. split; [reflexivity|]. split; [reflexivity|]. left. reflexivity.
Qed.
Print Assumptions C30_unsafe_impl_refuted.

(** Not every other body is considered: an inline module with an absolute [#[path]] is
    dropped with its contents. *)
Theorem C30_absolute_path_refuted : exists a ext,
  ~ marked a /\ walk_syntax ex_file [] [] (Node (KFile []) [Node (KMod a (tx "m") (ex_sp 1) true) [Node (KFn (ex_fn FreeFn [] false (tx "f") 2)) []]]) = Some ([], ext).
Proof.
  exists [MNameValue (mkPath false [tx "path"]) (Some (tx "/x"))], []. split.
  - intro H. apply excluded_iff in H. discriminate.
  - reflexivity.
Qed.
Print Assumptions C30_absolute_path_refuted.
