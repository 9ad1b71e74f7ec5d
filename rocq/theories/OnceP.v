From Coq Require Import String List NArith Bool Arith Lia.
Import ListNotations.
From Verif Require Import Text SpanM PathM MutantM PrettyM PrettyS FnValueM FnValueS FnValueP PackageM GlobM OptionsM VisitM VisitS VisitP WalkM WalkS WalkP OnceS LexS LexP.

Section Once.
Variable file : source_file.
Variable errs : list toks.
Variable skip_calls : list text.

Definition rch (x : span * toks * genre) : genre * span * text := match x with (sp, t, g) => (g, sp, pretty t) end.
Lemma own_change : forall r k, map change (own file errs r k) = map rch (raw errs k).
Proof. intros r k. unfold own. rewrite map_map. apply map_ext. intros [[sp t] g]. reflexivity. Qed.

(** Different replacements at one place, and each belongs to a place of the node. *)
Lemma raw_in : forall k c, In c (map rch (raw errs k)) -> In (fst c) (places k).
Proof.
  intros k c H. apply in_map_iff in H as [[[sp t] g] [<- H]]. cbn [rch fst]. destruct k; cbn [raw places] in *; try contradiction.
  - destruct (fd_block f) as [b|]; [|destruct H]. unfold function_body_span in H. destruct (blk_stmts b) as [|s0 ss]; [destruct H|].
    apply in_map_iff in H as [t' [E _]]. injection E as <- <- <-. left. repeat f_equal. clear. destruct ss as [|s1 ss]; [reflexivity|].
    cbn [last]. revert s1. induction ss as [|s2 ss IH]; intro s1; [reflexivity|]. apply IH.
  - apply in_map_iff in H as [t' [E _]]. injection E as <- <- <-. left. reflexivity.
  - apply in_map_iff in H as [t' [E _]]. injection E as <- <- <-. left. reflexivity.
  - unfold match_replacements in H. apply in_app_iff in H as [H|H]; apply in_or_app.
    + left. destruct (existsb arm_wild arms); [|destruct H]. apply in_map_iff in H as [a [E H]]. injection E as <- <- <-. apply filter_In in H as [H _].
      apply in_map_iff. exists a. auto.
    + right. apply in_flat_map in H as [a [Ha H]]. apply in_flat_map. exists a. split; [exact Ha|]. destruct (arm_guard a) as [g'|]; [|destruct H].
      destruct H as [E|[E|[]]]; injection E as <- <- <-; left; reflexivity.
Qed.
Lemma flat_guard : forall arms sp t g, In (sp, t, g) (flat_map (fun a => match arm_guard a with
    | Some g => [(g, [Word (tx "true")], MatchArmGuard); (g, [Word (tx "false")], MatchArmGuard)] | None => [] end) arms) -> g = MatchArmGuard.
Proof.
  intros arms sp t g H. apply in_flat_map in H as [a [_ H]]. destruct (arm_guard a); [|destruct H]. destruct H as [E|[E|[]]]; injection E; auto.
Qed.
Lemma raw_NoDup : forall k, NoDup (places k) -> (forall f, k = KFn f -> NoDup (map pretty (return_type_replacements errs (fd_ret f)))) ->
  NoDup (map rch (raw errs k)).
Proof.
  intros k P F. destruct k; cbn [raw places] in *; try constructor.
  - destruct (fd_block f) as [b|]; [|constructor]. destruct (function_body_span b) as [sp|]; [|constructor]. specialize (F f eq_refl).
    rewrite map_map. cbn [rch]. rewrite <- (map_map pretty (fun t => (FnValue, sp, t))).
    apply NoDup_map_on; [|intros x y _ _ E; injection E; auto].
    revert F. generalize (return_type_replacements errs (fd_ret f)) as l. induction l as [|x l IH]; intro F; [constructor|].
    cbn [map filter] in *. apply NoDup_cons_iff in F as [F1 F2]. specialize (IH F2). destruct (negb _); [|exact IH].
    cbn [map]. constructor; [|exact IH]. intro K. apply F1. apply in_map_iff in K as [y [E K]]. apply filter_In in K as [K _]. rewrite <- E. apply in_map. exact K.
  - destruct op; cbn [binary_replacements map rch]; repeat (constructor; [cbn [In]; intuition discriminate|]); constructor.
  - destruct op; cbn [unary_replacements map rch]; repeat (constructor; [cbn [In]; intuition discriminate|]); constructor.
  - unfold match_replacements. rewrite map_app.
    assert (P1 : NoDup (map (fun a => (MatchArm, arm_span a)) arms)) by (revert P; generalize (flat_map (fun a => match arm_guard a with Some g => [(MatchArmGuard, g)] | None => [] end) arms); clear;
      intros m; generalize (map (fun a => (MatchArm, arm_span a)) arms); induction l as [|x l IH]; intro P; [constructor|]; cbn [app] in P; apply NoDup_cons_iff in P as [P1 P2];
      constructor; [intro K; apply P1; apply in_or_app; left; exact K|exact (IH P2)]).
    assert (P2 : NoDup (flat_map (fun a => match arm_guard a with Some g => [(MatchArmGuard, g)] | None => [] end) arms)) by (revert P; generalize (flat_map (fun a => match arm_guard a with Some g => [(MatchArmGuard, g)] | None => [] end) arms); clear;
      intros m; generalize (map (fun a => (MatchArm, arm_span a)) arms); induction l as [|x l IH]; intro P; [exact P|]; cbn [app] in P; apply NoDup_cons_iff in P as [_ P2]; exact (IH P2)).
    apply NoDup_app_on.
    + destruct (existsb arm_wild arms); [|constructor]. rewrite map_map. cbn [rch].
      clear - P1. induction arms as [|a arms IH]; [constructor|]. cbn [map filter] in *. apply NoDup_cons_iff in P1 as [P1 P2]. specialize (IH P2).
      destruct (_ && _); [|exact IH]. cbn [map]. constructor; [|exact IH]. intro K. apply P1. apply in_map_iff in K as [y [E K]]. apply filter_In in K as [K _].
      apply in_map_iff. exists y. split; [congruence|exact K].
    + clear - P2. induction arms as [|a arms IH]; [constructor|]. cbn [flat_map] in *. rewrite map_app. destruct (arm_guard a) as [g|]; [|exact (IH P2)].
      cbn [app] in P2. apply NoDup_cons_iff in P2 as [P2 P3]. specialize (IH P3).
      assert (K : forall t, ~ In (MatchArmGuard, g, t) (map rch (flat_map (fun a => match arm_guard a with
           | Some g => [(g, [Word (tx "true")], MatchArmGuard); (g, [Word (tx "false")], MatchArmGuard)] | None => [] end) arms))).
      { intros t K. apply P2. apply in_map_iff in K as [[[sp u] gg] [E K]]. cbn [rch] in E. injection E as -> -> _.
        apply in_flat_map in K as [b [Hb K]]. apply in_flat_map. exists b. split; [exact Hb|]. destruct (arm_guard b); [|destruct K]. destruct K as [E|[E|[]]]; injection E as -> _; left; reflexivity. }
      cbn [map rch app]. constructor; [|constructor; [|exact IH]].
      * intros [E|H]; [discriminate|]. exact (K _ H).
      * exact (K _).
    + intros c H1 H2. destruct (existsb arm_wild arms); [|destruct H1]. apply in_map_iff in H1 as [x [<- H1]]. apply in_map_iff in H1 as [a [<- _]].
      apply in_map_iff in H2 as [[[sp t] g] [E H2]]. apply flat_guard in H2. subst g. discriminate.
Qed.

Lemma NoDup_app_l : forall (A : Type) (l m : list A), NoDup (l ++ m) -> NoDup l /\ NoDup m /\ forall x, In x l -> In x m -> False.
Proof.
  induction l as [|x l IH]; intros m H; [split; [constructor|]; split; [exact H|intros x []]|].
  cbn [app] in H. apply NoDup_cons_iff in H as [H1 H2]. destruct (IH m H2) as (A1 & A2 & A3). split; [|split; [exact A2|]].
  - constructor; [intro K; apply H1; apply in_or_app; left; exact K|exact A1].
  - intros y [<-|Hy] Hm; [apply H1; apply in_or_app; right; exact Hm|exact (A3 y Hy Hm)].
Qed.

Lemma once_positions : forall (g : list kind * kind -> list mutant) l,
  (forall p, In p l -> NoDup (places (snd p)) -> NoDup (map change (g p))) ->
  (forall p c, In c (map change (g p)) -> In (fst c) (places (snd p))) ->
  NoDup (flat_map (fun p => places (snd p)) l) -> NoDup (map change (flat_map g l)).
Proof.
  intros g l D I. induction l as [|p l IH]; intro N1; [constructor|]. cbn [flat_map] in *. rewrite map_app.
  apply NoDup_app_l in N1 as (A1 & A2 & A3). apply NoDup_app_on.
  - apply D; [left; reflexivity|exact A1].
  - apply IH; [intros q Hq; apply D; right; exact Hq|exact A2].
  - intros c H1 H2. apply (A3 (fst c)); [apply I; exact H1|]. apply in_map_iff in H2 as [m [<- H2]]. apply in_flat_map in H2 as [q [Hq H2]].
    apply in_flat_map. exists q. split; [exact Hq|]. apply I. apply in_map. exact H2.
Qed.

Lemma walk_once : forall root ms ext, walk_syntax file errs skip_calls root = Some (ms, ext) ->
  NoDup (all_places root) ->
  (forall anc f, In (anc, KFn f) (positions [] root) -> NoDup (map pretty (return_type_replacements errs (fd_ret f)))) ->
  NoDup (map change ms).
Proof.
  intros root ms ext H P F. rewrite walk_run in H. injection H as <- <-. rewrite gen_pre.
  pose proof (pre_positions skip_calls mutant (own file errs) root []) as E. cbn [existsb rev] in E. rewrite <- E.
  apply once_positions.
  - intros [anc k] Hp N1. cbn [fst snd] in *. destruct (existsb _ _); [constructor|]. rewrite own_change. apply raw_NoDup; [exact N1|]. intros f ->. exact (F anc f Hp).
  - intros [anc k] c Hc. cbn [fst snd] in *. destruct (existsb _ _); [destruct Hc|]. rewrite own_change in Hc. apply raw_in. exact Hc.
  - exact P.
Qed.

Lemma ret_distinct : forall r, (forall e, In e errs -> rust_tokens e) -> NoDup errs -> (forall t, r = RType t -> rust_ty t) ->
  NoDup (map pretty (return_type_replacements errs r)).
Proof.
  intros [|t] HE ND R; cbn [return_type_replacements].
  - constructor; [intros []|constructor].
  - apply printed_distinct; auto.
Qed.
End Once.

Lemma rust_separate : forall errs root, (forall e, In e errs -> rust_tokens e) -> NoDup errs -> rust_tree root -> NoDup (all_places root) -> separate errs root.
Proof.
  intros errs root HE ND R P. split; [exact P|]. intros anc f H. apply ret_distinct; [exact HE|exact ND|]. intros t Ht. exact (R anc f t H Ht).
Qed.

Section Tree.
Variable read : text -> option text.
Variable is_file : text -> bool.
Variable parse : text -> option node.
Variable re_match : text -> text -> bool.
Variable tree : text.
Variable opts : options.
Variable errs : list toks.
Variable skip_calls : list text.
Notation one := (one_file read is_file parse re_match tree opts errs skip_calls).

Lemma retain_sub : forall ms l, retain_allowed re_match opts ms = Some l -> NoDup (map change ms) -> NoDup (map change l).
Proof.
  intros ms. induction ms as [|x ms IH]; intros l H N1; cbn [retain_allowed] in H.
  - injection H as <-. constructor.
  - cbn [map] in N1. apply NoDup_cons_iff in N1 as [N1 N2].
    destruct (allows_mutant re_match opts x) as [[|]|]; destruct (retain_allowed re_match opts ms) as [l'|] eqn:R; try discriminate; injection H as <-; [|exact (IH l' eq_refl N2)].
    cbn [map]. constructor; [|exact (IH l' eq_refl N2)]. intro K. apply N1. apply in_map_iff in K as [m [E K]]. apply (retain_in read is_file parse re_match tree opts ms l' R) in K as [K _].
    rewrite <- E. apply in_map. exact K.
Qed.

Definition seen_ok (p : text) : Prop := forall code root, read (path_join tree p) = Some code -> parse (crlf_to_lf code) = Some root -> separate errs root.
Lemma keep_file : forall pk e m, In m (keep read is_file parse re_match tree opts errs skip_calls pk e) -> sf_path (mu_file m) = fst e.
Proof.
  intros pk e m H. unfold keep in H. destruct (one pk e) as [| | |f kept mods] eqn:E; try contradiction.
  destruct (allows_source_file_path opts (sf_path f)); [|contradiction].
  destruct (one_file_inv _ _ _ _ _ _ _ _ _ _ _ _ _ E) as (root & ms & ext & L & P & W & R & _).
  apply (retain_in read is_file parse re_match tree opts _ _ R) in H as [H _]. apply (walk_offered _ _ _ _ _ _ W) in H. destruct H as (anc & k & cs & _ & _ & _ & _ & ->).
  unfold load in L. destruct (BinInt.Z.ltb _ _); [discriminate|]. destruct (read (path_join tree (fst e))); [|discriminate]. injection L as <-. reflexivity.
Qed.
Lemma keep_NoDup : forall pk e, seen_ok (fst e) -> NoDup (map change (keep read is_file parse re_match tree opts errs skip_calls pk e)).
Proof.
  intros pk e S. unfold keep. destruct (one pk e) as [| | |f kept mods] eqn:E; try constructor.
  destruct (allows_source_file_path opts (sf_path f)); [|constructor].
  destruct (one_file_inv _ _ _ _ _ _ _ _ _ _ _ _ _ E) as (root & ms & ext & L & P & W & R & _).
  eapply retain_sub; [exact R|]. unfold load in L. destruct (BinInt.Z.ltb _ _); [discriminate|].
  destruct (read (path_join tree (fst e))) as [code|] eqn:Rd; [|discriminate]. injection L as <-. cbn [sf_code] in P.
  destruct (S code root Rd P) as [S1 S2]. eapply walk_once; [exact W|exact S1|exact S2].
Qed.
Lemma package_once : forall pk v, NoDup (map fst v) -> (forall p, In p (map fst v) -> seen_ok p) ->
  NoDup (map change_at (flat_map (keep read is_file parse re_match tree opts errs skip_calls pk) v)).
Proof.
  intros pk v. induction v as [|e v IH]; intros D S; [constructor|]. cbn [map flat_map] in *. apply NoDup_cons_iff in D as [D1 D2]. rewrite map_app.
  apply NoDup_app_on.
  - pose proof (keep_NoDup pk e (S (fst e) (or_introl eq_refl))) as K. revert K. generalize (keep read is_file parse re_match tree opts errs skip_calls pk e) as l. clear.
    induction l as [|m l IH]; intro K; [constructor|]. cbn [map] in *. apply NoDup_cons_iff in K as [K1 K2]. constructor; [|exact (IH K2)].
    intro H. apply K1. apply in_map_iff in H as [x [E H]]. unfold change_at in E. apply in_map_iff. exists x. split; [congruence|exact H].
  - apply IH; [exact D2|]. intros p Hp. apply S. right. exact Hp.
  - intros c H1 H2. apply D1. apply in_map_iff in H1 as [m [<- H1]]. apply in_map_iff in H2 as [m' [E H2]]. apply in_flat_map in H2 as [e' [He H2]].
    apply keep_file in H1. apply keep_file in H2. unfold change_at in E. apply in_map_iff. exists e'. split; [congruence|exact He].
Qed.
Lemma tree_once : forall fuel ps v ms fs,
  walk_tree read is_file parse re_match tree opts errs skip_calls fuel ps = WOk v ms fs ->
  NoDup (map fst v) -> (forall p, In p (map fst v) -> seen_ok p) ->
  NoDup (map change_at ms) /\ forall m, In m ms -> In (sf_path (mu_file m)) (map fst v).
Proof.
  intros fuel ps. induction ps as [|p ps IH]; intros v ms fs H D S; cbn [walk_tree] in H.
  - injection H as <- <- <-. split; [constructor|intros m []].
  - destruct (walk_package read is_file parse re_match tree opts errs skip_calls fuel p) as [v1 ms1 fs1| | |] eqn:W; try discriminate.
    destruct (walk_tree read is_file parse re_match tree opts errs skip_calls fuel ps) as [v2 ms2 fs2| | |] eqn:T; try discriminate.
    injection H as <- <- <-. rewrite map_app in D, S. apply NoDup_app_l in D as (D1 & D2 & D3).
    destruct (IH v2 ms2 fs2 eq_refl D2) as [I1 I2]; [intros q Hq; apply S; apply in_or_app; right; exact Hq|].
    unfold walk_package in W. destruct (run_ok _ _ _ _ _ _ _ _ _ _ _ _ _ _ W) as (_ & _ & -> & _).
    assert (K : forall m, In m (flat_map (keep read is_file parse re_match tree opts errs skip_calls (pk_name p)) v1) -> In (sf_path (mu_file m)) (map fst v1)).
    { intros m Hm. apply in_flat_map in Hm as [e [He Hm]]. rewrite (keep_file _ _ _ Hm). apply in_map. exact He. }
    split.
    + rewrite map_app. apply NoDup_app_on; [|exact I1|].
      * apply package_once; [exact D1|]. intros q Hq. apply S. apply in_or_app. left. exact Hq.
      * intros c H1 H2. apply in_map_iff in H1 as [m [<- H1]]. apply in_map_iff in H2 as [m' [E H2]].
        apply (D3 (sf_path (mu_file m))); [exact (K m H1)|]. unfold change_at in E. replace (sf_path (mu_file m)) with (sf_path (mu_file m')) by congruence. exact (I2 m' H2).
    + intros m Hm. rewrite map_app. apply in_app_iff in Hm as [Hm|Hm]; apply in_or_app; [left; exact (K m Hm)|right; exact (I2 m Hm)].
Qed.
End Tree.
