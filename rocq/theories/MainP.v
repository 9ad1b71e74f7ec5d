(** Proofs about the main program. *)
From Coq Require Import String List NArith Bool Arith Lia Permutation.
From Verif Require Import Text SpanM PathM PathS PathP MutantM OutcomeM OutputM OutputS OutputP IterateM IterateP InDiffM InDiffS InDiffP
  ShardM ShardP PackageM PackageP WalkM MainM MainS.
Import ListNotations.

Lemma remove_selects : forall prev ms r, remove_previously_caught prev ms = Some r -> selects (new_to prev) ms r.
Proof.
  intros prev. induction ms as [|m ms IH]; intros r H; cbn [remove_previously_caught] in H; [injection H as <-; constructor|].
  destruct (mutant_name true m) as [n|] eqn:E; [|discriminate]. destruct (remove_previously_caught prev ms) as [r'|]; [|discriminate].
  injection H as <-. specialize (IH _ eq_refl). destruct (mem_text n prev) eqn:M.
  - apply sel_drop; [|exact IH]. intros [n' [E' N]]. rewrite E in E'. injection E' as <-. apply N. apply mem_text_in. exact M.
  - apply sel_keep; [|exact IH]. exists n. split; [exact E|]. intro I. apply mem_text_in in I. congruence.
Qed.

Lemma select_every : forall A k n (l : list A) r, (k < n)%N -> shard_select (mkShard k n) l = Some r -> every (N.to_nat k) (N.to_nat n) l r.
Proof.
  intros A k n l r L H. destruct (c03 A l n ltac:(lia)) as (f & F & _ & Nth & _). rewrite F in H by exact L. injection H as <-.
  split; [lia|]. intro j. rewrite Nth by exact L. f_equal. lia.
Qed.

Lemma shard_incl : forall A s (l r : list A), shard_select s l = Some r -> incl r l.
Proof.
  intros A s l r H. unfold shard_select in H. destruct (sh_n s =? 0)%N; [destruct l; [injection H as <-; apply incl_refl|discriminate]|].
  injection H as <-. generalize 0%N. induction l as [|x l IH]; intros i y I; [destruct I|]. cbn [select_from] in I.
  destruct (i mod sh_n s =? sh_k s)%N; [destruct I as [->|I]; [left; reflexivity|]|]; right; eapply IH; exact I.
Qed.

Section Main.
Context (parse_patch : text -> option (list patch)) (diff_of : mutant -> text)
  (json_mutants : list (mutant * option text) -> text) (json_files : list source_file -> text).
Notation run := (main_run parse_patch diff_of json_mutants json_files).

Definition select (c : cli) (es : option entries) (ms : list mutant) : res (list mutant) :=
  bind (iterate_step c es ms) (fun ms1 => bind (diff_step parse_patch c ms1) (shard_step c)).

Lemma run_tests : forall lk c es v ms fs q es', run lk c es (WOk v ms fs) = Done (Tests q es') ->
  cl_list c = false /\ cl_list_files c = false /\ select c es ms = Done q.
Proof.
  intros lk c es v ms fs q es' H. unfold main_run, select in *. destruct (iterate_step c es ms) as [ms1| |]; try discriminate. cbn [bind] in *.
  destruct (cl_list_files c); [discriminate|]. destruct (diff_step parse_patch c ms1) as [ms2| |]; try discriminate. cbn [bind] in *.
  destruct (shard_step c ms2) as [ms3| |]; try discriminate. cbn [bind] in *.
  destruct (cl_list c); [destruct (list_mutants _ _ _ _); discriminate|]. destruct (set_up lk c es); try discriminate. injection H as <- _. auto.
Qed.

Lemma main_iterates : forall lk c es v ms fs q es', cl_iterate c = true ->
  run lk c (Some es) (WOk v ms fs) = Done (Tests q es') ->
  exists cand es1 o2, iterate_start lk es ms = Some (cand, es1, o2) /\ es' = dset es1 OUTDIR (NDir o2)
    /\ (forall m, In m q -> In m cand)
    /\ (forall m n, In m q -> mutant_name true m = Some n -> ~ In n (load_previously_caught (Some es)))
    /\ (Forall one_line (load_previously_caught (Some es)) ->
        forall n, In n (load_previously_caught (Some es')) <-> In n (load_previously_caught (Some es))).
Proof.
  intros lk c es v ms fs q es' It H. unfold main_run, iterate_step in H. rewrite It in H.
  destruct (remove_previously_caught (load_previously_caught (Some es)) ms) as [cand|] eqn:R; [|discriminate]. cbn [or_panic bind] in H.
  destruct (cl_list_files c); [discriminate|]. destruct (diff_step parse_patch c cand) as [ms2| |] eqn:D; try discriminate. cbn [bind] in H.
  destruct (shard_step c ms2) as [ms3| |] eqn:S; try discriminate. cbn [bind] in H.
  destruct (cl_list c); [destruct (list_mutants _ _ _ _); discriminate|]. unfold set_up in H. rewrite It in H.
  destruct (output_new lk (Some es)) as [es1|] eqn:O; [|discriminate]. destruct (dget es1 OUTDIR) as [[|o1]|] eqn:G; try discriminate.
  destruct (write_previously_caught o1 (load_previously_caught (Some es))) as [o2|] eqn:W; [|discriminate]. cbn [bind] in H. injection H as -> <-.
  assert (St : iterate_start lk es ms = Some (cand, es1, o2)) by (unfold iterate_start; rewrite R, O, G, W; reflexivity).
  assert (In2 : incl q cand).
  { intros m I. assert (I2 : In m ms2).
    { unfold shard_step in S. destruct (cl_shard c) as [s|]; [|injection S as ->; exact I].
      destruct (shard_select s ms2) as [r|] eqn:Sh; [|discriminate]. injection S as ->. eapply shard_incl; eassumption. }
    unfold diff_step in D. destruct (cl_diff c) as [[d|]|]; [|discriminate|injection D as ->; exact I2].
    destruct (diff_filter parse_patch cand d) as [| | |r] eqn:Df; try discriminate. injection D as ->.
    destruct (c05_sub _ _ _ _ Df) as [Pr Se]. clear -Se I2. induction Se; [exact I2| |right; auto]. destruct I2 as [->|I2]; [left; reflexivity|right; auto]. }
  exists cand, es1, o2. split; [exact St|]. split; [reflexivity|]. split; [exact In2|]. split.
  - intros m n I N1. apply In2 in I. pose proof (remove_prev_incl _ _ _ R _ I) as I3. apply (remove_prev_in _ _ _ R m n I3 N1). exact I.
  - intros One n. rewrite (c49_run lk es ms cand es1 o2 [] o2 St eq_refl One); [|intros ? ? ? []]. unfold IterateS.decided. split; [intros [K|K]; [exact K|]|auto].
    destruct K as (m0 & v0 & [] & _).
Qed.

Lemma run_list : forall lk c es v ms fs out, cl_list c = true -> cl_list_files c = false -> run lk c es (WOk v ms fs) = Done (Printed out) ->
  exists q, select c es ms = Done q /\ list_mutants diff_of json_mutants c q = Some out.
Proof.
  intros lk c es v ms fs out L F H. unfold main_run, select in *. rewrite L, F in H. destruct (iterate_step c es ms) as [ms1| |]; try discriminate. cbn [bind] in *.
  destruct (diff_step parse_patch c ms1) as [ms2| |]; try discriminate. cbn [bind] in *.
  destruct (shard_step c ms2) as [ms3| |]; try discriminate. cbn [bind] in *. exists ms3. split; [reflexivity|].
  destruct (list_mutants diff_of json_mutants c ms3); [|discriminate]. injection H as <-. reflexivity.
Qed.

Lemma select_with_list : forall b c es ms, select (with_list b c) es ms = select c es ms.
Proof. reflexivity. Qed.
Lemma list_with_list : forall b c ms, list_mutants diff_of json_mutants (with_list b c) ms = list_mutants diff_of json_mutants c ms.
Proof.
  intros b c ms. unfold list_mutants. cbn [with_list cl_json cl_diffs]. destruct (cl_json c); [reflexivity|].
  induction ms as [|m ms IH]; [reflexivity|]. cbn [list_text]. rewrite IH. reflexivity.
Qed.

(** Listing fails exactly when testing fails before it touches the disk. *)
Lemma same_selection : forall lk c es v ms fs, cl_list_files c = false ->
  match run lk (with_list true c) es (WOk v ms fs), run lk (with_list false c) es (WOk v ms fs) with
  | Done (Printed out), Done (Tests q _) => select c es ms = Done q /\ list_mutants diff_of json_mutants c q = Some out
  | Fails, r => r = Fails /\ select c es ms = Fails
  | Panics, r => (r = Panics /\ select c es ms = Panics) \/ exists q, select c es ms = Done q /\ list_mutants diff_of json_mutants c q = None
  | Done (Printed out), r => exists q, select c es ms = Done q /\ set_up lk c es <> Panics /\ r = Fails /\ set_up lk c es = Fails
  | _, _ => False
  end.
Proof.
  intros lk c es v ms fs F. unfold main_run. cbn [with_list cl_list_files cl_list]. rewrite F.
  change (iterate_step (with_list true c) es ms) with (iterate_step c es ms). change (iterate_step (with_list false c) es ms) with (iterate_step c es ms).
  unfold select. destruct (iterate_step c es ms) as [ms1| |]; cbn [bind]; auto.
  change (diff_step parse_patch (with_list true c) ms1) with (diff_step parse_patch c ms1). change (diff_step parse_patch (with_list false c) ms1) with (diff_step parse_patch c ms1).
  destruct (diff_step parse_patch c ms1) as [ms2| |]; cbn [bind]; auto.
  change (shard_step (with_list true c) ms2) with (shard_step c ms2). change (shard_step (with_list false c) ms2) with (shard_step c ms2).
  destruct (shard_step c ms2) as [ms3| |]; cbn [bind]; auto.
  rewrite list_with_list. change (set_up lk (with_list false c) es) with (set_up lk c es).
  assert (NP : set_up lk c es <> Panics).
  { unfold set_up. destruct (output_new lk es); [|discriminate]. destruct (cl_iterate c); [|discriminate]. destruct (dget es0 OUTDIR) as [[|o1]|]; try discriminate.
    destruct (write_previously_caught o1 _); discriminate. }
  destruct (list_mutants diff_of json_mutants c ms3) as [t|] eqn:LM; cbn [or_panic bind]; [|eauto].
  destruct (set_up lk c es) as [e| |] eqn:S; cbn [bind]; [auto|eauto 10|congruence].
Qed.

Lemma select_chosen : forall c es ms q ops,
  match cl_diff c with Some (Some d) => exists ps, ops = Some ps /\ asks parse_patch d ps | _ => ops = None end ->
  (forall m, In m ms -> relative (sf_path (mu_file m))) ->
  (forall s, cl_shard c = Some s -> (sh_k s < sh_n s)%N) ->
  select c es ms = Done q ->
  chosen (if cl_iterate c then Some (load_previously_caught es) else None) ops
         (option_map (fun s => (N.to_nat (sh_k s), N.to_nat (sh_n s))) (cl_shard c)) ms q.
Proof.
  intros c es ms q ops WF Rel Sh H. unfold select in H.
  assert (Sub : forall P (a b : list mutant), selects P a b -> incl b a).
  { intros P a b S. induction S; [apply incl_refl| |]; intros y I; [destruct I as [->|I]; [left; reflexivity|right; auto]|right; auto]. }
  destruct (iterate_step c es ms) as [ms1| |] eqn:I; try discriminate. cbn [bind] in H.
  destruct (diff_step parse_patch c ms1) as [ms2| |] eqn:D; try discriminate. cbn [bind] in H.
  assert (A1 : match (if cl_iterate c then Some (load_previously_caught es) else None) with None => ms1 = ms | Some p => selects (new_to p) ms ms1 end).
  { unfold iterate_step in I. destruct (cl_iterate c); [|injection I as <-; reflexivity].
    destruct (remove_previously_caught (load_previously_caught es) ms) as [r|] eqn:R; [|discriminate]. injection I as ->. apply remove_selects. exact R. }
  assert (In1 : incl ms1 ms). { destruct (cl_iterate c); [eapply Sub; exact A1|subst; apply incl_refl]. }
  exists ms1, ms2. split; [exact A1|]. split.
  - unfold diff_step in D. destruct (cl_diff c) as [[d|]|]; [|discriminate|injection D as <-; rewrite WF; reflexivity].
    destruct WF as [ps [-> [[-> B]|[E [W NE]]]]].
    + rewrite (c05_empty parse_patch ms1 d B) in D. injection D as <-. clear. induction ms1 as [|m ms1 IH]; [constructor|]. apply sel_drop; [|exact IH]. intros (p & h & n & K & _). destruct K.
    + destruct (diff_filter parse_patch ms1 d) as [| | |r] eqn:Df; try discriminate. injection D as ->.
      eapply c05; eauto.
  - unfold shard_step in H. destruct (cl_shard c) as [[k n]|]; cbn [option_map]; [|injection H as <-; reflexivity].
    destruct (shard_select (mkShard k n) ms2) as [r|] eqn:S; [|discriminate]. injection H as ->. apply select_every; [|exact S]. apply (Sh _ eq_refl).
Qed.

(** The printed lines. *)
Lemma list_lines_names : forall c ms out, cl_json c = false -> cl_diffs c = false -> list_mutants diff_of json_mutants c ms = Some out ->
  (forall m n, In m ms -> mutant_name (cl_line_col c) m = Some n -> one_line n) ->
  map (mutant_name (cl_line_col c)) ms = map Some (lines out).
Proof.
  intros c ms out J D H One. unfold list_mutants in H. rewrite J in H.
  assert (K : forall ms out, list_text diff_of c ms = Some out -> exists ns, map (mutant_name (cl_line_col c)) ms = map Some ns /\ out = previously_text ns).
  { clear -D. induction ms as [|m ms IH]; intros out H; cbn [list_text] in H; [injection H as <-; exists []; auto|].
    unfold list_one in H. destruct (mutant_name (cl_line_col c) m) as [n|] eqn:E; [|discriminate]. rewrite D in H.
    destruct (list_text diff_of c ms) as [b|]; [|discriminate]. injection H as <-. destruct (IH _ eq_refl) as [ns [M ->]].
    exists (n :: ns). cbn [map]. rewrite E, M. split; [reflexivity|]. unfold previously_text. cbn [flat_map]. reflexivity. }
  destruct (K _ _ H) as [ns [M ->]]. rewrite lines_of_names; [exact M|].
  apply Forall_forall. intros n I. assert (In (Some n) (map (mutant_name (cl_line_col c)) ms)) as I' by (rewrite M; apply in_map; exact I).
  apply in_map_iff in I'. destruct I' as [m [E Im]]. eapply One; eauto.
Qed.

(** Shards of a selection. *)
Lemma select_shards : forall c es ms n q, (0 < n)%N -> select (with_shard None c) es ms = Done q ->
  exists f : N -> list mutant, (forall k, (k < n)%N -> select (with_shard (Some (mkShard k n)) c) es ms = Done (f k))
    /\ Permutation (flat_map f (map N.of_nat (seq 0 (N.to_nat n)))) q.
Proof.
  intros c es ms n q N0 H. unfold select in *.
  change (iterate_step (with_shard None c) es ms) with (iterate_step c es ms) in H.
  destruct (iterate_step c es ms) as [ms1| |] eqn:I; try discriminate. cbn [bind] in H.
  change (diff_step parse_patch (with_shard None c) ms1) with (diff_step parse_patch c ms1) in H.
  destruct (diff_step parse_patch c ms1) as [ms2| |] eqn:D; try discriminate. cbn [bind] in H.
  unfold shard_step in H. cbn [with_shard cl_shard] in H. injection H as ->.
  destruct (c03 _ q n N0) as (f & F & P & _). exists f. split; [|exact P]. intros k L.
  change (iterate_step (with_shard (Some (mkShard k n)) c) es ms) with (iterate_step c es ms). rewrite I. cbn [bind].
  change (diff_step parse_patch (with_shard (Some (mkShard k n)) c) ms1) with (diff_step parse_patch c ms1). rewrite D. cbn [bind].
  unfold shard_step. cbn [with_shard cl_shard]. rewrite F by exact L. reflexivity.
Qed.
End Main.

(** * The start directory *)
Lemma flat_pieces : forall t, Forall inner t -> flat_map piece (split_on SLASH (join [SLASH] (map comp_str t))) = t.
Proof.
  intros [|c t] F; [reflexivity|]. rewrite split_on_join; [apply pieces_inner; exact F|discriminate|].
  intros w Hw. apply in_map_iff in Hw. destruct Hw as [d [<- Hd]].
  rewrite Forall_forall in F. exact (proj1 (proj2 (inner_str d (F d Hd)))).
Qed.

Lemma components_any : forall h t, (h = [] \/ h = [Root] \/ h = [Cur]) -> Forall inner t -> components (comps_path (h ++ t)) = h ++ t.
Proof.
  intros h t [->|[->| ->]] F; cbn [app].
  - apply components_comps_path. exact F.
  - cbn [comps_path]. unfold components. change (N.eqb SLASH SLASH) with true. cbv iota. rewrite flat_pieces by exact F. reflexivity.
  - cbn [comps_path]. destruct t as [|c t]; [reflexivity|]. pose proof (flat_pieces _ F) as P.
    assert (E : join [SLASH] (map comp_str (Cur :: c :: t)) = DOT :: SLASH :: join [SLASH] (map comp_str (c :: t))) by reflexivity.
    rewrite E. rewrite components_rel_eq by reflexivity.
    assert (split_on SLASH (DOT :: SLASH :: join [SLASH] (map comp_str (c :: t))) = [DOT] :: split_on SLASH (join [SLASH] (map comp_str (c :: t)))) as -> by reflexivity.
    cbn [text_eqb]. rewrite P. reflexivity.
Qed.

Lemma parent_components : forall p d, path_parent p = Some d -> exists c, components p = components d ++ [c] /\ c <> Root.
Proof.
  intros p d H. unfold path_parent in H. destruct (components_shape p) as [h [t [E [Hh [_ Ht]]]]].
  destruct (rev (components p)) as [|c r] eqn:R; [discriminate|]. assert (E2 : components p = rev r ++ [c]). { rewrite <- (rev_involutive (components p)), R. reflexivity. }
  assert (C : c <> Root) by (intros ->; discriminate). assert (D : d = comps_path (rev r)) by (destruct c; congruence). exists c. split; [|exact C].
  assert (K : components d = rev r); [|rewrite K; exact E2].
  subst d. rewrite E2 in E. clear -E Hh Ht C.
  assert (Hi : Forall inner t) by (apply Forall_forall; exact Ht). clear Ht.
  destruct t as [|y t0].
  - rewrite app_nil_r in E. destruct Hh as [->|[->| ->]].
    + symmetry in E. apply app_cons_not_nil in E. destruct E.
    + change [Root] with ([] ++ [Root]) in E. apply app_inj_tail in E. destruct E as [_ E]. contradiction.
    + change [Cur] with ([] ++ [Cur]) in E. apply app_inj_tail in E. destruct E as [-> _]. reflexivity.
  - destruct (exists_last (l := y :: t0)) as [t' [x Ex]]; [discriminate|]. rewrite Ex in E, Hi. rewrite app_assoc in E.
    apply app_inj_tail in E. destruct E as [-> _]. apply Forall_app in Hi. apply components_any; tauto.
Qed.

Lemma parent_of_two : forall p a b cs, components p = a :: b :: cs -> exists d, path_parent p = Some d /\ d <> [].
Proof.
  intros p a b cs E. destruct (path_parent p) as [d|] eqn:P.
  - exists d. split; [reflexivity|]. intros ->. destruct (parent_components _ _ P) as [c [E' _]]. rewrite E in E'. discriminate.
  - exfalso. unfold path_parent in P. destruct (components_shape p) as [h [t [Es [Hh [_ Ht]]]]].
    destruct (exists_last (l := b :: cs)) as [l [x Ex]]; [discriminate|]. rewrite E, Ex in P. change (a :: l ++ [x]) with ((a :: l) ++ [x]) in P.
    rewrite rev_app_distr in P. cbn [rev app] in P. destruct x; try discriminate.
    assert (I : In Root t).
    { rewrite E, Ex in Es. destruct Hh as [->|[->| ->]]; cbn [app] in Es.
      - rewrite <- Es. right. apply in_or_app. right. left. reflexivity.
      - injection Es as _ <-. apply in_or_app. right. left. reflexivity.
      - injection Es as _ <-. apply in_or_app. right. left. reflexivity. }
    destruct (Ht _ I) as [K|[u [K _]]]; discriminate.
Qed.
