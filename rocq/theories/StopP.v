(** Proofs about interrupts before and between tests (C76). *)
From Coq Require Import String List NArith ZArith Bool Arith Lia.
From Verif Require Import Text SpanM PathM MutantM OutcomeM OutputM IterateM InDiffM ShardM PackageM OptionsM PrettyM FnValueM VisitM
  WalkM MainM WholeM CopyM StopM StopS.
Import ListNotations.
Open Scope list_scope.
Open Scope nat_scope.

Lemma parsed_app : forall a b, parsed (a ++ b) = parsed a + parsed b.
Proof. induction a as [|[x|x] a IH]; intro b; cbn [app parsed]; rewrite ?IH; reflexivity. Qed.

Lemma ends_before_cons : forall e ev whole, ends_before ev whole -> ends_before (e :: ev) (e :: whole).
Proof. intros e ev whole (l & x & rest & -> & ->). exists (e :: l), x, rest. split; reflexivity. Qed.

Lemma ends_before_app : forall a ev whole, ends_before ev whole -> ends_before (a ++ ev) (a ++ whole).
Proof. intros a ev whole H. induction a as [|e a IH]; [exact H|]. cbn [app]. apply ends_before_cons, IH. Qed.

Lemma ends_before_more : forall ev whole r, ends_before ev whole -> ends_before ev (whole ++ r).
Proof. intros ev whole r (l & x & rest & -> & ->). exists l, x, (rest ++ r). split; [reflexivity|]. rewrite <- app_assoc. reflexivity. Qed.

Section Search.
Variable read : text -> option text.
Variable is_file : text -> bool.
Variable syn : text -> option node.
Variable re_match : text -> text -> bool.
Variable tree : text.
Variable opts : options.
Variable errs : list toks.
Variable skip_calls : list text.

Notation sq := (search_queue read is_file syn re_match tree opts errs skip_calls).
Notation wq := (walk_queue read is_file syn re_match tree opts errs skip_calls).
Notation stree := (search_tree read is_file syn re_match tree opts errs skip_calls).
Notation wtree := (walk_tree read is_file syn re_match tree opts errs skip_calls).
Notation onef := (one_file read is_file syn re_match tree opts errs skip_calls).

Lemma one_file_load : forall package e,
  match load read tree (fst e) package (snd e) with
  | LoadErr => onef package e = TErr
  | LoadSkipped => onef package e = TOutside
  | Loaded _ => onef package e <> TOutside
  end.
Proof.
  intros package e. unfold one_file. destruct (load read tree (fst e) package (snd e)) as [| |f]; try reflexivity.
  destruct (syn (sf_code f)) as [root|]; [|discriminate]. destruct (walk_syntax f errs skip_calls root) as [[ms ext]|]; [|discriminate].
  destruct (retain_allowed re_match opts ms); [|discriminate]. destruct (find_all is_file tree f ext); discriminate.
Qed.

(** Without an interrupt the search is that of [WalkM]. *)
Lemma queue_plain : forall fuel package q, fst (sq fuel None package q) = Went (wq fuel package q) None.
Proof.
  induction fuel as [|fuel IH]; intros package q; [reflexivity|]. destruct q as [|e q]; [reflexivity|].
  cbn [search_queue walk_queue]. pose proof (one_file_load package e) as L.
  destruct (load read tree (fst e) package (snd e)) as [| |f].
  1,2: rewrite L.
  1: reflexivity.
  - specialize (IH package q). destruct (sq fuel None package q) as [r ev]. cbn [fst] in *. rewrite IH.
    destruct (wq fuel package q); reflexivity.
  - cbn [check]. destruct (onef package e) as [| | |g kept mods]; try reflexivity; [contradiction|].
    specialize (IH package (q ++ map (fun p => (p, false)) mods)). destruct (sq fuel None package (q ++ map (fun p => (p, false)) mods)) as [r ev].
    cbn [fst] in *. rewrite IH. destruct (wq fuel package (q ++ map (fun p => (p, false)) mods)) ; reflexivity.
Qed.

(** With an interrupt after [k] checks, it is the same or ends at the file after the [k]-th. *)
Definition same_or_stopped (k : nat) (x x0 : stopped wresult * list event) (r : wresult) : Prop :=
  (exists j, fst x = Went r (Some j) /\ snd x = snd x0 /\ parsed (snd x) + j = k)
  \/ (fst x = Interrupted /\ parsed (snd x) = k /\ ends_before (snd x) (snd x0)).

Lemma queue_cases : forall fuel k package q,
  same_or_stopped k (sq fuel (Some k) package q) (sq fuel None package q) (wq fuel package q).
Proof.
  induction fuel as [|fuel IH]; intros k package q.
  { left. exists k. repeat split. }
  destruct q as [|e q].
  { left. exists k. repeat split. }
  cbn [search_queue walk_queue]. pose proof (one_file_load package e) as L.
  destruct (load read tree (fst e) package (snd e)) as [| |f].
  1,2: rewrite L.
  - left. exists k. repeat split.
  - specialize (IH k package q). destruct (sq fuel (Some k) package q) as [r ev], (sq fuel None package q) as [r0 ev0].
    destruct IH as [(j & A & B & C)|(A & B & C)]; cbn [fst snd] in *; subst r.
    + left. exists j. cbn [fst snd]. split; [|split; assumption]. destruct (wq fuel package q); reflexivity.
    + right. cbn [fst snd]. repeat split; assumption.
  - destruct k as [|k]; cbn [check].
    + right. cbn [fst snd parsed]. split; [reflexivity|]. split; [reflexivity|].
      destruct (onef package e) as [| | |g kept mods]; cbn [fst snd].
      1,2,3: exists [], (fst e), []; split; reflexivity.
      destruct (sq fuel None package (q ++ map (fun p => (p, false)) mods)) as [r0 ev0]. cbn [snd].
      exists [], (fst e), ev0. split; reflexivity.
    + destruct (onef package e) as [| | |g kept mods]; cbn [fst snd]; [| |contradiction|].
      1,2: left; exists k; cbn [fst snd parsed]; repeat split.
      specialize (IH k package (q ++ map (fun p => (p, false)) mods)).
      destruct (sq fuel (Some k) package (q ++ map (fun p => (p, false)) mods)) as [r ev], (sq fuel None package (q ++ map (fun p => (p, false)) mods)) as [r0 ev0].
      destruct IH as [(j & A & B & C)|(A & B & C)]; cbn [fst snd] in *; subst r.
      * left. exists j. cbn [fst snd parsed]. split; [|split; [congruence|lia]].
        destruct (wq fuel package (q ++ map (fun p => (p, false)) mods)) ; reflexivity.
      * right. cbn [fst snd parsed]. split; [reflexivity|]. split; [lia|]. apply ends_before_cons, ends_before_cons, C.
Qed.

Lemma tree_plain : forall fuel ps, fst (stree fuel None ps) = Went (wtree fuel ps) None.
Proof.
  intros fuel ps. induction ps as [|p ps IH]; [reflexivity|]. cbn [search_tree walk_tree]. unfold walk_package.
  pose proof (queue_plain fuel (pk_name p) (map (fun t => (t, true)) (pk_tops p))) as Q.
  destruct (sq fuel None (pk_name p) (map (fun t => (t, true)) (pk_tops p))) as [r ev]. cbn [fst] in Q. subst r.
  destruct (wq fuel (pk_name p) (map (fun t => (t, true)) (pk_tops p))) as [v ms fs| | |]; try reflexivity.
  destruct (stree fuel None ps) as [r' ev']. cbn [fst] in *. subst r'. destruct (wtree fuel ps); reflexivity.
Qed.

Lemma tree_cases : forall fuel k ps, same_or_stopped k (stree fuel (Some k) ps) (stree fuel None ps) (wtree fuel ps).
Proof.
  intros fuel k ps. revert k. induction ps as [|p ps IH]; intro k.
  { left. exists k. repeat split. }
  cbn [search_tree walk_tree]. unfold walk_package.
  pose proof (queue_cases fuel k (pk_name p) (map (fun t => (t, true)) (pk_tops p))) as Q.
  pose proof (queue_plain fuel (pk_name p) (map (fun t => (t, true)) (pk_tops p))) as Q0.
  destruct (sq fuel (Some k) (pk_name p) (map (fun t => (t, true)) (pk_tops p))) as [r ev].
  destruct (sq fuel None (pk_name p) (map (fun t => (t, true)) (pk_tops p))) as [r0 ev0]. cbn [fst] in Q0. subst r0.
  destruct Q as [(j & A & B & C)|(A & B & C)]; cbn [fst snd] in *; subst r.
  - subst ev0. destruct (wq fuel (pk_name p) (map (fun t => (t, true)) (pk_tops p))) as [v ms fs| | |].
    2,3,4: left; exists j; cbn [fst snd]; repeat split; assumption.
    specialize (IH j). pose proof (tree_plain fuel ps) as T0. destruct (stree fuel (Some j) ps) as [r' ev'], (stree fuel None ps) as [r0' ev0'].
    cbn [fst] in T0. subst r0'. destruct IH as [(i & A' & B' & C')|(A' & B' & C')]; cbn [fst snd] in *; subst r'.
    + left. exists i. cbn [fst snd]. split; [destruct (wtree fuel ps); reflexivity|]. split; [congruence|]. rewrite parsed_app. lia.
    + right. cbn [fst snd]. split; [reflexivity|]. split; [rewrite parsed_app; lia|]. apply ends_before_app, C'.
  - right. destruct (wq fuel (pk_name p) (map (fun t => (t, true)) (pk_tops p))) as [v ms fs| | |]; cbn [fst snd].
    2,3,4: repeat split; assumption.
    destruct (stree fuel None ps) as [r0' ev0']. cbn [snd]. repeat split; [exact B|]. apply ends_before_more, C.
Qed.

(** An interrupted search ends. *)
Lemma queue_ends : forall k package q, exists f0, forall fuel s, f0 <= fuel -> fst (sq fuel (Some k) package q) <> Went WFuel s.
Proof.
  induction k as [k IHk] using lt_wf_ind. intros package q. induction q as [|e q IHq].
  { exists 1. intros [|fuel] s H; [lia|]. discriminate. }
  pose proof (one_file_load package e) as L.
  destruct (load read tree (fst e) package (snd e)) as [| |f] eqn:El.
  - exists 1. intros [|fuel] s H; [lia|]. cbn [search_queue]. rewrite El. discriminate.
  - destruct IHq as [f0 IHq]. exists (S f0). intros [|fuel] s H; [lia|]. cbn [search_queue]. rewrite El.
    specialize (IHq fuel s ltac:(lia)). destruct (sq fuel (Some k) package q) as [r ev]. cbn [fst] in *.
    destruct r as [[| | |] s'|]; cbn [visit_outside]; try discriminate. exact IHq.
  - destruct k as [|k].
    { exists 1. intros [|fuel] s H; [lia|]. cbn [search_queue]. rewrite El. discriminate. }
    destruct (onef package e) as [| | |g kept mods] eqn:E1; [| |contradiction|].
    1,2: exists 1; intros [|fuel] s H; [lia|]; cbn [search_queue]; rewrite El; cbn [check]; rewrite E1; discriminate.
    destruct (IHk k ltac:(lia) package (q ++ map (fun p => (p, false)) mods)) as [f0 I]. exists (S f0). intros [|fuel] s H; [lia|].
    cbn [search_queue]. rewrite El. cbn [check]. rewrite E1. specialize (I fuel s ltac:(lia)).
    destruct (sq fuel (Some k) package (q ++ map (fun p => (p, false)) mods)) as [r ev]. cbn [fst] in *.
    destruct r as [[| | |] s'|]; cbn [visit_file]; try discriminate; [destruct (allows_source_file_path opts (sf_path g)); discriminate|exact I].
Qed.

Lemma bounded : forall (Q : nat -> nat -> Prop) k, (forall j, exists f0, forall fuel, f0 <= fuel -> Q j fuel) ->
  exists f0, forall j fuel, j <= k -> f0 <= fuel -> Q j fuel.
Proof.
  intros Q k H. induction k as [|k [f0 IH]].
  - destruct (H 0) as [f0 I]. exists f0. intros j fuel Hj Hf. assert (j = 0) by lia. subst j. apply I, Hf.
  - destruct (H (S k)) as [f1 I]. exists (Nat.max f0 f1). intros j fuel Hj Hf. destruct (Nat.eq_dec j (S k)) as [->|N].
    + apply I. lia.
    + apply IH; lia.
Qed.

Lemma tree_ends : forall ps k, exists f0, forall fuel s, f0 <= fuel -> fst (stree fuel (Some k) ps) <> Went WFuel s.
Proof.
  induction ps as [|p ps IH]; intro k.
  { exists 0. intros fuel s _. discriminate. }
  destruct (queue_ends k (pk_name p) (map (fun t => (t, true)) (pk_tops p))) as [f0 Q].
  destruct (bounded (fun j fuel => forall s, fst (stree fuel (Some j) ps) <> Went WFuel s) k) as [f1 I].
  { intro j. destruct (IH j) as [f I]. exists f. intros fuel Hf s. apply I, Hf. }
  exists (Nat.max f0 f1). intros fuel s Hf. specialize (Q fuel). cbn [search_tree].
  pose proof (queue_cases fuel k (pk_name p) (map (fun t => (t, true)) (pk_tops p))) as C.
  destruct (sq fuel (Some k) (pk_name p) (map (fun t => (t, true)) (pk_tops p))) as [r ev]. cbn [fst] in *.
  destruct r as [[v1 ms1 fs1| | |] s'|]; try discriminate.
  2: exfalso; apply (Q s' ltac:(lia)); reflexivity.
  destruct C as [(j & A & _ & C)|(A & _)]; [|discriminate]. cbn [fst snd] in *. injection A as _ ->.
  specialize (I j fuel ltac:(lia) ltac:(lia) s). destruct (stree fuel (Some j) ps) as [r' ev']. cbn [fst] in *.
  destruct r' as [[| | |] s''|]; try discriminate. exact I.
Qed.
End Search.

Section Program.
Variable w : world.

Lemma check_none : forall k, check (Some (S k)) = Some (Some k).
Proof. reflexivity. Qed.

Lemma settle_plain : forall a, settle_checked w None a = Went (settle w a) None.
Proof.
  intro a. unfold settle_checked, settle. destruct (start_dir (wo_is_file w) (ag_manifest a) (ag_dir a)) as [start|]; [|reflexivity].
  unfold open_checked, open_workspace. destruct (locate_project w start true) as [dir|]; [|reflexivity].
  destruct (is_absolute dir); reflexivity.
Qed.

Lemma settle_cases : forall a k,
  settle_checked w (Some k) a = Interrupted
  \/ exists j, settle_checked w (Some k) a = Went (settle w a) (Some j) /\ (S j = k \/ j = k /\ forall se, settle w a <> Done se).
Proof.
  intros a k. unfold settle_checked, settle. destruct (start_dir (wo_is_file w) (ag_manifest a) (ag_dir a)) as [start|].
  2: right; exists k; split; [reflexivity|]; right; split; [reflexivity|discriminate].
  unfold open_checked, open_workspace. destruct (locate_project w start true) as [dir|].
  2: right; exists k; split; [reflexivity|]; right; split; [reflexivity|discriminate].
  destruct (is_absolute dir).
  2: right; exists k; split; [reflexivity|]; right; split; [reflexivity|discriminate].
  destruct k as [|k]; [left; reflexivity|]. right. exists k. cbn [check]. split; [reflexivity|left; reflexivity].
Qed.

Lemma discover_plain : forall fuel se, fst (discover_checked w fuel None se) = Went (discover w fuel se) None.
Proof.
  intros fuel se. unfold discover_checked, discover. destruct (relative_package w (se_filter se)); [reflexivity|].
  destruct (mutated_packages _ _ _); [|reflexivity]. destruct (parsed_error_exprs w _); [|reflexivity]. apply tree_plain.
Qed.

Lemma discover_cases : forall fuel k se,
  same_or_stopped k (discover_checked w fuel (Some k) se) (discover_checked w fuel None se) (discover w fuel se).
Proof.
  intros fuel k se. unfold discover_checked, discover. destruct (relative_package w (se_filter se)); [left; exists k; repeat split|].
  destruct (mutated_packages _ _ _); [|left; exists k; repeat split]. destruct (parsed_error_exprs w _); [|left; exists k; repeat split].
  apply tree_cases.
Qed.

Lemma discover_ends : forall k se, exists f0, forall fuel s, f0 <= fuel -> fst (discover_checked w fuel (Some k) se) <> Went WFuel s.
Proof.
  intros k se. unfold discover_checked. destruct (relative_package w (se_filter se)); [exists 0; discriminate|].
  destruct (mutated_packages _ _ _); [|exists 0; discriminate]. destruct (parsed_error_exprs w _); [|exists 0; discriminate].
  apply tree_ends.
Qed.

Lemma run_selected : forall lk c es found,
  main_run (wo_patch w) (wo_diff w) (wo_json_mutants w) (wo_json_files w) lk c es found
  = match selected w c es found with
    | Fails => Fails
    | Panics => Panics
    | Done (inl t) => Done (Printed t)
    | Done (inr ms) => bind (set_up lk c es) (fun es' => Done (Tests ms es'))
    end.
Proof.
  intros lk c es found. unfold main_run, selected. destruct found as [v ms fs| | |]; try reflexivity.
  destruct (iterate_step c es ms) as [ms1| |]; try reflexivity. cbn [bind]. destruct (cl_list_files c); [reflexivity|].
  destruct (diff_step (wo_patch w) c ms1) as [ms2| |]; try reflexivity. cbn [bind].
  destruct (shard_step c ms2) as [ms3| |]; try reflexivity. cbn [bind].
  destruct (cl_list c); [|reflexivity]. destruct (or_panic (list_mutants (wo_diff w) (wo_json_mutants w) c ms3)); reflexivity.
Qed.

Lemma wait_plain : forall free fuel i, exists b, wait_lock free fuel None i = Went b None.
Proof.
  intros free fuel. induction fuel as [|fuel IH]; intro i; [exists false; reflexivity|]. cbn [wait_lock check].
  destruct (free i); [exists true; reflexivity|apply IH].
Qed.

Lemma wait_cases : forall free fuel k i,
  wait_lock free fuel (Some k) i = Interrupted
  \/ exists j b, j <= k /\ wait_lock free fuel (Some k) i = Went b (Some j) /\ wait_lock free fuel None i = Went b None.
Proof.
  intros free fuel. induction fuel as [|fuel IH]; intros k i.
  { right. exists k, false. repeat split. lia. }
  cbn [wait_lock]. destruct (free i); [right; exists k, true; repeat split; lia|].
  destruct k as [|k]; [left; reflexivity|]. cbn [check]. destruct (IH k (S i)) as [H|(j & b & H1 & H2 & H3)]; [left; exact H|].
  right. exists j, b. split; [lia|]. split; assumption.
Qed.

(** [k + 1] attempts at most. *)
Lemma wait_ends : forall free k fuel i s, k < fuel -> wait_lock free fuel (Some k) i <> Went false s.
Proof.
  intros free k. induction k as [|k IH]; intros [|fuel] i s H; try lia; cbn [wait_lock]; destruct (free i); try discriminate; cbn [check].
  apply IH. lia.
Qed.

Lemma wait_when : forall free k fuel i s, wait_lock free fuel (Some k) i = Went true s -> exists n, n <= k /\ free (i + n) = true.
Proof.
  intros free k. induction k as [|k IH]; intros [|fuel] i s; try discriminate; cbn [wait_lock]; destruct (free i) eqn:F; cbn [check].
  - intros _. exists 0. rewrite Nat.add_0_r. split; [lia|exact F].
  - discriminate.
  - intros _. exists 0. rewrite Nat.add_0_r. split; [lia|exact F].
  - intro H. destruct (IH _ _ _ H) as (n & L & E). exists (S n). split; [lia|]. rewrite Nat.add_succ_r. exact E.
Qed.

Lemma locks_plain : forall free free' fuel es, exists b, wait_locks free free' fuel None es = Went b None.
Proof.
  intros free free' fuel es. unfold wait_locks. destruct (match es with Some d => _ | None => false end).
  - destruct (wait_plain free fuel 0) as [[|] ->]; [apply wait_plain|exists false; reflexivity].
  - apply wait_plain.
Qed.

Lemma locks_cases : forall free free' fuel k es,
  wait_locks free free' fuel (Some k) es = Interrupted
  \/ exists j b, j <= k /\ wait_locks free free' fuel (Some k) es = Went b (Some j) /\ wait_locks free free' fuel None es = Went b None.
Proof.
  intros free free' fuel k es. unfold wait_locks. destruct (match es with Some d => _ | None => false end).
  - destruct (wait_cases free fuel k 0) as [->|(j & b & L & -> & ->)]; [left; reflexivity|].
    destruct b; [|right; exists j, false; repeat split; exact L].
    destruct (wait_cases free' fuel j 0) as [->|(i & b & L' & -> & ->)]; [left; reflexivity|]. right. exists i, b. repeat split. lia.
  - apply wait_cases.
Qed.

Lemma locks_end : forall free free' k fuel es s, k < fuel -> wait_locks free free' fuel (Some k) es <> Went false s.
Proof.
  intros free free' k fuel es s H. unfold wait_locks. destruct (match es with Some d => _ | None => false end).
  - pose proof (wait_ends free k fuel 0) as E. destruct (wait_cases free fuel k 0) as [->|(j & b & L & X & _)]; [discriminate|].
    rewrite X in *. destruct b; [apply wait_ends; lia|]. intros _. exact (E _ H eq_refl).
  - apply wait_ends, H.
Qed.

(** The whole of it. *)
Lemma before_plain : forall free free' lk fuel a, exists x, before_tests w free free' lk fuel None a = Went x None
  /\ (x = None \/ exists r, x = Some r /\ match settle w a with
                     | Done se => r = after w lk fuel a se
                     | Fails => r = Fails
                     | Panics => r = Panics
                     end).
Proof.
  intros free free' lk fuel a. unfold before_tests. rewrite settle_plain. destruct (settle w a) as [se| |].
  2,3: eexists; split; [reflexivity|]; right; eexists; split; reflexivity.
  rewrite discover_plain. unfold after. rewrite run_selected.
  destruct (locks_plain free free' fuel (wo_dir w (output_parent se))) as [b L].
  destruct (discover w fuel se) as [v ms fs| | |].
  4: eexists; split; [reflexivity|left; reflexivity].
  2,3: eexists; split; [reflexivity|]; right; eexists; split; reflexivity.
  destruct (selected w (cli_of w a (se_options se)) (wo_dir w (output_parent se)) (WOk v ms fs)) as [[t|ms']| |].
  1,3,4: eexists; split; [reflexivity|]; right; eexists; split; reflexivity.
  rewrite L. destruct b; [|eexists; split; [reflexivity|left; reflexivity]].
  eexists. split; [reflexivity|]. right. eexists. split; reflexivity.
Qed.

Lemma before_cases : forall free free' lk fuel k a,
  before_tests w free free' lk fuel (Some k) a = Interrupted
  \/ exists x j, j <= k /\ before_tests w free free' lk fuel (Some k) a = Went x (Some j)
     /\ before_tests w free free' lk fuel None a = Went x None.
Proof.
  intros free free' lk fuel k a. unfold before_tests. rewrite settle_plain.
  destruct (settle_cases a k) as [->|(j & -> & J)]; [left; reflexivity|]. assert (L1 : j <= k) by (destruct J as [J|[J _]]; lia).
  destruct (settle w a) as [se| |].
  2,3: right; eexists _, j; split; [exact L1|]; split; reflexivity.
  pose proof (discover_plain fuel se) as D0.
  destruct (discover_cases fuel j se) as [(i & A & _ & C)|(A & _)]; rewrite A; [|left; reflexivity]. rewrite D0.
  destruct (discover w fuel se) as [v ms fs| | |].
  2,3,4: right; eexists _, i; split; [lia|]; split; reflexivity.
  destruct (selected w (cli_of w a (se_options se)) (wo_dir w (output_parent se)) (WOk v ms fs)) as [[t|ms']| |].
  1,3,4: right; eexists _, i; split; [lia|]; split; reflexivity.
  destruct (locks_cases free free' fuel i (wo_dir w (output_parent se))) as [->|(h & b & L & -> & ->)]; [left; reflexivity|].
  right. destruct b; eexists _, h; (split; [lia|]); split; reflexivity.
Qed.

Lemma before_ends : forall free free' lk k a, exists f0, forall fuel s, f0 <= fuel -> before_tests w free free' lk fuel (Some k) a <> Went None s.
Proof.
  intros free free' lk k a. unfold before_tests. destruct (settle_checked w (Some k) a) as [[se| |] s1|] eqn:E1.
  2,3,4: exists 0; discriminate.
  destruct (settle_cases a k) as [X|(j & X & J)]; [congruence|]. rewrite E1 in X. injection X as _ ->.
  assert (L1 : j <= k) by (destruct J as [J|[J _]]; lia).
  destruct (discover_ends j se) as [f0 D]. exists (Nat.max f0 (S k)). intros fuel s Hf. specialize (D fuel).
  pose proof (discover_cases fuel j se) as C. destruct (discover_checked w fuel (Some j) se) as [r ev]. cbn [fst snd] in *.
  destruct C as [(i & A & _ & C)|(A & _)]; cbn [fst snd] in *; subst r; [|discriminate].
  destruct (discover w fuel se) as [v ms fs| | |].
  4: exfalso; apply (D (Some i) ltac:(lia)); reflexivity.
  2,3: discriminate.
  destruct (selected w (cli_of w a (se_options se)) (wo_dir w (output_parent se)) (WOk v ms fs)) as [[t|ms']| |]; try discriminate.
  pose proof (locks_end free free' i fuel (wo_dir w (output_parent se))) as L.
  destruct (wait_locks free free' fuel (Some i) (wo_dir w (output_parent se))) as [[|] s3|]; try discriminate.
  exfalso. apply (L s3 ltac:(lia)). reflexivity.
Qed.

(** An interrupt before the first check. *)
Lemma before_first : forall free free' lk fuel a,
  before_tests w free free' lk fuel (Some 0) a = Interrupted
  \/ (exists s, before_tests w free free' lk fuel (Some 0) a = Went (Some Fails) s /\ settle w a = Fails)
  \/ (exists s, before_tests w free free' lk fuel (Some 0) a = Went (Some Panics) s /\ settle w a = Panics).
Proof.
  intros free free' lk fuel a. unfold before_tests. destruct (settle_cases a 0) as [->|(j & -> & [J|[-> J]])]; [left; reflexivity|lia|].
  destruct (settle w a) as [se| |]; [destruct (J se eq_refl)| |].
  - right. left. eexists. split; reflexivity.
  - right. right. eexists. split; reflexivity.
Qed.
End Program.

Section Copying.
Variable copy_vcs gitignore : bool.
Variable ignored : list text -> bool -> bool.
Variable utf8 : text -> bool.
Variable readable : list text -> bool.
Notation cc := (copy_checked utf8 readable).
Notation ca := (copy_all utf8 readable).

Lemma copy_plain : forall l d, ca d l = match cc None d l with Copied d' _ => Some d' | _ => None end.
Proof.
  induction l as [|x l IH]; intro d; [reflexivity|]. cbn [copy_all copy_checked check]. destruct (copy_one utf8 readable d x); [apply IH|reflexivity].
Qed.

Lemma copy_none : forall l d, (exists d', cc None d l = Copied d' None) \/ exists d', cc None d l = CopyFailed d'.
Proof.
  induction l as [|x l IH]; intro d; [left; exists d; reflexivity|]. cbn [copy_checked check].
  destruct (copy_one utf8 readable d x) as [d'|]; [apply IH|right; exists d; reflexivity].
Qed.

Lemma copy_cases : forall l k d,
  match cc (Some k) d l with
  | Copied d' s => s = Some (k - length l) /\ length l <= k /\ ca d l = Some d'
  | CopyFailed d' => ca d (firstn k l) = None /\ cc None d l = CopyFailed d'
  | CopyStopped d' => k < length l /\ ca d (firstn k l) = Some d'
  end.
Proof.
  induction l as [|x l IH]; intros k d.
  { cbn. rewrite Nat.sub_0_r. repeat split. lia. }
  destruct k as [|k]; cbn [copy_checked check firstn copy_all length].
  { split; [lia|reflexivity]. }
  destruct (copy_one utf8 readable d x) as [d1|]; [|split; reflexivity].
  specialize (IH k d1). destruct (cc (Some k) d1 l) as [d' s|d'|d'].
  - destruct IH as (-> & H & E). repeat split; [lia|exact E].
  - exact IH.
  - destruct IH as [H E]. split; [lia|exact E].
Qed.

Lemma walk_not_nil : forall p e, walk copy_vcs gitignore ignored readable p e <> [].
Proof. intros p [| | |]; discriminate. Qed.
End Copying.
