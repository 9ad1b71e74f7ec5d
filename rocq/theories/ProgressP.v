(** Proofs for C64. *)
From Coq Require Import String List NArith ZArith Bool Arith Lia.
Import ListNotations.
From Verif Require Import Text SpanM PathM PackageM MutantM GlobM OptionsM PrettyM FnValueM VisitM VisitS VisitP WalkM WalkS WalkP CopyM
  ProgressM ProgressS.
Open Scope list_scope.

Lemma updates_app : forall a b d, walk_updates (a ++ b) d = match walk_updates a d with Some d' => walk_updates b d' | None => None end.
Proof. induction a as [|c a IH]; intros b d; cbn; [reflexivity|]. destruct (walk_update c d); [apply IH|reflexivity]. Qed.

Definition counting (c : walk_call) : Prop := match c with WFiles _ | WMutants _ => True | _ => False end.

Lemma updates_count : forall cs m, (forall c, In c cs -> counting c) ->
  walk_updates cs (Some m) = Some (Some (mkWM (wm_files m + files_told cs) (wm_mutants m + mutants_told cs))).
Proof.
  induction cs as [|c cs IH]; intros m H; cbn.
  - rewrite !Nat.add_0_r. destruct m; reflexivity.
  - specialize (H c (or_introl eq_refl)) as Hc. assert (H' : forall c, In c cs -> counting c) by (intros x Hx; apply H; right; exact Hx).
    destruct c; try destruct Hc; cbn; rewrite IH; auto; cbn; f_equal; f_equal; f_equal; lia.
Qed.

Lemma told_app : forall a b, files_told (a ++ b) = files_told a + files_told b.
Proof. induction a as [|c a IH]; intro b; cbn; [reflexivity|]. destruct c; rewrite IH; lia. Qed.
Lemma mtold_app : forall a b, mutants_told (a ++ b) = mutants_told a + mutants_told b.
Proof. induction a as [|c a IH]; intro b; cbn; [reflexivity|]. destruct c; rewrite IH; lia. Qed.

Section Walk.
Variable read : text -> option text.
Variable is_file : text -> bool.
Variable parse : text -> option node.
Variable re_match : text -> text -> bool.
Variable tree : text.
Variable opts : options.
Variable errs : list toks.
Variable skip_calls : list text.
Notation one := (one_file read is_file parse re_match tree opts errs skip_calls).
Notation fcalls := (file_calls read parse re_match tree opts errs skip_calls).
Notation qcalls := (queue_calls read is_file parse re_match tree opts errs skip_calls).
Notation run := (walk_queue read is_file parse re_match tree opts errs skip_calls).
Notation allowed f := (allows_source_file_path opts (sf_path f)).

Lemma fcalls_counting : forall p e c, In c (fcalls p e) -> counting c.
Proof.
  intros p e c H. unfold file_calls in H. destruct (load _ _ _ _ _); cbn in H; try destruct H; subst; cbn; auto.
  destruct (parse _); [|destruct H]. destruct (walk_syntax _ _ _ _) as [[ms ext]|]; [|destruct H].
  destruct (retain_allowed _ _ _); [|destruct H]. destruct H as [<-|[]]. exact I.
Qed.
Lemma qcalls_counting : forall fuel p q c, In c (qcalls fuel p q) -> counting c.
Proof.
  induction fuel as [|fuel IH]; intros p q c H; [destruct H|]. destruct q as [|e q]; [destruct H|]. cbn [queue_calls] in H.
  apply in_app_iff in H. destruct H as [H|H]; [eapply fcalls_counting; exact H|].
  destruct (one p e); try destruct H; eauto.
Qed.

(** What a file gives, whether the globs let it pass or not. *)
Definition seen (p : text) (e : text * bool) : list source_file := match one p e with TFile f _ _ => [f] | _ => [] end.
Definition found (p : text) (e : text * bool) : list mutant := match one p e with TFile _ k _ => k | _ => [] end.

Lemma fcalls_told : forall p e, one p e <> TErr -> one p e <> TPanic ->
  files_told (fcalls p e) = length (seen p e) /\ mutants_told (fcalls p e) = length (found p e).
Proof.
  intros p e H1 H2. unfold file_calls, seen, found in *. unfold one_file in *.
  destruct (load read tree (fst e) p (snd e)) as [| |f]; cbn; try congruence; auto.
  destruct (parse (sf_code f)) as [root|]; [|congruence]. destruct (walk_syntax f errs skip_calls root) as [[ms ext]|]; [|congruence].
  destruct (retain_allowed re_match opts ms) as [k|]; [|congruence]. destruct (find_all is_file tree f ext); [|congruence].
  cbn. split; [reflexivity|lia].
Qed.

Lemma run_told : forall fuel p q v ms fs, run fuel p q = WOk v ms fs ->
  files_told (qcalls fuel p q) = length (flat_map (seen p) v) /\ mutants_told (qcalls fuel p q) = length (flat_map (found p) v).
Proof.
  induction fuel as [|fuel IH]; intros p q v ms fs H; [discriminate|]. cbn [walk_queue queue_calls] in *.
  destruct q as [|e q]; [injection H as <- <- <-; auto|].
  pose proof (fcalls_told p e) as FT. rewrite told_app, mtold_app.
  destruct (one p e) as [| | |f kept mods] eqn:E; try discriminate.
  - destruct (run fuel p q) as [v1 ms1 fs1| | |] eqn:R; try discriminate. injection H as <- <- <-.
    destruct (IH _ _ _ _ _ R) as [A B]. destruct FT as [C D]; try discriminate. cbn [flat_map]. rewrite !app_length. lia.
  - destruct (run fuel p (q ++ map (fun p => (p, false)) mods)) as [v1 ms1 fs1| | |] eqn:R; try discriminate.
    destruct (IH _ _ _ _ _ R) as [A B]. destruct FT as [C D]; try discriminate.
    destruct (allowed f); injection H as <- <- <-; cbn [flat_map]; rewrite !app_length; lia.
Qed.

Lemma retain_file : forall f root ms ext kept m, walk_syntax f errs skip_calls root = Some (ms, ext) ->
  retain_allowed re_match opts ms = Some kept -> In m kept -> mu_file m = f.
Proof.
  intros f root ms ext kept m W R I. apply (retain_in read is_file parse re_match tree opts _ _ R) in I. destruct I as [I _].
  apply (walk_offered _ _ _ _ _ _ W) in I. destruct I as (anc & k & cs & _ & _ & _ & _ & E). exact E.
Qed.

Lemma keep_filter : forall p v, flat_map (keep read is_file parse re_match tree opts errs skip_calls p) v
  = filter (fun m => allowed (mu_file m)) (flat_map (found p) v).
Proof.
  intros p v. induction v as [|e v IH]; [reflexivity|]. cbn [flat_map]. rewrite filter_app, <- IH. f_equal.
  unfold keep, found. destruct (one p e) as [| | |f kept mods] eqn:E; try reflexivity.
  eapply one_file_inv in E. destruct E as (root & ms & ext & _ & _ & W & R & _).
  pose proof (fun m => retain_file _ _ _ _ _ m W R) as F. clear - F. induction kept as [|m k IH]; [destruct (allowed f); reflexivity|].
  cbn [filter]. rewrite (F m (or_introl eq_refl)).
  assert (F' : forall x, In x k -> mu_file x = f) by (intros x Hx; apply F; right; exact Hx). specialize (IH F').
  destruct (allowed f); [f_equal|]; exact IH.
Qed.
Lemma listed_filter : forall p v, flat_map (listed read is_file parse re_match tree opts errs skip_calls p) v
  = filter (fun f => allowed f) (flat_map (seen p) v).
Proof.
  intros p v. induction v as [|e v IH]; [reflexivity|]. cbn [flat_map]. rewrite filter_app, <- IH. f_equal.
  unfold listed, seen. destruct (one p e) as [| | |f kept mods]; reflexivity.
Qed.

Lemma run_seen : forall fuel p q v ms fs, run fuel p q = WOk v ms fs ->
  forall f, In f (flat_map (seen p) v) <-> exists e, reach read is_file parse tree skip_calls p q e /\ load read tree (fst e) p (snd e) = Loaded f.
Proof.
  intros fuel p q v ms fs H f. pose proof (run_reach _ _ _ _ _ _ _ _ _ _ _ _ _ _ H) as R.
  destruct (run_ok _ _ _ _ _ _ _ _ _ _ _ _ _ _ H) as [F [G _]].
  rewrite in_flat_map. split.
  - intros [e [I K]]. unfold seen in K. destruct (one p e) as [| | |f' kept mods] eqn:E; try contradiction. destruct K as [<-|[]].
    eapply one_file_inv in E. destruct E as (root & mm & ext & L & _). exists e. split; [apply R; exact I|exact L].
  - intros [e [Re L]]. apply R in Re. exists e. split; [exact Re|]. destruct (G e Re) as [G1 G2].
    unfold seen. unfold one_file in *. rewrite L in *.
    destruct (parse (sf_code f)) as [root|]; [|congruence].
    destruct (walk_syntax f errs skip_calls root) as [[mm ext]|]; [|congruence].
    destruct (retain_allowed re_match opts mm); [|congruence].
    destruct (find_all is_file tree f ext); [|congruence]. left. reflexivity.
Qed.
Lemma run_found : forall fuel p q v ms fs, run fuel p q = WOk v ms fs ->
  forall m, In m (flat_map (found p) v) <-> exists e f root,
    reach read is_file parse tree skip_calls p q e /\ load read tree (fst e) p (snd e) = Loaded f /\ parse (sf_code f) = Some root
    /\ offered f errs skip_calls root m /\ allows_mutant re_match opts m = Some true.
Proof.
  intros fuel p q v ms fs H m. pose proof (run_reach _ _ _ _ _ _ _ _ _ _ _ _ _ _ H) as R.
  destruct (run_ok _ _ _ _ _ _ _ _ _ _ _ _ _ _ H) as [F [G _]].
  rewrite in_flat_map. split.
  - intros [e [I K]]. unfold found in K. destruct (one p e) as [| | |f kept mods] eqn:E; try contradiction.
    eapply one_file_inv in E. destruct E as (root & mm & ext & L & P & W & Rt & _).
    apply (retain_in read is_file parse re_match tree opts _ _ Rt) in K. destruct K as [K1 K2]. exists e, f, root. repeat split; auto.
    + apply R. exact I.
    + apply (walk_offered _ _ _ _ _ _ W). exact K1.
  - intros [e [f [root [Re [L [P [O B]]]]]]]. apply R in Re. exists e. split; [exact Re|].
    destruct (G e Re) as [G1 G2]. unfold found. unfold one_file in *. rewrite L, P in *.
    destruct (walk_syntax f errs skip_calls root) as [[mm ext]|] eqn:W; [|congruence].
    destruct (retain_allowed re_match opts mm) as [k|] eqn:Rt; [|congruence].
    destruct (find_all is_file tree f ext) as [mods|] eqn:Fa; [|congruence].
    apply (retain_in read is_file parse re_match tree opts _ _ Rt). split; [|exact B]. apply (walk_offered _ _ _ _ _ _ W). exact O.
Qed.

(** All packages. *)
Lemma tree_told : forall fuel ps v ms fs,
  walk_tree read is_file parse re_match tree opts errs skip_calls fuel ps = WOk v ms fs ->
  exists cs loaded all, package_calls read is_file parse re_match tree opts errs skip_calls fuel ps = cs ++ [WFinishes]
    /\ (forall c, In c cs -> counting c) /\ files_told cs = length loaded /\ mutants_told cs = length all
    /\ fs = filter (fun f => allowed f) loaded /\ ms = filter (fun m => allowed (mu_file m)) all
    /\ (forall f, In f loaded <-> belongs read is_file parse tree skip_calls ps f)
    /\ (forall m, In m all <-> passes read is_file parse re_match tree opts errs skip_calls ps m).
Proof.
  intros fuel ps. induction ps as [|p ps IH]; intros v ms fs H; cbn [walk_tree package_calls] in *.
  - injection H as <- <- <-. exists [], [], []. split; [reflexivity|]. split; [intros c []|]. do 4 (split; [reflexivity|]).
    split; intros x; (split; [intros []|]).
    + intros (p & e & [] & _).
    + intros (f & root & (p & e & [] & _) & _).
  - destruct (walk_package read is_file parse re_match tree opts errs skip_calls fuel p) as [v1 ms1 fs1| | |] eqn:W; try discriminate.
    destruct (walk_tree read is_file parse re_match tree opts errs skip_calls fuel ps) as [v2 ms2 fs2| | |] eqn:T; try discriminate.
    injection H as <- <- <-. destruct (IH _ _ _ eq_refl) as (cs & lo & al & E & C & F & M & -> & -> & B & Q). unfold walk_package in W.
    exists (qcalls fuel (pk_name p) (map (fun t => (t, true)) (pk_tops p)) ++ cs),
      (flat_map (seen (pk_name p)) v1 ++ lo), (flat_map (found (pk_name p)) v1 ++ al).
    destruct (run_told _ _ _ _ _ _ W) as [A1 A2]. rewrite told_app, mtold_app, !app_length, F, M, A1, A2, E, app_assoc.
    destruct (run_ok _ _ _ _ _ _ _ _ _ _ _ _ _ _ W) as (_ & _ & -> & ->).
    rewrite !filter_app, keep_filter, listed_filter. repeat split; auto.
    + intros c Hc. apply in_app_iff in Hc. destruct Hc as [Hc|Hc]; [eapply qcalls_counting; exact Hc|auto].
    + intros I. apply in_app_iff in I. destruct I as [I|I].
      * eapply run_seen in I; [|exact W]. destruct I as (e & R & L). exists p, e. split; [left; reflexivity|]. auto.
      * apply B in I. destruct I as (p' & e & I & X). exists p', e. split; [right; exact I|exact X].
    + intros (p' & e & [<-|I] & R & L); apply in_app_iff.
      * left. eapply run_seen; [exact W|]. eauto.
      * right. apply B. exists p', e. auto.
    + intros I. apply in_app_iff in I. destruct I as [I|I].
      * eapply run_found in I; [|exact W]. destruct I as (e & f & root & R & L & P & X). exists f, root. split; [|auto].
        exists p, e. split; [left; reflexivity|]. auto.
      * apply Q in I. destruct I as (f & root & (p' & e & I & X) & Y). exists f, root. split; [|exact Y].
        exists p', e. split; [right; exact I|exact X].
    + intros (f & root & (p' & e & [<-|I] & R & L) & P & X); apply in_app_iff.
      * left. eapply run_found; [exact W|]. exists e, f, root. auto.
      * right. apply Q. exists f, root. split; [|auto]. exists p', e. auto.
Qed.

Lemma package_shape : forall fuel ps, exists cs, (forall c, In c cs -> counting c)
  /\ (package_calls read is_file parse re_match tree opts errs skip_calls fuel ps = cs ++ [WFinishes]
      \/ package_calls read is_file parse re_match tree opts errs skip_calls fuel ps = cs).
Proof.
  intros fuel. induction ps as [|p ps IH]; cbn [package_calls].
  - exists []. split; [intros c []|left; reflexivity].
  - destruct (walk_package read is_file parse re_match tree opts errs skip_calls fuel p).
    + destruct IH as (cs & C & E). exists (qcalls fuel (pk_name p) (map (fun t => (t, true)) (pk_tops p)) ++ cs). split.
      * intros c Hc. apply in_app_iff in Hc. destruct Hc as [Hc|Hc]; [eapply qcalls_counting; exact Hc|auto].
      * destruct E as [->| ->]; [left; apply app_assoc|right; reflexivity].
    + eexists. split; [|right; reflexivity]. rewrite app_nil_r. intros c Hc. eapply qcalls_counting; exact Hc.
    + eexists. split; [|right; reflexivity]. rewrite app_nil_r. intros c Hc. eapply qcalls_counting; exact Hc.
    + eexists. split; [|right; reflexivity]. rewrite app_nil_r. intros c Hc. eapply qcalls_counting; exact Hc.
Qed.

Lemma prefix_last : forall A (a b cs : list A) x, a ++ b = cs ++ [x] -> a = cs ++ [x] \/ exists c, cs = a ++ c.
Proof.
  intros A a b cs x H. destruct b as [|y b] using rev_ind; [left; rewrite app_nil_r in H; exact H|].
  right. rewrite app_assoc in H. apply app_inj_tail in H. destruct H as [<- _]. exists b. reflexivity.
Qed.

Lemma shown_always : forall fuel ps a b d,
  walk_calls read is_file parse re_match tree opts errs skip_calls fuel ps = WStarts :: a ++ b ->
  (walk_updates (WStarts :: a) d = Some None /\ b = [])
  \/ walk_updates (WStarts :: a) d = Some (Some (mkWM (files_told a) (mutants_told a))).
Proof.
  intros fuel ps a b d H. unfold walk_calls in H. injection H as H. destruct (package_shape fuel ps) as (cs & C & [E|E]); rewrite E in H.
  - symmetry in H. destruct (prefix_last _ _ _ _ _ H) as [->|[c ->]].
    + left. split; [|rewrite <- app_assoc in H; cbn in H; destruct b; [reflexivity|]].
      * change (WStarts :: cs ++ [WFinishes]) with ((WStarts :: cs) ++ [WFinishes]). rewrite updates_app. cbn [walk_updates walk_update].
        rewrite updates_count by exact C. reflexivity.
      * exfalso. apply (f_equal (@length _)) in H. rewrite !app_length in H. cbn in H. lia.
    + right. cbn [walk_updates walk_update]. rewrite updates_count; [reflexivity|]. intros x Hx. apply C. apply in_or_app. auto.
  - right. cbn [walk_updates walk_update]. rewrite updates_count; [reflexivity|]. intros x Hx. apply C. rewrite H. apply in_or_app. auto.
Qed.
End Walk.

Lemma filter_length_iff : forall A (f : A -> bool) l, length (filter f l) = length l <-> forall x, In x l -> f x = true.
Proof.
  intros A f l. induction l as [|x l IH]; cbn; [split; [intros _ x []|reflexivity]|].
  assert (L : length (filter f l) <= length l). { clear. induction l as [|y l IH]; cbn; [lia|]. destruct (f y); cbn; lia. }
  destruct (f x) eqn:E; cbn.
  - split; [intros H y [<-|I]; [exact E|apply IH; [lia|exact I]]|]. intros H. f_equal. apply IH. intros y I. apply H. right. exact I.
  - split; [lia|]. intros H. specialize (H x (or_introl eq_refl)). congruence.
Qed.

Section Copy.
Variable utf8 : text -> bool.
Variable readable : list text -> bool.

Lemma totals_prefix : forall l total d, exists k, copy_totals utf8 readable total d l = firstn k (sums total (file_sizes l))
  /\ (copy_all utf8 readable d l <> None -> k = length (file_sizes l)).
Proof.
  induction l as [|x l IH]; intros total d; cbn [copy_totals copy_all].
  - exists 0. split; reflexivity.
  - destruct (copy_one utf8 readable d x) as [d'|]; [|exists 0; split; [reflexivity|congruence]].
    destruct x as [[p s] ok]. cbn [snd fst]. destruct s as [m b| | |]; unfold file_sizes; cbn [flat_map snd fst app]; fold (file_sizes l).
    + destruct (IH (total + N.of_nat (length b))%N d') as (k & E & F). exists (S k). cbn [sums firstn length]. rewrite E. split; [reflexivity|].
      intros H. rewrite (F H). reflexivity.
    + apply IH.
    + apply IH.
    + apply IH.
Qed.

Lemma sums_length : forall l f, length (sums f l) = length l.
Proof. induction l as [|n l IH]; intro f; cbn; [reflexivity|]. rewrite IH. reflexivity. Qed.
Lemma sums_last : forall l f, l <> [] -> last (sums f l) 0%N = (f + fold_right N.add 0 l)%N.
Proof.
  induction l as [|n l IH]; intros f H; [congruence|]. destruct l as [|n' l].
  - cbn. lia.
  - change (sums f (n :: n' :: l)) with ((f + n)%N :: sums (f + n)%N (n' :: l)).
    change (last ((f + n)%N :: sums (f + n)%N (n' :: l)) 0%N) with (last (sums (f + n)%N (n' :: l)) 0%N). rewrite IH by discriminate. cbn. lia.
Qed.
End Copy.
Lemma filter_le : forall A (f : A -> bool) l, length (filter f l) <= length l.
Proof. intros A f l. induction l as [|y l IH]; cbn; [lia|]. destruct (f y); cbn; lia. Qed.
