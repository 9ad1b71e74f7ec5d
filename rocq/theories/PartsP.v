(** Every cargo process of a run belongs to one job, also if the list of mutants has some twice. *)
From Coq Require Import String List NArith ZArith QArith Bool Arith Lia Permutation.
From Verif Require Import Text SpanM PathM MutantM ProcessM OutcomeM F64M TimeoutM TimeoutS TimeoutP OutputM OptionsM
  PackageM CargoM LabM LabS LabP LabT LaunchM LaunchS LaunchP.
Import ListNotations.
Open Scope nat_scope.

(** * Woven lists *)
Lemma woven_perm : forall bs log, woven bs log -> forall bs', Permutation bs bs' -> woven bs' log.
Proof.
  intros bs log H. induction H as [n|bs1 b bs2 log l H IH]; intros bs' Pm.
  - apply Permutation_sym, Permutation_repeat in Pm. subst. constructor.
  - assert (I : In (b ++ [l]) bs') by (eapply Permutation_in; [exact Pm|apply in_or_app; right; left; reflexivity]).
    apply in_split in I as (c1 & c2 & ->). apply Permutation_app_inv in Pm. constructor. apply IH.
    apply Permutation_trans with (b :: bs1 ++ bs2); [apply Permutation_sym, Permutation_middle|].
    apply Permutation_trans with (b :: c1 ++ c2); [constructor; exact Pm|apply Permutation_middle].
Qed.
Lemma woven_empty : forall bs log, woven bs log -> woven ([] :: bs) log.
Proof. intros bs log H. induction H as [n|bs1 b bs2 log l H IH]; [exact (wv_none (S n))|]. exact (wv_next ([] :: bs1) b bs2 log l IH). Qed.
Lemma woven_drop : forall bs log, woven ([] :: bs) log -> woven bs log.
Proof.
  intros bs log H. remember ([] :: bs) as cs eqn:E. revert bs E. induction H as [n|bs1 b bs2 log l H IH]; intros bs E.
  - destruct n; [discriminate|]. injection E as <-. constructor.
  - destruct bs1 as [|x bs1]; [destruct b; discriminate E|]. injection E as -> <-. constructor. apply IH. reflexivity.
Qed.
Lemma woven_in : forall bs log, woven bs log -> forall b l, In b bs -> In l b -> In l log.
Proof.
  intros bs log H. induction H as [n|bs1 b bs2 log l H IH]; intros c x Hc Hx.
  - apply repeat_spec in Hc. subst. destruct Hx.
  - apply in_or_app. apply in_app_or in Hc. destruct Hc as [Hc|[<-|Hc]].
    + left. apply (IH c x); [apply in_or_app; auto|exact Hx].
    + apply in_app_or in Hx. destruct Hx as [Hx|Hx]; [left; apply (IH b x); [apply in_or_app; right; left; reflexivity|exact Hx]|right; exact Hx].
    + left. apply (IH c x); [apply in_or_app; right; right; auto|exact Hx].
Qed.
Lemma woven_all : forall bs log l, woven bs log -> In l log -> exists b, In b bs /\ In l b.
Proof.
  intros bs log l H. induction H as [n|bs1 b bs2 log x H IH]; intro I; [destruct I|].
  apply in_app_or in I. destruct I as [I|[->|[]]].
  - destruct (IH I) as (c & Hc & Hl). apply in_app_or in Hc. destruct Hc as [Hc|[->|Hc]].
    + exists c. split; [apply in_or_app; auto|exact Hl].
    + exists (c ++ [x]). split; [apply in_or_app; right; left; reflexivity|apply in_or_app; auto].
    + exists c. split; [apply in_or_app; right; right; exact Hc|exact Hl].
  - exists (b ++ [l]). split; [apply in_or_app; right; left; reflexivity|apply in_or_app; right; left; reflexivity].
Qed.
Lemma woven_repeat : forall n, woven (repeat [] n) [].
Proof. intro n. constructor. Qed.
Lemma woven_drops : forall cs bs log, Forall (eq []) cs -> woven (bs ++ cs) log -> woven bs log.
Proof.
  induction cs as [|c cs IH]; intros bs log F H; [rewrite app_nil_r in H; exact H|]. inversion F as [|? ? E F']; subst. apply IH; [exact F'|].
  apply woven_drop. eapply woven_perm; [exact H|]. apply Permutation_sym, Permutation_middle.
Qed.

Lemma f2_split : forall A B (R : A -> B -> Prop) l1 x l2 m, Forall2 R (l1 ++ x :: l2) m ->
  exists m1 y m2, m = m1 ++ y :: m2 /\ Forall2 R l1 m1 /\ R x y /\ Forall2 R l2 m2.
Proof.
  intros A B R l1 x l2 m H. apply Forall2_app_inv_l in H as (m1 & m' & H1 & H2 & ->). inversion H2; subst. eexists m1, _, _. split; [reflexivity|]. auto.
Qed.
Lemma f2_join : forall A B (R : A -> B -> Prop) l1 x l2 m1 y m2, Forall2 R l1 m1 -> R x y -> Forall2 R l2 m2 -> Forall2 R (l1 ++ x :: l2) (m1 ++ y :: m2).
Proof. intros. apply Forall2_app; [assumption|]. constructor; assumption. Qed.

Lemma f2_length : forall A B (R : A -> B -> Prop) l m, Forall2 R l m -> length l = length m.
Proof. intros A B R l m H. induction H; cbn; congruence. Qed.

Section Run.
Context (P : params) (X : context) (o0 : entries) (t0 : tree) (ms : list mutant).
Notation rreach := (rreachable P X ms o0 t0).
Notation reach := (reachable P o0 t0 ms).

Definition from (d : nat) (s : scenario mutant) (b : list launch) : Prop := Forall (fun l => la_dir l = d /\ la_scenario l = s) b.

(** The processes of the job that a thread is at work on. *)
Definition running (c : wpc) (b : list launch) : Prop :=
  match c with
  | WPhase d s dn _ | WCargo d s dn _ _ | WRevert d s dn | WAdd d s dn => from d s b /\ map given b = map Some dn
  | WRevertErr d s => from d s b
  | WEnd false | WPanic => exists d s, from d s b
  | _ => b = []
  end.
Definition jobbed (b : list launch) : Prop := exists s, one_job s b.
Lemma running_job : forall c b, running c b -> jobbed b.
Proof.
  intros c b H. assert (N : b = [] -> jobbed b) by (intros ->; exists Baseline, 0; constructor).
  destruct c; cbn in H; auto; try (destruct H as [H _]; eexists _, _; exact H); try (eexists _, _; exact H).
  - destruct ok; auto. destruct H as (d & s & H). exists s, d. exact H.
  - destruct H as (d & s & H). exists s, d. exact H.
Qed.

(** What is recorded of the tree without mutations, and then of mutants. *)
Definition begun (outs : list (outcome mutant)) (bl : list launch) (os : list (outcome mutant)) : Prop :=
  if pa_skip_baseline P then bl = [] /\ os = outs else exists b0, outs = b0 :: os /\ oc_scenario b0 = Baseline /\ part_of b0 bl.

Definition base_parts (outs : list (outcome mutant)) (bl : list launch) : Prop :=
  outs = [] \/ exists o, outs = [o] /\ oc_scenario o = Baseline /\ part_of o bl.

Definition parts_ok (r : rstate) : Prop :=
  let outs := lo_outcomes (sh_lab (ls_sh (rs_lab r))) in
  exists bl rest fin opn, rs_log r = bl ++ rest /\ one_job Baseline bl /\ woven (fin ++ opn) rest
  /\ Forall (fun l => is_mutant (la_scenario l) = true) rest
  /\ match ls_main (rs_lab r) with
     | MBaseline c => rest = [] /\ fin = [] /\ opn = [] /\ pa_skip_baseline P = false
         /\ base_parts outs bl /\ (outs = [] -> running c bl)
     | MWork => (exists os, begun outs bl os /\ Forall2 part_of os fin) /\ Forall2 running (ls_workers (rs_lab r)) opn
     | MEnd x =>
         reach (mkLS (ls_sh (rs_lab r)) MWork (ls_workers (rs_lab r)))
           /\ (exists os, begun outs bl os /\ Forall2 part_of os fin) /\ Forall2 running (ls_workers (rs_lab r)) opn
           /\ ((exists l, x = ROk l) -> Forall (eq []) opn)
         \/ rest = [] /\ fin = [] /\ opn = [] /\ pa_skip_baseline P = false
            /\ base_parts outs bl /\ ((exists l, x = ROk l) -> outs <> [])
     end.

Lemma sstep_running : forall i sh c sh' c' b, sstep P i sh c sh' c' -> (forall d s dn p td, c <> WCargo d s dn p td) -> running c b ->
  (lo_outcomes (sh_lab sh') = lo_outcomes (sh_lab sh) /\ running c' b)
  \/ (exists d s dn, c = WAdd d s dn /\ c' = WJson d (mkOutcome s dn) /\ lo_outcomes (sh_lab sh') = lo_outcomes (sh_lab sh) ++ [mkOutcome s dn]).
Proof.
  intros i sh c sh' c' b H N R. destruct (sstep_lab _ _ _ _ _ _ H) as [[E _]|K]; [|right; exact K]. left. split; [rewrite E; reflexivity|].
  destruct H; cbn in R |- *; auto; try (exfalso; eapply N; reflexivity); try (subst b); try (exists 0, Baseline; constructor);
    try (split; [constructor|reflexivity]); try (destruct R as [R _]); try (eexists _, _; exact R); try exact R.
  exfalso. cbn [set_lab sh_lab] in E. apply lab_add_outcomes in H0. rewrite E in H0. apply (f_equal (@length _)) in H0. rewrite app_length in H0. cbn in H0. lia.
Qed.

Lemma running_add : forall d s dn b, running (WAdd d s dn) b -> part_of (mkOutcome s dn) b.
Proof. intros d s dn b [A B]. split; [exists d; exact A|exact B]. Qed.

Lemma after_running : forall lim d s dn p td tr polls rr b, running (WCargo d s dn p td) b ->
  running (after_cargo d s dn p td rr) (b ++ [launch_of X ms lim d s p tr polls rr]) /\ is_end (after_cargo d s dn p td rr) = false.
Proof.
  intros lim d s dn p td tr polls rr b [A B].
  assert (F : from d s (b ++ [launch_of X ms lim d s p tr polls rr])) by (apply Forall_app; split; [exact A|constructor; [split; reflexivity|constructor]]).
  unfold after_cargo. destruct rr as [[e dur]|]; [|split; [exact F|reflexivity]].
  assert (G : map given (b ++ [launch_of X ms lim d s p tr polls (Some (e, dur))]) = map Some (dn ++ [mkPR p dur e])).
  { rewrite !map_app, B. reflexivity. }
  destruct (is_success e); repeat split; assumption.
Qed.

Lemma fin_part : forall outs bl os fin o b, begun outs bl os -> Forall2 part_of os fin -> part_of o b ->
  begun (outs ++ [o]) bl (os ++ [o]) /\ Forall2 part_of (os ++ [o]) (fin ++ [b]).
Proof.
  intros outs bl os fin o b B F Po. split; [|apply Forall2_app; [exact F|constructor; [exact Po|constructor]]].
  unfold begun in *. destruct (pa_skip_baseline P).
  - destruct B as [B ->]. auto.
  - destruct B as (b0 & -> & B). exists b0. split; [reflexivity|exact B].
Qed.

Lemma one_nil : forall s, one_job s [].
Proof. intro s. exists 0. constructor. Qed.
Lemma running_spawn : forall n, Forall2 running (spawn n) (repeat [] n).
Proof. induction n; cbn; [constructor|]. constructor; [reflexivity|exact IHn]. Qed.

Lemma parts_start : parts_ok (rstart P X ms o0 t0).
Proof.
  unfold rstart, start_state, parts_ok. cbn [rs_lab rs_log ls_sh sh_lab ls_main ls_workers]. destruct (pa_skip_baseline P) eqn:E.
  - exists [], [], [], (repeat [] (n_threads (pa_jobs P) (length ms))). split; [reflexivity|]. split; [apply one_nil|]. split; [constructor|]. split; [constructor|]. split.
    + exists []. unfold begun. rewrite E. split; [split; reflexivity|constructor].
    + apply running_spawn.
  - exists [], [], [], []. split; [reflexivity|]. split; [apply one_nil|]. split; [apply (wv_none 0)|]. split; [constructor|]. repeat (split; [reflexivity|]). split; [left; reflexivity|reflexivity].
Qed.

(** A step of a worker that is not the end of a process. *)
Lemma work_step : forall i sh c sh' c' bl rest os fin b o1 o2, wstep P i sh c sh' c' -> (forall d s dn p td, c <> WCargo d s dn p td) ->
  begun (lo_outcomes (sh_lab sh)) bl os -> Forall2 part_of os fin -> woven (fin ++ o1 ++ b :: o2) rest -> running c b ->
  exists os' fin' b', begun (lo_outcomes (sh_lab sh')) bl os' /\ Forall2 part_of os' fin' /\ woven (fin' ++ o1 ++ b' :: o2) rest /\ running c' b'.
Proof.
  intros i sh c sh' c' bl rest os fin b o1 o2 H N B F W R.
  assert (K : forall sh1 c1, sh_lab sh1 = sh_lab sh -> running c1 b ->
    exists os' fin' b', begun (lo_outcomes (sh_lab sh1)) bl os' /\ Forall2 part_of os' fin' /\ woven (fin' ++ o1 ++ b' :: o2) rest /\ running c1 b').
  { intros sh1 c1 E R1. exists os, fin, b. rewrite E. auto. }
  destruct H as [| | | | | | |c sh' c' H]; try (apply K; [reflexivity|]; cbn in R |- *; auto; exists 0, Baseline; rewrite R; constructor).
  destruct (sstep_running _ _ _ _ _ b H N R) as [[E R']|(d & s & dn & -> & -> & E)].
  - exists os, fin, b. rewrite E. auto.
  - rewrite E. destruct (fin_part _ _ _ _ _ _ B F (running_add _ _ _ _ R)) as [B' F'].
    exists (os ++ [mkOutcome s dn]), (fin ++ [b]), []. split; [exact B'|]. split; [exact F'|]. split; [|reflexivity].
    eapply woven_perm; [apply woven_empty; exact W|].
    rewrite <- app_assoc. cbn [app].
    apply Permutation_trans with (fin ++ [] :: o1 ++ b :: o2); [apply Permutation_middle|].
    apply Permutation_app_head.
    apply Permutation_trans with ([] :: b :: o1 ++ o2); [constructor; apply Permutation_sym, Permutation_middle|].
    apply Permutation_trans with (b :: [] :: o1 ++ o2); [constructor|]. constructor. apply Permutation_middle.
Qed.

Lemma parts_inv : forall r, rreach r -> parts_ok r.
Proof.
  apply run_ind; [apply parts_start|]. intros r r' Hr Hl (bl & rest & fin & opn & El & Ob & W & MU & M) Hst.
  destruct Hst as [st lim log i d s done p todo polls rr t Hp Hg Ht|sh d o lim log t Ho Hm|sh d o lim log Ho Hm|st st' lim log Hst Hc Hb];
    cbn [rs_lab rs_limits rs_log ls_main ls_sh] in *.
  - set (l := launch_of X ms lim d s p (get_tree (ls_sh st) d) polls rr).
    destruct st as [sh [c| |x] ws]; cbn [at_pc put_pc ls_main ls_workers ls_sh] in *; [| |destruct Hp].
    + destruct Hp as [-> <-]. destruct M as (-> & -> & -> & Sk & Bp & M). rewrite app_nil_r in El. subst log.
      pose proof (base_inv _ _ _ _ _ Hl) as ([d' B] & _). cbn in B. injection B as <- ->.
      destruct (base_lab _ _ _ _ _ _ _ Hl) as [Y|Eo]; [discriminate Y|]. cbn [recorded_of] in Eo. pose proof (M Eo) as R.
      destruct (after_running lim d Baseline done p todo (get_tree sh d) polls rr bl R) as [R' E'].
      exists (bl ++ [l]), [], [], []. cbn [rs_log rs_lab ls_main ls_sh put_tree set_trees sh_lab]. split; [rewrite app_nil_r; reflexivity|]. split.
      { exists d. apply Forall_app. split; [apply R|constructor; [split; reflexivity|constructor]]. }
      split; [apply (wv_none 0)|]. split; [constructor|]. repeat (split; [reflexivity|]). split; [exact Sk|]. split; [left; exact Eo|]. intros _. exact R'.
    + destruct M as ((os & B & F) & Ru). pose proof (nth_error_In _ _ Hp) as Hin. destruct (list_split _ _ _ _ Hp) as (w1 & w2 & -> & _ & Set_).
      apply f2_split in Ru as (o1 & b & o2 & -> & R1 & Rb & R2).
      destruct (after_running lim d s done p todo (get_tree sh d) polls rr b Rb) as [R' E'].
      exists bl, (rest ++ [l]), fin, (o1 ++ (b ++ [l]) :: o2). cbn [rs_log rs_lab ls_main ls_sh ls_workers put_tree set_trees sh_lab].
      split; [rewrite El, app_assoc; reflexivity|]. split; [exact Ob|]. split.
      { rewrite app_assoc in W |- *. constructor. exact W. }
      split.
      { apply Forall_app. split; [exact MU|]. constructor; [|constructor].
        destruct (work_lab_inv _ _ _ _ _ _ Hl) as [Wm _]. eapply Wm; [exact Hin|reflexivity]. }
      split; [exists os; auto|]. rewrite Set_. apply f2_join; assumption.
  - destruct M as (-> & -> & -> & Sk & Bp & M). rewrite app_nil_r in El. subst log.
    pose proof (base_inv _ _ _ _ _ Hl) as ([d' B] & _). cbn in B. injection B as _ B.
    destruct (base_lab _ _ _ _ _ _ _ Hl) as [Y|Eo]; [discriminate Y|]. cbn [recorded_of] in Eo.
    destruct Bp as [Y|(o' & Y & _ & Po)]; [congruence|]. rewrite Eo in Y. injection Y as <-.
    exists bl, [], [], (repeat [] (n_threads (pa_jobs P) (length ms))). cbn [rs_log rs_lab ls_main ls_sh ls_workers set_dir0 sh_lab].
    split; [rewrite app_nil_r; reflexivity|]. split; [exact Ob|]. split; [constructor|]. split; [constructor|]. split; [|apply running_spawn].
    exists []. split; [|constructor]. unfold begun. rewrite Sk. exists o. auto.
  - destruct M as (-> & -> & -> & Sk & Bp & M). exists bl, [], [], []. cbn [rs_log rs_lab ls_main].
    split; [exact El|]. split; [exact Ob|]. split; [exact W|]. split; [exact MU|]. right. repeat (split; [reflexivity|]). split; [exact Sk|]. split; [exact Bp|]. intros [l Y]. discriminate Y.
  - destruct Hst as [sh c sh' c' Hs|sh d o Ho|sh d o Ho|sh|sh|sh ws i c sh' c' Hn Hs|sh ws He]; cbn [ls_main ls_sh ls_workers] in *.
    + destruct M as (-> & -> & -> & Sk & Bp & M). exists bl, [], [], []. cbn [rs_log rs_lab ls_main ls_sh].
      split; [exact El|]. split; [exact Ob|]. split; [exact W|]. split; [exact MU|]. repeat (split; [reflexivity|]). split; [exact Sk|].
      assert (N : forall d s dn p td, c <> WCargo d s dn p td).
      { intros d s dn p td ->. destruct (Hc 0 d s dn p td) as [_ E]; [split; reflexivity|]. rewrite <- E in Hs. inversion Hs. }
      destruct Bp as [Eo|(o & Eo & Es & Po)].
      * destruct (sstep_running _ _ _ _ _ bl Hs N (M Eo)) as [[E R']|(d & s & dn & -> & -> & E)].
        -- rewrite E. split; [left; exact Eo|]. intros _. exact R'.
        -- rewrite E, Eo. split; [|discriminate]. right. exists (mkOutcome s dn). split; [reflexivity|].
           pose proof (base_inv _ _ _ _ _ Hl) as ([d' B] & _). cbn in B. injection B as _ ->. split; [reflexivity|]. exact (running_add _ _ _ _ (M Eo)).
      * destruct (sstep_lab _ _ _ _ _ _ Hs) as [[E _]|(d & s & dn & -> & _)].
        -- rewrite E. split; [right; exists o; auto|]. intro Y. congruence.
        -- exfalso. destruct (base_lab _ _ _ _ _ _ _ Hl) as [Y|Y]; [discriminate Y|]. cbn in Y. congruence.
    + exfalso. exact (Hb d o eq_refl Ho).
    + destruct M as (-> & -> & -> & Sk & Bp & M). exists bl, [], [], []. cbn [rs_log rs_lab ls_main ls_sh].
      split; [exact El|]. split; [exact Ob|]. split; [exact W|]. split; [exact MU|]. right. repeat (split; [reflexivity|]). split; [exact Sk|].
      pose proof (base_inv _ _ _ _ _ Hl) as ([d' B] & _). cbn in B. injection B as _ B.
      destruct (base_lab _ _ _ _ _ _ _ Hl) as [Y|Eo]; [discriminate Y|]. cbn [recorded_of] in Eo.
      split; [exact Bp|]. intros _. congruence.
    + destruct M as (-> & -> & -> & Sk & Bp & M). exists bl, [], [], []. cbn [rs_log rs_lab ls_main].
      split; [exact El|]. split; [exact Ob|]. split; [exact W|]. split; [exact MU|]. right. repeat (split; [reflexivity|]). split; [exact Sk|]. split; [exact Bp|]. intros [l Y]. discriminate Y.
    + destruct M as (-> & -> & -> & Sk & Bp & M). exists bl, [], [], []. cbn [rs_log rs_lab ls_main].
      split; [exact El|]. split; [exact Ob|]. split; [exact W|]. split; [exact MU|]. right. repeat (split; [reflexivity|]). split; [exact Sk|]. split; [exact Bp|]. intros [l Y]. discriminate Y.
    + destruct M as ((os & B & F) & Ru).
      assert (N : forall d s dn p td, c <> WCargo d s dn p td).
      { intros d s dn p td ->. specialize (Hc i d s dn p td Hn). cbn in Hc. rewrite nth_error_set_same in Hc by (eapply nth_error_lt; exact Hn).
        injection Hc as ->. inversion Hs. match goal with H : sstep _ _ _ _ _ _ |- _ => inversion H end. }
      destruct (list_split _ _ _ _ Hn) as (w1 & w2 & -> & _ & Set_). apply f2_split in Ru as (o1 & b & o2 & -> & R1 & Rb & R2).
      destruct (work_step _ _ _ _ _ _ _ _ _ _ _ _ Hs N B F W Rb) as (os' & fin' & b' & B' & F' & W' & R').
      exists bl, rest, fin', (o1 ++ b' :: o2). cbn [rs_log rs_lab ls_main ls_sh ls_workers]. split; [exact El|]. split; [exact Ob|]. split; [exact W'|]. split; [exact MU|].
      split; [exists os'; auto|]. rewrite Set_. apply f2_join; assumption.
    + destruct M as ((os & B & F) & Ru). exists bl, rest, fin, opn. cbn [rs_log rs_lab ls_main ls_sh ls_workers].
      split; [exact El|]. split; [exact Ob|]. split; [exact W|]. split; [exact MU|]. left. split; [exact Hl|]. split; [exists os; auto|]. split; [exact Ru|].
      intros [l Y]. apply join_ok in Y as [_ Y]. clear - Ru Y He. revert Y He.
      induction Ru as [|c b ws opn R Ru IH]; intros Y He; [constructor|]. cbn in Y, He. apply orb_false_iff in Y as [Y1 Y2]. apply andb_prop in He as [H1 H2].
      constructor; [|apply IH; assumption]. destruct c as [| | | | | | | | | | | | | | |[|]|]; try discriminate; cbn in R; congruence.
Qed.

Lemma filter_all : forall A (f : A -> bool) l, Forall (fun x => f x = true) l -> filter f l = l.
Proof. intros A f l H. induction H as [|x l E _ IH]; [reflexivity|]. cbn. rewrite E, IH. reflexivity. Qed.

(** The mutants among what is recorded. *)
Lemma work_outs : forall sh ws bl os, reach (mkLS sh MWork ws) -> begun (lo_outcomes (sh_lab sh)) bl os -> os = filter of_mutant (lo_outcomes (sh_lab sh)).
Proof.
  intros sh ws bl os H B. destruct (work_lab_inv _ _ _ _ _ _ H) as [_ W]. unfold begun in B. destruct (pa_skip_baseline P).
  - destruct B as [_ ->]. symmetry. apply filter_all. exact W.
  - destruct B as (b0 & E & Bl & _). destruct W as (o & rest & E' & _ & A). rewrite E in E' |- *. injection E' as <- <-. cbn. unfold of_mutant at 1. rewrite Bl. cbn.
    symmetry. apply filter_all. exact A.
Qed.
Lemma work_base : forall sh ws bl os o, reach (mkLS sh MWork ws) -> begun (lo_outcomes (sh_lab sh)) bl os ->
  In o (lo_outcomes (sh_lab sh)) -> oc_scenario o = Baseline -> part_of o bl.
Proof.
  intros sh ws bl os o H B I E. pose proof (work_outs _ _ _ _ H B) as Eo. unfold begun in B.
  assert (N : ~ In o os).
  { rewrite Eo. intro Y. apply filter_In in Y as [_ Y]. unfold of_mutant in Y. rewrite E in Y. discriminate. }
  destruct (pa_skip_baseline P).
  - destruct B as [_ ->]. contradiction.
  - destruct B as (b0 & Eb & _ & Po). rewrite Eb in I. destruct I as [<-|I]; [exact Po|contradiction].
Qed.

Lemma parts_any : forall r, rreach r ->
  let outs := lo_outcomes (sh_lab (ls_sh (rs_lab r))) in
  exists bl rest fin opn, rs_log r = bl ++ rest /\ one_job Baseline bl /\ (pa_skip_baseline P = true -> bl = []) /\ woven (fin ++ opn) rest
  /\ (forall l, In l rest -> exists m, In m ms /\ la_scenario l = Mutant m)
  /\ Forall (fun b => exists s, one_job s b) opn
  /\ length opn <= n_threads (pa_jobs P) (length ms)
  /\ ((forall o, In o outs -> oc_scenario o = Baseline -> part_of o bl) /\ Forall2 part_of (filter of_mutant outs) fin)
  /\ (forall l, ls_main (rs_lab r) = MEnd (ROk l) -> opn = []).
Proof.
  intros r H outs. destruct (parts_inv r H) as (bl & rest & fin & opn & El & Ob & W & MU & M).
  assert (Rm : forall l, In l rest -> exists m, In m ms /\ la_scenario l = Mutant m).
  { intros l Hl. rewrite Forall_forall in MU. specialize (MU l Hl). destruct (la_scenario l) as [|m] eqn:Es; [discriminate|]. exists m. split; [|reflexivity].
    pose proof (proper_inv P X o0 t0 ms r H) as F. rewrite Forall_forall in F.
    destruct (F l) as (_ & _ & _ & Hm & _); [rewrite El; apply in_or_app; right; exact Hl|]. exact (proj1 (Hm m Es)). }
  assert (Jo : forall ws, Forall2 running ws opn -> Forall (fun b => exists s, one_job s b) opn).
  { intros ws F. clear - F. induction F as [|c b ws opn R F IH]; constructor; [exact (running_job _ _ R)|exact IH]. }
  assert (Nn : 1 <= n_threads (pa_jobs P) (length ms)) by (unfold n_threads; lia).
  assert (Bc : forall bl', base_parts outs bl' -> (forall o, In o outs -> oc_scenario o = Baseline -> part_of o bl') /\ Forall2 part_of (filter of_mutant outs) []).
  { intros bl' [->|(o & -> & Es & Po)]; [split; [intros o []|constructor]|]. split; [intros o' [<-|[]] _; exact Po|].
    cbn. unfold of_mutant. rewrite Es. constructor. }
  destruct (project P X o0 t0 ms r H) as [Hl|(sh & d & b & E & Hl & _)].
  - destruct (rs_lab r) as [sh mn ws] eqn:Er. cbn [ls_main ls_sh ls_workers] in *. destruct mn as [c| |x].
    + destruct M as (-> & -> & -> & Sk & Bp & M). exists bl, [], [], []. split; [exact El|]. split; [exact Ob|]. split; [congruence|]. split; [exact W|].
      split; [exact Rm|]. split; [constructor|]. split; [cbn; lia|]. split; [|intros l Y; discriminate Y].
      apply Bc. exact Bp.
    + destruct M as ((os & B & F) & Ru). exists bl, rest, fin, opn. split; [exact El|]. split; [exact Ob|]. split; [unfold begun in B; intro Y; rewrite Y in B; apply B|]. split; [exact W|].
      split; [exact Rm|]. split; [eapply Jo; exact Ru|]. split.
      { rewrite <- (f2_length _ _ _ _ _ Ru). pose proof (base_inv _ _ _ _ _ Hl) as L. cbn [ls_main ls_workers] in L. rewrite L. lia. }
      split; [|intros l Y; discriminate Y]. split; [intros o; eapply work_base; eassumption|]. subst outs. rewrite <- (work_outs _ _ _ _ Hl B). exact F.
    + destruct M as [(Hw & (os & B & F) & Ru & Ok)|(-> & -> & -> & Sk & Bp & M)].
      * exists bl, rest, fin, (match x with ROk _ => [] | _ => opn end). split; [exact El|]. split; [exact Ob|]. split; [unfold begun in B; intro Y; rewrite Y in B; apply B|]. split.
        { destruct x; try exact W. rewrite app_nil_r. eapply woven_drops; [apply Ok; eexists; reflexivity|exact W]. }
        split; [exact Rm|]. split; [destruct x; [constructor| |]; eapply Jo; exact Ru|]. split.
        { destruct x; [cbn; lia| |]; rewrite <- (f2_length _ _ _ _ _ Ru); pose proof (base_inv _ _ _ _ _ Hw) as L; cbn [ls_main ls_workers ls_sh length] in L; rewrite L; lia. }
        split; [|intros l Y; injection Y as ->; reflexivity]. split; [intros o; eapply work_base; eassumption|].
        subst outs. rewrite <- (work_outs _ _ _ _ Hw B). exact F.
      * exists bl, [], [], []. split; [exact El|]. split; [exact Ob|]. split; [congruence|]. split; [exact W|].
        split; [exact Rm|]. split; [constructor|]. split; [cbn; lia|]. split; [apply Bc; exact Bp|reflexivity].
  - rewrite E in M. cbn [ls_main] in M. destruct M as [M|(-> & -> & -> & Sk & Bp & M)]; [exfalso; destruct M as [Hw _]; pose proof (base_inv _ _ _ _ _ Hw) as L; cbn [ls_main ls_workers ls_sh length] in L; lia|].
    exists bl, [], [], []. split; [exact El|]. split; [exact Ob|]. split; [congruence|]. split; [exact W|].
    split; [exact Rm|]. split; [constructor|]. split; [cbn; lia|]. split; [|reflexivity]. apply Bc. subst outs. rewrite E. exact Bp.
Qed.

Lemma recorded_finished : forall r o, rreach r -> In o (lo_outcomes (sh_lab (ls_sh (rs_lab r)))) -> finished_run (phases (pa_check_only P)) (oc_results o).
Proof.
  intros r o H I. destruct (project P X o0 t0 ms r H) as [Hl|(sh & d & b & E & Hl & _)].
  - eapply C10_recorded; eassumption.
  - rewrite E in I. eapply C10_recorded; [exact Hl|exact I].
Qed.

Lemma parts_explained : forall r bl rest fin opn, rreach r -> rs_log r = bl ++ rest -> woven (fin ++ opn) rest ->
  Forall2 part_of (filter of_mutant (lo_outcomes (sh_lab (ls_sh (rs_lab r))))) fin ->
  Forall2 (fun o b => part_of o b /\ forall v, summary o = Some v -> explains (pa_check_only P) b v)
    (filter of_mutant (lo_outcomes (sh_lab (ls_sh (rs_lab r))))) fin.
Proof.
  intros r bl rest fin opn H El W F.
  assert (A : forall o, In o (filter of_mutant (lo_outcomes (sh_lab (ls_sh (rs_lab r))))) ->
    (exists m, oc_scenario o = Mutant m) /\ finished_run (phases (pa_check_only P)) (oc_results o)).
  { intros o Ho. apply filter_In in Ho as [Ho Hm]. split; [|eapply recorded_finished; eassumption].
    unfold of_mutant in Hm. destruct (oc_scenario o) as [|m]; [discriminate|]. eauto. }
  assert (B : forall b l, In b fin -> In l b -> In l (rs_log r)).
  { intros b l Hb Hl. rewrite El. apply in_or_app. right. eapply woven_in; [exact W| |exact Hl]. apply in_or_app. left. exact Hb. }
  clear El W. revert A B. induction F as [|o b os fin Po F IH]; intros A B; constructor.
  - split; [exact Po|]. intros v Hv. destruct (A o (or_introl eq_refl)) as [[m Em] Hf]. destruct Po as [_ G].
    eapply (explained_by P X o0 t0 ms r (oc_results o) b m); try eassumption.
    + intros l Hl. apply (B b l); [left; reflexivity|exact Hl].
    + destruct o as [sc rs]. cbn in Em |- *. subst sc. exact Hv.
  - apply IH; [intros o' Ho'; apply A; right; exact Ho'|intros b' l Hb; apply B; right; exact Hb].
Qed.
Notation opts := (timeout_options (cx_options X)).

Lemma given_base : forall r o pr, rreach r -> In o (lo_outcomes (sh_lab (ls_sh (rs_lab r)))) -> oc_scenario o = Baseline -> In pr (oc_results o) ->
  exists l, In l (rs_log r) /\ la_scenario l = Baseline /\ la_phase l = pr_phase pr /\ la_result l = Some (pr_status pr, pr_duration pr).
Proof.
  intros r o pr H Ho Es Hin. destruct (parts_any r H) as (bl & rest & fin & opn & El & _ & _ & _ & _ & _ & _ & [G _] & _).
  destruct (G o Ho Es) as [[d J] B]. assert (K : In (Some pr) (map given bl)) by (rewrite B; apply in_map; exact Hin).
  apply in_map_iff in K. destruct K as (l & E & Hl). exists l. split; [rewrite El; apply in_or_app; left; exact Hl|].
  rewrite Es in J. rewrite Forall_forall in J. split; [apply J; exact Hl|]. unfold given in E. destruct (la_result l) as [[e dd]|]; [|discriminate].
  injection E as <-. auto.
Qed.

Lemma auto_limit : forall r l m x, rreach r -> In l (rs_log r) -> la_scenario l = Mutant m -> la_phase l = Test ->
  pa_skip_baseline P = false -> pa_check_only P = false ->
  op_test_timeout (cx_options X) = None -> op_build_timeout_multiplier (cx_options X) = None ->
  multiplier (op_test_timeout_multiplier (cx_options X)) x -> (0 <= x)%Q ->
  (forall b e d, In b (rs_log r) -> la_result b = Some (e, d) -> (exact_secs d * x <= LARGE)%Q) ->
  exists b d y s, In b (rs_log r) /\ la_scenario b = Baseline /\ la_phase b = Test /\ la_result b = Some (ExSuccess, d)
    /\ la_limit l = Some (N.max (op_minimum_test_timeout (cx_options X)) (s * 1000000000))
    /\ least_whole y s /\ close y (exact_secs d * x).
Proof.
  intros r l m x H Hl Hs Hp Hk Hc Ht Hb Hx H0 HL. destruct (limit_mutant P X o0 t0 ms r l m H Hl Hs) as (T & _ & EL & HF).
  unfold limits_from in HF. rewrite Hk in HF. destruct HF as (b & rest & Eo & (G1 & G2 & G3) & ET).
  assert (Hin : In b (lo_outcomes (sh_lab (ls_sh (rs_lab r))))) by (rewrite Eo; left; reflexivity).
  pose proof (fun pr => given_base r b pr H Hin G1) as M1. rewrite Hc in G2. cbn in G2. destruct b as [sb rs]. cbn [oc_scenario oc_results] in *. subst sb.
  destruct rs as [|[p1 d1 e1] [|[p2 d2 e2] [|? ?]]]; try discriminate. cbn in G2. injection G2 as -> ->.
  inversion G3 as [|? ? S1 G4]; subst. inversion G4 as [|? ? S2 _]; subst. cbn in S1, S2.
  destruct e1; try discriminate. destruct e2; try discriminate.
  destruct (M1 (mkPR Test d2 ExSuccess)) as (lb & B1 & B2 & B3 & B4); [right; left; reflexivity|]. cbn in B3, B4.
  destruct (c23_auto mutant (fun p => match p with Build => Some (ExSuccess, d1) | Test => Some (ExSuccess, d2) | _ => None end)
     (mkOutcome Baseline [mkPR Build d1 ExSuccess; mkPR Test d2 ExSuccess]) d1 d2 opts x) as (t & y & s & E1 & E2 & E3 & E4 & E5);
    try assumption; try reflexivity.
  { eapply HL; eassumption. }
  exists lb, d2, y, s. split; [exact B1|]. split; [exact B2|]. split; [exact B3|]. split; [exact B4|]. split; [|split; assumption].
  rewrite EL, Hp. cbn [phase_timeout]. rewrite E1 in ET. injection ET as <-. rewrite E3. reflexivity.
Qed.

Lemma safe_options : forall r sh ws, named ms -> rreach r ->
  (forall x, op_test_timeout_multiplier (cx_options X) = Some x \/ op_build_timeout_multiplier (cx_options X) = Some x ->
     exists m, x = Fin m /\ (0 <= m)%Q) ->
  (forall l e d m, In l (rs_log r) -> la_result l = Some (e, d) ->
     multiplier (op_test_timeout_multiplier (cx_options X)) m \/ op_build_timeout_multiplier (cx_options X) = Some (Fin m) ->
     (exact_secs d * m <= LARGE)%Q) ->
  rs_lab r <> mkLS sh (MEnd RPanic) ws.
Proof.
  intros r sh ws Hn H Hf Hx E. destruct (no_panic_run P X o0 t0 ms r sh ws Hn H E) as (d & o & Ho & Hr & Hm).
  apply (c23_total mutant o opts Hf); [|exact Hm]. intros p pr m Hp Hmm.
  destruct (base_lab _ _ _ _ _ _ _ Hr) as [E'|E']; [discriminate E'|]. cbn in E'. pose proof (base_inv _ _ _ _ _ Hr) as ([d' B] & _). cbn in B. injection B as _ B.
  destruct (given_base r o pr H) as (l & L1 & L2 & L3 & L4); [rewrite E; cbn [ls_sh]; rewrite E'; left; reflexivity|exact B|exact (find_in _ _ _ Hp)|].
  eapply Hx; eassumption.
Qed.
End Run.

(** * Runs go on and come to an end *)
Section Goes.
Context (P : params) (X : context) (o0 : entries) (t0 : tree) (ms : list mutant).
Notation rreach := (rreachable P X ms o0 t0).

Lemma cargo_dec : forall st, (exists i d s done p todo, at_pc st i (WCargo d s done p todo))
  \/ forall i d s done p todo, ~ at_pc st i (WCargo d s done p todo).
Proof.
  assert (L : forall ws, (exists i d s done p todo, nth_error ws i = Some (WCargo d s done p todo))
    \/ forall i d s done p todo, nth_error ws i <> Some (WCargo d s done p todo)).
  { induction ws as [|c ws IH]; [right; intros [|i]; discriminate|].
    destruct IH as [(i & d & s & done & p & todo & E)|N]; [left; exists (S i), d, s, done, p, todo; exact E|].
    assert (D : (exists d s done p todo, c = WCargo d s done p todo) \/ forall d s done p todo, c <> WCargo d s done p todo)
      by (destruct c; try (right; intros; discriminate); left; eauto 8).
    destruct D as [(d & s & done & p & todo & ->)|D]; [left; exists 0, d, s, done, p, todo; reflexivity|].
    right. intros [|i] d s done p todo E; [injection E as E; exact (D _ _ _ _ _ E)|exact (N i _ _ _ _ _ E)]. }
  intros [sh [c| |x] ws]; unfold at_pc; cbn [ls_main ls_workers].
  - destruct (L [c]) as [(i & d & s & done & p & todo & E)|N].
    + destruct i as [|[|i]]; try discriminate. injection E as ->. left. exists 0, d, s, done, p, todo. auto.
    + right. intros i d s done p todo [-> E]. apply (N 0 d s done p todo). cbn. congruence.
  - apply L.
  - right. intros i d s done p todo K. exact K.
Qed.

Lemma run_goes : named ms -> forall r, rreach r -> (exists x, ls_main (rs_lab r) = MEnd x) \/ exists r', rstep P X ms r r'.
Proof.
  intros Hn r H. destruct (project _ _ _ _ _ r H) as [Hr|(sh & d & o & E & _)]; [|left; rewrite E; eexists; reflexivity].
  destruct r as [st lim log]. cbn [rs_lab] in *. destruct (progress P o0 t0 ms Hn st Hr) as [E|(st' & S)]; [left; exact E|]. right.
  destruct (cargo_dec st) as [(i & d & s & done & p & todo & A)|N].
  - eexists. eapply (rs_cargo P X ms st lim log i d s done p todo [] None (get_tree (ls_sh st) d)); [exact A|exact I|intros k _; reflexivity].
  - assert (D : (exists d o, ls_main st = MBaseline (WFin d o) /\ oc_success o = Some true)
      \/ forall d o, ls_main st = MBaseline (WFin d o) -> oc_success o <> Some true).
    { destruct (ls_main st) as [c| |x]; try (right; intros; discriminate). destruct c; try (right; intros; discriminate).
      destruct (oc_success o) as [[|]|] eqn:Es; [left; eauto| |]; right; intros d' o' [= <- <-]; congruence. }
    destruct D as [(d & o & E & Es)|D].
    + pose proof (base_inv _ _ _ _ _ Hr) as B. destruct st as [sh mn ws]. cbn [ls_main] in E. subst mn.
      destruct B as (_ & W & _). cbn [ls_workers] in W. subst ws.
      destruct (mutant_timeouts rnd64 (Some o) (timeout_options (cx_options X))) as [t|] eqn:T; eexists.
      * eapply rs_limited; eassumption.
      * eapply rs_panic; eassumption.
    + eexists. eapply rs_other; [exact S| |exact D]. intros i d s done p todo A. exfalso. exact (N _ _ _ _ _ _ A).
Qed.

Lemma rstep_measure : forall r r', rreach r -> rstep P X ms r r' -> measure P (length ms) (rs_lab r') < measure P (length ms) (rs_lab r).
Proof.
  intros r r' H S. destruct (project _ _ _ _ _ r H) as [Hr|(sh0 & d0 & o1 & E & _)].
  - destruct S as [st lim log i d s done p todo polls r t Hp Hg Ht|sh d o lim log t Ho Hm|sh d o lim log Ho Hm|st st' lim log Hst Hc Hb]; cbn [rs_lab] in *.
    + apply step_measure. eapply cargo_step; eassumption.
    + apply step_measure. eapply st_baseline_ok. exact Ho.
    + unfold measure. cbn [ls_main]. lia.
    + apply step_measure. exact Hst.
  - exfalso. destruct S as [st lim log i d s done p todo polls r t Hp Hg Ht|sh d o lim log t Ho Hm|sh d o lim log Ho Hm|st st' lim log Hst Hc Hb]; cbn [rs_lab] in *; subst.
    + destruct Hp.
    + discriminate.
    + discriminate.
    + exact (no_step_end _ _ _ _ _ _ Hst).
Qed.

Lemma run_bound : forall k r, rsteps_k P X ms k (rstart P X ms o0 t0) r ->
  rreach r /\ k + measure P (length ms) (rs_lab r) <= measure P (length ms) (start_state P o0 t0 ms).
Proof.
  intros k r H. remember (rstart P X ms o0 t0) as r0 eqn:E0. induction H as [r|k r r' r'' H IH S].
  - subst r. split; [apply rsteps_refl|cbn; lia].
  - destruct (IH E0) as [A B]. subst r. split; [eapply rsteps_more; eassumption|].
    pose proof (rstep_measure _ _ A S). lia.
Qed.
End Goes.
