(** Proofs about interrupts. *)
From Coq Require Import String List NArith ZArith Bool Arith Lia.
From Verif Require Import Text SpanM PathM MutantM ProcessM OutcomeM OutputM LabM LabS LabP InterruptM InterruptS.
Import ListNotations.

Section I.
Context (P : params).

Lemma isteps_steps : forall n s s', isteps P n s s' -> steps P n (is_lab s) (is_lab s').
Proof.
  intros n s s' H. induction H as [s|s s' s'' H1 IH H2]; [apply steps_refl|].
  destruct H2; cbn [is_lab] in *; [exact IH|]. eapply steps_more; eassumption.
Qed.

Lemma ireach : forall o0 t0 ms s, ireachable P o0 t0 ms s -> reachable P o0 t0 ms (is_lab s).
Proof. intros o0 t0 ms s [f H]. apply isteps_steps in H. exact H. Qed.

(** Induction over the steps after the interrupt. *)
Lemma after_ind : forall n (Q : state -> Prop) st, Q st ->
  (forall s s', Q s -> step P n s s' -> no_check_passed s s' -> Q s') ->
  forall x, isteps P n (mkI st true) x -> Q (is_lab x) /\ is_flag x = true.
Proof.
  intros n Q st H0 HS x H. remember (mkI st true) as a eqn:Ea.
  induction H as [s|s s' s'' H1 IH H2]; [subst s; split; [exact H0|reflexivity]|].
  specialize (IH Ea). destruct H2; cbn [is_lab is_flag] in *; [tauto|].
  destruct IH as [A ->]. split; [|reflexivity]. eapply HS; eauto.
Qed.

Lemma phases_cons : forall b, exists p q, phases b = p :: q.
Proof. intros []; do 2 eexists; reflexivity. Qed.

(** ** Nothing new is recorded *)

Definition kept (st0 st : state) : Prop :=
  (forall o, In o (lo_outcomes (sh_lab (ls_sh st))) ->
     In o (lo_outcomes (sh_lab (ls_sh st0))) \/ exists c, In c (threads st0) /\ tested c o)
  /\ (forall c o, In c (threads st) -> tested c o -> exists c0, In c0 (threads st0) /\ tested c0 o).

Lemma lab_add_outcomes : forall (l : lab_outcome mutant) o l', lab_add l o = Some l' ->
  lo_outcomes l' = lo_outcomes l ++ [o].
Proof. intros l o l' H. unfold lab_add in H. destruct l. destruct (oc_scenario o), (summary o) as [[]|]; inversion H; reflexivity. Qed.

Lemma sstep_lab : forall i sh c sh' c', sstep P i sh c sh' c' -> forall o,
  In o (lo_outcomes (sh_lab sh')) -> In o (lo_outcomes (sh_lab sh)) \/ tested c o.
Proof.
  intros i sh c sh' c' H o Ho. destruct H; try (left; exact Ho).
  cbn [set_lab sh_lab] in Ho. apply lab_add_outcomes in H0. rewrite H0 in Ho.
  apply in_app_or in Ho. destruct Ho as [Ho|[<-|[]]]; [left; exact Ho|right; reflexivity].
Qed.

Lemma sstep_tested : forall i sh c sh' c', sstep P i sh c sh' c' -> past_check c c' = false -> forall o,
  tested c' o -> tested c o.
Proof.
  intros i sh c sh' c' H E o Ho. destruct (phases_cons (pa_check_only P)) as (p0 & q0 & Ep).
  destruct H; rewrite ?Ep in *; try discriminate E; try (destruct Ho; fail); exact Ho.
Qed.

Lemma wstep_lab : forall i sh c sh' c', wstep P i sh c sh' c' -> forall o,
  In o (lo_outcomes (sh_lab sh')) -> In o (lo_outcomes (sh_lab sh)) \/ tested c o.
Proof. intros i sh c sh' c' H o Ho. destruct H; try (left; exact Ho). eapply sstep_lab; eassumption. Qed.

Lemma wstep_tested : forall i sh c sh' c', wstep P i sh c sh' c' -> past_check c c' = false -> forall o,
  tested c' o -> tested c o.
Proof. intros i sh c sh' c' H E o Ho. destruct H; try (destruct Ho; fail). eapply sstep_tested; eassumption. Qed.

Lemma in_set : forall (ws : list wpc) i c' x, In x (list_set ws i c') -> x = c' \/ In x ws.
Proof. induction ws as [|w ws IH]; intros [|i] c' x H; cbn [list_set] in H; try (destruct H as [H|H]; [auto|]); cbn [In]; auto. destruct (IH _ _ _ H); auto. Qed.

Lemma spawn_in : forall n c, In c (spawn n) -> c = WInit.
Proof. intros n c H. apply repeat_spec in H. exact H. Qed.

Lemma worker_check : forall sh sh' ws i c c', nth_error ws i = Some c ->
  no_check_passed (mkLS sh MWork ws) (mkLS sh' MWork (list_set ws i c')) -> past_check c c' = false.
Proof.
  intros sh sh' ws i c c' H K. apply (K i c c'); unfold threads; cbn [ls_main ls_workers]; [exact H|].
  apply nth_error_set_same. eapply nth_error_lt. exact H.
Qed.

Lemma kept_step : forall n st0 s s', kept st0 s -> step P n s s' -> no_check_passed s s' -> kept st0 s'.
Proof.
  intros n st0 s s' [A B] H K. destruct H; unfold kept, threads in *; cbn [ls_main ls_workers ls_sh] in *.
  - assert (E : past_check c c' = false) by (apply (K 0 c c'); reflexivity). split.
    + intros o Ho. destruct (sstep_lab _ _ _ _ _ H _ Ho) as [Ho'|Ho']; [auto|]. right. apply (B c); [left; reflexivity|exact Ho'].
    + intros x o [<-|[]] Hx. apply (B c); [left; reflexivity|]. eapply sstep_tested; eassumption.
  - split; [exact A|]. intros c o' Hc Ho. apply spawn_in in Hc. subst c. destruct Ho.
  - split; [exact A|]. intros c o' [].
  - split; [exact A|]. intros c o' [].
  - split; [exact A|]. intros c o' [].
  - pose proof (worker_check _ _ _ _ _ _ H K) as E. split.
    + intros o Ho. destruct (wstep_lab _ _ _ _ _ H0 _ Ho) as [Ho'|Ho']; [auto|]. right. apply (B c); [eapply nth_error_In; exact H|exact Ho'].
    + intros x o Hx Ht. apply in_set in Hx. destruct Hx as [->|Hx]; [|eauto].
      apply (B c); [eapply nth_error_In; exact H|]. eapply wstep_tested; eassumption.
  - split; assumption.
Qed.

Lemma nothing_new : forall n st x, isteps P n (mkI st true) x -> forall o,
  In o (lo_outcomes (sh_lab (ls_sh (is_lab x)))) ->
  In o (lo_outcomes (sh_lab (ls_sh st))) \/ exists c, In c (threads st) /\ tested c o.
Proof.
  intros n st x H. destruct (after_ind n (kept st) st) with (x := x) as [[A _] _]; try assumption.
  - split; [auto|]. eauto.
  - intros s s'. apply kept_step.
Qed.

(** ** At most one more mutant for each thread *)

(** The thread may come to take another mutant. *)
Definition may_take (c : wpc) : nat :=
  match c with
  | WStart _ _ | WApply _ _ | WPhase _ _ _ (_ :: _) | WCargo _ _ _ _ _ | WRevertErr _ _ | WEnd _ | WPanic => 0
  | _ => 1
  end.
Definition takers (ts : list wpc) : nat := fold_right (fun c a => may_take c + a) 0 ts.

Lemma sstep_take : forall i sh c sh' c', sstep P i sh c sh' c' -> past_check c c' = false ->
  may_take c' <= may_take c.
Proof.
  intros i sh c sh' c' H E. destruct (phases_cons (pa_check_only P)) as (p0 & q0 & Ep).
  destruct H; rewrite ?Ep in *; try discriminate E; cbn [may_take]; try (destruct todo); auto with arith.
Qed.

Lemma wstep_take : forall i sh c sh' c', wstep P i sh c sh' c' -> past_check c c' = false ->
  may_take c' + length (sh_queue sh) <= may_take c + length (sh_queue sh').
Proof.
  intros i sh c sh' c' H E. destruct H; try (cbn [may_take set_dir0 add_dir sh_queue]; lia).
  - rewrite H. cbn [may_take set_queue sh_queue length]. lia.
  - pose proof (sstep_take _ _ _ _ _ H E). destruct (sstep_frame _ _ _ _ _ _ H) as (-> & _). lia.
Qed.

Lemma takers_set : forall ts i c c', nth_error ts i = Some c ->
  takers (list_set ts i c') + may_take c = takers ts + may_take c'.
Proof.
  induction ts as [|t ts IH]; intros [|i] c c' H; cbn [nth_error] in H; try discriminate;
    cbn [list_set takers fold_right]; fold (takers ts).
  - injection H as ->. lia.
  - fold (takers (list_set ts i c')). specialize (IH _ _ c' H). lia.
Qed.

Lemma takers_le : forall ts, takers ts <= length ts.
Proof. induction ts as [|t ts IH]; [reflexivity|]. cbn [takers fold_right length]. fold (takers ts). assert (may_take t <= 1) by (destruct t; cbn; try destruct todo; auto). lia. Qed.

Definition left_over (q : nat) (bound : nat) (n : nat) (st : state) : Prop :=
  match ls_main st with
  | MBaseline _ => q <= length (sh_queue (ls_sh st)) + bound - n_threads (pa_jobs P) n /\ n_threads (pa_jobs P) n <= bound
  | MWork => q + takers (ls_workers st) <= length (sh_queue (ls_sh st)) + bound
  | MEnd _ => q <= length (sh_queue (ls_sh st)) + bound
  end.

Lemma left_over_step : forall q b n s s', left_over q b n s -> step P n s s' -> no_check_passed s s' -> left_over q b n s'.
Proof.
  intros q b n s s' A H K. destruct H; unfold left_over in *; cbn [ls_main ls_workers ls_sh set_dir0 sh_queue] in *; try lia.
  - destruct (sstep_frame _ _ _ _ _ _ H) as (-> & _). exact A.
  - pose proof (takers_le (spawn (n_threads (pa_jobs P) n))) as L. unfold spawn in L at 2. rewrite repeat_length in L. lia.
  - pose proof (wstep_take _ _ _ _ _ H0 (worker_check _ _ _ _ _ _ H K)). pose proof (takers_set _ _ _ c' H). lia.
Qed.

Lemma one_more : forall n st x, isteps P n (mkI st true) x -> ls_main st = MWork ->
  length (sh_queue (ls_sh st)) <= length (sh_queue (ls_sh (is_lab x))) + length (ls_workers st).
Proof.
  intros n st x H Hm.
  destruct (after_ind n (left_over (length (sh_queue (ls_sh st))) (length (ls_workers st)) n) st) with (x := x) as [A _]; try assumption.
  - unfold left_over. rewrite Hm. pose proof (takers_le (ls_workers st)). lia.
  - intros s s'. apply left_over_step.
  - assert (K : forall c, ls_main (is_lab x) <> MBaseline c).
    { apply isteps_steps in H. cbn [is_lab] in H. revert Hm H. generalize (is_lab x). clear. intros st' Hm H.
      induction H as [s|s s' s'' H1 IH H2]; [congruence|]. specialize (IH Hm). destruct H2; cbn [ls_main] in *; congruence. }
    unfold left_over in A. destruct (ls_main (is_lab x)); [exfalso; eapply K; reflexivity|lia|lia].
Qed.

Lemma one_more_baseline : forall n st x c, isteps P n (mkI st true) x -> ls_main st = MBaseline c ->
  length (sh_queue (ls_sh st)) <= length (sh_queue (ls_sh (is_lab x))) + n_threads (pa_jobs P) n.
Proof.
  intros n st x c H Hm.
  destruct (after_ind n (left_over (length (sh_queue (ls_sh st))) (n_threads (pa_jobs P) n) n) st) with (x := x) as [A _]; try assumption.
  - unfold left_over. rewrite Hm. lia.
  - intros s s'. apply left_over_step.
  - unfold left_over in A. destruct (ls_main (is_lab x)); lia.
Qed.

(** ** The run ends with an error *)

(** The thread cannot come to its end without an error. *)
Definition doomed (c : wpc) : Prop := testing c \/ match c with WRevertErr _ _ | WEnd false | WPanic => True | _ => False end.

Lemma sstep_doomed : forall i sh c sh' c', sstep P i sh c sh' c' -> past_check c c' = false -> doomed c -> doomed c'.
Proof.
  intros i sh c sh' c' H E D. destruct (phases_cons (pa_check_only P)) as (p0 & q0 & Ep).
  destruct H; rewrite ?Ep in *; try discriminate E; unfold doomed, testing in *; try tauto.
Qed.

Lemma wstep_doomed : forall i sh c sh' c', wstep P i sh c sh' c' -> past_check c c' = false -> doomed c -> doomed c'.
Proof.
  intros i sh c sh' c' H E D. destruct H; try (destruct D as [D|D]; destruct D; fail). eapply sstep_doomed; eassumption.
Qed.

Definition must_fail (st : state) : Prop :=
  match ls_main st with
  | MBaseline c => doomed c
  | MWork => ls_workers st <> [] /\ (sh_queue (ls_sh st) <> [] \/ exists c, In c (ls_workers st) /\ doomed c)
  | MEnd r => r = RErr \/ r = RPanic
  end.

Lemma set_not_nil : forall (ws : list wpc) i c, ws <> [] -> list_set ws i c <> [].
Proof. intros [|w ws] [|i] c H; cbn; congruence. Qed.

Lemma set_in : forall (ws : list wpc) i c, i < length ws -> In c (list_set ws i c).
Proof. induction ws as [|w ws IH]; intros [|i] c H; cbn in *; try lia; [left; reflexivity|right; apply IH; lia]. Qed.

Lemma set_keeps : forall (ws : list wpc) i c x, nth_error ws i <> Some x -> In x ws -> In x (list_set ws i c).
Proof.
  induction ws as [|w ws IH]; intros [|i] c x H Hx; cbn [list_set In nth_error] in *; try tauto.
  - destruct Hx as [->|Hx]; [congruence|auto].
  - destruct Hx as [->|Hx]; [auto|]. right. apply IH; assumption.
Qed.

Lemma set_doomed : forall (ws : list wpc) i c c', nth_error ws i = Some c -> (doomed c -> doomed c') ->
  (exists x, In x ws /\ doomed x) -> exists x, In x (list_set ws i c') /\ doomed x.
Proof.
  induction ws as [|w ws IH]; intros [|i] c c' H D (x & Hx & Dx); cbn [nth_error] in H; try discriminate.
  - injection H as ->. destruct Hx as [->|Hx]; [exists c'; split; [left; reflexivity|auto]|exists x; split; [right; exact Hx|exact Dx]].
  - destruct Hx as [->|Hx]; [exists x; split; [left; reflexivity|exact Dx]|].
    destruct (IH i c c' H D) as (y & Hy & Dy); [eauto|]. exists y. split; [right; exact Hy|exact Dy].
Qed.

Section R.
Context (o0 : entries) (t0 : tree) (ms : list mutant).

Lemma fail_step : forall s s', reachable P o0 t0 ms s -> must_fail s -> step P (length ms) s s' ->
  no_check_passed s s' -> must_fail s'.
Proof.
  intros s s' R A H K. destruct H; unfold must_fail in *; cbn [ls_main ls_workers ls_sh set_dir0 sh_queue] in *.
  - eapply sstep_doomed; [exact H| |exact A]. apply (K 0 c c'); reflexivity.
  - destruct A as [[]|[]].
  - destruct A as [[]|[]].
  - auto.
  - auto.
  - destruct A as [N A]. split; [apply set_not_nil; exact N|].
    pose proof (worker_check _ _ _ _ _ _ H K) as E.
    destruct A as [A|A]; [|right; eapply set_doomed; [exact H| |exact A]; eapply wstep_doomed; eassumption].
    destruct H0 as [d| |t| |d m q Hq|d Hq|d o|c sh' c' Hs]; try (left; exact A).
    + right. exists (WStart d (Mutant m)). split; [apply set_in; eapply nth_error_lt; exact H|left; exact I].
    + destruct (sstep_frame _ _ _ _ _ _ Hs) as (-> & _). left. exact A.
  - destruct A as [N A]. unfold join_threads. destruct (existsb is_panic ws) eqn:Ep; [auto|]. left.
    assert (existsb is_err ws = true) as ->; [|reflexivity].
    assert (Z : exists c, In c ws /\ (c = WEnd false \/ c = WPanic)).
    { destruct A as [A|(c & Hc & D)].
      - assert (N' : ~ In (WEnd true) ws) by (intros Hin; apply A; exact (c12_ends_empty P o0 t0 ms _ R Hin)).
        destruct ws as [|c ws]; [congruence|]. exists c. split; [left; reflexivity|].
        rewrite forallb_forall in H. specialize (H c (or_introl eq_refl)). destruct c; try discriminate; auto.
        destruct ok; [|auto]. exfalso. apply N'. left. reflexivity.
      - exists c. split; [exact Hc|]. rewrite forallb_forall in H. specialize (H c Hc).
        destruct c; try discriminate; [|auto]. destruct ok; [destruct D as [[]|[]]|auto]. }
    destruct Z as (c & Hc & [->| ->]); apply existsb_exists; [eexists; split; [exact Hc|reflexivity]|].
    exfalso. assert (existsb is_panic ws = true) by (apply existsb_exists; eexists; split; [exact Hc|reflexivity]). congruence.
Qed.

Lemma fails_after : forall st x, reachable P o0 t0 ms st -> must_fail st -> isteps P (length ms) (mkI st true) x ->
  must_fail (is_lab x).
Proof.
  intros st x R F H.
  destruct (after_ind (length ms) (fun s => reachable P o0 t0 ms s /\ must_fail s) st) with (x := x) as [[_ A] _]; auto.
  intros s s' [R' F'] S K. split; [eapply reach_steps; [exact R'|eapply steps_more; [apply steps_refl|exact S]]|]. eapply fail_step; eauto.
Qed.

Lemma workers_some : forall st, reachable P o0 t0 ms st -> ls_main st = MWork -> ls_workers st <> [].
Proof.
  intros st R. unfold reachable in R. remember (start_state P o0 t0 ms) as s0 eqn:E0.
  assert (Sp : spawn (n_threads (pa_jobs P) (length ms)) <> []).
  { unfold n_threads. destruct (Nat.max 1 (Nat.min match pa_jobs P with Some j => j | None => 1 end (length ms))) eqn:E; [lia|discriminate]. }
  induction R as [s|s s' s'' H1 IH H2]; intros Hm.
  - subst s. unfold start_state in *. destruct (pa_skip_baseline P); [exact Sp|discriminate].
  - specialize (IH E0). destruct H2; cbn [ls_main ls_workers] in *; try discriminate; [exact Sp|].
    apply set_not_nil. apply IH. reflexivity.
Qed.

Lemma end_fail : named ms -> forall x r, reachable P o0 t0 ms (is_lab x) -> must_fail (is_lab x) ->
  ls_main (is_lab x) = MEnd r -> process_exit r = Some 1%Z.
Proof.
  intros Hn x r R F E. unfold must_fail in F. rewrite E in F. destruct F as [->| ->]; [reflexivity|].
  exfalso. destruct (is_lab x) as [sh mn ws]. cbn [ls_main] in E. subst mn. eapply no_panic; eauto.
Qed.

Lemma work_fails : named ms -> forall st x r, reachable P o0 t0 ms st -> ls_main st = MWork ->
  sh_queue (ls_sh st) <> [] \/ (exists c, In c (threads st) /\ testing c) ->
  isteps P (length ms) (mkI st true) x -> ls_main (is_lab x) = MEnd r -> process_exit r = Some 1%Z.
Proof.
  intros Hn st x r R Hm Q H E. pose proof (reach_steps P o0 t0 ms _ _ R (isteps_steps _ _ _ H)) as Rx.
  apply end_fail with x; auto. apply fails_after with st; auto. unfold must_fail. rewrite Hm.
  split; [apply workers_some; assumption|]. destruct Q as [Q|(c & Hc & T)]; [auto|]. right. exists c.
  unfold threads in Hc. rewrite Hm in Hc. split; [exact Hc|left; exact T].
Qed.

Lemma baseline_fails : named ms -> forall st x r c, reachable P o0 t0 ms st -> ls_main st = MBaseline c ->
  testing c -> isteps P (length ms) (mkI st true) x -> ls_main (is_lab x) = MEnd r -> process_exit r = Some 1%Z.
Proof.
  intros Hn st x r c R Hm T H E. pose proof (reach_steps P o0 t0 ms _ _ R (isteps_steps _ _ _ H)) as Rx.
  apply end_fail with x; auto. apply fails_after with st; auto. unfold must_fail. rewrite Hm. left. exact T.
Qed.

(** ** The run can go on to its end *)
Lemma can_go_on : named ms -> forall s, reachable P o0 t0 ms (is_lab s) ->
  (exists r, ls_main (is_lab s) = MEnd r) \/
  exists st', step P (length ms) (is_lab s) st' /\ istep P (length ms) s (mkI st' (is_flag s)).
Proof.
  intros Hn [st f] R. cbn [is_lab is_flag] in *. destruct (progress P o0 t0 ms Hn st R) as [E|(st' & H)]; [auto|]. right.
  assert (One : forall i sh c sh' c', sstep P i sh c sh' c' ->
            exists sh2 c2, sstep P i sh c sh2 c2 /\ past_check c c2 = false).
  { intros i sh c sh' c' S. destruct S; try (do 2 eexists; split; [econstructor; eassumption|reflexivity]). }
  destruct H.
  - destruct (One _ _ _ _ _ H) as (sh2 & c2 & S & E). exists (mkLS sh2 (MBaseline c2) []).
    split; [constructor; exact S|]. apply is_step; [constructor; exact S|]. intros _ [|[|i]] a b Ha Hb; cbn in Ha, Hb; try discriminate. congruence.
  - eexists. split; [econstructor; eassumption|]. apply is_step; [econstructor; eassumption|].
    intros _ i a b Ha Hb. unfold threads in Ha. cbn [ls_main] in Ha. destruct i as [|[|i]]; cbn [nth_error] in Ha; try discriminate. injection Ha as <-. reflexivity.
  - eexists. split; [econstructor; eassumption|]. apply is_step; [econstructor; eassumption|].
    intros _ i a b Ha Hb. unfold threads in Hb. cbn [ls_main ls_workers] in Hb. destruct i; discriminate.
  - eexists. split; [econstructor; eassumption|]. apply is_step; [econstructor; eassumption|].
    intros _ i a b Ha Hb. unfold threads in Hb. cbn [ls_main ls_workers] in Hb. destruct i; discriminate.
  - eexists. split; [econstructor; eassumption|]. apply is_step; [econstructor; eassumption|].
    intros _ i a b Ha Hb. unfold threads in Hb. cbn [ls_main ls_workers] in Hb. destruct i; discriminate.
  - assert (W : exists sh2 c2, wstep P i sh c sh2 c2 /\ past_check c c2 = false).
    { destruct H0; try (do 2 eexists; split; [econstructor; eassumption|reflexivity]).
      - destruct (One _ _ _ _ _ H0) as (sh2 & c2 & S & E). exists sh2, c2. split; [constructor; exact S|exact E]. }
    destruct W as (sh2 & c2 & S & E). exists (mkLS sh2 MWork (list_set ws i c2)).
    split; [econstructor; eassumption|]. apply is_step; [econstructor; eassumption|].
    intros _ j a b Ha Hb. unfold threads in Ha, Hb. cbn [ls_main ls_workers] in Ha, Hb.
    destruct (Nat.eq_dec i j) as [<-|Nj].
    + rewrite nth_error_set_same in Hb by (eapply nth_error_lt; exact H). congruence.
    + rewrite nth_error_set_other in Hb by assumption. rewrite Ha in Hb. injection Hb as <-. destruct a; reflexivity.
  - eexists. split; [econstructor; eassumption|]. apply is_step; [econstructor; eassumption|].
    intros _ j a b Ha Hb. unfold threads in Ha, Hb. cbn [ls_main ls_workers] in Ha, Hb. rewrite Ha in Hb. injection Hb as <-. destruct a; reflexivity.
Qed.
End R.

(** ** Few steps are left *)
Definition left_steps (c : wpc) : nat :=
  match c with
  | WInit => 8 | WCopy => 7 | WQueue _ => 6 | WStart _ _ => 5 | WApply _ _ => 4
  | WPhase _ _ _ (_ :: _) => 3 | WCargo _ _ _ _ _ => 2 | WRevertErr _ _ => 1
  | WPhase _ _ _ [] => 14 | WRevert _ _ _ => 13 | WAdd _ _ _ => 12 | WJson _ _ => 11 | WJson2 _ _ => 10
  | WName _ _ => 9 | WNewline _ _ => 8 | WFin _ _ => 7 | WEnd _ | WPanic => 0
  end.
Definition all_left (ts : list wpc) : nat := fold_right (fun c a => left_steps c + a) 0 ts.

Lemma sstep_left : forall i sh c sh' c', sstep P i sh c sh' c' -> past_check c c' = false -> left_steps c' < left_steps c.
Proof.
  intros i sh c sh' c' H E. destruct (phases_cons (pa_check_only P)) as (p0 & q0 & Ep).
  destruct H; rewrite ?Ep in *; try discriminate E; cbn [left_steps]; lia.
Qed.

Lemma wstep_left : forall i sh c sh' c', wstep P i sh c sh' c' -> past_check c c' = false -> left_steps c' < left_steps c.
Proof. intros i sh c sh' c' H E. destruct H; try (cbn [left_steps]; lia). eapply sstep_left; eassumption. Qed.

Lemma all_left_set : forall ts i c c', nth_error ts i = Some c ->
  all_left (list_set ts i c') + left_steps c = all_left ts + left_steps c'.
Proof.
  induction ts as [|t ts IH]; intros [|i] c c' H; cbn [nth_error] in H; try discriminate;
    cbn [list_set all_left fold_right]; fold (all_left ts).
  - injection H as ->. lia.
  - fold (all_left (list_set ts i c')). specialize (IH _ _ c' H). lia.
Qed.

Lemma all_left_le : forall ts, all_left ts <= 14 * length ts.
Proof. induction ts as [|t ts IH]; [reflexivity|]. cbn [all_left fold_right length]. fold (all_left ts). assert (left_steps t <= 14) by (destruct t; cbn; try destruct todo; lia). lia. Qed.

Lemma all_left_spawn : forall k, all_left (spawn k) = 8 * k.
Proof. induction k as [|k IH]; [reflexivity|]. change (spawn (S k)) with (WInit :: spawn k). cbn [all_left fold_right left_steps]. fold (all_left (spawn k)). lia. Qed.

Definition mleft (n : nat) (st : state) : nat :=
  match ls_main st with
  | MBaseline c => left_steps c + 8 * n_threads (pa_jobs P) n + 2
  | MWork => all_left (ls_workers st) + 1
  | MEnd _ => 0
  end.

Lemma step_left : forall n s s', step P n s s' -> no_check_passed s s' -> mleft n s' < mleft n s.
Proof.
  intros n s s' H K. destruct H; unfold mleft; cbn [ls_main ls_workers]; try lia.
  - assert (E : past_check c c' = false) by (apply (K 0 c c'); reflexivity). pose proof (sstep_left _ _ _ _ _ H E). lia.
  - rewrite all_left_spawn. lia.
  - pose proof (wstep_left _ _ _ _ _ H0 (worker_check _ _ _ _ _ _ H K)). pose proof (all_left_set _ _ _ c' H). lia.
Qed.

Lemma few_steps : forall n k st x, isteps_k P n k (mkI st true) x -> is_flag x = true /\ k + mleft n (is_lab x) <= mleft n st.
Proof.
  intros n k st x H. remember (mkI st true) as a eqn:Ea. induction H as [s|k s st1 f H IH|k s st1 st2 f H IH Hs Hi].
  - subst s. cbn [is_flag is_lab]. split; [reflexivity|lia].
  - destruct (IH Ea) as [A B]. cbn [is_flag is_lab] in *. split; [reflexivity|lia].
  - destruct (IH Ea) as [A B]. cbn [is_flag is_lab] in *. subst f. split; [reflexivity|].
    pose proof (step_left _ _ _ Hs (Hi eq_refl)). lia.
Qed.
End I.

(** ** Running examples after an interrupt *)
Definition none_passed (st st' : state) : bool :=
  forallb (fun x => negb (past_check (fst x) (snd x))) (combine (threads st) (threads st')).

Fixpoint iexec (P : params) (n : nat) (xs : list (nat * option (exit_t * N))) (st : state) : option state :=
  match xs with
  | [] => Some st
  | x :: xs' => match exec1 P n x st with
                | Some st' => if none_passed st st' then iexec P n xs' st' else None
                | None => None
                end
  end.

Lemma nth_combine : forall A B (l : list A) (l' : list B) i a b, nth_error l i = Some a -> nth_error l' i = Some b ->
  In (a, b) (combine l l').
Proof.
  induction l as [|x l IH]; intros [|y l'] [|i] a b Ha Hb; cbn in *; try discriminate.
  - left. congruence.
  - right. eapply IH; eassumption.
Qed.

Lemma iexec_sound : forall P n xs st st', iexec P n xs st = Some st' -> isteps P n (mkI st true) (mkI st' true).
Proof.
  intros P n xs st st' H.
  assert (K : forall xs s1 s2, isteps P n (mkI st true) (mkI s1 true) -> iexec P n xs s1 = Some s2 -> isteps P n (mkI st true) (mkI s2 true)).
  { clear. induction xs as [|x xs IH]; intros s1 s2 Hs E; cbn [iexec] in E; [injection E as <-; exact Hs|].
    destruct (exec1 P n x s1) as [s3|] eqn:E1; [|discriminate]. destruct (none_passed s1 s3) eqn:Np; [|discriminate].
    eapply IH; [|exact E]. eapply isteps_more; [exact Hs|]. apply is_step; [eapply exec1_sound; exact E1|].
    intros _ i c c' Hc Hc'. unfold none_passed in Np. rewrite forallb_forall in Np.
    specialize (Np _ (nth_combine _ _ _ _ _ _ _ Hc Hc')). apply negb_true_iff in Np. exact Np. }
  eapply K; [apply isteps_refl|exact H].
Qed.
