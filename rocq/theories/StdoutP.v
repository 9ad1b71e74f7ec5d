(** Proofs for C80: standard output. *)
From Coq Require Import String List NArith ZArith Bool Arith Lia Permutation.
From Verif Require Import Text Utf8M SpanM PathM MutantM MutantP ProcessM OutcomeM OutcomeS OutcomeP OutcomeT OutputM OutputS OutputP IterateM OptionsM PackageM CargoM LabM LabS LabP LabT ConsoleM ConsoleP ConsoleT MainM PrintM PrintS PrintP
  PrintT TimeoutM F32M TimesM TimesS TimesP FilesP StdoutM StdoutS.
Import ListNotations.
Open Scope list_scope.
Open Scope nat_scope.

Lemma printed_app : forall secs on po a b, printed secs on po (a ++ b)
  = match printed secs on po a, printed secs on po b with Some x, Some y => Some (x ++ y) | _, _ => None end.
Proof.
  intros secs on po a b. induction a as [|[o lg] a IH]; cbn [app printed]; [destruct (printed secs on po b); reflexivity|].
  rewrite IH. destruct (outcome_message secs on po o lg) as [[m|]|], (printed secs on po a), (printed secs on po b); try reflexivity. rewrite <- app_assoc. reflexivity.
Qed.

Section Run.
Context (P : params) (po : print_options) (on : bool) (log : outcome mutant -> option (list byte)) (o0 : entries) (t0 : tree) (ms : list mutant).
Notation XS := (xstep P (po_caught po) (po_unviable po) (po_all_logs po) true (length ms)).
Notation XR := (xreachable P (po_caught po) (po_unviable po) (po_all_logs po) true o0 t0 ms).
Notation wl := (map (fun o : outcome mutant => (o, log o))).

Lemma finished_grows : forall x y, XS x y -> exists new, x_finished y = x_finished x ++ new.
Proof.
  intros x y H. destruct H; cbn [x_finished]; try (exists []; rewrite app_nil_r; reflexivity); eexists; reflexivity.
Qed.
Lemma says_new : forall el x y new, x_finished y = x_finished x ++ new -> step_says po on log el x y =
  match printed secs_text on po (wl new) with
  | Some t => Some (t ++ match ls_main (x_lab x), ls_main (x_lab y) with MWork, MEnd (ROk l) => summary_line (po_times po) el l | _, _ => [] end)
  | None => None end.
Proof.
  intros el x y new E. unfold step_says. rewrite E, skipn_app, skipn_all, Nat.sub_diag. reflexivity.
Qed.

Lemma prints_reach : forall x t, prints P po on log o0 t0 ms x t -> XR x.
Proof.
  intros x t H. induction H as [now now'|x t y el u H IH St Sy]; [exists now, now'; constructor|].
  destruct IH as (now & now' & IH). exists now, now'. econstructor; eassumption.
Qed.

Definition closing (x : xstate) (sm : text) : Prop :=
  match ls_main (x_lab x) with
  | MEnd (ROk l) => if match ls_workers (x_lab x) with [] => true | _ => false end then sm = [] else exists el, sm = summary_line (po_times po) el l
  | _ => sm = []
  end.

Lemma prints_form : forall x t, prints P po on log o0 t0 ms x t ->
  exists b sm, printed secs_text on po (wl (x_finished x)) = Some b /\ t = found_text (length ms) ++ b ++ sm /\ closing x sm.
Proof.
  intros x t H. induction H as [now now'|x t y el u H IH St Sy].
  - exists [], []. split; [reflexivity|]. split; [rewrite app_nil_r; reflexivity|]. unfold closing, xstart, start_state. cbn [x_lab ls_main]. destruct (pa_skip_baseline P); reflexivity.
  - destruct IH as (b & sm & B & -> & C). destruct (finished_grows _ _ St) as [new En]. rewrite (says_new _ _ _ _ En) in Sy.
    destruct (printed secs_text on po (wl new)) as [b'|] eqn:B'; [|discriminate]. injection Sy as <-.
    assert (Sm : sm = []) by (destruct St; exact C). subst sm. rewrite app_nil_r.
    eexists (b ++ b'), _. split; [rewrite En, map_app, printed_app, B, B'; reflexivity|]. split; [rewrite <- !app_assoc; reflexivity|].
    pose proof (xinv _ _ _ _ _ _ _ _ (prints_reach _ _ H)) as [Rb _].
    unfold closing. destruct St; cbn [x_lab ls_main ls_workers]; try reflexivity.
    assert (Nw : ws <> []).
    { pose proof (base_inv _ _ _ _ _ Rb) as L. cbn [x_lab ls_main ls_workers] in L. intros ->. unfold n_threads in L. cbn [length] in L. lia. }
    destruct (join_threads ws (sh_lab sh)); try reflexivity. destruct ws as [|c ws]; [contradiction|]. eauto.
Qed.

Lemma prints_every : forall x, XR x -> (forall o, In o (x_finished x) -> outcome_message secs_text on po o (log o) <> None) -> exists t, prints P po on log o0 t0 ms x t.
Proof.
  intros x (now & now' & H). remember (xstart P (po_caught po) (po_unviable po) (po_all_logs po) o0 t0 ms now now') as x0 eqn:E.
  induction H as [x|x y z H IH St]; intro N; [subst x; eexists; constructor|].
  destruct (finished_grows _ _ St) as [new En]. destruct IH as [t T]; [exact E|intros o Io; apply N; rewrite En; apply in_or_app; left; exact Io|].
  assert (S : exists u, step_says po on log 0 y z = Some u).
  { rewrite (says_new _ _ _ _ En). assert (Pn : exists b, printed secs_text on po (wl new) = Some b).
    { assert (Nn : forall o, In o new -> outcome_message secs_text on po o (log o) <> None) by (intros o Io; apply N; rewrite En; apply in_or_app; right; exact Io).
      clear - Nn. induction new as [|o new IH]; [eexists; reflexivity|]. cbn [map printed]. destruct IH as [b ->]; [intros x Ix; apply Nn; right; exact Ix|].
      pose proof (Nn o (or_introl eq_refl)) as K. destruct (outcome_message secs_text on po o (log o)) as [[m|]|]; [eauto|eauto|contradiction]. }
    destruct Pn as [b ->]. eauto. }
  destruct S as [u U]. exists (t ++ u). econstructor; eassumption.
Qed.
End Run.

(** ** The first line and the last *)
Lemma found_first : forall n, found_text n = first_line n ++ [NL].
Proof.
  intro n. unfold found_text, first_line, plural. destruct (Nat.eqb n 1).
  - rewrite <- !app_assoc. reflexivity.
  - rewrite <- !app_assoc. reflexivity.
Qed.

Lemma summary_last : forall times el (l : lab_outcome mutant), summary_line times el l
  = last_line (if times then Some el else None) (lo_total l) (lo_missed l) (lo_caught l) (lo_unviable l) (lo_timeout l) (lo_success l) ++ [NL].
Proof.
  intros times el l. unfold summary_line, last_line, plural.
  assert (J : forall a b c d e : nat, let part (n : nat) (w : text) : list text := if Nat.eqb n 0 then [] else [show_nat n ++ [SP] ++ w] in
    part a (tx "missed") ++ part b (tx "caught") ++ part c (tx "unviable") ++ part d (tx "timeouts") ++ part e (tx "succeeded")
    = map (fun c => show_nat (fst c) ++ tx " " ++ snd c) (filter (fun c => negb (fst c =? 0))
       [(a, tx "missed"); (b, tx "caught"); (c, tx "unviable"); (d, tx "timeouts"); (e, tx "succeeded")])).
  { intros a b c d e. cbn [filter fst]. destruct (a =? 0), (b =? 0), (c =? 0), (d =? 0), (e =? 0); reflexivity. }
  cbv zeta in J |- *. rewrite J. destruct (lo_total l =? 1), times; rewrite <- ?app_assoc; reflexivity.
Qed.

(** ** Counts *)
Lemma counts_verdicts : forall v (os : list (outcome mutant)), how_many (mutant_with v) os = how_often v (verdicts os).
Proof.
  intros v os. induction os as [|o os IH]; [reflexivity|]. cbn [how_many]. rewrite IH. unfold how_often, verdicts. cbn [flat_map]. rewrite filter_app, app_length. f_equal.
  unfold mutant_with. destruct (oc_scenario o); [reflexivity|]. cbn [is_mutant andb]. destruct (summary o) as [w|]; [|reflexivity]. cbn [filter snd]. destruct v, w; reflexivity.
Qed.
Lemma total_verdicts : forall os : list (outcome mutant), Forall (fun o => oc_results o <> []) os ->
  how_many (fun o => is_mutant (oc_scenario o)) os = length (verdicts os).
Proof.
  intros os F. induction F as [|o os N F IH]; [reflexivity|]. cbn [how_many]. unfold verdicts in *. cbn [flat_map]. rewrite IH, app_length. f_equal.
  destruct (oc_scenario o); [reflexivity|]. cbn [is_mutant]. destruct (OutcomeP.summary_total o N) as [v ->]. reflexivity.
Qed.

(** ** Lines *)
Definition flat (t : text) : Prop := ~ In NL t /\ ~ In CR t.
Lemma flat_app : forall a b, flat a -> flat b -> flat (a ++ b).
Proof. intros a b [A1 A2] [B1 B2]. split; intro I; apply in_app_or in I as [I|I]; auto. Qed.
Lemma flat_one : forall t, flat t -> one_line t.
Proof. intros t [A B]. split; [exact A|]. intros a ->. apply B. apply in_or_app. right. left. reflexivity. Qed.
Lemma one_after : forall a b, flat a -> one_line b -> one_line (a ++ b).
Proof.
  intros a b [A A'] [B1 B2]. split; [intro I; apply in_app_or in I as [I|I]; auto|]. intros c E. destruct b as [|z b0].
  { rewrite app_nil_r in E. subst a. apply A'. apply in_or_app. right. left. reflexivity. }
  destruct (exists_last (l := z :: b0)) as (b' & y & Eb); [discriminate|]. rewrite Eb in *.
  rewrite app_assoc in E. apply app_inj_tail in E as [_ ->]. exact (B2 b' eq_refl).
Qed.
Lemma flat_show : forall n, flat (show_nat n).
Proof. intro n. split; apply show_nat_no; reflexivity. Qed.
Lemma flat_tx : forall t, forallb (fun c => negb (N.eqb c NL) && negb (N.eqb c CR)) t = true -> flat t.
Proof.
  intros t H. rewrite forallb_forall in H. split; intro I; specialize (H _ I); rewrite N.eqb_refl, ?andb_false_r in H; discriminate.
Qed.
Lemma flat_join : forall ts, Forall flat ts -> flat (join (tx ", ") ts).
Proof.
  induction ts as [|a ts IH]; intro F; [split; intros []|]. inversion F; subst. destruct ts as [|b ts]; [assumption|].
  change (join (tx ", ") (a :: b :: ts)) with (a ++ tx ", " ++ join (tx ", ") (b :: ts)). repeat apply flat_app; [assumption|apply flat_tx; reflexivity|apply IH; assumption].
Qed.
Lemma flat_first : forall n, flat (first_line n).
Proof.
  intro n. unfold first_line. apply flat_app; [apply flat_tx; reflexivity|]. apply flat_app; [|apply flat_tx; reflexivity].
  destruct (n =? 1); [apply flat_tx; reflexivity|]. apply flat_app; [apply flat_show|apply flat_tx; reflexivity].
Qed.
Lemma flat_last : forall a b c d e f, flat (last_line None a b c d e f).
Proof.
  intros. unfold last_line. apply flat_app; [|apply flat_app; [apply flat_tx; reflexivity|apply flat_app; [apply flat_tx; reflexivity|]]].
  - destruct (a =? 1); [apply flat_tx; reflexivity|]. apply flat_app; [apply flat_show|apply flat_tx; reflexivity].
  - apply flat_app; [apply flat_tx; reflexivity|]. apply flat_join. apply Forall_forall. intros x Hx. apply in_map_iff in Hx as ([n w] & <- & I). apply filter_In in I as [I _].
    cbn [fst snd]. apply flat_app; [apply flat_show|]. apply flat_app; [apply flat_tx; reflexivity|].
    repeat (destruct I as [E|I]; [injection E as _ <-; apply flat_tx; reflexivity|]). destruct I.
Qed.

(** The line about an outcome, if there is one. *)
Definition line_of (po : print_options) (o : outcome mutant) : list text :=
  match summary o, scenario_name (oc_scenario o) with
  | Some v, Some n => if reported po (oc_scenario o) v then [column v ++ tx " " ++ n] else []
  | _, _ => []
  end.
Lemma said_line : forall secs po log o, po_times po = false -> po_all_logs po = false -> (oc_scenario o = Baseline -> summary o = Some SumSuccess) ->
  said secs po log o = previously_text (line_of po o).
Proof.
  intros secs po log o T A B. unfold said, line_of. destruct (summary o) as [v|] eqn:V; [|reflexivity]. destruct (scenario_name (oc_scenario o)) as [n|]; [|reflexivity].
  destruct (reported po (oc_scenario o) v); [|reflexivity]. unfold message. rewrite T.
  assert (W : with_log po (oc_scenario o) v = false) by (destruct (oc_scenario o); cbn [with_log]; [injection (B eq_refl) as ->; exact A|destruct v; exact A]).
  rewrite W. unfold previously_text. cbn [flat_map]. rewrite !app_nil_r, <- !app_assoc. reflexivity.
Qed.
Lemma said_lines : forall secs po log os, po_times po = false -> po_all_logs po = false ->
  (forall o, In o os -> oc_scenario o = Baseline -> summary o = Some SumSuccess) ->
  flat_map (said secs po log) os = previously_text (flat_map (line_of po) os).
Proof.
  intros secs po log os T A. induction os as [|o os IH]; intro B; [reflexivity|]. cbn [flat_map]. unfold previously_text in *. rewrite flat_map_app, IH by (intros; apply B; [right; assumption|assumption]).
  f_equal. apply said_line; [exact T|exact A|apply B; left; reflexivity].
Qed.

Lemma list_names : forall v rs, LabS.list_text v rs
  = previously_text (flat_map (fun r => if same_verdict (snd r) v then match mutant_name true (fst r) with Some n => [n] | None => [] end else []) rs).
Proof.
  intros v rs. induction rs as [|[m w] rs IH]; [reflexivity|]. unfold LabS.list_text, previously_text in *. cbn [flat_map fst snd]. rewrite flat_map_app. f_equal; [|exact IH].
  destruct (same_verdict w v); [|reflexivity]. destruct (mutant_name true m); [|reflexivity]. cbn [flat_map]. rewrite app_nil_r. reflexivity.
Qed.
Lemma same_iff : forall a b, same_verdict a b = true <-> a = b.
Proof. intros [] []; cbn; split; try discriminate; reflexivity. Qed.
Lemma list_lines_in : forall v rs n, (forall m w k, In (m, w) rs -> mutant_name true m = Some k -> one_line k) ->
  (In n (lines (LabS.list_text v rs)) <-> exists m, In (m, v) rs /\ mutant_name true m = Some n).
Proof.
  intros v rs n O. rewrite list_names, lines_of_names.
  - rewrite in_flat_map. split.
    + intros ([m w] & I & H). cbn [fst snd] in H. destruct (same_verdict w v) eqn:E; [|destruct H]. apply same_iff in E. subst w.
      destruct (mutant_name true m) as [k|] eqn:K; [|destruct H]. destruct H as [<-|[]]. eauto.
    + intros (m & I & K). exists (m, v). split; [exact I|]. cbn [fst snd]. replace (same_verdict v v) with true by (symmetry; apply same_iff; reflexivity). rewrite K. left. reflexivity.
  - apply Forall_forall. intros x Hx. apply in_flat_map in Hx as ([m w] & I & H). cbn [fst snd] in H. destruct (same_verdict w v); [|destruct H].
    destruct (mutant_name true m) as [k|] eqn:K; [|destruct H]. destruct H as [<-|[]]. eapply O; eassumption.
Qed.

Lemma column_inj : forall v w a b, column v ++ tx " " ++ a = column w ++ tx " " ++ b -> v = w /\ a = b.
Proof. intros [] [] a b H; try discriminate H; (split; [reflexivity|]); repeat (injection H as H); exact H. Qed.
Lemma column_first : forall v n k, column v ++ tx " " ++ n <> first_line k.
Proof. intros [] n k; discriminate. Qed.
Lemma column_last : forall v n t a b c d e f, column v ++ tx " " ++ n <> last_line t a b c d e f.
Proof.
  intros v n t a b c d e f H. unfold last_line in H. destruct (a =? 1); [destruct v; discriminate H|].
  destruct (show_nat a) as [|x s] eqn:E; [destruct v; discriminate H|].
  assert (N : forall y, is_digit y = false -> x <> y) by (intros y D ->; apply (show_nat_no a y D); rewrite E; left; reflexivity).
  destruct v; injection H as H _; symmetry in H; revert H; apply N; reflexivity.
Qed.

(** ** The end *)
Lemma end_cases : forall P o0 t0 ms sh l ws, ms <> [] -> reachable P o0 t0 ms (mkLS sh (MEnd (ROk l)) ws) ->
  (ws = [] /\ exists o, lo_outcomes l = [o] /\ oc_scenario o = Baseline /\ oc_success o = Some false) \/ (ws <> [] /\ Permutation (recorded l) ms).
Proof.
  intros P o0 t0 ms sh l ws NE R. destruct (end_inv _ _ _ _ _ _ _ R) as [(d & o & Rb & F & E & Ew)|[(_ & E & _)|[(_ & E & _)|(Rb & A & E)]]]; try discriminate.
  - left. split; [exact Ew|]. injection E as ->. exists o. destruct (base_lab _ _ _ _ _ _ _ Rb) as [X|X]; [discriminate|]. split; [exact X|].
    split; [|exact F]. destruct (base_inv _ _ _ _ _ Rb) as ([d' Hb] & _). simpl in Hb. congruence.
  - right. assert (Nw : ws <> []).
    { pose proof (base_inv _ _ _ _ _ Rb) as L. cbn [ls_main ls_workers] in L. intros ->. unfold n_threads in L. cbn [length] in L. lia. }
    split; [exact Nw|]. destruct (c12_ok _ _ _ _ _ _ _ R) as [_ [Pm|(d & o & _ & _ & _ & Q)]]; [exact Pm|]. exfalso. apply NE. rewrite <- Q.
    apply (C12_ends_when_empty _ _ _ _ _ Rb). unfold threads. cbn [ls_main ls_workers]. symmetry in E. apply join_ok in E. destruct E as [_ Nb].
    destruct ws as [|c ws]; [contradiction|]. rewrite forallb_forall in A. specialize (A c (or_introl eq_refl)).
    destruct c; try discriminate A; [destruct ok; [left; reflexivity|]|]; discriminate Nb.
Qed.
