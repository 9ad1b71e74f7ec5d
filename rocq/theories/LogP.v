(** Proofs for C55. *)
From Coq Require Import String List NArith ZArith Bool Lia Arith.
From Verif Require Import Text Utf8M Utf8P SpanM PathM MutantM ProcessM ProcessS ProcessP OutcomeM JsonM LogM LogS.
Import ListNotations.
Open Scope list_scope.

Lemma fwrite_append : forall f h b, fh_append h = true -> fwrite f h b = (f ++ b, mkFH true (length f + length b)).
Proof.
  intros f h b H. unfold fwrite. rewrite H.
  rewrite firstn_all, Nat.sub_diag. cbn [repeat app]. rewrite skipn_all2 by lia. rewrite app_nil_r. reflexivity.
Qed.

Lemma encode_app : forall a b, encode (a ++ b) = encode a ++ encode b.
Proof. intros. unfold encode. apply flat_map_app. Qed.

Lemma message_entry : forall t, concat (message_pieces t) = entry t.
Proof.
  intro t. unfold message_pieces, entry. cbn [concat]. rewrite app_nil_r.
  change (NL :: tx "*** ") with ([NL] ++ tx "*** "). rewrite !encode_app, <- app_assoc. reflexivity.
Qed.

(** ** Nothing is lost *)
Definition kids_append (s : lstate) : Prop := fh_append (l_tool s) = true /\ Forall (fun k => fh_append (snd k) = true) (l_kids s).

Lemma runs_append : forall c tr s, lruns c lstart tr s ->
  kids_append s /\ (l_file s = None -> written tr = [] /\ l_kids s = []) /\ (forall f, l_file s = Some f -> f = written tr).
Proof.
  intros c tr s H. induction H as [|tr l s1 s2 R IH St].
  - split; [split; [reflexivity|constructor]|]. split; [split; reflexivity|]. intros f E. discriminate.
  - destruct IH as [[KT KK] [FN FS]].
    unfold written in *. rewrite flat_map_app.
    inversion St; subst; cbn [flat_map l_file l_kids l_tool set_pc] in *; rewrite ?app_nil_r;
      try (split; [split; assumption|]; split; assumption).
    + split; [split; [reflexivity|assumption]|]. split; [discriminate|].
      intros f E. injection E as <-. symmetry. apply FN. assumption.
    + rewrite (fwrite_append _ _ _ KT) in H2. injection H2 as <- <-.
      split; [split; [reflexivity|assumption]|]. split; [discriminate|].
      intros f0 E. injection E as <-. rewrite (FS _ H1). reflexivity.
    + split; [split; [assumption|]|].
      * apply Forall_app. split; [assumption|]. repeat constructor.
      * split; [|assumption]. cbn [l_file l_kids]. intro E. destruct (FN E) as [_ K].
        (* the log exists once a command runs *)
        split; [apply FN; assumption|]. exfalso.
        revert E. clear - R H. 
        assert (G : forall c tr s, lruns c lstart tr s ->
          match l_pc s with POpen | PEnd None => True | _ => l_file s <> None end).
        { clear. intros c tr s H. induction H as [|tr l s1 s2 R IH St]; [exact I|].
          inversion St; subst; cbn [l_pc l_file set_pc say]; try exact I; try discriminate;
            rewrite ?H in IH; try assumption.
          destruct k; try discriminate; try assumption; try exact I.
          - destruct r; [|exact I]. assumption.
          - destruct (l_pc s1); try discriminate; try exact I. destruct r; [discriminate|exact I]. }
        specialize (G _ _ _ R). rewrite H in G. exact G.
    + assert (KH : fh_append h = true).
      { rewrite H in KK. apply Forall_app in KK. destruct KK as [_ KK]. inversion KK; subst. assumption. }
      rewrite (fwrite_append _ _ _ KH) in H1. injection H1 as <- <-.
      split; [split; [assumption|]|].
      * rewrite H in KK. apply Forall_app in KK. destruct KK as [K1 K2]. apply Forall_app. split; [assumption|].
        inversion K2; subst. constructor; [reflexivity|assumption].
      * split; [discriminate|]. intros f0 E. injection E as <-. rewrite (FS _ H0). reflexivity.
Qed.

(** ** What the tool has written at each place of the program *)
Section At.
Context (c : lconf) (name : text).

Definition upto (out : nat -> list byte) (rs : list (phase * exit_t)) : list byte := whole_log c name out rs.

Fixpoint at_pc (out : nat -> list byte) (k : lpc) (w : list byte) : Prop :=
  match k with
  | POpen | PHead | PPanic => w = []
  | PSay ps k' => at_pc out k' (w ++ concat ps)
  | PStarted => w = entry name
  | PDiff | PApply => is_mutant (lc_scenario c) = true /\ w = upto out []
  | PPhases done _ => w = upto out done
  | PSpawn done p _ => w = upto out done ++ entry (quote_argv (lc_argv c p))
  | PWait done p _ => w = upto out done ++ entry (quote_argv (lc_argv c p)) ++ out (length done)
  | PNext done p e _ => w = upto out (done ++ [(p, e)])
  | PEnd (Some rs) => w = upto out rs
  | PEnd None => True
  end.

Lemma commands_app : forall argv out rs rs' n,
  commands argv out n (rs ++ rs') = commands argv out n rs ++ commands argv out (n + length rs) rs'.
Proof.
  intros argv out rs. induction rs as [|[p e] rs IH]; intros rs' n; cbn [app commands length].
  - rewrite Nat.add_0_r. reflexivity.
  - rewrite IH, <- app_assoc. replace (S n + length rs) with (n + S (length rs)) by lia. reflexivity.
Qed.

Lemma upto_snoc : forall out done p e,
  upto out (done ++ [(p, e)]) = upto out done ++ entry (quote_argv (lc_argv c p)) ++ out (length done)
                                ++ entry (tx "result: " ++ show_exit e).
Proof.
  intros. unfold upto, whole_log. rewrite commands_app. cbn [commands]. unfold command.
  rewrite app_nil_r, !Nat.add_0_l, <- !app_assoc. reflexivity.
Qed.

Lemma commands_ext : forall argv out out' rs n, (forall k, k < n + length rs -> out k = out' k) ->
  commands argv out n rs = commands argv out' n rs.
Proof.
  intros argv out out' rs. induction rs as [|[p e] rs IH]; intros n E; [reflexivity|].
  cbn [commands]. cbn [length] in E. rewrite (E n) by lia. rewrite (IH (S n)); [reflexivity|]. intros k L. apply E. lia.
Qed.
Lemma upto_ext : forall out out' rs, (forall k, k < length rs -> out k = out' k) -> upto out rs = upto out' rs.
Proof. intros. unfold upto, whole_log. f_equal. apply commands_ext. assumption. Qed.
End At.

(** ** The phases done, and the results seen *)
Fixpoint pc_phases (c : lconf) (k : lpc) : Prop :=
  match k with
  | POpen | PHead | PStarted | PDiff | PApply | PPanic => True
  | PSay _ k' => pc_phases c k'
  | PPhases done todo => map fst done ++ todo = lc_phases c /\ Forall (fun r => is_success (snd r) = true) done
  | PSpawn done p todo | PWait done p todo | PNext done p _ todo =>
      map fst done ++ p :: todo = lc_phases c /\ Forall (fun r => is_success (snd r) = true) done
  | PEnd (Some rs) => stops_at_failure (lc_phases c) rs
  | PEnd None => True
  end.

Lemma numbered_app : forall rs rs' n, numbered n (rs ++ rs') = numbered n rs ++ numbered (n + length rs) rs'.
Proof.
  induction rs as [|[p e] rs IH]; intros rs' n; cbn [app numbered length].
  - rewrite Nat.add_0_r. reflexivity.
  - rewrite IH. replace (S n + length rs) with (n + S (length rs)) by lia. reflexivity.
Qed.

Fixpoint pc_exits (k : lpc) (xs : list (nat * exit_t)) : Prop :=
  match k with
  | POpen | PHead | PStarted | PDiff | PApply | PPanic => xs = []
  | PSay _ k' => pc_exits k' xs
  | PPhases done _ | PSpawn done _ _ | PWait done _ _ | PEnd (Some done) => xs = numbered 0 done
  | PNext done p e _ => xs = numbered 0 (done ++ [(p, e)])
  | PEnd None => True
  end.

Lemma all_success_stops : forall ps done, map fst done = ps -> Forall (fun r => is_success (snd r) = true) done -> stops_at_failure ps done.
Proof.
  intros ps done E F. split.
  - exists []. split; [rewrite app_nil_r; auto|]. intro N. contradiction.
  - intros rs' p e later D _. rewrite D in F. apply Forall_app in F. destruct F as [_ F]. inversion F; subst. assumption.
Qed.

Lemma failure_stops : forall ps done p e todo, map fst done ++ p :: todo = ps ->
  Forall (fun r : phase * exit_t => is_success (snd r) = true) done -> is_success e = false -> stops_at_failure ps (done ++ [(p, e)]).
Proof.
  intros ps done p e todo E F X. split.
  - exists todo. split; [rewrite map_app, <- app_assoc; cbn; auto|]. intros _. exists done, p, e. auto.
  - intros rs' p' e' later D N.
    destruct later as [|z later] using rev_ind; [contradiction|]. clear IHlater.
    change ((p', e') :: later ++ [z]) with (((p', e') :: later) ++ [z]) in D.
    rewrite app_assoc in D. apply app_inj_tail in D. destruct D as [D _]. rewrite D in F.
    apply Forall_app in F. destruct F as [_ F]. inversion F; subst. assumption.
Qed.

Lemma runs_phases : forall c tr s, lruns c lstart tr s -> pc_phases c (l_pc s) /\ pc_exits (l_pc s) (exits tr).
Proof.
  intros c tr s H. induction H as [|tr l s1 s2 R IH St]; [split; [exact I|reflexivity]|].
  destruct IH as [IP IX]. unfold exits in *. rewrite flat_map_app.
  inversion St; subst; cbn [l_pc set_pc say pc_phases pc_exits flat_map]; rewrite ?app_nil_r;
    try match goal with H : l_pc s1 = _ |- _ => rewrite H in IP, IX end; cbn [pc_phases pc_exits] in *;
    try (split; [exact I|]); try exact I; try (split; assumption); try assumption.
  - split; [split; [reflexivity|constructor]|]. assumption.
  - split; [split; [reflexivity|constructor]|]. assumption.
  - split; [|assumption]. destruct IP as [E F]. rewrite app_nil_r in E. apply all_success_stops; assumption.
  - split; [assumption|]. rewrite IX, numbered_app. cbn. reflexivity.
  - split; [|assumption]. destruct IP as [E F]. split.
    + rewrite map_app, <- app_assoc. cbn. assumption.
    + apply Forall_app. split; [assumption|]. constructor; [assumption|constructor].
  - split; [|assumption]. destruct IP as [E F]. eapply failure_stops; eassumption.
Qed.

(** ** What the tool has written *)
Definition named (c : lconf) : text := match scenario_text (lc_scenario c) with Some t => t | None => [] end.
Definition silent : nat -> list byte := fun _ => [].

Lemma head_baseline : forall c name out, is_mutant (lc_scenario c) = false -> upto c name out [] = entry name.
Proof. intros c name out E. unfold upto, whole_log, heading. rewrite E. cbn [commands]. rewrite !app_nil_r. reflexivity. Qed.
Lemma head_mutant : forall c name out, is_mutant (lc_scenario c) = true ->
  upto c name out [] = entry name ++ entry (tx "mutation diff:" ++ [NL] ++ lc_diff c).
Proof. intros c name out E. unfold upto, whole_log, heading. rewrite E. cbn [commands]. rewrite !app_nil_r. reflexivity. Qed.

(** Each place extends to the text of a whole log. *)
Fixpoint no_err (k : lpc) : Prop :=
  match k with PSay _ k' => no_err k' | PEnd None => False | _ => True end.

Lemma at_extend : forall c k w, at_pc c (named c) silent k w -> pc_phases c k -> no_err k ->
  exists rs more rest, whole_log c (named c) silent rs = w ++ more /\ lc_phases c = map fst rs ++ rest.
Proof.
  intros c k. induction k; intros w A P N; cbn [at_pc pc_phases no_err] in *.
  - subst w. exists [], (whole_log c (named c) silent []), (lc_phases c). auto.
  - subst w. exists [], (whole_log c (named c) silent []), (lc_phases c). auto.
  - destruct (IHk _ A P N) as [rs [more [rest [E1 E2]]]].
    exists rs, (concat ps ++ more), rest; rewrite app_assoc; split; assumption.
  - subst w. exists []. eexists. exists (lc_phases c). split; [|reflexivity]. unfold whole_log, heading.
    rewrite <- !app_assoc. reflexivity.
  - destruct A as [_ ->]. exists [], [], (lc_phases c). rewrite app_nil_r. auto.
  - destruct A as [_ ->]. exists [], [], (lc_phases c). rewrite app_nil_r. auto.
  - subst w. destruct P as [P _]. exists done, [], todo. rewrite app_nil_r. auto.
  - subst w. destruct P as [P _]. exists (done ++ [(p, ExOther)]). eexists. exists todo. split.
    + change (whole_log c (named c) silent (done ++ [(p, ExOther)])) with (upto c (named c) silent (done ++ [(p, ExOther)])).
      rewrite upto_snoc, <- app_assoc. reflexivity.
    + rewrite map_app, <- app_assoc. auto.
  - subst w. destruct P as [P _]. exists (done ++ [(p, ExOther)]). eexists. exists todo. split.
    + change (whole_log c (named c) silent (done ++ [(p, ExOther)])) with (upto c (named c) silent (done ++ [(p, ExOther)])).
      rewrite upto_snoc, <- !app_assoc. reflexivity.
    + rewrite map_app, <- app_assoc. auto.
  - subst w. destruct P as [P _]. exists (done ++ [(p, e)]), [], todo. rewrite app_nil_r. split; [reflexivity|].
    rewrite map_app, <- app_assoc. auto.
  - destruct r as [rs|]; [|contradiction]. subst w. destruct P as [[rest [E _]] _]. exists rs, [], rest. rewrite app_nil_r. auto.
  - subst w. exists [], (whole_log c (named c) silent []), (lc_phases c). auto.
Qed.

Lemma app_cons_concat : forall (w x y : list byte) ps, (w ++ x) ++ concat (y :: ps) = w ++ concat ((x ++ y) :: ps).
Proof. intros. cbn [concat]. rewrite <- !app_assoc. reflexivity. Qed.

Definition begun (c : lconf) (w : list byte) : Prop :=
  exists rs more rest, whole_log c (named c) silent rs = w ++ more /\ lc_phases c = map fst rs ++ rest.

Lemma runs_told : forall c tr s, lruns c lstart tr s ->
  at_pc c (named c) silent (l_pc s) (told tr) /\ (l_pc s = PEnd None \/ no_err (l_pc s)) /\ begun c (told tr).
Proof.
  intros c tr s H. 
  enough (G : at_pc c (named c) silent (l_pc s) (told tr) /\ (l_pc s = PEnd None /\ begun c (told tr) \/ no_err (l_pc s))).
  { destruct G as [A [[E B]|N]]; [auto|]. split; [assumption|]. split; [auto|].
    eapply at_extend; [eassumption| |assumption]. apply (runs_phases _ _ _ H). }
  induction H as [|tr l s1 s2 R IH St]; [split; [reflexivity|right; exact I]|].
  destruct IH as [A G].
  assert (B : no_err (l_pc s1) -> begun c (told tr)).
  { intro N. eapply at_extend; [eassumption| |assumption]. apply (runs_phases _ _ _ R). }
  unfold told in *. rewrite flat_map_app.
  inversion St; subst; cbn [l_pc set_pc flat_map]; rewrite ?app_nil_r;
    try match goal with H : l_pc s1 = _ |- _ => rewrite H in A, G, B end; cbn [at_pc no_err] in *;
    try (split; [exact I|]; left; split; [reflexivity|]; apply B; exact I).
  - auto.
  - unfold say. cbn [at_pc no_err]. rewrite message_entry. split; [|right; exact I]. rewrite A. unfold named. rewrite H0. reflexivity.
  - auto.
  - rewrite app_cons_concat. split; [assumption|]. destruct G as [[G _]|G]; [discriminate|]. auto.
  - split; [assumption|]. destruct G as [[G _]|G]; [discriminate|]. auto.
  - cbn [concat] in A. rewrite app_nil_r in A. split; [assumption|]. destruct G as [[G _]|G]; [discriminate|]. auto.
  - split; [exact I|]. left. split; [reflexivity|]. destruct G as [[G _]|G]; [discriminate|]. auto.
  - split; [|auto]. rewrite head_baseline; [assumption|]. rewrite H0. reflexivity.
  - unfold say. cbn [at_pc no_err]. rewrite message_entry. split; [|auto]. split; [rewrite H0; reflexivity|].
    rewrite head_mutant; [rewrite A; reflexivity|]. rewrite H0. reflexivity.
  - split; [assumption|auto].
  - destruct A as [_ A]. auto.
  - unfold say. cbn [at_pc no_err]. rewrite message_entry. split; [rewrite A; reflexivity|auto].
  - auto.
  - split; [|auto]. rewrite A. unfold silent. rewrite app_nil_r. reflexivity.
  - unfold say. cbn [at_pc no_err]. rewrite message_entry. split; [|auto]. rewrite upto_snoc, A, <- !app_assoc. reflexivity.
  - auto.
  - auto.
  - auto.
Qed.

(** ** Tidy commands *)
Definition run_state (r : option nat) (tr : list label) : option nat :=
  fold_left (fun r l => match l with ESpawn n => Some n | EExit _ _ => None | _ => r end) tr r.
Lemma tidy_app : forall tr r tr', tidy r (tr ++ tr') = tidy r tr && tidy (run_state r tr) tr'.
Proof.
  induction tr as [|l tr IH]; intros r tr'; [reflexivity|].
  cbn [app tidy run_state fold_left]. destruct l; try apply IH.
  destruct r as [k|]; [|reflexivity]. rewrite IH, andb_assoc. reflexivity.
Qed.

Fixpoint pc_running (k : lpc) (r : option nat) : Prop :=
  match k with
  | PSay _ k' => pc_running k' r
  | PWait done _ _ => r = Some (length done)
  | PEnd None => True
  | _ => r = None
  end.

Definition outs (tr : list label) : nat -> list byte := fun n => output_of n tr.

Lemma output_app : forall n a b, output_of n (a ++ b) = output_of n a ++ output_of n b.
Proof. intros. unfold output_of. apply flat_map_app. Qed.
Lemma output_child : forall n b j, output_of j [EChild n b] = if Nat.eqb n j then b else [].
Proof. intros. unfold output_of. cbn [flat_map]. apply app_nil_r. Qed.
Lemma written_app : forall a b, written (a ++ b) = written a ++ written b.
Proof. intros. unfold written. apply flat_map_app. Qed.

(** Commands not yet started have written nothing. *)
Fixpoint pc_count (k : lpc) : nat :=
  match k with
  | PSay _ k' => pc_count k'
  | PPhases done _ | PSpawn done _ _ => length done
  | PWait done _ _ | PNext done _ _ _ => S (length done)
  | PEnd (Some rs) => length rs
  | _ => 0
  end.

Lemma at_ext : forall c name out out' k w, (forall n, n < pc_count k -> out n = out' n) -> at_pc c name out k w -> at_pc c name out' k w.
Proof.
  intros c name out out' k. induction k; intros w E A; cbn [at_pc pc_count] in *; try assumption.
  - apply IHk; assumption.
  - rewrite A. apply upto_ext. assumption.
  - rewrite A. f_equal. apply upto_ext. assumption.
  - rewrite A. f_equal; [|f_equal].
    + apply upto_ext. intros. apply E. lia.
    + apply E. lia.
  - rewrite A. apply upto_ext. intros n L. apply E. rewrite app_length in L. cbn in L. lia.
  - destruct r as [rs|]; [|exact I]. rewrite A. apply upto_ext. assumption.
Qed.

Lemma runs_tidy : forall c tr s, lruns c lstart tr s -> tidy None tr = true ->
  pc_running (l_pc s) (run_state None tr)
  /\ (l_pc s <> PEnd None -> forall n, pc_count (l_pc s) <= n -> output_of n tr = [])
  /\ at_pc c (named c) (outs tr) (l_pc s) (written tr).
Proof.
  intros c tr s H. induction H as [|tr l s1 s2 R IH St]; intro T.
  - split; [reflexivity|]. split; [intros; reflexivity|reflexivity].
  - rewrite tidy_app in T. apply andb_true_iff in T. destruct T as [T T2].
    destruct (IH T) as [IR [IO IA]]. clear IH.
    pose proof (proj1 (proj2 (runs_told _ _ _ R))) as NE.
    unfold run_state in *. rewrite fold_left_app. cbn [fold_left].
    set (r := fold_left _ tr None) in *.
    rewrite written_app.
    assert (OQ : forall l', (forall n, output_of n [l'] = []) -> forall n, outs (tr ++ [l']) n = outs tr n).
    { intros l' E n. unfold outs. rewrite output_app, E, app_nil_r. reflexivity. }
    assert (AQ : forall l' k w, (forall n, output_of n [l'] = []) -> at_pc c (named c) (outs tr) k w ->
       at_pc c (named c) (outs (tr ++ [l'])) k w).
    { intros l' k w E A. eapply at_ext; [|exact A]. intros n _. symmetry. apply OQ. assumption. }
    assert (EQ : forall n, output_of n [EQuiet] = []) by reflexivity.
    inversion St; subst; cbn [l_pc set_pc] in *;
      match goal with
      | |- context [EChild _ _] => idtac
      | H : l_pc s1 = _ |- _ => rewrite H in IR, IO, IA, NE
      end; cbn [pc_running at_pc pc_count no_err] in *;
      try change (written [EQuiet]) with (@nil byte); rewrite ?app_nil_r;
      try (split; [exact I|]; split; [intro X; contradiction|]; exact I).
    + split; [assumption|]. split; [|assumption]. intros _ n L. rewrite output_app, EQ, app_nil_r. apply IO; [discriminate|lia].
    + unfold say. cbn [pc_running at_pc pc_count]. split; [assumption|]. split.
      * intros _ n L. rewrite output_app, EQ, app_nil_r. apply IO; [discriminate|lia].
      * rewrite message_entry. rewrite IA. unfold named. rewrite H0. reflexivity.
    + split; [assumption|]. split; [|assumption]. intros _ n L. rewrite output_app, EQ, app_nil_r. apply IO; [discriminate|lia].
    + split; [assumption|]. split.
      * intros _ n L. rewrite output_app. cbn [output_of flat_map]. rewrite app_nil_r. apply IO; [discriminate|assumption].
      * change (written [ETool x]) with (x ++ []). rewrite app_nil_r, app_cons_concat. apply AQ; [reflexivity|assumption].
    + split; [assumption|]. split; [|apply AQ; assumption]. intros _ n L. rewrite output_app, EQ, app_nil_r. apply IO; [discriminate|assumption].
    + cbn [concat] in IA. rewrite app_nil_r in IA. split; [assumption|]. split; [|apply AQ; assumption].
      intros X n L. rewrite output_app, EQ, app_nil_r. apply IO; [discriminate|assumption].
    + split; [assumption|]. split.
      * intros _ n L. rewrite output_app, EQ, app_nil_r. apply IO; [discriminate|cbn; lia].
      * rewrite head_baseline; [assumption|]. rewrite H0. reflexivity.
    + unfold say. cbn [pc_running at_pc pc_count]. split; [assumption|]. split.
      * intros _ n L. rewrite output_app, EQ, app_nil_r. apply IO; [discriminate|lia].
      * rewrite message_entry. split; [rewrite H0; reflexivity|]. rewrite head_mutant; [rewrite IA; reflexivity|]. rewrite H0. reflexivity.
    + split; [assumption|]. split; [|assumption].
      intros _ n L. rewrite output_app, EQ, app_nil_r. apply IO; [discriminate|lia].
    + split; [assumption|]. split; [|apply IA].
      intros _ n L. rewrite output_app, EQ, app_nil_r. apply IO; [discriminate|lia].
    + unfold say. cbn [pc_running at_pc pc_count]. split; [assumption|]. split.
      * intros _ n L. rewrite output_app, EQ, app_nil_r. apply IO; [discriminate|lia].
      * rewrite message_entry. change (at_pc c (named c) (outs (tr ++ [EQuiet])) (PSpawn done p todo) (written tr ++ entry (quote_argv (lc_argv c p)))).
        apply AQ; [assumption|]. cbn [at_pc]. rewrite IA. reflexivity.
    + split; [assumption|]. split; [|apply (AQ EQuiet (PPhases done [])); assumption].
      intros _ n L. rewrite output_app, EQ, app_nil_r. apply IO; [discriminate|lia].
    + split; [reflexivity|]. split.
      * intros _ n L. rewrite output_app. change (output_of n [ESpawn (length done)]) with (@nil byte). rewrite app_nil_r. apply IO; [discriminate|lia].
      *
        apply (AQ (ESpawn (length done)) (PWait done p todo)); [reflexivity|]. cbn [at_pc]. rewrite IA.
        replace (outs tr (length done)) with (@nil byte); [rewrite app_nil_r; reflexivity|].
        symmetry. apply IO; [discriminate|lia].
    + unfold say. cbn [pc_running at_pc pc_count]. split; [reflexivity|]. split.
      * intros _ n L. rewrite output_app. change (output_of n [EExit (length done) e]) with (@nil byte). rewrite app_nil_r. apply IO; [discriminate|lia].
      * rewrite message_entry.
        apply (AQ (EExit (length done) e) (PNext done p e todo)); [reflexivity|]. cbn [at_pc]. rewrite IA, upto_snoc, <- !app_assoc. reflexivity.
    + split; [assumption|]. split; [|apply (AQ EQuiet (PNext done p e todo)); assumption].
      intros _ n L. rewrite output_app, EQ, app_nil_r. apply IO; [discriminate|]. rewrite app_length in L. cbn in L. lia.
    + split; [assumption|]. split; [|apply (AQ EQuiet (PNext done p e todo)); assumption].
      intros _ n L. rewrite output_app, EQ, app_nil_r. apply IO; [discriminate|]. rewrite app_length in L. cbn in L. lia.
    + (* a command writes *)
      change (run_state None tr) with r in T2. cbn [tidy] in T2.
      destruct r as [k|] eqn:Er; [|discriminate]. rewrite andb_true_r in T2. apply Nat.eqb_eq in T2. subst k.
      split; [assumption|].
      assert (W : l_pc s1 = PEnd None \/ (exists done p todo, l_pc s1 = PWait done p todo /\ n = length done)
                  \/ exists ps k, l_pc s1 = PSay ps k).
      { destruct (l_pc s1); cbn [pc_running] in IR; try discriminate; eauto.
        - injection IR as IR. right. left. exists done, p, todo. auto.
        - destruct r0; [discriminate|]. auto. }
      change (written [EChild n b]) with (b ++ []). rewrite app_nil_r.
      destruct W as [W|[[done [p [todo [W ->]]]]|[ps [k W]]]].
      * rewrite W. split; [intro X; contradiction|exact I].
      * rewrite W in *. cbn [pc_count at_pc] in *. split.
        -- intros _ j L. rewrite output_app. rewrite (IO ltac:(discriminate) j L), output_child.
           rewrite (proj2 (Nat.eqb_neq (length done) j)) by lia. reflexivity.
        -- rewrite IA, <- !app_assoc. f_equal; [|f_equal].
           ++ apply upto_ext. intros j L. unfold outs. rewrite output_app, output_child.
              rewrite (proj2 (Nat.eqb_neq (length done) j)) by lia. rewrite !app_nil_r. reflexivity.
           ++ unfold outs. rewrite output_app, output_child. rewrite Nat.eqb_refl. reflexivity.
      * exfalso. rewrite W in IR. cbn [pc_running] in IR.
        assert (Z : forall tr s, lruns c lstart tr s -> forall ps k, l_pc s = PSay ps k ->
          match k with PStarted | PDiff | PSpawn _ _ _ | PNext _ _ _ _ => True | _ => False end).
        { clear. intros tr s H. induction H as [|tr l s1 s2 R IH St]; intros ps k E; [discriminate|].
          inversion St; subst; cbn [l_pc set_pc] in E; unfold say in E; try discriminate; try (injection E as <- <-; exact I);
          try (injection E as <- <-; eapply IH; eassumption).
          - rewrite E in *. specialize (IH _ _ H). contradiction.
          - eapply IH; eassumption. }
        specialize (Z _ _ R _ _ W). destruct k; try contradiction; cbn [pc_running] in IR; discriminate.
Qed.

(** ** The reader *)
Lemma mark_is : mark = [10; 42; 42; 42; 32]%N.
Proof. reflexivity. Qed.

Lemma no_mark_nonl : forall t, ~ In 10%N t -> has_mark t = false.
Proof.
  induction t as [|b t IH]; intro H; [reflexivity|]. cbn [has_mark]. rewrite IH by (intro; apply H; right; assumption).
  rewrite mark_is. cbn [starts_with]. destruct (N.eqb_spec 10 b); [|reflexivity]. exfalso. apply H. left. auto.
Qed.
Lemma has_mark_app_nl : forall a b, ~ In 10%N a -> has_mark (a ++ b) = has_mark b.
Proof.
  induction a as [|x a IH]; intros b H; [reflexivity|]. cbn [app has_mark].
  rewrite IH by (intro; apply H; right; assumption).
  rewrite mark_is. cbn [starts_with]. destruct (N.eqb_spec 10 x); [|reflexivity]. exfalso. apply H. left. auto.
Qed.

(** A mark does not begin inside a text that has none and is followed by a mark. *)
Lemma starts_before_mark : forall x a y, starts_with mark (x :: a) = false -> starts_with mark ((x :: a) ++ mark ++ y) = false.
Proof.
  intros x a y. rewrite mark_is.
  destruct a as [|a1 [|a2 [|a3 [|a4 a]]]]; cbn [app starts_with].
  - intros _. change (N.eqb 42 10) with false. cbn [andb]. apply andb_false_r.
  - intros _. change (N.eqb 42 10) with false. cbn [andb]. rewrite !andb_false_r. reflexivity.
  - intros _. change (N.eqb 42 10) with false. cbn [andb]. rewrite !andb_false_r. reflexivity.
  - intros _. change (N.eqb 32 10) with false. cbn [andb]. rewrite !andb_false_r. reflexivity.
  - intro H. exact H.
Qed.

Lemma parts_step : forall x cur y, has_mark x = false -> parts 0 cur (x ++ mark ++ y) = (cur ++ x) :: parts 0 [] y.
Proof.
  induction x as [|b x IH]; intros cur y H.
  - cbn [app]. rewrite app_nil_r. rewrite mark_is. cbn [app parts]. rewrite mark_is. cbn [starts_with]. cbn. reflexivity.
  - cbn [has_mark] in H. apply orb_false_iff in H. destruct H as [H1 H2].
    change ((b :: x) ++ mark ++ y) with (b :: (x ++ mark ++ y)). cbn [parts].
    change (b :: (x ++ mark ++ y)) with ((b :: x) ++ mark ++ y). rewrite (starts_before_mark _ _ _ H1).
    rewrite (IH _ _ H2), <- app_assoc. reflexivity.
Qed.
Lemma parts_last : forall x cur, has_mark x = false -> parts 0 cur x = [cur ++ x].
Proof.
  induction x as [|b x IH]; intros cur H; [cbn; rewrite app_nil_r; reflexivity|].
  cbn [has_mark] in H. apply orb_false_iff in H. destruct H as [H1 H2]. cbn [parts]. rewrite H1, (IH _ H2), <- app_assoc. reflexivity.
Qed.

(** The text whose parts these are. *)
Definition marked (l : list (list byte)) : list byte := flat_map (fun p => mark ++ p) l.
Lemma parts_marked : forall l first, has_mark first = false -> Forall (fun p => has_mark p = false) l ->
  parts 0 [] (first ++ marked l) = first :: l.
Proof.
  induction l as [|p l IH]; intros first F A.
  - cbn [marked flat_map]. rewrite app_nil_r. apply parts_last. assumption.
  - inversion A; subst. cbn [marked flat_map]. rewrite <- app_assoc, (parts_step _ _ _ F). cbn [app]. f_equal. apply IH; assumption.
Qed.

Lemma encode_no_nl : forall t, ~ In NL t -> ~ In 10%N (encode t).
Proof.
  intros t N I. apply N. unfold encode in I. apply in_flat_map in I. destruct I as [ch [I1 I2]].
  replace NL with ch; [assumption|]. revert I2. unfold encode_char.
  destruct (N.ltb_spec ch 128); [intros [E|[]]; exact E|].
  destruct (N.ltb ch 2048); [|destruct (N.ltb ch 65536)]; cbn [In]; intro E; exfalso;
    repeat (destruct E as [E|E]); try contradiction;
    match type of E with (?a + ?b = _)%N => pose proof (N.le_0_l b); lia end.
Qed.

Lemma entry_mark : forall t, entry t = mark ++ encode (t ++ [NL]).
Proof. intro t. unfold entry, mark. rewrite !encode_app, <- !app_assoc. reflexivity. Qed.

Lemma show_exit_no_nl : forall e, ~ In NL (tx "result: " ++ show_exit e).
Proof.
  intros e. 
  assert (Z : forall z, ~ In NL (show_Z z)).
  { intro z. assert (D : forall n, ~ In NL (show_N n)).
    { intros n I. apply (is_digit_not _ NL (show_N_digits n)) in I; [assumption|reflexivity]. }
    destruct z; cbn [show_Z]; try apply D. intro I. apply in_app_or in I. destruct I as [[E|[]]|I]; [discriminate|]. apply (D _ I). }
  intro I. apply in_app_or in I. destruct I as [I|I]; [revert I; vm_compute; intuition discriminate|].
  destruct e; cbn [show_exit] in I; try (revert I; vm_compute; intuition discriminate).
  - apply in_app_or in I. destruct I as [I|I]; [revert I; vm_compute; intuition discriminate|].
    apply in_app_or in I. destruct I as [I|I]; [apply (Z _ I)|]. revert I; vm_compute; intuition discriminate.
  - apply in_app_or in I. destruct I as [I|I]; [revert I; vm_compute; intuition discriminate|].
    apply in_app_or in I. destruct I as [I|I]; [apply (Z _ I)|]. revert I; vm_compute; intuition discriminate.
Qed.

Lemma has_mark_snoc_nl : forall a, has_mark a = false -> has_mark (a ++ [10%N]) = false.
Proof.
  induction a as [|x a IH]; intro H; [reflexivity|]. cbn [has_mark] in H. apply orb_false_iff in H. destruct H as [H1 H2].
  cbn [app has_mark]. rewrite (IH H2), orb_false_r. revert H1. rewrite mark_is.
  destruct a as [|a1 [|a2 [|a3 [|a4 a]]]]; cbn [app starts_with]; intro H1.
  - rewrite andb_false_r. reflexivity.
  - change (N.eqb 42 10) with false. rewrite !andb_false_r. reflexivity.
  - change (N.eqb 42 10) with false. rewrite !andb_false_r. reflexivity.
  - change (N.eqb 32 10) with false. rewrite !andb_false_r. reflexivity.
  - exact H1.
Qed.

Lemma commands_marked : forall argv out rs n,
  commands argv out n rs = marked (command_parts argv out n rs).
Proof.
  intros argv out rs. induction rs as [|[p e] rs IH]; intro n; [reflexivity|].
  cbn [commands command_parts]. unfold marked. cbn [flat_map]. unfold command. rewrite !entry_mark, IH.
  rewrite <- !app_assoc. reflexivity.
Qed.

Lemma command_parts_clean : forall argv out rs n, (forall k, no_star_line (out k)) ->
  Forall (fun p => has_mark p = false) (command_parts argv out n rs).
Proof.
  intros argv out rs. induction rs as [|[p e] rs IH]; intros n O; cbn [command_parts]; constructor; [|constructor].
  - rewrite encode_app, <- app_assoc.
    rewrite has_mark_app_nl; [apply O|]. apply encode_no_nl. intro I. apply quote_argv_chars in I. destruct I as [I _]. contradiction.
  - rewrite app_assoc, encode_app. apply has_mark_snoc_nl. apply no_mark_nonl. apply encode_no_nl. apply show_exit_no_nl.
  - apply IH. assumption.
Qed.

Lemma log_readable : forall c name out rs, has_mark (encode name) = false -> no_star_line (encode (lc_diff c)) ->
  (forall k, no_star_line (out k)) -> parts 0 [] (whole_log c name out rs) = log_parts c name out rs.
Proof.
  intros c name out rs N D O. unfold whole_log, log_parts, heading.
  set (dp := if is_mutant (lc_scenario c) then [encode (tx "mutation diff:" ++ [NL] ++ lc_diff c ++ [NL])] else []).
  replace (entry name ++ _) with (marked ((encode (name ++ [NL])) :: dp)).
  2:{ unfold marked. cbn [flat_map]. rewrite entry_mark. f_equal. unfold dp. destruct (is_mutant (lc_scenario c)); [|reflexivity].
      cbn [flat_map]. rewrite entry_mark, app_nil_r, <- !app_assoc. reflexivity. }
  rewrite commands_marked. unfold marked. rewrite <- flat_map_app.
  change (encode (name ++ [NL]) :: dp ++ command_parts (lc_argv c) out 0 rs) with ((encode (name ++ [NL]) :: dp) ++ command_parts (lc_argv c) out 0 rs).
  apply (parts_marked ((encode (name ++ [NL]) :: dp) ++ command_parts (lc_argv c) out 0 rs) []); [reflexivity|].
  apply Forall_app. split; [|apply command_parts_clean; assumption].
  constructor.
  - rewrite encode_app. apply has_mark_snoc_nl. assumption.
  - unfold dp. destruct (is_mutant (lc_scenario c)); constructor; [|constructor].
    rewrite !app_assoc, encode_app, <- app_assoc. apply has_mark_snoc_nl. rewrite encode_app.
    rewrite has_mark_app_nl; [exact D|]. vm_compute. intuition discriminate.
Qed.

(** ** The diff file *)
Fixpoint pc_diff (c : lconf) (d : option (list byte)) (k : lpc) : Prop :=
  match k with
  | PSay _ k' => pc_diff c d k'
  | PApply => is_mutant (lc_scenario c) = true /\ d = Some (encode (lc_diff c))
  | PDiff => is_mutant (lc_scenario c) = true /\ d = None
  | PPhases _ _ | PSpawn _ _ _ | PWait _ _ _ | PNext _ _ _ _ | PEnd (Some _) =>
      d = if is_mutant (lc_scenario c) then Some (encode (lc_diff c)) else None
  | PEnd None => True
  | _ => d = None
  end.
Lemma runs_pc_diff : forall c tr s, lruns c lstart tr s -> pc_diff c (l_diff s) (l_pc s).
Proof.
  intros c tr s H. induction H as [|tr l s1 s2 R IH St]; [reflexivity|].
  inversion St; subst; cbn [l_pc l_diff set_pc say]; unfold say;
    match goal with
    | H : l_kids s1 = _ |- _ => exact IH
    | H : l_pc s1 = _ |- _ => rewrite H in IH
    end; cbn [pc_diff] in *; try exact I; try exact IH.
  - rewrite H0. exact IH.
  - split; [rewrite H0; reflexivity|exact IH].
  - destruct IH as [M _]. split; [exact M|reflexivity].
  - destruct IH as [M D]. rewrite M. exact D.
Qed.
Lemma runs_diff : forall c tr s rs, lruns c lstart tr s -> l_pc s = PEnd (Some rs) ->
  l_diff s = if is_mutant (lc_scenario c) then Some (encode (lc_diff c)) else None.
Proof. intros c tr s rs H E. pose proof (runs_pc_diff _ _ _ H) as G. rewrite E in G. exact G. Qed.

(** ** Errors without faults of the disk *)
Lemma open_none : forall c tr s, lruns c lstart tr s -> l_pc s = POpen -> l_file s = None.
Proof.
  intros c tr s H. enough (G : (l_pc s = POpen -> l_file s = None /\ l_kids s = []) /\ (fix go k := match k with PSay _ k' => k' <> POpen /\ go k' | _ => True end) (l_pc s))
    by (intro E; apply G; exact E).
  induction H as [|tr l s1 s2 R IH St]; [split; [auto|exact I]|]. destruct IH as [IH1 IH2].
  inversion St; subst; cbn [l_pc l_file l_kids set_pc say]; unfold say;
    try match goal with H : l_pc s1 = _ |- _ => rewrite H in IH1, IH2 end;
    try (split; [discriminate|try exact I; try (split; [discriminate|exact I]); try exact IH2]).
  - destruct IH2 as [N IH2]. split; [intro E; contradiction|exact IH2].
  - split; [|exact IH2]. intro E. destruct (IH1 E) as [_ K]. rewrite K in H. destruct k1; discriminate.
Qed.

Lemma error_told : forall c name tr s, scenario_text (lc_scenario c) = Some name -> lc_faults c = false -> lruns c lstart tr s -> l_pc s = PEnd None ->
  (l_diff s = if is_mutant (lc_scenario c) then Some (encode (lc_diff c)) else None)
  /\ exists rs, told tr = whole_log c name silent rs \/ exists p, told tr = whole_log c name silent rs ++ entry (quote_argv (lc_argv c p)).
Proof.
  intros c name tr s N NF H. induction H as [|tr l s1 s2 R IH St]; [discriminate|]. intro E.
  pose proof (runs_pc_diff _ _ _ R) as D. destruct (runs_told _ _ _ R) as [T _]. unfold named in T. rewrite N in T.
  inversion St; subst; cbn [l_pc l_diff set_pc say] in *; unfold say in *; try discriminate; try congruence;
    try match goal with H : l_pc s1 = _ |- _ => rewrite H in D, T end; cbn [pc_diff at_pc] in *;
    unfold told in *; rewrite ?flat_map_app; cbn [flat_map]; rewrite ?app_nil_r.
  - exfalso. rewrite (open_none _ _ _ R H) in H0. discriminate.
  - exfalso. subst k. assert (Q : l_pc s1 = PSay [] (PEnd None)) by assumption. destruct (runs_told _ _ _ R) as [_ [[B|B] _]]; rewrite Q in B; [discriminate|exact B].
  - destruct D as [M D]. destruct T as [_ T]. rewrite M. split; [exact D|]. exists []. left. exact T.
  - split; [exact D|]. exists done. right. exists p. exact T.
  - split; [exact D|]. exists done. right. exists p. unfold silent in T at 2. rewrite app_nil_r in T. exact T.
  - split; [exact D|]. exists (done ++ [(p, e)]). left. exact T.
  - destruct (IH E) as [A B]. split; [exact A|exact B].
Qed.

(** ** Building runs *)
Lemma lr_cons : forall c s l s1 tr s2, lstep c s l s1 -> lruns c s1 tr s2 -> lruns c s (l :: tr) s2.
Proof.
  intros c s l s1 tr s2 St R. induction R as [|tr l' s2 s3 R IH St'].
  - apply (lr_more c s [] l s s1); [constructor|assumption].
  - change (l :: tr ++ [l']) with ((l :: tr) ++ [l']). eapply lr_more; [apply IH; assumption|assumption].
Qed.
Lemma within_false : forall x t, within x t = false -> forall a b, t <> a ++ x ++ b.
Proof.
  intros x t. induction t as [|y t IH]; intros W a b E.
  - cbn [within] in W. destruct a; [|discriminate]. destruct x; [discriminate|discriminate].
  - cbn [within] in W. apply orb_false_iff in W. destruct W as [W1 W2]. destruct a as [|z a].
    + cbn [app] in E. assert (starts_with x (y :: t) = true); [|congruence]. apply starts_with_iff. eauto.
    + injection E as _ E. apply (IH W2 _ _ E).
Qed.

(** ** Words *)
Lemma show_Z_sign : forall c, show_Z c = (if (c <? 0)%Z then tx "-" else []) ++ show_N (Z.abs_N c).
Proof. intros [|p|p]; reflexivity. Qed.
Lemma exit_word : forall e, result_word e (show_exit e).
Proof. intros []; cbn [result_word show_exit]; try reflexivity; rewrite show_Z_sign, <- app_assoc; reflexivity. Qed.
Lemma show_Z_inj : forall a b, show_Z a = show_Z b -> a = b.
Proof.
  intros a b. rewrite !show_Z_sign.
  assert (D : forall n r, show_N n <> tx "-" ++ r).
  { intros n r E. assert (I : In 45%N (show_N n)) by (rewrite E; left; reflexivity).
    apply (is_digit_not _ 45%N (show_N_digits n)) in I; [exact I|reflexivity]. }
  destruct (Z.ltb_spec a 0), (Z.ltb_spec b 0); intro E.
  - apply app_inv_head, show_N_inj in E. lia.
  - cbn [app] in E. symmetry in E. destruct (D _ _ E).
  - cbn [app] in E. destruct (D _ _ E).
  - apply show_N_inj in E. lia.
Qed.
Lemma exit_inj : forall e e', show_exit e = show_exit e' -> e = e'.
Proof.
  intros e e' E. destruct e as [|c| |c|], e' as [|c'| |c'|]; try discriminate; try reflexivity; cbn [show_exit] in E;
    rewrite !app_assoc in E; apply app_inv_tail in E; apply app_inv_head, show_Z_inj in E; congruence.
Qed.

Lemma existing_kept : forall c f d tr s, lruns c (mkL (Some f) d tool_handle [] POpen) tr s ->
  l_file s = Some f /\ l_diff s = d /\ (l_pc s = POpen \/ l_pc s = PEnd None).
Proof.
  intros c f d tr s H.
  assert (G : l_file s = Some f /\ l_diff s = d /\ l_kids s = [] /\ (l_pc s = POpen \/ l_pc s = PEnd None)).
  { induction H as [|tr l s1 s2 H IH St]; [auto|]. destruct IH as (A & B & C & D).
    destruct St; cbn [l_file l_diff l_kids l_pc set_pc]; try (destruct D; congruence); auto.
    rewrite H0 in C. destruct k1; discriminate. }
  tauto.
Qed.

(** ** Panics *)
Lemma panics_when : forall c tr s, lruns c lstart tr s -> l_pc s = PPanic ->
  scenario_text (lc_scenario c) = None /\ l_file s = Some [] /\ l_diff s = None /\ forall n, ~ In (ESpawn n) tr.
Proof.
  intros c tr s H. set (quiet := l_diff s = None /\ forall n, ~ In (ESpawn n) tr).
  enough (G : (l_pc s = POpen -> l_kids s = [] /\ quiet)
              /\ (l_pc s = PHead -> l_kids s = [] /\ l_file s = Some [] /\ quiet)
              /\ (l_pc s = PPanic -> l_kids s = [] /\ scenario_text (lc_scenario c) = None /\ l_file s = Some [] /\ quiet)
              /\ (fix go k := match k with PSay _ k' => k' <> POpen /\ k' <> PHead /\ k' <> PPanic /\ go k' | _ => True end) (l_pc s))
    by (intro E; destruct G as (_ & _ & G & _); destruct (G E) as (_ & A & B & C); unfold quiet in C; tauto).
  subst quiet. induction H as [|tr l s1 s2 R IH St].
  - cbn. repeat split; try discriminate; auto.
  - destruct IH as (IH1 & IH2 & IH3 & IH4).
    inversion St; subst; cbn [l_pc l_file l_diff l_kids set_pc say]; unfold say;
      try match goal with H : l_pc s1 = _ |- _ => rewrite H in IH1, IH2, IH3, IH4 end;
      try (split; [discriminate|]; split; [discriminate|]; split; [discriminate|]; try exact I; try (repeat split; discriminate); try exact IH4).
    + destruct (IH1 eq_refl) as (K & D & Q). split; [discriminate|]. split; [|split; [discriminate|exact I]]. intros _. split; [exact K|]. split; [reflexivity|].
      split; [exact D|]. intros n J. apply in_app_iff in J. destruct J as [J|[J|[]]]; [exact (Q n J)|discriminate J].
    + destruct (IH2 eq_refl) as (K & F & D & Q). split; [discriminate|]. split; [discriminate|]. split; [|exact I]. intros _. split; [exact K|]. split; [assumption|]. split; [exact F|].
      split; [exact D|]. intros n J. apply in_app_iff in J. destruct J as [J|[J|[]]]; [exact (Q n J)|discriminate J].
    + destruct IH4 as (N1 & N2 & N3 & IH4). split; [intro E; contradiction|]. split; [intro E; contradiction|]. split; [intro E; contradiction|exact IH4].
    + split; [intro E; destruct (IH1 E) as (K & _)|split; [intro E; destruct (IH2 E) as (K & _)|split; [intro E; destruct (IH3 E) as (K & _)|exact IH4]]];
        rewrite K in H; destruct k1; discriminate H.
Qed.
