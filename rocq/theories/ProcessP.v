From Coq Require Import String List NArith ZArith Bool Arith Lia.
From Verif Require Import Text ProcessM ProcessS.
Import ListNotations.

Lemma past_dec : forall timeout s,
  match timeout with Some t => (t <? sm_elapsed s)%N | None => false end = true <-> past timeout s.
Proof.
  intros [t|] s; unfold past.
  - rewrite N.ltb_lt. split; [eauto|]. intros [t' [E H]]. now inversion E.
  - split; [discriminate|]. intros [t [E _]]. discriminate.
Qed.

Lemma exit_of_status_not_timeout : forall w, exit_of_status w <> ExTimeout.
Proof. intros [c|s|]; simpl; try discriminate. destruct (c =? 0)%Z; discriminate. Qed.

Lemma poll_spec : forall timeout s r fx, poll timeout s = (r, fx) ->
  match r with
  | PollPending => quiet timeout s /\ fx = []
  | PollExit e =>
      (e = ExTimeout /\ past timeout s /\ fx = [EffKillGroup; EffReaped])
      \/ (~ past timeout s /\ sm_interrupted s = false
          /\ exists w, sm_status s = Some w /\ e = exit_of_status w /\ fx = [EffReaped])
  | PollErr =>
      (past timeout s /\ sm_kill_ok s = false)
      \/ (~ past timeout s /\ (sm_interrupted s = true \/ sm_wait_err s = true))
  | PollBlocked => (past timeout s \/ sm_interrupted s = true) /\ sm_dies s = false
  end.
Proof.
  intros timeout s r fx H. unfold poll in H.
  destruct (match timeout with Some t => _ | None => _ end) eqn:Ep.
  - apply past_dec in Ep. unfold terminate in H.
    destruct (sm_kill_ok s) eqn:Ek; [destruct (sm_dies s) eqn:Ed|]; inversion H; subst; auto.
  - assert (Np : ~ past timeout s).
    { intro Hp. apply past_dec in Hp. congruence. }
    destruct (sm_interrupted s) eqn:Ei.
    + unfold terminate in H.
      destruct (sm_kill_ok s) eqn:Ek; [destruct (sm_dies s) eqn:Ed|]; inversion H; subst; auto.
    + destruct (sm_wait_err s) eqn:Ew; [inversion H; subst; auto|].
      destruct (sm_status s) as [w|] eqn:Es; inversion H; subst.
      * right. split; auto. split; auto. eauto.
      * unfold quiet. auto.
Qed.

Lemma run_exit_spec : forall timeout samples e fx,
  run_loop timeout samples = (RunExit e, fx) ->
  exists pre s post, samples = pre ++ s :: post /\ Forall (quiet timeout) pre /\
    ((e = ExTimeout /\ past timeout s /\ fx = [EffKillGroup; EffReaped])
     \/ (~ past timeout s /\ sm_interrupted s = false
         /\ exists w, sm_status s = Some w /\ e = exit_of_status w /\ fx = [EffReaped])).
Proof.
  intros timeout samples. induction samples as [|s rest IH]; intros e fx H; simpl in H; [discriminate|].
  destruct (poll timeout s) as [r fx0] eqn:Ep. pose proof (poll_spec _ _ _ _ Ep) as Sp.
  destruct r; try (inversion H; fail).
  - destruct (run_loop timeout rest) as [r' fx'] eqn:Er. inversion H; subst.
    destruct (IH _ _ eq_refl) as [pre [s' [post [E [F G]]]]].
    exists (s :: pre), s', post. destruct Sp as [Q ->]. simpl. split; [now rewrite E|].
    split; [constructor; auto|exact G].
  - inversion H; subst. exists [], s, rest. split; auto.
Qed.

Lemma run_timeout_iff : forall timeout samples fx,
  run_loop timeout samples = (RunExit ExTimeout, fx) ->
  exists t pre s post, timeout = Some t /\ samples = pre ++ s :: post
    /\ (t < sm_elapsed s)%N
    /\ (forall q, In q pre -> (sm_elapsed q <= t)%N /\ sm_status q = None)
    /\ fx = [EffKillGroup; EffReaped].
Proof.
  intros timeout samples fx H. apply run_exit_spec in H.
  destruct H as [pre [s [post [E [F [[_ [[t [E1 Hp]] Hf]]|[_ [_ [w [_ [Hw _]]]]]]]]]]].
  - exists t, pre, s, post. repeat split; auto; rewrite Forall_forall in F; apply F in H;
      destruct H as [Hn [_ [_ Hs]]]; auto.
    destruct (N.le_gt_cases (sm_elapsed q) t); auto. exfalso. apply Hn. exists t. auto.
  - exfalso. now apply (exit_of_status_not_timeout w).
Qed.

Lemma run_success : forall timeout samples fx,
  run_loop timeout samples = (RunExit ExSuccess, fx) ->
  exists pre s post, samples = pre ++ s :: post /\ sm_status s = Some (WExited 0)
    /\ (forall t, timeout = Some t -> (sm_elapsed s <= t)%N)
    /\ sm_interrupted s = false /\ fx = [EffReaped].
Proof.
  intros timeout samples fx H. apply run_exit_spec in H.
  destruct H as [pre [s [post [E [F [[H _]|[Hn [Hi [w [Hs [Hw Hf]]]]]]]]]]]; [discriminate|].
  exists pre, s, post. repeat split; auto.
  - rewrite Hs. destruct w as [c|g|]; simpl in Hw; try discriminate.
    destruct (Z.eqb_spec c 0); [now subst|discriminate].
  - intros t Et. destruct (N.le_gt_cases (sm_elapsed s) t); auto. exfalso. apply Hn. exists t. auto.
Qed.

Lemma run_failure : forall timeout samples c fx,
  run_loop timeout samples = (RunExit (ExFailure c), fx) ->
  exists pre s post, samples = pre ++ s :: post /\ sm_status s = Some (WExited c) /\ c <> 0%Z
    /\ (forall t, timeout = Some t -> (sm_elapsed s <= t)%N).
Proof.
  intros timeout samples c fx H. apply run_exit_spec in H.
  destruct H as [pre [s [post [E [F [[H _]|[Hn [Hi [w [Hs [Hw Hf]]]]]]]]]]]; [discriminate|].
  exists pre, s, post. split; auto. destruct w as [c'|g|]; simpl in Hw; try discriminate.
  destruct (Z.eqb_spec c' 0); [discriminate|]. inversion Hw; subst. repeat split; auto.
  intros t Et. destruct (N.le_gt_cases (sm_elapsed s) t); auto. exfalso. apply Hn. exists t. auto.
Qed.

Lemma run_no_timeout : forall samples fx, run_loop None samples <> (RunExit ExTimeout, fx).
Proof.
  intros samples fx H. apply run_timeout_iff in H.
  destruct H as [t [_ [_ [_ [E _]]]]]. discriminate.
Qed.

Lemma run_hung : forall t samples,
  Forall hung samples -> (exists s, In s samples /\ (t < sm_elapsed s)%N) ->
  run_loop (Some t) samples = (RunExit ExTimeout, [EffKillGroup; EffReaped]).
Proof.
  intros t samples. induction samples as [|s rest IH]; intros F [x [Hx Ht]]; [destruct Hx|].
  inversion F; subst. destruct H1 as [H11 [H12 [H13 [H14 H15]]]].
  cbn [run_loop]. unfold poll, terminate. rewrite H11, H12, H13, H14, H15.
  destruct (N.ltb_spec t (sm_elapsed s)) as [Hp|Hp]; [reflexivity|].
  rewrite IH; auto. destruct Hx as [->|Hx]; [lia|]. eauto.
Qed.

(** After a poll past the limit the loop has ended. *)
Lemma run_ends : forall t samples, (exists s, In s samples /\ (t < sm_elapsed s)%N) ->
  fst (run_loop (Some t) samples) <> RunPending.
Proof.
  intros t samples. induction samples as [|s rest IH]; intros [x [Hx Ht]]; [destruct Hx|].
  cbn [run_loop]. destruct (poll (Some t) s) as [r fx] eqn:Ep. pose proof (poll_spec _ _ _ _ Ep) as Sp.
  destruct r; simpl; try discriminate.
  destruct Sp as [[Q _] _].
  destruct (run_loop (Some t) rest) as [r' fx'] eqn:Er. simpl.
  destruct Hx as [->|Hx].
  - exfalso. apply Q. exists t. auto.
  - apply IH. eauto.
Qed.

Lemma spaced_at : forall d pre e s post, spaced d e (pre ++ s :: post) ->
  (forall q, In q pre -> (sm_elapsed q <= sm_elapsed s)%N \/ True) ->
  (sm_elapsed s <= match last pre (mkSample e false None false false false) with q => sm_elapsed q end + d)%N.
Proof.
  intros d pre. induction pre as [|p pre IH]; intros e s post H _; simpl in H; inversion H; subst.
  - simpl. auto.
  - destruct pre as [|p' pre'].
    + simpl in *. inversion H4; subst. auto.
    + apply (IH (sm_elapsed p)) in H4; auto.
      replace (last (p :: p' :: pre') (mkSample e false None false false false))
        with (last (p' :: pre') (mkSample (sm_elapsed p) false None false false false)); auto.
      clear. change (last (p :: p' :: pre') (mkSample e false None false false false))
        with (last (p' :: pre') (mkSample e false None false false false)).
      revert p'. induction pre' as [|q pre' IH]; intro p'; [reflexivity|].
      change (last (p' :: q :: pre') ?x) with (last (q :: pre') x). apply IH.
Qed.

Lemma run_timeout_bound : forall d t samples fx,
  spaced d 0 samples ->
  run_loop (Some t) samples = (RunExit ExTimeout, fx) ->
  exists pre s post, samples = pre ++ s :: post /\ (t < sm_elapsed s <= t + d)%N
    /\ (forall q, In q pre -> (sm_elapsed q <= t)%N).
Proof.
  intros d t samples fx Hs H. apply run_timeout_iff in H.
  destruct H as [t' [pre [s [post [Et [E [Hp [Hq _]]]]]]]]. inversion Et; subst t'.
  exists pre, s, post. split; auto. split; [|intros q Hin; now apply Hq].
  split; auto. rewrite E in Hs. apply spaced_at in Hs; auto.
  eapply N.le_trans; [exact Hs|]. apply N.add_le_mono_r.
  destruct pre as [|p pre].
  - simpl. lia.
  - apply Hq. destruct (exists_last (l := p :: pre)) as [x [y Exy]]; [discriminate|].
    rewrite Exy. rewrite last_last. apply in_or_app. right. now left.
Qed.

(** ** quote_argv *)

Lemma unquote_char : forall c cur r, unquote cur (quote_char c ++ r) = unquote (cur ++ [c]) r.
Proof.
  intros c cur r. unfold quote_char.
  destruct (N.eqb_spec c TAB) as [->|H1]; [reflexivity|].
  destruct (N.eqb_spec c NL) as [->|H2]; [reflexivity|].
  destruct (N.eqb_spec c CR) as [->|H3]; [reflexivity|].
  destruct (N.eqb_spec c SP) as [->|H4]; [reflexivity|].
  destruct (N.eqb_spec c BSLASH) as [->|H5]; [reflexivity|].
  destruct (N.eqb_spec c APOS) as [->|H6]; [reflexivity|].
  destruct (N.eqb_spec c QUOTE) as [->|H7]; [reflexivity|].
  simpl. destruct (N.eqb_spec c BSLASH); [contradiction|].
  destruct (N.eqb_spec c SP); [contradiction|]. reflexivity.
Qed.

Lemma unquote_text : forall s cur r, unquote cur (flat_map quote_char s ++ r) = unquote (cur ++ s) r.
Proof.
  induction s as [|c s IH]; intros cur r; simpl.
  - now rewrite app_nil_r.
  - rewrite <- app_assoc, unquote_char, IH, <- app_assoc. reflexivity.
Qed.

Lemma quote_char_nonempty : forall c, quote_char c <> [].
Proof.
  intro c. unfold quote_char.
  repeat match goal with |- context [if ?b then _ else _] => destruct b end; discriminate.
Qed.

Lemma quote_text_nonempty : forall s, s <> [] -> flat_map quote_char s <> [].
Proof.
  intros [|c s] H; [congruence|]. simpl. intro E. apply app_eq_nil in E.
  destruct E as [E _]. now apply quote_char_nonempty in E.
Qed.

Lemma fold_quote : forall args r, r <> [] ->
  fold_left (fun r s => (match r with [] => r | _ => r ++ [SP] end) ++ flat_map quote_char s) args r
  = r ++ flat_map (fun s => SP :: flat_map quote_char s) args.
Proof.
  induction args as [|a args IH]; intros r H; simpl.
  - now rewrite app_nil_r.
  - rewrite IH.
    + destruct r; [congruence|]. rewrite <- !app_assoc. reflexivity.
    + destruct r; [congruence|]. discriminate.
Qed.

Lemma quote_argv_cons : forall a args, a <> [] ->
  quote_argv (a :: args) = flat_map quote_char a ++ flat_map (fun s => SP :: flat_map quote_char s) args.
Proof.
  intros a args H. unfold quote_argv. simpl. apply fold_quote. now apply quote_text_nonempty.
Qed.

Lemma unquote_args : forall args cur,
  unquote cur (flat_map (fun s => SP :: flat_map quote_char s) args) = cur :: args.
Proof.
  induction args as [|a args IH]; intro cur; simpl; auto.
  rewrite unquote_text, IH. reflexivity.
Qed.

Lemma quote_roundtrip : forall a args, a <> [] -> unquote [] (quote_argv (a :: args)) = a :: args.
Proof.
  intros a args H. rewrite quote_argv_cons by auto.
  rewrite unquote_text. simpl. apply unquote_args.
Qed.

Lemma quote_char_no_nl : forall c x, In x (quote_char c) -> x <> NL /\ x <> CR /\ x <> TAB.
Proof.
  intros c x. unfold quote_char.
  destruct (N.eqb_spec c TAB) as [->|H1]; [simpl; intuition (subst; discriminate)|].
  destruct (N.eqb_spec c NL) as [->|H2]; [simpl; intuition (subst; discriminate)|].
  destruct (N.eqb_spec c CR) as [->|H3]; [simpl; intuition (subst; discriminate)|].
  destruct (_ || _).
  - intros [<-|[<-|[]]]; repeat split; auto; discriminate.
  - intros [<-|[]]; auto.
Qed.

Lemma fold_quote_chars : forall args r, (forall x, In x r -> x <> NL /\ x <> CR /\ x <> TAB) ->
  forall x, In x (fold_left (fun r s => (match r with [] => r | _ => r ++ [SP] end) ++ flat_map quote_char s) args r)
    -> x <> NL /\ x <> CR /\ x <> TAB.
Proof.
  induction args as [|a args IH]; intros r H x Hx; simpl in Hx; auto.
  eapply IH; [|exact Hx]. intros y Hy. apply in_app_or in Hy. destruct Hy as [Hy|Hy].
  - destruct r; [destruct Hy|]. apply in_app_or in Hy. destruct Hy as [Hy|[<-|[]]]; auto.
    repeat split; discriminate.
  - apply in_flat_map in Hy. destruct Hy as [c [_ Hc]]. eapply quote_char_no_nl; eauto.
Qed.

Lemma quote_argv_chars : forall argv x, In x (quote_argv argv) -> x <> NL /\ x <> CR /\ x <> TAB.
Proof. intros argv. unfold quote_argv. apply fold_quote_chars. intros ? []. Qed.

Lemma run_blocked : forall t pre s post, Forall hung pre -> (forall q, In q pre -> (sm_elapsed q <= t)%N) ->
  (t < sm_elapsed s)%N -> sm_kill_ok s = true -> sm_dies s = false ->
  fst (run_loop (Some t) (pre ++ s :: post)) = RunBlocked.
Proof.
  intros t pre s post. induction pre as [|p pre IH]; intros F Hq Ht Hk Hd; simpl app; cbn [run_loop].
  - unfold poll, terminate. rewrite Hk, Hd. replace (t <? sm_elapsed s)%N with true; auto.
    symmetry. now apply N.ltb_lt.
  - inversion F; subst. destruct H1 as [H11 [H12 [H13 _]]].
    unfold poll. rewrite H11, H12, H13.
    replace (t <? sm_elapsed p)%N with false.
    2: { symmetry. apply N.ltb_ge. apply Hq. now left. }
    assert (IH' : fst (run_loop (Some t) (pre ++ s :: post)) = RunBlocked).
    { apply IH; auto. intros q Hin. apply Hq. now right. }
    destruct (run_loop (Some t) (pre ++ s :: post)). exact IH'.
Qed.

(** * The whole behaviour *)
Lemma past_or_not : forall timeout s, past timeout s \/ ~ past timeout s.
Proof.
  intros [t|] s; [destruct (N.ltb_spec t (sm_elapsed s))|].
  - left. exists t. auto.
  - right. intros [t' [[= <-] L]]. lia.
  - right. intros [t' [E _]]. discriminate.
Qed.

Lemma past_cond : forall timeout s, past timeout s <-> match timeout with Some t => (t <? sm_elapsed s)%N | None => false end = true.
Proof.
  intros [t|] s; split.
  - intros [t' [[= <-] L]]. apply N.ltb_lt. exact L.
  - intro L. apply N.ltb_lt in L. exists t. auto.
  - intros [t' [E _]]. discriminate.
  - discriminate.
Qed.

Lemma poll_quiet_pending : forall timeout s, quiet timeout s -> poll timeout s = (PollPending, []).
Proof.
  intros timeout s (Np & I & W & S). unfold poll. rewrite past_cond in Np. apply Bool.not_true_is_false in Np. rewrite Np, I, W, S. reflexivity.
Qed.

Lemma poll_ends : forall timeout s, ~ quiet timeout s -> exists r fx, ends_with timeout s r fx
  /\ forall rest, run_loop timeout (s :: rest) = (r, fx).
Proof.
  intros timeout s Nq. cbn [run_loop]. unfold poll, terminate. destruct (past_or_not timeout s) as [P|P].
  - pose proof P as P'. apply past_cond in P'. rewrite P'. destruct (sm_kill_ok s) eqn:K; [destruct (sm_dies s) eqn:D|].
    + do 2 eexists. split; [apply ew_timeout; auto|reflexivity].
    + do 2 eexists. split; [apply ew_blocked; auto|reflexivity].
    + do 2 eexists. split; [apply ew_kill_failed; auto|reflexivity].
  - pose proof P as P'. rewrite past_cond in P'. apply Bool.not_true_is_false in P'. rewrite P'. destruct (sm_interrupted s) eqn:I.
    + destruct (sm_kill_ok s) eqn:K; [destruct (sm_dies s) eqn:D|].
      * do 2 eexists. split; [apply ew_interrupt; auto|reflexivity].
      * do 2 eexists. split; [apply ew_blocked; auto|reflexivity].
      * do 2 eexists. split; [apply ew_kill_failed; auto|reflexivity].
    + destruct (sm_wait_err s) eqn:W.
      * do 2 eexists. split; [apply ew_wait_failed; auto|reflexivity].
      * destruct (sm_status s) as [w|] eqn:S; [|exfalso; apply Nq; repeat split; auto].
        destruct w as [c|c|]; cbn [exit_of_status].
        -- destruct (Z.eqb_spec c 0) as [->|N].
           ++ do 2 eexists. split; [apply ew_success; auto|reflexivity].
           ++ do 2 eexists. split; [apply (ew_failure timeout s c); auto|reflexivity].
        -- do 2 eexists. split; [apply (ew_signal timeout s c); auto|reflexivity].
        -- do 2 eexists. split; [apply ew_other; auto|reflexivity].
Qed.

Lemma quiet_or_not : forall timeout s, quiet timeout s \/ ~ quiet timeout s.
Proof.
  intros timeout s. unfold quiet. destruct (past_or_not timeout s); [right; tauto|]. destruct (sm_interrupted s); [right; intuition discriminate|].
  destruct (sm_wait_err s); [right; intuition discriminate|]. destruct (sm_status s); [right; intuition discriminate|left; auto].
Qed.

Lemma run_skip : forall timeout pre l, Forall (quiet timeout) pre -> run_loop timeout (pre ++ l) = run_loop timeout l.
Proof.
  intros timeout pre l F. induction F as [|s pre Q F IH]; [reflexivity|]. cbn [app run_loop]. rewrite (poll_quiet_pending _ _ Q), IH.
  destruct (run_loop timeout l) as [r fx]. reflexivity.
Qed.

Lemma run_complete : forall timeout samples,
  (Forall (quiet timeout) samples /\ run_loop timeout samples = (RunPending, []))
  \/ exists pre s post r fx, samples = pre ++ s :: post /\ Forall (quiet timeout) pre /\ ends_with timeout s r fx
       /\ run_loop timeout samples = (r, fx).
Proof.
  intros timeout. induction samples as [|s l IH]; [left; auto|]. destruct (quiet_or_not timeout s) as [Q|Q].
  - destruct IH as [[F R]|(pre & x & post & r & fx & -> & F & E & R)].
    + left. split; [constructor; assumption|]. change (s :: l) with ([s] ++ l). rewrite run_skip by (constructor; auto). exact R.
    + right. exists (s :: pre), x, post, r, fx. split; [reflexivity|]. split; [constructor; assumption|]. split; [exact E|].
      change (s :: pre ++ x :: post) with ([s] ++ pre ++ x :: post). rewrite run_skip by (constructor; auto). exact R.
  - right. destruct (poll_ends _ _ Q) as (r & fx & E & R). exists [], s, l, r, fx. cbn [app]. auto.
Qed.

Lemma run_interrupted : forall timeout pre s post, Forall (quiet timeout) pre -> ~ past timeout s -> sm_interrupted s = true ->
  (sm_kill_ok s = true -> sm_dies s = true -> run_loop timeout (pre ++ s :: post) = (RunErr, [EffKillGroup; EffReaped]))
  /\ forall e, fst (run_loop timeout (pre ++ s :: post)) <> RunExit e.
Proof.
  intros timeout pre s post F P I. rewrite run_skip by exact F.
  assert (Q : ~ quiet timeout s) by (intros (_ & I' & _); congruence).
  destruct (poll_ends _ _ Q) as (r & fx & E & R). rewrite R. split.
  - intros K D. inversion E; subst; congruence || tauto.
  - intros e H. cbn [fst] in H. subst r. inversion E; subst; congruence || tauto.
Qed.

Lemma quote_char_table : forall c t, quote_char c = t <-> escaped c t.
Proof.
  intros c t. unfold quote_char, TAB, NL, CR, SP, BSLASH, APOS, QUOTE. split.
  - intros <-. destruct (N.eqb_spec c 9) as [->|N1]; [constructor|]. destruct (N.eqb_spec c 10) as [->|N2]; [constructor|].
    destruct (N.eqb_spec c 13) as [->|N3]; [constructor|]. destruct (N.eqb_spec c 32) as [->|N4]; [exact esc_space|].
    destruct (N.eqb_spec c 92) as [->|N5]; [exact esc_backslash|]. destruct (N.eqb_spec c 39) as [->|N6]; [exact esc_apostrophe|].
    destruct (N.eqb_spec c 34) as [->|N7]; [exact esc_quote|]. cbn [orb]. constructor. cbn [In]. intuition congruence.
  - intros H. destruct H as [| | | | | | |c N0]; try reflexivity. cbn [In] in N0.
    repeat match goal with |- context [N.eqb c ?x] => destruct (N.eqb_spec c x) as [E|_]; [exfalso; apply N0; rewrite E; tauto|] end.
    reflexivity.
Qed.

Lemma quote_fold : forall args r, r <> [] ->
  fold_left (fun r s => (match r with [] => r | _ => r ++ [SP] end) ++ flat_map quote_char s) args r
  = join [SP] (r :: map (flat_map quote_char) args).
Proof.
  induction args as [|a args IH]; intros r H; [reflexivity|]. cbn [fold_left]. rewrite IH.
  - destruct r as [|x r]; [congruence|]. cbn [map]. destruct args as [|b args]; cbn [map join]; rewrite <- !app_assoc; reflexivity.
  - destruct r as [|x r]; [congruence|]. intro E. apply app_eq_nil in E as [E _]. apply app_eq_nil in E as [E _]. discriminate.
Qed.

Lemma quote_argv_words : forall a args, a <> [] -> quote_argv (a :: args) = join [SP] (map (flat_map quote_char) (a :: args)).
Proof. intros a args H. unfold quote_argv. cbn [fold_left app]. rewrite quote_fold by (apply quote_text_nonempty; exact H). reflexivity. Qed.
