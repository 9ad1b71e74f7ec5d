From Coq Require Import String List NArith ZArith QArith Qround Qabs Qpower Bool Lia Lqa.
From Verif Require Import Text ProcessM OutcomeM OutcomeP F64M F64S F64P TimeoutM TimeoutS.
Import ListNotations.
Open Scope nat_scope.

Lemma Qle_bool_false : forall a b, Qle_bool a b = false -> (b < a)%Q.
Proof.
  intros a b H. apply Qnot_le_lt. intro L. apply Qle_bool_iff in L. congruence.
Qed.

Lemma round_even_int : forall z, round_even (inject_Z z) = z.
Proof.
  intro z. apply round_even_exact. rewrite (Qabs_wd _ 0) by ring. reflexivity.
Qed.

Lemma secs_of_int : forall z, secs_of (inject_Z z)
  = if ((0 <=? z) && (z <=? MAX_SECS))%Z then Some (Z.to_N z * NS)%N else None.
Proof.
  intro z. unfold secs_of.
  destruct (Z.leb_spec 0 z) as [H0|H0].
  - replace (Qle_bool 0 (inject_Z z)) with true.
    2: { symmetry. apply Qle_bool_iff. change 0%Q with (inject_Z 0). now rewrite <- Zle_Qle. }
    cbn [negb andb].
    destruct (Z.leb_spec z MAX_SECS) as [H1|H1].
    + replace (Qle_bool (inject_Z z) (inject_Z MAX_SECS)) with true.
      2: { symmetry. apply Qle_bool_iff. now rewrite <- Zle_Qle. }
      cbn [negb]. f_equal. rewrite <- inject_Z_mult. rewrite round_even_int.
      rewrite Z2N.inj_mul by (auto; lia). now rewrite N2Z.id.
    + replace (Qle_bool (inject_Z z) (inject_Z MAX_SECS)) with false; [reflexivity|].
      symmetry. apply not_true_is_false. intro L. apply Qle_bool_iff in L. rewrite <- Zle_Qle in L. lia.
  - replace (Qle_bool 0 (inject_Z z)) with false; [reflexivity|].
    symmetry. apply not_true_is_false. intro L. apply Qle_bool_iff in L.
    change 0%Q with (inject_Z 0) in L. rewrite <- Zle_Qle in L. lia.
Qed.

Lemma secs_of_near : forall q t, secs_of q = Some t ->
  (0 <= q /\ q <= inject_Z MAX_SECS /\ Qabs (q * inject_Z (Z.of_N NS) - inject_Z (Z.of_N t)) <= 1 # 2)%Q.
Proof.
  intros q t H. unfold secs_of in H.
  destruct (Qle_bool 0 q) eqn:B0; cbn [negb] in H; [|discriminate].
  destruct (Qle_bool q (inject_Z MAX_SECS)) eqn:B1; cbn [negb] in H; [|discriminate].
  apply Qle_bool_iff in B0, B1. split; [exact B0|]. split; [exact B1|].
  remember (q * inject_Z (Z.of_N NS))%Q as x eqn:Ex. assert (t = Z.to_N (round_even x)) by congruence. subst t.
  assert (Hx : (0 <= x)%Q) by (subst x; apply Qmult_le_0_compat; [exact B0|discriminate]).
  rewrite Z2N.id; [apply round_even_near|].
  change 0%Z with (round_even (inject_Z 0)). apply round_even_mono. exact Hx.
Qed.

Lemma secs_of_some : forall q, (0 <= q)%Q -> (q <= inject_Z MAX_SECS)%Q -> exists d, secs_of q = Some d.
Proof.
  intros q H1 H2. unfold secs_of. apply Qle_bool_iff in H1, H2. rewrite H1, H2. cbn [negb]. eauto.
Qed.

Lemma from_secs_duration : forall x n, from_secs x = Some n -> duration_of x n.
Proof.
  intros [q| |] n H; try discriminate. destruct (secs_of_near q n H) as (A & B & C). exists q. auto.
Qed.

Lemma from_secs_none : forall x, from_secs x = None -> no_duration x.
Proof.
  intros x H n (q & -> & A & B & _). destruct (secs_of_some q A B) as [d E]. cbn [from_secs] in H. congruence.
Qed.

(** * [as_secs] *)
Section AsSecs.
Open Scope Q_scope.

Lemma split_secs : forall d, exact_secs d == inject_Z (Z.of_N (d / NS)) + (Z.of_N (d mod NS) # 1000000000).
Proof.
  intro d. pose proof (N.div_mod d NS ltac:(discriminate)) as E. unfold exact_secs.
  rewrite E at 1. rewrite N2Z.inj_add, N2Z.inj_mul. generalize (Z.of_N (d / NS)) (Z.of_N (d mod NS)). intros a b.
  unfold Qeq, Qplus, inject_Z. cbn [Qnum Qden]. change (Z.of_N NS) with 1000000000%Z. lia.
Qed.

Definition u : Q := 1 # 9007199254740992.
Lemma pow2_m53 : pow2 (-53) = u. Proof. reflexivity. Qed.

(** Numbers that are zero or not very small have a relative error only. *)
Definition not_tiny (q : Q) : Prop := q == 0 \/ (1 # 4000000000) <= q.
Lemma rnd_rel : forall q, not_tiny q -> q - q * u <= rnd64 q /\ rnd64 q <= q + q * u.
Proof.
  intros q [H|H].
  - rewrite (rnd64_comp q 0 H). change (rnd64 0) with 0. split; rewrite H; discriminate.
  - assert (P : pow2 (-1022) <= q) by (eapply Qle_trans; [|exact H]; vm_compute; discriminate).
    pose proof (rnd64_error_normal q P) as E. rewrite pow2_m53 in E. apply Qabs_Qle_condition in E. lra.
Qed.

Lemma int_not_tiny : forall n : N, inject_Z (Z.of_N n) == 0 \/ (1 # 1000000000) <= inject_Z (Z.of_N n).
Proof.
  intros [|p]; [left; reflexivity|right]. apply Qle_trans with 1; [discriminate|]. change 1 with (inject_Z 1). rewrite <- Zle_Qle. lia.
Qed.

Lemma nano_not_tiny : forall n : N, (Z.of_N n # 1000000000) == 0 \/ (1 # 1000000000) <= (Z.of_N n # 1000000000).
Proof. intros [|p]; [left; reflexivity|right]. unfold Qle. cbn. lia. Qed.

Lemma as_secs_rel : forall d, exact_secs d - exact_secs d * ((9 # 4) * u) <= as_secs rnd64 d /\ as_secs rnd64 d <= exact_secs d + exact_secs d * ((9 # 4) * u).
Proof.
  intro d. pose proof (split_secs d) as E. unfold as_secs.
  set (S := inject_Z (Z.of_N (d / NS))) in *. set (n := Z.of_N (d mod NS) # 1000000000) in *.
  pose proof (int_not_tiny (d / NS)) as TS. fold S in TS. pose proof (nano_not_tiny (d mod NS)) as Tn. fold n in Tn.
  destruct (rnd_rel S) as [A1 A2]; [destruct TS as [T|T]; [left|right]; lra|].
  destruct (rnd_rel n) as [B1 B2]; [destruct Tn as [T|T]; [left|right]; lra|].
  assert (S0 : 0 <= S) by (destruct TS as [T|T]; lra). assert (n0 : 0 <= n) by (destruct Tn as [T|T]; lra).
  unfold u in *.
  assert (T : not_tiny (rnd64 S + rnd64 n)).
  { destruct TS as [T|T]; [destruct Tn as [T'|T']|]; [left; lra|right; lra|right; lra]. }
  destruct (rnd_rel _ T) as [C1 C2]. unfold u in *. lra.
Qed.

Lemma exact_nonneg : forall d, 0 <= exact_secs d.
Proof. intro d. unfold exact_secs, Qle. cbn. lia. Qed.

Lemma as_secs_nonneg : forall d, 0 <= as_secs rnd64 d.
Proof. intro d. destruct (as_secs_rel d) as [A _]. pose proof (exact_nonneg d). unfold u in A. lra. Qed.

(** The product, rounded. *)
Lemma product_close : forall d m, 0 <= m -> close (rnd64 (as_secs rnd64 d * m)) (exact_secs d * m).
Proof.
  intros d m Hm. destruct (as_secs_rel d) as [A B]. pose proof (exact_nonneg d) as D. pose proof (as_secs_nonneg d) as P.
  set (a := as_secs rnd64 d) in *. set (x := exact_secs d) in *.
  pose proof (Qmult_le_compat_r _ _ _ A Hm) as A'. pose proof (Qmult_le_compat_r _ _ _ B Hm) as B'.
  pose proof (Qmult_le_0_compat _ _ D Hm) as D'. pose proof (Qmult_le_0_compat _ _ P Hm) as P'.
  pose proof (rnd64_error _ P') as E. rewrite pow2_m53 in E. apply Qabs_Qle_condition in E.
  unfold close. fold (pow2 (-1075)). pose proof (pow2_pos (-1075)) as P2. change ((2 # 1) ^ (-51)) with (1 # 2251799813685248).
  set (z := pow2 (-1075)) in *. set (r := rnd64 (a * m)) in *. unfold u in *.
  apply Qabs_Qle_condition. clearbody z r. clear P2. split; lra.
Qed.

(** * A longer time is not rounded to a smaller number *)
Lemma nano_less : forall n : N, (n < NS)%N -> 0 <= rnd64 (Z.of_N n # 1000000000) /\ rnd64 (Z.of_N n # 1000000000) < 1.
Proof.
  intros n H. split; [apply rnd64_nonneg; unfold Qle; cbn; lia|].
  apply Qle_lt_trans with (rnd64 (999999999 # 1000000000)); [|reflexivity].
  apply rnd64_mono. unfold Qle. cbn [Qnum Qden]. change NS with 1000000000%N in H. lia.
Qed.

(** From 2^53 on a fraction of a second is lost. *)
Lemma big_absorb : forall s z, (2 ^ 53 <= s)%Z -> 0 <= z -> z < 1 -> rnd64 (rnd64 (inject_Z s) + z) == rnd64 (inject_Z s).
Proof.
  intros s z Hs Z0 Z1. set (q := inject_Z s).
  assert (P53 : inject_Z (2 ^ 53) <= q) by (unfold q; rewrite <- Zle_Qle; exact Hs).
  assert (Hq : 0 < q) by (eapply Qlt_le_trans; [|exact P53]; reflexivity).
  set (r := rnd64 q).
  assert (R : inject_Z (2 ^ 53) <= r).
  { rewrite <- (rnd64_float (inject_Z (2 ^ 53))) by (apply int_float; discriminate). apply rnd64_mono. exact P53. }
  destruct (rnd64_nearest q) as [F _]. fold r in F.
  (* the canonical form of r *)
  assert (C : exists m e, (2 ^ 52 <= m < 2 ^ 53)%Z /\ (1 <= e)%Z /\ r == inject_Z m * pow2 e).
  { destruct F as (m & e & M & _ & E).
    assert (Pe : 0 < pow2 e) by apply pow2_pos.
    assert (M0 : (0 < m)%Z).
    { destruct (Z_lt_le_dec 0 m) as [L|L]; [exact L|]. exfalso. assert (X : inject_Z m <= 0) by (change 0 with (inject_Z 0); rewrite <- Zle_Qle; lia).
      assert (Y : inject_Z m * pow2 e <= 0 * pow2 e) by (apply Qmult_le_compat_r; lra). rewrite <- E in Y.
      assert (inject_Z (2 ^ 53) <= 0) by lra. exact (H eq_refl). }
    rewrite Z.abs_eq in M by lia.
    set (k := (52 - Z.log2 m)%Z).
    destruct (Z.log2_spec m M0) as [L1 L2].
    assert (K : (0 <= k)%Z).
    { unfold k. assert (Z.log2 m < 53)%Z; [|lia]. apply Z.log2_lt_pow2; lia. }
    assert (MK : (2 ^ 52 <= m * 2 ^ k < 2 ^ 53)%Z).
    { pose proof (Z.log2_nonneg m). split.
      - replace 52%Z with (Z.log2 m + k)%Z by (unfold k; lia). rewrite Z.pow_add_r by lia. apply Z.mul_le_mono_nonneg_r; [apply Z.pow_nonneg; lia|exact L1].
      - replace 53%Z with (Z.succ (Z.log2 m) + k)%Z by (unfold k; lia). rewrite Z.pow_add_r by lia. apply Z.mul_lt_mono_pos_r; [apply Z.pow_pos_nonneg; lia|exact L2]. }
    assert (RR : r == inject_Z (m * 2 ^ k) * pow2 (e - k)).
    { rewrite E, inject_Z_mult, <- pow2_Z by lia. rewrite <- Qmult_assoc, <- pow2_plus. replace (k + (e - k))%Z with e by lia. reflexivity. }
    exists (m * 2 ^ k)%Z, (e - k)%Z. split; [exact MK|]. split; [|exact RR].
    destruct (Z_lt_le_dec (e - k) 1) as [L|L]; [|exact L]. exfalso.
    assert (X : pow2 (e - k) <= pow2 0) by (apply pow2_le; lia). change (pow2 0) with 1 in X.
    assert (M2 : inject_Z (m * 2 ^ k) < inject_Z (2 ^ 53)) by (rewrite <- Zlt_Qlt; lia).
    assert (M1 : 0 <= inject_Z (m * 2 ^ k)) by (change 0 with (inject_Z 0); rewrite <- Zle_Qle; lia).
    assert (Y : pow2 (e - k) * inject_Z (m * 2 ^ k) <= 1 * inject_Z (m * 2 ^ k)) by (apply Qmult_le_compat_r; lra). lra. }
  destruct C as (m & e & M & Ee & E).
  rewrite (rnd64_comp (r + z) (inject_Z m * pow2 e + z)) by (rewrite E; reflexivity).
  rewrite (rnd64_absorb m e z); [symmetry; exact E|exact M|lia|exact Z0|].
  assert (X : pow2 1 <= pow2 e) by (apply pow2_le; lia). change (pow2 1) with (2 # 1) in X. lra.
Qed.

Lemma as_secs_mono : forall d d', (d <= d')%N -> as_secs rnd64 d <= as_secs rnd64 d'.
Proof.
  intros d d' H. unfold as_secs.
  pose proof (N.div_le_mono d d' NS ltac:(discriminate) H) as Hs.
  pose proof (nano_less (d mod NS) ltac:(apply N.mod_lt; discriminate)) as [A1 A2].
  pose proof (nano_less (d' mod NS) ltac:(apply N.mod_lt; discriminate)) as [B1 _].
  destruct (N.eq_dec (d / NS) (d' / NS)) as [E|N].
  - apply rnd64_mono. rewrite E. apply Qplus_le_compat; [apply Qle_refl|]. apply rnd64_mono.
    assert (L : (d mod NS <= d' mod NS)%N).
    { pose proof (N.div_mod d NS ltac:(discriminate)) as D1. pose proof (N.div_mod d' NS ltac:(discriminate)) as D2. rewrite E in D1.
      clear - D1 D2 H. remember (NS * (d' / NS))%N as k. lia. }
    unfold Qle. cbn [Qnum Qden]. lia.
  - set (s := Z.of_N (d / NS)) in *. set (s' := Z.of_N (d' / NS)) in *.
    assert (L : (s + 1 <= s')%Z) by (unfold s, s'; lia).
    assert (L0 : (0 <= s)%Z) by apply N2Z.is_nonneg.
    destruct (Z_lt_le_dec s (2 ^ 53)) as [Lt|Ge].
    + assert (X1 : rnd64 (inject_Z s) == inject_Z s) by (apply rnd64_float, int_float; lia).
      assert (X2 : inject_Z (s + 1) <= rnd64 (inject_Z s')).
      { rewrite <- (rnd64_float (inject_Z (s + 1))) by (apply int_float; lia). apply rnd64_mono. rewrite <- Zle_Qle. exact L. }
      rewrite inject_Z_plus in X2. change (inject_Z 1) with 1 in X2. apply rnd64_mono. lra.
    + rewrite big_absorb by assumption.
      apply Qle_trans with (rnd64 (inject_Z s')); [apply rnd64_mono; rewrite <- Zle_Qle; lia|].
      destruct (rnd64_nearest (inject_Z s')) as [F _]. rewrite <- (rnd64_float _ F) at 1. apply rnd64_mono. lra.
Qed.
End AsSecs.

(** * The limits *)
Lemma mult_of : forall given m, multiplier given m -> match given with Some m => m | None => Fin (inject_Z 5) end = Fin m.
Proof. intros given m [->|[-> ->]]; reflexivity. Qed.

Lemma close_large : forall x y, close x y -> (y <= LARGE)%Q -> (x <= 18000000000000010000)%Q.
Proof.
  intros x y C H. unfold close in C. apply Qabs_Qle_condition in C. destruct C as [_ C].
  assert (P : ((2 # 1) ^ (-1075) <= 1)%Q) by (vm_compute; discriminate).
  change ((2 # 1) ^ (-51))%Q with (1 # 2251799813685248)%Q in C. unfold LARGE in H. set (z := ((2 # 1) ^ (-1075))%Q) in *. clearbody z. lra.
Qed.

Lemma test_timeout_spec : forall d m o,
  to_test o = None -> multiplier (to_test_mult o) m -> (0 <= m)%Q -> (exact_secs d * m <= LARGE)%Q ->
  exists x s, test_timeout rnd64 (Some d) o = Some (N.max (to_minimum o) (s * NS))
    /\ least_whole x s /\ close x (exact_secs d * m).
Proof.
  intros d m o E Em Hm Hx. unfold test_timeout. rewrite E, (mult_of _ _ Em). cbn [mul64 ceil64 from_secs].
  pose proof (product_close d m Hm) as C. set (q := rnd64 (as_secs rnd64 d * m)) in *.
  assert (Hq : (0 <= q)%Q).
  { apply rnd64_nonneg. apply Qmult_le_0_compat; [apply as_secs_nonneg|exact Hm]. }
  assert (H0 : (0 <= Qceiling q)%Z).
  { change 0%Z with (Qceiling 0). now apply Qceiling_resp_le. }
  assert (H1 : (Qceiling q <= MAX_SECS)%Z).
  { rewrite <- (Qceiling_Z MAX_SECS). apply Qceiling_resp_le. eapply Qle_trans; [eapply close_large; eassumption|]. vm_compute. discriminate. }
  rewrite secs_of_int.
  replace (0 <=? Qceiling q)%Z with true by (symmetry; now apply Z.leb_le).
  replace (Qceiling q <=? MAX_SECS)%Z with true by (symmetry; now apply Z.leb_le).
  cbn [andb]. exists q, (Z.to_N (Qceiling q)). split; auto. split; [|exact C]. unfold least_whole. rewrite Z2N.id by auto.
  split; [apply Qle_ceiling|].
  intros s' Hs'. apply Qceiling_resp_le in Hs'. rewrite Qceiling_Z in Hs'. rewrite <- (N2Z.id s'). apply Z2N.inj_le; auto. apply N2Z.is_nonneg.
Qed.

(** Whatever the rounding of floats does. *)
Lemma test_timeout_any : forall rnd d o t,
  to_test o = None -> test_timeout rnd (Some d) o = Some t ->
  (to_minimum o <= t)%N /\ (t = to_minimum o \/ exists s, t = (s * NS)%N).
Proof.
  intros rnd d o t E H. unfold test_timeout in H. rewrite E in H.
  destruct (mul64 _ _ _) as [q| |]; try discriminate. cbn [ceil64 from_secs] in H. rewrite secs_of_int in H.
  destruct (_ && _); [|discriminate]. inversion H; subst; clear H.
  split; [apply N.le_max_l|].
  match goal with |- context [N.max ?a ?b] => destruct (N.max_spec a b) as [[_ ->]|[_ ->]] end.
  - right. eauto.
  - now left.
Qed.

Lemma test_timeout_monotone : forall d d' m o t t', (d <= d')%N -> multiplier (to_test_mult o) m -> (0 <= m)%Q ->
  test_timeout rnd64 (Some d) o = Some t -> test_timeout rnd64 (Some d') o = Some t' -> (t <= t')%N.
Proof.
  intros d d' m o t t' Hd Em Hm H H'. unfold test_timeout in *. rewrite (mult_of _ _ Em) in *.
  destruct (to_test o); [inversion H; inversion H'; lia|]. cbn [mul64 ceil64 from_secs] in *.
  rewrite secs_of_int in *.
  destruct (_ && _) eqn:B; [|discriminate]. destruct (_ && _) eqn:B' in H'; [|discriminate].
  inversion H; inversion H'; subst; clear H H'.
  apply N.max_le_compat_l. apply N.mul_le_mono_r.
  apply Z2N.inj_le; [lia|lia|].
  apply Qceiling_resp_le. apply rnd64_mono. apply Qmult_le_compat_r; auto. now apply as_secs_mono.
Qed.

(** What the baseline measured, when it ran and succeeded. *)
Lemma baseline_phases : forall M cargo (b : outcome M) d1 d2,
  run_scenario_outcome Baseline false cargo = Some b ->
  cargo Build = Some (ExSuccess, d1) -> cargo Test = Some (ExSuccess, d2) ->
  option_map pr_duration (find_phase b Build) = Some d1
  /\ option_map pr_duration (find_phase b Test) = Some d2.
Proof.
  intros M cargo b d1 d2 H H1 H2. unfold run_scenario_outcome, phases in H. simpl in H.
  rewrite H1, H2 in H. simpl in H. inversion H; subst. split; reflexivity.
Qed.

Lemma baseline_phases_check : forall M cargo (b : outcome M),
  run_scenario_outcome Baseline true cargo = Some b ->
  option_map pr_duration (find_phase b Build) = None
  /\ option_map pr_duration (find_phase b Test) = None.
Proof.
  intros M cargo b H. unfold run_scenario_outcome, phases in H. simpl in H.
  destruct (cargo Check) as [[e d]|]; [|discriminate].
  destruct (is_success e); inversion H; subst; split; reflexivity.
Qed.

Lemma build_some : forall rnd d o, to_build o = None ->
  (exists t, build_timeout rnd d o = Some (Some t)) -> d <> None /\ to_build_mult o <> None.
Proof.
  intros rnd d o E [t H]. unfold build_timeout in H. rewrite E in H.
  destruct d; [destruct (to_build_mult o)|]; try discriminate. split; discriminate.
Qed.

Lemma c23_auto : forall M cargo (b : outcome M) d1 d2 o m,
  run_scenario_outcome Baseline false cargo = Some b ->
  cargo Build = Some (ExSuccess, d1) -> cargo Test = Some (ExSuccess, d2) ->
  to_test o = None -> to_build_mult o = None -> multiplier (to_test_mult o) m ->
  (0 <= m)%Q -> (exact_secs d2 * m <= LARGE)%Q ->
  exists t x s, mutant_timeouts rnd64 (Some b) o = Some t
    /\ tm_build t = to_build o
    /\ tm_test t = Some (N.max (to_minimum o) (s * NS))
    /\ least_whole x s /\ close x (exact_secs d2 * m).
Proof.
  intros M cargo b d1 d2 o m Hr H1 H2 Ht Hb Em Hm Hx.
  destruct (baseline_phases _ _ _ _ _ Hr H1 H2) as [E1 E2].
  unfold mutant_timeouts, from_baseline. rewrite E1, E2.
  destruct (test_timeout_spec d2 m o Ht Em Hm Hx) as (x & s & Es & A & B). rewrite Es.
  unfold build_timeout. rewrite Hb.
  destruct (to_build o); cbn [both]; eexists; exists x, s; (split; [reflexivity|]; split; [reflexivity|]; split; [reflexivity|]; split; [exact A|exact B]).
Qed.

Lemma c23_build_mult : forall M cargo (b : outcome M) d1 d2 o m t0,
  run_scenario_outcome Baseline false cargo = Some b ->
  cargo Build = Some (ExSuccess, d1) -> cargo Test = Some (ExSuccess, d2) ->
  to_build o = None -> to_build_mult o = Some (Fin m) -> (0 <= m)%Q ->
  mutant_timeouts rnd64 (Some b) o = Some t0 ->
  exists t x, tm_build t0 = Some t /\ duration_of (Fin x) t /\ close x (exact_secs d1 * m).
Proof.
  intros M cargo b d1 d2 o m t0 Hr H1 H2 Hb Em Hm H.
  destruct (baseline_phases _ _ _ _ _ Hr H1 H2) as [E1 E2].
  unfold mutant_timeouts, from_baseline in H. rewrite E1, E2 in H.
  unfold build_timeout in H. rewrite Hb, Em in H.
  destruct (from_secs _) as [t|] eqn:F; [|discriminate].
  unfold both in H. destruct (test_timeout _ _ _); [|discriminate].
  injection H as <-. exists t. eexists. split; [reflexivity|]. split; [apply from_secs_duration; exact F|]. now apply product_close.
Qed.

Lemma c23_skip : forall M rnd o, 
  mutant_timeouts (M := M) rnd None o
  = Some (mkTimeouts (to_build o)
       (Some (match to_test o with Some t => t
              | None => if to_check_only o then 0%N else (300 * NS)%N end))).
Proof.
  intros M rnd o. unfold mutant_timeouts, without_baseline, build_timeout, test_timeout.
  destruct (to_build o), (to_test o), (to_check_only o); reflexivity.
Qed.

Lemma c23_explicit : forall M rnd (b : option (outcome M)) o t ts, to_test o = Some t ->
  mutant_timeouts rnd b o = Some ts -> phase_timeout ts Test = Some t.
Proof.
  intros M rnd b o t ts E H. unfold mutant_timeouts, from_baseline, without_baseline, both, test_timeout in H.
  rewrite E in H. destruct b as [b|]; destruct (build_timeout _ _ _); inversion H; reflexivity.
Qed.

Lemma c23_explicit_build : forall M rnd (b : option (outcome M)) o t ts, to_build o = Some t ->
  mutant_timeouts rnd b o = Some ts -> phase_timeout ts Build = Some t /\ phase_timeout ts Check = Some t.
Proof.
  intros M rnd b o t ts E H. unfold mutant_timeouts, from_baseline, without_baseline, both, build_timeout in H.
  rewrite E in H. destruct b as [b|]; destruct (test_timeout _ _ _); inversion H; split; reflexivity.
Qed.

Lemma c23_no_build_limit : forall M rnd (b : option (outcome M)) o ts,
  to_build o = None -> to_build_mult o = None ->
  mutant_timeouts rnd b o = Some ts -> phase_timeout ts Build = None /\ phase_timeout ts Check = None.
Proof.
  intros M rnd b o ts E1 E2 H. unfold mutant_timeouts, from_baseline, without_baseline, both, build_timeout in H.
  rewrite E1, E2 in H. destruct b as [b|].
  - destruct (option_map _ _); destruct (test_timeout _ _ _); inversion H; split; reflexivity.
  - destruct (test_timeout _ _ _); inversion H; split; reflexivity.
Qed.

Lemma c23_total : forall M (b : outcome M) o,
  (forall x, to_test_mult o = Some x \/ to_build_mult o = Some x -> exists m, x = Fin m /\ (0 <= m)%Q) ->
  (forall p pr m, find_phase b p = Some pr ->
     multiplier (to_test_mult o) m \/ to_build_mult o = Some (Fin m) -> (exact_secs (pr_duration pr) * m <= LARGE)%Q) ->
  mutant_timeouts rnd64 (Some b) o <> None.
Proof.
  intros M b o Hf Hx. unfold mutant_timeouts, from_baseline.
  assert (A : build_timeout rnd64 (option_map pr_duration (find_phase b Build)) o <> None).
  { unfold build_timeout. destruct (to_build o); [discriminate|].
    destruct (find_phase b Build) as [pr|] eqn:Ef; [|discriminate]. cbn [option_map].
    destruct (to_build_mult o) as [x|] eqn:Em; [|discriminate].
    destruct (Hf x (or_intror eq_refl)) as (m & -> & Hm). cbn [mul64 from_secs].
    edestruct (secs_of_some (rnd64 (as_secs rnd64 (pr_duration pr) * m))) as [t ->]; [| |discriminate].
    - apply rnd64_nonneg. apply Qmult_le_0_compat; [apply as_secs_nonneg|exact Hm].
    - eapply Qle_trans; [eapply close_large; [apply product_close; exact Hm|eapply Hx; eauto]|]. vm_compute. discriminate. }
  assert (B : test_timeout rnd64 (option_map pr_duration (find_phase b Test)) o <> None).
  { destruct (to_test o) eqn:Et; [unfold test_timeout; rewrite Et; discriminate|].
    destruct (find_phase b Test) as [pr|] eqn:Ef; cbn [option_map].
    - assert (K : exists m, multiplier (to_test_mult o) m /\ (0 <= m)%Q).
      { destruct (to_test_mult o) as [x|] eqn:Em.
        - destruct (Hf x (or_introl eq_refl)) as (m & -> & Hm). exists m. split; [left; reflexivity|exact Hm].
        - exists 5%Q. split; [right; auto|discriminate]. }
      destruct K as (m & K & Hm).
      destruct (test_timeout_spec (pr_duration pr) m o Et K Hm) as (x & s & Es & _); [eapply Hx; eauto|rewrite Es; discriminate].
    - unfold test_timeout. rewrite Et. destruct (to_check_only o); discriminate. }
  destruct (build_timeout _ _ _); [|congruence]. destruct (test_timeout _ _ _); [|congruence].
  discriminate.
Qed.

(** The automatic limit cannot be computed. *)
Lemma c23_panic : forall d o x, to_test o = None -> to_test_mult o = Some x ->
  (forall m, x = Fin m -> (exact_secs d * m <= - (2) \/ 19000000000000000000 <= exact_secs d * m)%Q) ->
  test_timeout rnd64 (Some d) o = None.
Proof.
  intros d o x E Em H. unfold test_timeout. rewrite E, Em. destruct x as [m|n|].
  - cbn [mul64 ceil64 from_secs]. rewrite secs_of_int. specialize (H m eq_refl).
    destruct (as_secs_rel d) as [A B]. pose proof (exact_nonneg d) as D. unfold u in A, B.
    set (a := as_secs rnd64 d) in *. set (e := exact_secs d) in *. destruct H as [H|H].
    + assert (M : (m <= 0)%Q).
      { apply Qnot_lt_le. intro L. assert (0 <= e * m)%Q by (apply Qmult_le_0_compat; lra). lra. }
      assert (X : (a * m <= - (1))%Q).
      { assert (A' : ((1 # 2) * e <= a)%Q) by lra. assert (N : (0 <= - m)%Q) by lra.
        pose proof (Qmult_le_compat_r _ _ _ A' N). lra. }
      assert (Y : (rnd64 (a * m) <= - (1))%Q).
      { rewrite <- (rnd64_float (- (1))); [apply rnd64_mono; exact X|]. apply (int_float (-1)). discriminate. }
      assert (Z : (Qceiling (rnd64 (a * m)) <= -1)%Z) by (rewrite <- (Qceiling_Z (-1)); apply Qceiling_resp_le; exact Y).
      replace (0 <=? _)%Z with false by (symmetry; apply Z.leb_gt; lia). reflexivity.
    + assert (M : (0 <= m)%Q).
      { apply Qnot_lt_le. intro L. assert (0 <= e * - m)%Q by (apply Qmult_le_0_compat; lra). lra. }
      pose proof (Qmult_le_compat_r _ _ _ A M) as A'.
      assert (X : (rnd64 18999999999999000000 <= rnd64 (a * m))%Q) by (apply rnd64_mono; lra).
      assert (Z : (MAX_SECS < Qceiling (rnd64 (a * m)))%Z).
      { apply Z.lt_le_trans with (Qceiling (rnd64 18999999999999000000)); [reflexivity|]. apply Qceiling_resp_le. exact X. }
      replace (_ <=? MAX_SECS)%Z with false by (symmetry; apply Z.leb_gt; exact Z). rewrite andb_false_r. reflexivity.
  - cbn [mul64]. destruct (Qcompare _ _); reflexivity.
  - reflexivity.
Qed.

Lemma c23_for_baseline : forall o,
  phase_timeout (for_baseline o) Build = None /\ phase_timeout (for_baseline o) Check = None
  /\ phase_timeout (for_baseline o) Test = to_test o.
Proof. intro o. repeat split. Qed.
