From Coq Require Import ZArith NArith QArith Qabs Qround Qpower Bool Lia Lqa.
From Verif Require Import F64M F64S.
Open Scope Q_scope.

(** ** Powers of two *)
Lemma pow2_pos : forall e, 0 < pow2 e.
Proof. intros e. apply Qpower_0_lt. reflexivity. Qed.

Lemma pow2_plus : forall a b, pow2 (a + b) == pow2 a * pow2 b.
Proof. intros a b. apply Qpower_plus. discriminate. Qed.

Lemma pow2_Z : forall e, (0 <= e)%Z -> pow2 e == inject_Z (2 ^ e).
Proof. intros e H. unfold pow2. change (2 # 1) with (inject_Z 2). apply Qeq_sym, Zpower_Qpower. exact H. Qed.

Lemma pow2_le : forall a b, (a <= b)%Z -> pow2 a <= pow2 b.
Proof. intros a b H. unfold pow2. apply Qpower_le_compat_l; [exact H|discriminate]. Qed.

Lemma pow2_lt : forall a b, (a < b)%Z -> pow2 a < pow2 b.
Proof. intros a b H. unfold pow2. apply Qpower_lt_compat_l; [exact H|reflexivity]. Qed.

Lemma pow2_lt_inv : forall a b, pow2 a < pow2 b -> (a < b)%Z.
Proof. intros a b H. destruct (Z.lt_ge_cases a b) as [L|L]; [exact L|]. apply pow2_le in L. exfalso. lra. Qed.

(** ** Rounding to an integer *)
Lemma floor_bounds : forall q, inject_Z (Qfloor q) <= q /\ q < inject_Z (Qfloor q) + 1.
Proof. intros q. split; [apply Qfloor_le|]. pose proof (Qlt_floor q) as H. rewrite inject_Z_plus in H. exact H. Qed.

Lemma round_even_near : forall q, Qabs (q - inject_Z (round_even q)) <= 1 # 2.
Proof.
  intros q. unfold round_even. destruct (floor_bounds q) as [A B]. apply Qabs_Qle_condition.
  destruct (Qcompare_spec (q - inject_Z (Qfloor q)) (1 # 2)) as [E|E|E]; [destruct (Z.even (Qfloor q))| |]; rewrite ?inject_Z_plus; change (inject_Z 1) with 1; split; lra.
Qed.

(** No integer is nearer. *)
Lemma round_even_best : forall q z, Qabs (q - inject_Z (round_even q)) <= Qabs (q - inject_Z z).
Proof.
  intros q z. set (m := round_even q). destruct (Z.eq_dec z m) as [->|N]; [apply Qle_refl|].
  pose proof (round_even_near q) as H. fold m in H. eapply Qle_trans; [exact H|].
  apply Qabs_Qle_condition in H.
  assert (D : inject_Z z <= inject_Z m - 1 \/ inject_Z m + 1 <= inject_Z z).
  { destruct (Z.lt_ge_cases z m) as [L|L]; [left|right].
    - assert (z + 1 <= m)%Z as L' by lia. rewrite Zle_Qle in L'. rewrite inject_Z_plus in L'. change (inject_Z 1) with 1 in L'. lra.
    - assert (m + 1 <= z)%Z as L' by lia. rewrite Zle_Qle in L'. rewrite inject_Z_plus in L'. change (inject_Z 1) with 1 in L'. lra. }
  destruct D as [D|D].
  - eapply Qle_trans; [|apply Qle_Qabs]. lra.
  - eapply Qle_trans; [|rewrite Qabs_Qminus; apply Qle_Qabs]. lra.
Qed.

Lemma round_even_tie : forall q z, Qabs (q - inject_Z (round_even q)) == Qabs (q - inject_Z z) -> z = round_even q \/ Z.even (round_even q) = true.
Proof.
  intros q z H. destruct (Z.eq_dec z (round_even q)) as [->|N]; [auto|]. right.
  pose proof (round_even_near q) as HN. revert H N HN. unfold round_even. destruct (floor_bounds q) as [A B].
  set (f := Qfloor q) in *. set (x := q - inject_Z f).
  assert (One : forall a b : Z, (a < b)%Z -> inject_Z a + 1 <= inject_Z b).
  { intros a b L. assert (a + 1 <= b)%Z as L' by lia. rewrite Zle_Qle in L'. rewrite inject_Z_plus in L'. exact L'. }
  destruct (Qcompare_spec x (1 # 2)) as [E|E|E]; unfold x in *; clear x.
  - destruct (Z.even f) eqn:Ev; [auto|]. intros _ _ _. rewrite Z.even_add, Ev. reflexivity.
  - intros H N _. exfalso. rewrite (Qabs_pos (q - inject_Z f)) in H by lra.
    destruct (Z.lt_ge_cases z f) as [L|L].
    + specialize (One _ _ L). rewrite Qabs_pos in H by lra. lra.
    + assert (L' : (f < z)%Z) by lia. specialize (One _ _ L'). rewrite Qabs_neg in H by lra. lra.
  - intros H N _. exfalso. rewrite inject_Z_plus in H. change (inject_Z 1) with 1 in H. rewrite (Qabs_neg (q - (inject_Z f + 1))) in H by lra.
    destruct (Z.lt_ge_cases z (f + 1)) as [L|L].
    + assert (L' : inject_Z z <= inject_Z f) by (rewrite <- Zle_Qle; lia). rewrite Qabs_pos in H by lra. lra.
    + assert (L' : (f + 1 < z)%Z) by lia. specialize (One _ _ L'). rewrite inject_Z_plus in One. change (inject_Z 1) with 1 in One. rewrite Qabs_neg in H by lra. lra.
Qed.

Lemma round_even_between : forall q a b, inject_Z a <= q -> q <= inject_Z b -> (a <= round_even q <= b)%Z.
Proof.
  intros q a b Ha Hb. pose proof (round_even_near q) as H. apply Qabs_Qle_condition in H.
  split.
  - destruct (Z.lt_ge_cases (round_even q) a) as [L|L]; [|lia]. exfalso.
    assert (round_even q + 1 <= a)%Z as L' by lia. rewrite Zle_Qle in L'. rewrite inject_Z_plus in L'. change (inject_Z 1) with 1 in L'. lra.
  - destruct (Z.lt_ge_cases b (round_even q)) as [L|L]; [|lia]. exfalso.
    assert (b + 1 <= round_even q)%Z as L' by lia. rewrite Zle_Qle in L'. rewrite inject_Z_plus in L'. change (inject_Z 1) with 1 in L'. lra.
Qed.

(** Strictly less than a half away. *)
Lemma round_even_exact : forall q z, Qabs (q - inject_Z z) < 1 # 2 -> round_even q = z.
Proof.
  intros q z H. pose proof (round_even_best q z) as B. set (m := round_even q) in *. apply Qabs_Qlt_condition in H.
  assert (B' : Qabs (q - inject_Z m) < 1 # 2).
  { eapply Qle_lt_trans; [exact B|]. apply Qabs_Qlt_condition. exact H. }
  apply Qabs_Qlt_condition in B'. clear B.
  destruct (Z.lt_trichotomy m z) as [L|[L|L]]; [|exact L|]; exfalso.
  - assert (m + 1 <= z)%Z as L' by lia. rewrite Zle_Qle in L'. rewrite inject_Z_plus in L'. change (inject_Z 1) with 1 in L'. lra.
  - assert (z + 1 <= m)%Z as L' by lia. rewrite Zle_Qle in L'. rewrite inject_Z_plus in L'. change (inject_Z 1) with 1 in L'. lra.
Qed.

Lemma round_even_floor : forall q, (Qfloor q <= round_even q <= Qfloor q + 1)%Z.
Proof. intros q. unfold round_even. destruct (Qcompare (q - inject_Z (Qfloor q)) (1 # 2)); [destruct (Z.even (Qfloor q))| |]; lia. Qed.

Lemma round_even_mono : forall p q, p <= q -> (round_even p <= round_even q)%Z.
Proof.
  intros p q H. pose proof (Qfloor_resp_le _ _ H) as F. destruct (Z.eq_dec (Qfloor p) (Qfloor q)) as [E|E].
  - unfold round_even. rewrite E.
    destruct (Qcompare_spec (p - inject_Z (Qfloor q)) (1 # 2)) as [C|C|C], (Qcompare_spec (q - inject_Z (Qfloor q)) (1 # 2)) as [D|D|D];
      try destruct (Z.even (Qfloor q)); try lia; exfalso; lra.
  - pose proof (round_even_floor p). pose proof (round_even_floor q). lia.
Qed.

Lemma round_even_comp : forall p q, p == q -> round_even p = round_even q.
Proof. intros p q H. apply Z.le_antisymm; apply round_even_mono; lra. Qed.

(** ** The leading digit *)
Lemma flog2_spec : forall q, 0 < q -> pow2 (flog2 q) <= q /\ q < pow2 (flog2 q + 1).
Proof.
  intros [a b] H. unfold flog2. cbn [Qnum Qden].
  assert (Ha : (0 < a)%Z) by (unfold Qlt in H; cbn in H; lia).
  pose proof (Z.log2_spec a Ha) as [A1 A2]. pose proof (Z.log2_spec (Zpos b) eq_refl) as [B1 B2].
  pose proof (Z.log2_nonneg a) as A0. pose proof (Z.log2_nonneg (Zpos b)) as B0.
  set (la := Z.log2 a) in *. set (lb := Z.log2 (Zpos b)) in *.
  assert (Q1 : pow2 la <= inject_Z a) by (rewrite pow2_Z by lia; rewrite <- Zle_Qle; exact A1).
  assert (Q2 : inject_Z a < pow2 (la + 1)) by (rewrite pow2_Z by lia; rewrite <- Zlt_Qlt; exact A2).
  assert (Q3 : pow2 lb <= inject_Z (Zpos b)) by (rewrite pow2_Z by lia; rewrite <- Zle_Qle; exact B1).
  assert (Q4 : inject_Z (Zpos b) < pow2 (lb + 1)) by (rewrite pow2_Z by lia; rewrite <- Zlt_Qlt; exact B2).
  assert (E : inject_Z a == (a # b) * inject_Z (Zpos b)) by (unfold Qeq, Qmult, inject_Z; cbn; lia).
  set (q := a # b) in *.
  assert (Up : q < pow2 (la - lb + 1)).
  { apply Qnot_le_lt. intros L.
    assert (pow2 (la + 1) <= q * inject_Z (Zpos b)); [|lra].
    replace (la + 1)%Z with ((la - lb + 1) + lb)%Z by lia. rewrite pow2_plus.
    apply Qle_trans with (q * pow2 lb).
    - apply Qmult_le_compat_r; [exact L|apply Qlt_le_weak, pow2_pos].
    - rewrite (Qmult_comm q), (Qmult_comm q). apply Qmult_le_compat_r; [exact Q3|lra]. }
  assert (Lo : pow2 (la - lb - 1) < q).
  { apply Qnot_le_lt. intros L.
    assert (q * inject_Z (Zpos b) < pow2 la); [|lra].
    replace la with ((la - lb - 1) + (lb + 1))%Z by lia. rewrite pow2_plus. apply Qle_lt_trans with (pow2 (la - lb - 1) * inject_Z (Zpos b)).
    - apply Qmult_le_compat_r; [exact L|discriminate].
    - rewrite (Qmult_comm (pow2 _)), (Qmult_comm (pow2 (la - lb - 1))). apply Qmult_lt_compat_r; [apply pow2_pos|exact Q4]. }
  destruct (Qle_bool (pow2 (la - lb)) q) eqn:C.
  - apply Qle_bool_iff in C. split; [exact C|exact Up].
  - split; [lra|]. replace (la - lb - 1 + 1)%Z with (la - lb)%Z by lia. apply Qnot_le_lt. intros L. apply Qle_bool_iff in L. congruence.
Qed.

Lemma flog2_unique : forall q k, 0 < q -> pow2 k <= q -> q < pow2 (k + 1) -> flog2 q = k.
Proof.
  intros q k H A B. destruct (flog2_spec q H) as [C D].
  assert (pow2 (flog2 q) < pow2 (k + 1)) as X by lra. assert (pow2 k < pow2 (flog2 q + 1)) as Y by lra.
  apply pow2_lt_inv in X, Y. lia.
Qed.

(** ** Rounding *)
Section Pos.
Context (q : Q) (Hq : 0 < q).
Let e := last_digit q.
Let x := q / pow2 e.
Let m := round_even x.

Lemma scaled : q == x * pow2 e.
Proof. unfold x. pose proof (pow2_pos e). field. lra. Qed.

Lemma x_pos : 0 < x.
Proof. unfold x. apply Qlt_shift_div_l; [apply pow2_pos|]. lra. Qed.

Lemma x_lt : x < inject_Z (2 ^ 53).
Proof.
  unfold x. apply Qlt_shift_div_r; [apply pow2_pos|]. rewrite <- pow2_Z by lia. rewrite <- pow2_plus.
  destruct (flog2_spec q Hq) as [_ B]. eapply Qlt_le_trans; [exact B|]. apply pow2_le. unfold e, last_digit. lia.
Qed.

(** All 53 digits are used, or the number is subnormal. *)
Lemma x_ge : (-1074 < e)%Z -> inject_Z (2 ^ 52) <= x.
Proof.
  intros H. unfold x. apply Qle_shift_div_l; [apply pow2_pos|]. rewrite <- pow2_Z by lia. rewrite <- pow2_plus.
  destruct (flog2_spec q Hq) as [A _]. eapply Qle_trans; [|exact A]. apply pow2_le. unfold e, last_digit in *. lia.
Qed.

Lemma e_ge : (-1074 <= e)%Z.
Proof. unfold e, last_digit. lia. Qed.

Lemma m_range : (0 <= m <= 2 ^ 53)%Z.
Proof. apply round_even_between; [apply Qlt_le_weak, x_pos|apply Qlt_le_weak, x_lt]. Qed.

Lemma rnd_pos_eq : rnd_pos q = inject_Z m * pow2 e.
Proof. reflexivity. Qed.

Lemma pos_float : is_float (rnd_pos q).
Proof.
  rewrite rnd_pos_eq. pose proof m_range as R. pose proof e_ge.
  destruct (Z.eq_dec m (2 ^ 53)) as [E|E].
  - exists (2 ^ 52)%Z, (e + 1)%Z. split; [reflexivity|]. split; [lia|]. rewrite E, pow2_plus.
    change (pow2 1) with (2 # 1). change (inject_Z (2 ^ 53)) with (inject_Z (2 ^ 52) * (2 # 1)). ring.
  - exists m, e. split; [lia|]. split; [assumption|reflexivity].
Qed.

Lemma abs_scale : forall a, Qabs (a * pow2 e) == Qabs a * pow2 e.
Proof. intros a. rewrite Qabs_Qmult. rewrite (Qabs_pos (pow2 e)); [reflexivity|apply Qlt_le_weak, pow2_pos]. Qed.

Lemma pos_dist : forall z, Qabs (q - inject_Z z * pow2 e) == Qabs (x - inject_Z z) * pow2 e.
Proof. intros z. rewrite <- abs_scale. rewrite scaled at 1. apply Qabs_wd. ring. Qed.

Lemma pos_nearest_all : forall y, is_float y -> Qabs (q - rnd_pos q) <= Qabs (q - y).
Proof.
  intros y (m' & e' & Hm & He & Ey). rewrite rnd_pos_eq.
  destruct (Z.le_gt_cases e e') as [L|L].
  - assert (Ez : y == inject_Z (m' * 2 ^ (e' - e)) * pow2 e).
    { rewrite Ey. replace e' with ((e' - e) + e)%Z at 1 by lia. rewrite pow2_plus, inject_Z_mult, pow2_Z by lia. ring. }
    rewrite Ez. rewrite !pos_dist. apply Qmult_le_compat_r; [apply round_even_best|apply Qlt_le_weak, pow2_pos].
  - assert (G : inject_Z (2 ^ 52) <= x) by (apply x_ge; lia).
    assert (Yx : y <= inject_Z (2 ^ 52) * pow2 e).
    { rewrite Ey. apply Qle_trans with (inject_Z (2 ^ 53) * pow2 (e - 1)).
      - apply Qle_trans with (inject_Z (2 ^ 53) * pow2 e').
        + apply Qmult_le_compat_r; [rewrite <- Zle_Qle; lia|apply Qlt_le_weak, pow2_pos].
        + rewrite !(Qmult_comm (inject_Z (2 ^ 53))). apply Qmult_le_compat_r; [apply pow2_le; lia|discriminate].
      - apply Qle_lteq. right. replace e with ((e - 1) + 1)%Z at 2 by lia. rewrite pow2_plus. change (pow2 1) with (2 # 1).
        change (inject_Z (2 ^ 53)) with (inject_Z (2 ^ 52) * (2 # 1)). ring. }
    apply Qle_trans with (Qabs (q - inject_Z (2 ^ 52) * pow2 e)).
    + rewrite !pos_dist. apply Qmult_le_compat_r; [apply round_even_best|apply Qlt_le_weak, pow2_pos].
    + assert (q >= inject_Z (2 ^ 52) * pow2 e).
      { rewrite scaled. apply Qmult_le_compat_r; [exact G|apply Qlt_le_weak, pow2_pos]. }
      rewrite !Qabs_pos by lra. lra.
Qed.

Lemma pos_even : Z.even m = true -> even_float (rnd_pos q).
Proof.
  intros Ev. rewrite rnd_pos_eq. pose proof m_range as R. pose proof e_ge as Ge.
  destruct (Z.eq_dec m (2 ^ 53)) as [E|E].
  - exists (2 ^ 52)%Z, (e + 1)%Z. repeat apply conj; [reflexivity|lia| |reflexivity|left; discriminate]. rewrite E, pow2_plus.
    change (pow2 1) with (2 # 1). change (inject_Z (2 ^ 53)) with (inject_Z (2 ^ 52) * (2 # 1)). ring.
  - exists m, e. repeat apply conj; [lia|assumption|reflexivity|exact Ev|].
    destruct (Z.eq_dec e (-1074)) as [E'|E']; [auto|]. left.
    assert (G : inject_Z (2 ^ 52) <= x) by (apply x_ge; lia).
    destruct (round_even_between x (2 ^ 52) (2 ^ 53)) as [M _]; [exact G|apply Qlt_le_weak, x_lt|]. fold m in M. lia.
Qed.

Lemma pos_ties : ties_to_even q (rnd_pos q).
Proof.
  intros y (m' & e' & Hm & He & Ey) H. rewrite rnd_pos_eq in H.
  destruct (Z.le_gt_cases e e') as [L|L].
  - assert (Ez : y == inject_Z (m' * 2 ^ (e' - e)) * pow2 e).
    { rewrite Ey. replace e' with ((e' - e) + e)%Z at 1 by lia. rewrite pow2_plus, inject_Z_mult, pow2_Z by lia. ring. }
    rewrite Ez in H. rewrite !pos_dist in H. apply Qmult_inj_r in H; [|pose proof (pow2_pos e); lra].
    destruct (round_even_tie _ _ H) as [E|E]; [left|right; apply pos_even; exact E].
    rewrite Ez, E. reflexivity.
  - assert (G : inject_Z (2 ^ 52) <= x) by (apply x_ge; lia).
    assert (Yx : y < inject_Z (2 ^ 52) * pow2 e).
    { rewrite Ey. apply Qlt_le_trans with (inject_Z (2 ^ 53) * pow2 (e - 1)).
      - apply Qlt_le_trans with (inject_Z (2 ^ 53) * pow2 e').
        + apply Qmult_lt_compat_r; [apply pow2_pos|rewrite <- Zlt_Qlt; lia].
        + rewrite !(Qmult_comm (inject_Z (2 ^ 53))). apply Qmult_le_compat_r; [apply pow2_le; lia|discriminate].
      - apply Qle_lteq. right. replace e with ((e - 1) + 1)%Z at 2 by lia. rewrite pow2_plus. change (pow2 1) with (2 # 1).
        change (inject_Z (2 ^ 53)) with (inject_Z (2 ^ 52) * (2 # 1)). ring. }
    exfalso.
    assert (A : Qabs (q - inject_Z m * pow2 e) <= Qabs (q - inject_Z (2 ^ 52) * pow2 e)).
    { rewrite !pos_dist. apply Qmult_le_compat_r; [apply round_even_best|apply Qlt_le_weak, pow2_pos]. }
    assert (B : q >= inject_Z (2 ^ 52) * pow2 e).
    { rewrite scaled. apply Qmult_le_compat_r; [exact G|apply Qlt_le_weak, pow2_pos]. }
    rewrite (Qabs_pos (q - inject_Z (2 ^ 52) * pow2 e)) in A by lra. rewrite (Qabs_pos (q - y)) in H by lra. lra.
Qed.

Lemma pos_error : Qabs (q - rnd_pos q) <= (1 # 2) * pow2 e.
Proof.
  rewrite rnd_pos_eq, pos_dist. apply Qmult_le_compat_r; [apply round_even_near|apply Qlt_le_weak, pow2_pos].
Qed.

Lemma pos_nonneg : 0 <= rnd_pos q.
Proof.
  rewrite rnd_pos_eq. apply Qmult_le_0_compat; [|apply Qlt_le_weak, pow2_pos].
  change 0 with (inject_Z 0). rewrite <- Zle_Qle. apply m_range.
Qed.

Lemma pos_twice : rnd_pos q <= 2 * q.
Proof.
  rewrite rnd_pos_eq. rewrite scaled at 1. rewrite Qmult_assoc. apply Qmult_le_compat_r; [|apply Qlt_le_weak, pow2_pos].
  pose proof (round_even_near x) as N. fold m in N. apply Qabs_Qle_condition in N. pose proof x_pos as X.
  destruct (Z.eq_dec m 0) as [->|E]; [change (inject_Z 0) with 0; lra|].
  assert (M : (1 <= m)%Z) by (pose proof m_range; lia). rewrite Zle_Qle in M. change (inject_Z 1) with 1 in M. lra.
Qed.
End Pos.

Lemma pos_mono : forall p q, 0 < p -> p <= q -> rnd_pos p <= rnd_pos q.
Proof.
  intros p q Hp H. assert (Hq : 0 < q) by lra.
  destruct (flog2_spec p Hp) as [P1 P2], (flog2_spec q Hq) as [Q1 Q2].
  assert (K : (flog2 p <= flog2 q)%Z).
  { assert (pow2 (flog2 p) < pow2 (flog2 q + 1)) as L by lra. apply pow2_lt_inv in L. lia. }
  assert (E : (last_digit p <= last_digit q)%Z) by (unfold last_digit; lia).
  rewrite !rnd_pos_eq. destruct (Z.eq_dec (last_digit p) (last_digit q)) as [E'|E'].
  - rewrite E'. apply Qmult_le_compat_r; [|apply Qlt_le_weak, pow2_pos]. rewrite <- Zle_Qle. apply round_even_mono.
    unfold Qdiv. apply Qmult_le_compat_r; [exact H|]. apply Qlt_le_weak, Qinv_lt_0_compat, pow2_pos.
  - assert (L : (-1074 < last_digit q)%Z) by (pose proof (e_ge p); lia).
    pose proof (x_ge q Hq L) as G.
    destruct (round_even_between (q / pow2 (last_digit q)) (2 ^ 52) (2 ^ 53)) as [M _]; [exact G|apply Qlt_le_weak, x_lt, Hq|].
    destruct (m_range p Hp) as [_ M'].
    apply Qle_trans with (inject_Z (2 ^ 53) * pow2 (last_digit p)).
    { apply Qmult_le_compat_r; [rewrite <- Zle_Qle; exact M'|apply Qlt_le_weak, pow2_pos]. }
    apply Qle_trans with (inject_Z (2 ^ 52) * pow2 (last_digit q)).
    2: { apply Qmult_le_compat_r; [rewrite <- Zle_Qle; exact M|apply Qlt_le_weak, pow2_pos]. }
    apply Qle_trans with (inject_Z (2 ^ 53) * pow2 (last_digit q - 1)).
    { rewrite !(Qmult_comm (inject_Z (2 ^ 53))). apply Qmult_le_compat_r; [apply pow2_le; lia|discriminate]. }
    apply Qle_lteq. right. replace (last_digit q) with ((last_digit q - 1) + 1)%Z at 2 by lia. rewrite pow2_plus. change (pow2 1) with (2 # 1).
    change (inject_Z (2 ^ 53)) with (inject_Z (2 ^ 52) * (2 # 1)). ring.
Qed.

(** ** All numbers *)
Lemma rnd64_pos : forall q, 0 < q -> rnd64 q = rnd_pos q.
Proof. intros q H. unfold rnd64. destruct (Qcompare_spec 0 q); [lra|reflexivity|lra]. Qed.
Lemma rnd64_neg : forall q, q < 0 -> rnd64 q = - rnd_pos (- q).
Proof. intros q H. unfold rnd64. destruct (Qcompare_spec 0 q); [lra|lra|reflexivity]. Qed.
Lemma rnd64_zero : forall q, q == 0 -> rnd64 q = 0.
Proof. intros q H. unfold rnd64. destruct (Qcompare_spec 0 q); [reflexivity|lra|lra]. Qed.

Lemma float_opp : forall y, is_float y -> is_float (- y).
Proof. intros y (m & e & A & B & C). exists (- m)%Z, e. rewrite Z.abs_opp. split; [exact A|]. split; [exact B|]. rewrite C, inject_Z_opp. ring. Qed.

Lemma even_opp : forall y, even_float y -> even_float (- y).
Proof. intros y (m & e & A & B & C & D & E). exists (- m)%Z, e. rewrite Z.abs_opp, Z.even_opp. repeat apply conj; auto. rewrite C, inject_Z_opp. ring. Qed.

Lemma float_comp : forall a b, a == b -> is_float a -> is_float b.
Proof. intros a b E (m & e & A & B & C). exists m, e. split; [exact A|]. split; [exact B|]. lra. Qed.

Lemma even_comp : forall a b, a == b -> even_float a -> even_float b.
Proof. intros a b E (m & e & A & B & C & D). exists m, e. repeat apply conj; try tauto. lra. Qed.

Lemma float_zero : is_float 0.
Proof. exists 0%Z, 0%Z. split; [reflexivity|]. split; [discriminate|reflexivity]. Qed.

Lemma rnd64_nearest : forall q, nearest q (rnd64 q).
Proof.
  intros q. destruct (Q_dec 0 q) as [[H|H]|H].
  - rewrite rnd64_pos by exact H. split; [apply pos_float; exact H|apply pos_nearest_all; exact H].
  - rewrite rnd64_neg by exact H. assert (H' : 0 < - q) by lra. split; [apply float_opp, pos_float; exact H'|].
    intros y Y. pose proof (pos_nearest_all (- q) H' (- y) (float_opp _ Y)) as N.
    rewrite <- (Qabs_opp (q - - rnd_pos (- q))), <- (Qabs_opp (q - y)).
    rewrite (Qabs_wd (- (q - - rnd_pos (- q))) (- q - rnd_pos (- q))) by ring.
    rewrite (Qabs_wd (- (q - y)) (- q - - y)) by ring. exact N.
  - rewrite rnd64_zero by lra. split; [apply float_zero|]. intros y _.
    rewrite (Qabs_wd (q - 0) 0) by lra. apply Qabs_nonneg.
Qed.

Lemma rnd64_ties : forall q, ties_to_even q (rnd64 q).
Proof.
  intros q. destruct (Q_dec 0 q) as [[H|H]|H].
  - rewrite rnd64_pos by exact H. apply pos_ties. exact H.
  - rewrite rnd64_neg by exact H. assert (H' : 0 < - q) by lra. intros y Y E.
    destruct (pos_ties (- q) H' (- y) (float_opp _ Y)) as [A|A].
    + rewrite <- (Qabs_opp (- q - rnd_pos (- q))), <- (Qabs_opp (- q - - y)).
      rewrite (Qabs_wd (- (- q - rnd_pos (- q))) (q - - rnd_pos (- q))) by ring.
      rewrite (Qabs_wd (- (- q - - y)) (q - y)) by ring. exact E.
    + left. lra.
    + right. apply even_opp. exact A.
  - rewrite rnd64_zero by lra. intros y Y E. left. rewrite (Qabs_wd (q - 0) 0) in E by lra. rewrite (Qabs_wd (q - y) (- y)) in E by lra.
    rewrite Qabs_opp in E. change (Qabs 0) with 0 in E. pose proof (Qle_Qabs y). pose proof (Qle_Qabs (- y)) as P. rewrite Qabs_opp in P. lra.
Qed.

Lemma rnd64_comp : forall p q, p == q -> rnd64 p == rnd64 q.
Proof.
  assert (K : forall p q, 0 < p -> p == q -> rnd_pos p == rnd_pos q).
  { intros p q H E. apply Qle_antisym; apply pos_mono; lra. }
  intros p q E. destruct (Q_dec 0 p) as [[H|H]|H].
  - rewrite !rnd64_pos by lra. apply K; assumption.
  - rewrite !rnd64_neg by lra. rewrite (K (- p) (- q)); [reflexivity|lra|lra].
  - rewrite !rnd64_zero by lra. reflexivity.
Qed.

Lemma rnd64_nonneg : forall q, 0 <= q -> 0 <= rnd64 q.
Proof.
  intros q H. destruct (Q_dec 0 q) as [[L|L]|L]; [|lra|].
  - rewrite rnd64_pos by exact L. apply pos_nonneg. exact L.
  - rewrite rnd64_zero by lra. apply Qle_refl.
Qed.

Lemma rnd64_twice : forall q, 0 <= q -> rnd64 q <= 2 * q.
Proof.
  intros q H. destruct (Q_dec 0 q) as [[L|L]|L]; [|lra|].
  - rewrite rnd64_pos by exact L. apply pos_twice. exact L.
  - rewrite rnd64_zero by lra. lra.
Qed.

Lemma rnd64_mono : forall p q, p <= q -> rnd64 p <= rnd64 q.
Proof.
  intros p q H. destruct (Q_dec 0 p) as [[P|P]|P].
  - rewrite !rnd64_pos by lra. apply pos_mono; assumption.
  - rewrite (rnd64_neg p) by exact P. assert (P' : 0 < - p) by lra. destruct (Q_dec 0 q) as [[L|L]|L].
    + rewrite rnd64_pos by exact L. pose proof (pos_nonneg q L). pose proof (pos_nonneg (- p) P'). lra.
    + rewrite rnd64_neg by exact L. pose proof (pos_mono (- q) (- p)). lra.
    + rewrite rnd64_zero by lra. pose proof (pos_nonneg (- p) P'). lra.
  - rewrite (rnd64_zero p) by lra. apply rnd64_nonneg. lra.
Qed.

(** A float is left as it is. *)
Lemma rnd64_float : forall y, is_float y -> rnd64 y == y.
Proof.
  intros y Y. destruct (rnd64_nearest y) as [_ N]. specialize (N y Y). rewrite (Qabs_wd (y - y) 0) in N by ring.
  change (Qabs 0) with 0 in N. apply Qabs_Qle_condition in N. lra.
Qed.

(** Integers up to 2^53 are floats. *)
Lemma int_float : forall z, (Z.abs z <= 2 ^ 53)%Z -> is_float (inject_Z z).
Proof.
  intros z H. destruct (Z.eq_dec (Z.abs z) (2 ^ 53)) as [E|E].
  - exists (z / 2)%Z, 1%Z.
    assert (D : z = (2 * (z / 2))%Z).
    { destruct (Z.abs_spec z) as [[_ A]|[_ A]]; rewrite E in A; [subst z; reflexivity|]. replace z with (- 2 ^ 53)%Z by lia. reflexivity. }
    split; [|split; [discriminate|]].
    + destruct (Z.abs_spec z) as [[_ A]|[_ A]]; rewrite E in A; [subst z; reflexivity|]. replace z with (- 2 ^ 53)%Z by lia. reflexivity.
    + rewrite D at 1. rewrite inject_Z_mult. change (pow2 1) with (2 # 1). change (inject_Z 2) with (2 # 1). ring.
  - exists z, 0%Z. split; [lia|]. split; [discriminate|]. change (pow2 0) with 1. ring.
Qed.

(** The error: half of the last of 53 digits, or half the least subnormal number. *)
Lemma rnd64_error : forall q, 0 <= q -> Qabs (q - rnd64 q) <= q * pow2 (-53) + pow2 (-1075).
Proof.
  intros q H. pose proof (pow2_pos (-53)) as P1. pose proof (pow2_pos (-1075)) as P2.
  destruct (Q_dec 0 q) as [[L|L]|L]; [|lra|].
  - rewrite rnd64_pos by exact L. eapply Qle_trans; [apply pos_error; exact L|].
    destruct (flog2_spec q L) as [A _].
    change (1 # 2) with (pow2 (-1)). rewrite <- pow2_plus. unfold last_digit.
    destruct (Z.max_spec (flog2 q - 52) (-1074)) as [[C ->]|[C ->]].
    + change (-1 + -1074)%Z with (-1075)%Z. assert (0 <= q * pow2 (-53)) by (apply Qmult_le_0_compat; lra). lra.
    + replace (-1 + (flog2 q - 52))%Z with (flog2 q + -53)%Z by lia. rewrite pow2_plus.
      assert (pow2 (flog2 q) * pow2 (-53) <= q * pow2 (-53)) by (apply Qmult_le_compat_r; lra). lra.
  - rewrite rnd64_zero by lra. rewrite (Qabs_wd (q - 0) 0) by lra. change (Qabs 0) with 0.
    assert (0 <= q * pow2 (-53)) by (apply Qmult_le_0_compat; lra). lra.
Qed.

(** Without the second part for numbers that are not too small. *)
Lemma rnd64_error_normal : forall q, pow2 (-1022) <= q -> Qabs (q - rnd64 q) <= q * pow2 (-53).
Proof.
  intros q H. pose proof (pow2_pos (-53)) as P1. pose proof (pow2_pos (-1022)) as P2.
  assert (L : 0 < q) by lra. rewrite rnd64_pos by exact L. eapply Qle_trans; [apply pos_error; exact L|].
  destruct (flog2_spec q L) as [A B].
  assert (K : (-1022 <= flog2 q)%Z).
  { assert (pow2 (-1022) < pow2 (flog2 q + 1)) as X by lra. apply pow2_lt_inv in X. lia. }
  change (1 # 2) with (pow2 (-1)). rewrite <- pow2_plus. unfold last_digit. rewrite Z.max_l by lia.
  replace (-1 + (flog2 q - 52))%Z with (flog2 q + -53)%Z by lia. rewrite pow2_plus. apply Qmult_le_compat_r; lra.
Qed.

(** Adding less than half of the last digit changes nothing. *)
Lemma rnd64_absorb : forall m e z, (2 ^ 52 <= m < 2 ^ 53)%Z -> (-1074 <= e)%Z -> 0 <= z -> z < (1 # 2) * pow2 e ->
  rnd64 (inject_Z m * pow2 e + z) == inject_Z m * pow2 e.
Proof.
  intros m e z Hm He Z0 Z1. pose proof (pow2_pos e) as P.
  assert (M1 : inject_Z (2 ^ 52) <= inject_Z m) by (rewrite <- Zle_Qle; lia).
  assert (M2 : inject_Z m + 1 <= inject_Z (2 ^ 53)).
  { change 1 with (inject_Z 1). rewrite <- inject_Z_plus, <- Zle_Qle. lia. }
  assert (A : inject_Z (2 ^ 52) * pow2 e <= inject_Z m * pow2 e) by (apply Qmult_le_compat_r; lra).
  assert (B : (inject_Z m + 1) * pow2 e <= inject_Z (2 ^ 53) * pow2 e) by (apply Qmult_le_compat_r; lra).
  assert (A0 : 0 < inject_Z (2 ^ 52) * pow2 e) by (apply Qmult_lt_0_compat; [reflexivity|exact P]).
  set (q := inject_Z m * pow2 e + z).
  assert (Hq : 0 < q) by (unfold q; lra).
  assert (F : flog2 q = (e + 52)%Z).
  { apply flog2_unique; [exact Hq| |].
    - rewrite Z.add_comm, pow2_plus, pow2_Z by lia. unfold q. lra.
    - replace (e + 52 + 1)%Z with (53 + e)%Z by lia. rewrite pow2_plus, pow2_Z by lia. unfold q. lra. }
  assert (E : last_digit q = e) by (unfold last_digit; rewrite F; lia).
  rewrite rnd64_pos by exact Hq. rewrite rnd_pos_eq, E.
  assert (R : round_even (q / pow2 e) = m); [|rewrite R; reflexivity].
  apply round_even_exact. rewrite (Qabs_wd _ (z / pow2 e)) by (unfold q; field; lra).
  assert (0 <= z / pow2 e) by (apply Qle_shift_div_l; lra).
  rewrite Qabs_pos by assumption. apply Qlt_shift_div_r; [exact P|exact Z1].
Qed.
