(** Rounding to 32-bit floats: as F64P. *)
From Coq Require Import ZArith NArith QArith Qabs Qround Qpower Bool Lia Lqa.
From Verif Require Import F64M F64P F32M F32S.
Open Scope Q_scope.

(** ** Rounding *)
Section Pos.
Context (q : Q) (Hq : 0 < q).
Let e := last_digit32 q.
Let x := q / pow2 e.
Let m := round_even x.

Lemma scaled : q == x * pow2 e.
Proof. unfold x. pose proof (pow2_pos e). field. lra. Qed.

Lemma x_pos : 0 < x.
Proof. unfold x. apply Qlt_shift_div_l; [apply pow2_pos|]. lra. Qed.

Lemma x_lt : x < inject_Z (2 ^ 24).
Proof.
  unfold x. apply Qlt_shift_div_r; [apply pow2_pos|]. rewrite <- pow2_Z by lia. rewrite <- pow2_plus.
  destruct (flog2_spec q Hq) as [_ B]. eapply Qlt_le_trans; [exact B|]. apply pow2_le. unfold e, last_digit32. lia.
Qed.

(** All 24 digits are used, or the number is subnormal. *)
Lemma x_ge : (-149 < e)%Z -> inject_Z (2 ^ 23) <= x.
Proof.
  intros H. unfold x. apply Qle_shift_div_l; [apply pow2_pos|]. rewrite <- pow2_Z by lia. rewrite <- pow2_plus.
  destruct (flog2_spec q Hq) as [A _]. eapply Qle_trans; [|exact A]. apply pow2_le. unfold e, last_digit32 in *. lia.
Qed.

Lemma e_ge : (-149 <= e)%Z.
Proof. unfold e, last_digit32. lia. Qed.

Lemma m_range : (0 <= m <= 2 ^ 24)%Z.
Proof. apply round_even_between; [apply Qlt_le_weak, x_pos|apply Qlt_le_weak, x_lt]. Qed.

Lemma rnd32_up_eq : rnd32_up q = inject_Z m * pow2 e.
Proof. reflexivity. Qed.

Lemma pos_float : is_float32 (rnd32_up q).
Proof.
  rewrite rnd32_up_eq. pose proof m_range as R. pose proof e_ge.
  destruct (Z.eq_dec m (2 ^ 24)) as [E|E].
  - exists (2 ^ 23)%Z, (e + 1)%Z. split; [reflexivity|]. split; [lia|]. rewrite E, pow2_plus.
    change (pow2 1) with (2 # 1). change (inject_Z (2 ^ 24)) with (inject_Z (2 ^ 23) * (2 # 1)). ring.
  - exists m, e. split; [lia|]. split; [assumption|reflexivity].
Qed.

Lemma abs_scale : forall a, Qabs (a * pow2 e) == Qabs a * pow2 e.
Proof. intros a. rewrite Qabs_Qmult. rewrite (Qabs_pos (pow2 e)); [reflexivity|apply Qlt_le_weak, pow2_pos]. Qed.

Lemma pos_dist : forall z, Qabs (q - inject_Z z * pow2 e) == Qabs (x - inject_Z z) * pow2 e.
Proof. intros z. rewrite <- abs_scale. rewrite scaled at 1. apply Qabs_wd. ring. Qed.

Lemma pos_nearest_all : forall y, is_float32 y -> Qabs (q - rnd32_up q) <= Qabs (q - y).
Proof.
  intros y (m' & e' & Hm & He & Ey). rewrite rnd32_up_eq.
  destruct (Z.le_gt_cases e e') as [L|L].
  - assert (Ez : y == inject_Z (m' * 2 ^ (e' - e)) * pow2 e).
    { rewrite Ey. replace e' with ((e' - e) + e)%Z at 1 by lia. rewrite pow2_plus, inject_Z_mult, pow2_Z by lia. ring. }
    rewrite Ez. rewrite !pos_dist. apply Qmult_le_compat_r; [apply round_even_best|apply Qlt_le_weak, pow2_pos].
  - assert (G : inject_Z (2 ^ 23) <= x) by (apply x_ge; lia).
    assert (Yx : y <= inject_Z (2 ^ 23) * pow2 e).
    { rewrite Ey. apply Qle_trans with (inject_Z (2 ^ 24) * pow2 (e - 1)).
      - apply Qle_trans with (inject_Z (2 ^ 24) * pow2 e').
        + apply Qmult_le_compat_r; [rewrite <- Zle_Qle; lia|apply Qlt_le_weak, pow2_pos].
        + rewrite !(Qmult_comm (inject_Z (2 ^ 24))). apply Qmult_le_compat_r; [apply pow2_le; lia|discriminate].
      - apply Qle_lteq. right. replace e with ((e - 1) + 1)%Z at 2 by lia. rewrite pow2_plus. change (pow2 1) with (2 # 1).
        change (inject_Z (2 ^ 24)) with (inject_Z (2 ^ 23) * (2 # 1)). ring. }
    apply Qle_trans with (Qabs (q - inject_Z (2 ^ 23) * pow2 e)).
    + rewrite !pos_dist. apply Qmult_le_compat_r; [apply round_even_best|apply Qlt_le_weak, pow2_pos].
    + assert (q >= inject_Z (2 ^ 23) * pow2 e).
      { rewrite scaled. apply Qmult_le_compat_r; [exact G|apply Qlt_le_weak, pow2_pos]. }
      rewrite !Qabs_pos by lra. lra.
Qed.

Lemma pos_even : Z.even m = true -> even_float32 (rnd32_up q).
Proof.
  intros Ev. rewrite rnd32_up_eq. pose proof m_range as R. pose proof e_ge as Ge.
  destruct (Z.eq_dec m (2 ^ 24)) as [E|E].
  - exists (2 ^ 23)%Z, (e + 1)%Z. repeat apply conj; [reflexivity|lia| |reflexivity|left; discriminate]. rewrite E, pow2_plus.
    change (pow2 1) with (2 # 1). change (inject_Z (2 ^ 24)) with (inject_Z (2 ^ 23) * (2 # 1)). ring.
  - exists m, e. repeat apply conj; [lia|assumption|reflexivity|exact Ev|].
    destruct (Z.eq_dec e (-149)) as [E'|E']; [auto|]. left.
    assert (G : inject_Z (2 ^ 23) <= x) by (apply x_ge; lia).
    destruct (round_even_between x (2 ^ 23) (2 ^ 24)) as [M _]; [exact G|apply Qlt_le_weak, x_lt|]. fold m in M. lia.
Qed.

Lemma pos_ties : ties_to_even32 q (rnd32_up q).
Proof.
  intros y (m' & e' & Hm & He & Ey) H. rewrite rnd32_up_eq in H.
  destruct (Z.le_gt_cases e e') as [L|L].
  - assert (Ez : y == inject_Z (m' * 2 ^ (e' - e)) * pow2 e).
    { rewrite Ey. replace e' with ((e' - e) + e)%Z at 1 by lia. rewrite pow2_plus, inject_Z_mult, pow2_Z by lia. ring. }
    rewrite Ez in H. rewrite !pos_dist in H. apply Qmult_inj_r in H; [|pose proof (pow2_pos e); lra].
    destruct (round_even_tie _ _ H) as [E|E]; [left|right; apply pos_even; exact E].
    rewrite Ez, E. reflexivity.
  - assert (G : inject_Z (2 ^ 23) <= x) by (apply x_ge; lia).
    assert (Yx : y < inject_Z (2 ^ 23) * pow2 e).
    { rewrite Ey. apply Qlt_le_trans with (inject_Z (2 ^ 24) * pow2 (e - 1)).
      - apply Qlt_le_trans with (inject_Z (2 ^ 24) * pow2 e').
        + apply Qmult_lt_compat_r; [apply pow2_pos|rewrite <- Zlt_Qlt; lia].
        + rewrite !(Qmult_comm (inject_Z (2 ^ 24))). apply Qmult_le_compat_r; [apply pow2_le; lia|discriminate].
      - apply Qle_lteq. right. replace e with ((e - 1) + 1)%Z at 2 by lia. rewrite pow2_plus. change (pow2 1) with (2 # 1).
        change (inject_Z (2 ^ 24)) with (inject_Z (2 ^ 23) * (2 # 1)). ring. }
    exfalso.
    assert (A : Qabs (q - inject_Z m * pow2 e) <= Qabs (q - inject_Z (2 ^ 23) * pow2 e)).
    { rewrite !pos_dist. apply Qmult_le_compat_r; [apply round_even_best|apply Qlt_le_weak, pow2_pos]. }
    assert (B : q >= inject_Z (2 ^ 23) * pow2 e).
    { rewrite scaled. apply Qmult_le_compat_r; [exact G|apply Qlt_le_weak, pow2_pos]. }
    rewrite (Qabs_pos (q - inject_Z (2 ^ 23) * pow2 e)) in A by lra. rewrite (Qabs_pos (q - y)) in H by lra. lra.
Qed.

Lemma pos_error : Qabs (q - rnd32_up q) <= (1 # 2) * pow2 e.
Proof.
  rewrite rnd32_up_eq, pos_dist. apply Qmult_le_compat_r; [apply round_even_near|apply Qlt_le_weak, pow2_pos].
Qed.

Lemma pos_nonneg : 0 <= rnd32_up q.
Proof.
  rewrite rnd32_up_eq. apply Qmult_le_0_compat; [|apply Qlt_le_weak, pow2_pos].
  change 0 with (inject_Z 0). rewrite <- Zle_Qle. apply m_range.
Qed.

Lemma pos_twice : rnd32_up q <= 2 * q.
Proof.
  rewrite rnd32_up_eq. rewrite scaled at 1. rewrite Qmult_assoc. apply Qmult_le_compat_r; [|apply Qlt_le_weak, pow2_pos].
  pose proof (round_even_near x) as N. fold m in N. apply Qabs_Qle_condition in N. pose proof x_pos as X.
  destruct (Z.eq_dec m 0) as [->|E]; [change (inject_Z 0) with 0; lra|].
  assert (M : (1 <= m)%Z) by (pose proof m_range; lia). rewrite Zle_Qle in M. change (inject_Z 1) with 1 in M. lra.
Qed.
End Pos.

Lemma pos_mono : forall p q, 0 < p -> p <= q -> rnd32_up p <= rnd32_up q.
Proof.
  intros p q Hp H. assert (Hq : 0 < q) by lra.
  destruct (flog2_spec p Hp) as [P1 P2], (flog2_spec q Hq) as [Q1 Q2].
  assert (K : (flog2 p <= flog2 q)%Z).
  { assert (pow2 (flog2 p) < pow2 (flog2 q + 1)) as L by lra. apply pow2_lt_inv in L. lia. }
  assert (E : (last_digit32 p <= last_digit32 q)%Z) by (unfold last_digit32; lia).
  rewrite !rnd32_up_eq. destruct (Z.eq_dec (last_digit32 p) (last_digit32 q)) as [E'|E'].
  - rewrite E'. apply Qmult_le_compat_r; [|apply Qlt_le_weak, pow2_pos]. rewrite <- Zle_Qle. apply round_even_mono.
    unfold Qdiv. apply Qmult_le_compat_r; [exact H|]. apply Qlt_le_weak, Qinv_lt_0_compat, pow2_pos.
  - assert (L : (-149 < last_digit32 q)%Z) by (pose proof (e_ge p); lia).
    pose proof (x_ge q Hq L) as G.
    destruct (round_even_between (q / pow2 (last_digit32 q)) (2 ^ 23) (2 ^ 24)) as [M _]; [exact G|apply Qlt_le_weak, x_lt, Hq|].
    destruct (m_range p Hp) as [_ M'].
    apply Qle_trans with (inject_Z (2 ^ 24) * pow2 (last_digit32 p)).
    { apply Qmult_le_compat_r; [rewrite <- Zle_Qle; exact M'|apply Qlt_le_weak, pow2_pos]. }
    apply Qle_trans with (inject_Z (2 ^ 23) * pow2 (last_digit32 q)).
    2: { apply Qmult_le_compat_r; [rewrite <- Zle_Qle; exact M|apply Qlt_le_weak, pow2_pos]. }
    apply Qle_trans with (inject_Z (2 ^ 24) * pow2 (last_digit32 q - 1)).
    { rewrite !(Qmult_comm (inject_Z (2 ^ 24))). apply Qmult_le_compat_r; [apply pow2_le; lia|discriminate]. }
    apply Qle_lteq. right. replace (last_digit32 q) with ((last_digit32 q - 1) + 1)%Z at 2 by lia. rewrite pow2_plus. change (pow2 1) with (2 # 1).
    change (inject_Z (2 ^ 24)) with (inject_Z (2 ^ 23) * (2 # 1)). ring.
Qed.

(** ** All numbers *)
Lemma rnd32_pos : forall q, 0 < q -> rnd32 q = rnd32_up q.
Proof. intros q H. unfold rnd32. destruct (Qcompare_spec 0 q); [lra|reflexivity|lra]. Qed.
Lemma rnd32_neg : forall q, q < 0 -> rnd32 q = - rnd32_up (- q).
Proof. intros q H. unfold rnd32. destruct (Qcompare_spec 0 q); [lra|lra|reflexivity]. Qed.
Lemma rnd32_zero : forall q, q == 0 -> rnd32 q = 0.
Proof. intros q H. unfold rnd32. destruct (Qcompare_spec 0 q); [reflexivity|lra|lra]. Qed.

Lemma float_opp : forall y, is_float32 y -> is_float32 (- y).
Proof. intros y (m & e & A & B & C). exists (- m)%Z, e. rewrite Z.abs_opp. split; [exact A|]. split; [exact B|]. rewrite C, inject_Z_opp. ring. Qed.

Lemma even_opp : forall y, even_float32 y -> even_float32 (- y).
Proof. intros y (m & e & A & B & C & D & E). exists (- m)%Z, e. rewrite Z.abs_opp, Z.even_opp. repeat apply conj; auto. rewrite C, inject_Z_opp. ring. Qed.

Lemma float_comp : forall a b, a == b -> is_float32 a -> is_float32 b.
Proof. intros a b E (m & e & A & B & C). exists m, e. split; [exact A|]. split; [exact B|]. lra. Qed.

Lemma even_comp : forall a b, a == b -> even_float32 a -> even_float32 b.
Proof. intros a b E (m & e & A & B & C & D). exists m, e. repeat apply conj; try tauto. lra. Qed.

Lemma float_zero : is_float32 0.
Proof. exists 0%Z, 0%Z. split; [reflexivity|]. split; [discriminate|reflexivity]. Qed.

Lemma rnd32_nearest : forall q, nearest32 q (rnd32 q).
Proof.
  intros q. destruct (Q_dec 0 q) as [[H|H]|H].
  - rewrite rnd32_pos by exact H. split; [apply pos_float; exact H|apply pos_nearest_all; exact H].
  - rewrite rnd32_neg by exact H. assert (H' : 0 < - q) by lra. split; [apply float_opp, pos_float; exact H'|].
    intros y Y. pose proof (pos_nearest_all (- q) H' (- y) (float_opp _ Y)) as N.
    rewrite <- (Qabs_opp (q - - rnd32_up (- q))), <- (Qabs_opp (q - y)).
    rewrite (Qabs_wd (- (q - - rnd32_up (- q))) (- q - rnd32_up (- q))) by ring.
    rewrite (Qabs_wd (- (q - y)) (- q - - y)) by ring. exact N.
  - rewrite rnd32_zero by lra. split; [apply float_zero|]. intros y _.
    rewrite (Qabs_wd (q - 0) 0) by lra. apply Qabs_nonneg.
Qed.

Lemma rnd32_ties : forall q, ties_to_even32 q (rnd32 q).
Proof.
  intros q. destruct (Q_dec 0 q) as [[H|H]|H].
  - rewrite rnd32_pos by exact H. apply pos_ties. exact H.
  - rewrite rnd32_neg by exact H. assert (H' : 0 < - q) by lra. intros y Y E.
    destruct (pos_ties (- q) H' (- y) (float_opp _ Y)) as [A|A].
    + rewrite <- (Qabs_opp (- q - rnd32_up (- q))), <- (Qabs_opp (- q - - y)).
      rewrite (Qabs_wd (- (- q - rnd32_up (- q))) (q - - rnd32_up (- q))) by ring.
      rewrite (Qabs_wd (- (- q - - y)) (q - y)) by ring. exact E.
    + left. lra.
    + right. apply even_opp. exact A.
  - rewrite rnd32_zero by lra. intros y Y E. left. rewrite (Qabs_wd (q - 0) 0) in E by lra. rewrite (Qabs_wd (q - y) (- y)) in E by lra.
    rewrite Qabs_opp in E. change (Qabs 0) with 0 in E. pose proof (Qle_Qabs y). pose proof (Qle_Qabs (- y)) as P. rewrite Qabs_opp in P. lra.
Qed.

Lemma rnd32_comp : forall p q, p == q -> rnd32 p == rnd32 q.
Proof.
  assert (K : forall p q, 0 < p -> p == q -> rnd32_up p == rnd32_up q).
  { intros p q H E. apply Qle_antisym; apply pos_mono; lra. }
  intros p q E. destruct (Q_dec 0 p) as [[H|H]|H].
  - rewrite !rnd32_pos by lra. apply K; assumption.
  - rewrite !rnd32_neg by lra. rewrite (K (- p) (- q)); [reflexivity|lra|lra].
  - rewrite !rnd32_zero by lra. reflexivity.
Qed.

Lemma rnd32_nonneg : forall q, 0 <= q -> 0 <= rnd32 q.
Proof.
  intros q H. destruct (Q_dec 0 q) as [[L|L]|L]; [|lra|].
  - rewrite rnd32_pos by exact L. apply pos_nonneg. exact L.
  - rewrite rnd32_zero by lra. apply Qle_refl.
Qed.

Lemma rnd32_twice : forall q, 0 <= q -> rnd32 q <= 2 * q.
Proof.
  intros q H. destruct (Q_dec 0 q) as [[L|L]|L]; [|lra|].
  - rewrite rnd32_pos by exact L. apply pos_twice. exact L.
  - rewrite rnd32_zero by lra. lra.
Qed.

Lemma rnd32_mono : forall p q, p <= q -> rnd32 p <= rnd32 q.
Proof.
  intros p q H. destruct (Q_dec 0 p) as [[P|P]|P].
  - rewrite !rnd32_pos by lra. apply pos_mono; assumption.
  - rewrite (rnd32_neg p) by exact P. assert (P' : 0 < - p) by lra. destruct (Q_dec 0 q) as [[L|L]|L].
    + rewrite rnd32_pos by exact L. pose proof (pos_nonneg q L). pose proof (pos_nonneg (- p) P'). lra.
    + rewrite rnd32_neg by exact L. pose proof (pos_mono (- q) (- p)). lra.
    + rewrite rnd32_zero by lra. pose proof (pos_nonneg (- p) P'). lra.
  - rewrite (rnd32_zero p) by lra. apply rnd32_nonneg. lra.
Qed.

(** A float is left as it is. *)
Lemma rnd32_float : forall y, is_float32 y -> rnd32 y == y.
Proof.
  intros y Y. destruct (rnd32_nearest y) as [_ N]. specialize (N y Y). rewrite (Qabs_wd (y - y) 0) in N by ring.
  change (Qabs 0) with 0 in N. apply Qabs_Qle_condition in N. lra.
Qed.

(** Integers up to 2^24 are floats. *)
Lemma int_float : forall z, (Z.abs z <= 2 ^ 24)%Z -> is_float32 (inject_Z z).
Proof.
  intros z H. destruct (Z.eq_dec (Z.abs z) (2 ^ 24)) as [E|E].
  - exists (z / 2)%Z, 1%Z.
    assert (D : z = (2 * (z / 2))%Z).
    { destruct (Z.abs_spec z) as [[_ A]|[_ A]]; rewrite E in A; [subst z; reflexivity|]. replace z with (- 2 ^ 24)%Z by lia. reflexivity. }
    split; [|split; [discriminate|]].
    + destruct (Z.abs_spec z) as [[_ A]|[_ A]]; rewrite E in A; [subst z; reflexivity|]. replace z with (- 2 ^ 24)%Z by lia. reflexivity.
    + rewrite D at 1. rewrite inject_Z_mult. change (pow2 1) with (2 # 1). change (inject_Z 2) with (2 # 1). ring.
  - exists z, 0%Z. split; [lia|]. split; [discriminate|]. change (pow2 0) with 1. ring.
Qed.

(** The error: half of the last of 24 digits, or half the least subnormal number. *)
Lemma rnd32_error : forall q, 0 <= q -> Qabs (q - rnd32 q) <= q * pow2 (-24) + pow2 (-150).
Proof.
  intros q H. pose proof (pow2_pos (-24)) as P1. pose proof (pow2_pos (-150)) as P2.
  destruct (Q_dec 0 q) as [[L|L]|L]; [|lra|].
  - rewrite rnd32_pos by exact L. eapply Qle_trans; [apply pos_error; exact L|].
    destruct (flog2_spec q L) as [A _].
    change (1 # 2) with (pow2 (-1)). rewrite <- pow2_plus. unfold last_digit32.
    destruct (Z.max_spec (flog2 q - 23) (-149)) as [[C ->]|[C ->]].
    + change (-1 + -149)%Z with (-150)%Z. assert (0 <= q * pow2 (-24)) by (apply Qmult_le_0_compat; lra). lra.
    + replace (-1 + (flog2 q - 23))%Z with (flog2 q + -24)%Z by lia. rewrite pow2_plus.
      assert (pow2 (flog2 q) * pow2 (-24) <= q * pow2 (-24)) by (apply Qmult_le_compat_r; lra). lra.
  - rewrite rnd32_zero by lra. rewrite (Qabs_wd (q - 0) 0) by lra. change (Qabs 0) with 0.
    assert (0 <= q * pow2 (-24)) by (apply Qmult_le_0_compat; lra). lra.
Qed.

(** Without the second part for numbers that are not too small. *)
Lemma rnd32_error_normal : forall q, pow2 (-126) <= q -> Qabs (q - rnd32 q) <= q * pow2 (-24).
Proof.
  intros q H. pose proof (pow2_pos (-24)) as P1. pose proof (pow2_pos (-126)) as P2.
  assert (L : 0 < q) by lra. rewrite rnd32_pos by exact L. eapply Qle_trans; [apply pos_error; exact L|].
  destruct (flog2_spec q L) as [A B].
  assert (K : (-126 <= flog2 q)%Z).
  { assert (pow2 (-126) < pow2 (flog2 q + 1)) as X by lra. apply pow2_lt_inv in X. lia. }
  change (1 # 2) with (pow2 (-1)). rewrite <- pow2_plus. unfold last_digit32. rewrite Z.max_l by lia.
  replace (-1 + (flog2 q - 23))%Z with (flog2 q + -24)%Z by lia. rewrite pow2_plus. apply Qmult_le_compat_r; lra.
Qed.

