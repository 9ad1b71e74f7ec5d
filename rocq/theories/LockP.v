(** Proofs for C18. *)
From Coq Require Import List Bool Arith Lia.
From Verif Require Import LockM LockS.
Import ListNotations.

Lemma upd_same : forall {A} (f : nat -> A) k v, upd f k v k = v.
Proof. intros. unfold upd. rewrite Nat.eqb_refl. reflexivity. Qed.

Lemma upd_other : forall {A} (f : nat -> A) k v x, x <> k -> upd f k v x = f x.
Proof. intros A f k v x H. unfold upd. apply Nat.eqb_neq in H. rewrite H. reflexivity. Qed.

(** * The lock holder *)

Definition holder_ok (s : state) : Prop :=
  forall p d, st_pc s p = PRun d \/ st_pc s p = PLocked d -> st_lock s d = Some p.

Ltac pcs p q := destruct (Nat.eq_dec q p) as [->|?];
  [rewrite ?upd_same in *|rewrite ?upd_other in * by assumption].

Lemma holder_step : forall p s s', step p s s' -> holder_ok s -> holder_ok s'.
Proof.
  intros p s s' H I q e Hq.
  inversion H; subst; cbn [st_pc st_lock set_pc set_lock] in *; pcs p q;
    try (destruct Hq as [Hq|Hq]; discriminate); try (apply I; assumption).
  - destruct Hq as [Hq|Hq]; [discriminate|]. injection Hq as <-. apply upd_same.
  - pcs d e; [|apply I; assumption]. apply I in Hq. congruence.
  - pcs d e; [|apply I; assumption]. apply I in Hq. assert (st_lock s d = Some p) by (apply I; auto). congruence.
  - destruct Hq as [Hq|Hq]; [|discriminate]. injection Hq as <-. apply upd_same.
  - pcs d e; [|apply I; assumption]. apply I in Hq. congruence.
  - pcs d e; [|apply I; assumption]. apply I in Hq. assert (st_lock s d = Some p) by (apply I; auto). congruence.
Qed.

Lemma holder_steps : forall s s', steps s s' -> holder_ok s -> holder_ok s'.
Proof. intros s s' H. induction H; intros I; [assumption|]. apply IHsteps. eapply holder_step; eassumption. Qed.

Lemma holder_initial : forall s, initial s -> holder_ok s.
Proof. intros s (H & _) p d [E|E]; rewrite H in E; discriminate. Qed.

Lemma own_directory : forall s0 s p q d, initial s0 -> steps s0 s ->
  st_pc s p = PRun d -> st_pc s q = PRun d -> p = q.
Proof.
  intros s0 s p q d Hi Hs Hp Hq. pose proof (holder_steps _ _ Hs (holder_initial _ Hi)) as I.
  assert (st_lock s d = Some p) by (apply I; auto). assert (st_lock s d = Some q) by (apply I; auto). congruence.
Qed.

(** * Waiting *)

Lemma safe_step : forall q s s' p d, step q s s' -> safe s p d -> q <> p -> safe s' p d.
Proof.
  intros q s s' p d H (Hp & Ho & Hl & Hr & Hold & Hq) Hne.
  pose proof (Hq q Hne) as Hc.
  assert (Hset : forall c, outside d c -> safe (set_pc s q c) p d).
  { intros c Hc'. repeat split; cbn; try assumption.
    - rewrite upd_other by auto. exact Hp.
    - intros r Hrp. pcs q r; [exact Hc'|]. apply Hq; assumption. }
  unfold outside in *.
  inversion H; subst; repeat match goal with
    | E : st_pc s q = ?c |- _ => rewrite E in Hc; clear E end;
    try (destruct Hc as [Hc|[Hc|[Hc|[Hc|[Hc|[Hc|[Hc|Hc]]]]]]]; discriminate); try congruence;
    try (apply Hset; auto 12; fail).
  - apply Hset. replace d0 with d by congruence. auto.
  - destruct Hc as [Hc|[Hc|[Hc|[Hc|[Hc|[Hc|[Hc|Hc]]]]]]]; try discriminate. injection Hc as ->. congruence.
  - apply Hset. replace d0 with d by congruence. auto 12.
  - destruct Hc as [Hc|[Hc|[Hc|[Hc|[Hc|[Hc|[Hc|Hc]]]]]]]; try discriminate. injection Hc as ->. congruence.
Qed.

Lemma safe_steps : forall p s s' d, steps_without p s s' -> safe s p d -> safe s' p d.
Proof. intros p s s' d H. induction H; intros I; [assumption|]. apply IHsteps_without. eapply safe_step; eauto. Qed.

(** * One process alone *)
Definition as_before (s0 s : state) : Prop :=
  st_out s = st_out s0 /\ st_old s = st_old s0 /\ st_next s = st_next s0 /\ st_removed s = [].

Definition alone_inv (s0 : state) (p : nat) (s : state) : Prop :=
  match st_pc s p with
  | PStart => as_before s0 s /\ forall d, st_lock s d = None
  | POpen => as_before s0 s /\ st_out s0 <> None /\ forall d, st_lock s d = None
  | PWait e => as_before s0 s /\ st_out s0 = Some e /\ forall d, st_lock s d = None
  | PLocked e => as_before s0 s /\ st_out s0 = Some e /\ forall d, d <> e -> st_lock s d = None
  | PRemove => as_before s0 s /\ st_out s0 <> None /\ forall d, st_lock s d = None
  | PRename => st_out s = st_out s0 /\ st_out s0 <> None /\ st_old s = None /\ st_next s = st_next s0
      /\ (forall x, In x (st_removed s) <-> st_old s0 = Some x /\ st_out s0 <> None) /\ forall d, st_lock s d = None
  | PCreate => st_out s = None /\ st_next s = st_next s0 /\ (forall o, st_out s0 = Some o -> st_old s = Some o)
      /\ (st_out s0 = None -> st_old s = st_old s0)
      /\ (forall x, In x (st_removed s) <-> st_old s0 = Some x /\ st_out s0 <> None) /\ forall d, st_lock s d = None
  | POpen2 => (exists e, rotated s0 s e) /\ forall d, st_lock s d = None
  | PWait2 e => rotated s0 s e /\ forall d, st_lock s d = None
  | PRun e => rotated s0 s e /\ st_lock s e = Some p
  | PDone | PFail => True
  end.

Lemma alone_holds : forall s0 p s, initial s0 -> steps_of p s0 s -> alone_inv s0 p s.
Proof.
  intros s0 p s (Ip & Il & Ir & _) H. induction H as [s0|s0 s1 s2 H1 IH H2].
  - unfold alone_inv. rewrite Ip. unfold as_before. auto.
  - specialize (IH Ip Il Ir). unfold alone_inv in *. destruct H2; rewrite H in IH; cbn [set_pc set_lock st_pc st_out st_old st_next st_lock st_removed];
      rewrite ?upd_same; unfold as_before, rotated in *; cbn [set_pc set_lock st_pc st_out st_old st_next st_lock st_removed];
      try exact I; try (intuition congruence).
    + destruct IH as ((Eo & Ol & Nx & Rm) & Lk). rewrite Rm. repeat split; try assumption; try (intros; congruence); try contradiction.
      intros [_ N]. destruct N. congruence.
    + destruct IH as (B & O & Lk). repeat split; try apply B; try exact O. intros e N. rewrite upd_other by exact N. apply Lk.
    + destruct IH as (B & O & Lk). repeat split; try apply B; [congruence|]. intros e. unfold upd. destruct (Nat.eqb e d) eqn:E; [reflexivity|].
      apply Lk. apply Nat.eqb_neq. exact E.
    + destruct IH as ((Eo & Ol & Nx & Rm) & N & Lk). rewrite Rm. repeat split; try assumption.
      * cbn in H2. destruct H2 as [<-|[]]. congruence.
      * intros [X _]. cbn. left. congruence.
    + destruct IH as ((Eo & Ol & Nx & Rm) & N & Lk). rewrite Rm. repeat split; try assumption; try contradiction; try congruence.
      intros [X _]. congruence.
    + destruct IH as (_ & Nx & O1 & O2 & Rm & Lk). split; [|exact Lk]. exists (st_next s1). auto 10.
    + destruct IH as ((e & Eo & R) & Lk). assert (e = d) by congruence. subst e. auto.
Qed.

Lemma alone_runs : forall s0 p s d, initial s0 -> steps_of p s0 s -> st_pc s p = PRun d -> rotated s0 s d /\ st_lock s d = Some p.
Proof. intros s0 p s d I H E. pose proof (alone_holds _ _ _ I H) as A. unfold alone_inv in A. rewrite E in A. exact A. Qed.

Lemma alone_fails : forall s0 p s, initial s0 -> steps_of p s0 s -> st_pc s p = PFail ->
  exists s' d, steps_of p s0 s' /\ (st_pc s' p = PWait d \/ st_pc s' p = PWait2 d) /\ step p s' s.
Proof.
  intros s0 p s I H E. destruct H as [s0|s0 s1 s2 H1 H2].
  - destruct I as (Ip & _). rewrite Ip in E. discriminate.
  - exists s1. pose proof (alone_holds _ _ _ I H1) as A. unfold alone_inv in A.
    inversion H2; subst; cbn [set_pc set_lock st_pc] in E; rewrite upd_same in E; try discriminate;
      match goal with C : st_pc s1 p = _ |- _ => rewrite C in A end; try (exists d; auto; fail); exfalso.
    + destruct A as ((Eo & _) & N & _). congruence.
    + destruct A as (Eo & N & Ol & _). match goal with X : _ \/ _ |- _ => destruct X as [X|X]; congruence end.
    + destruct A as (Eo & _). congruence.
    + destruct A as ((e & Eo & _) & _). congruence.
Qed.

Lemma alone_goes_on : forall s0 p s, initial s0 -> steps_of p s0 s -> st_pc s p <> PDone -> st_pc s p <> PFail ->
  exists s', step p s s' /\ st_pc s' p <> PFail.
Proof.
  intros s0 p s I H D F. pose proof (alone_holds _ _ _ I H) as A. unfold alone_inv in A.
  Ltac by_step r := eexists; split; [eapply r; eauto|cbn [set_pc set_lock st_pc]; rewrite upd_same; discriminate].
  destruct (st_pc s p) eqn:E; try contradiction.
  - destruct (st_out s) eqn:O; [by_step st_exists|by_step st_absent].
  - destruct A as ((Eo & _) & N & _). destruct (st_out s) eqn:O; [by_step st_open|congruence].
  - destruct A as (_ & _ & Lk). by_step st_lock1.
  - by_step st_unlock1.
  - destruct (st_old s) eqn:O; [by_step st_remove|by_step st_no_old].
  - destruct A as (Eo & N & Ol & _). destruct (st_out s) eqn:O; [by_step st_rename|congruence].
  - destruct A as (Eo & _). by_step st_create.
  - destruct A as ((e & Eo & _) & _). by_step st_open2.
  - destruct A as (_ & Lk). by_step st_lock2.
  - by_step st_end.
Qed.

Lemma so_front : forall p s s' s'', step p s s' -> steps_of p s' s'' -> steps_of p s s''.
Proof. intros p s s' s'' H1 H2. induction H2; eapply so_more; eauto. apply so_refl. Qed.

(** * No directory is lost *)
Definition inv_place (s0 s : state) : Prop :=
  st_next s0 <= st_next s
  /\ (forall d, ever s0 s d <-> st_out s = Some d \/ st_old s = Some d \/ In d (st_removed s))
  /\ (forall d, st_out s = Some d -> st_old s <> Some d /\ ~ In d (st_removed s))
  /\ (forall d, st_old s = Some d -> ~ In d (st_removed s))
  /\ (forall d, st_out s = Some d \/ st_old s = Some d \/ In d (st_removed s) -> d < st_next s)
  /\ NoDup (st_removed s).
Lemma place_step : forall s0 p s s', step p s s' -> inv_place s0 s -> inv_place s0 s'.
Proof.
  intros s0 p s s' H (A & B & C & D & E & F). unfold ever in B.
  destruct H; unfold inv_place, ever; cbn [set_pc set_lock st_out st_old st_next st_removed]; try (split; [exact A|split; [exact B|split; [exact C|split; [exact D|split; [exact E|exact F]]]]]).
  - (* removed *) split; [exact A|]. split.
    { intro x. rewrite B, H0. cbn [In]. split; [intros [X|[X|X]]; [left; exact X|injection X as ->; auto|auto]|intros [X|[X|[X|X]]]; [left; exact X|discriminate X|subst; auto|auto]]. }
    split; [intros x X; destruct (C x X) as [C1 C2]; split; [discriminate|]; intros [Y|Y]; [subst; apply C1; exact H0|exact (C2 Y)]|].
    split; [intros x X; discriminate X|].
    split; [intros x [X|[X|[X|X]]]; [apply E; auto|discriminate X|subst; apply E; auto|apply E; auto]|]. constructor; [apply D; exact H0|exact F].
  - (* renamed *) split; [exact A|]. split.
    { intro x. rewrite B, H0, H1. split; [intros [X|[X|X]]; [auto|discriminate X|auto]|intros [X|[X|X]]; [discriminate X|auto|auto]]. }
    split; [intros x X; discriminate X|]. split; [intros x X; injection X as <-; apply (C _ H0)|].
    split; [intros x [X|[X|X]]; [discriminate X|injection X as <-; apply E; auto|apply E; auto]|exact F].
  - (* created *) split; [lia|]. split.
    { intro x. split.
      - intros [X|[X|X]].
        + destruct (proj1 (B x) (or_introl X)) as [Y|Y]; [congruence|auto].
        + destruct (proj1 (B x) (or_intror (or_introl X))) as [Y|Y]; [congruence|auto].
        + destruct (Nat.eq_dec x (st_next s)) as [->|N]; [auto|]. destruct (proj1 (B x)) as [Y|Y]; [right; right; lia|congruence|auto].
      - intros [X|X]; [injection X as <-; right; right; lia|]. destruct (proj2 (B x) (or_intror X)) as [Y|[Y|Y]]; [auto|auto|right; right; lia]. }
    split; [intros x X; injection X as <-; split; intro Y; (assert (st_next s < st_next s) by (apply E; auto)); lia|].
    split; [exact D|]. split; [|exact F].
    intros x [X|X]; [injection X as <-; lia|]. assert (x < st_next s) by (apply E; auto). lia.
Qed.
Lemma place_steps : forall s s', steps s s' -> forall s0, inv_place s0 s -> inv_place s0 s'.
Proof. intros s s' H. induction H; intros z I; [exact I|]. apply IHsteps. eapply place_step; eassumption. Qed.
Lemma places : forall s0 s, initial s0 -> steps s0 s -> inv_place s0 s.
Proof.
  intros s0 s (_ & _ & R & L & N) H. assert (I : inv_place s0 s0).
  { unfold inv_place, ever. rewrite R. split; [lia|]. split; [intro d; cbn [In]; split; [intros [X|[X|X]]; [auto|auto|lia]|intros [X|[X|[]]]; auto]|].
    split; [intros d X; split; [apply N; exact X|intros []]|]. split; [intros d _ []|].
    split; [intros d [X|[X|[]]]; apply L; auto|constructor]. }
  exact (place_steps _ _ H _ I).
Qed.
Lemma one_place_of : forall s0 s d, initial s0 -> steps s0 s -> ever s0 s d -> one_place s d.
Proof.
  intros s0 s d I H V. destruct (places _ _ I H) as (_ & B & C & D & _). destruct (proj1 (B d) V) as [X|[X|X]].
  - left. destruct (C d X) as [Y Z]. auto.
  - right; left. split; [intro Y; exact (proj1 (C d Y) X)|]. split; [exact X|exact (D d X)].
  - right; right. split; [intro Y; exact (proj2 (C d Y) X)|]. split; [intro Y; exact (D d Y X)|exact X].
Qed.
