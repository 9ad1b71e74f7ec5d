From Coq Require Import String List NArith Bool Arith Lia.
Import ListNotations.
From Verif Require Import Text GlobM GlobS.

(** ** A parser for one component *)

Fixpoint pl (m : mode) (s : text) : option (list token) :=
  match m with
  | MNormal =>
      match s with
      | [] => Some []
      | c :: s1 =>
          if N.eqb c 63 then option_map (cons TAny) (pl MNormal s1)
          else if N.eqb c 91 then pl MOpen s1
          else if N.eqb c 123 || N.eqb c 125 then None
          else if N.eqb c BSLASH then
            match s1 with
            | [] => None
            | d :: s2 => option_map (cons (TLit d)) (pl MNormal s2)
            end
          else if N.eqb c STAR then option_map (cons TStar) (pl MNormal s1)
          else option_map (cons (TLit c)) (pl MNormal s1)
      end
  | MOpen =>
      match s with
      | [] => None
      | c :: s1 =>
          if N.eqb c 33 || N.eqb c 94 then pl (MClass true [] true false) s1
          else pl (MClass false [(c, c)] false false) s1
      end
  | MClass neg rs first in_range =>
      match s with
      | [] => None
      | c :: s1 =>
          if N.eqb c 93 && negb first then
            option_map (cons (TClass neg (rev (if in_range then (45%N, 45%N) :: rs else rs)))) (pl MNormal s1)
          else if N.eqb c 45 && negb first && negb in_range then pl (MClass neg rs false true) s1
          else if in_range then
            match rs with
            | (lo, _) :: rs' => if N.ltb c lo then None else pl (MClass neg ((lo, c) :: rs') false false) s1
            | [] => None
            end
          else pl (MClass neg ((c, c) :: rs) false false) s1
      end
  end.

(** "**" standing as a whole component. *)
Definition recursive_here (m : mode) (prev : option chr) (acc : list token) (g : text) : Prop :=
  m = MNormal /\ g = [STAR; STAR] /\ (acc = [] \/ prev = Some SLASH).

Definition bounded (rest : text) : Prop := rest = [] \/ exists r, rest = SLASH :: r.

Lemma parse_free : forall n g m prev acc rest, length g <= n -> ~ In SLASH g -> bounded rest ->
  ~ recursive_here m prev acc g -> (rest = [] \/ pl m g <> None) ->
  exists p, (g <> [] -> p <> Some SLASH) /\ (g = [] -> p = prev) /\
    parse m prev acc (g ++ rest) =
      match pl m g with Some ts => parse MNormal p (rev ts ++ acc) rest | None => None end.
Proof.
  induction n as [|n IH]; intros g m prev acc rest Hn Hs Hb Hr Hp.
  { destruct g; [|simpl in Hn; lia]. destruct m.
    - exists prev. repeat split; congruence.
    - exists prev. split; [congruence|split; [reflexivity|]]. destruct Hp as [->|Hp]; [reflexivity|destruct Hp; reflexivity].
    - exists prev. split; [congruence|split; [reflexivity|]]. destruct Hp as [->|Hp]; [reflexivity|destruct Hp; reflexivity]. }
  destruct g as [|c g1].
  { destruct m.
    - exists prev. repeat split; congruence.
    - exists prev. split; [congruence|split; [reflexivity|]]. destruct Hp as [->|Hp]; [reflexivity|destruct Hp; reflexivity].
    - exists prev. split; [congruence|split; [reflexivity|]]. destruct Hp as [->|Hp]; [reflexivity|destruct Hp; reflexivity]. }
  assert (Hc : c <> SLASH) by (intros ->; apply Hs; left; reflexivity).
  assert (Hs1 : ~ In SLASH g1) by (intros H; apply Hs; right; exact H).
  assert (Hl : length g1 <= n) by (simpl in Hn; lia).
  (* one character consumed, then tokens [t] pushed *)
  assert (K : forall m' t acc' g', length g' <= n -> ~ In SLASH g' -> forall q, q <> SLASH -> acc' = t ++ acc ->
     ~ recursive_here m' (Some q) acc' g' ->
     (rest = [] \/ pl m' g' <> None) ->
     exists p, p <> Some SLASH /\
       parse m' (Some q) acc' (g' ++ rest) =
       match option_map (app (rev t)) (pl m' g') with Some ts => parse MNormal p (rev ts ++ acc) rest | None => None end).
  { intros m' t acc' g' Hl' Hs' q Hq Ea Hr' Hp'. destruct (IH g' m' (Some q) acc' rest Hl' Hs' Hb Hr' Hp') as (p & P1 & P2 & P3).
    exists p. split.
    - destruct g'; [rewrite P2 by reflexivity; congruence|apply P1; discriminate].
    - rewrite P3. destruct (pl m' g'); [|reflexivity]. simpl. rewrite rev_app_distr, rev_involutive, <- app_assoc, Ea. reflexivity. }
  assert (Fin : forall X Y, (exists p, p <> Some SLASH /\ X = match Y with Some ts => parse MNormal p (rev ts ++ acc) rest | None => None end) ->
    exists p, (c :: g1 <> [] -> p <> Some SLASH) /\ (c :: g1 = [] -> p = prev) /\
      X = match Y with Some ts => parse MNormal p (rev ts ++ acc) rest | None => None end).
  { intros X Y (p & P1 & P2). exists p. repeat split; auto. discriminate. }
  assert (Nr : forall q (a : list token) g', q <> SLASH -> a <> [] -> ~ recursive_here MNormal (Some q) a g').
  { intros q a g' Hq Ha (_ & _ & [E|E]); congruence. }
  assert (Nm : forall m' q (a : list token) g', m' <> MNormal -> ~ recursive_here m' q a g').
  { intros m' q a g' H (E & _). congruence. }
  assert (Om : forall (t : token) x, (rest = [] \/ option_map (cons t) x <> None) -> rest = [] \/ x <> None).
  { intros t x [H|H]; [auto|right]. destruct x; [discriminate|exact H]. }
  assert (Map1 : forall (t : token) (x : option (list token)), option_map (cons t) x = option_map (app (rev [t])) x) by reflexivity.
  destruct m; cbn [parse pl app] in *.
  - (* normal *)
    destruct (N.eqb c 63) eqn:E63.
    { apply Fin. rewrite Map1. apply K; auto; [apply Nr; [assumption|discriminate]|eapply Om; exact Hp]. }
    destruct (N.eqb c 91) eqn:E91.
    { apply Fin. destruct (K MOpen [] acc g1 Hl Hs1 c Hc eq_refl (Nm MOpen (Some c) acc g1 ltac:(discriminate)) Hp) as (p & P1 & P2).
      exists p. split; [exact P1|]. rewrite P2. simpl. destruct (pl MOpen g1); reflexivity. }
    destruct (N.eqb c 123 || N.eqb c 125) eqn:Eb.
    { apply (Fin None None). exists None. split; [discriminate|reflexivity]. }
    destruct (N.eqb c BSLASH) eqn:Ebs.
    { destruct g1 as [|d g2].
      - apply (Fin _ None). exists None. split; [discriminate|]. destruct Hp as [->|Hp]; [reflexivity|contradiction Hp; reflexivity].
      - cbn [app]. apply Fin. rewrite Map1. apply K; auto.
        + simpl in Hl; lia.
        + intros H; apply Hs1; right; exact H.
        + intros ->; apply Hs1; left; reflexivity.
        + apply Nr; [|discriminate]. intros ->; apply Hs1; left; reflexivity.
        + eapply Om; exact Hp. }
    destruct (N.eqb c STAR) eqn:Est.
    { apply N.eqb_eq in Est. subst c. destruct g1 as [|c2 g2].
      - (* a star at the end *)
        apply Fin. cbn [app pl option_map]. exists (Some STAR). split; [discriminate|]. cbn [rev app].
        destruct Hb as [->|[r ->]]; reflexivity.
      - cbn [app]. destruct (N.eqb c2 STAR) eqn:E2.
        + apply N.eqb_eq in E2. subst c2.
          assert (Pl2 : pl MNormal (STAR :: g2) = option_map (cons TStar) (pl MNormal g2)) by reflexivity.
          rewrite Pl2 in *.
          assert (Hs2 : ~ In SLASH g2) by (intros H; apply Hs1; right; exact H).
          assert (Hl2 : length g2 <= n) by (simpl in Hl; lia).
          assert (Plain : exists p, p <> Some SLASH /\ parse MNormal (Some STAR) (TStar :: TStar :: acc) (g2 ++ rest) =
            match option_map (cons TStar) (option_map (cons TStar) (pl MNormal g2)) with
            | Some ts => parse MNormal p (rev ts ++ acc) rest | None => None end).
          { destruct (K MNormal [TStar; TStar] (TStar :: TStar :: acc) g2 Hl2 Hs2 STAR ltac:(discriminate) eq_refl
              (Nr STAR (TStar :: TStar :: acc) g2 ltac:(discriminate) ltac:(discriminate))) as (p & P1 & P2).
            - apply Om in Hp. apply Om in Hp. exact Hp.
            - exists p. split; [exact P1|]. rewrite P2. destruct (pl MNormal g2); reflexivity. }
          apply Fin.
          assert (G : g2 <> [] \/ (acc <> [] /\ prev <> Some SLASH)).
          { destruct g2 as [|x g2]; [right|left; discriminate]. split; intros E; apply Hr; repeat split; auto. }
          destruct acc as [|last acc'].
          * destruct G as [G|[G _]]; [|congruence]. destruct g2 as [|c3 g3]; [congruence|]. cbn [app].
            assert (c3 <> SLASH) by (intros ->; apply Hs2; left; reflexivity).
            apply N.eqb_neq in H. rewrite H. exact Plain.
          * destruct prev as [q|]; [|exact Plain]. destruct (N.eqb q SLASH) eqn:Eq; [|exact Plain].
            apply N.eqb_eq in Eq. subst q. destruct G as [G|[_ G]]; [|congruence].
            destruct g2 as [|c3 g3]; [congruence|]. cbn [app].
            assert (c3 <> SLASH) by (intros ->; apply Hs2; left; reflexivity).
            apply N.eqb_neq in H. rewrite H. exact Plain.
        + apply Fin. rewrite Map1. change (c2 :: g2 ++ rest) with ((c2 :: g2) ++ rest). apply K; auto; try discriminate.
          * apply Nr; discriminate.
          * eapply Om; exact Hp. }
    apply Fin. rewrite Map1. apply K; auto; [apply Nr; [assumption|discriminate]|eapply Om; exact Hp].
  - (* just after the bracket *)
    assert (L : forall m', m' <> MNormal -> (rest = [] \/ pl m' g1 <> None) ->
      exists p, p <> Some SLASH /\ parse m' (Some c) acc (g1 ++ rest) =
        match pl m' g1 with Some ts => parse MNormal p (rev ts ++ acc) rest | None => None end).
    { intros m' Hm' Hp'. destruct (K m' [] acc g1 Hl Hs1 c Hc eq_refl (Nm _ _ _ _ Hm') Hp') as (p & P1 & P2).
      exists p. split; [exact P1|]. rewrite P2. simpl. destruct (pl m' g1); reflexivity. }
    apply Fin. destruct (N.eqb c 33 || N.eqb c 94); [apply L; [discriminate|exact Hp]|].
    destruct (N.eqb c 93); [apply L; [discriminate|exact Hp]|].
    destruct (N.eqb c 45); apply L; try discriminate; exact Hp.
  - (* inside a class *)
    assert (L : forall m', m' <> MNormal -> (rest = [] \/ pl m' g1 <> None) ->
      exists p, p <> Some SLASH /\ parse m' (Some c) acc (g1 ++ rest) =
        match pl m' g1 with Some ts => parse MNormal p (rev ts ++ acc) rest | None => None end).
    { intros m' Hm' Hp'. destruct (K m' [] acc g1 Hl Hs1 c Hc eq_refl (Nm _ _ _ _ Hm') Hp') as (p & P1 & P2).
      exists p. split; [exact P1|]. rewrite P2. simpl. destruct (pl m' g1); reflexivity. }
    apply Fin. destruct (N.eqb c 93 && negb first).
    { rewrite Map1. apply K; auto; [apply Nr; [assumption|discriminate]|eapply Om; exact Hp]. }
    destruct (N.eqb c 45 && negb first && negb in_range); [apply L; [discriminate|exact Hp]|].
    destruct in_range.
    + destruct rev_ranges as [|[lo hi] rs']; [exists None; split; [discriminate|reflexivity]|].
      destruct (N.ltb c lo); [exists None; split; [discriminate|reflexivity]|]. apply L; [discriminate|exact Hp].
    + apply L; [discriminate|exact Hp].
Qed.

(** ** Classes *)

Lemma pl_nil : forall g, pl MNormal g = Some [] -> g = [].
Proof.
  assert (A : forall g m, m <> MNormal -> pl m g <> Some []).
  { induction g as [|c g IH]; intros m Hm; destruct m; try congruence; try discriminate; cbn [pl].
    - destruct (N.eqb c 33 || N.eqb c 94); apply IH; discriminate.
    - destruct (N.eqb c 93 && negb first); [destruct (pl MNormal g); discriminate|].
      destruct (N.eqb c 45 && negb first && negb in_range); [apply IH; discriminate|].
      destruct in_range; [|apply IH; discriminate]. destruct rev_ranges as [|[lo hi] rs]; [discriminate|].
      destruct (N.ltb c lo); [discriminate|apply IH; discriminate]. }
  intros [|c g]; [reflexivity|]. cbn [pl].
  destruct (N.eqb c 63); [destruct (pl MNormal g); discriminate|].
  destruct (N.eqb c 91); [intros H; exfalso; eapply A; [|exact H]; discriminate|].
  destruct (N.eqb c 123 || N.eqb c 125); [discriminate|].
  destruct (N.eqb c BSLASH); [destruct g as [|d g]; [discriminate|destruct (pl MNormal g); discriminate]|].
  destruct (N.eqb c STAR); destruct (pl MNormal g); discriminate.
Qed.

Lemma map_cons_one : forall (t u : token) x, option_map (cons t) x = Some [u] -> t = u /\ x = Some [].
Proof. intros t u [x|] H; [|discriminate]. injection H as -> ->. auto. Qed.

Lemma pl_class_app : forall b m n r g, m <> MNormal -> pl m b = Some [TClass n r] ->
  pl m (b ++ g) = option_map (cons (TClass n r)) (pl MNormal g).
Proof.
  induction b as [|c b IH]; intros m n r g Hm H; destruct m; try congruence; try discriminate; cbn [pl app] in *.
  - destruct (N.eqb c 33 || N.eqb c 94); apply IH; auto; discriminate.
  - destruct (N.eqb c 93 && negb first).
    + apply map_cons_one in H. destruct H as [H1 H2]. apply pl_nil in H2. subst b. rewrite H1. reflexivity.
    + destruct (N.eqb c 45 && negb first && negb in_range); [apply IH; auto; discriminate|].
      destruct in_range; [|apply IH; auto; discriminate]. destruct rev_ranges as [|[lo hi] rs]; [discriminate|].
      destruct (N.ltb c lo); [discriminate|apply IH; auto; discriminate].
Qed.

Lemma pl_class_inv : forall g m ts, m <> MNormal -> pl m g = Some ts ->
  exists b g' n r ts', g = b ++ g' /\ pl m b = Some [TClass n r] /\ ts = TClass n r :: ts' /\ pl MNormal g' = Some ts'.
Proof.
  induction g as [|c g IH]; intros m ts Hm H; destruct m; try congruence; try discriminate; cbn [pl] in *.
  - destruct (N.eqb c 33 || N.eqb c 94) eqn:B.
    + apply IH in H; [|discriminate]; destruct H as (b & g' & n & r & ts' & E1 & E2 & E3 & E4).
      exists (c :: b), g', n, r, ts'. subst. cbn [pl]. rewrite B. auto.
    + apply IH in H; [|discriminate]; destruct H as (b & g' & n & r & ts' & E1 & E2 & E3 & E4).
      exists (c :: b), g', n, r, ts'. subst. cbn [pl]. rewrite B. auto.
  - destruct (N.eqb c 93 && negb first) eqn:B1.
    + destruct (pl MNormal g) as [ts'|] eqn:E; [|discriminate]. injection H as <-.
      exists [c], g, negated, (rev (if in_range then (45%N, 45%N) :: rev_ranges else rev_ranges)), ts'.
      cbn [pl]. rewrite B1. cbn [option_map]. auto.
    + assert (K : forall m', m' <> MNormal -> pl m' g = Some ts -> exists b g' n r ts', c :: g = (c :: b) ++ g' /\ pl m' b = Some [TClass n r]
                    /\ ts = TClass n r :: ts' /\ pl MNormal g' = Some ts').
      { intros m' Hm' E. destruct (IH m' ts Hm' E) as (b & g' & n & r & ts' & E1 & E2 & E3 & E4).
        exists b, g', n, r, ts'. subst. auto. }
      destruct (N.eqb c 45 && negb first && negb in_range) eqn:B2.
      * apply K in H; [|discriminate]; destruct H as (b & g' & n & r & ts' & E1 & E2 & E3 & E4).
        exists (c :: b), g', n, r, ts'. cbn [pl]. rewrite B1, B2. auto.
      * destruct in_range.
        -- destruct rev_ranges as [|[lo hi] rs]; [discriminate|]. destruct (N.ltb c lo) eqn:B3; [discriminate|].
           apply K in H; [|discriminate]; destruct H as (b & g' & n & r & ts' & E1 & E2 & E3 & E4).
           exists (c :: b), g', n, r, ts'. cbn [pl]. rewrite B1, B2, B3. auto.
        -- apply K in H; [|discriminate]; destruct H as (b & g' & n & r & ts' & E1 & E2 & E3 & E4).
           exists (c :: b), g', n, r, ts'. cbn [pl]. rewrite B1, B2. auto.
Qed.

Lemma class_body_pl : forall b neg rs, ~ In SLASH b ->
  class_body b neg rs <-> pl MOpen b = Some [TClass neg rs].
Proof.
  intros b neg rs Hs. unfold class_body, glob_new.
  destruct (parse_free (S (length b)) (91%N :: b) MNormal None [] []) as (p & _ & _ & E).
  - simpl. lia.
  - intros [H|H]; [discriminate|auto].
  - left. reflexivity.
  - intros (_ & H & _). discriminate.
  - left. reflexivity.
  - rewrite app_nil_r in E. rewrite E. change (pl MNormal (91%N :: b)) with (pl MOpen b).
    destruct (pl MOpen b) as [ts|]; [|split; discriminate]. cbn [parse]. rewrite app_nil_r, rev_involutive. reflexivity.
Qed.

Lemma class_match_iff : forall neg rs c, class_match neg rs c = true <-> in_class neg rs c.
Proof.
  intros neg rs c. unfold class_match, in_class.
  assert (E : existsb (fun r => N.leb (fst r) c && N.leb c (snd r)) rs = true <-> within rs c).
  { rewrite existsb_exists. unfold within. split.
    - intros ([lo hi] & H & K). apply andb_true_iff in K. destruct K as [K1 K2]. apply N.leb_le in K1, K2. eauto.
    - intros (lo & hi & H & K1 & K2). exists (lo, hi). split; [exact H|]. apply andb_true_iff. split; apply N.leb_le; assumption. }
  destruct neg; [|rewrite xorb_false_l; exact E]. rewrite <- E. match goal with |- context [existsb ?f rs] => destruct (existsb f rs) end; cbn; split; congruence.
Qed.

Lemma plain_eqb : forall c, plain_char c -> N.eqb c 93 = false /\ N.eqb c 45 = false /\ N.eqb c 33 || N.eqb c 94 = false.
Proof.
  intros c H. unfold plain_char in H.
  assert (K : forall k, In k (tx "]-!^") -> N.eqb c k = false) by (intros k Hk; apply N.eqb_neq; intros ->; auto).
  rewrite !K by (vm_compute; tauto). auto.
Qed.

Lemma items_read : forall is neg rs first prev acc, Forall plain_item is -> (is = [] -> first = false) ->
  parse (MClass neg rs first false) prev acc (flat_map item_text is ++ [93%N])
  = Some (rev (TClass neg (rev rs ++ map item_range is) :: acc)).
Proof.
  induction is as [|[c|lo hi] is IH]; intros neg rs first prev acc H Hf.
  - cbn [flat_map app parse]. rewrite Hf by reflexivity. cbn [N.eqb Pos.eqb negb andb map]. rewrite app_nil_r. reflexivity.
  - inversion H as [|? ? Hc Hi]; subst. destruct (plain_eqb c Hc) as (A & B & _).
    cbn [flat_map item_text app parse]. rewrite A, B. cbn [andb]. rewrite IH by auto. cbn [rev map item_range].
    rewrite <- app_assoc. reflexivity.
  - inversion H as [|? ? Hr Hi]; subst. destruct Hr as (Hl & Hh & Hle). destruct (plain_eqb lo Hl) as (A & B & _), (plain_eqb hi Hh) as (A' & B' & _).
    cbn [flat_map item_text app parse]. rewrite A, B. cbn [andb]. cbn [N.eqb Pos.eqb negb andb]. rewrite A', B'. cbn [andb].
    apply N.ltb_ge in Hle. rewrite Hle. rewrite IH by auto. cbn [rev map item_range].
    rewrite <- app_assoc. reflexivity.
Qed.

Lemma c39_class_read : forall is, Forall plain_item is -> is <> [] ->
  class_body (flat_map item_text is ++ tx "]") false (map item_range is)
  /\ class_body (tx "!" ++ flat_map item_text is ++ tx "]") true (map item_range is)
  /\ class_body (tx "^" ++ flat_map item_text is ++ tx "]") true (map item_range is).
Proof.
  intros is H Hn. unfold class_body, glob_new. split; [|split].
  - change (tx "]") with [93%N]. destruct is as [|[c|lo hi] is]; [congruence|..].
    + inversion H as [|? ? Hc Hi]; subst. destruct (plain_eqb c Hc) as (A & B & C).
      cbn [flat_map item_text app parse N.eqb Pos.eqb]. rewrite C, A, B. rewrite items_read by auto. reflexivity.
    + inversion H as [|? ? Hr Hi]; subst. destruct Hr as (Hl & Hh & Hle). destruct (plain_eqb lo Hl) as (A & B & C), (plain_eqb hi Hh) as (A' & B' & _).
      cbn [flat_map item_text app parse N.eqb Pos.eqb]. rewrite C, A, B. cbn [N.eqb Pos.eqb negb andb]. rewrite A', B'. cbn [andb].
      apply N.ltb_ge in Hle. rewrite Hle. rewrite items_read by auto. reflexivity.
  - change (tx "]") with [93%N]. cbn [tx]. change (tx "!") with [33%N]. cbn [app parse N.eqb Pos.eqb orb].
    rewrite items_read by (auto; congruence). reflexivity.
  - change (tx "]") with [93%N]. change (tx "^") with [94%N]. cbn [app parse N.eqb Pos.eqb orb].
    rewrite items_read by (auto; congruence). reflexivity.
Qed.

(** ** Matching one component *)

Definition simple (t : token) : bool :=
  match t with TLit _ | TAny | TStar | TClass _ _ => true | _ => false end.

Lemma pl_simple : forall g m ts, pl m g = Some ts -> forallb simple ts = true.
Proof.
  assert (A : forall n g m ts, length g <= n -> pl m g = Some ts -> forallb simple ts = true).
  { assert (B : forall t (x : option (list token)) ts, simple t = true -> (forall ts', x = Some ts' -> forallb simple ts' = true) ->
                  option_map (cons t) x = Some ts -> forallb simple ts = true).
    { intros t x ts Ht Hx H. destruct x as [x|]; [|discriminate]. injection H as <-. cbn [forallb]. rewrite Ht. simpl. auto. }
    induction n as [|n IH]; intros g m ts Hn H.
    { destruct g; [|simpl in Hn; lia]. destruct m; try discriminate. injection H as <-. reflexivity. }
    destruct g as [|c g]; [destruct m; try discriminate; injection H as <-; reflexivity|].
    assert (Hl : length g <= n) by (simpl in Hn; lia). destruct m; cbn [pl] in H.
    - destruct (N.eqb c 63); [eapply B; [| |exact H]; eauto|].
      destruct (N.eqb c 91); [eauto|]. destruct (N.eqb c 123 || N.eqb c 125); [discriminate|].
      destruct (N.eqb c BSLASH).
      { destruct g as [|d g]; [discriminate|]. eapply B; [| |exact H]; [reflexivity|]. intros ts'. apply IH. simpl in Hl. lia. }
      destruct (N.eqb c STAR); (eapply B; [| |exact H]; eauto).
    - destruct (N.eqb c 33 || N.eqb c 94); eauto.
    - destruct (N.eqb c 93 && negb first); [eapply B; [| |exact H]; eauto|].
      destruct (N.eqb c 45 && negb first && negb in_range); [eauto|].
      destruct in_range; [|eauto]. destruct rev_ranges as [|[lo hi] rs]; [discriminate|].
      destruct (N.ltb c lo); [discriminate|eauto]. }
  intros g m ts. apply (A (length g)). lia.
Qed.

Lemma skip_some_iff : forall sk f s, skip_some sk f s = true <-> exists a b, s = a ++ b /\ forallb sk a = true /\ f b = true.
Proof.
  intros sk f. induction s as [|c s IH].
  - simpl. rewrite orb_false_r. split.
    + intros H. exists [], []. auto.
    + intros (a & b & E & _ & H). destruct a; [simpl in E; subst; exact H|discriminate].
  - cbn [skip_some]. rewrite orb_true_iff, andb_true_iff, IH. split.
    + intros [H|[H (a & b & -> & Ha & Hb)]].
      * exists [], (c :: s). auto.
      * exists (c :: a), b. simpl. rewrite H, Ha. auto.
    + intros (a & b & E & Ha & Hb). destruct a as [|x a].
      * simpl in E. subst b. auto.
      * injection E as <- ->. simpl in Ha. apply andb_true_iff in Ha. destruct Ha as [Hc Ha]. right. split; [exact Hc|]. eauto.
Qed.

Lemma after_slash_iff : forall f s, after_slash f s = true <-> exists a b, s = a ++ SLASH :: b /\ f b = true.
Proof.
  intros f. induction s as [|c s IH].
  - simpl. split; [discriminate|]. intros (a & b & E & _). destruct a; discriminate.
  - cbn [after_slash]. rewrite orb_true_iff, andb_true_iff, IH, N.eqb_eq. split.
    + intros [[-> H]|(a & b & -> & H)]; [exists [], s; auto|exists (c :: a), b; auto].
    + intros (a & b & E & H). destruct a as [|x a].
      * injection E as -> ->. auto.
      * injection E as <- ->. right. eauto.
Qed.

Lemma tmatch_app : forall ts r s, forallb simple ts = true ->
  tmatch (ts ++ r) s = true <-> exists a b, s = a ++ b /\ tmatch ts a = true /\ tmatch r b = true.
Proof.
  induction ts as [|t ts IH]; intros r s Hs.
  - simpl app. split.
    + intros H. exists [], s. auto.
    + intros (a & b & -> & Ha & Hb). destruct a; [exact Hb|discriminate].
  - cbn [forallb] in Hs. apply andb_true_iff in Hs. destruct Hs as [Ht Hs]. specialize (IH r).
    assert (Step : forall (p : chr -> bool) u,
      (forall x, tmatch (t :: x) u = match u with d :: s' => p d && tmatch x s' | [] => false end) -> True) by auto. clear Step.
    assert (One : forall p : chr -> bool,
      (forall x u, tmatch (t :: x) u = match u with d :: s' => p d && tmatch x s' | [] => false end) ->
      tmatch (t :: ts ++ r) s = true <-> exists a b, s = a ++ b /\ tmatch (t :: ts) a = true /\ tmatch r b = true).
    { intros p Hp. rewrite Hp. destruct s as [|d s'].
      - split; [discriminate|]. intros (a & b & E & H & _). destruct a; [|discriminate]. rewrite Hp in H. discriminate.
      - rewrite andb_true_iff, IH by exact Hs. split.
        + intros [H (a & b & -> & Ha & Hb)]. exists (d :: a), b. rewrite Hp, H. auto.
        + intros (a & b & E & Ha & Hb). rewrite Hp in Ha. destruct a as [|x a]; [discriminate|]. injection E as <- ->.
          apply andb_true_iff in Ha. destruct Ha as [H Ha]. split; [exact H|]. eauto. }
    destruct t; try discriminate; cbn [app].
    + apply (One (N.eqb c)). reflexivity.
    + apply (One (fun d => negb (N.eqb d SLASH))). reflexivity.
    + cbn [tmatch]. rewrite skip_some_iff. split.
      * intros (a & b & -> & Ha & H). apply IH in H; [|exact Hs]. destruct H as (a' & b' & -> & H1 & H2).
        exists (a ++ a'), b'. rewrite app_assoc. split; [reflexivity|]. split; [|exact H2]. cbn [tmatch].
        apply skip_some_iff. eauto.
      * intros (a & b & -> & H & Hb). cbn [tmatch] in H. apply skip_some_iff in H. destruct H as (x & y & -> & Hx & Hy).
        exists x, (y ++ b). rewrite app_assoc. split; [reflexivity|]. split; [exact Hx|]. apply IH; eauto.
    + apply (One (class_match negated ranges)). reflexivity.
Qed.

Lemma ordinary_eqb : forall c, ordinary c ->
  N.eqb c 63 = false /\ N.eqb c 91 = false /\ N.eqb c 123 || N.eqb c 125 = false /\ N.eqb c BSLASH = false /\ N.eqb c STAR = false.
Proof.
  intros c H. unfold ordinary in H.
  assert (K : forall k, In k (tx "?*[{}\") -> N.eqb c k = false) by (intros k Hk; apply N.eqb_neq; intros ->; auto).
  rewrite !K by (vm_compute; tauto). auto.
Qed.

Lemma eqb_ordinary : forall c,
  N.eqb c 63 = false -> N.eqb c 91 = false -> N.eqb c 123 || N.eqb c 125 = false -> N.eqb c BSLASH = false -> N.eqb c STAR = false ->
  ordinary c.
Proof.
  intros c H1 H2 H3 H4 H5 H. apply orb_false_iff in H3. destruct H3 as [H3 H3']. apply N.eqb_neq in H1, H2, H3, H3', H4, H5.
  vm_compute in H. unfold BSLASH, STAR in *. intuition congruence.
Qed.

Lemma not_in_app : forall (x : chr) a b, ~ In x (a ++ b) -> ~ In x a /\ ~ In x b.
Proof. intros x a b H. split; intros K; apply H; apply in_or_app; auto. Qed.

Lemma cmatch_tmatch : forall g s, cmatch g s -> ~ In SLASH g -> exists ts, pl MNormal g = Some ts /\ tmatch ts s = true.
Proof.
  induction 1 as [|c g s Ho H IH|c g s H IH|d g s Hd H IH|g s H IH|d g s Hd H IH|b neg rs d g s Hb Hm H IH]; intros Hs.
  - exists []. auto.
  - destruct IH as (ts & E & M); [intros K; apply Hs; right; exact K|]. destruct (ordinary_eqb c Ho) as (A1 & A2 & A3 & A4 & A5).
    exists (TLit c :: ts). cbn [pl tmatch]. rewrite A1, A2, A3, A4, A5, E, N.eqb_refl, M. auto.
  - destruct IH as (ts & E & M); [intros K; apply Hs; right; right; exact K|].
    exists (TLit c :: ts). change (pl MNormal (BSLASH :: c :: g)) with (option_map (cons (TLit c)) (pl MNormal g)). cbn [tmatch]. rewrite E, (N.eqb_refl c), M. split; reflexivity.
  - destruct IH as (ts & E & M); [intros K; apply Hs; right; exact K|].
    exists (TAny :: ts). cbn [pl tmatch]. rewrite E, M. apply N.eqb_neq in Hd. rewrite Hd. split; reflexivity.
  - destruct IH as (ts & E & M); [intros K; apply Hs; right; exact K|].
    exists (TStar :: ts). cbn [pl tmatch]. rewrite E. split; [reflexivity|]. apply skip_some_iff. exists [], s. auto.
  - destruct IH as (ts & E & M); [exact Hs|]. exists ts. split; [exact E|]. cbn [pl] in E. change (N.eqb STAR 63) with false in E.
    cbn in E. destruct (pl MNormal g); [|discriminate]. injection E as <-. cbn [tmatch] in *.
    apply skip_some_iff in M. destruct M as (a & b & -> & Ha & Hb). apply skip_some_iff. exists (d :: a), b.
    cbn [forallb]. apply N.eqb_neq in Hd. rewrite Hd, Ha. auto.
  - assert (Hs' : ~ In SLASH (b ++ g)) by (intros K; apply Hs; right; exact K).
    apply not_in_app in Hs'. destruct Hs' as [Sb Sg]. destruct (IH Sg) as (ts & E & M).
    apply class_body_pl in Hb; [|exact Sb]. exists (TClass neg rs :: ts). change (pl MNormal (91%N :: b ++ g)) with (pl MOpen (b ++ g)).
    rewrite (pl_class_app b MOpen neg rs g) by (auto; discriminate). rewrite E. cbn [tmatch]. apply class_match_iff in Hm. rewrite Hm, M. auto.
Qed.

Lemma tmatch_cmatch : forall n g s ts, length g <= n -> ~ In SLASH g -> pl MNormal g = Some ts -> tmatch ts s = true -> cmatch g s.
Proof.
  induction n as [|n IH]; intros g s ts Hn Hs E M.
  { destruct g; [|simpl in Hn; lia]. injection E as <-. destruct s; [constructor|discriminate]. }
  destruct g as [|c g]; [injection E as <-; destruct s; [constructor|discriminate]|].
  assert (Hl : length g <= n) by (simpl in Hn; lia).
  assert (Hs1 : ~ In SLASH g) by (intros K; apply Hs; right; exact K).
  assert (OM : forall t x, option_map (cons t) x = Some ts -> exists ts', ts = t :: ts' /\ x = Some ts').
  { intros t [x|] H; [|discriminate]. injection H as <-. eauto. }
  cbn [pl] in E.
  destruct (N.eqb c 63) eqn:E1.
  { apply N.eqb_eq in E1. subst c. apply OM in E. destruct E as (ts' & -> & E). destruct s as [|d s]; [discriminate|].
    cbn [tmatch] in M. apply andb_true_iff in M. destruct M as [Hd M]. apply negb_true_iff, N.eqb_neq in Hd. apply cm_any; eauto. }
  destruct (N.eqb c 91) eqn:E2.
  { apply N.eqb_eq in E2. subst c. apply pl_class_inv in E; [|discriminate]. destruct E as (b & g' & neg & rs & ts' & -> & Eb & -> & E).
    apply not_in_app in Hs1. destruct Hs1 as [Sb Sg]. destruct s as [|d s]; [discriminate|].
    cbn [tmatch] in M. apply andb_true_iff in M. destruct M as [Hd M]. apply cm_class with (neg := neg) (rs := rs); auto.
    - apply class_body_pl; assumption.
    - apply class_match_iff. exact Hd.
    - eapply IH; eauto. rewrite app_length in Hl. lia. }
  destruct (N.eqb c 123 || N.eqb c 125) eqn:E3; [discriminate|].
  destruct (N.eqb c BSLASH) eqn:E4.
  { apply N.eqb_eq in E4. subst c. destruct g as [|d g]; [discriminate|]. apply OM in E. destruct E as (ts' & -> & E).
    destruct s as [|d' s]; [discriminate|]. cbn [tmatch] in M. apply andb_true_iff in M. destruct M as [Hd M].
    apply N.eqb_eq in Hd. subst d'. apply cm_escape. eapply IH; eauto; [simpl in Hl; lia|]. intros K; apply Hs1; right; exact K. }
  destruct (N.eqb c STAR) eqn:E5.
  { apply N.eqb_eq in E5. subst c. apply OM in E. destruct E as (ts' & -> & E). cbn [tmatch] in M. apply skip_some_iff in M.
    destruct M as (a & b & -> & Ha & Hb). induction a as [|d a IHa].
    - apply cm_star_none. eauto.
    - cbn [forallb] in Ha. apply andb_true_iff in Ha. destruct Ha as [Hd Ha]. apply negb_true_iff, N.eqb_neq in Hd.
      apply cm_star_more; auto. }
  apply OM in E. destruct E as (ts' & -> & E). destruct s as [|d s]; [discriminate|].
  cbn [tmatch] in M. apply andb_true_iff in M. destruct M as [Hd M]. apply N.eqb_eq in Hd. subst d.
  apply cm_char; eauto. apply eqb_ordinary; assumption.
Qed.

Lemma cmatch_iff : forall g ts s, ~ In SLASH g -> pl MNormal g = Some ts -> tmatch ts s = true <-> cmatch g s.
Proof.
  intros g ts s Hs E. split.
  - eapply tmatch_cmatch; eauto.
  - intros H. apply cmatch_tmatch in H; [|exact Hs]. destruct H as (ts' & E' & M). congruence.
Qed.

Lemma cws_tail : forall a g, classes_without_slash (a ++ g) -> classes_without_slash g.
Proof. intros a g H x b c neg rs E. apply (H (a ++ x) b c). rewrite E, <- app_assoc. reflexivity. Qed.

Lemma cmatch_no_slash : forall g s, cmatch g s -> ~ In SLASH g -> classes_without_slash g -> ~ In SLASH s.
Proof.
  induction 1 as [|c g s Ho H IH|c g s H IH|d g s Hd H IH|g s H IH|d g s Hd H IH|b neg rs d g s Hb Hm H IH]; intros Hs Hc K.
  - exact K.
  - destruct K as [->|K]; [apply Hs; left; reflexivity|]. revert K. apply IH; [|apply (cws_tail [c]); exact Hc]. intros K; apply Hs; right; exact K.
  - destruct K as [->|K]; [apply Hs; right; left; reflexivity|]. revert K. apply IH; [|apply (cws_tail [BSLASH; c]); exact Hc].
    intros K; apply Hs; right; right; exact K.
  - destruct K as [->|K]; [congruence|]. revert K. apply IH; [|apply (cws_tail [63%N]); exact Hc]. intros K; apply Hs; right; exact K.
  - revert K. apply IH; [|apply (cws_tail [STAR]); exact Hc]. intros K; apply Hs; right; exact K.
  - destruct K as [->|K]; [congruence|]. revert K. apply IH; assumption.
  - destruct K as [->|K].
    + exact (Hc [] b g neg rs eq_refl Hb Hm).
    + revert K. apply IH; [|apply (cws_tail (91%N :: b)); exact Hc]. intros K; apply Hs. right. apply in_or_app. auto.
Qed.

(** ** Components of a path *)

Lemma split_on_cat : forall a b, split_on SLASH (a ++ SLASH :: b) = split_on SLASH a ++ split_on SLASH b.
Proof.
  induction a as [|x a IH]; intros b; cbn [split_on app].
  - reflexivity.
  - rewrite IH. destruct (N.eqb x SLASH); [reflexivity|].
    destruct (split_on SLASH a) as [|w ws] eqn:E; [exfalso; now apply split_on_nonempty in E|reflexivity].
Qed.

Lemma join_app2 : forall l1 l2, l1 <> [] -> l2 <> [] -> join [SLASH] (l1 ++ l2) = join [SLASH] l1 ++ SLASH :: join [SLASH] l2.
Proof.
  induction l1 as [|a l1 IH]; intros l2 H1 H2; [congruence|]. destruct l1 as [|b l1].
  - cbn [app]. rewrite join_cons by exact H2. reflexivity.
  - cbn [app] in *. rewrite join_cons by discriminate. rewrite (join_cons _ a (b :: l1)) by discriminate.
    rewrite IH by (auto; discriminate). rewrite <- !app_assoc. reflexivity.
Qed.

Definition starts (a : text) : Prop := a = [] \/ exists a', a = a' ++ [SLASH].

Lemma in_split_on : forall p c, In c (split_on SLASH p) <->
  ~ In SLASH c /\ exists a b, p = a ++ c ++ b /\ starts a /\ bounded b.
Proof.
  intros p c. split.
  - intros H. split; [eapply split_on_pieces; exact H|]. apply in_split in H. destruct H as (l1 & l2 & E).
    pose proof (join_split_on SLASH p) as J. rewrite E in J.
    assert (T : exists b, join [SLASH] (c :: l2) = c ++ b /\ bounded b).
    { destruct l2 as [|x l2]; [exists []; rewrite app_nil_r; split; [reflexivity|left; reflexivity]|].
      exists (SLASH :: join [SLASH] (x :: l2)). rewrite join_cons by discriminate. split; [reflexivity|right; eauto]. }
    destruct T as (b & Eb & Hb). destruct l1 as [|x l1].
    + exists [], b. simpl app in J. rewrite <- J, Eb. repeat split; auto. left. reflexivity.
    + rewrite join_app2 in J by discriminate. exists (join [SLASH] (x :: l1) ++ [SLASH]), b. rewrite <- J, Eb, <- !app_assoc.
      repeat split; auto. right. eauto.
  - intros (Hc & a & b & -> & Ha & Hb).
    assert (T : In c (split_on SLASH (c ++ b))).
    { destruct Hb as [->|[r ->]].
      - rewrite app_nil_r, split_on_none by exact Hc. left. reflexivity.
      - rewrite split_on_app_sep by exact Hc. left. reflexivity. }
    destruct Ha as [->|[a' ->]]; [exact T|]. rewrite <- app_assoc. cbn [app]. rewrite split_on_cat. apply in_or_app. auto.
Qed.

Lemma tprefix_iff : forall r s, tmatch (TPrefix :: r) s = true <-> exists a b, s = a ++ b /\ starts a /\ tmatch r b = true.
Proof.
  intros r s. cbn [tmatch]. rewrite !orb_true_iff, after_slash_iff. split.
  - intros [[H|H]|(a & b & -> & H)].
    + exists [], s. repeat split; auto. left. reflexivity.
    + destruct s as [|d s]; [discriminate|]. apply andb_true_iff in H. destruct H as [H1 H2]. apply N.eqb_eq in H1. subst d.
      exists [SLASH], s. repeat split; auto. right. exists []. reflexivity.
    + exists (a ++ [SLASH]), b. rewrite <- app_assoc. repeat split; auto. right. eauto.
  - intros (a & b & -> & [->|[a' ->]] & H); [auto|]. right. exists a', b. rewrite <- app_assoc. auto.
Qed.

(** ** Globs without a slash *)

Lemma adjusted_free : forall g, ~ In SLASH g -> adjusted g = [tx "**/" ++ g; tx "**/" ++ g ++ tx "/**"].
Proof.
  intros g H. unfold adjusted. destruct (existsb (N.eqb SLASH) g) eqn:E; [|reflexivity].
  apply existsb_exists in E. destruct E as (x & Hx & E). apply N.eqb_eq in E. subst x. contradiction.
Qed.

Lemma parse_prefix : forall s, glob_new (tx "**/" ++ s) = parse MNormal (Some SLASH) [TPrefix] s.
Proof. reflexivity. Qed.

Lemma c39_free : forall g gs path, g <> [] -> ~ In SLASH g -> classes_without_slash g ->
  build_glob_set [g] = Some (Some gs) ->
  set_match gs path = true <-> exists c, In c (split_on SLASH path) /\ cmatch g c.
Proof.
  intros g gs path Hg Hs Hc H. unfold build_glob_set in H. cbn [flat_map] in H. rewrite app_nil_r, adjusted_free in H by exact Hs.
  cbn [all_some] in H.
  destruct (text_dec g [STAR; STAR]) as [->|Hne].
  - vm_compute in H. injection H as <-. split.
    + intros _. exists (hd [] (split_on SLASH path)). destruct (split_on SLASH path) as [|w ws] eqn:E; [exfalso; now apply split_on_nonempty in E|].
      split; [left; reflexivity|]. assert (Hw : ~ In SLASH w) by (eapply split_on_pieces; rewrite E; left; reflexivity).
      simpl hd. apply cm_star_none. clear E. induction w as [|d w IH]; [apply cm_star_none; constructor|].
      apply cm_star_more; [|apply IH]; intros K; apply Hw; [left; auto|right; auto].
    + intros _. reflexivity.
  - rewrite !parse_prefix in H.
    destruct (parse_free (length g) g MNormal (Some SLASH) [TPrefix] []) as (p & _ & _ & E1); auto.
    { left. reflexivity. } { intros (_ & K & _). contradiction. }
    rewrite app_nil_r in E1.
    destruct (pl MNormal g) as [ts|] eqn:Ep.
    2: { rewrite E1 in H. discriminate. }
    destruct (parse_free (length g) g MNormal (Some SLASH) [TPrefix] (tx "/**")) as (q & _ & _ & E2); auto.
    { right. eexists. reflexivity. } { intros (_ & K & _). contradiction. } { right. rewrite Ep. discriminate. }
    rewrite Ep in E2. rewrite E1, E2 in H. cbn [parse] in H.
    assert (E3 : forall acc, acc <> [] -> parse MNormal q acc (tx "/**") = Some (rev (TSuffix :: acc))).
    { intros acc Ha. cbn. reflexivity. }
    rewrite E3 in H by (destruct (rev ts); discriminate). injection H as <-. cbn [set_match existsb].
    rewrite orb_false_r, orb_true_iff. cbn [rev]. rewrite !rev_app_distr, !rev_involutive.
    change (rev [TPrefix]) with [TPrefix]. cbn [app].
    assert (Hts : ts <> []).
    { intros ->. apply pl_nil in Ep. contradiction. }
    assert (G : forall r, ts ++ r <> [] -> glob_match (TPrefix :: ts ++ r) path = tmatch (TPrefix :: ts ++ r) path).
    { intros r Hr. unfold glob_match. destruct (ts ++ r); [congruence|reflexivity]. }
    rewrite <- (app_nil_r ts) at 1. rewrite !G by (destruct ts; [congruence|discriminate]). rewrite app_nil_r, !tprefix_iff.
    assert (Sim : forallb simple ts = true) by (eapply pl_simple; exact Ep).
    split.
    + intros [(a & b & -> & Ha & M)|(a & b & -> & Ha & M)].
      * apply (cmatch_iff g ts b Hs Ep) in M. exists b. split; [|exact M]. apply in_split_on.
        split; [eapply cmatch_no_slash; eauto|]. exists a, []. rewrite app_nil_r. repeat split; auto. left. reflexivity.
      * apply tmatch_app in M; [|exact Sim]. destruct M as (x & y & -> & M1 & M2). apply (cmatch_iff g ts x Hs Ep) in M1.
        exists x. split; [|exact M1]. apply in_split_on. split; [eapply cmatch_no_slash; eauto|]. exists a, y. repeat split; auto.
        right. cbn [tmatch] in M2. destruct y as [|d y]; [discriminate|]. apply andb_true_iff in M2. destruct M2 as [M2 _].
        apply N.eqb_eq in M2. subst d. eauto.
    + intros (c & Hin & M). apply in_split_on in Hin. destruct Hin as (_ & a & b & -> & Ha & Hb).
      apply (cmatch_iff g ts c Hs Ep) in M. destruct Hb as [->|[r ->]].
      * left. exists a, c. rewrite app_nil_r. auto.
      * right. exists a, (c ++ SLASH :: r). repeat split; auto. apply tmatch_app; [exact Sim|]. exists c, (SLASH :: r).
        repeat split; auto. cbn [tmatch]. rewrite N.eqb_refl. cbn [andb]. apply skip_some_iff. exists r, [].
        rewrite app_nil_r. repeat split; auto. clear. induction r; auto.
Qed.

(** ** Globs with a slash *)

Definition recg (g : text) : bool := text_eqb g [STAR; STAR].
Definition toks (g : text) : list token := match pl MNormal g with Some ts => ts | None => [] end.

Inductive here := HStart | HPrefix | HSlash | HMiddle.
Definition pending (h : here) : list token :=
  match h with HStart => [] | HPrefix => [TPrefix] | HSlash => [TLit SLASH] | HMiddle => [TMiddle] end.

(** Tokens of the remaining components, the pending token included. *)
Fixpoint fw (h : here) (gs : list text) : list token :=
  match gs with
  | [] => []
  | g :: gs' =>
      if recg g then
        match gs' with
        | [] => match h with HStart | HPrefix => [TPrefix] | _ => [TSuffix] end
        | _ => fw (match h with HStart | HPrefix => HPrefix | _ => HMiddle end) gs'
        end
      else pending h ++ toks g ++ fw HSlash gs'
  end.

Lemma recg_eq : forall g, recg g = true <-> g = [STAR; STAR].
Proof. intros g. apply text_eqb_eq. Qed.

Lemma parse_fw : forall gs h com prev, gs <> [] ->
  (forall g, In g gs -> ~ In SLASH g /\ pl MNormal g <> None) ->
  (h = HStart -> com = [] /\ prev = None) -> (h <> HStart -> prev = Some SLASH) ->
  parse MNormal prev (pending h ++ com) (join [SLASH] gs) = Some (rev com ++ fw h gs).
Proof.
  induction gs as [|g gs IH]; intros h com prev Hn Hg H0 H1; [congruence|].
  destruct (Hg g (or_introl eq_refl)) as [Hs Hp].
  assert (Hg' : forall g', In g' gs -> ~ In SLASH g' /\ pl MNormal g' <> None) by (intros g' K; apply Hg; right; exact K).
  cbn [fw]. destruct (recg g) eqn:R.
  - apply recg_eq in R. subst g. destruct gs as [|g2 gs].
    + destruct h; cbn [join pending app].
      * destruct (H0 eq_refl) as [-> ->]. reflexivity.
      * rewrite H1 by discriminate. cbn. reflexivity.
      * rewrite H1 by discriminate. cbn. reflexivity.
      * rewrite H1 by discriminate. cbn. reflexivity.
    + rewrite join_cons by discriminate. destruct h; cbn [pending app].
      * destruct (H0 eq_refl) as [-> ->]. apply (IH HPrefix [] (Some SLASH)); auto; discriminate.
      * rewrite H1 by discriminate. apply (IH HPrefix com (Some SLASH)); auto; discriminate.
      * rewrite H1 by discriminate. apply (IH HMiddle com (Some SLASH)); auto; discriminate.
      * rewrite H1 by discriminate. apply (IH HMiddle com (Some SLASH)); auto; discriminate.
  - assert (Nr : ~ recursive_here MNormal prev (pending h ++ com) g).
    { intros (_ & E & _). apply recg_eq in E. congruence. }
    unfold toks. destruct (pl MNormal g) as [ts|] eqn:Ep; [|congruence].
    destruct gs as [|g2 gs].
    + destruct (parse_free (length g) g MNormal prev (pending h ++ com) []) as (p & _ & _ & E); auto.
      { left. reflexivity. }
      rewrite app_nil_r, Ep in E. cbn [join fw]. rewrite E. cbn [parse].
      rewrite !rev_app_distr, rev_involutive, app_nil_r, <- app_assoc. do 2 f_equal. destruct h; reflexivity.
    + rewrite join_cons by discriminate.
      destruct (parse_free (length g) g MNormal prev (pending h ++ com) ([SLASH] ++ join [SLASH] (g2 :: gs))) as (p & _ & _ & E); auto.
      { right. eexists. reflexivity. } { right. congruence. }
      rewrite Ep in E. rewrite E. change ([SLASH] ++ join [SLASH] (g2 :: gs)) with (SLASH :: join [SLASH] (g2 :: gs)).
      change (parse MNormal p (rev ts ++ pending h ++ com) (SLASH :: join [SLASH] (g2 :: gs)))
        with (parse MNormal (Some SLASH) (pending HSlash ++ (rev ts ++ pending h ++ com)) (join [SLASH] (g2 :: gs))).
      rewrite IH; auto; try discriminate. rewrite !rev_app_distr, rev_involutive, <- !app_assoc. do 2 f_equal.
      destruct h; reflexivity.
Qed.

(** What is left of a path after a component. *)
Definition tail_of (cs : list text) : text := match cs with [] => [] | _ => SLASH :: join [SLASH] cs end.

Lemma join_tail : forall c cs, join [SLASH] (c :: cs) = c ++ tail_of cs.
Proof. intros c [|d cs]; [cbn [join tail_of]; rewrite app_nil_r; reflexivity|]. rewrite join_cons by discriminate. reflexivity. Qed.

Lemma tail_bounded : forall cs, bounded (tail_of cs).
Proof. intros [|c cs]; [left; reflexivity|right; eexists; reflexivity]. Qed.

Definition eats_slash (r : list token) : Prop :=
  forall s, tmatch r s = true -> bounded s.

Lemma fw_eats : forall gs h, h = HSlash \/ h = HMiddle -> eats_slash (fw h gs).
Proof.
  assert (A : forall t r, (t = TLit SLASH \/ t = TMiddle \/ t = TSuffix) -> eats_slash (t :: r)).
  { intros t r Ht s H. destruct s as [|d s]; [left; reflexivity|]. right. exists s. f_equal.
    destruct Ht as [->|[->| ->]]; cbn [tmatch] in H; apply andb_true_iff in H; destruct H as [H _]; apply N.eqb_eq in H; auto. }
  induction gs as [|g gs IH]; intros h Hh.
  - intros s H. left. destruct s; [reflexivity|discriminate].
  - cbn [fw]. destruct (recg g).
    + destruct gs as [|g2 gs]; [destruct Hh as [->| ->]; apply A; auto|]. apply IH. destruct Hh as [->| ->]; auto.
    + destruct Hh as [->| ->]; cbn [pending app]; apply A; auto.
Qed.

Lemma cut_comp : forall c x b y, ~ In SLASH c -> ~ In SLASH x -> bounded b -> bounded y -> c ++ b = x ++ y -> c = x /\ b = y.
Proof.
  induction c as [|d c IH]; intros x b y Hc Hx Hb Hy E.
  - destruct x as [|e x]; [auto|]. exfalso. simpl in E. destruct Hb as [->|[r ->]]; [discriminate|].
    injection E as E' _. apply Hx. left. auto.
  - destruct x as [|e x].
    + exfalso. simpl in E. destruct Hy as [->|[r ->]]; [discriminate|]. injection E as E' _. apply Hc. left. auto.
    + injection E as <- E. destruct (IH x b y) as [-> ->]; auto; intros K; [apply Hc|apply Hx]; right; exact K.
Qed.

Definition good (g : text) : Prop := ~ In SLASH g /\ pl MNormal g <> None /\ classes_without_slash g /\ g <> [].

(** One component, then the rest. *)
Lemma comp_then : forall g r c cs, good g -> eats_slash r -> ~ In SLASH c ->
  tmatch (toks g ++ r) (c ++ tail_of cs) = true <-> cmatch g c /\ tmatch r (tail_of cs) = true.
Proof.
  intros g r c cs (Hs & Hp & Hw & _) He Hc. unfold toks. destruct (pl MNormal g) as [ts|] eqn:Ep; [|congruence].
  rewrite tmatch_app by (eapply pl_simple; exact Ep). split.
  - intros (a & b & E & M1 & M2). apply (cmatch_iff g ts a Hs Ep) in M1.
    destruct (cut_comp c a (tail_of cs) b Hc) as [-> ->]; auto.
    + eapply cmatch_no_slash; eauto.
    + apply tail_bounded.
  - intros [M1 M2]. apply (cmatch_iff g ts c Hs Ep) in M1. eauto.
Qed.

Lemma pm_rec : forall gs cs, pmatch ([STAR; STAR] :: gs) cs <->
  (gs = [] /\ cs <> []) \/ (gs <> [] /\ exists a b, cs = a ++ b /\ pmatch gs b).
Proof.
  intros gs cs. split.
  - remember ([STAR; STAR] :: gs) as l eqn:El. intros H. revert gs El.
    induction H as [|g gs' c cs Hg Hc H IH|gs' cs Hn H IH|gs' c cs H IH|c]; intros gs El.
    + discriminate.
    + injection El as -> ->. exfalso. apply Hg. reflexivity.
    + injection El as ->. right. split; [exact Hn|]. exists [], cs. auto.
    + injection El as ->. destruct (IH gs eq_refl) as [[-> Hc]|[Hn (a & b & -> & Hb)]].
      * left. split; [reflexivity|discriminate].
      * right. split; [exact Hn|]. exists (c :: a), b. auto.
    + injection El as <-. left. split; [reflexivity|discriminate].
  - intros [[-> H]|[Hn (a & b & -> & H)]].
    + destruct cs as [|c cs]; [congruence|]. clear H. revert c. induction cs as [|d cs IH]; intros c; [apply pm_rec_end|].
      apply (pm_rec_more [] c (d :: cs)). apply IH.
    + induction a as [|c a IH]; [apply pm_rec_none; auto|apply (pm_rec_more gs c (a ++ b)); exact IH].
Qed.

Lemma pm_comp_inv : forall g gs cs, g <> [STAR; STAR] -> pmatch (g :: gs) cs <-> exists c cs', cs = c :: cs' /\ cmatch g c /\ pmatch gs cs'.
Proof.
  intros g gs cs Hg. split.
  - intros H. inversion H; subst; try congruence; eauto. all: exfalso; apply Hg; reflexivity.
  - intros (c & cs' & -> & H1 & H2). apply pm_comp; auto.
Qed.

(** After a slash anywhere in a path we are at the start of one of its components. *)
Lemma tail_slash : forall cs a b, (forall c, In c cs -> ~ In SLASH c) -> cs <> [] -> join [SLASH] cs = a ++ SLASH :: b ->
  exists x y, cs = x ++ y /\ y <> [] /\ b = join [SLASH] y.
Proof.
  intros cs a b Hc Hn E.
  pose proof (split_on_join SLASH cs Hn Hc) as S1. rewrite E, split_on_cat in S1.
  exists (split_on SLASH a), (split_on SLASH b). split; [auto|]. split; [apply split_on_nonempty|]. symmetry. apply join_split_on.
Qed.

Lemma fw_match : forall gs cs, gs <> [] -> (forall g, In g gs -> good g) -> (forall c, In c cs -> ~ In SLASH c) ->
  (tmatch (fw HSlash gs) (tail_of cs) = true <-> pmatch gs cs)
  /\ (tmatch (fw HMiddle gs) (tail_of cs) = true <-> pmatch ([STAR; STAR] :: gs) cs).
Proof.
  induction gs as [|g gs IH]; intros cs Hn Hg Hc; [congruence|].
  assert (Gg : good g) by (apply Hg; left; reflexivity).
  assert (Hg' : forall g', In g' gs -> good g') by (intros g' K; apply Hg; right; exact K).
  assert (Suf : tmatch [TSuffix] (tail_of cs) = true <-> cs <> []).
  { destruct cs as [|c cs]; [simpl; split; congruence|]. cbn [tail_of tmatch]. rewrite N.eqb_refl. cbn [andb].
    split; [discriminate|]. intros _. apply skip_some_iff. exists (join [SLASH] (c :: cs)), []. rewrite app_nil_r.
    repeat split. induction (join [SLASH] (c :: cs)); auto. }
  (* a plain component, from any boundary *)
  assert (Rest : forall cs', (forall c, In c cs' -> ~ In SLASH c) -> tmatch (fw HSlash gs) (tail_of cs') = true <-> pmatch gs cs').
  { intros cs' Hc'. destruct gs as [|g2 gs].
    - cbn [fw]. destruct cs'; cbn [tail_of tmatch]; split; intros K; try constructor; try discriminate. inversion K.
    - apply IH; auto. discriminate. }
  assert (One : forall c cs', (forall c, In c (c :: cs') -> ~ In SLASH c) -> (forall x, In x (c :: cs') -> ~ In SLASH x) -> True) by auto. clear One.
  assert (One : forall cs', cs' <> [] -> (forall c, In c cs' -> ~ In SLASH c) -> recg g = false ->
    tmatch (toks g ++ fw HSlash gs) (join [SLASH] cs') = true <-> pmatch (g :: gs) cs').
  { intros cs' Hn' Hc' R. destruct cs' as [|c cs']; [congruence|].
    assert (Hcc : ~ In SLASH c) by (apply Hc'; left; reflexivity).
    rewrite join_tail, comp_then by (auto; apply fw_eats; auto).
    rewrite Rest by (intros d Hd; apply Hc'; right; exact Hd).
    rewrite pm_comp_inv by (intros E; apply recg_eq in E; congruence). split.
    - intros [H1 H2]. exists c, cs'. auto.
    - intros (c' & cs2 & E & H1 & H2). injection E as <- <-. auto. }
  cbn [fw]. destruct (recg g) eqn:R.
  - apply recg_eq in R. subst g. destruct gs as [|g2 gs].
    + rewrite Suf. split.
      * rewrite pm_rec. intuition congruence.
      * rewrite pm_rec. split.
        -- intros H. right. split; [discriminate|]. exists [], cs. split; [reflexivity|]. apply pm_rec. auto.
        -- intros [[K _]|[_ (a & b & -> & H)]]; [discriminate|]. apply pm_rec in H. destruct H as [[_ H]|[H _]]; [|exfalso; apply H; reflexivity].
           destruct a; [exact H|discriminate].
    + specialize (IH cs ltac:(discriminate) Hg' Hc). destruct IH as [_ IH]. split; [exact IH|]. rewrite IH.
      rewrite (pm_rec ([STAR; STAR] :: g2 :: gs)). split.
      * intros H. right. split; [discriminate|]. exists [], cs. auto.
      * intros [[K _]|[_ (a & b & -> & H)]]; [discriminate|]. apply pm_rec in H. destruct H as [[K _]|[_ (a2 & b2 & -> & H)]]; [discriminate|].
        apply pm_rec. right. split; [discriminate|]. exists (a ++ a2), b2. rewrite app_assoc. auto.
  - cbn [pending app].
    assert (Hnr : g <> [STAR; STAR]) by (intros E; apply recg_eq in E; congruence).
    split.
    + cbn [tmatch]. destruct cs as [|c cs].
      * cbn [tail_of]. rewrite pm_comp_inv by exact Hnr. split; [discriminate|]. intros (c & cs' & K & _). discriminate.
      * cbn [tail_of]. rewrite N.eqb_refl. cbn [andb]. apply One; auto. discriminate.
    + rewrite pm_rec. cbn [tmatch]. destruct cs as [|c cs].
      * cbn [tail_of]. split; [discriminate|]. intros [[K _]|[_ (a & b & E & H)]]; [discriminate|].
        destruct a; [|discriminate]. destruct b; [|discriminate]. apply pm_comp_inv in H; [|exact Hnr].
        destruct H as (c & cs' & K & _). discriminate.
      * cbn [tail_of]. rewrite N.eqb_refl. cbn [andb]. rewrite orb_true_iff, after_slash_iff. split.
        -- intros [H|(a & b & E & H)].
           ++ right. split; [discriminate|]. exists [], (c :: cs). split; [reflexivity|]. apply One; auto. discriminate.
           ++ apply tail_slash in E; [|exact Hc|discriminate]. destruct E as (x & y & E & Hy & ->). right. split; [discriminate|].
              exists x, y. split; [exact E|]. apply One; auto. intros d Hd. apply Hc. rewrite E. apply in_or_app. auto.
        -- intros [[K _]|[_ (a & b & E & H)]]; [discriminate|].
           assert (Hb : b <> []) by (intros ->; apply pm_comp_inv in H; [destruct H as (? & ? & K & _); discriminate|exact Hnr]).
           assert (Hcb : forall d, In d b -> ~ In SLASH d) by (intros d Hd; apply Hc; rewrite E; apply in_or_app; auto).
           apply One in H; auto. destruct a as [|x a].
           ++ left. simpl in E. rewrite E. exact H.
           ++ right. exists (join [SLASH] (x :: a)), (join [SLASH] b). rewrite E, join_app2 by (auto; discriminate). auto.
Qed.

Lemma fw_prefix : forall gs cs, gs <> [] -> cs <> [] -> (forall g, In g gs -> good g) -> (forall c, In c cs -> ~ In SLASH c) ->
  glob_match (fw HPrefix gs) (join [SLASH] cs) = true <-> pmatch ([STAR; STAR] :: gs) cs.
Proof.
  induction gs as [|g gs IH]; intros cs Hn Hn' Hg Hc; [congruence|].
  assert (Gg : good g) by (apply Hg; left; reflexivity).
  assert (Hg' : forall g', In g' gs -> good g') by (intros g' K; apply Hg; right; exact K).
  cbn [fw]. destruct (recg g) eqn:R.
  - apply recg_eq in R. subst g. destruct gs as [|g2 gs].
    + split; [|reflexivity]. intros _. apply pm_rec. right. split; [discriminate|]. exists [], cs. split; [reflexivity|]. apply pm_rec. auto.
    + rewrite IH by (auto; discriminate). rewrite (pm_rec ([STAR; STAR] :: g2 :: gs)). split.
      * intros H. right. split; [discriminate|]. exists [], cs. auto.
      * intros [[K _]|[_ (a & b & -> & H)]]; [discriminate|]. apply pm_rec in H. destruct H as [[K _]|[_ (a2 & b2 & -> & H)]]; [discriminate|].
        apply pm_rec. right. split; [discriminate|]. exists (a ++ a2), b2. rewrite app_assoc. auto.
  - cbn [pending app].
    assert (Hnr : g <> [STAR; STAR]) by (intros E; apply recg_eq in E; congruence).
    assert (One : forall cs', cs' <> [] -> (forall c, In c cs' -> ~ In SLASH c) ->
      tmatch (toks g ++ fw HSlash gs) (join [SLASH] cs') = true <-> pmatch (g :: gs) cs').
    { intros cs' Hn2 Hc'. destruct cs' as [|c cs']; [congruence|].
      assert (Hcc : ~ In SLASH c) by (apply Hc'; left; reflexivity).
      rewrite join_tail, comp_then by (auto; apply fw_eats; auto).
      assert (Hcs : forall d, In d cs' -> ~ In SLASH d) by (intros d Hd; apply Hc'; right; exact Hd).
      assert (Rest : tmatch (fw HSlash gs) (tail_of cs') = true <-> pmatch gs cs').
      { destruct gs as [|g2 gs].
        - cbn [fw]. destruct cs'; cbn [tail_of tmatch]; split; intros K; try constructor; try discriminate. inversion K.
        - apply fw_match; auto. discriminate. }
      rewrite Rest, pm_comp_inv by exact Hnr. split.
      - intros [H1 H2]. exists c, cs'. auto.
      - intros (c' & cs2 & E & H1 & H2). injection E as <- <-. auto. }
    assert (E0 : toks g ++ fw HSlash gs <> []).
    { intros E0. apply app_eq_nil in E0. destruct E0 as [E1 _]. unfold toks in E1. destruct Gg as (_ & Hp & _ & Hne).
      destruct (pl MNormal g) eqn:Ep; [|congruence]. subst l. apply pl_nil in Ep. contradiction. }
    { assert (G : glob_match (TPrefix :: toks g ++ fw HSlash gs) (join [SLASH] cs) = tmatch (TPrefix :: toks g ++ fw HSlash gs) (join [SLASH] cs)).
      { unfold glob_match. destruct (toks g ++ fw HSlash gs); [congruence|reflexivity]. }
      rewrite G, tprefix_iff, pm_rec. split.
      * intros (a & b & E & [->|[a' ->]] & H).
        -- right. split; [discriminate|]. exists [], cs. split; [reflexivity|]. apply One; auto. rewrite E. exact H.
        -- rewrite <- app_assoc in E. cbn [app] in E. apply tail_slash in E; auto. destruct E as (x & y & -> & Hy & ->).
           right. split; [discriminate|]. exists x, y. split; [reflexivity|]. apply One; auto. intros d Hd. apply Hc. apply in_or_app. auto.
      * intros [[K _]|[_ (a & b & -> & H)]]; [discriminate|].
        assert (Hb : b <> []) by (intros ->; apply pm_comp_inv in H; [destruct H as (? & ? & K & _); discriminate|exact Hnr]).
        apply One in H; auto; [|intros d Hd; apply Hc; apply in_or_app; auto].
        destruct a as [|x a].
        -- exists [], (join [SLASH] b). repeat split; auto. left. reflexivity.
        -- exists (join [SLASH] (x :: a) ++ [SLASH]), (join [SLASH] b). rewrite join_app2 by (auto; discriminate). rewrite <- app_assoc.
           repeat split; auto. right. eauto. }
Qed.

Lemma pl_glob_new : forall g, ~ In SLASH g -> glob_new g <> None -> pl MNormal g <> None.
Proof.
  intros g Hs H. destruct (text_dec g [STAR; STAR]) as [->|Hne]; [discriminate|].
  destruct (parse_free (length g) g MNormal None [] []) as (p & _ & _ & E); auto.
  { left. reflexivity. } { intros (_ & K & _). contradiction. }
  unfold glob_new in H. rewrite app_nil_r in E. rewrite E in H. destruct (pl MNormal g); [discriminate|congruence].
Qed.

Lemma c39_slash : forall g path, In SLASH g ->
  (forall c, In c (split_on SLASH g) -> c <> [] /\ glob_new c <> None /\ classes_without_slash c) ->
  exists gs, build_glob_set [g] = Some (Some gs)
    /\ (set_match gs path = true <-> pmatch (split_on SLASH g) (split_on SLASH path)).
Proof.
  intros g path Hs Hg.
  set (cs := split_on SLASH g). set (ps := split_on SLASH path).
  assert (Hcs : forall c, In c cs -> ~ In SLASH c) by (intros c; apply split_on_pieces).
  assert (Hps : forall c, In c ps -> ~ In SLASH c) by (intros c; apply split_on_pieces).
  assert (Hps0 : ps <> []) by apply split_on_nonempty.
  assert (Good : forall c, In c cs -> good c).
  { intros c Hc. destruct (Hg c Hc) as (H1 & H2 & H3). split; [auto|]. split; [apply pl_glob_new; auto|auto]. }
  assert (Two : exists c1 c2 cs', cs = c1 :: c2 :: cs').
  { apply in_split in Hs. destruct Hs as (a & b & E). unfold cs. rewrite E, split_on_cat.
    destruct (split_on SLASH a) as [|w [|w2 ws]] eqn:Ea; [exfalso; now apply split_on_nonempty in Ea| |simpl; eauto].
    destruct (split_on SLASH b) as [|v vs] eqn:Eb; [exfalso; now apply split_on_nonempty in Eb|simpl; eauto]. }
  destruct Two as (c1 & c2 & cs' & Ecs).
  assert (P : glob_new g = Some (fw HStart cs)).
  { unfold glob_new. rewrite <- (join_split_on SLASH g). fold cs. apply (parse_fw cs HStart [] None).
    - rewrite Ecs. discriminate.
    - intros c Hc. destruct (Good c Hc) as (A & B & _). auto.
    - auto.
    - congruence. }
  exists [fw HStart cs]. split.
  - unfold build_glob_set. cbn [flat_map]. rewrite app_nil_r. unfold adjusted.
    assert (E : existsb (N.eqb SLASH) g = true) by (apply existsb_exists; exists SLASH; split; [exact Hs|apply N.eqb_refl]).
    rewrite E. cbn [all_some]. rewrite P. reflexivity.
  - cbn [set_match existsb]. rewrite orb_false_r. rewrite <- (join_split_on SLASH path). fold ps.
    rewrite Ecs in *.
    assert (Good2 : forall c, In c (c2 :: cs') -> good c) by (intros c Hc; apply Good; right; exact Hc).
    destruct (recg c1) eqn:R.
    + apply recg_eq in R. subst c1. change (fw HStart ([STAR; STAR] :: c2 :: cs')) with (fw HPrefix (c2 :: cs')).
      apply fw_prefix; auto. discriminate.
    + assert (Efw : fw HStart (c1 :: c2 :: cs') = toks c1 ++ fw HSlash (c2 :: cs')).
      { remember (c2 :: cs') as l. cbn [fw]. rewrite R. reflexivity. }
      rewrite Efw. assert (Hnr : c1 <> [STAR; STAR]) by (intros E; apply recg_eq in E; congruence).
      assert (G : forall s, glob_match (toks c1 ++ fw HSlash (c2 :: cs')) s = tmatch (toks c1 ++ fw HSlash (c2 :: cs')) s).
      { intros s. unfold glob_match. destruct (Good c1 (or_introl eq_refl)) as (_ & Hp & _ & Hne). unfold toks.
        destruct (pl MNormal c1) as [ts|] eqn:Ep; [|congruence]. pose proof (pl_simple _ _ _ Ep) as Sm.
        destruct ts as [|t ts]; [apply pl_nil in Ep; contradiction|]. destruct t; try reflexivity. discriminate. }
      rewrite G. destruct ps as [|p1 ps']; [congruence|]. rewrite join_tail, comp_then; auto.
      * rewrite (proj1 (fw_match (c2 :: cs') ps' ltac:(discriminate) Good2 (fun c Hc => Hps c (or_intror Hc)))).
        rewrite (pm_comp_inv c1) by exact Hnr. split.
        -- intros [H1 H2]. eauto.
        -- intros (c & cs2 & E & H1 & H2). injection E as <- <-. auto.
      * apply Good. left. reflexivity.
      * apply fw_eats. auto.
      * apply Hps. left. reflexivity.
Qed.

Lemma all_some_app : forall A B (f : A -> option B) l1 l2,
  all_some f (l1 ++ l2) = match all_some f l1, all_some f l2 with Some a, Some b => Some (a ++ b) | _, _ => None end.
Proof.
  intros A B f. induction l1 as [|a l1 IH]; intros l2; cbn [all_some app].
  - destruct (all_some f l2); reflexivity.
  - rewrite IH. destruct (f a); [|reflexivity]. destruct (all_some f l1); [|reflexivity]. destruct (all_some f l2); reflexivity.
Qed.

Lemma build_one : forall g, build_glob_set [g] = match all_some glob_new (adjusted g) with Some x => Some (Some x) | None => None end.
Proof. intros g. unfold build_glob_set. cbn [flat_map]. rewrite app_nil_r. reflexivity. Qed.

Lemma c39_set : forall globs gs path, globs <> [] -> build_glob_set globs = Some (Some gs) ->
  set_match gs path = true <->
  exists g x, In g globs /\ build_glob_set [g] = Some (Some x) /\ set_match x path = true.
Proof.
  intros globs gs path Hn H.
  assert (H' : all_some glob_new (flat_map adjusted globs) = Some gs).
  { unfold build_glob_set in H. destruct globs; [congruence|]. destruct (all_some glob_new _); congruence. }
  clear H Hn. revert gs H'. induction globs as [|g globs IH]; intros gs H'.
  - injection H' as <-. split; [discriminate|]. intros (g & x & [] & _).
  - cbn [flat_map] in H'. rewrite all_some_app in H'. destruct (all_some glob_new (adjusted g)) as [a|] eqn:Ea; [|discriminate].
    destruct (all_some glob_new (flat_map adjusted globs)) as [b|] eqn:Eb; [|discriminate]. injection H' as <-.
    unfold set_match. rewrite existsb_app, orb_true_iff. fold (set_match b path). rewrite (IH b eq_refl). split.
    + intros [K|(g' & x & K1 & K2 & K3)].
      * exists g, a. rewrite build_one, Ea. repeat split; [left; reflexivity|exact K].
      * exists g', x. repeat split; auto. right. exact K1.
    + intros (g' & x & [<-|K1] & K2 & K3).
      * left. rewrite build_one, Ea in K2. injection K2 as <-. exact K3.
      * right. eauto.
Qed.

Lemma c39_error : forall globs, build_glob_set globs = None <-> exists g, In g globs /\ build_glob_set [g] = None.
Proof.
  intros globs.
  assert (A : all_some glob_new (flat_map adjusted globs) = None <-> exists g, In g globs /\ build_glob_set [g] = None).
  { induction globs as [|g globs IH].
    - split; [discriminate|]. intros (g & [] & _).
    - cbn [flat_map]. rewrite all_some_app. split.
      + destruct (all_some glob_new (adjusted g)) eqn:Ea.
        * destruct (all_some glob_new (flat_map adjusted globs)); [discriminate|]. intros _.
          destruct (proj1 IH eq_refl) as (g' & K1 & K2). exists g'. split; [right; exact K1|exact K2].
        * intros _. exists g. split; [left; reflexivity|]. rewrite build_one, Ea. reflexivity.
      + intros (g' & [<-|K1] & K2).
        * rewrite build_one in K2. destruct (all_some glob_new (adjusted g)); [discriminate|reflexivity].
        * rewrite (proj2 IH) by eauto. destruct (all_some glob_new (adjusted g)); reflexivity. }
  unfold build_glob_set at 1. destruct globs as [|g globs].
  - split; [discriminate|]. intros (g & [] & _).
  - rewrite <- A. destruct (all_some glob_new _); split; congruence.
Qed.
