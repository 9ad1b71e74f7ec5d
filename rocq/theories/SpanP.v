From Coq Require Import List NArith Bool Arith Lia.
From Verif Require Import Text SpanM SpanS.
Import ListNotations.

(** Position reached by the scanner after prefix [p]. *)
Definition pos (p : text) : line_column := fold_left advance p (mkLC 1 1).

Definition lt_lc (p q : line_column) : Prop :=
  lc_line p < lc_line q \/ (lc_line p = lc_line q /\ lc_column p < lc_column q).
Definition le_lc (p q : line_column) : Prop := p = q \/ lt_lc p q.

Lemma lc_eq : forall p q, lc_line p = lc_line q -> lc_column p = lc_column q -> p = q.
Proof. intros [] []; simpl; intros; now subst. Qed.

Lemma lt_le : forall p q, lt_lc p q -> le_lc p q.
Proof. intros; now right. Qed.

Lemma le_lt_trans : forall p q r, le_lc p q -> lt_lc q r -> lt_lc p r.
Proof. intros p q r [->|H] H1; auto. unfold lt_lc in *. lia. Qed.

Lemma lt_le_trans : forall p q r, lt_lc p q -> le_lc q r -> lt_lc p r.
Proof. intros p q r H [<-|H1]; auto. unfold lt_lc in *. lia. Qed.

Lemma le_trans : forall p q r, le_lc p q -> le_lc q r -> le_lc p r.
Proof. intros p q r [->|H] H1; auto. right. eapply lt_le_trans; eauto. Qed.

Lemma lt_irrefl : forall p, ~ lt_lc p p.
Proof. unfold lt_lc. intros. lia. Qed.

Lemma advance_le : forall p c, le_lc p (advance p c).
Proof.
  intros p c. unfold advance. destruct (N.eqb c NL); [right|destruct (N.eqb c CR); [now left|right]];
    unfold lt_lc; simpl; lia.
Qed.

Lemma advance_lt : forall p c, c <> CR -> lt_lc p (advance p c).
Proof.
  intros p c H. unfold advance. destruct (N.eqb c NL).
  - unfold lt_lc; simpl; lia.
  - destruct (N.eqb_spec c CR); [congruence|]. unfold lt_lc; simpl; lia.
Qed.

Lemma pos_snoc : forall p c, pos (p ++ [c]) = advance (pos p) c.
Proof. intros. unfold pos. now rewrite fold_left_app. Qed.

Lemma pos_mono : forall x p, le_lc (pos p) (pos (p ++ x)).
Proof.
  induction x as [|c x IH]; intros p.
  - rewrite app_nil_r. now left.
  - replace (p ++ c :: x) with ((p ++ [c]) ++ x) by now rewrite <- app_assoc.
    eapply le_trans; [|apply IH]. rewrite pos_snoc. apply advance_le.
Qed.

Lemma pos_strict_first : forall p c x, c <> CR -> lt_lc (pos p) (pos (p ++ c :: x)).
Proof.
  intros p c x H.
  replace (p ++ c :: x) with ((p ++ [c]) ++ x) by now rewrite <- app_assoc.
  eapply lt_le_trans; [|apply pos_mono]. rewrite pos_snoc. now apply advance_lt.
Qed.

Lemma pos_strict_last : forall p x c, c <> CR -> lt_lc (pos p) (pos (p ++ x ++ [c])).
Proof.
  intros p x c H. rewrite app_assoc, pos_snoc.
  eapply le_lt_trans; [apply pos_mono|]. now apply advance_lt.
Qed.

Lemma at_start_iff : forall sp p, at_start sp p = true <-> p = sp_start sp.
Proof.
  intros sp p. unfold at_start. rewrite andb_true_iff, !Nat.eqb_eq. split.
  - intros [H1 H2]. now apply lc_eq.
  - intros ->. auto.
Qed.

Lemma keep_iff : forall sp p, keep_outside sp p = true <->
  (lt_lc p (sp_start sp) \/ le_lc (sp_end sp) p).
Proof.
  intros sp p. unfold keep_outside, le_lc, lt_lc.
  rewrite !orb_true_iff, !andb_true_iff, !Nat.ltb_lt, !Nat.eqb_eq, Nat.leb_le.
  split; intro H.
  - destruct H as [[[H|H]|H]|H]; try lia.
    destruct (Nat.eq_dec (lc_column (sp_end sp)) (lc_column p)) as [E|E].
    + right. left. apply lc_eq; lia.
    + lia.
  - destruct H as [H|[H|H]]; try lia. subst p. lia.
Qed.

Lemma keep_false : forall sp p, le_lc (sp_start sp) p -> lt_lc p (sp_end sp) ->
  keep_outside sp p = false.
Proof.
  intros sp p H1 H2. destruct (keep_outside sp p) eqn:E; auto.
  apply keep_iff in E. destruct E as [E|E].
  - exfalso. apply (lt_irrefl p). eapply lt_le_trans; eauto.
  - exfalso. apply (lt_irrefl p). eapply lt_le_trans; eauto.
Qed.

Lemma at_start_false : forall sp p, p <> sp_start sp -> at_start sp p = false.
Proof.
  intros sp p H. destruct (at_start sp p) eqn:E; auto.
  apply at_start_iff in E. contradiction.
Qed.

Lemma cons_app1 : forall (c : chr) p x, p ++ c :: x = (p ++ [c]) ++ x.
Proof. intros. now rewrite <- app_assoc. Qed.

(** Chars before the start are copied. *)
Lemma loop_before : forall sp repl x p rest,
  (forall x1 c x2, x = x1 ++ c :: x2 -> lt_lc (pos (p ++ x1)) (sp_start sp)) ->
  replace_loop sp repl (pos p) (x ++ rest) = x ++ replace_loop sp repl (pos (p ++ x)) rest.
Proof.
  intros sp repl x. induction x as [|c x IH]; intros p rest H; simpl.
  - now rewrite app_nil_r.
  - assert (Hp : lt_lc (pos p) (sp_start sp)).
    { specialize (H [] c x eq_refl). now rewrite app_nil_r in H. }
    rewrite at_start_false.
    2: { intro E. rewrite E in Hp. now apply lt_irrefl in Hp. }
    replace (keep_outside sp (pos p)) with true.
    2: { symmetry. apply keep_iff. now left. }
    simpl. f_equal. rewrite <- pos_snoc, IH, <- app_assoc. reflexivity.
    intros x1 d x2 E. rewrite <- app_assoc. simpl. apply (H (c :: x1) d x2).
    now rewrite E.
Qed.

(** Chars inside the span (strictly after the start) are dropped. *)
Lemma loop_inside : forall sp repl x p rest,
  (forall x1 c x2, x = x1 ++ c :: x2 ->
     lt_lc (sp_start sp) (pos (p ++ x1)) /\ lt_lc (pos (p ++ x1)) (sp_end sp)) ->
  replace_loop sp repl (pos p) (x ++ rest) = replace_loop sp repl (pos (p ++ x)) rest.
Proof.
  intros sp repl x. induction x as [|c x IH]; intros p rest H; simpl.
  - now rewrite app_nil_r.
  - destruct (H [] c x eq_refl) as [H1 H2]. rewrite app_nil_r in H1, H2.
    rewrite at_start_false.
    2: { intro E. rewrite E in H1. now apply lt_irrefl in H1. }
    rewrite keep_false; auto using lt_le. simpl.
    rewrite <- pos_snoc, IH, <- app_assoc; auto.
    intros x1 d x2 E. rewrite <- app_assoc. simpl. apply (H (c :: x1) d x2).
    now rewrite E.
Qed.

(** Chars from the end on are copied, once the start is behind. *)
Lemma loop_after : forall sp repl x p,
  lt_lc (sp_start sp) (pos p) -> le_lc (sp_end sp) (pos p) ->
  replace_loop sp repl (pos p) x = x.
Proof.
  intros sp repl x. induction x as [|c x IH]; intros p H1 H2; simpl.
  - rewrite at_start_false; auto. intro E. rewrite E in H1. now apply lt_irrefl in H1.
  - rewrite at_start_false.
    2: { intro E. rewrite E in H1. now apply lt_irrefl in H1. }
    replace (keep_outside sp (pos p)) with true.
    2: { symmetry. apply keep_iff. now right. }
    simpl. rewrite <- pos_snoc, IH; auto.
    + eapply lt_le_trans; eauto. apply pos_mono.
    + eapply le_trans; eauto. apply pos_mono.
Qed.

(** Does not begin / end with a carriage return. *)
Definition no_cr_head (s : text) : Prop := forall s', s <> CR :: s'.
Definition no_cr_last (s : text) : Prop := forall s', s <> s' ++ [CR].

Lemma strict_prefix_before : forall p x1 c x2, no_cr_last (x1 ++ c :: x2) ->
  lt_lc (pos (p ++ x1)) (pos (p ++ x1 ++ c :: x2)).
Proof.
  intros p x1 c x2 H.
  destruct (exists_last (l := c :: x2)) as [y [d E]]; [discriminate|].
  rewrite E. rewrite app_assoc.
  replace ((p ++ x1) ++ y ++ [d]) with ((p ++ x1) ++ y ++ [d]) by auto.
  apply pos_strict_last. intro Ed. apply (H (x1 ++ y)).
  rewrite E, Ed. now rewrite app_assoc.
Qed.

Lemma replace_pos : forall a b c repl,
  no_cr_last a -> no_cr_last b -> no_cr_head (b ++ c) ->
  span_replace (mkSpan (pos a) (pos (a ++ b))) (a ++ b ++ c) repl = a ++ repl ++ c.
Proof.
  intros a b c repl Ha Hb Hbc.
  unfold span_replace. change (mkLC 1 1) with (pos []).
  set (sp := mkSpan (pos a) (pos (a ++ b))).
  rewrite loop_before.
  2: { intros x1 d x2 E. simpl. rewrite E. apply (strict_prefix_before [] x1 d x2).
       now rewrite <- E. }
  f_equal. cbn [app].
  destruct b as [|b0 b].
  - (* empty span: insertion *)
    subst sp. rewrite app_nil_r in *. cbn [app] in *.
    destruct c as [|c0 c]; simpl.
    + replace (at_start _ _) with true.
      2: { symmetry. apply at_start_iff. reflexivity. }
      now rewrite app_nil_r.
    + replace (at_start _ _) with true.
      2: { symmetry. apply at_start_iff. reflexivity. }
      replace (keep_outside _ _) with true.
      2: { symmetry. apply keep_iff. right. now left. }
      f_equal. simpl. f_equal. rewrite <- pos_snoc. apply loop_after; simpl.
      * apply pos_strict_first. intro E; subst. now apply (Hbc c).
      * right. apply pos_strict_first. intro E; subst. now apply (Hbc c).
  - assert (Hb0 : b0 <> CR) by (intro E; subst; now apply (Hbc (b ++ c))).
    cbn [app replace_loop].
    replace (at_start _ _) with true.
    2: { symmetry. apply at_start_iff. reflexivity. }
    rewrite keep_false.
    2: { now left. }
    2: { simpl. now apply pos_strict_first. }
    simpl. f_equal. rewrite <- pos_snoc.
    rewrite loop_inside.
    + rewrite <- app_assoc. simpl. apply loop_after; simpl.
      * now apply pos_strict_first.
      * now left.
    + intros x1 d x2 E. simpl. rewrite <- app_assoc. simpl. split.
      * now apply pos_strict_first.
      * rewrite E. apply (strict_prefix_before a (b0 :: x1) d x2).
        simpl. rewrite <- E. exact Hb.
Qed.

(** ** Extract *)

Lemma inside_iff : forall sp p, inside sp p = true <->
  (le_lc (sp_start sp) p /\ lt_lc p (sp_end sp)).
Proof.
  intros sp p. unfold inside, le_lc, lt_lc.
  rewrite !andb_true_iff, !orb_true_iff, !andb_true_iff, !Nat.ltb_lt, !Nat.eqb_eq, Nat.leb_le.
  split; intros [H1 H2]; split; try lia.
  destruct H1 as [H1|H1]; [|right; lia].
  destruct (Nat.eq_dec (lc_column (sp_start sp)) (lc_column p)) as [E|E].
  + left. apply lc_eq; lia.
  + right; lia.
  + destruct H1 as [H1|H1]; [subst p|]; lia.
Qed.

Lemma inside_false_before : forall sp p, lt_lc p (sp_start sp) -> inside sp p = false.
Proof.
  intros sp p H. destruct (inside sp p) eqn:E; auto. apply inside_iff in E.
  destruct E as [E _]. exfalso. apply (lt_irrefl p). eapply lt_le_trans; eauto.
Qed.

Lemma inside_false_after : forall sp p, le_lc (sp_end sp) p -> inside sp p = false.
Proof.
  intros sp p H. destruct (inside sp p) eqn:E; auto. apply inside_iff in E.
  destruct E as [_ E]. exfalso. apply (lt_irrefl p). eapply lt_le_trans; eauto.
Qed.

Lemma break_false : forall sp c q, lt_lc q (sp_end sp) -> extract_break sp c q = false.
Proof.
  intros sp c q H. unfold extract_break. apply orb_false_iff. split.
  - apply andb_false_iff. right. apply Nat.ltb_ge. unfold lt_lc in H. lia.
  - apply andb_false_iff.
    destruct (Nat.eqb_spec (lc_line q) (lc_line (sp_end sp))); [right|now left].
    apply Nat.leb_gt. unfold lt_lc in H. lia.
Qed.

Lemma extract_after : forall sp s p, le_lc (sp_end sp) (pos p) ->
  extract_loop sp (pos p) s = [].
Proof.
  intros sp s. induction s as [|c s IH]; intros p H; simpl; auto.
  rewrite inside_false_after by auto. simpl.
  destruct (extract_break _ _ _); auto.
  rewrite <- pos_snoc. apply IH. eapply le_trans; eauto. apply pos_mono.
Qed.

Lemma extract_before : forall sp x p rest,
  (forall x1 c x2, x = x1 ++ c :: x2 -> lt_lc (pos (p ++ x1)) (sp_start sp)) ->
  le_lc (sp_start sp) (sp_end sp) ->
  lt_lc (pos (p ++ x)) (sp_end sp) ->
  extract_loop sp (pos p) (x ++ rest) = extract_loop sp (pos (p ++ x)) rest.
Proof.
  intros sp x. induction x as [|c x IH]; intros p rest H Hse He; simpl.
  - now rewrite app_nil_r.
  - rewrite inside_false_before.
    2: { specialize (H [] c x eq_refl). now rewrite app_nil_r in H. }
    simpl. rewrite <- pos_snoc. rewrite break_false.
    2: { eapply le_lt_trans; [|exact He]. rewrite (cons_app1 c p x). apply pos_mono. }
    rewrite IH.
    + now rewrite <- app_assoc.
    + intros x1 d x2 E. rewrite <- app_assoc. simpl. apply (H (c :: x1) d x2). now rewrite E.
    + auto.
    + now rewrite <- app_assoc.
Qed.

(** Within the span every char is taken; at its end the loop stops or takes
    nothing more. *)
Lemma extract_in : forall sp x p rest,
  le_lc (sp_start sp) (pos p) ->
  no_cr_last x ->
  sp_end sp = pos (p ++ x) ->
  extract_loop sp (pos p) (x ++ rest) = x.
Proof.
  intros sp x. induction x as [|c x IH]; intros p rest H Hx He.
  - rewrite app_nil_r in He. simpl. apply extract_after. now left.
  - cbn [app extract_loop].
    assert (Hlt : lt_lc (pos p) (sp_end sp)).
    { rewrite He. replace (pos p) with (pos (p ++ [])) by now rewrite app_nil_r.
      apply (strict_prefix_before p [] c x). exact Hx. }
    replace (inside sp (pos p)) with true.
    2: { symmetry. apply inside_iff. auto. }
    simpl. f_equal. rewrite <- pos_snoc.
    destruct x as [|d x].
    + destruct (extract_break _ _ _); auto. apply extract_after. now left.
    + rewrite break_false.
      * apply IH.
        -- eapply le_trans; eauto. apply pos_mono.
        -- intros y E. apply (Hx (c :: y)). now rewrite E.
        -- now rewrite <- app_assoc.
      * rewrite He, (cons_app1 c p (d :: x)).
        replace (pos (p ++ [c])) with (pos ((p ++ [c]) ++ [])) by now rewrite app_nil_r.
        apply (strict_prefix_before (p ++ [c]) [] d x).
        simpl. intros y E. apply (Hx (c :: y)). now rewrite E.
Qed.

Lemma extract_pos : forall a b c,
  no_cr_last a -> no_cr_last b ->
  span_extract (mkSpan (pos a) (pos (a ++ b))) (a ++ b ++ c) = b.
Proof.
  intros a b c Ha Hb. unfold span_extract. change (mkLC 1 1) with (pos []).
  destruct b as [|b0 b].
  - (* empty span: nothing is ever inside *)
    rewrite app_nil_r. cbn [app].
    assert (G : forall s p, extract_loop (mkSpan (pos a) (pos a)) (pos p) s = []).
    { induction s as [|d s IHs]; intros p; cbn [extract_loop]; auto.
      replace (inside _ (pos p)) with false.
      2: { symmetry. destruct (inside _ _) eqn:E; auto. apply inside_iff in E. simpl in E.
           destruct E as [E1 E2]. exfalso. apply (lt_irrefl (pos p)). eapply lt_le_trans; eauto. }
      simpl. destruct (extract_break _ _ _); auto. rewrite <- pos_snoc. apply IHs. }
    apply G.
  - rewrite extract_before.
    + apply extract_in; simpl; auto. now left.
    + intros x1 d x2 E. simpl. rewrite E. apply (strict_prefix_before [] x1 d x2).
      now rewrite <- E.
    + simpl. apply pos_mono.
    + simpl. replace (pos a) with (pos (a ++ [])) by now rewrite app_nil_r.
      apply (strict_prefix_before a [] b0 b). exact Hb.
Qed.

(** ** Relation with the parser's positions *)

Lemma take_until_nl_snoc : forall s c, take_until_nl (c :: s) = if N.eqb c NL then [] else c :: take_until_nl s.
Proof. reflexivity. Qed.

Lemma last_line_snoc : forall p c,
  last_line (p ++ [c]) = if N.eqb c NL then [] else last_line p ++ [c].
Proof.
  intros p c. unfold last_line. rewrite rev_unit. simpl.
  destruct (N.eqb c NL); reflexivity.
Qed.

Lemma pos_spec : forall p,
  pos p = mkLC (parser_line p) (1 + length (filter (fun c => negb (N.eqb c CR)) (last_line p))).
Proof.
  intros p. induction p as [|c p IH] using rev_ind.
  - reflexivity.
  - rewrite pos_snoc, IH, last_line_snoc. unfold advance, parser_line.
    rewrite count_occ_app. simpl lc_line. simpl lc_column.
    destruct (N.eqb_spec c NL) as [->|Hn].
    + simpl. f_equal.
    + simpl count_occ. destruct (N.eq_dec c NL); [contradiction|].
      rewrite Nat.add_0_r.
      destruct (N.eqb_spec c CR) as [->|Hc].
      * rewrite filter_app. simpl. now rewrite app_nil_r.
      * rewrite filter_app. simpl.
        replace (N.eqb c CR) with false by (symmetry; now apply N.eqb_neq). simpl.
        rewrite app_length. simpl. f_equal.
Qed.

Lemma filter_all : forall (f : chr -> bool) l, (forall x, In x l -> f x = true) -> filter f l = l.
Proof.
  induction l as [|x l IH]; intros H; simpl; auto.
  rewrite (H x (or_introl eq_refl)). f_equal. apply IH. intros y Hy. apply H. now right.
Qed.

Lemma pos_parser : forall p, ~ In CR (last_line p) ->
  pos p = lc_from_proc_macro (parser_line p) (parser_column0 p).
Proof.
  intros p H. rewrite pos_spec. unfold lc_from_proc_macro, parser_column0.
  rewrite filter_all.
  - now rewrite Nat.add_comm.
  - intros x Hx. apply negb_true_iff. apply N.eqb_neq. intro E; subst; contradiction.
Qed.

Lemma last_line_suffix : forall p, p = [] \/ last_line p = [] \/ exists q c, p = q ++ [c] /\ In c (last_line p).
Proof.
  intros p. destruct p as [|c0 p0] using rev_ind; auto.
  right. rewrite last_line_snoc. destruct (N.eqb c0 NL); auto.
  right. exists p0, c0. split; auto. apply in_or_app. right. now left.
Qed.

Lemma no_cr_last_of_line : forall p, ~ In CR (last_line p) -> no_cr_last p.
Proof.
  intros p H q E. subst. rewrite last_line_snoc in H. simpl in H.
  apply H. apply in_or_app. right. now left.
Qed.

Lemma no_cr_last_app : forall a b, no_cr_last (a ++ b) -> no_cr_last b.
Proof. intros a b H q E. apply (H (a ++ q)). now rewrite E, app_assoc. Qed.

(** The span the parser reports for the text [b] in [a ++ b ++ c]. *)
Lemma replace_parser : forall a b c repl,
  ~ In CR (last_line a) -> ~ In CR (last_line (a ++ b)) -> no_cr_head (b ++ c) ->
  span_replace
    (mkSpan (lc_from_proc_macro (parser_line a) (parser_column0 a))
            (lc_from_proc_macro (parser_line (a ++ b)) (parser_column0 (a ++ b))))
    (a ++ b ++ c) repl = a ++ repl ++ c.
Proof.
  intros a b c repl H1 H2 H3. rewrite <- !pos_parser by auto.
  apply replace_pos; auto using no_cr_last_of_line.
  apply (no_cr_last_app a). now apply no_cr_last_of_line.
Qed.

Lemma extract_parser : forall a b c,
  ~ In CR (last_line a) -> ~ In CR (last_line (a ++ b)) ->
  span_extract
    (mkSpan (lc_from_proc_macro (parser_line a) (parser_column0 a))
            (lc_from_proc_macro (parser_line (a ++ b)) (parser_column0 (a ++ b))))
    (a ++ b ++ c) = b.
Proof.
  intros a b c H1 H2. rewrite <- !pos_parser by auto.
  apply extract_pos; auto using no_cr_last_of_line.
  apply (no_cr_last_app a). now apply no_cr_last_of_line.
Qed.

Lemma extract_replace_parser : forall a b c repl,
  ~ In CR (last_line a) -> ~ In CR (last_line (a ++ b)) ->
  (forall s', b ++ c <> CR :: s') ->
  let sp := mkSpan (lc_from_proc_macro (parser_line a) (parser_column0 a))
         (lc_from_proc_macro (parser_line (a ++ b)) (parser_column0 (a ++ b))) in
  let s := a ++ b ++ c in
  span_extract sp s = b
  /\ span_replace sp s repl = a ++ repl ++ c
  /\ span_replace sp s (span_extract sp s) = s.
Proof.
  intros a b c repl H1 H2 H3 sp s. subst sp s.
  rewrite extract_parser by auto. rewrite !replace_parser by auto. auto.
Qed.

(** ** Every span *)
Lemma strip_cr : forall x, exists x' z, x = x' ++ z /\ no_cr_last x' /\ pos x' = pos x.
Proof.
  induction x as [|c x IH] using rev_ind; [exists [], []; split; [reflexivity|]; split; [|reflexivity]; intros s' E; destruct s'; discriminate|].
  destruct (N.eq_dec c CR) as [->|N].
  - destruct IH as (x' & z & -> & H & E). exists x', (z ++ [CR]). split; [symmetry; apply app_assoc|]. split; [exact H|].
    rewrite pos_snoc. unfold advance. cbn. exact E.
  - exists (x ++ [c]), []. split; [symmetry; apply app_nil_r|]. split; [|reflexivity]. intros s' E. apply app_inj_tail in E. tauto.
Qed.

Lemma prefixes_comparable : forall (s a x b y : text), s = a ++ x -> s = b ++ y -> (exists z, b = a ++ z) \/ (exists z, a = b ++ z).
Proof.
  intros s a x b y -> E. revert b E. induction a as [|c a IH]; intros b E; [left; exists b; reflexivity|].
  destruct b as [|d b]; [right; exists (c :: a); reflexivity|]. cbn [app] in E. injection E as <- E.
  destruct (IH b E) as [[z ->]|[z ->]]; [left|right]; exists z; reflexivity.
Qed.

Lemma le_antisym_lc : forall p q, le_lc p q -> le_lc q p -> p = q.
Proof. intros p q [->|H] [E|K]; auto. exfalso. apply (lt_irrefl p). apply (lt_le_trans p q p); [exact H|right; exact K]. Qed.

Lemma every_span : forall s sp, span_of s sp ->
  exists a b c, s = a ++ b ++ c /\ place a = sp_start sp /\ place (a ++ b) = sp_end sp
  /\ span_extract sp s = b /\ (forall repl, span_replace sp s repl = a ++ repl ++ c)
  /\ span_replace sp s (span_extract sp s) = s.
Proof.
  intros s sp [[a [r [Es Ea]]] [y [r' [Es' Ey]]] Ord Ncr].
  assert (P : forall x, place x = pos x) by (intro x; symmetry; apply pos_spec). rewrite P in Ea, Ey.
  destruct (strip_cr y) as (y' & z & -> & NL' & Ey'). rewrite <- Ey' in Ey. rewrite <- app_assoc in Es'.
  assert (NLa : no_cr_last a).
  { intros a' ->. apply (Ncr a' r); [rewrite Es, <- app_assoc; reflexivity|]. rewrite P, <- Ea, pos_snoc. reflexivity. }
  assert (LE : le_lc (pos a) (pos y')).
  { rewrite Ea, Ey. destruct (sp_start sp) as [l1 c1], (sp_end sp) as [l2 c2]. unfold not_after in Ord. cbn in Ord. unfold le_lc, lt_lc. cbn.
    destruct Ord as [O|[-> O]]; [auto|]. apply le_lt_eq_dec in O. destruct O as [O| ->]; auto. }
  assert (exists b, y' = a ++ b) as [b ->].
  { destruct (prefixes_comparable s a r y' (z ++ r') Es Es') as [H|[w Ew]]; [exact H|]. destruct w as [|d w].
    - exists []. rewrite app_nil_r in *. auto.
    - exfalso. subst a. assert (d = CR) as ->.
      { destruct (N.eq_dec d CR) as [E|N]; [exact E|]. exfalso. apply (lt_irrefl (pos y')). eapply lt_le_trans; [apply (pos_strict_first y' d w N)|exact LE]. }
      apply (Ncr y' (w ++ r)); [rewrite Es, <- app_assoc; reflexivity|]. rewrite P, <- Ea. apply le_antisym_lc; [apply pos_mono|exact LE]. }
  rewrite <- app_assoc in Es'. exists a, b, (z ++ r'). split; [exact Es'|]. rewrite !P. split; [exact Ea|]. split; [exact Ey|].
  assert (Esp : sp = mkSpan (pos a) (pos (a ++ b))) by (rewrite Ea, Ey; destruct sp; reflexivity).
  assert (H3 : no_cr_head (b ++ z ++ r')). { intros t E. apply (Ncr a t); [rewrite Es', E; reflexivity|]. rewrite P. exact Ea. }
  pose proof (no_cr_last_app _ _ NL') as NLb.
  assert (X : span_extract sp s = b) by (rewrite Esp, Es'; apply extract_pos; assumption).
  assert (R : forall repl, span_replace sp s repl = a ++ repl ++ z ++ r') by (intro repl; rewrite Esp, Es'; apply replace_pos; assumption).
  split; [exact X|]. split; [exact R|]. rewrite R, X. symmetry. exact Es'.
Qed.
