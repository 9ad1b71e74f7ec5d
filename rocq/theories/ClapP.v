(** Proofs about the command line (C68). *)
From Coq Require Import String List NArith ZArith QArith Qpower Bool Arith Lia.
From Verif Require Import Text F64M SpanM PathM MutantM ShardM ShardS ShardP PackageM OptionsM PrintM WalkM MainM WholeM ClapM ClapS.
Import ListNotations.
Open Scope list_scope.
Open Scope nat_scope.

(** * Values *)
Lemma digits_iff : forall t n, digits t n <-> (forallb is_digit t = true /\ parse_digits t = n).
Proof.
  intro t. induction t as [|c t IH] using rev_ind; intro n.
  - split.
    + intro H. inversion H as [|t0 n0 c0 H0 D0 E]; [split; reflexivity|]. destruct t0; discriminate.
    + intros [_ <-]. constructor.
  - assert (E0 : parse_digits (t ++ [c]) = (parse_digits t * 10 + digit_val c)%N) by (unfold parse_digits; rewrite fold_left_app; reflexivity).
    rewrite E0, forallb_app. cbn [forallb]. rewrite andb_true_r, andb_true_iff. unfold digit_val.
    assert (D0 : is_digit c = true <-> digit c) by apply is_digit_iff. rewrite D0. split.
    + intro H. inversion H as [E|t' n' c' H' D E]; [destruct t; discriminate|]. apply app_inj_tail in E. destruct E as [-> ->].
      apply IH in H'. destruct H' as [F G]. split; [tauto|]. rewrite G. lia.
    + intros [[F D] E]. replace n with (10 * parse_digits t + (c - 48))%N by lia. constructor; [|exact D]. apply IH. split; [exact F|reflexivity].
Qed.
Lemma place_value_digits : forall t, place_value (rev t) = parse_digits t.
Proof.
  intro t. induction t as [|c t IH] using rev_ind; [reflexivity|].
  assert (E0 : parse_digits (t ++ [c]) = (parse_digits t * 10 + digit_val c)%N) by (unfold parse_digits; rewrite fold_left_app; reflexivity).
  rewrite E0, rev_app_distr. cbn [rev app place_value]. rewrite IH. unfold digit_val. rewrite N.add_comm, N.mul_comm. reflexivity.
Qed.
Lemma number_iff : forall t n, parse_usize t = Some n <-> number t n.
Proof.
  intros t n. rewrite parse_usize_iff. unfold denotes, number. split; intros (d & H1 & H2 & H3).
  - destruct H3 as (H3 & H4 & H5). exists d. repeat split; try assumption. apply digits_iff. rewrite place_value_digits in H4. split; [|exact H4].
    apply forallb_forall. intros c Hc. apply is_digit_iff. apply H3. exact Hc.
  - destruct H3 as (H3 & H4). apply digits_iff in H3. destruct H3 as [H3 H5]. exists d. repeat split; try assumption.
    + rewrite forallb_forall in H3. apply is_digit_iff. apply H3. assumption.
    + rewrite forallb_forall in H3. apply is_digit_iff. apply H3. assumption.
    + rewrite place_value_digits. exact H5.
Qed.
Lemma number_chars : forall t n c, number t n -> In c t -> (c = 43 \/ 48 <= c <= 57)%N.
Proof.
  intros t n c (d & [->| ->] & _ & D & _) I; apply digits_iff in D; destruct D as [D _]; rewrite forallb_forall in D.
  - right. apply is_digit_iff. apply D. exact I.
  - destruct I as [<-|I]; [left; reflexivity|]. right. apply is_digit_iff. apply D. exact I.
Qed.
Lemma part_iff : forall t s, shard_from_str t = Some s <-> part t s.
Proof.
  intros t [k n]. rewrite shard_from_str_iff. unfold part. cbn [sh_k sh_n]. split; intros (a & b & E & H).
  - destruct H as (_ & Ha & Hb & L). exists a, b. rewrite <- !parse_usize_iff, !number_iff in *. auto.
  - destruct H as (Ha & Hb & L). exists a, b. split; [exact E|]. split.
    + intro I. pose proof (number_chars _ _ _ Ha I) as C. unfold SLASH in C. lia.
    + rewrite <- !parse_usize_iff, !number_iff. auto.
Qed.

Definition small (c : chr) : Prop := (97 <= c <= 122)%N.
Lemma same_letter_iff : forall a b, small b -> (same_letter a b <-> lower a = b).
Proof.
  intros a b S. unfold same_letter, lower, small in *. destruct (N.leb_spec 65 a); destruct (N.leb_spec a 90); cbn [andb]; split; intro H1; try lia; try tauto.
Qed.
Lemma spelled_iff : forall t w, Forall small (tx w) -> (spelled t w <-> map lower t = tx w).
Proof.
  intros t w. unfold spelled. generalize (tx w). clear w. induction t as [|a t IH]; intros [|b w] F; cbn [map].
  - split; constructor.
  - split; intro H; inversion H.
  - split; intro H; inversion H.
  - inversion F; subst. split; intro H.
    + inversion H; subst. f_equal; [apply same_letter_iff; assumption|]. apply IH; assumption.
    + injection H as Hx Hy. constructor; [apply same_letter_iff; assumption|]. apply IH; assumption.
Qed.
Ltac small_tac := repeat (constructor; [unfold small; cbn; lia|]); constructor.

Lemma sign_iff : forall s t neg, sign s neg -> match t with c :: _ => c <> 45%N /\ c <> 43%N | [] => True end -> signed (s ++ t) = (neg, t).
Proof.
  intros s t neg S N. destruct S; cbn [app signed]; [|reflexivity|reflexivity].
  destruct t as [|c t]; [reflexivity|]. cbn [signed]. destruct N as [N1 N2]. destruct (N.eqb_spec c 45); [contradiction|].
  destruct (N.eqb_spec c 43); [contradiction|reflexivity].
Qed.
Lemma signed_sign : forall t neg r, signed t = (neg, r) -> exists s, sign s neg /\ t = s ++ r.
Proof.
  intros t neg r H. destruct t as [|c t]; cbn [signed] in H; [injection H as <- <-; exists []; split; [constructor|reflexivity]|].
  destruct (N.eqb_spec c 45) as [->|]; [injection H as <- <-; exists [45%N]; split; [constructor|reflexivity]|].
  destruct (N.eqb_spec c 43) as [->|]; injection H as <- <-; [exists [43%N]; split; [constructor|reflexivity]|exists []; split; [constructor|reflexivity]].
Qed.
Lemma digits_first : forall c t n, digits (c :: t) n -> is_digit c = true.
Proof. intros c t n H. apply digits_iff in H. destruct H as [H _]. cbn [forallb] in H. apply andb_true_iff in H. tauto. Qed.
Lemma digit_no_sign : forall c, is_digit c = true -> c <> 45%N /\ c <> 43%N.
Proof. intros c H. apply is_digit_iff in H. lia. Qed.

Lemma span_spec : forall s a b, span_digits s = (a, b) -> s = a ++ b /\ forallb is_digit a = true /\ match b with c :: _ => is_digit c = false | [] => True end.
Proof.
  induction s as [|c s IH]; intros a b H; cbn [span_digits] in H; [injection H as <- <-; repeat split|].
  destruct (is_digit c) eqn:D.
  - destruct (span_digits s) as [a' b']. destruct (IH _ _ eq_refl) as (E & F & G). injection H as <- <-. subst s. cbn [forallb]. rewrite D. repeat split; assumption.
  - injection H as <- <-. repeat split. exact D.
Qed.
Lemma span_app : forall a b, forallb is_digit a = true -> match b with c :: _ => is_digit c = false | [] => True end -> span_digits (a ++ b) = (a, b).
Proof.
  induction a as [|c a IH]; intros b F G; cbn [app].
  - destruct b as [|d b]; [reflexivity|]. cbn [span_digits]. rewrite G. reflexivity.
  - cbn [forallb] in F. apply andb_true_iff in F. destruct F as [D F]. cbn [span_digits]. rewrite D, IH by assumption. reflexivity.
Qed.

Lemma exponent_iff : forall p x, exponent p = Some x <-> power p x.
Proof.
  intros p x. split.
  - intro H. destruct p as [|c p]; cbn [exponent] in H; [injection H as <-; constructor|].
    destruct (N.eqb_spec (lower c) 101) as [L|]; [|discriminate]. destruct (signed p) as [neg d] eqn:S. apply signed_sign in S. destruct S as (s & S & ->).
    destruct d as [|e d]; [discriminate|]. destruct (forallb is_digit (e :: d)) eqn:F; [|discriminate]. injection H as <-.
    constructor; [apply same_letter_iff; [unfold small; lia|exact L]|exact S|discriminate|apply digits_iff; split; [exact F|reflexivity]].
  - intro H. destruct H as [|s neg d n c L S N D]; [reflexivity|]. cbn [exponent].
    apply same_letter_iff in L; [|unfold small; lia]. rewrite L. change (N.eqb 101 101) with true. cbn iota.
    destruct d as [|e d]; [congruence|]. rewrite (sign_iff s (e :: d) neg S) by (apply digit_no_sign; eapply digits_first; exact D).
    apply digits_iff in D. destruct D as [D <-]. rewrite D. reflexivity.
Qed.
Lemma power_first : forall c p x, power (c :: p) x -> is_digit c = false /\ c <> 46%N.
Proof.
  intros c p x H. inversion H as [|s neg d n c' L S N D]; subst. destruct L as [->|[L E]]; [split; [reflexivity|discriminate]|].
  split; [|lia]. apply not_true_is_false. intro I. apply is_digit_iff in I. lia.
Qed.
Lemma some_eq : forall A (x y : A), Some x = Some y -> x = y.
Proof. congruence. Qed.
Lemma decimal_iff : forall t q, decimal t = Some q <-> exists q', unsigned t q' /\ q = q'.
Proof.
  intros t q. unfold decimal. split.
  - intro H. destruct (span_digits t) as [i r0] eqn:E0. apply span_spec in E0. destruct E0 as (-> & Fi & Gr).
    destruct r0 as [|c r1].
    + destruct i as [|d i]; [discriminate|]. rewrite app_nil_r in H. cbn [exponent] in H. apply some_eq in H. subst q. eexists. split; [|reflexivity].
      cbn [length]. change (0 - Z.of_nat 0)%Z with 0%Z. apply un_int; [discriminate| |constructor].
      apply digits_iff. split; [exact Fi|reflexivity].
    + destruct (N.eqb_spec c DOT) as [->|ND].
      * destruct (span_digits r1) as [f e] eqn:E1. apply span_spec in E1. destruct E1 as (-> & Ff & Ge).
        destruct (i ++ f) as [|d ds] eqn:Ei; [discriminate|]. destruct (exponent e) as [x|] eqn:Ex; [|discriminate]. apply some_eq in H. subst q.
        apply exponent_iff in Ex. eexists. split; [|reflexivity]. apply (un_point i f); [rewrite Ei; discriminate| |exact Ex]. rewrite Ei. apply digits_iff.
        split; [|reflexivity]. rewrite <- Ei, forallb_app, Fi, Ff. reflexivity.
      * rewrite app_nil_r in H. destruct i as [|d i]; [discriminate|]. destruct (exponent (c :: r1)) as [x|] eqn:Ex; [|discriminate]. apply some_eq in H. subst q.
        apply exponent_iff in Ex. eexists. split; [|reflexivity]. cbn [length]. rewrite Z.sub_0_r. apply un_int; [discriminate| |exact Ex]. apply digits_iff.
        split; [exact Fi|reflexivity].
  - intros (q' & U & ->). destruct U as [i n p x N D P|i f n p x N D P].
    + apply digits_iff in D. destruct D as [D <-]. rewrite span_app; [|exact D|destruct p as [|c p]; [exact I|apply (power_first _ _ _ P)]].
      destruct p as [|c p].
      * destruct i as [|d i]; [congruence|]. rewrite app_nil_r. inversion P; subst. reflexivity.
      * destruct (power_first _ _ _ P) as [_ ND]. destruct (N.eqb_spec c DOT) as [|_]; [contradiction|]. rewrite app_nil_r.
        destruct i as [|d i]; [congruence|]. apply exponent_iff in P. rewrite P. cbn [length]. rewrite Z.sub_0_r. reflexivity.
    + apply digits_iff in D. destruct D as [D <-]. rewrite forallb_app in D. apply andb_true_iff in D. destruct D as [Di Df].
      rewrite span_app; [|exact Di|reflexivity]. change (N.eqb 46 DOT) with true. cbn iota.
      rewrite span_app; [|exact Df|destruct p as [|c p]; [exact I|apply (power_first _ _ _ P)]].
      destruct (i ++ f) as [|d ds]; [congruence|]. apply exponent_iff in P. rewrite P. reflexivity.
Qed.
Lemma decimal_no_word : forall t q, decimal t = Some q -> match t with c :: _ => is_digit c = true \/ c = 46%N | [] => False end.
Proof.
  intros t q H. apply decimal_iff in H. destruct H as (q' & U & _). destruct U as [i n p x N D P|i f n p x N D P].
  - destruct i as [|c i]; [congruence|]. left. eapply digits_first. exact D.
  - destruct i as [|c i]; [right; reflexivity|]. left. eapply digits_first. exact D.
Qed.
Lemma spelled_first : forall c t w, Forall small (tx w) -> spelled (c :: t) w -> is_digit c = false /\ c <> 46%N /\ c <> 45%N /\ c <> 43%N.
Proof.
  intros c t w F H. unfold spelled in H. destruct (tx w) as [|b u]; inversion H; subst. inversion F; subst. unfold small, same_letter in *.
  split; [|lia]. apply not_true_is_false. intro I. apply is_digit_iff in I. lia.
Qed.
Lemma spelled_sign : forall s neg t w, sign s neg -> Forall small (tx w) -> spelled t w -> signed (s ++ t) = (neg, t).
Proof. intros s neg t w S F H. apply sign_iff; [exact S|]. destruct t as [|c t]; [exact I|]. apply (spelled_first c t w F) in H. tauto. Qed.
Lemma float_iff : forall t v, f64_from_str t = Some v <-> float t v.
Proof.
  assert (Fi : Forall small (tx "inf")) by small_tac. assert (Fy : Forall small (tx "infinity")) by small_tac. assert (Fn : Forall small (tx "nan")) by small_tac.
  intros t v. unfold f64_from_str. split.
  - destruct (signed t) as [neg r0] eqn:S. apply signed_sign in S. destruct S as (s & S & ->). intro H.
    destruct (text_eqb (map lower r0) (tx "inf") || text_eqb (map lower r0) (tx "infinity")) eqn:E1.
    { injection H as <-. apply fl_inf; [exact S|]. apply orb_true_iff in E1. destruct E1 as [E|E]; apply text_eqb_eq in E; [left|right]; apply spelled_iff; assumption. }
    destruct (text_eqb (map lower r0) (tx "nan")) eqn:E2.
    { injection H as <-. apply (fl_nan s neg); [exact S|]. apply text_eqb_eq in E2. apply spelled_iff; assumption. }
    destruct (decimal r0) as [q|] eqn:D; [|discriminate]. injection H as <-. apply decimal_iff in D. destruct D as (q' & U & ->). apply fl_number; assumption.
  - intro H. destruct H as [s neg t S [Sp|Sp]|s neg t S Sp|s neg t q S U].
    + rewrite (spelled_sign s neg t _ S Fi Sp). apply spelled_iff in Sp; [|exact Fi]. rewrite Sp. reflexivity.
    + rewrite (spelled_sign s neg t _ S Fy Sp). apply spelled_iff in Sp; [|exact Fy]. rewrite Sp. reflexivity.
    + rewrite (spelled_sign s neg t _ S Fn Sp). apply spelled_iff in Sp; [|exact Fn]. rewrite Sp. reflexivity.
    + assert (D : decimal t = Some q) by (apply decimal_iff; eauto). pose proof (decimal_no_word _ _ D) as W. destruct t as [|c t]; [contradiction|].
      rewrite (sign_iff s (c :: t) neg S) by (destruct W as [W| ->]; [apply digit_no_sign; exact W|split; discriminate]).
      rewrite D.
      assert (N : forall w, Forall small (tx w) -> text_eqb (map lower (c :: t)) (tx w) = false).
      { intros w Fw. apply text_eqb_neq. intro E. apply spelled_iff in E; [|exact Fw]. apply (spelled_first c t w Fw) in E. destruct E as (E1 & E2 & _). destruct W; congruence. }
      rewrite (N _ Fi), (N _ Fy), (N _ Fn). reflexivity.
Qed.

Lemma level_iff : forall t, is_some (level_from_str t) = true <-> is_level t.
Proof.
  intro t. unfold is_level.
  assert (F1 : Forall small (tx "error")) by small_tac. assert (F2 : Forall small (tx "warn")) by small_tac. assert (F3 : Forall small (tx "info")) by small_tac.
  assert (F4 : Forall small (tx "debug")) by small_tac. assert (F5 : Forall small (tx "trace")) by small_tac.
  rewrite (spelled_iff t "error" F1), (spelled_iff t "warn" F2), (spelled_iff t "info" F3), (spelled_iff t "debug" F4), (spelled_iff t "trace" F5).
  rewrite <- !text_eqb_eq. unfold level_from_str. cbv zeta.
  set (w := if text_eqb (map lower t) (tx "error") then Some LError else _).
  assert (W : is_some w = true <-> text_eqb (map lower t) (tx "error") = true \/ text_eqb (map lower t) (tx "warn") = true \/ text_eqb (map lower t) (tx "info") = true
     \/ text_eqb (map lower t) (tx "debug") = true \/ text_eqb (map lower t) (tx "trace") = true).
  { unfold w. destruct (text_eqb (map lower t) (tx "error")); [cbn; tauto|]. destruct (text_eqb (map lower t) (tx "warn")); [cbn; tauto|].
    destruct (text_eqb (map lower t) (tx "info")); [cbn; tauto|]. destruct (text_eqb (map lower t) (tx "debug")); [cbn; tauto|].
    destruct (text_eqb (map lower t) (tx "trace")); cbn; intuition discriminate. }
  clearbody w. destruct (parse_usize t) as [n|] eqn:P.
  - assert (Q : (exists n0, number t n0 /\ (1 <= n0 <= 5)%N) <-> (1 <= n <= 5)%N).
    { split; [intros (n0 & H & L); apply number_iff in H; rewrite P in H; injection H as <-; exact L|]. intro L. exists n. split; [apply number_iff; exact P|exact L]. }
    rewrite Q, <- W. clear Q W P. destruct n as [|p]; [split; [tauto|intros [H|H]; [lia|exact H]]|].
    destruct p as [[[p|p|]|[p|p|]|]|[[p|p|]|[p|p|]|]|]; cbn [is_some];
      try (split; [intros _; left; lia|reflexivity]); (split; [intro H; right; exact H|intros [H|H]; [lia|exact H]]).
  - rewrite W. split; [tauto|]. intros [(n & H & _)|H]; [|exact H]. apply number_iff in H. congruence.
Qed.

(** * The table *)
Definition usage_of (t : takes) : usage := match t with TFlag => Switch | TOne => Single | TMany => Repeated end.
Definition words_of (o : opt) : list text :=
  map (fun l => 45%N :: 45%N :: l) (oo_longs o) ++ match oo_short o with Some c => [[45%N; c]] | None => [] end.
Definition fits (o : opt) (w : row) : Prop :=
  oo_id o = ro_name w /\ usage_of (oo_takes o) = ro_usage w /\ words_of o = ro_words w /\ oo_hyphen o = ro_free w
  /\ (forall v, accepts (oo_type o) v = true <-> ro_valid w v) /\ (oo_takes o = TFlag -> oo_type o = VAny).

Lemma accepts_any : forall v, accepts VAny v = true <-> any v.
Proof. intro v. cbn. unfold any. tauto. Qed.
Lemma accepts_bool : forall v, accepts VBool v = true <-> yes_or_no v.
Proof. intro v. unfold accepts. rewrite mem_text_in. unfold yes_or_no. cbn [In]. intuition. Qed.
Lemma accepts_one : forall l v, accepts (VOneOf l) v = true <-> one_of l v.
Proof. intros l v. unfold accepts. apply mem_text_in. Qed.
Lemma is_some_iff : forall A (o : option A), is_some o = true <-> exists x, o = Some x.
Proof. intros A [x|]; cbn; split; intro H; try discriminate; eauto. destruct H; discriminate. Qed.
Lemma accepts_usize : forall v, accepts VUsize v = true <-> is_number v.
Proof. intro v. unfold accepts, is_number. rewrite is_some_iff. split; intros [n H]; exists n; apply number_iff; exact H. Qed.
Lemma accepts_float : forall v, accepts VFloat v = true <-> is_float v.
Proof. intro v. unfold accepts, is_float. rewrite is_some_iff. split; intros [n H]; exists n; apply float_iff; exact H. Qed.
Lemma accepts_shard : forall v, accepts VShard v = true <-> is_part v.
Proof. intro v. unfold accepts, is_part. rewrite is_some_iff. split; intros [n H]; exists n; apply part_iff; exact H. Qed.
Lemma accepts_level : forall v, accepts VLevel v = true <-> is_level v.
Proof. intro v. apply level_iff. Qed.

Lemma table_fits : Forall2 fits table rows.
Proof.
  unfold table, rows.
  repeat (constructor; [split; [reflexivity|split; [reflexivity|split; [reflexivity|split; [reflexivity|split;
    [first [exact accepts_any|exact accepts_bool|exact accepts_usize|exact accepts_float|exact accepts_shard|exact accepts_level|exact (accepts_one _)]
    |first [reflexivity|intro X; discriminate X]]]]]]|]).
  constructor.
Qed.

Lemma forall2_in_l : forall A B (R : A -> B -> Prop) l k a, Forall2 R l k -> In a l -> exists b, In b k /\ R a b.
Proof. intros A B R l k a F. induction F as [|x y l k Hxy F IH]; intros [].
  - subst. exists y. split; [left; reflexivity|exact Hxy].
  - destruct (IH H) as (b & I & Rb). exists b. split; [right; exact I|exact Rb].
Qed.
Lemma forall2_in_r : forall A B (R : A -> B -> Prop) l k b, Forall2 R l k -> In b k -> exists a, In a l /\ R a b.
Proof. intros A B R l k b F. induction F as [|x y l k Hxy F IH]; intros [].
  - subst. exists x. split; [left; reflexivity|exact Hxy].
  - destruct (IH H) as (a & I & Ra). exists a. split; [right; exact I|exact Ra].
Qed.
Lemma row_of : forall o, In o table -> exists w, In w rows /\ fits o w.
Proof. intros o H. eapply forall2_in_l; [exact table_fits|exact H]. Qed.
Lemma opt_of : forall w, In w rows -> exists o, In o table /\ fits o w.
Proof. intros w H. eapply forall2_in_r; [exact table_fits|exact H]. Qed.

Fixpoint distinct (l : list text) : bool := match l with [] => true | x :: l' => negb (mem_text x l') && distinct l' end.
Lemma distinct_nodup : forall l, distinct l = true -> NoDup l.
Proof.
  induction l as [|x l IH]; cbn [distinct]; intro H; [constructor|]. apply andb_true_iff in H. destruct H as [H1 H2].
  constructor; [|apply IH; exact H2]. apply negb_true_iff in H1. apply mem_text_false. exact H1.
Qed.
Lemma names_nodup : NoDup (map ro_name rows).
Proof. apply distinct_nodup. vm_compute. reflexivity. Qed.
Lemma nodup_map_inj : forall A B (f : A -> B) l x y, NoDup (map f l) -> In x l -> In y l -> f x = f y -> x = y.
Proof.
  intros A B f l x y. induction l as [|a l IH]; cbn [map]; intros N Hx Hy E; [destruct Hx|]. inversion N; subst.
  destruct Hx as [->|Hx], Hy as [->|Hy]; [reflexivity| | |apply IH; assumption].
  - exfalso. apply H1. rewrite E. apply in_map. exact Hy.
  - exfalso. apply H1. rewrite <- E. apply in_map. exact Hx.
Qed.
Lemma row_same : forall w w', In w rows -> In w' rows -> ro_name w = ro_name w' -> w = w'.
Proof. intros w w' H H' E. eapply nodup_map_inj; [exact names_nodup|exact H|exact H'|exact E]. Qed.

Lemma longs_found : Forall (fun o => Forall (fun l => find_long l = Some o) (oo_longs o)) table.
Proof. unfold table. repeat (constructor; [repeat (constructor; [vm_compute; reflexivity|]); constructor|]). constructor. Qed.
Lemma shorts_found : Forall (fun o => match oo_short o with Some c => find_short c = Some o | None => True end) table.
Proof. unfold table. repeat (constructor; [vm_compute; first [reflexivity|exact I]|]). constructor. Qed.
Lemma longs_plain : forallb (fun o => forallb (fun l => negb (existsb (N.eqb 61) l) && negb (text_eqb l (tx "help"))
    && match l with [] => false | _ => true end) (oo_longs o)) table = true.
Proof. vm_compute. reflexivity. Qed.
Lemma shorts_plain : find_short 104%N = None /\ find_short 45%N = None /\ find_short 61%N = None.
Proof. vm_compute. repeat split. Qed.

Lemma long_found : forall o l, In o table -> In l (oo_longs o) -> find_long l = Some o /\ ~ In 61%N l /\ l <> tx "help" /\ l <> [].
Proof.
  intros o l Ho Hl. split.
  - pose proof longs_found as F. rewrite Forall_forall in F. specialize (F o Ho). rewrite Forall_forall in F. exact (F l Hl).
  - pose proof longs_plain as F. rewrite forallb_forall in F. specialize (F o Ho). rewrite forallb_forall in F. specialize (F l Hl).
    apply andb_true_iff in F. destruct F as [F F3]. apply andb_true_iff in F. destruct F as [F1 F2]. split; [|split].
    + intro I. apply negb_true_iff in F1. assert (existsb (N.eqb 61) l = true) by (apply existsb_exists; exists 61%N; split; [exact I|reflexivity]). congruence.
    + apply negb_true_iff in F2. apply text_eqb_neq in F2. exact F2.
    + intros ->. discriminate.
Qed.
Lemma short_found : forall o c, In o table -> oo_short o = Some c -> find_short c = Some o.
Proof. intros o c Ho E. pose proof shorts_found as F. rewrite Forall_forall in F. specialize (F o Ho). rewrite E in F. exact F. Qed.
Lemma find_long_in : forall l o, find_long l = Some o -> In o table /\ In l (oo_longs o).
Proof. intros l o H. apply find_some in H. destruct H as [H M]. apply mem_text_in in M. split; assumption. Qed.
Lemma find_short_in : forall c o, find_short c = Some o -> In o table /\ oo_short o = Some c.
Proof. intros c o H. apply find_some in H. destruct H as [H M]. split; [exact H|]. destruct (oo_short o); [|discriminate]. apply N.eqb_eq in M. subst. reflexivity. Qed.
(** A word of an option, seen by the parser. *)
Lemma word_cases : forall o w, In o table -> In w (words_of o) ->
  (exists l, w = 45%N :: 45%N :: l /\ In l (oo_longs o)) \/ (exists c, w = [45%N; c] /\ oo_short o = Some c /\ c <> 45%N /\ c <> 104%N).
Proof.
  intros o w Ho Hw. unfold words_of in Hw. apply in_app_or in Hw. destruct Hw as [Hw|Hw].
  - left. apply in_map_iff in Hw. destruct Hw as (l & <- & Hl). exists l. split; [reflexivity|exact Hl].
  - right. destruct (oo_short o) as [c|] eqn:E; [|destruct Hw]. destruct Hw as [<-|[]]. exists c. split; [reflexivity|]. split; [reflexivity|].
    pose proof (short_found o c Ho E) as F. destruct shorts_plain as (P1 & P2 & _). split; intros ->; congruence.
Qed.

(** * What was found so far *)
Definition enc (u : use) : text * text := (fst u, match snd u with Some v => v | None => tx "true" end).
Lemma present_iff : forall us id, present (map enc us) id = true <-> used us id.
Proof.
  intros us id. unfold present, used. rewrite existsb_exists. split.
  - intros (x & Hx & E). apply in_map_iff in Hx. destruct Hx as (u & <- & Hu). apply text_eqb_eq in E. cbn [enc fst] in E. subst id. apply in_map. exact Hu.
  - intro H. apply in_map_iff in H. destruct H as (u & <- & Hu). exists (enc u). split; [apply in_map; exact Hu|]. apply text_eqb_refl.
Qed.
Lemma unused_iff : forall us id, uses_of id us = [] <-> ~ used us id.
Proof.
  intros us id. unfold uses_of, used. induction us as [|u us IH]; cbn [filter map]; [split; [intros _ []|reflexivity]|].
  destruct (text_eqb (fst u) id) eqn:E.
  - split; [discriminate|]. intro H. exfalso. apply H. left. apply text_eqb_eq. exact E.
  - rewrite IH. apply text_eqb_neq in E. split; intros H; [intros [I|I]; [congruence|contradiction]|]. intro I. apply H. right. exact I.
Qed.
Lemma uses_app : forall id a b, uses_of id (a ++ b) = uses_of id a ++ uses_of id b.
Proof. intros id a b. unfold uses_of. apply filter_app. Qed.
Lemma used_app : forall a b id, used (a ++ b) id <-> used a id \/ used b id.
Proof. intros a b id. unfold used. rewrite map_app. apply in_app_iff. Qed.

Lemma valid_some : forall w v, In w rows -> (valid_use (ro_name w, Some v) <-> ro_valid w v).
Proof.
  intros w v Hw. unfold valid_use. cbn [fst snd]. split.
  - intro H. apply (H w v Hw); reflexivity.
  - intros H o v' Ho E V. injection V as <-. rewrite <- (row_same w o Hw Ho E). exact H.
Qed.
Lemma valid_none : forall n, valid_use (n, None).
Proof. intros n o v _ _ H. discriminate. Qed.

Lemma right_app_l : forall a b, right (a ++ b) -> right a.
Proof.
  intros a b [F H]. split; [apply Forall_app in F; tauto|]. intros o Ho U. specialize (H o Ho U). rewrite uses_app, app_length in H. lia.
Qed.
Lemma right_snoc : forall us w ov, In w rows -> (right (us ++ [(ro_name w, ov)]) <->
  right us /\ valid_use (ro_name w, ov) /\ (ro_usage w <> Repeated -> ~ used us (ro_name w))).
Proof.
  intros us w ov Hw. split.
  - intro H. split; [eapply right_app_l; exact H|]. destruct H as [F H]. split; [apply Forall_app in F; destruct F as [_ F]; inversion F; assumption|].
    intro U. specialize (H w Hw U). rewrite uses_app, app_length in H. unfold uses_of at 2 in H. cbn [filter fst] in H. rewrite text_eqb_refl in H. cbn [length] in H.
    apply unused_iff. destruct (uses_of (ro_name w) us); [reflexivity|cbn [length] in H; lia].
  - intros ([F H] & V & U). split; [apply Forall_app; split; [exact F|constructor; [exact V|constructor]]|].
    intros o Ho Uo. rewrite uses_app, app_length. unfold uses_of at 2. cbn [filter fst]. destruct (text_eqb (ro_name w) (ro_name o)) eqn:E.
    + apply text_eqb_eq in E. rewrite <- (row_same w o Hw Ho E) in *. specialize (U Uo). apply unused_iff in U. rewrite U. cbn. lia.
    + cbn [length]. specialize (H o Ho Uo). lia.
Qed.
Lemma right_nil : right [].
Proof. split; [constructor|]. intros. cbn. lia. Qed.

Lemma react_spec : forall o w us v ov, In w rows -> fits o w -> right us ->
  (ov = Some v \/ (ov = None /\ oo_takes o = TFlag /\ v = tx "true")) ->
  react (map enc us) o v = SGo (map enc (us ++ [(ro_name w, ov)])) None /\ right (us ++ [(ro_name w, ov)])
  \/ react (map enc us) o v = SErr /\ ~ right (us ++ [(ro_name w, ov)]).
Proof.
  intros o w us v ov Hw (Fi & Fu & Fw & Fh & Fv & Fy) R C. unfold react. rewrite Fi.
  assert (V : accepts (oo_type o) v = true <-> valid_use (ro_name w, ov)).
  { destruct C as [->|(-> & Tk & ->)]; [rewrite (valid_some w v Hw); apply Fv|]. rewrite (Fy Tk). split; [intros _; apply valid_none|reflexivity]. }
  assert (O : match oo_takes o with TMany => true | _ => negb (present (map enc us) (ro_name w)) end = true <-> (ro_usage w <> Repeated -> ~ used us (ro_name w))).
  { rewrite <- Fu. assert (B : negb (present (map enc us) (ro_name w)) = true <-> ~ used us (ro_name w)).
    { rewrite negb_true_iff, <- present_iff. destruct (present (map enc us) (ro_name w)); intuition discriminate. }
    destruct (oo_takes o); cbn [usage_of]; rewrite ?B; split; intros H; try tauto; try (intros K; congruence); apply H; discriminate. }
  assert (E : enc (ro_name w, ov) = (ro_name w, v)) by (destruct C as [->|(-> & _ & ->)]; reflexivity).
  destruct (accepts (oo_type o) v && _) eqn:A.
  - left. split; [rewrite map_app; cbn [map]; rewrite E; reflexivity|]. apply andb_true_iff in A. destruct A as [A1 A2]. apply right_snoc; [exact Hw|]. tauto.
  - right. split; [reflexivity|]. intro K. apply right_snoc in K; [|exact Hw]. destruct K as (_ & K1 & K2). apply V in K1. apply O in K2.
    rewrite K1, K2 in A. discriminate.
Qed.

(** * Reading *)
Lemma plain_iff : forall v, dashed v = false <-> plain v.
Proof.
  intro v. unfold plain. destruct v as [|c [|d v]]; cbn [dashed].
  - split; [intros _; right; discriminate|reflexivity].
  - split; [|reflexivity]. intros _. destruct (N.eq_dec c 45) as [->|N]; [left; reflexivity|right; intros u E; congruence].
  - destruct (N.eqb_spec c 45) as [->|N].
    + split; [discriminate|]. intros [H|H]; [discriminate|]. exfalso. exact (H _ eq_refl).
    + split; [|reflexivity]. intros _. right. intros u E. congruence.
Qed.
Lemma scan_go : forall m ts t st m' p', text_eqb t (tx "--") = false ->
  (if starts_with (tx "--") t then long_arg m (skipn 2 t) else if dashed t then short_args m (skipn 1 t) else SErr) = st ->
  st = SGo m' p' -> scan m None (t :: ts) = scan m' p' ts.
Proof. intros m ts t st m' p' E H S. cbn [scan]. rewrite E, H, S. reflexivity. Qed.

Lemma scan_long : forall m l ts, l <> [] ->
  scan m None ((45%N :: 45%N :: l) :: ts) = match long_arg m l with SErr => XErr | SHelp => XHelp | SGo m' p' => scan m' p' ts end.
Proof.
  intros m l ts N. cbn [scan]. replace (text_eqb (45%N :: 45%N :: l) (tx "--")) with false; [reflexivity|].
  symmetry. apply text_eqb_neq. destruct l; [congruence|discriminate].
Qed.
Lemma scan_short : forall m c s ts, c <> 45%N ->
  scan m None ((45%N :: c :: s) :: ts) = match short_args m (c :: s) with SErr => XErr | SHelp => XHelp | SGo m' p' => scan m' p' ts end.
Proof.
  intros m c s ts N. cbn [scan]. replace (text_eqb (45%N :: c :: s) (tx "--")) with false.
  - replace (starts_with (tx "--") (45%N :: c :: s)) with false; [reflexivity|]. symmetry. change (tx "--") with [45%N; 45%N]. cbn [starts_with].
    destruct (N.eqb_spec 45 c); [congruence|]. reflexivity.
  - symmetry. apply text_eqb_neq. intro E. injection E as E _. congruence.
Qed.
Lemma split_eq : forall (l v : text), ~ In 61%N l -> split_once 61%N (l ++ 61%N :: v) = Some (l, v).
Proof. intros l v H. apply split_once_some. split; [reflexivity|exact H]. Qed.
Lemma long_bare : forall o l m, In o table -> In l (oo_longs o) ->
  long_arg m l = match oo_takes o with TFlag => react m o (tx "true") | _ => SGo m (Some o) end.
Proof.
  intros o l m Ho Hl. destruct (long_found o l Ho Hl) as (F & N & H & _). unfold long_arg.
  assert (S : split_once 61%N l = None) by (apply split_once_none; exact N). rewrite S.
  destruct (text_eqb l (tx "help")) eqn:E; [apply text_eqb_eq in E; contradiction|]. rewrite F. destruct (oo_takes o); reflexivity.
Qed.
Lemma long_equals : forall o l (v : text) m, In o table -> In l (oo_longs o) ->
  long_arg m (l ++ 61%N :: v) = match oo_takes o with TFlag => SErr | _ => react m o v end.
Proof.
  intros o l v m Ho Hl. destruct (long_found o l Ho Hl) as (F & N & H & _). unfold long_arg. rewrite (split_eq l v N).
  destruct (text_eqb l (tx "help")) eqn:E; [apply text_eqb_eq in E; contradiction|]. rewrite F. destruct (oo_takes o); reflexivity.
Qed.
Lemma short_step : forall o c s m, In o table -> oo_short o = Some c -> c <> 104%N ->
  short_args m (c :: s) = match oo_takes o with
    | TFlag => match react m o (tx "true") with SGo m' _ => short_args m' s | x => x end
    | _ => match s with [] => SGo m (Some o) | d :: v => react m o (if N.eqb d 61 then v else s) end end.
Proof.
  intros o c s m Ho Hs N. cbn [short_args]. destruct (N.eqb_spec c 104); [contradiction|]. rewrite (short_found o c Ho Hs). reflexivity.
Qed.
Lemma scan_value : forall o m v ts, oo_hyphen o = true \/ plain v ->
  scan m (Some o) (v :: ts) = match react m o v with SErr => XErr | SHelp => XHelp | SGo m' p' => scan m' p' ts end.
Proof.
  intros o m v ts H. cbn [scan]. replace (oo_hyphen o || negb (dashed v)) with true; [reflexivity|]. symmetry. apply orb_true_iff.
  destruct H as [H|H]; [left; exact H|right]. apply plain_iff in H. rewrite H. reflexivity.
Qed.
Lemma flag_iff : forall o w, fits o w -> (ro_usage w = Switch <-> oo_takes o = TFlag).
Proof. intros o w (_ & F & _). rewrite <- F. destruct (oo_takes o); cbn; split; intro H; congruence. Qed.

Lemma cons_snoc : forall A (a : list A) x b, a ++ x :: b = (a ++ [x]) ++ b.
Proof. intros. rewrite <- app_assoc. reflexivity. Qed.

Ltac to_snoc R :=
  match type of R with right (?a ++ ?x :: ?b) => 
    let Q := fresh "Q" in assert (Q : forall P : list use -> Prop, P ((a ++ [x]) ++ b) -> P (a ++ x :: b)) by (let P0 := fresh in intros P0; rewrite <- app_assoc; exact (fun h => h));
    assert (R' : right ((a ++ [x]) ++ b)) by (rewrite <- app_assoc; exact R); clear R; rename R' into R; pattern (a ++ x :: b); apply Q; clear Q; cbv beta end.
(** Words that mean something are read as that. *)
Lemma read_complete : forall fin ts us rest, reads fin ts us rest -> forall us0, right (us0 ++ us) ->
  exists ts', fin ts' rest /\ scan (map enc us0) None ts = scan (map enc (us0 ++ us)) None ts'.
Proof.
  intros fin ts us rest H.
  induction H as [ts rest F|o w ts us rest Ho Uo Hw H IH|o w v ts us rest Ho Uo Hw P H IH|o w v ts us rest Ho Uo Hw H IH
                 |o w c v ts us rest Ho Uo Hw Sh Nc H IH|o w c s ts us rest Ho Uo Hw Sh Nc H IH]; intros us0 R.
  - exists ts. split; [exact F|]. rewrite app_nil_r. reflexivity.
  - to_snoc R. destruct (IH _ R) as (ts' & F & E). exists ts'. split; [exact F|]. rewrite <- E.
    destruct (opt_of o Ho) as (p & Hp & Fp). pose proof (proj1 (flag_iff p o Fp) Uo) as Tk. pose proof (right_app_l _ _ R) as R1.
    pose proof (right_app_l _ _ R1) as R0.
    assert (Re : react (map enc us0) p (tx "true") = SGo (map enc (us0 ++ [(ro_name o, None)])) None).
    { destruct (react_spec p o us0 (tx "true") None Ho Fp R0) as [[K _]|[_ K]]; [right; auto|exact K|contradiction]. }
    assert (Hw' : In w (words_of p)) by (destruct Fp as (_ & _ & -> & _); exact Hw).
    destruct (word_cases p w Hp Hw') as [(l & -> & Hl)|(c & -> & Hc & N1 & N2)].
    + rewrite scan_long by (apply (long_found p l Hp Hl)). rewrite (long_bare p l _ Hp Hl), Tk, Re. reflexivity.
    + rewrite scan_short by exact N1. rewrite (short_step p c [] _ Hp Hc N2), Tk, Re. reflexivity.
  - to_snoc R. destruct (IH _ R) as (ts' & F & E). exists ts'. split; [exact F|]. rewrite <- E.
    destruct (opt_of o Ho) as (p & Hp & Fp). pose proof (right_app_l _ _ R) as R1. pose proof (right_app_l _ _ R1) as R0.
    assert (Tk : oo_takes p <> TFlag) by (intro K; apply Uo; apply (flag_iff p o Fp); exact K).
    assert (Re : react (map enc us0) p v = SGo (map enc (us0 ++ [(ro_name o, Some v)])) None).
    { destruct (react_spec p o us0 v (Some v) Ho Fp R0) as [[K _]|[_ K]]; [left; auto|exact K|contradiction]. }
    assert (Hw' : In w (words_of p)) by (destruct Fp as (_ & _ & -> & _); exact Hw).
    assert (P' : oo_hyphen p = true \/ plain v) by (destruct Fp as (_ & _ & _ & -> & _); exact P).
    destruct (word_cases p w Hp Hw') as [(l & -> & Hl)|(c & -> & Hc & N1 & N2)].
    + rewrite scan_long by (apply (long_found p l Hp Hl)). rewrite (long_bare p l _ Hp Hl).
      destruct (oo_takes p); [contradiction| |]; rewrite scan_value by exact P'; rewrite Re; reflexivity.
    + rewrite scan_short by exact N1. rewrite (short_step p c [] _ Hp Hc N2).
      destruct (oo_takes p); [contradiction| |]; rewrite scan_value by exact P'; rewrite Re; reflexivity.
  - to_snoc R. destruct (IH _ R) as (ts' & F & E). exists ts'. split; [exact F|]. rewrite <- E.
    destruct (opt_of o Ho) as (p & Hp & Fp). pose proof (right_app_l _ _ R) as R1. pose proof (right_app_l _ _ R1) as R0.
    assert (Tk : oo_takes p <> TFlag) by (intro K; apply Uo; apply (flag_iff p o Fp); exact K).
    assert (Re : react (map enc us0) p v = SGo (map enc (us0 ++ [(ro_name o, Some v)])) None).
    { destruct (react_spec p o us0 v (Some v) Ho Fp R0) as [[K _]|[_ K]]; [left; auto|exact K|contradiction]. }
    assert (Hw' : In w (words_of p)) by (destruct Fp as (_ & _ & -> & _); exact Hw).
    destruct (word_cases p w Hp Hw') as [(l & -> & Hl)|(c & -> & Hc & N1 & N2)].
    + cbn [app]. rewrite scan_long by (destruct l; discriminate). rewrite (long_equals p l _ _ Hp Hl).
      destruct (oo_takes p); [contradiction| |]; rewrite Re; reflexivity.
    + cbn [app]. rewrite scan_short by exact N1. rewrite (short_step p c _ _ Hp Hc N2). change (N.eqb 61 61) with true. cbn iota.
      destruct (oo_takes p); [contradiction| |]; rewrite Re; reflexivity.
  - to_snoc R. destruct (IH _ R) as (ts' & F & E). exists ts'. split; [exact F|]. rewrite <- E.
    destruct (opt_of o Ho) as (p & Hp & Fp). pose proof (right_app_l _ _ R) as R1. pose proof (right_app_l _ _ R1) as R0.
    assert (Tk : oo_takes p <> TFlag) by (intro K; apply Uo; apply (flag_iff p o Fp); exact K).
    assert (Re : react (map enc us0) p (c :: v) = SGo (map enc (us0 ++ [(ro_name o, Some (c :: v))])) None).
    { destruct (react_spec p o us0 (c :: v) (Some (c :: v)) Ho Fp R0) as [[K _]|[_ K]]; [left; auto|exact K|contradiction]. }
    assert (Hw' : In w (words_of p)) by (destruct Fp as (_ & _ & -> & _); exact Hw).
    destruct (word_cases p w Hp Hw') as [(l & -> & Hl)|(d & -> & Hc & N1 & N2)].
    + destruct Sh as (x & X). destruct (long_found p l Hp Hl) as (_ & _ & _ & NE). destruct l as [|y l]; [exfalso; apply NE; reflexivity|discriminate X].
    + cbn [app]. rewrite scan_short by exact N1. rewrite (short_step p d _ _ Hp Hc N2). destruct (N.eqb_spec c 61); [contradiction|].
      destruct (oo_takes p); [contradiction| |]; rewrite Re; reflexivity.
  - to_snoc R. destruct (IH _ R) as (ts' & F & E). exists ts'. split; [exact F|]. rewrite <- E.
    destruct (opt_of o Ho) as (p & Hp & Fp). pose proof (proj1 (flag_iff p o Fp) Uo) as Tk. pose proof (right_app_l _ _ R) as R1.
    pose proof (right_app_l _ _ R1) as R0.
    assert (Re : react (map enc us0) p (tx "true") = SGo (map enc (us0 ++ [(ro_name o, None)])) None).
    { destruct (react_spec p o us0 (tx "true") None Ho Fp R0) as [[K _]|[_ K]]; [right; auto|exact K|contradiction]. }
    assert (Hw' : In w (words_of p)) by (destruct Fp as (_ & _ & -> & _); exact Hw).
    destruct (word_cases p w Hp Hw') as [(l & -> & Hl)|(d & -> & Hc & N1 & N2)].
    + destruct Sh as (x & X). destruct (long_found p l Hp Hl) as (_ & _ & _ & NE). destruct l as [|y l]; [exfalso; apply NE; reflexivity|discriminate X].
    + cbn [app]. rewrite scan_short by exact N1. rewrite (short_step p d _ _ Hp Hc N2), Tk, Re. rewrite scan_short by exact Nc. reflexivity.
Qed.

(** And words that are read mean what was read. *)
Definition step_means (us0 : list use) (t : text) (st : step) : Prop :=
  match st with
  | SErr => True
  | SHelp => exists us, right (us0 ++ us) /\ forall ts, reads at_help (t :: ts) us []
  | SGo m None => exists us, m = map enc (us0 ++ us) /\ right (us0 ++ us)
      /\ forall fin ts us' rest, reads fin ts us' rest -> reads fin (t :: ts) (us ++ us') rest
  | SGo m (Some o) => exists us w, m = map enc (us0 ++ us) /\ right (us0 ++ us) /\ In o table /\ In w rows /\ fits o w
      /\ forall fin v ts us' rest, ro_free w = true \/ plain v -> reads fin ts us' rest -> reads fin (t :: v :: ts) (us ++ (ro_name w, Some v) :: us') rest
  end.
Lemma react_means : forall us0 o w v ov t, In w rows -> fits o w -> right us0 ->
  (ov = Some v \/ (ov = None /\ oo_takes o = TFlag /\ v = tx "true")) ->
  (forall fin ts us' rest, reads fin ts us' rest -> reads fin (t :: ts) ((ro_name w, ov) :: us') rest) ->
  step_means us0 t (react (map enc us0) o v).
Proof.
  intros us0 o w v ov t Hw Fp R C H. destruct (react_spec o w us0 v ov Hw Fp R C) as [[E K]|[E K]]; rewrite E; [|exact I].
  cbn [step_means]. exists [(ro_name w, ov)]. split; [reflexivity|]. split; [exact K|exact H].
Qed.
Lemma long_means : forall us0 s, right us0 -> s <> [] -> step_means us0 (45%N :: 45%N :: s) (long_arg (map enc us0) s).
Proof.
  intros us0 s R NE. unfold long_arg. destruct (split_once 61%N s) as [[n v]|] eqn:S.
  - apply split_once_some in S. destruct S as [-> N]. destruct (text_eqb n (tx "help")); [exact I|]. destruct (find_long n) as [o|] eqn:F; [|exact I].
    destruct (find_long_in n o F) as [Ho Hn]. destruct (row_of o Ho) as (w & Hw & Fp).
    assert (In (45%N :: 45%N :: n) (ro_words w)).
    { destruct Fp as (_ & _ & <- & _). unfold words_of. apply in_or_app. left. apply (in_map (fun l => 45%N :: 45%N :: l)). exact Hn. }
    destruct (oo_takes o) eqn:Tk; [exact I| |]; (eapply react_means; [exact Hw|exact Fp|exact R|left; reflexivity|]; intros fin ts us' rest K;
      apply (rd_equals fin w (45%N :: 45%N :: n) v); [exact Hw|intro X; apply (flag_iff o w Fp) in X; congruence|assumption|exact K]).
  - destruct (text_eqb s (tx "help")) eqn:Eh.
    + apply text_eqb_eq in Eh. subst s. cbn [step_means]. exists []. split; [rewrite app_nil_r; exact R|]. intro ts. apply rd_end. split; [reflexivity|]. exists ts. left. reflexivity.
    + destruct (find_long s) as [o|] eqn:F; [|exact I]. destruct (find_long_in s o F) as [Ho Hn]. destruct (row_of o Ho) as (w & Hw & Fp).
      assert (In (45%N :: 45%N :: s) (ro_words w)).
      { destruct Fp as (_ & _ & <- & _). unfold words_of. apply in_or_app. left. apply (in_map (fun l => 45%N :: 45%N :: l)). exact Hn. }
      destruct (oo_takes o) eqn:Tk.
      * eapply react_means; [exact Hw|exact Fp|exact R|right; auto|]. intros fin ts us' rest K. apply rd_switch; try assumption. apply (flag_iff o w Fp). exact Tk.
      * cbn [step_means]. exists [], w. rewrite app_nil_r. repeat split; try apply R; try assumption; try (apply Fp). intros fin v ts us' rest P K.
        apply rd_value; try assumption. intro X. apply (flag_iff o w Fp) in X. congruence.
      * cbn [step_means]. exists [], w. rewrite app_nil_r. repeat split; try apply R; try assumption; try (apply Fp). intros fin v ts us' rest P K.
        apply rd_value; try assumption. intro X. apply (flag_iff o w Fp) in X. congruence.
Qed.
Lemma step_more : forall us0 u t t' st, step_means (us0 ++ [u]) t' st ->
  (forall fin ts us' rest, reads fin (t' :: ts) us' rest -> reads fin (t :: ts) (u :: us') rest) -> step_means us0 t st.
Proof.
  intros us0 u t t' st H T. destruct st as [| |m [o|]]; cbn [step_means] in *.
  - exact I.
  - destruct H as (us & R & H). exists (u :: us). rewrite cons_snoc. split; [exact R|]. intro ts. apply T. apply H.
  - destruct H as (us & w & E & R & Ho & Hw & Fp & H). exists (u :: us), w. rewrite cons_snoc. repeat split; try assumption; try (apply R); try (apply Fp).
    intros fin v ts us' rest P K. cbn [app]. apply T. apply H; assumption.
  - destruct H as (us & E & R & H). exists (u :: us). rewrite cons_snoc. repeat split; try assumption; try (apply R).
    intros fin ts us' rest K. cbn [app]. apply T. apply H. exact K.
Qed.
Lemma short_means : forall s us0, right us0 -> s <> [] -> step_means us0 (45%N :: s) (short_args (map enc us0) s).
Proof.
  induction s as [|c s IH]; intros us0 R NE; [congruence|]. cbn [short_args]. destruct (N.eqb_spec c 104) as [->|N].
  - cbn [step_means]. exists []. rewrite app_nil_r. split; [exact R|]. intro ts. apply rd_end. split; [reflexivity|]. exists ts. right. exists s. reflexivity.
  - destruct (find_short c) as [o|] eqn:F; [|exact I]. destruct (find_short_in c o F) as [Ho Hc]. destruct (row_of o Ho) as (w & Hw & Fp).
    assert (Iw : In [45%N; c] (ro_words w)).
    { destruct Fp as (_ & _ & <- & _). unfold words_of. rewrite Hc. apply in_or_app. right. left. reflexivity. }
    destruct (oo_takes o) eqn:Tk.
    + destruct (react_spec o w us0 (tx "true") None Hw Fp R) as [[E K]|[E K]]; [right; auto| |rewrite E; exact I]. rewrite E.
      destruct s as [|d s].
      * cbn [short_args step_means]. exists [(ro_name w, None)]. split; [reflexivity|]. split; [exact K|]. intros fin ts us' rest X. cbn [app].
        apply rd_switch; try assumption. apply (flag_iff o w Fp). exact Tk.
      * destruct (N.eq_dec d 45) as [->|Nd].
        { cbn [short_args]. change (N.eqb 45 104) with false. cbn iota. destruct shorts_plain as (_ & -> & _). exact I. }
        eapply step_more; [apply IH; [exact K|discriminate]|]. intros fin ts us' rest X. apply (rd_together fin w [45%N; c] d s); try assumption.
        { apply (flag_iff o w Fp). exact Tk. } exists c. reflexivity.
    + destruct s as [|d s].
      * cbn [step_means]. exists [], w. rewrite app_nil_r. repeat split; try apply R; try assumption; try (apply Fp). intros fin v ts us' rest P K.
        apply rd_value; try assumption. intro X. apply (flag_iff o w Fp) in X. congruence.
      * destruct (N.eqb_spec d 61) as [->|Nd].
        -- eapply react_means; [exact Hw|exact Fp|exact R|left; reflexivity|]. intros fin ts us' rest K. apply (rd_equals fin w [45%N; c] s); try assumption.
           intro X. apply (flag_iff o w Fp) in X. congruence.
        -- eapply react_means; [exact Hw|exact Fp|exact R|left; reflexivity|]. intros fin ts us' rest K. apply (rd_attached fin w [45%N; c] d s); try assumption.
           { intro X. apply (flag_iff o w Fp) in X. congruence. } exists c. reflexivity.
    + destruct s as [|d s].
      * cbn [step_means]. exists [], w. rewrite app_nil_r. repeat split; try apply R; try assumption; try (apply Fp). intros fin v ts us' rest P K.
        apply rd_value; try assumption. intro X. apply (flag_iff o w Fp) in X. congruence.
      * destruct (N.eqb_spec d 61) as [->|Nd].
        -- eapply react_means; [exact Hw|exact Fp|exact R|left; reflexivity|]. intros fin ts us' rest K. apply (rd_equals fin w [45%N; c] s); try assumption.
           intro X. apply (flag_iff o w Fp) in X. congruence.
        -- eapply react_means; [exact Hw|exact Fp|exact R|left; reflexivity|]. intros fin ts us' rest K. apply (rd_attached fin w [45%N; c] d s); try assumption.
           { intro X. apply (flag_iff o w Fp) in X. congruence. } exists c. reflexivity.
Qed.

Definition scan_means (us0 : list use) (go : (list text -> list text -> Prop) -> list use -> list text -> Prop) (x : scanned) : Prop :=
  match x with
  | XErr => True
  | XHelp => exists us, right (us0 ++ us) /\ go at_help us []
  | XOk m rest => exists us, m = map enc (us0 ++ us) /\ right (us0 ++ us) /\ go at_end us rest
  end.
Lemma read_sound : forall ts us0, right us0 ->
  scan_means us0 (fun fin us rest => reads fin ts us rest) (scan (map enc us0) None ts)
  /\ forall o w, In o table -> In w rows -> fits o w ->
     scan_means us0 (fun fin us rest => exists v ts' us', ts = v :: ts' /\ us = (ro_name w, Some v) :: us' /\ (ro_free w = true \/ plain v) /\ reads fin ts' us' rest)
       (scan (map enc us0) (Some o) ts).
Proof.
  induction ts as [|t ts IH]; intros us0 R.
  - split; [|intros; exact I]. cbn [scan scan_means]. exists []. rewrite app_nil_r. repeat split; try apply R. apply rd_end. left. split; reflexivity.
  - assert (G : forall st (go : (list text -> list text -> Prop) -> list use -> list text -> Prop), step_means us0 t st -> (forall fin us rest, reads fin (t :: ts) us rest -> go fin us rest) ->
      scan_means us0 go (match st with SErr => XErr | SHelp => XHelp | SGo m' p' => scan m' p' ts end)).
    { intros st go H K. destruct st as [| |m [o|]]; cbn [step_means] in H.
      - exact I.
      - destruct H as (us & R1 & H). cbn [scan_means]. exists us. split; [exact R1|]. apply K. apply H.
      - destruct H as (us & w & -> & R1 & Ho & Hw & Fp & H). specialize (IH (us0 ++ us) R1). destruct IH as [_ IH]. specialize (IH o w Ho Hw Fp).
        destruct (scan (map enc (us0 ++ us)) (Some o) ts) as [| |m rest]; cbn [scan_means] in *; [exact I| |].
        + destruct IH as (us' & R2 & v & ts' & us'' & -> & -> & P & X). exists (us ++ (ro_name w, Some v) :: us''). rewrite app_assoc. split; [exact R2|].
          apply K. apply H; assumption.
        + destruct IH as (us' & -> & R2 & v & ts' & us'' & -> & -> & P & X). exists (us ++ (ro_name w, Some v) :: us''). rewrite app_assoc. split; [reflexivity|]. split; [exact R2|].
          apply K. apply H; assumption.
      - destruct H as (us & -> & R1 & H). specialize (IH (us0 ++ us) R1). destruct IH as [IH _].
        destruct (scan (map enc (us0 ++ us)) None ts) as [| |m rest]; cbn [scan_means] in *; [exact I| |].
        + destruct IH as (us' & R2 & X). exists (us ++ us'). rewrite app_assoc. split; [exact R2|]. apply K. apply H. exact X.
        + destruct IH as (us' & -> & R2 & X). exists (us ++ us'). rewrite app_assoc. split; [reflexivity|]. split; [exact R2|]. apply K. apply H. exact X. }
    split.
    + destruct (text_eqb t (tx "--")) eqn:E.
      * apply text_eqb_eq in E. subst t. cbn [scan]. rewrite text_eqb_refl. cbn [scan_means]. exists []. rewrite app_nil_r. repeat split; try apply R.
        apply rd_end. right. reflexivity.
      * cbn [scan]. rewrite E. apply G; [|auto]. destruct (starts_with (tx "--") t) eqn:Sw.
        -- apply starts_with_iff in Sw. destruct Sw as [s ->]. change (skipn 2 (tx "--" ++ s)) with s. apply (long_means us0 s R). intros ->. rewrite app_nil_r in E.
           rewrite text_eqb_refl in E. discriminate.
        -- destruct (dashed t) eqn:D; [|exact I]. destruct t as [|c [|d s]]; try discriminate. cbn [dashed] in D. apply N.eqb_eq in D. subst c.
           change (skipn 1 (45%N :: d :: s)) with (d :: s). apply short_means; [exact R|discriminate].
    + intros o w Ho Hw Fp. cbn [scan]. destruct (oo_hyphen o || negb (dashed t)) eqn:P; [|exact I].
      destruct (react_spec o w us0 t (Some t) Hw Fp R (or_introl eq_refl)) as [[E K]|[E K]]; rewrite E; [|exact I].
      specialize (IH (us0 ++ [(ro_name w, Some t)]) K). destruct IH as [IH _].
      assert (P' : ro_free w = true \/ plain t).
      { apply orb_true_iff in P. destruct P as [P|P]; [left; destruct Fp as (_ & _ & _ & <- & _); exact P|right; apply plain_iff; apply negb_true_iff; exact P]. }
      destruct (scan (map enc (us0 ++ [(ro_name w, Some t)])) None ts) as [| |m rest]; cbn [scan_means] in *; [exact I| |].
      * destruct IH as (us' & R2 & X). exists ((ro_name w, Some t) :: us'). split; [rewrite <- app_assoc in R2; exact R2|]. exists t, ts, us'. auto.
      * destruct IH as (us' & -> & R2 & X). exists ((ro_name w, Some t) :: us'). split; [rewrite <- app_assoc; reflexivity|]. split; [rewrite <- app_assoc in R2; exact R2|]. exists t, ts, us'. auto.
Qed.

(** * Variables *)
Definition added (e : variables) (us : list use) (l : list opt) : list use :=
  flat_map (fun o => match oo_env o with
    | Some n => match e n, uses_of (oo_id o) us with Some v, [] => [(oo_id o, Some v)] | _, _ => [] end
    | None => [] end) l.
Lemma added_other : forall e us u l, ~ In (fst u) (map oo_id l) -> added e (us ++ [u]) l = added e us l.
Proof.
  intros e us u l. induction l as [|o l IH]; intro N; [reflexivity|]. cbn [map In] in N. unfold added in *. cbn [flat_map]. rewrite IH by tauto. f_equal.
  destruct (oo_env o); [|reflexivity]. destruct (e t); [|reflexivity]. rewrite uses_app. unfold uses_of at 2. cbn [filter].
  destruct (text_eqb (fst u) (oo_id o)) eqn:E; [apply text_eqb_eq in E; exfalso; apply N; left; congruence|]. rewrite app_nil_r. reflexivity.
Qed.
Lemma add_env_spec : forall e l us, (forall o, In o l -> In o table) -> NoDup (map oo_id l) -> right us ->
  add_env e (map enc us) l = Some (map enc (us ++ added e us l)) /\ right (us ++ added e us l)
  \/ add_env e (map enc us) l = None /\ ~ right (us ++ added e us l).
Proof.
  intros e l. induction l as [|o l IH]; intros us Hl N R.
  - left. cbn [add_env added flat_map]. rewrite app_nil_r. split; [reflexivity|exact R].
  - cbn [map] in N. inversion N as [|x k N1 N2]; subst. assert (Hl' : forall o, In o l -> In o table) by (intros; apply Hl; right; assumption).
    cbn [add_env]. unfold env_step. unfold added. cbn [flat_map]. fold (added e us l).
    destruct (oo_env o) as [n|] eqn:En; [|exact (IH us Hl' N2 R)].
    destruct (e n) as [v|] eqn:Ev; [|exact (IH us Hl' N2 R)].
    destruct (row_of o (Hl o (or_introl eq_refl))) as (w & Hw & Fp). destruct (present (map enc us) (oo_id o)) eqn:P.
    + apply present_iff in P. destruct (uses_of (oo_id o) us) eqn:Eu; [apply unused_iff in Eu; contradiction|]. exact (IH us Hl' N2 R).
    + assert (Nu : ~ used us (oo_id o)) by (rewrite <- present_iff; congruence). pose proof Nu as Nu'. apply unused_iff in Nu'. rewrite Nu'.
      destruct Fp as (Fi & Fu & Fw & Fh & Fv & Fy). rewrite Fi in *. rewrite (app_assoc us [_] (added e us l)).
      rewrite <- (added_other e us (ro_name w, Some v) l N1).
      destruct (accepts (oo_type o) v) eqn:A.
      * assert (R1 : right (us ++ [(ro_name w, Some v)])) by (apply right_snoc; [exact Hw|]; split; [exact R|]; split; [apply valid_some; [exact Hw|]; apply Fv; exact A|intros _; exact Nu]).
        specialize (IH (us ++ [(ro_name w, Some v)]) Hl' N2 R1). rewrite map_app in IH. cbn [map enc fst snd] in IH. exact IH.
      * right. split; [reflexivity|]. intro K. apply right_app_l in K. apply right_snoc in K; [|exact Hw]. destruct K as (_ & K & _).
        apply valid_some in K; [|exact Hw]. apply Fv in K. congruence.
Qed.
Lemma added_table : forall e us, added e us table = from_variables e us.
Proof. reflexivity. Qed.
Lemma ids_nodup : NoDup (map oo_id table).
Proof. apply distinct_nodup. vm_compute. reflexivity. Qed.

(** * Conflicts *)
Definition touchy (o : opt) : bool := match oo_conflicts o, oo_group o with [], None => false | _, _ => true end.
Lemma clashes_touchy : forall m l, existsb (clashes m) l = existsb (clashes m) (filter touchy l).
Proof.
  intros m l. induction l as [|o l IH]; [reflexivity|]. cbn [existsb filter]. destruct (touchy o) eqn:T; [cbn [existsb]; rewrite IH; reflexivity|].
  rewrite IH. unfold clashes. unfold touchy in T. destruct (oo_conflicts o); [|discriminate]. destruct (oo_group o); [discriminate|].
  cbn [existsb orb]. rewrite andb_false_r. reflexivity.
Qed.
Lemma given_spec : forall m, given m (tx "manifest_path") = present m (tx "manifest_path") /\ given m (tx "jobs") = present m (tx "jobs")
  /\ given m (tx "timeout") = present m (tx "timeout") /\ given m (tx "build_timeout") = present m (tx "build_timeout").
Proof. intro m. unfold given. repeat split; (rewrite <- (orb_false_r (present m _)) at 2; f_equal; lazy -[present]; reflexivity). Qed.
Lemma given_group : forall m, given m (tx "copy_opts") = present m (tx "copy_opts") || (present m (tx "gitignore") || present m (tx "no_copy_target")).
Proof. intro m. unfold given. f_equal. transitivity (present m (tx "gitignore") || (present m (tx "no_copy_target") || false)); [lazy -[present]; reflexivity|]. rewrite orb_false_r. reflexivity. Qed.
Definition pair_clash (m : found) : bool := existsb (fun p => present m (fst p) && present m (snd p)) exclusive.
Lemma clashes_table : forall m, present m (tx "copy_opts") = false -> existsb (clashes m) table = pair_clash m.
Proof.
  intros m G. rewrite clashes_touchy.
  assert (E : exists a b c d f g, filter touchy table = [a; b; c; d; f; g]
     /\ (oo_id a = tx "dir" /\ oo_conflicts a = [tx "manifest_path"] /\ oo_group a = None)
     /\ (oo_id b = tx "gitignore" /\ oo_conflicts b = [] /\ oo_group b = Some (tx "copy_opts"))
     /\ (oo_id c = tx "in_place" /\ oo_conflicts c = [tx "jobs"; tx "copy_opts"] /\ oo_group c = None)
     /\ (oo_id d = tx "no_copy_target" /\ oo_conflicts d = [] /\ oo_group d = Some (tx "copy_opts"))
     /\ (oo_id f = tx "timeout_multiplier" /\ oo_conflicts f = [tx "timeout"] /\ oo_group f = None)
     /\ (oo_id g = tx "build_timeout_multiplier" /\ oo_conflicts g = [tx "build_timeout"] /\ oo_group g = None)).
  { do 6 eexists. split; [vm_compute; reflexivity|]. repeat split. }
  destruct E as (a & b & c & d & f & g & -> & (a1 & a2 & a3) & (b1 & b2 & b3) & (c1 & c2 & c3) & (d1 & d2 & d3) & (f1 & f2 & f3) & (g1 & g2 & g3)).
  cbn [existsb]. unfold clashes. rewrite a1, a2, a3, b1, b2, b3, c1, c2, c3, d1, d2, d3, f1, f2, f3, g1, g2, g3.
  destruct (given_spec m) as (S1 & S2 & S3 & S4). cbn [existsb]. rewrite S1, S2, S3, S4, given_group, G.
  assert (X1 : existsb (fun p => in_group (tx "copy_opts") p && negb (text_eqb (oo_id p) (tx "gitignore")) && present m (oo_id p)) table = present m (tx "no_copy_target")).
  { transitivity (present m (tx "no_copy_target") || false); [lazy -[present]; reflexivity|apply orb_false_r]. }
  assert (X2 : existsb (fun p => in_group (tx "copy_opts") p && negb (text_eqb (oo_id p) (tx "no_copy_target")) && present m (oo_id p)) table = present m (tx "gitignore")).
  { transitivity (present m (tx "gitignore") || false); [lazy -[present]; reflexivity|apply orb_false_r]. }
  rewrite X1, X2. unfold pair_clash, exclusive. cbn [existsb fst snd].
  destruct (present m (tx "dir")), (present m (tx "manifest_path")), (present m (tx "gitignore")), (present m (tx "in_place")), (present m (tx "jobs")),
    (present m (tx "no_copy_target")), (present m (tx "timeout")), (present m (tx "timeout_multiplier")), (present m (tx "build_timeout")), (present m (tx "build_timeout_multiplier")); reflexivity.
Qed.
Lemma compatible_iff : forall us, pair_clash (map enc us) = false <-> compatible us.
Proof.
  intro us. unfold pair_clash, compatible. split.
  - intros H p Hp [A B]. apply present_iff in A, B. assert (T : existsb (fun p => present (map enc us) (fst p) && present (map enc us) (snd p)) exclusive = true).
    { apply existsb_exists. exists p. split; [exact Hp|]. rewrite A, B. reflexivity. } congruence.
  - intro H. apply not_true_is_false. intro T. apply existsb_exists in T. destruct T as (p & Hp & T). apply andb_true_iff in T. destruct T as [A B].
    apply present_iff in A, B. exact (H p Hp (conj A B)).
Qed.

(** Uses that were read are of rows. *)
Lemma reads_rows : forall fin ts us rest, reads fin ts us rest -> Forall (fun u => exists w, In w rows /\ fst u = ro_name w /\ (snd u = None <-> ro_usage w = Switch)) us.
Proof.
  intros fin ts us rest H. induction H; constructor; try assumption; eexists; (split; [eassumption|]); (split; [reflexivity|]); cbn [snd]; split; intro X; congruence.
Qed.
Lemma variables_rows : forall e us, Forall (fun u => exists w, In w rows /\ fst u = ro_name w /\ (snd u = None <-> ro_usage w = Switch)) (from_variables e us).
Proof.
  intros e us. unfold from_variables. apply Forall_forall. intros u Hu. apply in_flat_map in Hu. destruct Hu as (p & Hp & Hu).
  destruct (e (fst p)) as [v|]; [|destruct Hu]. destruct (uses_of (snd p) us); [|destruct Hu]. destruct Hu as [<-|[]]. cbn [fst snd].
  assert (Q : exists w, In w rows /\ ro_name w = snd p /\ ro_usage w = Single).
  { assert (F : Forall (fun p => exists w, In w rows /\ ro_name w = snd p /\ ro_usage w = Single) variables_for).
    { assert (G : forall k, k < length rows -> In (nth k rows (r "" [] Switch any)) rows) by (intros; apply nth_In; assumption).
      unfold variables_for. constructor; [exists (nth 5 rows (r "" [] Switch any)); split; [apply G; cbn; lia|split; reflexivity]|].
      constructor; [exists (nth 18 rows (r "" [] Switch any)); split; [apply G; cbn; lia|split; reflexivity]|].
      constructor; [exists (nth 23 rows (r "" [] Switch any)); split; [apply G; cbn; lia|split; reflexivity]|].
      constructor; [exists (nth 31 rows (r "" [] Switch any)); split; [apply G; cbn; lia|split; reflexivity]|].
      constructor; [exists (nth 33 rows (r "" [] Switch any)); split; [apply G; cbn; lia|split; reflexivity]|]. constructor. }
    rewrite Forall_forall in F. exact (F p Hp). }
  destruct Q as (w & Hw & E & U). exists w. split; [exact Hw|]. split; [congruence|]. rewrite U. split; discriminate.
Qed.
