From Coq Require Import String List NArith ZArith Bool Arith Lia.
From Verif Require Import Text PathM PathS.
Import ListNotations.

Lemma comp_eqb_eq : forall a b, comp_eqb a b = true <-> a = b.
Proof.
  intros [| | |x] [| | |y]; simpl; split; intro H; try discriminate; auto.
  - apply text_eqb_eq in H. now subst.
  - inversion H. apply text_eqb_refl.
Qed.

Lemma comps_eqb_eq : forall a b, comps_eqb a b = true <-> a = b.
Proof.
  induction a as [|x a IH]; intros [|y b]; simpl; split; intro H; try discriminate; auto.
  - apply andb_true_iff in H. destruct H as [H1 H2]. apply comp_eqb_eq in H1. apply IH in H2. now subst.
  - inversion H; subst. apply andb_true_iff. split; [now apply comp_eqb_eq|now apply IH].
Qed.

Lemma path_eqb_eq : forall a b, path_eqb a b = true <-> components a = components b.
Proof. intros. apply comps_eqb_eq. Qed.

(** Components never are odd: [Normal] holds no slash, is not empty, "." or "..". *)
Definition good_name (t : text) : Prop :=
  t <> [] /\ t <> [DOT] /\ t <> [DOT; DOT] /\ ~ In SLASH t.

Lemma piece_good : forall t c, ~ In SLASH t -> In c (piece t) ->
  c = Parent \/ exists u, c = Normal u /\ good_name u.
Proof.
  intros t c Hs H. unfold piece in H.
  destruct (text_eqb t []) eqn:E1; [destruct H|].
  destruct (text_eqb t [DOT]) eqn:E2; [destruct H|].
  destruct (text_eqb t [DOT; DOT]) eqn:E3; destruct H as [<-|[]]; auto.
  right. exists t. split; auto.
  apply text_eqb_neq in E1, E2, E3. repeat split; auto.
Qed.

Lemma pieces_good : forall l c, (forall w, In w l -> ~ In SLASH w) -> In c (flat_map piece l) ->
  c = Parent \/ exists u, c = Normal u /\ good_name u.
Proof.
  intros l c H Hc. apply in_flat_map in Hc. destruct Hc as [w [Hw Hc]].
  eapply piece_good; eauto.
Qed.

(** Shape of the component list. *)
Lemma components_shape : forall p,
  exists head tail, components p = head ++ tail
    /\ (head = [] \/ head = [Root] \/ head = [Cur])
    /\ (head = [Root] <-> is_absolute p = true)
    /\ (forall c, In c tail -> c = Parent \/ exists u, c = Normal u /\ good_name u).
Proof.
  intros [|c rest].
  - exists [], []. simpl. repeat split; auto; try discriminate. intros ? [].
  - unfold components, is_absolute. cbn [starts_with].
    destruct (N.eqb_spec c SLASH) as [->|Hc].
    + exists [Root], (flat_map piece (split_on SLASH rest)). split; [reflexivity|].
      split; auto. split; [rewrite N.eqb_refl; tauto|].
      intros x Hx. eapply pieces_good; [|exact Hx]. intros w Hw. eapply split_on_pieces; eauto.
    + destruct (split_on SLASH (c :: rest)) as [|first more] eqn:Es;
        [now apply split_on_nonempty in Es|].
      assert (P : forall w, In w (first :: more) -> ~ In SLASH w).
      { intros w Hw. rewrite <- Es in Hw. eapply split_on_pieces; eauto. }
      assert (An : (SLASH =? c)%N && true = false).
      { destruct (N.eqb_spec SLASH c); [congruence|reflexivity]. }
      destruct (text_eqb first [DOT]) eqn:E.
      * exists [Cur], (flat_map piece more). split; auto. split; auto.
        split; [split; intro H; [discriminate|congruence]|].
        intros x Hx. eapply pieces_good; [|exact Hx]. intros w Hw. apply P. now right.
      * exists [], (piece first ++ flat_map piece more). split; auto. split; auto.
        split; [split; intro H; [discriminate|congruence]|].
        intros x Hx. change (piece first ++ flat_map piece more) with (flat_map piece (first :: more)) in Hx.
        eapply pieces_good; [|exact Hx]. exact P.
Qed.

(** ** ascent *)

Definition step_of (c : comp) : Z :=
  if text_eqb (comp_str c) [DOT; DOT] then 1 else if text_eqb (comp_str c) [DOT] then 0 else -1.

Fixpoint climb (cs : list comp) : Z :=
  match cs with [] => 0%Z | c :: cs' => (step_of c + climb cs')%Z end.

Lemma ascent_loop_spec : forall cs mx cur k, (cur <= mx)%Z ->
  ((k < ascent_loop mx cur cs)%Z <->
   (k < mx)%Z \/ exists a b, cs = a ++ b /\ (k < cur + climb a)%Z).
Proof.
  induction cs as [|c cs IH]; intros mx cur k Hle; simpl.
  - split; [tauto|]. intros [H|[a [b [E H]]]]; auto.
    symmetry in E. apply app_eq_nil in E. destruct E as [-> ->]. simpl in H. lia.
  - assert (G : forall m' c', m' = Z.max c' mx \/ (c' <= cur /\ m' = mx)%Z ->
        c' = (cur + step_of c)%Z ->
        ((k < ascent_loop m' c' cs)%Z <->
         (k < mx)%Z \/ exists a b, c :: cs = a ++ b /\ (k < cur + climb a)%Z)).
    { intros m' c' Hm Hc. rewrite IH by (destruct Hm as [->|[? ->]]; lia). split.
      - intros [H|[a [b [E H]]]].
        + destruct Hm as [->|[? ->]]; auto.
          destruct (Z.max_spec c' mx) as [[? M]|[? M]]; rewrite M in H; auto.
          right. exists [c], cs. simpl. split; auto. lia.
        + right. exists (c :: a), b. simpl. split; [now rewrite E|lia].
      - intros [H|[a [b [E H]]]].
        + left. destruct Hm as [->|[? ->]]; lia.
        + destruct a as [|x a]; simpl in *.
          * left. destruct Hm as [->|[? ->]]; lia.
          * inversion E; subst. right. exists a, b. split; auto. lia. }
    unfold step_of in G.
    destruct (text_eqb (comp_str c) [DOT; DOT]).
    + apply G; [left; reflexivity|reflexivity].
    + destruct (text_eqb (comp_str c) [DOT]); apply G; try lia; right; lia.
Qed.

Lemma ascent_pos : forall p, (0 < ascent p)%Z <-> exists a b, components p = a ++ b /\ (0 < climb a)%Z.
Proof.
  intro p. unfold ascent. rewrite ascent_loop_spec by lia. split.
  - intros [H|[a [b [E H]]]]; [lia|]. exists a, b. split; auto.
  - intros [a [b [E H]]]. right. exists a, b. split; auto.
Qed.

Definition plain (c : comp) : Prop :=
  c = Cur \/ c = Parent \/ exists u, c = Normal u /\ good_name u.

Lemma relative_plain : forall p, relative p -> Forall plain (components p).
Proof.
  intros p R. destruct (components_shape p) as [h [t [E [H [A T]]]]]. rewrite E.
  apply Forall_app. split.
  - destruct H as [->|[->| ->]]; constructor; auto.
    + exfalso. unfold relative in R. destruct A as [A _]. rewrite A in R; congruence.
    + now left.
  - apply Forall_forall. intros c Hc. right. now apply T.
Qed.

Lemma climb_count : forall cs, Forall plain cs -> climb cs = (Z.of_nat (ups cs) - Z.of_nat (downs cs))%Z.
Proof.
  induction cs as [|c cs IH]; intro F; [reflexivity|]. inversion F as [|? ? Hc Hcs]; subst.
  cbn [climb]. rewrite (IH Hcs). unfold ups, downs. cbn [filter].
  destruct Hc as [->|[->|[u [-> [H1 [H2 [H3 H4]]]]]]]; cbn [step_of comp_str].
  - change (step_of Cur) with 0%Z. lia.
  - change (step_of Parent) with 1%Z. cbn [length]. lia.
  - unfold step_of. cbn [comp_str].
    replace (text_eqb u [DOT; DOT]) with false by (symmetry; now apply text_eqb_neq).
    replace (text_eqb u [DOT]) with false by (symmetry; now apply text_eqb_neq).
    cbn [length]. lia.
Qed.

Lemma walk_none : forall cs here, Forall plain cs ->
  (walk here cs = None <-> exists a b, cs = a ++ b /\ length here + downs a < ups a).
Proof.
  induction cs as [|c cs IH]; intros here F; simpl.
  - split; [discriminate|]. intros [a [b [E H]]]. symmetry in E. apply app_eq_nil in E.
    destruct E as [-> ->]. unfold ups, downs in H. simpl in H. lia.
  - inversion F as [|? ? Hc Hcs]; subst.
    assert (Step : forall here', length here' + ups [c] = length here + downs [c] ->
       ((walk here' cs = None) <-> exists a b, c :: cs = a ++ b /\ length here + downs a < ups a)).
    { intros here' Hl. rewrite IH by auto. split.
      - intros [a [b [E H]]]. exists (c :: a), b. split; [now rewrite E|].
        unfold ups, downs in *. cbn [filter] in *. destruct c; cbn [length] in *; lia.
      - intros [a [b [E H]]]. destruct a as [|x a].
        + unfold ups, downs in H. simpl in H. lia.
        + inversion E; subst. exists a, b. split; auto.
          unfold ups, downs in *. cbn [filter] in *. destruct x; cbn [length] in *; lia. }
    destruct Hc as [->|[->|[u [-> _]]]].
    + apply Step. unfold ups, downs. simpl. lia.
    + destruct here as [|h here]; [|apply Step; unfold ups, downs; simpl; lia].
      split; auto. intros _. exists [Parent], cs. split; [reflexivity|]. unfold ups, downs; simpl; lia.
    + apply Step. unfold ups, downs. simpl. lia.
Qed.

Lemma ascent_walk : forall p, relative p -> ((0 < ascent p)%Z <-> walk [] (components p) = None).
Proof.
  intros p R. pose proof (relative_plain p R) as F. rewrite ascent_pos, walk_none by auto. split.
  - intros [a [b [E H]]]. exists a, b. split; auto. rewrite E in F. apply Forall_app in F.
    rewrite climb_count in H by tauto. simpl. lia.
  - intros [a [b [E H]]]. exists a, b. split; auto. rewrite E in F. apply Forall_app in F.
    rewrite climb_count by tauto. simpl in H. lia.
Qed.

(** ** join *)

Lemma ends_with_slash : forall s, ends_with [SLASH] s = true <-> exists a, s = a ++ [SLASH].
Proof.
  intro s. unfold ends_with. rewrite starts_with_iff. split.
  - intros [r H]. exists (rev r). rewrite <- (rev_involutive s), H. rewrite rev_app_distr. reflexivity.
  - intros [a ->]. exists (rev a). now rewrite rev_app_distr.
Qed.

Definition no_cur (cs : list comp) : list comp := match cs with Cur :: r => r | _ => cs end.

Lemma flat_piece_rel : forall p, is_absolute p = false ->
  flat_map piece (split_on SLASH p) = no_cur (components p).
Proof.
  intros [|c rest] R; [reflexivity|]. unfold components.
  unfold is_absolute in R. cbn [starts_with] in R.
  destruct (N.eqb_spec c SLASH) as [->|Hc]; [rewrite N.eqb_refl in R; discriminate|].
  destruct (split_on SLASH (c :: rest)) as [|first more] eqn:Es; [reflexivity|]. simpl flat_map.
  destruct (text_eqb first [DOT]) eqn:E.
  - apply text_eqb_eq in E. subst. reflexivity.
  - unfold piece at 1 3. rewrite E. destruct (text_eqb first []) eqn:E0.
    + apply text_eqb_eq in E0. subst. simpl app.
      (* the first piece of a relative path is empty only for the empty path *)
      exfalso. pose proof (join_split_on SLASH (c :: rest)) as J. rewrite Es in J.
      destruct more; simpl in J; [discriminate|]. inversion J. congruence.
    + destruct (text_eqb first [DOT; DOT]); reflexivity.
Qed.

Lemma split_on_app_slash : forall a b,
  flat_map piece (split_on SLASH (a ++ [SLASH] ++ b))
  = flat_map piece (split_on SLASH a) ++ flat_map piece (split_on SLASH b).
Proof.
  induction a as [|c a IH]; intro b.
  - simpl app. reflexivity.
  - simpl app. cbn [split_on]. destruct (N.eqb_spec c SLASH) as [->|Hc].
    + cbn [flat_map]. change (a ++ SLASH :: b) with (a ++ [SLASH] ++ b). rewrite IH. now rewrite app_assoc.
    + change (a ++ SLASH :: b) with (a ++ [SLASH] ++ b).
      (* the first pieces grow by one character on both sides *)
      assert (H : exists w more, split_on SLASH a = w :: more /\
                 split_on SLASH (a ++ [SLASH] ++ b) = w :: more ++ split_on SLASH b).
      { clear. induction a as [|d a IH].
        - simpl. exists [], []. auto.
        - simpl app. cbn [split_on]. destruct IH as [w [more [E1 E2]]].
          change (a ++ SLASH :: b) with (a ++ [SLASH] ++ b). rewrite E1, E2.
          destruct (N.eqb d SLASH).
          + exists [], (w :: more). auto.
          + exists (d :: w), more. auto. }
      destruct H as [w [more [E1 E2]]]. rewrite E1, E2. cbn [flat_map].
      rewrite flat_map_app. now rewrite app_assoc.
Qed.

Lemma components_rel_eq : forall (c : chr) (s : text), N.eqb c SLASH = false ->
  components (c :: s) = match split_on SLASH (c :: s) with
    | first :: more => (if text_eqb first [DOT] then [Cur] else piece first) ++ flat_map piece more
    | [] => []
    end.
Proof. intros c s H. unfold components. rewrite H. reflexivity. Qed.

Lemma components_app_slash : forall a b, a <> [] ->
  components (a ++ [SLASH] ++ b) = components a ++ flat_map piece (split_on SLASH b).
Proof.
  intros [|c a] b H; [congruence|]. destruct (N.eqb c SLASH) eqn:Ec.
  - simpl app. unfold components. rewrite Ec. change (a ++ SLASH :: b) with (a ++ [SLASH] ++ b). rewrite split_on_app_slash. reflexivity.
  - change ((c :: a) ++ [SLASH] ++ b) with (c :: (a ++ SLASH :: b)).
    rewrite (components_rel_eq c a Ec), (components_rel_eq c (a ++ SLASH :: b) Ec).
    assert (G : exists w more, split_on SLASH (c :: a) = w :: more /\
                 split_on SLASH (c :: a ++ SLASH :: b) = w :: more ++ split_on SLASH b).
    { change (c :: a ++ SLASH :: b) with ((c :: a) ++ [SLASH] ++ b). generalize (c :: a). clear.
      induction l as [|d a IH].
      - simpl. exists [], []. auto.
      - simpl app. cbn [split_on]. destruct IH as [w [more [E1 E2]]].
        change (a ++ SLASH :: b) with (a ++ [SLASH] ++ b). rewrite E1, E2.
        destruct (N.eqb d SLASH).
        + exists [], (w :: more). auto.
        + exists (d :: w), more. auto. }
    destruct G as [w [more [E1 E2]]]. rewrite E1, E2. rewrite flat_map_app. now rewrite app_assoc.
Qed.

Lemma components_trailing : forall a, a <> [] -> components (a ++ [SLASH]) = components a.
Proof.
  intros a H. change (a ++ [SLASH]) with (a ++ [SLASH] ++ []). rewrite components_app_slash by auto.
  simpl. now rewrite app_nil_r.
Qed.

Lemma path_join_components : forall base p, relative p -> base <> [] ->
  components (path_join base p) = components base ++ no_cur (components p).
Proof.
  intros base p R Hb. unfold path_join. rewrite R.
  destruct base as [|c base]; [congruence|].
  destruct (ends_with [SLASH] (c :: base)) eqn:E.
  - apply ends_with_slash in E. destruct E as [a Ea]. rewrite Ea.
    rewrite <- app_assoc. destruct a as [|d a].
    + simpl in *. rewrite <- flat_piece_rel by auto. reflexivity.
    + rewrite components_app_slash by discriminate. rewrite components_trailing by discriminate.
      now rewrite flat_piece_rel.
  - rewrite components_app_slash by discriminate. now rewrite flat_piece_rel.
Qed.

(** ** CRLF *)

Lemma without_cons : forall c s,
  without_crlf_cr (c :: s) =
  (if cr_before_nl (c :: s) 0 then [] else [c]) ++ without_crlf_cr s.
Proof.
  intros c s. unfold without_crlf_cr. cbn [length seq flat_map nth_error].
  f_equal. rewrite <- seq_shift. rewrite flat_map_concat_map, map_map, <- flat_map_concat_map.
  reflexivity.
Qed.

Lemma crlf_spec_aux : forall n s, length s <= n -> crlf_to_lf s = without_crlf_cr s.
Proof.
  induction n as [|n IH]; intros s H.
  - destruct s; [reflexivity|simpl in H; lia].
  - destruct s as [|c [|d s]]; [reflexivity|reflexivity|].
    simpl in H. rewrite without_cons. cbn [crlf_to_lf].
    unfold cr_before_nl. cbn [nth_error].
    destruct (N.eqb c CR && N.eqb d NL) eqn:E.
    + apply andb_true_iff in E. destruct E as [_ Ed]. apply N.eqb_eq in Ed. subst d.
      rewrite without_cons.
      replace (cr_before_nl (NL :: s) 0) with false by (unfold cr_before_nl; destruct s; reflexivity).
      change (NL :: crlf_to_lf s = NL :: without_crlf_cr s). f_equal. apply IH. lia.
    + change (c :: crlf_to_lf (d :: s) = c :: without_crlf_cr (d :: s)).
      f_equal. apply IH. simpl. lia.
Qed.

Lemma crlf_spec : forall s, crlf_to_lf s = without_crlf_cr s.
Proof. intro s. apply (crlf_spec_aux (length s)). lia. Qed.

Lemma crlf_unix : forall s, (forall i, cr_before_nl s i = false) -> crlf_to_lf s = s.
Proof.
  intros s. induction s as [|c s IH]; intro H; [reflexivity|].
  assert (Hs : crlf_to_lf s = s).
  { apply IH. intro i. apply (H (S i)). }
  destruct s as [|d s]; [reflexivity|]. cbn [crlf_to_lf].
  specialize (H 0). unfold cr_before_nl in H. cbn [nth_error] in H. rewrite H.
  cbn [crlf_to_lf] in Hs. now rewrite Hs.
Qed.

Lemma crlf_changed : forall s i, cr_before_nl s i = true -> crlf_to_lf s <> s.
Proof.
  intros s i H E.
  assert (L : forall n s, length s <= n -> length (crlf_to_lf s) <= length s
              /\ ((exists j, cr_before_nl s j = true) -> length (crlf_to_lf s) < length s)).
  { clear. induction n as [|n IH]; intros s Hl.
    - destruct s; [|simpl in Hl; lia]. simpl. split; [lia|]. intros [j H]. destruct j; discriminate.
    - destruct s as [|c [|d s]].
      + simpl. split; [lia|]. intros [j H]. destruct j; discriminate.
      + simpl. split; [lia|]. intros [[|[|j]] H]; discriminate.
      + simpl in Hl. cbn [crlf_to_lf]. destruct (N.eqb c CR && N.eqb d NL) eqn:Ec.
        * destruct (IH s) as [A _]; [lia|]. simpl. split; [lia|]. intros _. lia.
        * destruct (IH (d :: s)) as [A B]; [simpl; lia|]. split; [simpl in *; lia|].
          intros [[|j] H].
          -- unfold cr_before_nl in H. cbn [nth_error] in H. congruence.
          -- assert (X : length (crlf_to_lf (d :: s)) < length (d :: s)).
             { apply B. exists j. exact H. }
             simpl in *. lia. }
  destruct (L (length s) s) as [_ B]; [lia|].
  rewrite E in B. assert (length s < length s) by (apply B; eauto). lia.
Qed.

Lemma crlf_line : forall l r, (forall c, In c l -> c <> CR) ->
  crlf_to_lf (l ++ CR :: NL :: r) = l ++ NL :: crlf_to_lf r.
Proof.
  induction l as [|c l IH]; intros r H; [reflexivity|].
  simpl app. specialize (IH r). 
  assert (Hc : N.eqb c CR = false) by (apply N.eqb_neq; apply H; now left).
  assert (IHl : crlf_to_lf (l ++ CR :: NL :: r) = l ++ NL :: crlf_to_lf r).
  { apply IH. intros x Hx. apply H. now right. }
  cbn [crlf_to_lf].
  destruct (l ++ CR :: NL :: r) as [|d t] eqn:E; [destruct l; discriminate|].
  rewrite Hc. cbn [andb]. now rewrite IHl.
Qed.

Lemma crlf_no_cr : forall l, (forall c, In c l -> c <> CR) -> crlf_to_lf l = l.
Proof.
  induction l as [|c l IH]; intro H; [reflexivity|]. cbn [crlf_to_lf].
  destruct l as [|d l]; [reflexivity|].
  replace (N.eqb c CR) with false by (symmetry; apply N.eqb_neq; apply H; now left).
  cbn [andb]. rewrite IH; auto. intros x Hx. apply H. now right.
Qed.

Lemma crlf_file : forall ls, (forall l c, In l ls -> In c l -> c <> CR) ->
  crlf_to_lf (join [CR; NL] ls) = join [NL] ls.
Proof.
  induction ls as [|l ls IH]; intro H; [reflexivity|].
  destruct ls as [|l2 ls].
  - simpl. apply crlf_no_cr. intros c Hc. eapply H; [left; reflexivity|auto].
  - change (crlf_to_lf (l ++ CR :: NL :: join [CR; NL] (l2 :: ls)) = l ++ NL :: join [NL] (l2 :: ls)).
    rewrite crlf_line.
    + rewrite IH; auto. intros x c Hx Hc. eapply H; [right; eauto|auto].
    + intros c Hc. eapply H; [left; reflexivity|auto].
Qed.

(** ** clean_filename *)

Lemma clean_safe : forall s c, In c (clean_filename s) -> ~ special c.
Proof.
  intros s c H Hs. unfold clean_filename in H. apply in_flat_map in H. destruct H as [x [Hin Hx]].
  unfold clean_char in Hx.
  destruct (N.eqb x SLASH) eqn:Hn; [|apply N.eqb_neq in Hn].
  - destruct Hx as [<-|[<-|[]]]; vm_compute in Hs; repeat (destruct Hs as [Hs|Hs]; [discriminate|]); exact Hs.
  - destruct (existsb (N.eqb x) (tx "\ :<>?*|" ++ [QUOTE])) eqn:E.
    + destruct Hx as [<-|[]]; vm_compute in Hs; repeat (destruct Hs as [Hs|Hs]; [discriminate|]); exact Hs.
    + destruct Hx as [<-|[]]. unfold special in Hs.
      change (tx "/\ :<>?*|" ++ [QUOTE]) with (SLASH :: tx "\ :<>?*|" ++ [QUOTE]) in Hs.
      destruct Hs as [Hs|Hs]; [congruence|].
      assert (X : existsb (N.eqb x) (tx "\ :<>?*|" ++ [QUOTE]) = true).
      { apply existsb_exists. exists x. split; auto. apply N.eqb_refl. }
      congruence.
Qed.

(** Ordinary characters are kept. *)
Lemma clean_id : forall s, (forall c, In c s -> ~ special c) -> clean_filename s = s.
Proof.
  induction s as [|c s IH]; intro H; [reflexivity|]. unfold clean_filename. simpl.
  change (flat_map clean_char s) with (clean_filename s). rewrite IH by (intros; apply H; now right).
  assert (Hc : ~ special c) by (apply H; now left). unfold special in Hc.
  change (tx "/\ :<>?*|" ++ [QUOTE]) with (SLASH :: tx "\ :<>?*|" ++ [QUOTE]) in Hc.
  unfold clean_char. destruct (N.eqb_spec c SLASH) as [->|Hn]; [exfalso; apply Hc; now left|].
  destruct (existsb (N.eqb c) (tx "\ :<>?*|" ++ [QUOTE])) eqn:E; [|reflexivity].
  apply existsb_exists in E. destruct E as [x [Hx Ex]]. apply N.eqb_eq in Ex. subst x.
  exfalso. apply Hc. now right.
Qed.

(** ** Loading *)

Lemma load_skip_iff : forall read tree rel pkg top, relative rel ->
  (load read tree rel pkg top = LoadSkipped <-> walk [] (components rel) = None).
Proof.
  intros read tree rel pkg top R. rewrite <- ascent_walk by auto. unfold load.
  destruct (Z.ltb_spec 0 (ascent rel)) as [H|H].
  - tauto.
  - split; [|lia]. destruct (read _); discriminate.
Qed.

Lemma walk_prefix : forall a b here, walk here (a ++ b) <> None -> walk here a <> None.
Proof.
  induction a as [|c a IH]; intros b here H; simpl in *; [discriminate|].
  destruct c; eauto. destruct here; eauto.
Qed.

Lemma load_inside : forall read tree rel pkg top f, relative rel -> tree <> [] ->
  load read tree rel pkg top = Loaded f ->
  exists s, read (path_join tree rel) = Some s
  /\ components (path_join tree rel) = components tree ++ no_cur (components rel)
  /\ (forall a b, components rel = a ++ b -> walk [] a <> None)
  /\ sf_code f = crlf_to_lf s /\ sf_path f = rel.
Proof.
  intros read tree rel pkg top f R Ht H.
  assert (W : walk [] (components rel) <> None).
  { intro E. apply (load_skip_iff read tree rel pkg top R) in E. congruence. }
  unfold load in H. destruct (0 <? ascent rel)%Z; [discriminate|].
  destruct (read (path_join tree rel)) as [s|] eqn:Er; [|discriminate]. inversion H; subst.
  exists s. split; auto. split; [now apply path_join_components|].
  split; [|split; reflexivity].
  intros a b E. rewrite E in W. now apply walk_prefix in W.
Qed.

Lemma load_skip_no_read : forall read read' tree rel pkg top,
  load read tree rel pkg top = LoadSkipped -> load read' tree rel pkg top = LoadSkipped.
Proof.
  intros. unfold load in *. destruct (0 <? ascent rel)%Z; auto. destruct (read _); discriminate.
Qed.

Lemma restore_exact : forall read tree rel pkg top f s,
  load read tree rel pkg top = Loaded f -> read (path_join tree rel) = Some s ->
  (sf_code f = s <-> forall i, cr_before_nl s i = false).
Proof.
  intros read tree rel pkg top f s H Hr. unfold load in H.
  destruct (0 <? ascent rel)%Z; [discriminate|]. rewrite Hr in H. inversion H; subst. simpl.
  split.
  - intros E i. destruct (cr_before_nl s i) eqn:Ei; auto. exfalso. eapply crlf_changed; eauto.
  - apply crlf_unix.
Qed.
