(** Proofs about the configuration file. *)
From Coq Require Import String List NArith ZArith QArith Bool Permutation.
From Verif Require Import Text F64M F64S F64P OptionsM WholeM ConfigM ConfigS.
Import ListNotations.
Open Scope list_scope.

Lemma all_strings_iff : forall l ts, all_strings l = Some ts <-> l = map VStr ts.
Proof.
  induction l as [|v l IH]; intros ts; cbn [all_strings].
  - destruct ts; cbn [map]; split; intro H; try discriminate; reflexivity.
  - destruct v as [t|z|x|b| |vs|es]; cbn [de_string]; try (split; [discriminate|destruct ts; discriminate]).
    destruct (all_strings l) as [ts'|] eqn:E.
    + split; intro H.
      * injection H as <-. cbn [map]. f_equal. apply IH. reflexivity.
      * destruct ts as [|t0 ts]; [discriminate|]. cbn [map] in H. injection H as -> H. apply IH in H. congruence.
    + split; [discriminate|]. intro H. destruct ts as [|t0 ts]; [discriminate|]. cbn [map] in H. injection H as -> H.
      apply IH in H. discriminate.
Qed.
Lemma de_bool_iff : forall v b, de_bool v = Some b <-> is_bool v b.
Proof. intros v b. unfold is_bool. destruct v; cbn [de_bool]; split; congruence. Qed.
Lemma de_string_iff : forall v t, de_string v = Some t <-> is_string v t.
Proof. intros v b. unfold is_string. destruct v; cbn [de_string]; split; congruence. Qed.
Lemma de_strings_iff : forall v l, de_strings v = Some l <-> is_strings v l.
Proof.
  intros v l. unfold is_strings. destruct v; cbn [de_strings]; try (split; congruence). rewrite all_strings_iff. split; congruence.
Qed.
Lemma de_f64_iff : forall v x, de_f64 v = Some x <-> is_number v x.
Proof.
  intros v x. split; intro H.
  - destruct v; cbn [de_f64] in H; try discriminate; injection H as <-; constructor.
  - inversion H; reflexivity.
Qed.
Section P.
Variable et : list entry -> option test_tool.
Lemma de_test_tool_iff : forall v x, de_test_tool et v = Some x <-> is_tool et v x.
Proof.
  intros v x. split; intro H.
  - destruct v as [t|z|f|b| |vs|es]; cbn [de_test_tool] in H; try discriminate; [|constructor; exact H].
    destruct (text_eqb t (tx "cargo")) eqn:E; [apply text_eqb_eq in E; injection H as <-; subst; constructor|].
    destruct (text_eqb t (tx "nextest")) eqn:E'; [apply text_eqb_eq in E'; injection H as <-; subst; constructor|discriminate].
  - inversion H; subst; try reflexivity. assumption.
Qed.
Lemma some_iff : forall A (means : value -> A -> Prop) (r : option A) v y, (forall x, r = Some x <-> means v x) ->
  some r = Some y <-> given means v y.
Proof.
  intros A means r v y R. unfold some. split; intro H.
  - destruct r as [x|]; [|discriminate]. cbn [option_map] in H. injection H as <-. constructor. apply R. reflexivity.
  - inversion H as [v' x M E1 E2]; subst. apply R in M. rewrite M. reflexivity.
Qed.

Ltac means_it :=
  first [ apply de_bool_iff; assumption | apply de_strings_iff; assumption
        | apply (some_iff _ is_bool _ _ _ (de_bool_iff _)); assumption
        | apply (some_iff _ is_string _ _ _ (de_string_iff _)); assumption
        | apply (some_iff _ is_number _ _ _ (de_f64_iff _)); assumption
        | apply (some_iff _ (is_tool et) _ _ _ (de_test_tool_iff _)); assumption ].
Ltac each_key H :=
  unfold set_field in H;
  repeat match type of H with
  | (if text_eqb ?k ?n then _ else _) = _ =>
      let E := fresh "E" in destruct (text_eqb k n) eqn:E;
      [ apply text_eqb_eq in E | apply text_eqb_neq in E ]
  end.
Definition touched {A} (k n : text) (v : value) (means : value -> A -> Prop) (x0 x : A) : Prop := (k = n -> means v x) /\ (k <> n -> x = x0).
Ltac touch :=
  match goal with H : option_map _ ?d = Some _ |- _ =>
    let x := fresh "x" in let D := fresh "D" in destruct d as [x|] eqn:D; cbn [option_map] in H; [|discriminate]; injection H as <-
  end.

Lemma set_cap_lints : forall k v c c', set_field et k v c = Some c' -> touched k (tx "cap_lints") v is_bool (cf_cap_lints c) (cf_cap_lints c').
Proof.
  intros k v c c' H. each_key H; try discriminate; touch;
    (split; [intro K; try (exfalso; congruence); try (subst k; discriminate K); cbn [cf_cap_lints]; means_it | intro K; try contradiction; reflexivity]).
Qed.
Lemma set_copy_vcs : forall k v c c', set_field et k v c = Some c' -> touched k (tx "copy_vcs") v (given is_bool) (cf_copy_vcs c) (cf_copy_vcs c').
Proof.
  intros k v c c' H. each_key H; try discriminate; touch;
    (split; [intro K; try (exfalso; congruence); try (subst k; discriminate K); cbn [cf_copy_vcs]; means_it | intro K; try contradiction; reflexivity]).
Qed.
Lemma set_error_values : forall k v c c', set_field et k v c = Some c' -> touched k (tx "error_values") v is_strings (cf_error_values c) (cf_error_values c').
Proof.
  intros k v c c' H. each_key H; try discriminate; touch;
    (split; [intro K; try (exfalso; congruence); try (subst k; discriminate K); cbn [cf_error_values]; means_it | intro K; try contradiction; reflexivity]).
Qed.
Lemma set_examine_globs : forall k v c c', set_field et k v c = Some c' -> touched k (tx "examine_globs") v is_strings (cf_examine_globs c) (cf_examine_globs c').
Proof.
  intros k v c c' H. each_key H; try discriminate; touch;
    (split; [intro K; try (exfalso; congruence); try (subst k; discriminate K); cbn [cf_examine_globs]; means_it | intro K; try contradiction; reflexivity]).
Qed.
Lemma set_exclude_globs : forall k v c c', set_field et k v c = Some c' -> touched k (tx "exclude_globs") v is_strings (cf_exclude_globs c) (cf_exclude_globs c').
Proof.
  intros k v c c' H. each_key H; try discriminate; touch;
    (split; [intro K; try (exfalso; congruence); try (subst k; discriminate K); cbn [cf_exclude_globs]; means_it | intro K; try contradiction; reflexivity]).
Qed.
Lemma set_exclude_re : forall k v c c', set_field et k v c = Some c' -> touched k (tx "exclude_re") v is_strings (cf_exclude_re c) (cf_exclude_re c').
Proof.
  intros k v c c' H. each_key H; try discriminate; touch;
    (split; [intro K; try (exfalso; congruence); try (subst k; discriminate K); cbn [cf_exclude_re]; means_it | intro K; try contradiction; reflexivity]).
Qed.
Lemma set_examine_re : forall k v c c', set_field et k v c = Some c' -> touched k (tx "examine_re") v is_strings (cf_examine_re c) (cf_examine_re c').
Proof.
  intros k v c c' H. each_key H; try discriminate; touch;
    (split; [intro K; try (exfalso; congruence); try (subst k; discriminate K); cbn [cf_examine_re]; means_it | intro K; try contradiction; reflexivity]).
Qed.
Lemma set_additional_cargo_args : forall k v c c', set_field et k v c = Some c' -> touched k (tx "additional_cargo_args") v is_strings (cf_additional_cargo_args c) (cf_additional_cargo_args c').
Proof.
  intros k v c c' H. each_key H; try discriminate; touch;
    (split; [intro K; try (exfalso; congruence); try (subst k; discriminate K); cbn [cf_additional_cargo_args]; means_it | intro K; try contradiction; reflexivity]).
Qed.
Lemma set_additional_cargo_test_args : forall k v c c', set_field et k v c = Some c' -> touched k (tx "additional_cargo_test_args") v is_strings (cf_additional_cargo_test_args c) (cf_additional_cargo_test_args c').
Proof.
  intros k v c c' H. each_key H; try discriminate; touch;
    (split; [intro K; try (exfalso; congruence); try (subst k; discriminate K); cbn [cf_additional_cargo_test_args]; means_it | intro K; try contradiction; reflexivity]).
Qed.
Lemma set_minimum_test_timeout : forall k v c c', set_field et k v c = Some c' -> touched k (tx "minimum_test_timeout") v (given is_number) (cf_minimum_test_timeout c) (cf_minimum_test_timeout c').
Proof.
  intros k v c c' H. each_key H; try discriminate; touch;
    (split; [intro K; try (exfalso; congruence); try (subst k; discriminate K); cbn [cf_minimum_test_timeout]; means_it | intro K; try contradiction; reflexivity]).
Qed.
Lemma set_output : forall k v c c', set_field et k v c = Some c' -> touched k (tx "output") v (given is_string) (cf_output c) (cf_output c').
Proof.
  intros k v c c' H. each_key H; try discriminate; touch;
    (split; [intro K; try (exfalso; congruence); try (subst k; discriminate K); cbn [cf_output]; means_it | intro K; try contradiction; reflexivity]).
Qed.
Lemma set_profile : forall k v c c', set_field et k v c = Some c' -> touched k (tx "profile") v (given is_string) (cf_profile c) (cf_profile c').
Proof.
  intros k v c c' H. each_key H; try discriminate; touch;
    (split; [intro K; try (exfalso; congruence); try (subst k; discriminate K); cbn [cf_profile]; means_it | intro K; try contradiction; reflexivity]).
Qed.
Lemma set_skip_calls : forall k v c c', set_field et k v c = Some c' -> touched k (tx "skip_calls") v is_strings (cf_skip_calls c) (cf_skip_calls c').
Proof.
  intros k v c c' H. each_key H; try discriminate; touch;
    (split; [intro K; try (exfalso; congruence); try (subst k; discriminate K); cbn [cf_skip_calls]; means_it | intro K; try contradiction; reflexivity]).
Qed.
Lemma set_skip_calls_defaults : forall k v c c', set_field et k v c = Some c' -> touched k (tx "skip_calls_defaults") v (given is_bool) (cf_skip_calls_defaults c) (cf_skip_calls_defaults c').
Proof.
  intros k v c c' H. each_key H; try discriminate; touch;
    (split; [intro K; try (exfalso; congruence); try (subst k; discriminate K); cbn [cf_skip_calls_defaults]; means_it | intro K; try contradiction; reflexivity]).
Qed.
Lemma set_test_package : forall k v c c', set_field et k v c = Some c' -> touched k (tx "test_package") v is_strings (cf_test_package c) (cf_test_package c').
Proof.
  intros k v c c' H. each_key H; try discriminate; touch;
    (split; [intro K; try (exfalso; congruence); try (subst k; discriminate K); cbn [cf_test_package]; means_it | intro K; try contradiction; reflexivity]).
Qed.
Lemma set_test_tool : forall k v c c', set_field et k v c = Some c' -> touched k (tx "test_tool") v (given (is_tool et)) (cf_test_tool c) (cf_test_tool c').
Proof.
  intros k v c c' H. each_key H; try discriminate; touch;
    (split; [intro K; try (exfalso; congruence); try (subst k; discriminate K); cbn [cf_test_tool]; means_it | intro K; try contradiction; reflexivity]).
Qed.
Lemma set_timeout_multiplier : forall k v c c', set_field et k v c = Some c' -> touched k (tx "timeout_multiplier") v (given is_number) (cf_timeout_multiplier c) (cf_timeout_multiplier c').
Proof.
  intros k v c c' H. each_key H; try discriminate; touch;
    (split; [intro K; try (exfalso; congruence); try (subst k; discriminate K); cbn [cf_timeout_multiplier]; means_it | intro K; try contradiction; reflexivity]).
Qed.
Lemma set_build_timeout_multiplier : forall k v c c', set_field et k v c = Some c' -> touched k (tx "build_timeout_multiplier") v (given is_number) (cf_build_timeout_multiplier c) (cf_build_timeout_multiplier c').
Proof.
  intros k v c c' H. each_key H; try discriminate; touch;
    (split; [intro K; try (exfalso; congruence); try (subst k; discriminate K); cbn [cf_build_timeout_multiplier]; means_it | intro K; try contradiction; reflexivity]).
Qed.
Lemma set_test_workspace : forall k v c c', set_field et k v c = Some c' -> touched k (tx "test_workspace") v (given is_bool) (cf_test_workspace c) (cf_test_workspace c').
Proof.
  intros k v c c' H. each_key H; try discriminate; touch;
    (split; [intro K; try (exfalso; congruence); try (subst k; discriminate K); cbn [cf_test_workspace]; means_it | intro K; try contradiction; reflexivity]).
Qed.

Lemma sets_cons : forall A k v l n (means : value -> A -> Prop) x0 x1 x, ~ In k (map fst l) -> touched k n v means x0 x1 ->
  sets l n means x1 x -> sets ((k, v) :: l) n means x0 x.
Proof.
  intros A k v l n means x0 x1 x N [T1 T2] [(v' & I & M)|[I ->]].
  - left. exists v'. split; [right; exact I|exact M].
  - destruct (text_eqb k n) eqn:E.
    + apply text_eqb_eq in E. left. exists v. split; [left; rewrite E; reflexivity|apply T1, E].
    + apply text_eqb_neq in E. right. split; [|apply T2, E]. intros v' [H|H]; [injection H as H _; contradiction|exact (I v' H)].
Qed.



Ltac member := cbn [map In]; repeat (first [left; reflexivity | right]).
Lemma set_fits : forall k v c c', set_field et k v c = Some c' -> fits et k v.
Proof.
  intros k v c c' H. unfold fits. each_key H; try discriminate; touch; subst k; unfold some in *;
  repeat match goal with D : option_map Some ?d = Some _ |- _ => destruct d eqn:?; [clear D|discriminate] end;
  first [ left; split; [member; fail|eexists; apply de_bool_iff; eassumption]
        | right; left; split; [member; fail|eexists; apply de_strings_iff; eassumption]
        | right; right; left; split; [member; fail|eexists; apply de_f64_iff; eassumption]
        | right; right; right; left; split; [member; fail|eexists; apply de_string_iff; eassumption]
        | right; right; right; right; split; [member; fail|eexists; apply de_test_tool_iff; eassumption] ].
Qed.
Ltac keys :=
  repeat match goal with |- context [text_eqb (tx ?a) (tx ?b)] =>
    let r := eval vm_compute in (text_eqb (tx a) (tx b)) in change (text_eqb (tx a) (tx b)) with r; cbn iota
  end.
Lemma fits_set : forall k v c, fits et k v -> exists c', set_field et k v c = Some c'.
Proof.
  intros k v c [[I [x X]]|[[I [x X]]|[[I [x X]]|[[I [x X]]|[I [x X]]]]]];
  [apply de_bool_iff in X|apply de_strings_iff in X|apply de_f64_iff in X|apply de_string_iff in X|apply de_test_tool_iff in X];
  cbn [map In] in I; repeat (destruct I as [<-|I]; [unfold set_field; keys; unfold some; rewrite X; cbn [option_map]; eexists; reflexivity|]);
  destruct I.
Qed.
Lemma fits_known : forall k v, fits et k v -> In k setting_names.
Proof.
  intros k v [[I _]|[[I _]|[[I _]|[[I _]|[I _]]]]]; unfold setting_names; cbn [map In] in *;
  repeat (destruct I as [<-|I]; [repeat (first [left; reflexivity|right])|]); destruct I.
Qed.

(** What the loop makes of a configuration. *)
Record goes (l : list entry) (c0 c : config) : Prop := mkGoes {
  go_cap_lints : sets l (tx "cap_lints") is_bool (cf_cap_lints c0) (cf_cap_lints c);
  go_copy_vcs : sets l (tx "copy_vcs") (given is_bool) (cf_copy_vcs c0) (cf_copy_vcs c);
  go_error_values : sets l (tx "error_values") is_strings (cf_error_values c0) (cf_error_values c);
  go_examine_globs : sets l (tx "examine_globs") is_strings (cf_examine_globs c0) (cf_examine_globs c);
  go_exclude_globs : sets l (tx "exclude_globs") is_strings (cf_exclude_globs c0) (cf_exclude_globs c);
  go_exclude_re : sets l (tx "exclude_re") is_strings (cf_exclude_re c0) (cf_exclude_re c);
  go_examine_re : sets l (tx "examine_re") is_strings (cf_examine_re c0) (cf_examine_re c);
  go_additional_cargo_args : sets l (tx "additional_cargo_args") is_strings (cf_additional_cargo_args c0) (cf_additional_cargo_args c);
  go_additional_cargo_test_args : sets l (tx "additional_cargo_test_args") is_strings (cf_additional_cargo_test_args c0) (cf_additional_cargo_test_args c);
  go_minimum_test_timeout : sets l (tx "minimum_test_timeout") (given is_number) (cf_minimum_test_timeout c0) (cf_minimum_test_timeout c);
  go_output : sets l (tx "output") (given is_string) (cf_output c0) (cf_output c);
  go_profile : sets l (tx "profile") (given is_string) (cf_profile c0) (cf_profile c);
  go_skip_calls : sets l (tx "skip_calls") is_strings (cf_skip_calls c0) (cf_skip_calls c);
  go_skip_calls_defaults : sets l (tx "skip_calls_defaults") (given is_bool) (cf_skip_calls_defaults c0) (cf_skip_calls_defaults c);
  go_test_package : sets l (tx "test_package") is_strings (cf_test_package c0) (cf_test_package c);
  go_test_tool : sets l (tx "test_tool") (given (is_tool et)) (cf_test_tool c0) (cf_test_tool c);
  go_timeout_multiplier : sets l (tx "timeout_multiplier") (given is_number) (cf_timeout_multiplier c0) (cf_timeout_multiplier c);
  go_build_timeout_multiplier : sets l (tx "build_timeout_multiplier") (given is_number) (cf_build_timeout_multiplier c0) (cf_build_timeout_multiplier c);
  go_test_workspace : sets l (tx "test_workspace") (given is_bool) (cf_test_workspace c0) (cf_test_workspace c) }.

Lemma goes_nil : forall c, goes [] c c.
Proof. intro c. constructor; right; (split; [intros v []|reflexivity]). Qed.
Lemma goes_cons : forall k v l c0 c1 c, ~ In k (map fst l) -> set_field et k v c0 = Some c1 -> goes l c1 c -> goes ((k, v) :: l) c0 c.
Proof.
  intros k v l c0 c1 c N S G. constructor.
  - exact (sets_cons _ _ _ _ _ _ _ _ _ N (set_cap_lints _ _ _ _ S) (go_cap_lints _ _ _ G)).
  - exact (sets_cons _ _ _ _ _ _ _ _ _ N (set_copy_vcs _ _ _ _ S) (go_copy_vcs _ _ _ G)).
  - exact (sets_cons _ _ _ _ _ _ _ _ _ N (set_error_values _ _ _ _ S) (go_error_values _ _ _ G)).
  - exact (sets_cons _ _ _ _ _ _ _ _ _ N (set_examine_globs _ _ _ _ S) (go_examine_globs _ _ _ G)).
  - exact (sets_cons _ _ _ _ _ _ _ _ _ N (set_exclude_globs _ _ _ _ S) (go_exclude_globs _ _ _ G)).
  - exact (sets_cons _ _ _ _ _ _ _ _ _ N (set_exclude_re _ _ _ _ S) (go_exclude_re _ _ _ G)).
  - exact (sets_cons _ _ _ _ _ _ _ _ _ N (set_examine_re _ _ _ _ S) (go_examine_re _ _ _ G)).
  - exact (sets_cons _ _ _ _ _ _ _ _ _ N (set_additional_cargo_args _ _ _ _ S) (go_additional_cargo_args _ _ _ G)).
  - exact (sets_cons _ _ _ _ _ _ _ _ _ N (set_additional_cargo_test_args _ _ _ _ S) (go_additional_cargo_test_args _ _ _ G)).
  - exact (sets_cons _ _ _ _ _ _ _ _ _ N (set_minimum_test_timeout _ _ _ _ S) (go_minimum_test_timeout _ _ _ G)).
  - exact (sets_cons _ _ _ _ _ _ _ _ _ N (set_output _ _ _ _ S) (go_output _ _ _ G)).
  - exact (sets_cons _ _ _ _ _ _ _ _ _ N (set_profile _ _ _ _ S) (go_profile _ _ _ G)).
  - exact (sets_cons _ _ _ _ _ _ _ _ _ N (set_skip_calls _ _ _ _ S) (go_skip_calls _ _ _ G)).
  - exact (sets_cons _ _ _ _ _ _ _ _ _ N (set_skip_calls_defaults _ _ _ _ S) (go_skip_calls_defaults _ _ _ G)).
  - exact (sets_cons _ _ _ _ _ _ _ _ _ N (set_test_package _ _ _ _ S) (go_test_package _ _ _ G)).
  - exact (sets_cons _ _ _ _ _ _ _ _ _ N (set_test_tool _ _ _ _ S) (go_test_tool _ _ _ G)).
  - exact (sets_cons _ _ _ _ _ _ _ _ _ N (set_timeout_multiplier _ _ _ _ S) (go_timeout_multiplier _ _ _ G)).
  - exact (sets_cons _ _ _ _ _ _ _ _ _ N (set_build_timeout_multiplier _ _ _ _ S) (go_build_timeout_multiplier _ _ _ G)).
  - exact (sets_cons _ _ _ _ _ _ _ _ _ N (set_test_workspace _ _ _ _ S) (go_test_workspace _ _ _ G)).
Qed.

Lemma visit_sound : forall l seen c0 c, visit_map et seen c0 l = Some c ->
  NoDup (map fst l) /\ (forall k v, In (k, v) l -> ~ In k seen /\ fits et k v) /\ goes l c0 c.
Proof.
  induction l as [|[k v] l IH]; intros seen c0 c H; cbn [visit_map] in H.
  - injection H as <-. split; [constructor|]. split; [intros k v []|apply goes_nil].
  - destruct (mem_text k seen) eqn:M; [discriminate|]. destruct (set_field et k v c0) as [c1|] eqn:S; [|discriminate].
    apply IH in H. destruct H as (ND & K & G).
    assert (N : ~ In k (map fst l)).
    { intro I. apply in_map_iff in I. destruct I as ([k' v'] & E & I). cbn [fst] in E. subst k'. apply K in I. destruct I as [I _]. apply I. left. reflexivity. }
    split; [cbn [map fst]; constructor; assumption|]. split; [|eapply goes_cons; eassumption].
    intros k' v' [E|I].
    + injection E as <- <-. split; [|eapply set_fits; eassumption]. intro I. apply mem_text_in in I. congruence.
    + apply K in I. destruct I as [I F]. split; [intro J; apply I; right; exact J|exact F].
Qed.
Lemma visit_complete : forall l seen c0, NoDup (map fst l) -> (forall k v, In (k, v) l -> ~ In k seen /\ fits et k v) ->
  exists c, visit_map et seen c0 l = Some c.
Proof.
  induction l as [|[k v] l IH]; intros seen c0 ND K; cbn [visit_map]; [eauto|].
  destruct (K k v (or_introl eq_refl)) as [N F]. destruct (mem_text k seen) eqn:M; [apply mem_text_in in M; contradiction|].
  destruct (fits_set k v c0 F) as [c1 ->]. inversion ND as [|? ? N' ND']; subst. apply IH; [exact ND'|].
  intros k' v' I. destruct (K k' v' (or_intror I)) as [N1 F1]. split; [|exact F1].
  intros [<-|J]; [|contradiction]. apply N'. apply in_map_iff. exists (k, v'). auto.
Qed.

Lemma entry_one : forall (l : list entry) k v v', NoDup (map fst l) -> In (k, v) l -> In (k, v') l -> v = v'.
Proof.
  induction l as [|[k0 v0] l IH]; intros k v v' ND I I'; [destruct I|]. inversion ND as [|? ? N ND']; subst.
  destruct I as [E|I], I' as [E'|I'].
  - congruence.
  - exfalso. apply N. injection E as <- <-. apply in_map_iff. exists (k0, v'). auto.
  - exfalso. apply N. injection E' as <- <-. apply in_map_iff. exists (k0, v). auto.
  - eapply IH; eassumption.
Qed.
Lemma sets_one : forall A (l : list entry) k (means : value -> A -> Prop) x0 x y, NoDup (map fst l) ->
  (forall v x y, means v x -> means v y -> x = y) -> sets l k means x0 x -> sets l k means x0 y -> x = y.
Proof.
  intros A l k means x0 x y ND F [(v & I & M)|[I ->]] [(v' & I' & M')|[I' ->]].
  - rewrite (entry_one l k v v' ND I I') in M. eapply F; eassumption.
  - destruct (I' _ I).
  - destruct (I _ I').
  - reflexivity.
Qed.
Lemma bool_one : forall v x y, is_bool v x -> is_bool v y -> x = y.
Proof. unfold is_bool. congruence. Qed.
Lemma string_one : forall v x y, is_string v x -> is_string v y -> x = y.
Proof. unfold is_string. congruence. Qed.
Lemma strings_one : forall v x y, is_strings v x -> is_strings v y -> x = y.
Proof. intros v x y X Y. apply de_strings_iff in X, Y. congruence. Qed.
Lemma number_one : forall v x y, is_number v x -> is_number v y -> x = y.
Proof. intros v x y X Y. apply de_f64_iff in X, Y. congruence. Qed.
Lemma tool_one : forall v x y, is_tool et v x -> is_tool et v y -> x = y.
Proof. intros v x y X Y. apply de_test_tool_iff in X, Y. congruence. Qed.
Lemma given_one : forall A (means : value -> A -> Prop), (forall v x y, means v x -> means v y -> x = y) ->
  forall v x y, given means v x -> given means v y -> x = y.
Proof. intros A means F v x y [v' x' X] Y. inversion Y as [v'' y' Y' E1 E2]; subst. f_equal. eapply F; eassumption. Qed.

Lemma goes_says : forall l c, goes l config_default c <-> says et l c.
Proof. intros l c. split; intro H; constructor; apply H. Qed.
Lemma says_one : forall l c c', NoDup (map fst l) -> says et l c -> says et l c' -> c = c'.
Proof.
  intros l c c' ND H H'.
  pose proof (sets_one _ _ _ _ _ _ _ ND bool_one (sy_cap_lints _ _ _ H) (sy_cap_lints _ _ _ H')) as E_cap_lints.
  pose proof (sets_one _ _ _ _ _ _ _ ND (given_one _ _ bool_one) (sy_copy_vcs _ _ _ H) (sy_copy_vcs _ _ _ H')) as E_copy_vcs.
  pose proof (sets_one _ _ _ _ _ _ _ ND strings_one (sy_error_values _ _ _ H) (sy_error_values _ _ _ H')) as E_error_values.
  pose proof (sets_one _ _ _ _ _ _ _ ND strings_one (sy_examine_globs _ _ _ H) (sy_examine_globs _ _ _ H')) as E_examine_globs.
  pose proof (sets_one _ _ _ _ _ _ _ ND strings_one (sy_exclude_globs _ _ _ H) (sy_exclude_globs _ _ _ H')) as E_exclude_globs.
  pose proof (sets_one _ _ _ _ _ _ _ ND strings_one (sy_exclude_re _ _ _ H) (sy_exclude_re _ _ _ H')) as E_exclude_re.
  pose proof (sets_one _ _ _ _ _ _ _ ND strings_one (sy_examine_re _ _ _ H) (sy_examine_re _ _ _ H')) as E_examine_re.
  pose proof (sets_one _ _ _ _ _ _ _ ND strings_one (sy_additional_cargo_args _ _ _ H) (sy_additional_cargo_args _ _ _ H')) as E_additional_cargo_args.
  pose proof (sets_one _ _ _ _ _ _ _ ND strings_one (sy_additional_cargo_test_args _ _ _ H) (sy_additional_cargo_test_args _ _ _ H')) as E_additional_cargo_test_args.
  pose proof (sets_one _ _ _ _ _ _ _ ND (given_one _ _ number_one) (sy_minimum_test_timeout _ _ _ H) (sy_minimum_test_timeout _ _ _ H')) as E_minimum_test_timeout.
  pose proof (sets_one _ _ _ _ _ _ _ ND (given_one _ _ string_one) (sy_output _ _ _ H) (sy_output _ _ _ H')) as E_output.
  pose proof (sets_one _ _ _ _ _ _ _ ND (given_one _ _ string_one) (sy_profile _ _ _ H) (sy_profile _ _ _ H')) as E_profile.
  pose proof (sets_one _ _ _ _ _ _ _ ND strings_one (sy_skip_calls _ _ _ H) (sy_skip_calls _ _ _ H')) as E_skip_calls.
  pose proof (sets_one _ _ _ _ _ _ _ ND (given_one _ _ bool_one) (sy_skip_calls_defaults _ _ _ H) (sy_skip_calls_defaults _ _ _ H')) as E_skip_calls_defaults.
  pose proof (sets_one _ _ _ _ _ _ _ ND strings_one (sy_test_package _ _ _ H) (sy_test_package _ _ _ H')) as E_test_package.
  pose proof (sets_one _ _ _ _ _ _ _ ND (given_one _ _ tool_one) (sy_test_tool _ _ _ H) (sy_test_tool _ _ _ H')) as E_test_tool.
  pose proof (sets_one _ _ _ _ _ _ _ ND (given_one _ _ number_one) (sy_timeout_multiplier _ _ _ H) (sy_timeout_multiplier _ _ _ H')) as E_timeout_multiplier.
  pose proof (sets_one _ _ _ _ _ _ _ ND (given_one _ _ number_one) (sy_build_timeout_multiplier _ _ _ H) (sy_build_timeout_multiplier _ _ _ H')) as E_build_timeout_multiplier.
  pose proof (sets_one _ _ _ _ _ _ _ ND (given_one _ _ bool_one) (sy_test_workspace _ _ _ H) (sy_test_workspace _ _ _ H')) as E_test_workspace.
  clear H H'. destruct c, c'. cbn [OptionsM.cf_cap_lints OptionsM.cf_copy_vcs OptionsM.cf_error_values OptionsM.cf_examine_globs OptionsM.cf_exclude_globs OptionsM.cf_exclude_re OptionsM.cf_examine_re OptionsM.cf_additional_cargo_args OptionsM.cf_additional_cargo_test_args OptionsM.cf_minimum_test_timeout OptionsM.cf_output OptionsM.cf_profile OptionsM.cf_skip_calls OptionsM.cf_skip_calls_defaults OptionsM.cf_test_package OptionsM.cf_test_tool OptionsM.cf_timeout_multiplier OptionsM.cf_build_timeout_multiplier OptionsM.cf_test_workspace] in *. subst. reflexivity.
Qed.

Lemma says_fits : forall l c k v, NoDup (map fst l) -> says et l c -> In (k, v) l -> In k setting_names -> fits et k v.
Proof.
  intros l c k v ND H I K.
  assert (G : forall A n (means : value -> A -> Prop) x0 x, sets l n means x0 x -> k = n -> exists y, means v y).
  { intros A n means x0 x [(v' & I' & M)|[N _]] ->; [rewrite (entry_one l n v v' ND I I'); eauto|destruct (N _ I)]. }
  assert (G' : forall A n (means : value -> A -> Prop) x0 x, sets l n (given means) x0 x -> k = n -> exists y, means v y).
  { intros A n means x0 x S E. destruct (G _ _ _ _ _ S E) as [y Y]. inversion Y as [v' z Z]; subst. eauto. }
  unfold fits. cbn [map In] in K |- *.
  destruct K as [K|K]; [left; split; [subst k; repeat (first [left; reflexivity|right]); fail|exact (G _ _ _ _ _ (sy_cap_lints _ _ _ H) (eq_sym K))]|].
  destruct K as [K|K]; [left; split; [subst k; repeat (first [left; reflexivity|right]); fail|exact (G' _ _ _ _ _ (sy_copy_vcs _ _ _ H) (eq_sym K))]|].
  destruct K as [K|K]; [right; left; split; [subst k; repeat (first [left; reflexivity|right]); fail|exact (G _ _ _ _ _ (sy_error_values _ _ _ H) (eq_sym K))]|].
  destruct K as [K|K]; [right; left; split; [subst k; repeat (first [left; reflexivity|right]); fail|exact (G _ _ _ _ _ (sy_examine_globs _ _ _ H) (eq_sym K))]|].
  destruct K as [K|K]; [right; left; split; [subst k; repeat (first [left; reflexivity|right]); fail|exact (G _ _ _ _ _ (sy_exclude_globs _ _ _ H) (eq_sym K))]|].
  destruct K as [K|K]; [right; left; split; [subst k; repeat (first [left; reflexivity|right]); fail|exact (G _ _ _ _ _ (sy_exclude_re _ _ _ H) (eq_sym K))]|].
  destruct K as [K|K]; [right; left; split; [subst k; repeat (first [left; reflexivity|right]); fail|exact (G _ _ _ _ _ (sy_examine_re _ _ _ H) (eq_sym K))]|].
  destruct K as [K|K]; [right; left; split; [subst k; repeat (first [left; reflexivity|right]); fail|exact (G _ _ _ _ _ (sy_additional_cargo_args _ _ _ H) (eq_sym K))]|].
  destruct K as [K|K]; [right; left; split; [subst k; repeat (first [left; reflexivity|right]); fail|exact (G _ _ _ _ _ (sy_additional_cargo_test_args _ _ _ H) (eq_sym K))]|].
  destruct K as [K|K]; [right; right; left; split; [subst k; repeat (first [left; reflexivity|right]); fail|exact (G' _ _ _ _ _ (sy_minimum_test_timeout _ _ _ H) (eq_sym K))]|].
  destruct K as [K|K]; [right; right; right; left; split; [subst k; repeat (first [left; reflexivity|right]); fail|exact (G' _ _ _ _ _ (sy_output _ _ _ H) (eq_sym K))]|].
  destruct K as [K|K]; [right; right; right; left; split; [subst k; repeat (first [left; reflexivity|right]); fail|exact (G' _ _ _ _ _ (sy_profile _ _ _ H) (eq_sym K))]|].
  destruct K as [K|K]; [right; left; split; [subst k; repeat (first [left; reflexivity|right]); fail|exact (G _ _ _ _ _ (sy_skip_calls _ _ _ H) (eq_sym K))]|].
  destruct K as [K|K]; [left; split; [subst k; repeat (first [left; reflexivity|right]); fail|exact (G' _ _ _ _ _ (sy_skip_calls_defaults _ _ _ H) (eq_sym K))]|].
  destruct K as [K|K]; [right; left; split; [subst k; repeat (first [left; reflexivity|right]); fail|exact (G _ _ _ _ _ (sy_test_package _ _ _ H) (eq_sym K))]|].
  destruct K as [K|K]; [right; right; right; right; split; [subst k; repeat (first [left; reflexivity|right]); fail|exact (G' _ _ _ _ _ (sy_test_tool _ _ _ H) (eq_sym K))]|].
  destruct K as [K|K]; [right; right; left; split; [subst k; repeat (first [left; reflexivity|right]); fail|exact (G' _ _ _ _ _ (sy_timeout_multiplier _ _ _ H) (eq_sym K))]|].
  destruct K as [K|K]; [right; right; left; split; [subst k; repeat (first [left; reflexivity|right]); fail|exact (G' _ _ _ _ _ (sy_build_timeout_multiplier _ _ _ H) (eq_sym K))]|].
  destruct K as [K|K]; [left; split; [subst k; repeat (first [left; reflexivity|right]); fail|exact (G' _ _ _ _ _ (sy_test_workspace _ _ _ H) (eq_sym K))]|].
  destruct K.
Qed.

Lemma config_iff : forall l c, config_of et l = Some c <->
  NoDup (map fst l) /\ (forall k v, In (k, v) l -> In k setting_names) /\ says et l c.
Proof.
  intros l c. split.
  - intro H. unfold config_of in H. apply (visit_sound l [] config_default c) in H. destruct H as (ND & K & G). split; [exact ND|]. split; [|apply goes_says, G].
    intros k v I. eapply fits_known. apply (K k v I).
  - intros (ND & K & S). destruct (visit_complete l [] config_default ND) as [c' H].
    + intros k v I. split; [intros []|]. eapply says_fits; eauto.
    + unfold config_of. rewrite H. f_equal. apply visit_sound in H. destruct H as (_ & _ & G). apply goes_says in G.
      eapply says_one; eassumption.
Qed.
Lemma accepted_iff : forall l, (exists c, config_of et l = Some c) <-> NoDup (map fst l) /\ forall k v, In (k, v) l -> fits et k v.
Proof.
  intro l. split.
  - intros [c H]. unfold config_of in H. apply (visit_sound l [] config_default c) in H. destruct H as (ND & K & _). split; [exact ND|]. intros k v I. apply (K k v I).
  - intros [ND K]. apply (visit_complete l [] config_default ND). intros k v I. split; [intros []|auto].
Qed.
Lemma sets_perm : forall A (l l' : list entry) k (means : value -> A -> Prop) x0 x, Permutation l l' -> sets l k means x0 x -> sets l' k means x0 x.
Proof.
  intros A l l' k means x0 x P [(v & I & M)|[N E]].
  - left. exists v. split; [eapply Permutation_in; eassumption|exact M].
  - right. split; [|exact E]. intros v I. apply (N v). eapply Permutation_in; [apply Permutation_sym; eassumption|exact I].
Qed.
Lemma config_perm' : forall l l' c, Permutation l l' -> config_of et l = Some c -> config_of et l' = Some c.
Proof.
  intros l l' c P H. apply config_iff in H. apply config_iff. destruct H as (ND & K & S). split; [|split].
  - eapply Permutation_NoDup; [apply Permutation_map; eassumption|exact ND].
  - intros k v I. apply (K k v). eapply Permutation_in; [apply Permutation_sym; eassumption|exact I].
  - destruct S. constructor; eapply sets_perm; eassumption.
Qed.
Lemma config_perm : forall l l', Permutation l l' -> config_of et l = config_of et l'.
Proof.
  intros l l' P. destruct (config_of et l) as [c|] eqn:E.
  - symmetry. eapply config_perm'; eassumption.
  - destruct (config_of et l') as [c|] eqn:E'; [|reflexivity]. rewrite <- E. eapply config_perm'; [apply Permutation_sym; eassumption|exact E'].
Qed.
End P.

(** Integers of up to 53 binary digits are taken as they are. *)
Lemma rnd_integer : forall z, (Z.abs z < 2 ^ 53)%Z -> (rnd64 (inject_Z z) == inject_Z z)%Q.
Proof.
  intros z Z0. destruct (rnd64_nearest (inject_Z z)) as [_ N].
  assert (F : is_float (inject_Z z)).
  { exists z, 0%Z. split; [exact Z0|]. split; [discriminate|]. unfold pow2. cbn. rewrite Qmult_1_r. reflexivity. }
  apply N in F. setoid_replace (inject_Z z - inject_Z z)%Q with 0%Q in F by ring. rewrite (Qabs.Qabs_pos 0) in F by (cbn; discriminate).
  assert (E : (inject_Z z - rnd64 (inject_Z z) == 0)%Q).
  { apply Qabs.Qabs_Qle_condition in F. destruct F as [F1 F2]. apply Qle_antisym; [exact F2|]. eapply Qle_trans; [|exact F1]. cbn. discriminate. }
  setoid_replace (rnd64 (inject_Z z)) with (inject_Z z - (inject_Z z - rnd64 (inject_Z z)))%Q by ring. rewrite E. ring.
Qed.
