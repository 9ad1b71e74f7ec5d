From Coq Require Import String List NArith Bool Lia.
Import ListNotations.
From Verif Require Import Text PathM ProcessM OutcomeM OptionsM PackageM InDiffM CargoM CargoS.

Lemma filter_none : forall A (f : A -> bool) l, (forall x, In x l -> f x = false) -> filter f l = [].
Proof.
  induction l as [|x l IH]; intros H; [reflexivity|]. cbn. rewrite (H x) by (now left).
  apply IH. intros y Hy. apply H. now right.
Qed.

Lemma filter_all : forall A (f : A -> bool) l, (forall x, In x l -> f x = true) -> filter f l = l.
Proof.
  induction l as [|x l IH]; intros H; [reflexivity|]. cbn. rewrite (H x) by (now left).
  f_equal. apply IH. intros y Hy. apply H. now right.
Qed.

Ltac member := let x := fresh "x" in let H := fresh "H" in
  intros x H; repeat (destruct H as [<-|H]; [reflexivity|]); destruct H.

Lemma user_eq : forall ph o, op_additional_cargo_args o ++ (if phase_eqb ph Test then op_additional_cargo_test_args o else [])
  = user_args ph o.
Proof. now intros [| |] o. Qed.

Lemma argv_eq : forall e s ph o, cargo_argv e s ph o =
  cargo_bin e :: subcommand ph (op_test_tool o) ++ profile_args o ++ [tx "--verbose"]
  ++ package_args s ++ feature_args (op_features o) ++ user_args ph o.
Proof. intros. unfold cargo_argv. rewrite user_eq. reflexivity. Qed.

Lemma c25_selection : forall e s ph o,
  filter selects (tl (cargo_argv e s ph o)) =
  match s with
  | SelAll => [tx "--workspace"]
  | SelExplicit ps => map (fun p => tx "--package=" ++ pk_name p ++ tx "@" ++ pk_version p) ps
  end ++ filter selects (user_args ph o).
Proof.
  intros e s ph o. rewrite argv_eq. cbn [tl]. rewrite !filter_app.
  rewrite (filter_none _ _ (subcommand _ _)), (filter_none _ _ (profile_args o)), (filter_none _ _ [tx "--verbose"]),
          (filter_none _ _ (feature_args _)), (filter_all _ _ (package_args s)); cbn [app]; [reflexivity|..].
  - unfold package_args. destruct s as [|ps]; [member|]. intros x H. apply in_map_iff in H. destruct H as [p [<- _]].
    reflexivity.
  - unfold feature_args. intros x H. rewrite !in_app_iff, in_map_iff in H.
    destruct H as [H|[H|[f [<- _]]]].
    + destruct (fe_no_default _); [destruct H as [<-|[]]; reflexivity|destruct H].
    + destruct (fe_all _); [destruct H as [<-|[]]; reflexivity|destruct H].
    + reflexivity.
  - member.
  - unfold profile_args. destruct (op_profile o); [|intros x []]. destruct (op_test_tool o); member.
  - unfold subcommand. destruct ph, (op_test_tool o); member.
Qed.

Lemma c25_features : forall e s ph o,
  filter is_feature (tl (cargo_argv e s ph o)) =
  (if fe_no_default (op_features o) then [tx "--no-default-features"] else [])
  ++ (if fe_all (op_features o) then [tx "--all-features"] else [])
  ++ map (fun f => tx "--features=" ++ f) (fe_features (op_features o)) ++ filter is_feature (user_args ph o).
Proof.
  intros e s ph o. rewrite argv_eq. cbn [tl]. rewrite !filter_app.
  rewrite (filter_none _ _ (subcommand _ _)), (filter_none _ _ (profile_args o)), (filter_none _ _ [tx "--verbose"]),
          (filter_none _ _ (package_args s)), (filter_all _ _ (feature_args _)); cbn [app].
  - unfold feature_args. now rewrite <- !app_assoc.
  - unfold feature_args. intros x H. rewrite !in_app_iff, in_map_iff in H.
    destruct H as [H|[H|[f [<- _]]]].
    + destruct (fe_no_default _); [destruct H as [<-|[]]; reflexivity|destruct H].
    + destruct (fe_all _); [destruct H as [<-|[]]; reflexivity|destruct H].
    + reflexivity.
  - unfold package_args. destruct s as [|ps]; [member|]. intros x H. apply in_map_iff in H. destruct H as [p [<- _]].
    reflexivity.
  - member.
  - unfold profile_args. destruct (op_profile o); [|intros x []]. destruct (op_test_tool o); member.
  - unfold subcommand. destruct ph, (op_test_tool o); member.
Qed.

Lemma c25_profile : forall e s ph o,
  filter is_profile (tl (cargo_argv e s ph o)) =
  match op_profile o with
  | None => []
  | Some p => [match op_test_tool o with ToolCargo => tx "--profile=" | ToolNextest => tx "--cargo-profile=" end ++ p]
  end ++ filter is_profile (user_args ph o).
Proof.
  intros e s ph o. rewrite argv_eq. cbn [tl]. rewrite !filter_app.
  rewrite (filter_none _ _ (subcommand _ _)), (filter_none _ _ (feature_args _)), (filter_none _ _ [tx "--verbose"]),
          (filter_none _ _ (package_args s)), (filter_all _ _ (profile_args o)); cbn [app].
  - unfold profile_args. destruct (op_profile o), (op_test_tool o); reflexivity.
  - unfold profile_args. destruct (op_profile o); [|intros x []]. destruct (op_test_tool o); member.
  - unfold package_args. destruct s as [|ps]; [member|]. intros x H. apply in_map_iff in H. destruct H as [p [<- _]].
    reflexivity.
  - member.
  - unfold feature_args. intros x H. rewrite !in_app_iff, in_map_iff in H.
    destruct H as [H|[H|[f [<- _]]]].
    + destruct (fe_no_default _); [destruct H as [<-|[]]; reflexivity|destruct H].
    + destruct (fe_all _); [destruct H as [<-|[]]; reflexivity|destruct H].
    + reflexivity.
  - unfold subcommand. destruct ph, (op_test_tool o); member.
Qed.

Lemma c25_test_args : forall e s o l,
  cargo_argv e s Test (with_test_args o l) = cargo_argv e s Test (with_test_args o []) ++ l
  /\ cargo_argv e s Build (with_test_args o l) = cargo_argv e s Build o
  /\ cargo_argv e s Check (with_test_args o l) = cargo_argv e s Check o.
Proof.
  intros. rewrite !argv_eq. split; [|split; reflexivity].
  unfold user_args. cbn [with_test_args op_additional_cargo_args op_additional_cargo_test_args op_test_tool op_features].
  change (profile_args (with_test_args o l)) with (profile_args o).
  change (profile_args (with_test_args o [])) with (profile_args o).
  rewrite app_nil_r. cbn [app]. f_equal. rewrite <- !app_assoc. cbn [app]. rewrite <- !app_assoc. reflexivity.
Qed.

Lemma c25_user_last : forall e s ph o, exists pre, cargo_argv e s ph o = pre ++ user_args ph o.
Proof.
  intros. rewrite argv_eq.
  exists (cargo_bin e :: subcommand ph (op_test_tool o) ++ profile_args o ++ [tx "--verbose"]
  ++ package_args s ++ feature_args (op_features o)). cbn [app]. rewrite <- !app_assoc. cbn [app]. now rewrite <- !app_assoc.
Qed.

Lemma c25_executes : forall e s ph o,
  (ph <> Test -> ~ executes_tests (tl (cargo_argv e s ph o)))
  /\ (ph = Test -> ~ In (tx "--no-run") (user_args ph o) -> executes_tests (tl (cargo_argv e s ph o))).
Proof.
  intros e s ph o. rewrite argv_eq. cbn [tl]. split.
  - intros N [[[r H]|[r H]] K]; destruct ph; try congruence; unfold subcommand in H, K;
      destruct (op_test_tool o); cbn [app] in H, K; try discriminate H; apply K; cbn; auto.
  - intros -> U. split.
    + unfold subcommand. destruct (op_test_tool o); [left|right]; eexists; reflexivity.
    + intros H. rewrite !in_app_iff in H. destruct H as [H|[H|[H|[H|[H|H]]]]].
      * unfold subcommand in H. destruct (op_test_tool o); repeat (destruct H as [H|H]; [discriminate H|]); exact H.
      * unfold profile_args in H. destruct (op_profile o); [|exact H].
        destruct (op_test_tool o); destruct H as [H|[]]; discriminate H.
      * destruct H as [H|[]]. discriminate H.
      * unfold package_args in H. destruct s as [|ps]; [destruct H as [H|[]]; discriminate H|].
        apply in_map_iff in H. destruct H as [p [H _]]. discriminate H.
      * unfold feature_args in H. rewrite !in_app_iff, in_map_iff in H. destruct H as [H|[H|[f [H _]]]].
        -- destruct (fe_no_default _); [destruct H as [H|[]]; discriminate H|destruct H].
        -- destruct (fe_all _); [destruct H as [H|[]]; discriminate H|destruct H].
        -- discriminate H.
      * exact (U H).
Qed.

(** ** Flags *)

Lemma child_enc : forall e o, child_env e (cargo_env e o) (tx "CARGO_ENCODED_RUSTFLAGS")
  = match encoded_rustflags e o with Some f => Some f | None => e (tx "CARGO_ENCODED_RUSTFLAGS") end.
Proof. intros. unfold cargo_env. destruct (encoded_rustflags e o); reflexivity. Qed.

Lemma child_other : forall e o n, n <> tx "CARGO_ENCODED_RUSTFLAGS" -> n <> tx "INSTA_UPDATE" -> n <> tx "INSTA_FORCE_PASS" ->
  child_env e (cargo_env e o) n = e n.
Proof.
  intros e o n H1 H2 H3. apply text_eqb_neq in H1, H2, H3. unfold cargo_env.
  destruct (encoded_rustflags e o); cbn [app child_env]; now rewrite ?H1, ?H2, ?H3.
Qed.

Lemma split_app_sep : forall c a b, split_on c (a ++ c :: b) = split_on c a ++ split_on c b.
Proof.
  induction a as [|x a IH]; intros b; cbn [app split_on].
  - now rewrite N.eqb_refl.
  - destruct (N.eqb x c) eqn:E; [now rewrite IH|]. rewrite IH. destruct (split_on c a) eqn:F; [|reflexivity].
    exfalso. exact (split_on_nonempty c a F).
Qed.

Lemma trim_start_id : forall s, (forall c, In c s -> is_whitespace c = false) -> trim_start s = s.
Proof. intros [|c s] H; [reflexivity|]. cbn. now rewrite (H c) by (now left). Qed.

Lemma trim_id : forall s, (forall c, In c s -> is_whitespace c = false) -> trim s = s.
Proof.
  intros s H. unfold trim. rewrite (trim_start_id s H), (trim_start_id (rev s)), rev_involutive; [reflexivity|].
  intros c K. apply H. now apply in_rev.
Qed.

Lemma split_on_sub : forall c s w x, In w (split_on c s) -> In x w -> In x s.
Proof.
  induction s as [|y s IH]; intros w x Hw Hx.
  - destruct Hw as [<-|[]]. destruct Hx.
  - cbn [split_on] in Hw. destruct (N.eqb y c).
    + destruct Hw as [<-|Hw]; [destruct Hx|]. right. eauto.
    + destruct (split_on c s) as [|a l] eqn:E.
      * destruct Hw as [<-|[]]. destruct Hx as [<-|[]]. now left.
      * destruct Hw as [<-|Hw].
        -- destruct Hx as [<-|Hx]; [now left|]. right. apply (IH a x); [now left|exact Hx].
        -- right. apply (IH w x); [now right|exact Hx].
Qed.

Lemma pieces_clean : forall s w c, spaces_only s -> In w (split_on SP s) -> In c w -> is_whitespace c = false /\ c <> US.
Proof.
  intros s w c H Hw Hc. destruct (H c (split_on_sub _ _ _ _ Hw Hc)) as [A B]. split; [|exact B].
  destruct (is_whitespace c) eqn:E; [|reflexivity]. exfalso. rewrite (A eq_refl) in Hc.
  exact (split_on_pieces SP s w Hw Hc).
Qed.

Lemma map_id_in : forall A (f : A -> A) l, (forall x, In x l -> f x = x) -> map f l = l.
Proof. induction l as [|x l IH]; intros H; [reflexivity|]. cbn. rewrite H, IH; auto using in_eq, in_cons. Qed.

Lemma c26_on : forall e o, op_cap_lints o = true ->
  (forall s, e (tx "CARGO_ENCODED_RUSTFLAGS") = None -> e (tx "RUSTFLAGS") = Some s -> spaces_only s) ->
  forall config, rustc_flags (child_env e (cargo_env e o)) config = rustc_flags e [] ++ [tx "--cap-lints=warn"].
Proof.
  intros e o C S config. unfold rustc_flags at 1. rewrite child_enc. unfold encoded_rustflags. rewrite C. cbn [negb].
  unfold rustc_flags.
  destruct (e (tx "CARGO_ENCODED_RUSTFLAGS")) as [enc|] eqn:E1.
  - destruct enc as [|c enc]; [reflexivity|]. cbn [text_eqb].
    change ((c :: enc) ++ [US] ++ CAP_LINTS) with ((c :: enc) ++ US :: CAP_LINTS).
    change 31%N with US. rewrite (split_app_sep US (c :: enc) CAP_LINTS). reflexivity.
  - destruct (e (tx "RUSTFLAGS")) as [s|] eqn:E2; [|reflexivity].
    specialize (S s eq_refl eq_refl). destruct s as [|c s]; [reflexivity|].
    pose (ws := filter (fun s0 : text => negb (text_eqb s0 [])) (split_on SP (c :: s))).
    rewrite (map_id_in _ trim (split_on SP (c :: s))).
    2:{ intros w Hw. apply trim_id. intros d Hd. exact (proj1 (pieces_clean _ _ _ S Hw Hd)). }
    change (let f := join [US] (ws ++ [CAP_LINTS]) in (if text_eqb f [] then [] else split_on US f) = ws ++ [CAP_LINTS]).
    cbv zeta.
    assert (split_on US (join [US] (ws ++ [CAP_LINTS])) = ws ++ [CAP_LINTS]) as J.
    { apply split_on_join; [now destruct ws|]. intros w Hw. apply in_app_iff in Hw. destruct Hw as [Hw|[<-|[]]].
      - intros K. apply filter_In in Hw. exact (proj2 (pieces_clean _ _ _ S (proj1 Hw) K) eq_refl).
      - intros K. vm_compute in K. repeat (destruct K as [K|K]; [discriminate K|]). destruct K. }
    rewrite J. destruct (text_eqb (join [US] (ws ++ [CAP_LINTS])) []) eqn:E3; [|reflexivity].
    exfalso. apply text_eqb_eq in E3. rewrite E3 in J. destruct ws as [|w [|w' ws']]; discriminate J.
Qed.

Lemma c26_off : forall e o, op_cap_lints o = false ->
  forall config, rustc_flags (child_env e (cargo_env e o)) config = rustc_flags e config
  /\ forall n, n <> tx "INSTA_UPDATE" -> n <> tx "INSTA_FORCE_PASS" -> child_env e (cargo_env e o) n = e n.
Proof.
  intros e o C config.
  assert (encoded_rustflags e o = None) as N. { unfold encoded_rustflags. now rewrite C. }
  assert (forall n, n <> tx "INSTA_UPDATE" -> n <> tx "INSTA_FORCE_PASS" -> child_env e (cargo_env e o) n = e n) as K.
  { intros n H2 H3. apply text_eqb_neq in H2, H3. unfold cargo_env. rewrite N. cbn [app child_env].
    now rewrite ?H2, ?H3. }
  split; [|exact K]. unfold rustc_flags. now rewrite !K by discriminate.
Qed.

(** ** Tools and phases *)
Lemma c25_tool : forall e s ph o,
  match ph, op_test_tool o with
  | Check, _ => exists r, cargo_argv e s ph o = cargo_bin e :: tx "check" :: tx "--tests" :: r
  | _, ToolCargo => exists r, cargo_argv e s ph o = cargo_bin e :: tx "test" :: r
  | _, ToolNextest => exists r, cargo_argv e s ph o = cargo_bin e :: tx "nextest" :: tx "run" :: r
  end.
Proof.
  intros e s ph o. rewrite argv_eq. destruct ph; destruct (op_test_tool o); cbn [subcommand app]; eexists; reflexivity.
Qed.

Lemma c25_build_as_test : forall e s o, op_additional_cargo_test_args o = [] -> exists pre post,
  cargo_argv e s Build o = pre ++ tx "--no-run" :: post /\ cargo_argv e s Test o = pre ++ post.
Proof.
  intros e s o H. rewrite !argv_eq. unfold user_args. rewrite H. destruct (op_test_tool o); cbn [subcommand app].
  - exists [cargo_bin e; tx "test"]. eexists. split; reflexivity.
  - exists [cargo_bin e; tx "nextest"; tx "run"]. eexists. split; reflexivity.
Qed.
