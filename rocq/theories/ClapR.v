(** Proofs that the arguments are what the words say (C68). *)
From Coq Require Import String List NArith ZArith QArith Qpower Bool Arith Lia.
From Verif Require Import Text F64M SpanM PathM MutantM ShardM ShardS ShardP PackageM OptionsM OptionsP PrintM WalkM MainM WholeM ClapM ClapS ClapP ClapQ.
Import ListNotations.
Open Scope list_scope.
Open Scope nat_scope.

Definition named (n : string) (u : usage) : option row := match find (fun w => text_eqb (ro_name w) (tx n)) rows with
  | Some w => match ro_usage w, u with Single, Single | Repeated, Repeated => Some w | _, _ => None end
  | None => None end.
Lemma named_in : forall n u w, named n u = Some w -> In w rows /\ ro_name w = tx n /\ ro_usage w = u.
Proof.
  intros n u w H. unfold named in H. destruct (find (fun w => text_eqb (ro_name w) (tx n)) rows) as [x|] eqn:F; [|discriminate].
  apply find_some in F. destruct F as [F1 F2]. apply text_eqb_eq in F2. destruct (ro_usage x) eqn:U; destruct u; try discriminate; injection H as <-; auto.
Qed.

(** Levels. *)
Lemma number_no_word : forall t n w, parse_usize t = Some n -> Forall small (tx w) -> map lower t <> tx w.
Proof.
  intros t n w H Fw E. apply number_iff in H. destruct H as (d & Ht & Nd & D & _). apply spelled_iff in E; [|exact Fw]. apply digits_iff in D. destruct D as [D _].
  destruct d as [|c d]; [contradiction|]. cbn [forallb] in D. apply andb_true_iff in D. destruct D as [D _].
  destruct Ht as [->| ->]; apply (spelled_first _ _ w Fw) in E; destruct E as (E1 & E2 & E3); [congruence|]. destruct E3 as [E3 E4]; congruence.
Qed.
Lemma level_reads : forall t l, level_means t l <-> level_from_str t = Some l.
Proof.
  intros t l. unfold level_means.
  assert (F1 : Forall small (tx "error")) by small_tac. assert (F2 : Forall small (tx "warn")) by small_tac. assert (F3 : Forall small (tx "info")) by small_tac.
  assert (F4 : Forall small (tx "debug")) by small_tac. assert (F5 : Forall small (tx "trace")) by small_tac.
  assert (F : Forall small (tx (level_name l))) by (destruct l; assumption).
  rewrite (spelled_iff t _ F), <- number_iff, <- text_eqb_eq. unfold level_from_str. cbv zeta. destruct (parse_usize t) as [n|] eqn:P.
  - pose proof (fun w => number_no_word t n w P) as NW. assert (E : text_eqb (map lower t) (tx (level_name l)) = false) by (apply text_eqb_neq; apply NW; exact F). rewrite E.
    rewrite !(proj2 (text_eqb_neq _ _) (NW _ F1)), !(proj2 (text_eqb_neq _ _) (NW _ F2)), !(proj2 (text_eqb_neq _ _) (NW _ F3)), !(proj2 (text_eqb_neq _ _) (NW _ F4)), !(proj2 (text_eqb_neq _ _) (NW _ F5)).
    clear. destruct n as [|p]; [destruct l; split; intro H; try (destruct H as [H|H]); discriminate H|].
    destruct p as [[[p|p|]|[p|p|]|]|[[p|p|]|[p|p|]|]|]; destruct l; (split; intro H; [destruct H as [H|H]; first [discriminate H|reflexivity]|first [discriminate H|left; reflexivity]]).
  - destruct (text_eqb (map lower t) (tx "error")) eqn:E1; [apply text_eqb_eq in E1; rewrite E1; clear; destruct l; split; intro H; try (destruct H as [H|H]); try discriminate H; try reflexivity; right; reflexivity|].
    destruct (text_eqb (map lower t) (tx "warn")) eqn:E2; [apply text_eqb_eq in E2; rewrite E2; clear; destruct l; split; intro H; try (destruct H as [H|H]); try discriminate H; try reflexivity; right; reflexivity|].
    destruct (text_eqb (map lower t) (tx "info")) eqn:E3; [apply text_eqb_eq in E3; rewrite E3; clear; destruct l; split; intro H; try (destruct H as [H|H]); try discriminate H; try reflexivity; right; reflexivity|].
    destruct (text_eqb (map lower t) (tx "debug")) eqn:E4; [apply text_eqb_eq in E4; rewrite E4; clear; destruct l; split; intro H; try (destruct H as [H|H]); try discriminate H; try reflexivity; right; reflexivity|].
    destruct (text_eqb (map lower t) (tx "trace")) eqn:E5; [apply text_eqb_eq in E5; rewrite E5; clear; destruct l; split; intro H; try (destruct H as [H|H]); try discriminate H; try reflexivity; right; reflexivity|].
    destruct l; cbn [level_name]; split; intro H; try discriminate H; destruct H as [H|H]; congruence.
Qed.

Section Fields.
Variable us : list use.
Hypothesis (R : right us) (O : of_rows us).
Let m := map enc us.

Lemma uses_name : forall n (u : use), In u (uses_of n us) -> fst u = n /\ In u us.
Proof. intros n u H. unfold uses_of in H. apply filter_In in H. destruct H as [H1 H2]. apply text_eqb_eq in H2. auto. Qed.
Lemma map_same : forall A B (f g : A -> B) l, (forall x, In x l -> f x = g x) -> map f l = map g l.
Proof. intros A B f g l H. induction l as [|x l IH]; [reflexivity|]. cbn [map]. rewrite H by (left; reflexivity). rewrite IH by (intros; apply H; right; assumption). reflexivity. Qed.
Lemma list_shape : forall n w, In w rows -> ro_name w = tx n -> ro_usage w <> Switch ->
  uses_of (tx n) us = map (fun v => (tx n, Some v)) (list_of m n).
Proof.
  intros n w Hw Ew U. unfold list_of, m. rewrite values_texts. unfold texts_of. rewrite map_map. rewrite <- (map_id (uses_of (tx n) us)) at 1.
  apply map_same. intros u Hu. apply uses_name in Hu. destruct Hu as [E Hu]. unfold of_rows in O. rewrite Forall_forall in O. destruct (O u Hu) as (w' & Hw' & E' & S).
  assert (w' = w) by (apply row_same; [exact Hw'|exact Hw|congruence]). subst w'. destruct u as [k [v|]]; cbn [fst snd enc] in *; [subst; reflexivity|]. exfalso. apply U. apply S. reflexivity.
Qed.
Lemma value_shape : forall n w, named n Single = Some w -> uses_of (tx n) us = map (fun v => (tx n, Some v)) (opt_list (value m n)).
Proof.
  intros n w H. destruct (named_in _ _ _ H) as (Hw & Ew & U). assert (U' : ro_usage w <> Switch) by (rewrite U; discriminate).
  pose proof (list_shape n w Hw Ew U') as L. destruct R as [_ K]. specialize (K w Hw ltac:(rewrite U; discriminate)). rewrite Ew in K. rewrite L in K |- *. rewrite map_length in K.
  unfold value. change (values m (tx n)) with (list_of m n). destruct (list_of m n) as [|v [|v2 l]]; [reflexivity|reflexivity|cbn in K; lia].
Qed.
Lemma value_valid : forall n w v, named n Single = Some w -> value m n = Some v -> ro_valid w v.
Proof.
  intros n w v H E. pose proof (value_shape n w H) as S. rewrite E in S. cbn [opt_list map] in S. destruct (named_in _ _ _ H) as (Hw & Ew & _).
  destruct R as [V _]. rewrite Forall_forall in V. assert (I : In (tx n, Some v) us) by (apply (uses_name (tx n)); rewrite S; left; reflexivity).
  eapply (V _ I); [exact Hw|symmetry; exact Ew|reflexivity].
Qed.
Lemma pair_inj : forall (n : text) (a b : list text), map (fun v => (n, Some v)) a = map (fun v => (n, Some v)) b -> a = b.
Proof. intros n a. induction a as [|x a IH]; intros [|y b] H; try discriminate; [reflexivity|]. injection H as -> H. f_equal. apply IH. exact H. Qed.
Lemma opt_list_inj : forall A (a b : option A), opt_list a = opt_list b -> a = b.
Proof. intros A [x|] [y|] H; try discriminate; [injection H as ->|]; reflexivity. Qed.

Lemma flag_iff : forall n b, flag_is us n b <-> flag m n = b.
Proof.
  intros n b. unfold flag_is, flag. split.
  - intro H. destruct b; [apply present_iff; apply H; reflexivity|]. apply not_true_is_false. intro P. apply present_iff in P. apply H in P. discriminate.
  - intros <-. apply present_iff.
Qed.
Lemma list_iff : forall n w l, named n Repeated = Some w -> (list_is us n l <-> list_of m n = l).
Proof.
  intros n w l H. destruct (named_in _ _ _ H) as (Hw & Ew & U). unfold list_is. rewrite (list_shape n w Hw Ew) by (rewrite U; discriminate).
  split; [apply pair_inj|intros ->; reflexivity].
Qed.
Lemma value_iff : forall n w o, named n Single = Some w -> (value_is us n o <-> value m n = o).
Proof.
  intros n w o H. unfold value_is, list_is. rewrite (value_shape n w H). split; [|intros ->; reflexivity]. intro E. apply pair_inj in E. apply opt_list_inj in E. exact E.
Qed.
Lemma unused_value : forall n w, named n Single = Some w -> (~ used us (tx n) <-> value m n = None).
Proof.
  intros n w H. rewrite <- unused_iff. pose proof (value_shape n w H) as S. unfold use in *. rewrite S. destruct (value m n); cbn [opt_list map]; split; congruence.
Qed.
Lemma thing_iff : forall A (means : text -> A -> Prop) (read : text -> option A) n w o, named n Single = Some w ->
  (forall v x, means v x <-> read v = Some x) -> (forall v, ro_valid w v -> read v <> None) ->
  (thing_is us means n o <-> match value m n with Some v => read v | None => None end = o).
Proof.
  intros A means rd n w o H M V. unfold thing_is. destruct o as [x|].
  - split.
    + intros (v & Hv & Mv). apply (value_iff n w _ H) in Hv. rewrite Hv. apply M. exact Mv.
    + intro E. destruct (value m n) as [v|] eqn:Ev; [|discriminate]. exists v. split; [apply (value_iff n w _ H); exact Ev|apply M; exact E].
  - rewrite (unused_value n w H). split; [intros ->; reflexivity|]. intro E. destruct (value m n) as [v|] eqn:Ev; [|reflexivity].
    exfalso. exact (V v (value_valid n w v H Ev) E).
Qed.
Lemma default_iff : forall A (means : text -> A -> Prop) (read : text -> option A) n w d x, named n Single = Some w ->
  (forall v y, means v y <-> read v = Some y) -> (forall v, ro_valid w v -> read v <> None) ->
  (with_default us means n d x <-> match match value m n with Some v => read v | None => None end with Some y => y | None => d end = x).
Proof.
  intros A means rd n w d x H M V. unfold with_default. rewrite !(thing_iff A means rd n w _ H M V).
  destruct (match value m n with Some v => rd v | None => None end) as [y|].
  - split; [intros [E|[E _]]; [injection E as ->; reflexivity|discriminate]|intros ->; left; reflexivity].
  - split; [intros [E|[_ E]]; [discriminate|auto]|intros <-; right; auto].
Qed.

Definition read_bool (v : text) : option bool := if text_eqb v (tx "true") then Some true else if text_eqb v (tx "false") then Some false else None.
Lemma bool_reads : forall v x, bool_means v x <-> read_bool v = Some x.
Proof.
  intros v x. unfold bool_means, read_bool, yn. destruct (text_eqb v (tx "true")) eqn:E1; [apply text_eqb_eq in E1; subst v; destruct x; split; intro H; try reflexivity; try discriminate H|].
  destruct (text_eqb v (tx "false")) eqn:E2; [apply text_eqb_eq in E2; subst v; destruct x; split; intro H; try reflexivity; try discriminate H|].
  apply text_eqb_neq in E1, E2. destruct x; split; intro H; congruence.
Qed.
Lemma bool_valid : forall v, yes_or_no v -> read_bool v <> None.
Proof. intros v [->| ->]; discriminate. Qed.
Lemma read_bool_opt : forall n w, named n Single = Some w -> ro_valid w = yes_or_no ->
  match value m n with Some v => read_bool v | None => None end = opt_bool m n.
Proof.
  intros n w H V. unfold opt_bool. destruct (value m n) as [v|] eqn:E; [|reflexivity]. pose proof (value_valid n w v H E) as K. rewrite V in K. destruct K as [->| ->]; reflexivity.
Qed.
Lemma f_bool : forall n w o, named n Single = Some w -> ro_valid w = yes_or_no -> (thing_is us bool_means n o <-> opt_bool m n = o).
Proof. intros n w o H V. rewrite <- (read_bool_opt n w H V). apply (thing_iff _ _ read_bool n w o H bool_reads). rewrite V. exact bool_valid. Qed.
Lemma f_default : forall n w d x, named n Single = Some w -> ro_valid w = yes_or_no -> (with_default us bool_means n d x <-> bool_or m n d = x).
Proof. intros n w d x H V. unfold bool_or. rewrite <- (read_bool_opt n w H V). apply (default_iff _ _ read_bool n w d x H bool_reads). rewrite V. exact bool_valid. Qed.

Lemma f_size : forall n w o, named n Single = Some w -> ro_valid w = is_number -> (thing_is us size_means n o <-> opt_usize m n = o).
Proof.
  intros n w o H V. apply (thing_iff _ size_means (fun v => option_map N.to_nat (parse_usize v)) n w o H).
  - intros v x. unfold size_means. rewrite <- number_iff. split; [intros ->; cbn [option_map]; rewrite Nat2N.id; reflexivity|].
    destruct (parse_usize v) as [k|]; [|discriminate]. cbn [option_map]. intro E. injection E as <-. rewrite N2Nat.id. reflexivity.
  - intros v K. rewrite V in K. destruct K as [k K]. apply number_iff in K. rewrite K. discriminate.
Qed.
Lemma f_float : forall n w o, named n Single = Some w -> ro_valid w = is_float -> (thing_is us float n o <-> opt_f64 m n = o).
Proof.
  intros n w o H V. apply (thing_iff _ float f64_from_str n w o H).
  - intros v x. rewrite <- float_iff. tauto.
  - intros v K. rewrite V in K. destruct K as [k K]. apply float_iff in K. rewrite K. discriminate.
Qed.
Lemma f_part : forall o, thing_is us part "shard" o <-> match value m "shard" with Some v => shard_from_str v | None => None end = o.
Proof.
  intro o. apply (thing_iff _ part shard_from_str "shard" _ o eq_refl).
  - intros v x. rewrite <- part_iff. tauto.
  - intros v K. destruct K as [k K]. apply part_iff in K. rewrite K. discriminate.
Qed.
Lemma f_tool : forall o, thing_is us tool_means "test_tool" o
  <-> option_map (fun v => if text_eqb v (tx "nextest") then ToolNextest else ToolCargo) (value m "test_tool") = o.
Proof.
  intro o. rewrite (thing_iff _ tool_means (fun v => if text_eqb v (tx "nextest") then Some ToolNextest else if text_eqb v (tx "cargo") then Some ToolCargo else None) "test_tool" _ o eq_refl).
  - destruct (value m "test_tool") as [v|] eqn:E; [|reflexivity]. cbn [option_map]. assert (K := value_valid "test_tool" _ v eq_refl E). destruct K as [K|[K|[]]]; subst v; reflexivity.
  - intros v x. unfold tool_means. destruct (text_eqb v (tx "nextest")) eqn:E1; [apply text_eqb_eq in E1; subst v; destruct x; split; intro H; try reflexivity; discriminate H|].
    destruct (text_eqb v (tx "cargo")) eqn:E2; [apply text_eqb_eq in E2; subst v; destruct x; split; intro H; try reflexivity; discriminate H|].
    apply text_eqb_neq in E1, E2. destruct x; split; intro H; congruence.
  - intros v K. destruct K as [K|[K|[]]]; subst v; discriminate.
Qed.
Lemma f_baseline : forall x, with_default us baseline_means "baseline" true x
  <-> match value m "baseline" with Some v => negb (text_eqb v (tx "skip")) | None => true end = x.
Proof.
  intro x. rewrite (default_iff _ baseline_means (fun v => if text_eqb v (tx "run") then Some true else if text_eqb v (tx "skip") then Some false else None) "baseline" _ true x eq_refl).
  - destruct (value m "baseline") as [v|] eqn:E; [|reflexivity]. assert (K := value_valid "baseline" _ v eq_refl E). destruct K as [K|[K|[]]]; subst v; reflexivity.
  - intros v y. unfold baseline_means. destruct (text_eqb v (tx "run")) eqn:E1; [apply text_eqb_eq in E1; subst v; destruct y; split; intro H; try reflexivity; discriminate H|].
    destruct (text_eqb v (tx "skip")) eqn:E2; [apply text_eqb_eq in E2; subst v; destruct y; split; intro H; try reflexivity; discriminate H|].
    apply text_eqb_neq in E1, E2. destruct y; split; intro H; congruence.
  - intros v K. destruct K as [K|[K|[]]]; subst v; discriminate.
Qed.
Lemma f_colors : forall x, with_default us color_means "colors" CAuto x <-> colors_of m = x.
Proof.
  intro x. rewrite (default_iff _ color_means (fun v => if text_eqb v (tx "always") then Some CAlways else if text_eqb v (tx "never") then Some CNever
      else if text_eqb v (tx "auto") then Some CAuto else None) "colors" _ CAuto x eq_refl).
  - unfold colors_of. destruct (value m "colors") as [v|] eqn:E; [|reflexivity]. assert (K := value_valid "colors" _ v eq_refl E). destruct K as [K|[K|[K|[]]]]; subst v; reflexivity.
  - intros v y. unfold color_means. destruct (text_eqb v (tx "always")) eqn:E1; [apply text_eqb_eq in E1; subst v; destruct y; split; intro H; try reflexivity; discriminate H|].
    destruct (text_eqb v (tx "never")) eqn:E2; [apply text_eqb_eq in E2; subst v; destruct y; split; intro H; try reflexivity; discriminate H|].
    destruct (text_eqb v (tx "auto")) eqn:E3; [apply text_eqb_eq in E3; subst v; destruct y; split; intro H; try reflexivity; discriminate H|].
    apply text_eqb_neq in E1, E2, E3. destruct y; split; intro H; congruence.
  - intros v K. destruct K as [K|[K|[K|[]]]]; subst v; discriminate.
Qed.
Lemma f_level : forall x, with_default us level_means "level" LInfo x <-> level_of m = x.
Proof.
  intro x. rewrite (default_iff _ level_means level_from_str "level" _ LInfo x eq_refl).
  - unfold level_of. destruct (value m "level") as [v|]; reflexivity.
  - exact level_reads.
  - intros v K. apply level_iff in K. destruct (level_from_str v); discriminate.
Qed.

Lemma says_iff : forall rest a, says us rest a <-> arguments_of m rest = a.
Proof.
  intros rest a. split.
  - intro H. destruct H. unfold arguments_of, args_of.
    repeat match goal with
    | H : flag_is _ _ _ |- _ => apply flag_iff in H; rewrite H; clear H
    | H : thing_is _ bool_means ?n ?x |- _ => apply (f_bool n _ x eq_refl eq_refl) in H; rewrite H; clear H
    | H : with_default _ bool_means ?n ?d ?x |- _ => apply (f_default n _ d x eq_refl eq_refl) in H; rewrite H; clear H
    | H : thing_is _ size_means ?n ?x |- _ => apply (f_size n _ x eq_refl eq_refl) in H; rewrite H; clear H
    | H : thing_is _ float ?n ?x |- _ => apply (f_float n _ x eq_refl eq_refl) in H; rewrite H; clear H
    | H : thing_is _ part _ _ |- _ => apply f_part in H; rewrite H; clear H
    | H : thing_is _ tool_means _ _ |- _ => apply f_tool in H; rewrite H; clear H
    | H : with_default _ baseline_means _ _ _ |- _ => apply f_baseline in H; rewrite H; clear H
    | H : value_is _ ?n ?x |- _ => apply (value_iff n _ x eq_refl) in H; rewrite H; clear H
    | H : list_is _ ?n ?x |- _ => apply (list_iff n _ x eq_refl) in H; rewrite H; clear H
    end.
    subst rest. destruct a as [x1 x2 x3 x4 x5 x6 x7 x8 x9 x10 o]. destruct o. cbn. destruct ar_features. reflexivity.
  - intros <-. split; cbn [arguments_of args_of ag_manifest ag_dir ag_no_config ag_packages ag_workspace ag_iterate ag_list_files ag_list ag_in_diff ag_shard ag_options
      ar_all_logs ar_baseline ar_cap_lints ar_caught ar_check ar_copy_vcs ar_diff ar_error ar_examine_re ar_exclude ar_exclude_re ar_file ar_gitignore ar_in_place ar_jobs
      ar_jobserver ar_jobserver_tasks ar_json ar_leak_dirs ar_no_times ar_line_col ar_output ar_minimum_test_timeout ar_no_shuffle ar_profile ar_skip_calls ar_skip_calls_defaults
      ar_test_package ar_test_tool ar_test_workspace ar_timeout ar_timeout_multiplier ar_build_timeout ar_build_timeout_multiplier ar_unviable ar_cargo_arg ar_cargo_test_args
      ar_features fe_features fe_no_default fe_all];
    match goal with
    | |- flag_is _ _ _ => apply flag_iff; reflexivity
    | |- thing_is _ bool_means ?n ?x => apply (f_bool n _ x eq_refl eq_refl); reflexivity
    | |- with_default _ bool_means ?n ?d ?x => apply (f_default n _ d x eq_refl eq_refl); reflexivity
    | |- thing_is _ size_means ?n ?x => apply (f_size n _ x eq_refl eq_refl); reflexivity
    | |- thing_is _ float ?n ?x => apply (f_float n _ x eq_refl eq_refl); reflexivity
    | |- thing_is _ part _ _ => apply f_part; reflexivity
    | |- thing_is _ tool_means _ _ => apply f_tool; reflexivity
    | |- with_default _ baseline_means _ _ _ => apply f_baseline; reflexivity
    | |- value_is _ ?n ?x => apply (value_iff n _ x eq_refl); reflexivity
    | |- list_is _ ?n ?x => apply (list_iff n _ x eq_refl); reflexivity
    | |- _ => reflexivity
    end.
Qed.
End Fields.

(** * The command *)
Lemma command_iff : forall e ts a, command_of e ts = CmdRun a <->
  exists us rest, asks e ts us rest /\ ~ used us (tx "version") /\ ~ used us (tx "completions") /\ says us rest a.
Proof.
  intros e ts a. unfold command_of. split.
  - destruct (parse e ts) as [n|m rest] eqn:P; [discriminate|]. apply parse_ok in P. destruct P as (us & A & ->). intro H. exists us, rest. split; [exact A|].
    pose proof (asks_rows _ _ _ _ A) as O. destruct A as (vs & _ & _ & R & _).
    destruct (flag (map enc us) "version") eqn:V; [discriminate|]. destruct (value (map enc us) "completions") as [v|] eqn:Cm; [discriminate|]. injection H as H.
    split; [intro U; apply present_iff in U; unfold flag in V; congruence|]. split; [apply (unused_value us R O "completions" _ eq_refl); exact Cm|]. apply says_iff; assumption.
  - intros (us & rest & A & V & Cm & S). assert (P : parse e ts = UOk (map enc us) rest) by (apply parse_ok; eauto). rewrite P.
    pose proof (asks_rows _ _ _ _ A) as O. destruct A as (vs & _ & _ & R & _).
    assert (V' : flag (map enc us) "version" = false) by (apply not_true_is_false; intro K; apply V; apply present_iff; exact K). rewrite V'.
    apply (unused_value us R O "completions" _ eq_refl) in Cm. rewrite Cm. apply says_iff in S; [|exact R|exact O]. rewrite S. reflexivity.
Qed.
Lemma version_iff : forall e ts, command_of e ts = CmdVersion <-> exists us rest, asks e ts us rest /\ used us (tx "version").
Proof.
  intros e ts. unfold command_of. split.
  - destruct (parse e ts) as [n|m rest] eqn:P; [discriminate|]. apply parse_ok in P. destruct P as (us & A & ->). intro H. exists us, rest. split; [exact A|].
    destruct (flag (map enc us) "version") eqn:V; [apply present_iff; exact V|]. destruct (value (map enc us) "completions"); discriminate.
  - intros (us & rest & A & V). assert (P : parse e ts = UOk (map enc us) rest) by (apply parse_ok; eauto). rewrite P. apply present_iff in V. unfold flag. rewrite V. reflexivity.
Qed.
Lemma completions_iff : forall e ts, command_of e ts = CmdCompletions <->
  exists us rest, asks e ts us rest /\ ~ used us (tx "version") /\ used us (tx "completions").
Proof.
  intros e ts. unfold command_of. split.
  - destruct (parse e ts) as [n|m rest] eqn:P; [discriminate|]. apply parse_ok in P. destruct P as (us & A & ->). intro H. exists us, rest. split; [exact A|].
    destruct (flag (map enc us) "version") eqn:V; [discriminate|]. split; [intro U; apply present_iff in U; unfold flag in V; congruence|].
    destruct (value (map enc us) "completions") as [v|] eqn:Cm; [|discriminate]. eapply value_used. exact Cm.
  - intros (us & rest & A & V & Cm). assert (P : parse e ts = UOk (map enc us) rest) by (apply parse_ok; eauto). rewrite P.
    pose proof (asks_rows _ _ _ _ A) as O. destruct A as (vs & _ & _ & R & _).
    assert (V' : flag (map enc us) "version" = false) by (apply not_true_is_false; intro K; apply V; apply present_iff; exact K). rewrite V'.
    destruct (value (map enc us) "completions") eqn:E; [reflexivity|]. apply (unused_value us R O "completions" _ eq_refl) in E. contradiction.
Qed.
Lemma console_iff : forall e ts c l, console_of e ts = Some (c, l) <->
  exists us rest, asks e ts us rest /\ with_default us color_means "colors" CAuto c /\ with_default us level_means "level" LInfo l.
Proof.
  intros e ts c l. unfold console_of. split.
  - destruct (parse e ts) as [n|m rest] eqn:P; [discriminate|]. apply parse_ok in P. destruct P as (us & A & ->). intro H. exists us, rest. split; [exact A|].
    pose proof (asks_rows _ _ _ _ A) as O. destruct A as (vs & _ & _ & R & _). injection H as H1 H2. split; [apply f_colors; assumption|apply f_level; assumption].
  - intros (us & rest & A & Cl & Lv). assert (P : parse e ts = UOk (map enc us) rest) by (apply parse_ok; eauto). rewrite P.
    pose proof (asks_rows _ _ _ _ A) as O. destruct A as (vs & _ & _ & R & _). apply f_colors in Cl; [|assumption..]. apply f_level in Lv; [|assumption..]. rewrite Cl, Lv. reflexivity.
Qed.

(** * The same uses *)
Lemma same_used : forall us us' id, same_uses us us' -> (used us id <-> used us' id).
Proof.
  intros us us' id H. destruct (in_dec text_dec id (map fst us)) as [I|I], (in_dec text_dec id (map fst us')) as [J|J]; unfold used; split; intro K; try assumption; try contradiction;
    exfalso; [apply unused_iff in J; rewrite <- (H id) in J; apply unused_iff in J|apply unused_iff in I; rewrite (H id) in I; apply unused_iff in I]; contradiction.
Qed.
Lemma in_uses : forall (u : use) us, In u us <-> In u (uses_of (fst u) us).
Proof. intros u us. unfold uses_of. rewrite filter_In, text_eqb_refl. tauto. Qed.
Lemma same_right : forall us us', same_uses us us' -> right us -> right us'.
Proof.
  intros us us' H [V L]. split.
  - rewrite Forall_forall in *. intros u Hu. apply V. apply in_uses. rewrite (H (fst u)). apply (proj1 (in_uses u us')). exact Hu.
  - intros o Ho U. rewrite <- (H (ro_name o)). apply L; assumption.
Qed.
Lemma same_compatible : forall us us', same_uses us us' -> compatible us -> compatible us'.
Proof. intros us us' H C p Hp [U V]. apply (C p Hp). split; eapply same_used; eassumption. Qed.
Lemma same_variables : forall e us us', same_uses us us' -> from_variables e us = from_variables e us'.
Proof. intros e us us' H. unfold from_variables. apply flat_map_ext. intro p. rewrite (H (snd p)). reflexivity. Qed.
Lemma same_app : forall a b c d, same_uses a b -> same_uses c d -> same_uses (a ++ c) (b ++ d).
Proof. intros a b c d H K id. rewrite !uses_app, (H id), (K id). reflexivity. Qed.
Lemma same_values : forall us us' id, same_uses us us' -> values (map enc us) id = values (map enc us') id.
Proof. intros us us' id H. rewrite !values_texts. unfold texts_of. rewrite (H id). reflexivity. Qed.
Lemma same_present : forall us us' id, same_uses us us' -> present (map enc us) id = present (map enc us') id.
Proof. intros us us' id H. rewrite !present_texts. unfold texts_of. rewrite (H id). reflexivity. Qed.
Lemma same_arguments : forall us us' rest, same_uses us us' -> arguments_of (map enc us) rest = arguments_of (map enc us') rest.
Proof.
  intros us us' rest H. unfold arguments_of, args_of, opt_usize, opt_f64, bool_or, opt_bool, value, flag, list_of.
  rewrite !(fun id => same_values us us' id H), !(fun id => same_present us us' id H). reflexivity.
Qed.
Lemma same_command : forall e e' ts ts' us us' rest, asks e ts us rest -> asks e' ts' us' rest -> same_uses us us' ->
  command_of e ts = command_of e' ts' /\ console_of e ts = console_of e' ts'.
Proof.
  intros e e' ts ts' us us' rest A A' H. unfold command_of, console_of. rewrite (proj2 (parse_ok e ts (map enc us) rest)) by eauto. rewrite (proj2 (parse_ok e' ts' (map enc us') rest)) by eauto.
  unfold flag, value. rewrite (same_present _ _ (tx "version") H), (same_values _ _ (tx "completions") H), (same_arguments _ _ rest H).
  split; [reflexivity|]. unfold colors_of, level_of, value. rewrite !(fun id => same_values us us' id H). reflexivity.
Qed.
Lemma asks_fine : forall e ts us rest, reads at_end ts us rest -> fine e us -> asks e ts (us ++ from_variables e us) rest.
Proof. intros e ts us rest H [R C]. exists us. auto. Qed.
Lemma order : forall e ts ts' us us' rest, reads at_end ts us rest -> reads at_end ts' us' rest -> same_uses us us' -> fine e us ->
  command_of e ts' = command_of e ts /\ console_of e ts' = console_of e ts.
Proof.
  intros e ts ts' us us' rest H H' S F. assert (S2 : same_uses (us ++ from_variables e us) (us' ++ from_variables e us')).
  { apply same_app; [exact S|]. rewrite (same_variables e us us' S). intro id. reflexivity. }
  assert (F' : fine e us') by (destruct F as [R C]; split; [eapply same_right; eassumption|eapply same_compatible; eassumption]).
  destruct (same_command e e ts ts' _ _ rest (asks_fine e ts us rest H F) (asks_fine e ts' us' rest H' F') S2) as [-> ->]. auto.
Qed.

Lemma enc_inj : forall us us', of_rows us -> of_rows us' -> map enc us = map enc us' -> us = us'.
Proof.
  induction us as [|u us IH]; intros [|u' us'] O O' H; try discriminate; [reflexivity|]. inversion O as [|x y O1 O2]; subst. inversion O' as [|x' y' O1' O2']; subst.
  cbn [map] in H. injection H as H1 H2 H3. f_equal; [|apply IH; assumption]. destruct O1 as (w & Hw & Ew & Sw), O1' as (w' & Hw' & Ew' & Sw').
  assert (w = w') by (apply row_same; [exact Hw|exact Hw'|congruence]). subst w'. destruct u as [k [v|]], u' as [k' [v'|]]; cbn [fst snd] in *; subst; try reflexivity.
  - exfalso. destruct Sw as [_ Sw]. destruct Sw' as [Sw' _]. specialize (Sw (Sw' eq_refl)). discriminate.
  - exfalso. destruct Sw as [Sw _]. destruct Sw' as [_ Sw']. specialize (Sw' (Sw eq_refl)). discriminate.
Qed.
Lemma asks_one : forall e ts us rest us' rest', asks e ts us rest -> asks e ts us' rest' -> us = us' /\ rest = rest'.
Proof.
  intros e ts us rest us' rest' A A'. assert (P : parse e ts = UOk (map enc us) rest) by (apply parse_ok; eauto).
  assert (P' : parse e ts = UOk (map enc us') rest') by (apply parse_ok; eauto). rewrite P in P'. injection P' as H1 H2. split; [|exact H2].
  apply enc_inj; [eapply asks_rows; exact A|eapply asks_rows; exact A'|exact H1].
Qed.

(** * Variables *)
Lemma variables_used : forall e n id vs, In (n, id) variables_for -> used vs id -> from_variables (without n e) vs = from_variables e vs.
Proof.
  intros e n id vs I U. unfold from_variables.
  assert (G : forall p, In p variables_for -> match without n e (fst p), uses_of (snd p) vs with Some v, [] => [(snd p, Some v)] | _, _ => [] end
      = match e (fst p), uses_of (snd p) vs with Some v, [] => [(snd p, Some v)] | _, _ => [] end).
  { intros p Hp. unfold without. destruct (text_eqb (fst p) n) eqn:E; [|reflexivity]. apply text_eqb_eq in E.
    assert (snd p = id) by (unfold variables_for in I, Hp; cbn [In] in I, Hp; destruct p as [pn pi]; cbn [fst snd] in *; subst pn;
      repeat (destruct I as [I|I]; [injection I as <- <-; repeat (destruct Hp as [Hp|Hp]; [first [discriminate Hp|injection Hp as <-; reflexivity]|]); destruct Hp|]); destruct I).
    subst id. destruct (uses_of (snd p) vs) eqn:Z; [apply unused_iff in Z; contradiction|]. destruct (e (fst p)); reflexivity. }
  clear - G. induction variables_for as [|p l IH]; [reflexivity|]. cbn [flat_map]. rewrite (G p) by (left; reflexivity). f_equal. apply IH. intros q Hq. apply G. right. exact Hq.
Qed.
Lemma fst_snd : forall n id n' id', In (n, id) variables_for -> In (n', id') variables_for -> (n = n' <-> id = id').
Proof.
  intros n id n' id' I J. unfold variables_for in I, J. cbn [In] in I, J.
  repeat (destruct I as [I|I]; [injection I as <- <-; repeat (destruct J as [J|J]; [injection J as <- <-; split; intro X; first [reflexivity|discriminate X]|]); destruct J|]); destruct I.
Qed.
Lemma variables_of : forall e vs n k, In (n, k) variables_for ->
  uses_of k (from_variables e vs) = match e n, uses_of k vs with Some v, [] => [(k, Some v)] | _, _ => [] end.
Proof.
  intros e vs n k I. assert (N : NoDup (map snd variables_for)) by (apply distinct_nodup; vm_compute; reflexivity). unfold from_variables.
  induction variables_for as [|[n' k'] l IH]; [destruct I|]. cbn [map snd] in N. inversion N as [|x y N1 N2]; subst. cbn [flat_map fst snd]. rewrite uses_app. destruct I as [I|I].
  - injection I as -> ->. assert (Z : uses_of k (flat_map (fun p : text * text => match e (fst p) with Some v => match uses_of (snd p) vs with [] => [(snd p, Some v)] | _ :: _ => [] end | None => [] end) l) = []).
    { apply unused_iff. intro U. unfold used in U. apply in_map_iff in U. destruct U as (u & E & U). apply in_flat_map in U. destruct U as (p & Hp & U).
      destruct (e (fst p)); [|destruct U]. destruct (uses_of (snd p) vs); [|destruct U]. destruct U as [<-|[]]. cbn [fst] in E. apply N1. rewrite <- E. apply in_map. exact Hp. }
    rewrite Z, app_nil_r. destruct (e n); [|reflexivity]. destruct (uses_of k vs); [|reflexivity]. unfold uses_of. cbn [filter fst]. rewrite text_eqb_refl. reflexivity.
  - rewrite (IH I N2). assert (D : k' <> k) by (intros ->; apply N1; change k with (snd (n, k)); apply in_map; exact I).
    destruct (e n'); [|reflexivity]. destruct (uses_of k' vs); [|reflexivity]. unfold uses_of at 1. cbn [filter fst]. apply text_eqb_neq in D. rewrite D. reflexivity.
Qed.
Lemma variables_other : forall e vs k, ~ In k (map snd variables_for) -> uses_of k (from_variables e vs) = [].
Proof.
  intros e vs k N. apply unused_iff. intro U. unfold used in U. apply in_map_iff in U. destruct U as (u & E & U). unfold from_variables in U. apply in_flat_map in U. destruct U as (p & Hp & U).
  destruct (e (fst p)); [|destruct U]. destruct (uses_of (snd p) vs); [|destruct U]. destruct U as [<-|[]]. cbn [fst] in E. apply N. rewrite <- E. apply in_map. exact Hp.
Qed.
Lemma variables_uses : forall e n id vs v, In (n, id) variables_for -> ~ used vs id -> e n = Some v ->
  same_uses (vs ++ from_variables e vs) (((id, Some v) :: vs) ++ from_variables (without n e) ((id, Some v) :: vs)).
Proof.
  intros e n id vs v I U E k. rewrite !uses_app. assert (Z : uses_of id vs = []) by (apply unused_iff; exact U). destruct (text_dec k id) as [->|D].
  - rewrite (variables_of e vs n id I), (variables_of _ _ n id I), E, Z. unfold uses_of at 1 2. cbn [filter fst]. rewrite text_eqb_refl. fold (uses_of id vs). rewrite Z. destruct (without n e n); reflexivity.
  - assert (X : uses_of k ((id, Some v) :: vs) = uses_of k vs) by (unfold uses_of; cbn [filter fst]; rewrite (proj2 (text_eqb_neq id k)) by congruence; reflexivity).
    rewrite X. f_equal. destruct (in_dec text_dec k (map snd variables_for)) as [J|J]; [|rewrite !variables_other by exact J; reflexivity].
    apply in_map_iff in J. destruct J as ([n' k'] & Ek & J). cbn [snd] in Ek. subst k'. rewrite !(variables_of _ _ n' k J), X.
    unfold without. rewrite (proj2 (text_eqb_neq n' n)) by (intro Q; apply D; apply (fst_snd n' k n id J I); exact Q). reflexivity.
Qed.

Lemma variable_ignored : forall e n id ts us rest, In (n, id) variables_for -> reads at_end ts us rest -> fine e us -> used us id ->
  command_of (without n e) ts = command_of e ts /\ console_of (without n e) ts = console_of e ts.
Proof.
  intros e n id ts us rest I H F U. assert (F' : fine (without n e) us) by (unfold fine; rewrite (variables_used e n id us I U); exact F).
  pose proof (asks_fine _ _ _ _ H F') as A. rewrite (variables_used e n id us I U) in A.
  eapply same_command; [exact A|eapply asks_fine; eassumption|intro; reflexivity].
Qed.
Lemma variable_read : forall e n id v o x ts us rest, In (n, id) variables_for -> reads at_end ts us rest -> fine e us -> ~ used us id -> e n = Some v ->
  In o rows -> ro_name o = id -> In x (ro_words o) ->
  command_of (without n e) ((x ++ 61%N :: v) :: ts) = command_of e ts /\ console_of (without n e) ((x ++ 61%N :: v) :: ts) = console_of e ts.
Proof.
  intros e n id v o x ts us rest I H F U E Ho Eo Hx. pose proof (variables_uses e n id us v I U E) as S.
  assert (F' : fine (without n e) ((id, Some v) :: us)) by (destruct F as [R C]; split; [eapply same_right; eassumption|eapply same_compatible; eassumption]).
  assert (H' : reads at_end ((x ++ 61%N :: v) :: ts) ((id, Some v) :: us) rest).
  { subst id. apply rd_equals; try assumption. intro Z.
    assert (V : exists o', In o' rows /\ ro_name o' = ro_name o /\ ro_usage o' = Single).
    { assert (G : forallb (fun p => match find (fun w => text_eqb (ro_name w) (snd p)) rows with Some w => match ro_usage w with Single => true | _ => false end | None => false end) variables_for = true)
        by (vm_compute; reflexivity).
      rewrite forallb_forall in G. specialize (G _ I). cbn [snd] in G. destruct (find (fun w => text_eqb (ro_name w) (ro_name o)) rows) as [w|] eqn:K; [|discriminate].
      apply find_some in K. destruct K as [K1 K2]. apply text_eqb_eq in K2. exists w. split; [exact K1|]. split; [exact K2|]. destruct (ro_usage w); [discriminate|reflexivity|discriminate]. }
    destruct V as (o' & Ho' & E' & U'). rewrite (row_same o' o Ho' Ho E') in U'. congruence. }
  eapply same_command; [eapply asks_fine; eassumption|eapply asks_fine; eassumption|]. intro k. symmetry. apply S.
Qed.

(** * For each arguments a line *)
Lemma f64_dec : forall x y : f64, {x = y} + {x <> y}.
Proof. repeat decide equality. Qed.
Lemma showing : forall l : list f64, Forall (fun v => exists t, float t v) l -> exists shows, forall v, In v l -> float (shows v) v.
Proof.
  induction l as [|v l IH]; intro F; [exists (fun _ => []); intros v []|]. inversion F as [|x y [t T] F2]; subst. destruct (IH F2) as [sh Hs].
  exists (fun x => if f64_dec x v then t else sh x). intros x Hx. destruct (f64_dec x v) as [->|D]; [exact T|]. destruct Hx as [<-|Hx]; [contradiction|apply Hs; exact Hx].
Qed.
Lemma exact : forall a, consistent a <-> exists ts, command_of (fun _ => None) ts = CmdRun a.
Proof.
  intro a. split.
  - intro C. destruct (showing (floats a) (co_floats a C)) as [sh Hs]. exists (line_for sh a). apply line_command; assumption.
  - intros [ts H]. apply command_iff in H. destruct H as (us & rest & A & _ & _ & S). pose proof (asks_rows _ _ _ _ A) as O. destruct A as (vs & _ & _ & R & C).
    apply says_iff in S; [|assumption..]. subst a. apply arguments_consistent; assumption.
Qed.
Lemma any_consistent : forall e ts a, command_of e ts = CmdRun a -> consistent a.
Proof.
  intros e ts a H. apply command_iff in H. destruct H as (us & rest & A & _ & _ & S). pose proof (asks_rows _ _ _ _ A) as O. destruct A as (vs & _ & _ & R & C).
  apply says_iff in S; [|assumption..]. subst a. apply arguments_consistent; assumption.
Qed.
Lemma settled_places : forall w a s, settle w a = Done s -> consistent a -> op_in_place (se_options s) = true -> op_jobs (se_options s) = None.
Proof.
  intros w a s H C. unfold settle in H. destruct (start_dir _ _ _) as [start|]; [|discriminate]. destruct (open_workspace w start) as [md| |]; try discriminate. cbn [bind] in H.
  destruct (if ag_no_config a then Done config_default else read_tree_config w (md_root md)) as [cf| |]; try discriminate. cbn [bind] in H.
  destruct (options_new (wo_re_ok w) (ag_options a) cf) as [| |o] eqn:N; try discriminate. injection H as <-. cbn [se_options].
  destruct (OptionsP.c22_flags _ _ _ _ N) as (_ & _ & _ & _ & _ & _ & _ & _ & -> & -> & _). exact (co_jobs a C).
Qed.
Lemma settled_check : forall w a s, settle w a = Done s -> op_check_only (se_options s) = ar_check (ag_options a).
Proof.
  intros w a s H. unfold settle in H. destruct (start_dir _ _ _) as [start|]; [|discriminate]. destruct (open_workspace w start) as [md| |]; try discriminate. cbn [bind] in H.
  destruct (if ag_no_config a then Done config_default else read_tree_config w (md_root md)) as [cf| |]; try discriminate. cbn [bind] in H.
  destruct (options_new (wo_re_ok w) (ag_options a) cf) as [| |o] eqn:N; try discriminate. injection H as <-. cbn [se_options].
  destruct (OptionsP.c22_flags _ _ _ _ N) as (_ & _ & _ & -> & _). reflexivity.
Qed.
Lemma not_used_flag : forall us n b, flag_is us n b -> ~ used us (tx n) -> b = false.
Proof. intros us n b F N. destruct b; [|reflexivity]. exfalso. apply N. apply F. reflexivity. Qed.
Lemma not_used_value : forall us n o, value_is us n o -> ~ used us (tx n) -> o = None.
Proof. intros us n [v|] F N; [|reflexivity]. exfalso. apply N. unfold value_is, list_is in F. apply unused_iff in N. cbn [opt_list map] in F. unfold use in *. congruence. Qed.
Lemma not_used_thing : forall A (f : text -> A -> Prop) us n o, thing_is us f n o -> ~ used us (tx n) -> o = None.
Proof. intros A f us n [v|] F N; [|reflexivity]. destruct F as (t & F & _). pose proof (not_used_value us n (Some t) F N). discriminate. Qed.
