(** More proofs about the command line (C68): which words are understood, and what the arguments are. *)
From Coq Require Import String List NArith ZArith QArith Qpower Bool Arith Lia.
From Verif Require Import Text F64M SpanM PathM MutantM ShardM ShardS ShardP PackageM OptionsM PrintM WalkM MainM WholeM ClapM ClapS ClapP.
Import ListNotations.
Open Scope list_scope.
Open Scope nat_scope.

Definition of_rows (us : list use) : Prop := Forall (fun u => exists w, In w rows /\ fst u = ro_name w /\ (snd u = None <-> ro_usage w = Switch)) us.
Lemma no_group_row : forall us, of_rows us -> present (map enc us) (tx "copy_opts") = false.
Proof.
  intros us H. apply not_true_is_false. intro P. apply present_iff in P. unfold used in P. apply in_map_iff in P. destruct P as (u & E & Hu).
  unfold of_rows in H. rewrite Forall_forall in H. destruct (H u Hu) as (w & Hw & Ew & _). assert (M : mem_text (tx "copy_opts") (map ro_name rows) = false) by (vm_compute; reflexivity).
  apply mem_text_false in M. apply M. rewrite <- E, Ew. apply in_map. exact Hw.
Qed.
Lemma asks_rows : forall e ts us rest, asks e ts us rest -> of_rows us.
Proof. intros e ts us rest (vs & R & -> & _). apply Forall_app. split; [eapply reads_rows; exact R|apply variables_rows]. Qed.

Lemma scan_end : forall ts us rest, reads at_end ts us rest -> right us -> scan [] None ts = XOk (map enc us) rest.
Proof.
  intros ts us rest H R. destruct (read_complete _ _ _ _ H [] R) as (ts' & F & E). cbn [app map] in E. rewrite E. destruct F as [[-> ->]| ->]; [reflexivity|].
  cbn [scan]. rewrite text_eqb_refl. reflexivity.
Qed.
Lemma scan_help : forall ts us, reads at_help ts us [] -> right us -> scan [] None ts = XHelp.
Proof.
  intros ts us H R. destruct (read_complete _ _ _ _ H [] R) as (ts' & (_ & ts2 & F) & E). cbn [app map] in E. rewrite E. destruct F as [->|(s & ->)].
  - reflexivity.
  - change (tx "-h" ++ s) with (45%N :: 104%N :: s). rewrite scan_short by discriminate. reflexivity.
Qed.
Lemma scan_back : forall ts, match scan [] None ts with
  | XErr => True
  | XHelp => exists us, right us /\ reads at_help ts us []
  | XOk m rest => exists us, m = map enc us /\ right us /\ reads at_end ts us rest
  end.
Proof. intro ts. exact (proj1 (read_sound ts [] right_nil)). Qed.

Lemma parse_ok : forall e ts m rest, parse e ts = UOk m rest <-> exists us, asks e ts us rest /\ m = map enc us.
Proof.
  intros e ts m rest. unfold parse. split.
  - intro H. pose proof (scan_back ts) as B. destruct (scan [] None ts) as [| |m0 rest0]; try discriminate. destruct B as (vs & -> & R & B).
    destruct (add_env_spec e table vs (fun o h => h) ids_nodup R) as [[E K]|[E K]]; rewrite E in H; [|discriminate]. rewrite added_table in *.
    destruct (existsb (clashes (map enc (vs ++ from_variables e vs))) table) eqn:C; [discriminate|]. injection H as <- <-.
    assert (O : of_rows (vs ++ from_variables e vs)) by (apply Forall_app; split; [eapply reads_rows; exact B|apply variables_rows]).
    rewrite clashes_table in C by (apply no_group_row; exact O). exists (vs ++ from_variables e vs). split; [|reflexivity]. exists vs.
    split; [exact B|]. split; [reflexivity|]. split; [exact K|]. apply compatible_iff. exact C.
  - intros (us & A & ->). pose proof (asks_rows _ _ _ _ A) as O. destruct A as (vs & B & -> & R & C). pose proof (right_app_l _ _ R) as R0. rewrite (scan_end ts vs rest B R0).
    destruct (add_env_spec e table vs (fun o h => h) ids_nodup R0) as [[E K]|[E K]]; rewrite added_table in *; [|contradiction]. rewrite E.
    rewrite clashes_table by (apply no_group_row; exact O). apply compatible_iff in C. rewrite C. reflexivity.
Qed.
Lemma parse_help : forall e ts, parse e ts = UErr 0 <-> exists us, right us /\ reads at_help ts us [].
Proof.
  intros e ts. unfold parse. split.
  - intro H. pose proof (scan_back ts) as B. destruct (scan [] None ts) as [| |m0 rest0]; try discriminate; [exact B|].
    destruct (add_env e m0 table); [|discriminate]. destruct (existsb (clashes f) table); discriminate.
  - intros (us & R & H). rewrite (scan_help ts us H R). reflexivity.
Qed.
Lemma parse_code : forall e ts n, parse e ts = UErr n -> n = 0%Z \/ n = 2%Z.
Proof.
  intros e ts n. unfold parse. destruct (scan [] None ts) as [| |m0 rest0]; intro H; try (injection H as <-; auto).
  destruct (add_env e m0 table); [|injection H as <-; auto]. destruct (existsb (clashes f) table); [injection H as <-; auto|discriminate].
Qed.

(** * Fields *)
(** The texts that were given for an option. *)
Definition texts_of (us : list use) (id : text) : list text := map (fun u => snd (enc u)) (uses_of id us).
Lemma values_texts : forall us id, values (map enc us) id = texts_of us id.
Proof.
  intros us id. unfold values, texts_of, uses_of. induction us as [|u us IH]; [reflexivity|]. cbn [map filter]. destruct (text_eqb (fst (enc u)) id) eqn:E;
    change (fst (enc u)) with (fst u) in E; rewrite E; cbn [map]; rewrite IH; reflexivity.
Qed.
Lemma present_texts : forall us id, present (map enc us) id = match texts_of us id with [] => false | _ => true end.
Proof.
  intros us id. unfold texts_of. destruct (uses_of id us) eqn:E; cbn [map].
  - apply not_true_is_false. intro P. apply present_iff in P. apply unused_iff in E. contradiction.
  - apply present_iff. destruct (in_dec text_dec id (map fst us)) as [I|I]; [exact I|]. exfalso. apply unused_iff in I. unfold use in *. congruence.
Qed.

Section Consistent.
Variables (us : list use) (rest : list text).
Hypothesis (R : right us) (C : compatible us).
Let m := map enc us.

Lemma value_used : forall id v, value m id = Some v -> used us (tx id).
Proof.
  intros id v H. unfold value, m in H. rewrite values_texts in H. unfold texts_of in H. destruct (uses_of (tx id) us) eqn:E; [discriminate|].
  destruct (in_dec text_dec (tx id) (map fst us)) as [I|I]; [exact I|]. exfalso. apply unused_iff in I. unfold use in *. congruence.
Qed.
Lemma flag_used : forall id, flag m id = true -> used us (tx id).
Proof. intros id H. apply present_iff. exact H. Qed.
Lemma usize_used : forall id n, opt_usize m id = Some n -> used us (tx id) /\ (N.of_nat n < 2 ^ 64)%N.
Proof.
  intros id n H. unfold opt_usize in H. destruct (value m id) as [v|] eqn:V; [|discriminate]. split; [eapply value_used; exact V|].
  destruct (parse_usize v) as [k|] eqn:P; [|discriminate]. injection H as <-. apply number_iff in P. destruct P as (d & _ & _ & _ & L). rewrite N2Nat.id. exact L.
Qed.
Lemma f64_used : forall id v, opt_f64 m id = Some v -> used us (tx id) /\ exists t, float t v.
Proof.
  intros id v H. unfold opt_f64 in H. destruct (value m id) as [t|] eqn:V; [|discriminate]. split; [eapply value_used; exact V|]. exists t. apply float_iff. exact H.
Qed.
Lemma some_of : forall A (o : option A), o <> None -> exists x, o = Some x.
Proof. intros A [x|] H; [eauto|congruence]. Qed.
Lemma clash : forall a b, In (a, b) exclusive -> used us a -> used us b -> False.
Proof. intros a b H A B. exact (C (a, b) H (conj A B)). Qed.

Lemma arguments_consistent : consistent (arguments_of m rest).
Proof.
  split.
  - intros [A B]. cbn [arguments_of ag_manifest ag_dir] in A, B. apply some_of in A, B. destruct A as [a A], B as [b B]. apply value_used in A, B.
    eapply clash; [|exact B|exact A]. cbn. tauto.
  - intros [A B]. cbn [arguments_of ag_options args_of ar_timeout ar_timeout_multiplier] in A, B. apply some_of in A, B. destruct A as [a A], B as [b B].
    apply f64_used in A, B. eapply clash; [|exact (proj1 A)|exact (proj1 B)]. cbn. tauto.
  - intros [A B]. cbn [arguments_of ag_options args_of ar_build_timeout ar_build_timeout_multiplier] in A, B. apply some_of in A, B. destruct A as [a A], B as [b B].
    apply f64_used in A, B. eapply clash; [|exact (proj1 A)|exact (proj1 B)]. cbn. tauto.
  - cbn [arguments_of ag_options args_of ar_in_place ar_jobs]. intro A. apply flag_used in A. destruct (opt_usize m "jobs") as [n|] eqn:B; [|reflexivity].
    apply usize_used in B. exfalso. eapply clash; [|exact A|exact (proj1 B)]. cbn. tauto.
  - cbn [arguments_of ag_options args_of ar_in_place ar_gitignore]. intro A. apply flag_used in A. unfold bool_or, opt_bool. destruct (value m "gitignore") as [v|] eqn:B; [|reflexivity].
    apply value_used in B. exfalso. eapply clash; [|exact A|exact B]. cbn. tauto.
  - intros s H. cbn [arguments_of ag_shard] in H. destruct (value m "shard") as [v|]; [|discriminate]. apply part_iff in H.
    destruct H as (a & b & _ & _ & (d & _ & _ & _ & L) & K). lia.
  - intros n H. exact (proj2 (usize_used "jobs" n H)).
  - intros n H. exact (proj2 (usize_used "jobserver_tasks" n H)).
  - unfold floats. apply Forall_flat_map. cbn [arguments_of ag_options args_of ar_minimum_test_timeout ar_timeout ar_timeout_multiplier ar_build_timeout ar_build_timeout_multiplier].
    assert (G : forall id, Forall (fun v => exists t, float t v) (match opt_f64 m id with Some v => [v] | None => [] end)).
    { intro id. destruct (opt_f64 m id) as [v|] eqn:E; constructor; [exact (proj2 (f64_used id v E))|constructor]. }
    repeat (constructor; [apply G|]). constructor.
Qed.
End Consistent.

(** * A command line for given arguments *)
Definition line_names : list text := map tx [
  "manifest_path"; "dir"; "no_config"; "package"; "workspace"; "iterate"; "list_files"; "list"; "in_diff"; "shard";
  "all_logs"; "baseline"; "cap_lints"; "caught"; "check"; "copy_vcs"; "diff"; "error"; "examine_re"; "exclude"; "exclude_re";
  "file"; "gitignore"; "in_place"; "jobs"; "jobserver"; "jobserver_tasks"; "json"; "leak_dirs"; "no_times"; "line_col"; "output";
  "minimum_test_timeout"; "no_shuffle"; "profile"; "skip_calls"; "skip_calls_defaults"; "test_package"; "test_tool";
  "test_workspace"; "timeout"; "timeout_multiplier"; "build_timeout"; "build_timeout_multiplier"; "unviable";
  "cargo_arg"; "features"; "no_default_features"; "all_features"]%string.
Definition uses_for (l : list (text * list (option text))) : list use := flat_map (fun p => map (pair (fst p)) (snd p)) l.

Lemma uses_none : forall l n, ~ In n (map fst l) -> uses_of n (uses_for l) = [].
Proof.
  induction l as [|[k vs] l IH]; intros n N; [reflexivity|]. cbn [map fst In] in N. unfold uses_for in *. cbn [flat_map fst snd]. rewrite uses_app, IH by tauto. rewrite app_nil_r.
  assert (E : text_eqb k n = false) by (apply text_eqb_neq; intro; subst; tauto). clear - E. induction vs as [|v vs IH]; [reflexivity|]. unfold uses_of in *. cbn [map filter fst]. rewrite E. exact IH.
Qed.
Lemma uses_part : forall l n vs, NoDup (map fst l) -> In (n, vs) l -> uses_of n (uses_for l) = map (pair n) vs.
Proof.
  induction l as [|[k ws] l IH]; intros n vs N H; [destruct H|]. cbn [map fst] in N. inversion N as [|x y N1 N2]; subst. unfold uses_for. cbn [flat_map fst snd]. fold (uses_for l).
  rewrite uses_app. destruct H as [H|H].
  - injection H as -> ->. rewrite uses_none by exact N1. rewrite app_nil_r. clear. induction vs as [|v vs IH]; [reflexivity|]. unfold uses_of in *. cbn [map filter fst]. rewrite text_eqb_refl, IH. reflexivity.
  - rewrite (IH n vs N2 H). assert (E : text_eqb k n = false) by (apply text_eqb_neq; intro; subst; apply N1; change n with (fst (n, vs)); apply in_map; exact H).
    assert (Z : uses_of n (map (pair k) ws) = []); [|rewrite Z; reflexivity]. clear - E. induction ws as [|v vs IH]; [reflexivity|]. unfold uses_of in *. cbn [map filter fst]. rewrite E. exact IH.
Qed.
Lemma texts_part : forall l n vs, NoDup (map fst l) -> In (n, vs) l ->
  texts_of (uses_for l) n = map (fun o => match o with Some v => v | None => tx "true" end) vs.
Proof. intros l n vs N H. unfold texts_of. rewrite (uses_part l n vs N H), map_map. reflexivity. Qed.

(** A part of the line belongs to a row. *)
Definition part_ok (q : text * list (option text)) (n : text) : Prop :=
  exists w, In w rows /\ ro_name w = n /\ In (fst q) (ro_words w)
    /\ Forall (fun o => match o with None => ro_usage w = Switch | Some v => ro_usage w <> Switch /\ ro_valid w v end) (snd q)
    /\ (ro_usage w <> Repeated -> length (snd q) <= 1).
Lemma reads_line : forall ps ns rest, Forall2 part_ok ps ns ->
  reads at_end (flat_map (fun q => map (line_word (fst q)) (snd q)) ps ++ tx "--" :: rest) (uses_for (combine ns (map snd ps))) rest.
Proof.
  intros ps ns rest F. induction F as [|q n ps ns Hq F IH].
  - cbn. apply rd_end. right. reflexivity.
  - cbn [flat_map map combine]. unfold uses_for. cbn [flat_map fst snd]. fold (uses_for (combine ns (map snd ps))). destruct Hq as (w & Hw & <- & Iw & V & _). rewrite <- app_assoc.
    induction (snd q) as [|o vs IHv]; [exact IH|]. inversion V as [|x y V1 V2]; subst. cbn [map app]. destruct o as [v|]; cbn [line_word].
    + change (tx "=" ++ v) with (61%N :: v). apply rd_equals; try (exact Hw); try (exact Iw); try apply V1. apply IHv. exact V2.
    + apply rd_switch; try assumption. apply IHv. exact V2.
Qed.
Lemma right_line : forall ps ns, Forall2 part_ok ps ns -> NoDup ns -> right (uses_for (combine ns (map snd ps))).
Proof.
  intros ps ns F N.
  assert (L : map fst (combine ns (map snd ps)) = ns).
  { clear N. induction F as [|q n ps ns Hq F IH]; [reflexivity|]. cbn [map combine fst]. rewrite IH. reflexivity. }
  assert (G : forall n vs, In (n, vs) (combine ns (map snd ps)) -> exists q, snd q = vs /\ part_ok q n).
  { clear N L. induction F as [|q n ps ns Hq F IH]; intros k vs H; [destruct H|]. cbn [map combine] in H. destruct H as [H|H]; [injection H as <- <-; exists q; split; [reflexivity|exact Hq]|apply IH; exact H]. }
  split.
  - apply Forall_forall. intros u Hu. unfold uses_for in Hu. apply in_flat_map in Hu. destruct Hu as ([n vs] & H & Hu). cbn [fst snd] in Hu.
    apply in_map_iff in Hu. destruct Hu as (o & <- & Ho). destruct (G n vs H) as (q & <- & w & Hw & <- & Iw & V & _). rewrite Forall_forall in V. specialize (V o Ho).
    destruct o as [v|]; [apply valid_some; [exact Hw|tauto]|apply valid_none].
  - intros w Hw U. destruct (in_dec text_dec (ro_name w) ns) as [I|I].
    + assert (X : exists vs, In (ro_name w, vs) (combine ns (map snd ps))).
      { rewrite <- L in I. apply in_map_iff in I. destruct I as ([k vs] & E & I). cbn [fst] in E. subst k. exists vs. exact I. }
      destruct X as (vs & X). assert (N' : NoDup (map fst (combine ns (map snd ps)))) by (rewrite L; exact N). rewrite (uses_part _ _ _ N' X).
      rewrite map_length. destruct (G _ _ X) as (q & <- & w' & Hw' & E & _ & _ & O). apply O. rewrite (row_same w' w Hw' Hw E). exact U.
    + rewrite uses_none by (rewrite L; exact I). cbn. lia.
Qed.

Lemma number_show : forall n, (n < 2 ^ 64)%N -> number (show_N n) n.
Proof.
  intros n L. exists (show_N n). split; [left; reflexivity|]. split; [apply show_N_nonempty|]. split; [|exact L]. apply digits_iff. split; [apply show_N_digits|apply parse_show_N].
Qed.
Lemma row_in : forall k, k < length rows -> In (nth k rows (r "" [] Switch any)) rows.
Proof. intros. apply nth_In. assumption. Qed.

Section Line.
Variables (shows : f64 -> text) (a : arguments).
Hypothesis (Co : consistent a) (Sh : forall v, In v (floats a) -> float (shows v) v).
Let b := ag_options a.
Let parts := line_parts shows a.
Let us := uses_for (combine line_names (map snd parts)).
Let m := map enc us.

(** How the values of a part fit its row. *)
Lemma ok_sw : forall x (w : row), ro_usage w = Switch ->
  Forall (fun o => match o with None => ro_usage w = Switch | Some v => ro_usage w <> Switch /\ ro_valid w v end) (sw x) /\ (ro_usage w <> Repeated -> length (sw x) <= 1).
Proof. intros x w U. destruct x; cbn; (split; [repeat constructor; exact U|lia]). Qed.
Lemma ok_va : forall x (w : row), ro_usage w = Single -> (forall v, x = Some v -> ro_valid w v) ->
  Forall (fun o => match o with None => ro_usage w = Switch | Some v => ro_usage w <> Switch /\ ro_valid w v end) (va x) /\ (ro_usage w <> Repeated -> length (va x) <= 1).
Proof. intros x w U V. destruct x as [v|]; cbn; (split; [repeat constructor|lia]); [rewrite U; discriminate|auto]. Qed.
Lemma ok_many : forall x (w : row), ro_usage w = Repeated -> ro_valid w = any ->
  Forall (fun o => match o with None => ro_usage w = Switch | Some v => ro_usage w <> Switch /\ ro_valid w v end) (many x) /\ (ro_usage w <> Repeated -> length (many x) <= 1).
Proof.
  intros x w U V. split; [|contradiction]. unfold many. apply Forall_forall. intros o H. apply in_map_iff in H. destruct H as (v & <- & _). rewrite U, V. split; [discriminate|exact I].
Qed.
Lemma ok_unless : forall d x (w : row), ro_usage w = Single -> ro_valid w = yes_or_no ->
  Forall (fun o => match o with None => ro_usage w = Switch | Some v => ro_usage w <> Switch /\ ro_valid w v end) (unless d x) /\ (ro_usage w <> Repeated -> length (unless d x) <= 1).
Proof.
  intros d x w U V. unfold unless. destruct (Bool.eqb d x); cbn; (split; [|lia]); constructor; [|constructor]. rewrite U, V. split; [discriminate|]. unfold yes_or_no. destruct x; auto.
Qed.
Lemma valid_yn : forall (x : option bool) v, option_map yn x = Some v -> yes_or_no v.
Proof. intros [[|]|] v H; try discriminate; injection H as <-; unfold yes_or_no; auto. Qed.
Lemma valid_num : forall x, (forall n, x = Some n -> (N.of_nat n < 2 ^ 64)%N) -> forall v, option_map show_nat x = Some v -> is_number v.
Proof. intros [n|] L v H; [|discriminate]. injection H as <-. exists (N.of_nat n). apply number_show. apply L. reflexivity. Qed.
Lemma valid_flt : forall x, (forall f, x = Some f -> In f (floats a)) -> forall v, option_map shows x = Some v -> is_float v.
Proof. intros [f|] L v H; [|discriminate]. injection H as <-. exists f. apply Sh. apply L. reflexivity. Qed.
Lemma part_show : forall s, (sh_k s < sh_n s < 2 ^ 64)%N -> part (show_N (sh_k s) ++ tx "/" ++ show_N (sh_n s)) s.
Proof. intros s L. exists (show_N (sh_k s)), (show_N (sh_n s)). split; [reflexivity|]. split; [apply number_show; lia|]. split; [apply number_show; lia|lia]. Qed.

Ltac row k := exists (nth k rows (r "" [] Switch any)); split; [apply row_in; cbn; lia|]; split; [reflexivity|]; split; [cbn; tauto|]; cbn [snd].
Lemma floats_in : forall x, In x [ar_minimum_test_timeout b; ar_timeout b; ar_timeout_multiplier b; ar_build_timeout b; ar_build_timeout_multiplier b] ->
  forall f, x = Some f -> In f (floats a).
Proof. intros x H f ->. unfold floats. apply in_flat_map. exists (Some f). split; [exact H|left; reflexivity]. Qed.
Lemma parts_ok : Forall2 part_ok parts line_names.
Proof.
  unfold parts, line_parts, line_names. cbv zeta. cbn [map].
  constructor; [row 26; apply ok_va; [reflexivity|intros; exact I]|].
  constructor; [row 8; apply ok_va; [reflexivity|intros; exact I]|].
  constructor; [row 27; apply ok_sw; reflexivity|].
  constructor; [row 34; apply ok_many; reflexivity|].
  constructor; [row 50; apply ok_sw; reflexivity|].
  constructor; [row 17; apply ok_sw; reflexivity|].
  constructor; [row 25; apply ok_sw; reflexivity|].
  constructor; [row 24; apply ok_sw; reflexivity|].
  constructor; [row 32; apply ok_va; [reflexivity|intros; exact I]|].
  constructor; [row 38; apply ok_va; [reflexivity|]; intros v H; destruct (ag_shard a) as [s|] eqn:E; [|discriminate]; injection H as <-; exists s; apply part_show; apply (co_shard a Co); exact E|].
  constructor; [row 0; apply ok_sw; reflexivity|].
  constructor; [row 1; destruct (ar_baseline (ag_options a)); cbn; (split; [|lia]); constructor; [|constructor]; split; [discriminate|right; left; reflexivity]|].
  constructor; [row 2; apply ok_va; [reflexivity|apply valid_yn]|].
  constructor; [row 3; apply ok_sw; reflexivity|].
  constructor; [row 4; apply ok_sw; reflexivity|].
  constructor; [row 6; apply ok_va; [reflexivity|apply valid_yn]|].
  constructor; [row 7; apply ok_sw; reflexivity|].
  constructor; [row 10; apply ok_many; reflexivity|].
  constructor; [row 11; apply ok_many; reflexivity|].
  constructor; [row 12; apply ok_many; reflexivity|].
  constructor; [row 13; apply ok_many; reflexivity|].
  constructor; [row 14; apply ok_many; reflexivity|].
  constructor; [row 15; apply ok_unless; reflexivity|].
  constructor; [row 16; apply ok_sw; reflexivity|].
  constructor; [row 18; apply ok_va; [reflexivity|apply valid_num; apply (co_jobs_fit a Co)]|].
  constructor; [row 19; apply ok_unless; reflexivity|].
  constructor; [row 20; apply ok_va; [reflexivity|apply valid_num; apply (co_tasks_fit a Co)]|].
  constructor; [row 21; apply ok_sw; reflexivity|].
  constructor; [row 22; apply ok_sw; reflexivity|].
  constructor; [row 29; apply ok_sw; reflexivity|].
  constructor; [row 30; apply ok_unless; reflexivity|].
  constructor; [row 31; apply ok_va; [reflexivity|intros; exact I]|].
  constructor; [row 33; apply ok_va; [reflexivity|apply valid_flt; apply floats_in; cbn; tauto]|].
  constructor; [row 36; apply ok_sw; reflexivity|].
  constructor; [row 37; apply ok_va; [reflexivity|intros; exact I]|].
  constructor; [row 39; apply ok_many; reflexivity|].
  constructor; [row 40; apply ok_va; [reflexivity|apply valid_yn]|].
  constructor; [row 41; apply ok_many; reflexivity|].
  constructor; [row 42; apply ok_va; [reflexivity|]; intros v H; destruct (ar_test_tool (ag_options a)) as [[|]|]; try discriminate; injection H as <-; unfold ro_valid; cbn; tauto|].
  constructor; [row 43; apply ok_va; [reflexivity|apply valid_yn]|].
  constructor; [row 44; apply ok_va; [reflexivity|apply valid_flt; apply floats_in; cbn; tauto]|].
  constructor; [row 45; apply ok_va; [reflexivity|apply valid_flt; apply floats_in; cbn; tauto]|].
  constructor; [row 46; apply ok_va; [reflexivity|apply valid_flt; apply floats_in; cbn; tauto]|].
  constructor; [row 47; apply ok_va; [reflexivity|apply valid_flt; apply floats_in; cbn; tauto]|].
  constructor; [row 48; apply ok_sw; reflexivity|].
  constructor; [row 51; apply ok_many; reflexivity|].
  constructor; [row 52; apply ok_many; reflexivity|].
  constructor; [row 53; apply ok_sw; reflexivity|].
  constructor; [row 54; apply ok_sw; reflexivity|].
  constructor.
Qed.

Lemma names_nodup : NoDup line_names.
Proof. apply distinct_nodup. vm_compute. reflexivity. Qed.
Lemma names_fst : map fst (combine line_names (map snd parts)) = line_names.
Proof. unfold parts, line_parts, line_names. cbv zeta. cbn [map combine fst snd]. reflexivity. Qed.
Lemma us_right : right us.
Proof. apply right_line; [exact parts_ok|exact names_nodup]. Qed.
Lemma us_reads : reads at_end (line_for shows a) us (ar_cargo_test_args b).
Proof. apply reads_line. exact parts_ok. Qed.
Lemma texts_us : forall n vs, In (n, vs) (combine line_names (map snd parts)) ->
  texts_of us n = map (fun o => match o with Some v => v | None => tx "true" end) vs.
Proof. intros n vs H. apply texts_part; [rewrite names_fst; exact names_nodup|exact H]. Qed.
Lemma texts_not : forall n, mem_text n line_names = false -> texts_of us n = [].
Proof. intros n H. unfold texts_of, us. rewrite uses_none; [reflexivity|]. rewrite names_fst. apply mem_text_false. exact H. Qed.
Lemma used_us : forall n vs, In (n, vs) (combine line_names (map snd parts)) -> used us n -> vs <> [].
Proof.
  intros n vs H U Z. subst vs. assert (E : uses_of n us = []) by (unfold us; rewrite (uses_part _ n [] ltac:(rewrite names_fst; exact names_nodup) H); reflexivity).
  apply unused_iff in E. contradiction.
Qed.

Fixpoint place (n : text) (l : list text) : nat := match l with [] => 0 | x :: l' => if text_eqb x n then 0 else S (place n l') end.
Lemma part_in : forall n k vs, nth_error (combine line_names (map snd parts)) k = Some (n, vs) -> In (n, vs) (combine line_names (map snd parts)).
Proof. intros n k vs H. eapply nth_error_In. exact H. Qed.
Ltac part := match goal with |- In (?n, _) _ => let k := eval vm_compute in (place n line_names) in apply (part_in n k); reflexivity end.
Lemma f_flag : forall n x, texts_of us (tx n) = map (fun o => match o with Some v => v | None => tx "true" end) (sw x) -> flag m n = x.
Proof. intros n x H. unfold flag, m. rewrite present_texts, H. destruct x; reflexivity. Qed.
Lemma f_value : forall n x, texts_of us (tx n) = map (fun o => match o with Some v => v | None => tx "true" end) (va x) -> value m n = x.
Proof. intros n x H. unfold value, m. rewrite values_texts, H. destruct x; reflexivity. Qed.
Lemma f_list : forall n x, texts_of us (tx n) = map (fun o => match o with Some v => v | None => tx "true" end) (many x) -> list_of m n = x.
Proof. intros n x H. unfold list_of, m. rewrite values_texts, H. unfold many. rewrite map_map. apply map_id. Qed.
Lemma f_bool : forall n x, texts_of us (tx n) = map (fun o => match o with Some v => v | None => tx "true" end) (yes_no x) -> opt_bool m n = x.
Proof. intros n x H. unfold opt_bool. rewrite (f_value n _ H). destruct x as [[|]|]; reflexivity. Qed.
Lemma f_unless : forall n x, texts_of us (tx n) = map (fun o => match o with Some v => v | None => tx "true" end) (unless true x) -> bool_or m n true = x.
Proof. intros n x H. unfold bool_or, opt_bool, value, m. rewrite values_texts, H. destruct x; reflexivity. Qed.
Lemma f_num : forall n x, (forall k, x = Some k -> (N.of_nat k < 2 ^ 64)%N) ->
  texts_of us (tx n) = map (fun o => match o with Some v => v | None => tx "true" end) (num x) -> opt_usize m n = x.
Proof.
  intros n x L H. unfold opt_usize. rewrite (f_value n _ H). destruct x as [k|]; cbn [option_map]; [|reflexivity].
  pose proof (number_show (N.of_nat k) (L k eq_refl)) as K. apply number_iff in K. unfold show_nat. rewrite K. cbn [option_map]. rewrite Nat2N.id. reflexivity.
Qed.
Lemma f_flt : forall n x, (forall f, x = Some f -> In f (floats a)) ->
  texts_of us (tx n) = map (fun o => match o with Some v => v | None => tx "true" end) (flt shows x) -> opt_f64 m n = x.
Proof.
  intros n x L H. unfold opt_f64. rewrite (f_value n _ H). destruct x as [f|]; cbn [option_map]; [|reflexivity]. apply float_iff. apply Sh. apply L. reflexivity.
Qed.

Lemma us_compatible : compatible us.
Proof.
  assert (S1 : forall n x, In (n, sw x) (combine line_names (map snd parts)) -> used us n -> x = true).
  { intros n x H U. pose proof (used_us n _ H U). destruct x; [reflexivity|contradiction]. }
  assert (S2 : forall n x, In (n, va x) (combine line_names (map snd parts)) -> used us n -> x <> None).
  { intros n x H U E. subst x. exact (used_us n _ H U eq_refl). }
  assert (S3 : forall n x, In (n, unless true x) (combine line_names (map snd parts)) -> used us n -> x = false).
  { intros n x H U. pose proof (used_us n _ H U). destruct x; [contradiction|reflexivity]. }
  assert (S4 : forall A (g : A -> text) o, option_map g o <> None -> o <> None) by (intros A g [x|] H; [discriminate|contradiction]).
  assert (S5 : ~ used us (tx "no_copy_target")).
  { intro U. assert (E : texts_of us (tx "no_copy_target") = []) by (apply texts_not; vm_compute; reflexivity). apply present_iff in U. rewrite present_texts, E in U. discriminate. }
  intros p H [U V]. unfold exclusive in H. cbn [In] in H. destruct H as [<-|[<-|[<-|[<-|[<-|[<-|[<-|[]]]]]]]]; cbn [fst snd] in U, V.
  - apply (co_where a Co). split; [eapply (S2 (tx "manifest_path")); [part|exact V]|eapply (S2 (tx "dir")); [part|exact U]].
  - assert (A : ar_in_place b = true) by (eapply (S1 (tx "in_place")); [part|exact U]).
    assert (B : option_map show_nat (ar_jobs b) <> None) by (eapply (S2 (tx "jobs")); [part|exact V]). apply S4 in B. apply B. exact (co_jobs a Co A).
  - assert (A : ar_in_place b = true) by (eapply (S1 (tx "in_place")); [part|exact U]).
    assert (B : ar_gitignore b = false) by (eapply (S3 (tx "gitignore")); [part|exact V]). pose proof (co_ignore a Co A) as C. unfold b in B. congruence.
  - contradiction.
  - contradiction.
  - apply (co_timeout a Co). split; eapply S4; [eapply (S2 (tx "timeout")); [part|exact U]|eapply (S2 (tx "timeout_multiplier")); [part|exact V]].
  - apply (co_build a Co). split; eapply S4; [eapply (S2 (tx "build_timeout")); [part|exact U]|eapply (S2 (tx "build_timeout_multiplier")); [part|exact V]].
Qed.

Ltac ff L n := rewrite (L n _ (texts_us (tx n) _ ltac:(part))).
Lemma us_arguments : arguments_of m (ar_cargo_test_args b) = a.
Proof.
  assert (TT : option_map (fun v => if text_eqb v (tx "nextest") then ToolNextest else ToolCargo) (value m "test_tool") = ar_test_tool b).
  { ff f_value "test_tool"%string. fold b. destruct (ar_test_tool b) as [[|]|]; reflexivity. }
  assert (BL : match value m "baseline" with Some v => negb (text_eqb v (tx "skip")) | None => true end = ar_baseline b).
  { unfold value, m. rewrite values_texts. rewrite (texts_us (tx "baseline") _ ltac:(part)). fold b. destruct (ar_baseline b); reflexivity. }
  assert (SH : match value m "shard" with Some v => shard_from_str v | None => None end = ag_shard a).
  { ff f_value "shard"%string. destruct (ag_shard a) as [s|] eqn:E; cbn [option_map]; [|reflexivity]. apply part_iff. apply part_show. apply (co_shard a Co). exact E. }
  unfold arguments_of, args_of. rewrite TT, BL, SH. clear TT BL SH.
  ff f_value "manifest_path"%string. ff f_value "dir"%string. ff f_flag "no_config"%string. ff f_list "package"%string. ff f_flag "workspace"%string. ff f_flag "iterate"%string.
  ff f_flag "list_files"%string. ff f_flag "list"%string. ff f_value "in_diff"%string.
  ff f_flag "all_logs"%string. ff f_bool "cap_lints"%string. ff f_flag "caught"%string. ff f_flag "check"%string. ff f_bool "copy_vcs"%string. ff f_flag "diff"%string.
  ff f_list "error"%string. ff f_list "examine_re"%string. ff f_list "exclude"%string. ff f_list "exclude_re"%string. ff f_list "file"%string.
  ff f_unless "gitignore"%string. ff f_flag "in_place"%string. ff f_unless "jobserver"%string. ff f_flag "json"%string. ff f_flag "leak_dirs"%string. ff f_flag "no_times"%string.
  ff f_unless "line_col"%string. ff f_value "output"%string. ff f_flag "no_shuffle"%string. ff f_value "profile"%string. ff f_list "skip_calls"%string.
  ff f_bool "skip_calls_defaults"%string. ff f_list "test_package"%string. ff f_bool "test_workspace"%string. ff f_flag "unviable"%string. ff f_list "cargo_arg"%string.
  ff f_list "features"%string. ff f_flag "no_default_features"%string. ff f_flag "all_features"%string.
  rewrite (f_num "jobs"%string _ (co_jobs_fit a Co) (texts_us (tx "jobs") _ ltac:(part))).
  rewrite (f_num "jobserver_tasks"%string _ (co_tasks_fit a Co) (texts_us (tx "jobserver_tasks") _ ltac:(part))).
  rewrite (f_flt "minimum_test_timeout"%string (ar_minimum_test_timeout b) (floats_in (ar_minimum_test_timeout b) ltac:(cbn; tauto)) (texts_us (tx "minimum_test_timeout") _ ltac:(part))).
  rewrite (f_flt "timeout"%string (ar_timeout b) (floats_in (ar_timeout b) ltac:(cbn; tauto)) (texts_us (tx "timeout") _ ltac:(part))).
  rewrite (f_flt "timeout_multiplier"%string (ar_timeout_multiplier b) (floats_in (ar_timeout_multiplier b) ltac:(cbn; tauto)) (texts_us (tx "timeout_multiplier") _ ltac:(part))).
  rewrite (f_flt "build_timeout"%string (ar_build_timeout b) (floats_in (ar_build_timeout b) ltac:(cbn; tauto)) (texts_us (tx "build_timeout") _ ltac:(part))).
  rewrite (f_flt "build_timeout_multiplier"%string (ar_build_timeout_multiplier b) (floats_in (ar_build_timeout_multiplier b) ltac:(cbn; tauto)) (texts_us (tx "build_timeout_multiplier") _ ltac:(part))).
  unfold b. clear. destruct a as [x1 x2 x3 x4 x5 x6 x7 x8 x9 x10 o]. destruct o. cbn. destruct ar_features. reflexivity.
Qed.
Lemma from_no_variables : forall vs, from_variables (fun _ => None) vs = [].
Proof. intro vs. reflexivity. Qed.
Lemma line_command : command_of (fun _ => None) (line_for shows a) = CmdRun a.
Proof.
  assert (P : parse (fun _ => None) (line_for shows a) = UOk m (ar_cargo_test_args b)).
  { apply parse_ok. exists us. split; [|reflexivity]. exists us. split; [exact us_reads|]. rewrite from_no_variables, app_nil_r. split; [reflexivity|]. split; [exact us_right|exact us_compatible]. }
  unfold command_of. rewrite P. unfold flag, value, m. rewrite present_texts, values_texts. rewrite !texts_not by (vm_compute; reflexivity). cbn [hd_error].
  fold m. rewrite us_arguments. reflexivity.
Qed.
End Line.
