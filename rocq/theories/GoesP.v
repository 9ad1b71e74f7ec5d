(** Proofs for C75. *)
From Coq Require Import String List NArith ZArith QArith Bool Arith Lia Permutation.
From Verif Require Import Text SpanM PathM MutantM ProcessM OutcomeM OutputM IterateM InDiffM ShardM F64M TimeoutM TimeoutS PackageM OptionsM PrettyM FnValueM VisitM VisitS VisitT
  WalkM WalkS WalkT LabM LabS LabP LabT MainM WholeM WholeS WholeP CargoM LaunchM LaunchS LaunchP LaunchT EndM InterruptM PartsP InterruptT LogM LogsM LogsT MainP EndP GoesS.
Import ListNotations.
Open Scope list_scope.
Open Scope nat_scope.

(** ** Names *)
Lemma offered_named : forall file errs sc root m, offered file errs sc root m -> forall b, mutant_name b m <> None.
Proof.
  intros file errs sc root m (anc & k & cs & _ & _ & Y & F & _) b. unfold mutant_name, describe_change.
  destruct (mu_genre m) eqn:G; try discriminate. destruct (mu_fn m) eqn:E; [discriminate|]. exfalso.
  inversion Y; subst. inversion F as [anc' D E1 E2|]. apply (D f). apply in_or_app. right. left. reflexivity.
Qed.
Lemma walked_named : forall file errs sc root ms ext m b, walk_syntax file errs sc root = Some (ms, ext) -> In m ms -> mutant_name b m <> None.
Proof.
  intros file errs sc root ms ext m b H I. apply (C30_mutants _ _ _ _ _ _ H) in I. exact (offered_named _ _ _ _ _ I b).
Qed.

(** ** The walk *)
Lemma retain_total : forall re o ms, (forall m, In m ms -> mutant_name true m <> None) -> retain_allowed re o ms <> None.
Proof.
  intros re o ms. induction ms as [|m ms IH]; intros H; cbn [retain_allowed]; [discriminate|].
  assert (N := H m (or_introl eq_refl)). unfold allows_mutant. destruct (mutant_name true m); [|contradiction].
  assert (R : retain_allowed re o ms <> None) by (apply IH; intros; apply H; right; assumption).
  destruct (retain_allowed re o ms); [|contradiction]. destruct (_ && _); discriminate.
Qed.
Lemma modules_last : forall ks a i s b l, modules (ks ++ [KMod a i s b]) l -> l <> [].
Proof.
  intros ks a i s b. induction ks as [|k ks IH]; intros l H; cbn [app] in H; inversion H; subst; try discriminate.
  - match goal with X : forall a0 i0 s0 b0, _ <> _ |- _ => destruct (X a i s b eq_refl) end.
  - apply IH. assumption.
Qed.
Lemma declared_some : forall sc root chain, declared sc root chain -> chain <> [].
Proof. intros sc root chain (anc & a & ident & sp & cs & _ & _ & M). exact (modules_last _ _ _ _ _ _ M). Qed.
Lemma parent_some : forall p, p <> [] -> file_parent p <> None.
Proof. intros p H. unfold file_parent. destruct (split_once SLASH (rev p)) as [[]|]; [discriminate|]. destruct p; [contradiction|discriminate]. Qed.
Lemma candidates_some : forall f chain, sf_path f <> [] -> chain <> [] -> mod_candidates f chain <> None.
Proof.
  intros f chain Hf Hc. unfold mod_candidates. destruct (rev chain) as [|c rs] eqn:E; [apply (f_equal (@rev _)) in E; rewrite rev_involutive in E; contradiction|].
  pose proof (parent_some _ Hf) as Hp. destruct (_ || _).
  - destruct (file_parent (sf_path f)); [discriminate|contradiction].
  - discriminate.
Qed.
Lemma find_all_some : forall is_file tree f chains, sf_path f <> [] -> (forall c, In c chains -> c <> []) -> find_all is_file tree f chains <> None.
Proof.
  intros is_file tree f chains Hf. induction chains as [|c cs IH]; intros H; cbn [find_all]; [discriminate|].
  assert (Hc := candidates_some f c Hf (H c (or_introl eq_refl))). unfold find_mod_source. destruct (mod_candidates f c); [|contradiction].
  assert (Hs : find_all is_file tree f cs <> None) by (apply IH; intros; apply H; right; assumption).
  destruct (find_all is_file tree f cs); [|contradiction]. destruct (find _ _); discriminate.
Qed.

Section Walk.
Context (read : text -> option text) (is_file : text -> bool) (parse : text -> option node) (re_match : text -> text -> bool) (tree : text)
  (opts : options) (errs : list toks) (sc : list text).
Hypothesis Root : read (path_join tree []) = None.
Lemma file_no_panic : forall package e, one_file read is_file parse re_match tree opts errs sc package e <> TPanic.
Proof.
  intros package e. unfold one_file. destruct (load read tree (fst e) package (snd e)) as [| |f] eqn:L; try discriminate.
  destruct (parse (sf_code f)) as [root|]; [|discriminate].
  destruct (C31_no_panic f errs sc root) as (ms & ext & W). rewrite W.
  assert (P : sf_path f <> []).
  { unfold load in L. destruct (_ <? _)%Z; [discriminate|]. destruct (fst e) as [|c p] eqn:E; [rewrite Root in L; discriminate|].
    destruct (read (path_join tree (c :: p))); [|discriminate]. injection L as <-. cbn [sf_path]. discriminate. }
  pose proof (retain_total re_match opts ms (fun m I => walked_named _ _ _ _ _ _ m true W I)) as R.
  pose proof (find_all_some is_file tree f ext P (fun c I => declared_some _ _ _ (proj1 (C29_declared _ _ _ _ _ _ W c) I))) as F.
  destruct (retain_allowed _ _ _); [|contradiction]. destruct (find_all _ _ _ _); [discriminate|contradiction].
Qed.
Lemma queue_no_panic : forall fuel package q, walk_queue read is_file parse re_match tree opts errs sc fuel package q <> WalkM.WPanic.
Proof.
  intros fuel package. induction fuel as [|fuel IH]; intros q; cbn [walk_queue]; [discriminate|].
  destruct q as [|e q]; [discriminate|]. pose proof (file_no_panic package e) as F.
  destruct (one_file _ _ _ _ _ _ _ _ _ _) as [| | |f kept mods]; try discriminate; [contradiction| |].
  - pose proof (IH q) as G. destruct (walk_queue _ _ _ _ _ _ _ _ _ _ q); try discriminate. contradiction.
  - pose proof (IH (q ++ map (fun p => (p, false)) mods)) as G. destruct (walk_queue _ _ _ _ _ _ _ _ _ _ (q ++ _)); try discriminate; [|contradiction].
    destruct (allows_source_file_path _ _); discriminate.
Qed.
Lemma tree_no_panic : forall fuel ps, walk_tree read is_file parse re_match tree opts errs sc fuel ps <> WalkM.WPanic.
Proof.
  intros fuel ps. induction ps as [|p ps IH]; cbn [walk_tree]; [discriminate|]. unfold walk_package.
  pose proof (queue_no_panic fuel (pk_name p) (map (fun t => (t, true)) (pk_tops p))) as G.
  destruct (walk_queue _ _ _ _ _ _ _ _ _ _ _); try discriminate; [|contradiction].
  destruct (walk_tree _ _ _ _ _ _ _ _ _ ps); try discriminate. contradiction.
Qed.
End Walk.

Lemma found_named : forall w fuel s v ms fs m b, discover w fuel s = WOk v ms fs -> In m ms -> mutant_name b m <> None.
Proof.
  intros w fuel s v ms fs m b D I. apply discover_ok in D. destruct D as (_ & ps & errs & _ & _ & W).
  apply (C21_tree _ _ _ _ _ _ _ _ _ _ _ _ _ W) in I. destruct I as (p & e & f & root & _ & _ & _ & _ & _ & O & _).
  exact (offered_named _ _ _ _ _ O b).
Qed.

(** ** After the search *)
Lemma caught_total : forall prev ms, (forall m, In m ms -> mutant_name true m <> None) -> exists r, remove_previously_caught prev ms = Some r /\ incl r ms.
Proof.
  intros prev ms. induction ms as [|m ms IH]; intros H; cbn [remove_previously_caught]; [exists []; split; [reflexivity|intros x []]|].
  assert (N := H m (or_introl eq_refl)). destruct (mutant_name true m); [|contradiction].
  destruct IH as (r & -> & I); [intros; apply H; right; assumption|]. eexists. split; [reflexivity|].
  destruct (mem_text _ _); [apply incl_tl; exact I|]. intros x [->|J]; [left; reflexivity|right; apply I; exact J].
Qed.
Lemma list_total : forall diff jm c ms, (forall m, In m ms -> mutant_name (cl_line_col c) m <> None) -> list_mutants diff jm c ms <> None.
Proof.
  intros diff jm c ms H. unfold list_mutants. destruct (cl_json c); [discriminate|].
  induction ms as [|m ms IH]; cbn [list_text]; [discriminate|]. assert (N := H m (or_introl eq_refl)). unfold list_one. destruct (mutant_name _ m); [|contradiction].
  assert (L : list_text diff c ms <> None) by (apply IH; intros; apply H; right; assumption). destruct (list_text diff c ms); [discriminate|contradiction].
Qed.

Lemma set_up_no_panic : forall lk c es, set_up lk c es <> Panics.
Proof.
  intros lk c es. unfold set_up. destruct (output_new lk es); [|discriminate]. destruct (cl_iterate c); [|discriminate].
  destruct (dget _ _) as [[]|]; try discriminate. destruct (write_previously_caught _ _); discriminate.
Qed.
Lemma iterate_no_panic : forall c es ms, (forall m, In m ms -> mutant_name true m <> None) -> iterate_step c es ms <> Panics.
Proof. intros c es ms H. unfold iterate_step. destruct (cl_iterate c); [|discriminate]. destruct (caught_total (load_previously_caught es) ms H) as (r & -> & _). discriminate. Qed.
Lemma diff_no_panic : forall pp c ms, diff_step pp c ms <> Panics.
Proof. intros pp c ms. unfold diff_step. destruct (cl_diff c) as [[d|]|]; try discriminate. destruct (diff_filter _ _ _); discriminate. Qed.
Lemma shard_no_panic : forall c ms, (forall sh, cl_shard c = Some sh -> (sh_k sh < sh_n sh)%N) -> shard_step c ms <> Panics.
Proof.
  intros c ms H. unfold shard_step. destruct (cl_shard c) as [sh|]; [|discriminate]. specialize (H sh eq_refl). unfold shard_select.
  destruct (N.eqb_spec (sh_n sh) 0); [lia|discriminate].
Qed.
Lemma run_no_panic : forall pp dt jm jf lk c es v ms fs, (forall m b, In m ms -> mutant_name b m <> None) ->
  (forall sh, cl_shard c = Some sh -> (sh_k sh < sh_n sh)%N) -> main_run pp dt jm jf lk c es (WOk v ms fs) <> Panics.
Proof.
  intros pp dt jm jf lk c es v ms fs N Sh. pose proof (select_incl pp c es ms) as Inc. unfold select in Inc. cbn [main_run].
  pose proof (iterate_no_panic c es ms (fun m I => N m true I)) as A. destruct (iterate_step c es ms) as [ms1| |]; [|discriminate|contradiction]. cbn [bind] in *.
  destruct (cl_list_files c); [discriminate|]. pose proof (diff_no_panic pp c ms1) as B. destruct (diff_step pp c ms1) as [ms2| |]; [|discriminate|contradiction]. cbn [bind] in *.
  pose proof (shard_no_panic c ms2 Sh) as C. destruct (shard_step c ms2) as [ms3| |]; [|discriminate|contradiction]. cbn [bind] in *.
  specialize (Inc ms3 eq_refl). destruct (cl_list c).
  - assert (L := list_total dt jm c ms3 (fun m I => N m (cl_line_col c) (Inc m I))). destruct (list_mutants dt jm c ms3); [discriminate|contradiction].
  - pose proof (set_up_no_panic lk c es) as S. destruct (set_up lk c es); [discriminate|discriminate|contradiction].
Qed.

Lemma after_panics : forall w lk fuel a s, wo_read w (path_join (md_root (se_meta s)) []) = None ->
  (forall sh, ag_shard a = Some sh -> (sh_k sh < sh_n sh)%N) -> discover w fuel s <> WFuel ->
  (after w lk fuel a s = Panics <-> in_relative w s).
Proof.
  intros w lk fuel a s R Sh F.
  assert (D : discover w fuel s = WalkM.WPanic <-> in_relative w s).
  { rewrite discover_panic. split; [|auto]. intros [H|(ps & errs & _ & _ & W)]; [exact H|]. destruct (tree_no_panic _ _ _ _ _ _ _ _ R _ _ W). }
  rewrite <- D. unfold after. split; [|intros ->; reflexivity].
  destruct (discover w fuel s) as [v ms fs| | |] eqn:E; [|discriminate|reflexivity|contradiction].
  intro H. exfalso. revert H. apply run_no_panic; [|exact Sh]. intros m b I. exact (found_named _ _ _ _ _ _ _ b E I).
Qed.

Lemma tests_named : forall w lk fuel a s ms es m b, after w lk fuel a s = Done (Tests ms es) -> In m ms -> mutant_name b m <> None.
Proof.
  intros w lk fuel a s ms es m b A I. destruct (after_found _ _ _ _ _ _ _ A) as (ps & errs & _ & _ & Iff & _).
  destruct (Iff m I) as (p & e & f & t & _ & _ & _ & _ & _ & O & _). exact (offered_named _ _ _ _ _ O b).
Qed.

Lemma early_iff : forall w lk fuel a, (forall s, settle w a = Done s -> wo_read w (path_join (md_root (se_meta s)) []) = None /\ discover w fuel s <> WFuel) ->
  (forall sh, ag_shard a = Some sh -> (sh_k sh < sh_n sh)%N) -> panics_early w lk fuel a <-> bad_setting w a.
Proof.
  intros w lk fuel a R Sh. split.
  - intros [H|(s & S & F & A)].
    + apply settle_panics in H. destruct H as (start & St & [(manifest & root & A & B & C & D & E & F)|(md & cf & A & B & C)]);
        [eapply bs_manifest; eassumption|eapply bs_options; eassumption].
    + apply after_panics in A; [|apply R; exact S|exact Sh|exact F]. eapply bs_package; eassumption.
  - intros [start manifest root A B C D E F G|start md cf A B C D|s S I].
    + left. apply settle_panics. exists start. split; [exact A|]. left. exists manifest, root. auto 10.
    + left. apply settle_panics. exists start. split; [exact A|]. right. exists md, cf. auto.
    + right. exists s. destruct (R s S) as [R1 R2]. split; [exact S|]. split; [exact R2|]. apply after_panics; assumption.
Qed.

(** ** The run *)
Lemma runs_named : forall w e js a s ms P r, program_runs w e js a s ms P r -> forall m b, In m ms -> mutant_name b m <> None.
Proof. intros w e js a s ms P r [lk fuel es q o0 t0 r' S A _ _ _ _ _] m b I. exact (tests_named _ _ _ _ _ _ _ _ b A I). Qed.

Section Ends.
Context (P : params) (X : context) (o0 : entries) (t0 : tree) (ms : list mutant).
Notation rreach := (rreachable P X ms o0 t0).
Lemma to_end : LabP.named ms -> forall n r, rreach r -> measure P (length ms) (rs_lab r) <= n ->
  exists k r' x, rsteps_k P X ms k r r' /\ ls_main (rs_lab r') = MEnd x /\ rreach r'.
Proof.
  intros Hn n. induction n as [|n IH]; intros r H L.
  - destruct (PartsP.run_goes P X o0 t0 ms Hn r H) as [[x E]|[r' St]]; [exists 0, r, x; split; [apply rk_0|auto]|].
    pose proof (PartsP.rstep_measure _ _ _ _ _ _ _ H St). lia.
  - destruct (PartsP.run_goes P X o0 t0 ms Hn r H) as [[x E]|[r' St]]; [exists 0, r, x; split; [apply rk_0|auto]|].
    pose proof (PartsP.rstep_measure _ _ _ _ _ _ _ H St). destruct (IH r') as (k & r'' & x & K & E & R); [eapply rsteps_more; eassumption|lia|].
    exists (S k), r'', x. split; [|auto]. clear - St K. induction K as [r1|k r1 r2 r3 K IH T]; [eapply rk_S; [apply rk_0|exact St]|eapply rk_S; [apply IH; exact St|exact T]].
Qed.
Lemma bound_from : forall k r r', rreach r -> rsteps_k P X ms k r r' -> rreach r' /\ k + measure P (length ms) (rs_lab r') <= measure P (length ms) (rs_lab r).
Proof.
  intros k r r' H K. induction K as [r|k r r1 r2 K IH S]; [split; [exact H|lia]|]. destruct (IH H) as [A B].
  split; [eapply rsteps_more; eassumption|]. pose proof (PartsP.rstep_measure _ _ _ _ _ _ _ A S). lia.
Qed.
Lemma start_bound : forall r, rreach r -> measure P (length ms) (rs_lab r) <= 20 * length ms + 3 * n_threads (pa_jobs P) (length ms) + 17.
Proof.
  intros r H. pose proof (start_measure P o0 t0 ms) as B. enough (measure P (length ms) (rs_lab r) <= measure P (length ms) (start_state P o0 t0 ms)) by lia.
  unfold rreachable in H. remember (rstart P X ms o0 t0) as r0 eqn:E. induction H as [r|r r1 r2 H IH S]; [subst r; apply le_n|]. specialize (IH E). subst r.
  pose proof (PartsP.rstep_measure _ _ _ _ _ _ _ H S). lia.
Qed.

Lemma panic_why : LabP.named ms -> forall r, rreach r -> ls_main (rs_lab r) = MEnd RPanic ->
  pa_skip_baseline P = false
  /\ (exists o, lo_outcomes (sh_lab (ls_sh (rs_lab r))) = [o] /\ oc_scenario o = Baseline /\ oc_success o = Some true
        /\ mutant_timeouts rnd64 (Some o) (timeout_options (cx_options X)) = None)
  /\ forall l, In l (rs_log r) -> la_scenario l = Baseline.
Proof.
  intros Hn r H E. destruct r as [[sh mn ws] lim log]. cbn [rs_lab ls_main ls_sh rs_log] in *. subst mn.
  destruct (no_panic_run P X o0 t0 ms _ sh ws Hn H eq_refl) as (d & o & Ho & Hr & Hm).
  destruct (base_lab _ _ _ _ _ _ _ Hr) as [E'|E']; [discriminate E'|]. cbn in E'.
  pose proof (base_inv _ _ _ _ _ Hr) as ([d' B] & _ & _ & Sk & _). cbn in B. injection B as _ B.
  split; [exact Sk|]. split; [exists o; auto|].
  pose proof (limits_inv P X o0 t0 ms _ H) as L. unfold limits_ok in L. cbn in L.
  destruct L as [[_ L]|(T & _ & L)]; [intros l I; unfold all_baseline in L; rewrite Forall_forall in L; auto|].
  exfalso. unfold limits_from in L. rewrite Sk in L. destruct L as (b & rest & L1 & _ & L2). rewrite E' in L1. injection L1 as <- _. congruence.
Qed.
End Ends.

Lemma perm_named : forall ms q, Permutation ms q -> (forall m b, In m ms -> mutant_name b m <> None) -> LabP.named q.
Proof. intros ms q Pm N m I. apply N. eapply Permutation_in; [apply Permutation_sym; exact Pm|exact I]. Qed.

Lemma whole_goes : forall w e js a s ms P r, program_runs w e js a s ms P r ->
  exists q, Permutation ms q
  /\ ((exists x, ls_main (rs_lab r) = MEnd x) \/ exists r', rstep P (context_for e js s) q r r')
  /\ (exists k r' x, rsteps_k P (context_for e js s) q k r r' /\ ls_main (rs_lab r') = MEnd x)
  /\ forall k r', rsteps_k P (context_for e js s) q k r r' ->
       program_runs w e js a s ms P r' /\ k <= 20 * length ms + 3 * n_threads (pa_jobs P) (length ms) + 17.
Proof.
  intros w e js a s ms P r H. pose proof (runs_named _ _ _ _ _ _ _ _ H) as N. destruct H as [lk fuel es q o0 t0 r S A Ne Q L F R].
  pose proof (queued_perm _ _ _ Q) as Pm. pose proof (perm_named _ _ Pm N) as Nq. exists q. split; [exact Pm|].
  split; [exact (PartsP.run_goes _ _ _ _ _ Nq r R)|]. split.
  - destruct (to_end _ _ _ _ _ Nq _ r R (le_n _)) as (k & r' & x & K & E & _). exists k, r', x. auto.
  - intros k r' K. destruct (bound_from _ _ _ _ _ _ _ _ R K) as [R' B]. split; [econstructor; eassumption|].
    pose proof (start_bound _ _ _ _ _ _ R). rewrite (Permutation_length Pm). lia.
Qed.
Lemma whole_panic : forall w e js a s ms P r, program_runs w e js a s ms P r -> ls_main (rs_lab r) = MEnd RPanic -> no_limits s r.
Proof.
  intros w e js a s ms P r H E. pose proof (runs_named _ _ _ _ _ _ _ _ H) as N. destruct H as [lk fuel es q o0 t0 r S A Ne Q L F R].
  destruct (panic_why _ _ _ _ _ (perm_named _ _ (queued_perm _ _ _ Q) N) r R E) as (Sk & O & B).
  split; [|split; [exact O|exact B]]. destruct L as (_ & _ & _ & L). rewrite L in Sk. destruct (op_baseline (se_options s)); [reflexivity|discriminate].
Qed.
Lemma whole_safe : forall w e js a s ms P r, program_runs w e js a s ms P r ->
  (forall x, op_test_timeout_multiplier (se_options s) = Some x \/ op_build_timeout_multiplier (se_options s) = Some x -> exists m, x = Fin m /\ (0 <= m)%Q) ->
  (forall l e d m, In l (rs_log r) -> la_result l = Some (e, d) ->
     multiplier (op_test_timeout_multiplier (se_options s)) m \/ op_build_timeout_multiplier (se_options s) = Some (Fin m) -> (exact_secs d * m <= LARGE)%Q) ->
  ls_main (rs_lab r) <> MEnd RPanic.
Proof.
  intros w e js a s ms P r H F B E. pose proof (runs_named _ _ _ _ _ _ _ _ H) as N. destruct H as [lk fuel es q o0 t0 r S A Ne Q L Ft R].
  destruct r as [[sh mn ws] lim log]. cbn [rs_lab ls_main rs_log] in *. subst mn.
  exact (C65_no_panic_partial P (context_for e js s) o0 t0 q _ sh ws (perm_named _ _ (queued_perm _ _ _ Q) N) R F B eq_refl).
Qed.
Lemma whole_must : forall w e js a s ms P q r d o r', program_runs w e js a s ms P r -> ls_main (rs_lab r) = MBaseline (WFin d o) -> oc_success o = Some true ->
  mutant_timeouts rnd64 (Some o) (timeout_options (se_options s)) = None -> rstep P (context_for e js s) q r r' -> ls_main (rs_lab r') = MEnd RPanic.
Proof.
  intros w e js a s ms P q r d o r' _ E O T St.
  destruct St as [st lim log i d0 s0 done p todo polls r t Hp Hg Ht|sh d0 o1 lim log t Ho Hm|sh d0 o1 lim log Ho Hm|st st' lim log Hst Hc Hb]; cbn [rs_lab ls_main] in *.
  - unfold at_pc in Hp. rewrite E in Hp. destruct Hp as [_ Hp]. discriminate Hp.
  - injection E as -> ->. cbn [context_for cx_options] in Hm. congruence.
  - reflexivity.
  - exfalso. exact (Hb _ _ E O).
Qed.
Lemma whole_logs : forall w e js a s ms P r, program_runs w e js a s ms P r -> exists q o0 t0 g,
  Permutation ms q /\ greachable P (context_for e js s) q (wo_diff w) o0 t0 g /\ g_run g = r.
Proof.
  intros w e js a s ms P r H. pose proof (runs_named _ _ _ _ _ _ _ _ H) as N. destruct H as [lk fuel es q o0 t0 r S A Ne Q L F R].
  pose proof (queued_perm _ _ _ Q) as Pm. destruct (C71_every_run P (context_for e js s) q (wo_diff w) o0 t0 r (perm_named _ _ Pm N) R) as (g & G & E).
  exists q, o0, t0, g. auto.
Qed.
Lemma whole_stops : forall w a s lk fuel ms es q P o0 t0 st, settle w a = Done s -> after w lk fuel a s = Done (Tests ms es) ->
  queued (cli_of w a (se_options s)) ms q -> ireachable P o0 t0 q st ->
  (exists r, ls_main (is_lab st) = MEnd r) \/ exists st', step P (length q) (is_lab st) st' /\ istep P (length q) st (mkI st' (is_flag st)).
Proof.
  intros w a s lk fuel ms es q P o0 t0 st S A Q H. apply (C59_progress P o0 t0 q st); [|exact H].
  apply (perm_named _ _ (queued_perm _ _ _ Q)). intros m b I. exact (tests_named _ _ _ _ _ _ _ _ b A I).
Qed.
