(** C61: results do not depend on the schedule. *)
From Coq Require Import String List NArith ZArith Bool Arith Permutation Lia.
From Verif Require Import Text SpanM PathM PathS MutantM ProcessM OutcomeM OutcomeS OutcomeT OutputM LabM LabS LabP LabT ConsoleP ConsoleT DetS DetP.
Import ListNotations.

(** C61: if builds and tests are deterministic, every recorded outcome is the one of testing
    that mutant alone in a fresh copy of the tree, at every point of every schedule and
    whatever was tested before. *)
Theorem C61_as_alone : forall P B W o0 t0 ms st o,
  (forall m, In m ms -> loaded P m) -> first_tree P t0 -> options_ok P -> deterministic P W ->
  det_run P B W o0 t0 ms st -> In o (lo_outcomes (sh_lab (ls_sh st))) ->
  timeless o = alone P B W (oc_scenario o).
Proof.
  intros P B W o0 t0 ms st o H1 H2 H3 H4 H. exact (proj2 (track_inv P B W o0 t0 ms H1 H2 H3 H4 st H) o).
Qed.
Print Assumptions C61_as_alone.

(** C61: so two runs that end without error, with any numbers of jobs, in place or not, in
    any order of the mutants, have the same outcomes up to order and times, the same
    verdicts, counts and exit code. *)
Theorem C61_same_results : forall P P' B W o0 o0' t0 t0' ms ms' sh sh' l l' ws ws',
  (forall m, In m ms -> loaded P m /\ loaded P' m) -> first_tree P t0 -> first_tree P' t0' ->
  options_ok P -> options_ok P' -> same_project P P' -> deterministic P W -> Permutation ms ms' ->
  det_run P B W o0 t0 ms (mkLS sh (MEnd (ROk l)) ws) -> det_run P' B W o0' t0' ms' (mkLS sh' (MEnd (ROk l')) ws') ->
  Permutation (map timeless (lo_outcomes l)) (map timeless (lo_outcomes l'))
  /\ Permutation (verdicts (lo_outcomes l)) (verdicts (lo_outcomes l'))
  /\ lo_total l = lo_total l' /\ lo_missed l = lo_missed l' /\ lo_caught l = lo_caught l'
  /\ lo_timeout l = lo_timeout l' /\ lo_unviable l = lo_unviable l' /\ lo_success l = lo_success l'
  /\ process_exit (ROk l) = process_exit (ROk l').
Proof.
  intros P P' B W o0 o0' t0 t0' ms ms' sh sh' l l' ws ws' HL F F' O O' (SC & SS & SK) D PM R R'.
  assert (D' : deterministic P' W) by (intros t t' p H; apply D; intros k Hk; apply H; rewrite <- SK; exact Hk).
  assert (HL1 : forall m, In m ms -> loaded P m) by (intros m Hm; apply HL, Hm).
  assert (HL2 : forall m, In m ms' -> loaded P' m) by (intros m Hm; apply HL, (Permutation_in m (Permutation_sym PM)), Hm).
  pose proof (outcomes_end P B W o0 t0 ms HL1 F O D sh l ws R) as E. pose proof (outcomes_end P' B W o0' t0' ms' HL2 F' O' D' sh' l' ws' R') as E'.
  pose proof (run_reach P B W o0 t0 ms _ R) as Q. pose proof (run_reach P' B W o0' t0' ms' _ R') as Q'.
  pose proof (scenarios_end P o0 t0 ms sh l ws Q) as S. pose proof (scenarios_end P' o0' t0' ms' sh' l' ws' Q') as S'.
  assert (A : forall s, alone P' B W s = alone P B W s) by (intro s; unfold alone; rewrite SC; reflexivity).
  assert (T : forall P o0 t0 ms sh l ws, reachable P o0 t0 ms (mkLS sh (MEnd (ROk l)) ws) -> lab_add_all lab_new (lo_outcomes l) = Some l /\ Forall (fun o => oc_results o <> []) (lo_outcomes l)).
  { intros. split; [exact (proj1 (C08_run _ _ _ _ _ _ _ H))|exact (proj1 (proj2 (C08_run _ _ _ _ _ _ _ H)))]. }
  destruct (T _ _ _ _ _ _ _ Q) as [L FR]. destruct (T _ _ _ _ _ _ _ Q') as [L' FR']. clear T.
  assert (BF : any_baseline_failed (lo_outcomes l) = any_baseline_failed (lo_outcomes l')
     /\ Permutation (map oc_scenario (lo_outcomes l)) (map oc_scenario (lo_outcomes l'))).
  { assert (X : forall os os' o, (forall o, In o os' -> oc_scenario o = Baseline -> oc_success o = Some true) ->
       map timeless os = map (alone P B W) (map oc_scenario os) -> map timeless os' = map (alone P B W) (map oc_scenario os') ->
       os = [o] -> oc_scenario o = Baseline -> oc_success o = Some false -> In Baseline (map oc_scenario os') -> False).
    { intros os os' o G K K' -> EB EF IN. apply in_map_iff in IN as (o' & EB' & IN). specialize (G o' IN EB').
      pose proof (f_equal (hd (timeless o)) K) as K0. cbn [map hd] in K0. rewrite EB in K0. assert (timeless o' = alone P B W Baseline).
      { rewrite map_map in K'. pose proof (proj1 map_ext_in_iff K' o' IN) as Z. cbn beta in Z. rewrite EB' in Z. exact Z. }
      rewrite <- success_timeless in G, EF. congruence. }
    rewrite <- SS in S'. rewrite (map_ext _ _ A) in E'.
    destruct S as [(S1 & S2 & S3)|(S1 & o & S2 & S3 & S4)], S' as [(S1' & S2' & S3')|(S1' & o' & S2' & S3' & S4')].
    - split; [congruence|]. rewrite S1, S1'. apply Permutation_app_head, Permutation_map, PM.
    - exfalso. rewrite S1' in S1. refine (X _ _ o' S3 E' E S2' S3' S4' _).
      apply (Permutation_in _ (Permutation_sym S1)). left. reflexivity.
    - exfalso. rewrite S1 in S1'. refine (X _ _ o S3' E E' S2 S3 S4 _).
      apply (Permutation_in _ (Permutation_sym S1')). left. reflexivity.
    - rewrite S2, S2'. cbn [any_baseline_failed map]. rewrite S3, S3'. cbn [is_mutant]. rewrite S4, S4'. split; [reflexivity|apply Permutation_refl]. }
  destruct BF as [BF SP].
  assert (PT : Permutation (map timeless (lo_outcomes l)) (map timeless (lo_outcomes l'))).
  { rewrite E, E', (map_ext _ _ A). apply Permutation_map, SP. }
  split; [exact PT|]. split; [rewrite <- (verdicts_timeless (lo_outcomes l)), <- (verdicts_timeless (lo_outcomes l')); apply verdicts_perm, PT|].
  destruct (C08_counts_partition _ _ FR) as (x & X1 & _ & X2 & X3 & X4 & X5 & X6 & X7 & _). rewrite L in X1. injection X1 as <-.
  destruct (C08_counts_partition _ _ FR') as (x & X1 & _ & X2' & X3' & X4' & X5' & X6' & X7' & _). rewrite L' in X1. injection X1 as <-.
  assert (HM : forall f, (forall o, f (timeless o) = f o) -> how_many f (lo_outcomes l) = how_many f (lo_outcomes l')).
  { intros f Hf. rewrite <- (how_many_timeless f _ Hf), <- (how_many_timeless f (lo_outcomes l') Hf). apply how_many_perm, PT. }
  assert (MW : forall v o, mutant_with v (timeless o) = mutant_with v o) by (intros v o; unfold mutant_with; rewrite summary_timeless; reflexivity).
  assert (C1 : lo_missed l = lo_missed l') by (rewrite X3, X3'; apply HM, MW).
  assert (C2 : lo_timeout l = lo_timeout l') by (rewrite X5, X5'; apply HM, MW).
  split; [rewrite X2, X2'; apply HM; reflexivity|]. split; [exact C1|]. split; [rewrite X4, X4'; apply HM, MW|]. split; [exact C2|].
  split; [rewrite X6, X6'; apply HM, MW|]. split; [rewrite X7, X7'; apply HM, MW|].
  cbn [process_exit]. unfold lab_exit_code. rewrite BF, C1, C2. reflexivity.
Qed.
Print Assumptions C61_same_results.

(** The tests notice when there is no [+] in the file any more. *)
Definition ex_W (t : tree) (p : phase) : exit_t :=
  match p, t ex_key with
  | Test, Some c => if existsb (N.eqb 43) c then ExSuccess else ExFailure 101
  | _, _ => ExSuccess
  end.
Definition ex_one := ex_P None false ex_code.
Definition ex_go P W ms is := dexec P W (length ms) is (start_state P ex_out (pa_root P) ms).
Lemma ex_go_run : forall P W ms is st, pa_in_place P = false -> ex_go P W ms is = Some st ->
  det_run P (pa_root P) W ex_out (pa_root P) ms st.
Proof. intros P W ms is st NI H. exact (dexec_run P W NI ex_out ms is st H). Qed.
Definition ex_turns := repeat 0 20 ++ repeat 1 8 ++ repeat 0 3 ++ repeat 1 3 ++ repeat 0 6 ++ repeat 1 7 ++ repeat 0 1.

Lemma existsb_lf : forall c s, c <> CR -> existsb (N.eqb c) (without_crlf_cr s) = existsb (N.eqb c) s.
Proof.
  intros c s NC. apply eq_true_iff_eq. rewrite !existsb_exists. unfold without_crlf_cr.
  split; intros (x & Hx & E); apply N.eqb_eq in E; subst x; exists c; (split; [|apply N.eqb_refl]).
  - apply in_flat_map in Hx as (i & _ & Hi). destruct (cr_before_nl s i); [destruct Hi|].
    destruct (nth_error s i) eqn:En; [|destruct Hi]. destruct Hi as [->|[]]. exact (nth_error_In _ _ En).
  - apply In_nth_error in Hx as [i En]. change (@nth_error chr s i = Some c) in En. apply in_flat_map. exists i. split.
    + apply in_seq. split; [lia|]. rewrite Nat.add_0_l. apply nth_error_Some. intro E0. pose proof (eq_trans (eq_sym En) E0). discriminate.
    + unfold cr_before_nl. rewrite En. destruct (nth_error s (S i)); [|left; reflexivity].
      destruct (N.eqb_spec c CR) as [E|_]; [contradiction|]. left. reflexivity.
Qed.

Lemma ex_W_det : forall jobs ip c, deterministic (ex_P jobs ip c) ex_W.
Proof.
  intros jobs ip c t t' p H. specialize (H ex_key eq_refl) as (b & H1 & H2). unfold ex_W.
  assert (Q : forall x, x = b \/ x = option_map without_crlf_cr b ->
     match x with Some c => if existsb (N.eqb 43) c then ExSuccess else ExFailure 101 | None => ExSuccess end
     = match b with Some c => if existsb (N.eqb 43) c then ExSuccess else ExFailure 101 | None => ExSuccess end).
  { intros x [->| ->]; [reflexivity|]. destruct b as [b|]; [|reflexivity]. cbn [option_map]. rewrite existsb_lf; [reflexivity|discriminate]. }
  destruct p; try reflexivity. rewrite (Q _ H1), (Q _ H2). reflexivity.
Qed.

Definition ex_saw (x : option state) := match x with
  | Some st => match ls_main st with
               | MEnd (ROk l) => Some (verdicts (lo_outcomes l), (lo_caught l, lo_missed l, process_exit (ROk l)))
               | _ => None
               end
  | None => None
  end.
Lemma ex_sees : forall x (v : list (mutant * summary_outcome)) y, ex_saw x = Some (v, y) ->
  exists st l, x = Some st /\ ls_main st = MEnd (ROk l) /\ verdicts (lo_outcomes l) = v
               /\ (lo_caught l, lo_missed l, process_exit (ROk l)) = y.
Proof.
  intros [st|] v y H; unfold ex_saw in H; [|discriminate]. destruct (ls_main st) as [c| |[l| |]] eqn:E; try discriminate. injection H as <- <-.
  exists st, l. split; [reflexivity|]. split; [exact E|]. split; reflexivity.
Qed.
Lemma ex_saw1 : ex_saw (ex_go ex_one ex_W (rev ex_ms) (repeat 0 45)) = Some ([(ex_minus, SumMissed); (ex_plus, SumCaught)], (1, 1, Some 2%Z)).
Proof. vm_compute. reflexivity. Qed.
Lemma ex_saw2 : ex_saw (ex_go ex_P2 ex_W ex_ms ex_turns) = Some ([(ex_plus, SumCaught); (ex_minus, SumMissed)], (1, 1, Some 2%Z)).
Proof. vm_compute. reflexivity. Qed.

(** One worker and the other order of the mutants, or two workers at the same time. *)
Example C61_case : exists st1 st2 l1 l2,
  det_run ex_one (pa_root ex_one) ex_W ex_out (pa_root ex_one) (rev ex_ms) st1
  /\ det_run ex_P2 (pa_root ex_P2) ex_W ex_out (pa_root ex_P2) ex_ms st2
  /\ ls_main st1 = MEnd (ROk l1) /\ ls_main st2 = MEnd (ROk l2)
  /\ verdicts (lo_outcomes l1) = [(ex_minus, SumMissed); (ex_plus, SumCaught)]
  /\ verdicts (lo_outcomes l2) = [(ex_plus, SumCaught); (ex_minus, SumMissed)]
  /\ (lo_caught l1, lo_missed l1, process_exit (ROk l1)) = (1, 1, Some 2%Z)
  /\ (lo_caught l2, lo_missed l2, process_exit (ROk l2)) = (1, 1, Some 2%Z).
Proof.
  destruct (ex_sees _ _ _ ex_saw1) as (st1 & l1 & E1 & A1 & B1 & C1). destruct (ex_sees _ _ _ ex_saw2) as (st2 & l2 & E2 & A2 & B2 & C2).
  exists st1, st2, l1, l2.
  split; [exact (ex_go_run ex_one _ _ _ _ eq_refl E1)|].
  split; [exact (ex_go_run ex_P2 _ _ _ _ eq_refl E2)|].
  split; [exact A1|]. split; [exact A2|]. split; [exact B1|]. split; [exact B2|]. split; [exact C1|exact C2].
Qed.

Example C61_case_premises :
  (forall m, In m ex_ms -> loaded ex_one m /\ loaded ex_P2 m) /\ first_tree ex_one (pa_root ex_one) /\ first_tree ex_P2 (pa_root ex_P2)
  /\ options_ok ex_one /\ options_ok ex_P2 /\ same_project ex_one ex_P2 /\ deterministic ex_one ex_W
  /\ map (fun m => summary (alone ex_one (pa_root ex_one) ex_W (Mutant m))) ex_ms = [Some SumCaught; Some SumMissed].
Proof.
  split. { intros m [<-|[<-|[]]]; (split; (split; [vm_compute; reflexivity|exists ex_code; split; vm_compute; reflexivity])). }
  split; [intros k _; left; reflexivity|]. split; [intros k _; left; reflexivity|]. split; [discriminate|]. split; [discriminate|].
  split; [split; [reflexivity|split; [reflexivity|reflexivity]]|]. split; [apply ex_W_det|vm_compute; reflexivity].
Qed.

(** C61 fails when the result of the tests depends on line ends (as with a multi-line string
    literal): a file with CRLF line ends that has been mutated is put back with LF, so a
    mutant of another file that is tested later in the same build directory is tested with
    changed code, and gets another verdict than alone. *)
Definition ex_crlf := tx "a + b" ++ [CR; NL].
Definition ex_Pcr := mkParams false None false false false false
  (fun k => if key_eqb k ex_key then Some ex_crlf else if key_eqb k ex_other then Some (tx "c - d") else None)
  (pa_source ex_P2) (pa_json ex_P2).
Definition ex_ma := mkMutant (mkSF (tx "p") (tx "src/a.rs") (tx "a + b" ++ [NL]) true) None (mkSpan (mkLC 1 3) (mkLC 1 4)) (tx "*") BinaryOperator.
Definition ex_mb := mkMutant (mkSF (tx "p") (tx "src/b.rs") (tx "c - d") true) None (mkSpan (mkLC 1 3) (mkLC 1 4)) (tx "/") BinaryOperator.
Definition ex_Wcr (t : tree) (p : phase) : exit_t :=
  match p, t ex_key with
  | Test, Some c => if existsb (N.eqb CR) c then ExSuccess else ExFailure 101
  | _, _ => ExSuccess
  end.
Definition ex_saw_at (x : option state) := match x with
  | Some (mkLS sh (MEnd (ROk l)) ws) => Some (map (fun o => summary o) (lo_outcomes l), map oc_scenario (lo_outcomes l))
  | _ => None
  end.
Lemma ex_saw_cr : ex_saw_at (ex_go ex_Pcr ex_Wcr [ex_ma; ex_mb] (repeat 0 44))
  = Some ([Some SumSuccess; Some SumCaught; Some SumCaught], [Baseline; Mutant ex_ma; Mutant ex_mb]).
Proof. vm_compute. reflexivity. Qed.
Lemma ex_sees_cr : forall x a b, ex_saw_at x = Some (a, b) -> exists st, x = Some st /\ match st with
  | mkLS sh (MEnd (ROk l)) ws => map (fun o => summary o) (lo_outcomes l) = a /\ map oc_scenario (lo_outcomes l) = b
  | _ => False
  end.
Proof.
  intros [[sh [x| |[l| |]] ws]|] a b H; try discriminate. injection H as <- <-. eexists. split; [reflexivity|]. split; reflexivity.
Qed.

Theorem C61_line_ends_refuted : exists P W o0 ms sh l ws o,
  (forall m, In m ms -> loaded P m) /\ first_tree P (pa_root P) /\ options_ok P
  /\ (forall t t' p, (forall k, pa_source P k = true -> t k = t' k) -> W t p = W t' p)
  /\ det_run P (pa_root P) W o0 (pa_root P) ms (mkLS sh (MEnd (ROk l)) ws) /\ In o (lo_outcomes l)
  /\ summary o = Some SumCaught /\ summary (alone P (pa_root P) W (oc_scenario o)) = Some SumMissed.
Proof.
  destruct (ex_sees_cr _ _ _ ex_saw_cr) as (st & E & F). pose proof (ex_go_run ex_Pcr _ _ _ _ eq_refl E) as R. clear E.
  destruct st as [sh [x| |[l| |]] ws]; try contradiction. destruct F as [F1 F2].
  destruct (lo_outcomes l) as [|o1 [|o2 [|o3 [|o4 os]]]] eqn:EO; try discriminate.
  assert (G1 := f_equal (fun l => nth 2 l None) F1). assert (G2 := f_equal (fun l => nth 2 l Baseline) F2). cbn [map nth] in G1, G2.
  exists ex_Pcr, ex_Wcr, ex_out, [ex_ma; ex_mb], sh, l, ws, o3. split; [|split; [|split; [|split; [|split; [|split; [|split]]]]]].
  - intros m [<-|[<-|[]]]; (split; [vm_compute; reflexivity|eexists; split; vm_compute; reflexivity]).
  - intros k _. left. reflexivity.
  - discriminate.
  - intros t t' p H. unfold ex_Wcr. rewrite (H ex_key eq_refl). reflexivity.
  - exact R.
  - rewrite EO. right. right. left. reflexivity.
  - exact G1.
  - rewrite G2. vm_compute. reflexivity.
Qed.
Print Assumptions C61_line_ends_refuted.
