(** Proofs about the display. *)
From Coq Require Import String List NArith ZArith QArith Qround Qabs Qpower Lqa Bool Arith Lia Permutation.
From Verif Require Import Text SpanM PathM MutantM ProcessM OutcomeM OutcomeS OutputM LabM LabS LabP F64M F64S F64P TimeoutM TimeoutS TimeoutP ConsoleM ConsoleS.
Import ListNotations.
Open Scope nat_scope.

(** * Lists of scenarios *)
Definition look (d : nat) (l : list scen) : option scen := find (fun s => Nat.eqb (sc_dir s) d) l.

Lemma look_new : forall l d d0, look d l = None -> look d0 (l ++ [mkScen d None]) = if Nat.eqb d d0 then Some (mkScen d None) else look d0 l.
Proof.
  unfold look. induction l as [|s l IH]; intros d d0 H; cbn [app find].
  - cbn [sc_dir]. destruct (Nat.eqb d d0); reflexivity.
  - cbn [find] in H. destruct (Nat.eqb (sc_dir s) d) eqn:E; [discriminate|].
    destruct (Nat.eqb (sc_dir s) d0) eqn:E0; [|auto]. apply Nat.eqb_eq in E0. rewrite E0 in E. rewrite Nat.eqb_sym in E. rewrite E. reflexivity.
Qed.

Lemma look_change : forall l d s s' g, look d l = Some s -> g s = Some s' -> sc_dir s' = d ->
  exists l', change_first (fun x => Nat.eqb (sc_dir x) d) g l = Some l'
    /\ forall d0, look d0 l' = if Nat.eqb d d0 then Some s' else look d0 l.
Proof.
  unfold look. induction l as [|x l IH]; intros d s s' g H G D; [discriminate|]. cbn [find change_first] in *.
  destruct (Nat.eqb (sc_dir x) d) eqn:E.
  - injection H as ->. rewrite G. exists (s' :: l). split; [reflexivity|]. intro d0. cbn [find]. rewrite D.
    apply Nat.eqb_eq in E. rewrite E. destruct (Nat.eqb d d0); reflexivity.
  - destruct (IH d s s' g H G D) as [l' [E' Q]]. rewrite E'. exists (x :: l'). split; [reflexivity|]. intro d0. cbn [find]. rewrite Q.
    destruct (Nat.eqb (sc_dir x) d0) eqn:E0; [|reflexivity]. apply Nat.eqb_eq in E0. rewrite E0 in E. rewrite Nat.eqb_sym in E. rewrite E. reflexivity.
Qed.

Lemma look_filter : forall l d d0, look d0 (filter (fun s => negb (Nat.eqb (sc_dir s) d)) l) = if Nat.eqb d d0 then None else look d0 l.
Proof.
  unfold look. induction l as [|x l IH]; intros d d0; cbn [filter find]; [destruct (Nat.eqb d d0); reflexivity|].
  destruct (Nat.eqb (sc_dir x) d) eqn:E; cbn [negb find].
  - rewrite IH. apply Nat.eqb_eq in E. rewrite E. destruct (Nat.eqb d d0); reflexivity.
  - rewrite IH. destruct (Nat.eqb (sc_dir x) d0) eqn:E0; [|reflexivity]. apply Nat.eqb_eq in E0. rewrite E0 in E. rewrite Nat.eqb_sym in E. rewrite E. reflexivity.
Qed.

(** * Copies *)
Lemma change_first_copy : forall (l : list (nat * N)) i b, (exists b0, In (i, b0) l) ->
  exists l', change_first (fun c => Nat.eqb (fst c) i) (fun _ => Some (i, b)) l = Some l'
    /\ forall j, (exists bj, In (j, bj) l) -> exists bj, In (j, bj) l'.
Proof.
  induction l as [|[k c] l IH]; intros i b [b0 I]; [contradiction|]. cbn [change_first fst].
  destruct (Nat.eqb k i) eqn:E.
  - apply Nat.eqb_eq in E. subst k. exists ((i, b) :: l). split; [reflexivity|]. intros j [bj [J|J]].
    + injection J as -> _. exists b. left. reflexivity.
    + exists bj. right. exact J.
  - destruct I as [I|I]; [injection I as -> _; rewrite Nat.eqb_refl in E; discriminate|].
    destruct (IH i b (ex_intro _ b0 I)) as [l' [-> Q]]. exists ((k, c) :: l'). split; [reflexivity|]. intros j [bj [J|J]].
    + exists bj. left. exact J.
    + destruct (Q j (ex_intro _ bj J)) as [b' J']. exists b'. right. exact J'.
Qed.

Lemma swap_remove_in : forall A (l : list A) k x y, nth_error l k = Some x -> In y l -> y <> x -> In y (swap_remove l k).
Proof.
  intros A l k x y N1 I D. unfold swap_remove. destruct (rev l) as [|z r] eqn:R.
  - apply (f_equal (@rev A)) in R. rewrite rev_involutive in R. subst l. destruct I.
  - assert (L : l = rev r ++ [z]) by (rewrite <- (rev_involutive l), R; reflexivity).
    assert (RL : forall (a : list A) w, removelast (a ++ [w]) = a) by (intros; apply removelast_last).
    destruct (Nat.eqb (S k) (length l)) eqn:E.
    + apply Nat.eqb_eq in E. rewrite L in *. rewrite RL. apply in_app_or in I. destruct I as [I|[<-|[]]]; [exact I|].
      rewrite app_length in E. cbn [length] in E. rewrite nth_error_app2 in N1 by lia.
      replace (k - length (rev r)) with 0 in N1 by lia. injection N1 as ->. contradiction.
    + apply Nat.eqb_neq in E. pose proof (nth_error_lt _ _ _ _ N1) as Lt.
      assert (Lt' : k < length (rev r)) by (rewrite L, app_length in Lt, E; cbn [length] in *; lia).
      assert (Sp : forall (a : list A) w, k < length a -> list_set (a ++ [w]) k z = list_set a k z ++ [w]).
      { clear. revert k. intros k a. revert k. induction a as [|u a IH]; intros [|k] w H; cbn in *; try lia; [reflexivity|]. rewrite IH by lia. reflexivity. }
      rewrite L. rewrite Sp by exact Lt'. rewrite RL. rewrite L in I, N1. rewrite nth_error_app1 in N1 by exact Lt'.
      destruct (list_split _ _ _ _ N1) as (l1 & l2 & E1 & _ & S). rewrite S.
      apply in_app_or in I. destruct I as [I|[<-|[]]].
      * rewrite E1 in I. apply in_app_or in I. apply in_or_app. destruct I as [I|[I|I]]; [auto|congruence|right; right; exact I].
      * apply in_or_app. right. left. reflexivity.
Qed.

Lemma position_some : forall A (f : A -> bool) l, (exists x, In x l /\ f x = true) -> exists k x, position f l = Some k /\ nth_error l k = Some x /\ f x = true.
Proof.
  induction l as [|a l IH]; intros [x [I F]]; [contradiction|]. cbn [position]. destruct (f a) eqn:E.
  - exists 0, a. auto.
  - destruct I as [->|I]; [congruence|]. destruct (IH (ex_intro _ x (conj I F))) as (k & y & -> & N1 & F'). exists (S k), y. auto.
Qed.

(** * Counters *)
Lemma how_many_app : forall A (f : A -> bool) a b, how_many f (a ++ b) = how_many f a + how_many f b.
Proof. induction a as [|x a IH]; intro b; cbn [how_many app]; [reflexivity|]. rewrite IH. lia. Qed.
Lemma how_many_perm : forall A (f : A -> bool) a b, Permutation a b -> how_many f a = how_many f b.
Proof. intros A f a b H. induction H; cbn [how_many]; lia. Qed.

Lemma count_ok : forall m fin o v, counters m fin -> summary o = Some v -> counters (count_outcome m (is_mutant (oc_scenario o)) v) (fin ++ [o]).
Proof.
  intros m fin o v (D & C1 & C2 & C3 & C4 & C5 & C6 & C7) V. unfold counters, of_mutants, of_kind in *.
  rewrite !how_many_app. rewrite app_length. cbn [how_many length]. rewrite V. rewrite <- D, <- C1, <- C2, <- C3, <- C4, <- C5, <- C6. unfold count_outcome.
  destruct v, (is_mutant (oc_scenario o)); cbn; repeat split; lia.
Qed.

Section Inv.
Context (P : params) (print_caught print_unviable show_all_logs : bool).
Context (o0 : entries) (t0 : tree) (ms : list mutant).
Notation H := (handle_all print_caught print_unviable show_all_logs).
Notation PS := (phases (pa_check_only P)).

(** What the display must hold for a thread. *)
Definition shows (c : wpc) : option (nat * option (option phase)) :=
  match c with
  | WApply d _ | WPhase d _ _ _ | WRevert d _ _ | WAdd d _ _ => Some (d, Some None)
  | WJson d _ | WJson2 d _ | WName d _ | WNewline d _ | WFin d _ => Some (d, Some None)
  | WCargo d _ _ p _ => Some (d, Some (Some p))
  | WRevertErr d _ => Some (d, None)
  | _ => None
  end.
Definition hidden (c : wpc) : list nat := match c with WQueue d | WStart d _ => [d] | _ => [] end.

Definition scens_ok (sh : shared) (ts : list wpc) (l : list scen) : Prop :=
  (forall d, look d l <> None -> d < length (sh_trees sh) /\ (existsb bad ts = true \/ exists c ph, In c ts /\ shows c = Some (d, ph)))
  /\ (forall d, In d (spare sh) -> look d l = None)
  /\ (forall c d, In c ts -> In d (hidden c) -> look d l = None)
  /\ (forall c d ph, In c ts -> shows c = Some (d, ph) -> exists s, look d l = Some s /\ forall p, ph = Some p -> sc_phase s = p).
Definition copies_ok (ts : list wpc) (l : list (nat * N)) (cp : list nat) : Prop :=
  forall i, (nth_error ts i = Some WCopy -> In i cp -> exists b, In (i, b) l) /\ (nth_error ts i = Some WInit -> ~ In i cp).

Lemma shows_use : forall c d ph, shows c = Some (d, ph) -> dir_in_use c = [d].
Proof. intros c d ph E. destruct c; cbn in *; try discriminate; injection E as <- _; reflexivity. Qed.
Lemma hidden_use : forall c d, In d (hidden c) -> In d (dir_in_use c).
Proof. intros c d I. destruct c; cbn in *; auto. Qed.

(** Other threads have other directories. *)
Lemma others : forall sh l1 c l2 d, dirs_ok sh (l1 ++ c :: l2) -> In d (dir_in_use c) ->
  (forall c0, In c0 (l1 ++ l2) -> ~ In d (dir_in_use c0)) /\ ~ In d (spare sh) /\ d < length (sh_trees sh).
Proof.
  intros sh l1 c l2 d (ND & Lt & _) I. rewrite flat_map_app in *. cbn [flat_map] in *.
  assert (PM : Permutation (spare sh ++ flat_map dir_in_use l1 ++ dir_in_use c ++ flat_map dir_in_use l2)
             (dir_in_use c ++ spare sh ++ flat_map dir_in_use (l1 ++ l2))).
  { rewrite flat_map_app. rewrite !app_assoc. rewrite <- app_assoc. rewrite (Permutation_app_swap_app (spare sh ++ flat_map dir_in_use l1)). rewrite !app_assoc. reflexivity. }
  pose proof (Permutation_NoDup PM ND) as ND'.
  assert (U : dir_in_use c = [d]) by (destruct c; cbn in I |- *; try contradiction; destruct I as [<-|[]]; reflexivity).
  rewrite U in ND'. cbn [app] in ND'. inversion ND' as [|x y N1 N2]; subst.
  split; [|split].
  - intros c0 I0 J. apply N1. apply in_or_app. right. apply in_flat_map. eauto.
  - intro J. apply N1. apply in_or_app. auto.
  - apply Lt. rewrite !in_app_iff. auto.
Qed.

(** A change of the scenario list that is only about the directory [d] of the thread. *)
Lemma scens_step : forall sh sh' l1 c c' l2 l l' d, bad c = false -> (look d l' <> None -> bad c' = true \/ exists ph, shows c' = Some (d, ph)) ->
  dirs_ok sh (l1 ++ c :: l2) -> In d (dir_in_use c) ->
  scens_ok sh (l1 ++ c :: l2) l -> spare sh' = spare sh -> length (sh_trees sh') = length (sh_trees sh) ->
  (forall d0, d0 <> d -> look d0 l' = look d0 l) ->
  (forall d0, In d0 (hidden c') -> d0 = d /\ look d l' = None) ->
  (forall d0 ph, shows c' = Some (d0, ph) -> d0 = d /\ exists s, look d l' = Some s /\ forall p, ph = Some p -> sc_phase s = p) ->
  scens_ok sh' (l1 ++ c' :: l2) l'.
Proof.
  intros sh sh' l1 c c' l2 l l' d NB Own DO Id (A & B & C & D) Sp Tr Same Hid Sho.
  destruct (others _ _ _ _ _ DO Id) as (O1 & O2 & O3).
  assert (Oth : forall c0, In c0 (l1 ++ l2) -> In c0 (l1 ++ c :: l2)) by (intros c0 I; rewrite in_app_iff in *; cbn; tauto).
  assert (Spl : forall c0, In c0 (l1 ++ c' :: l2) -> c0 = c' \/ In c0 (l1 ++ l2)) by (intros c0 I; rewrite in_app_iff in *; cbn in I; intuition).
  split; [|split; [|split]].
  - intros d0 N1. split.
    { rewrite Tr. destruct (Nat.eq_dec d0 d) as [->|Ne]; [exact O3|]. apply A. rewrite <- Same by exact Ne. exact N1. }
    destruct (Nat.eq_dec d0 d) as [->|Ne].
    + destruct (Own N1) as [K|[ph K]]; [left; rewrite existsb_app; cbn [existsb]; rewrite K, orb_true_r; reflexivity|].
      right. exists c', ph. split; [apply in_or_app; right; left; reflexivity|exact K].
    + rewrite Same in N1 by exact Ne. destruct (A _ N1) as [_ [K|(c0 & ph & I & K)]].
      * left. rewrite existsb_app in *. cbn [existsb] in *. rewrite NB in K. rewrite !orb_true_iff in *. intuition discriminate.
      * right. exists c0, ph. split; [|exact K]. rewrite in_app_iff in *. cbn [In] in *. destruct I as [I|[->|I]]; auto.
        exfalso. rewrite (shows_use _ _ _ K) in Id. destruct Id as [<-|[]]. congruence.
  - intros d0 I. rewrite Sp in I. rewrite Same; [apply B; exact I|]. intros ->. contradiction.
  - intros c0 d0 I J. destruct (Spl _ I) as [->|I']; [destruct (Hid _ J) as [-> E]; exact E|].
    rewrite Same; [eapply C; [apply Oth; exact I'|exact J]|]. intros ->. apply (O1 _ I'). apply hidden_use. exact J.
  - intros c0 d0 ph I J. destruct (Spl _ I) as [->|I']; [destruct (Sho _ _ J) as [-> E]; exact E|].
    rewrite Same; [eapply D; [apply Oth; exact I'|exact J]|]. intros ->. apply (O1 _ I'). rewrite (shows_use _ _ _ J). left. reflexivity.
Qed.

Lemma print_ok : forall o, finished_run PS (oc_results o) -> print_outcome print_caught print_unviable show_all_logs o true = Some tt.
Proof.
  intros [s rs] F. cbn [oc_results] in F. destruct (finished_last _ _ F) as (pre & r & ->).
  unfold print_outcome, mutant_caught, oc_success. rewrite last_result_app. cbn [oc_scenario].
  destruct (is_mutant s); match goal with |- context [if ?b then Some tt else _] => destruct b end; try reflexivity;
    match goal with |- context [if ?b then Some tt else Some tt] => destruct b; reflexivity | _ => idtac end;
    repeat match goal with |- context [if ?b then _ else _] => destruct b end; reflexivity.
Qed.

(** Everything but the counters stays when the outcome is counted. *)
Lemma count_other : forall m b v, cm_scens (count_outcome m b v) = cm_scens m /\ cm_copies (count_outcome m b v) = cm_copies m
  /\ cm_lab_start (count_outcome m b v) = cm_lab_start m /\ cm_mutants_start (count_outcome m b v) = cm_mutants_start m
  /\ cm_total (count_outcome m b v) = cm_total m.
Proof. intros m b v. destruct v; cbn; auto. Qed.

Definition same_rest (m m' : cmodel) : Prop :=
  cm_lab_start m' = cm_lab_start m /\ cm_mutants_start m' = cm_mutants_start m /\ cm_total m' = cm_total m.

(** One step inside a scenario. *)
Lemma sstep_display : forall i rd sh c sh' c' l1 l2 m fin, (rd = true) -> sstep P i sh c sh' c' ->
  wf P ms c -> dirs_ok sh (l1 ++ c :: l2) -> scens_ok sh (l1 ++ c :: l2) (cm_scens m) -> counters m fin ->
  exists m', H (emits i rd c c') m = Some m' /\ scens_ok sh' (l1 ++ c' :: l2) (cm_scens m') /\ cm_copies m' = cm_copies m
    /\ counters m' fin /\ same_rest m m' /\ finishes c c' = [].
Proof.
  intros i rd sh c sh' c' l1 l2 m fin Rd St Wf DO SO Cn.
  pose proof (sstep_frame _ _ _ _ _ _ St) as (Fq & Fd & Fb & Fl & dd & ss & A & A' & _).
  assert (Sp : spare sh' = spare sh) by (unfold spare; rewrite Fd; reflexivity).
  pose proof (active_use _ _ _ A) as U.
  assert (Id : In dd (dir_in_use c)) by (rewrite U; left; reflexivity).
  assert (Own : forall ph, shows c = Some (dd, ph) -> exists s0, look dd (cm_scens m) = Some s0 /\ forall p, ph = Some p -> sc_phase s0 = p).
  { intros ph E. destruct SO as (_ & _ & _ & D). apply (D c dd ph); [apply in_or_app; right; left; reflexivity|exact E]. }
  assert (Hid : In dd (hidden c) -> look dd (cm_scens m) = None).
  { intro E. destruct SO as (_ & _ & C & _). apply (C c dd); [apply in_or_app; right; left; reflexivity|exact E]. }
  assert (NBc : bad c = false) by (destruct St; reflexivity).
  assert (Fin : bad c' = true \/ exists ph, shows c' = Some (dd, ph)).
  { destruct St; try (left; reflexivity); right; cbn [active] in A; injection A as A1 A2; subst dd; eexists; reflexivity. }
  assert (Keep : (hidden c' = [] ) -> (forall d0 ph, shows c' = Some (d0, ph) -> d0 = dd /\ exists s0, look dd (cm_scens m) = Some s0 /\ forall p, ph = Some p -> sc_phase s0 = p) ->
     emits i rd c c' = [] -> finishes c c' = [] ->
     exists m', H (emits i rd c c') m = Some m' /\ scens_ok sh' (l1 ++ c' :: l2) (cm_scens m') /\ cm_copies m' = cm_copies m
       /\ counters m' fin /\ same_rest m m' /\ finishes c c' = []).
  { intros Hh Sh E F. rewrite E. exists m. split; [reflexivity|]. split; [|split; [reflexivity|split; [exact Cn|split; [unfold same_rest; auto|exact F]]]].
    eapply (scens_step sh sh' l1 c c' l2 _ _ dd NBc (fun _ => Fin)); eauto. intros d0 J. rewrite Hh in J. destruct J. }
  assert (Dead : forall e, c' = WEnd e \/ c' = WPanic -> emits i rd c c' = [] /\ finishes c c' = [] /\ hidden c' = [] /\ shows c' = None).
  { intros e [->| ->]; destruct c; cbn; auto; destruct todo; auto. }
  destruct St;
    try (destruct (Dead false (or_introl eq_refl)) as (E1 & E2 & E3 & E4); apply Keep; auto; intros d1 ph1 X; cbn in X; discriminate);
    try (destruct (Dead false (or_intror eq_refl)) as (E1 & E2 & E3 & E4); apply Keep; auto; intros d1 ph1 X; cbn in X; discriminate);
    cbn [active oc_scenario] in A; injection A as A1 A2; subst dd ss;
    try (apply Keep; [reflexivity| |reflexivity|reflexivity]; intros d1 ph1 X; cbn in X; injection X as <- <-; split; [reflexivity|]; apply Own; reflexivity).
  - (* start *)
    cbn [emits handle_all handle]. eexists. split; [reflexivity|]. cbn [set_scens cm_scens cm_copies].
    split; [|split; [reflexivity|split; [exact Cn|split; [unfold same_rest; auto|reflexivity]]]].
    assert (Nl : look d (cm_scens m) = None) by (apply Hid; left; reflexivity).
    eapply (scens_step sh _ l1 (WStart d s) (WApply d s) l2 (cm_scens m) _ d NBc (fun _ => Fin)); eauto.
    + intros d0 Ne. rewrite look_new by exact Nl. destruct (Nat.eqb d d0) eqn:E; [apply Nat.eqb_eq in E; congruence|reflexivity].
    + intros d0 [].
    + intros d0 ph E. injection E as <- <-. split; [reflexivity|]. rewrite look_new by exact Nl. rewrite Nat.eqb_refl. eexists. split; [reflexivity|]. intros p E. injection E as <-. reflexivity.
  - (* phase started *)
    cbn [emits handle_all handle]. destruct (Own _ eq_refl) as [s0 [L0 _]].
    destruct (look_change (cm_scens m) d s0 (mkScen d (Some p)) (fun _ => Some (mkScen d (Some p))) L0 eq_refl eq_refl) as [l' [-> Q]].
    cbn [option_map]. eexists. split; [reflexivity|]. cbn [set_scens cm_scens cm_copies].
    split; [|split; [reflexivity|split; [exact Cn|split; [unfold same_rest; auto|reflexivity]]]].
    eapply (scens_step sh _ l1 _ (WCargo d s done p todo) l2 (cm_scens m) _ d NBc (fun _ => Fin)); eauto.
    + intros d0 Ne. rewrite Q. destruct (Nat.eqb d d0) eqn:E; [apply Nat.eqb_eq in E; congruence|reflexivity].
    + intros d0 [].
    + intros d0 ph E. injection E as <- <-. split; [reflexivity|]. rewrite Q, Nat.eqb_refl. eexists. split; [reflexivity|]. intros q E. injection E as <-. reflexivity.
  - (* phase ended well *)
    cbn [emits handle_all handle]. destruct (Own _ eq_refl) as [s0 [L0 Ph]]. specialize (Ph _ eq_refl).
    destruct (look_change (cm_scens m) d s0 (mkScen d None)
      (fun s => match sc_phase s with Some q => if phase_eqb q p then Some (mkScen d None) else None | None => None end) L0) as [l' [-> Q]]; [rewrite Ph; destruct p; reflexivity|reflexivity|].
    cbn [option_map]. eexists. split; [reflexivity|]. cbn [set_scens cm_scens cm_copies].
    split; [|split; [reflexivity|split; [exact Cn|split; [unfold same_rest; auto|reflexivity]]]].
    eapply (scens_step sh _ l1 _ _ l2 (cm_scens m) _ d NBc (fun _ => Fin)); eauto.
    + intros d0 Ne. rewrite Q. destruct (Nat.eqb d d0) eqn:E; [apply Nat.eqb_eq in E; congruence|reflexivity].
    + intros d0 [].
    + intros d0 ph E. injection E as <- <-. split; [reflexivity|]. rewrite Q, Nat.eqb_refl. eexists. split; [reflexivity|]. intros q E. injection E as <-. reflexivity.
  - (* phase failed *)
    cbn [emits handle_all handle]. destruct (Own _ eq_refl) as [s0 [L0 Ph]]. specialize (Ph _ eq_refl).
    destruct (look_change (cm_scens m) d s0 (mkScen d None)
      (fun s => match sc_phase s with Some q => if phase_eqb q p then Some (mkScen d None) else None | None => None end) L0) as [l' [-> Q]]; [rewrite Ph; destruct p; reflexivity|reflexivity|].
    cbn [option_map]. eexists. split; [reflexivity|]. cbn [set_scens cm_scens cm_copies].
    split; [|split; [reflexivity|split; [exact Cn|split; [unfold same_rest; auto|reflexivity]]]].
    eapply (scens_step sh _ l1 _ _ l2 (cm_scens m) _ d NBc (fun _ => Fin)); eauto.
    + intros d0 Ne. rewrite Q. destruct (Nat.eqb d d0) eqn:E; [apply Nat.eqb_eq in E; congruence|reflexivity].
    + intros d0 [].
    + intros d0 ph E. injection E as <- <-. split; [reflexivity|]. rewrite Q, Nat.eqb_refl. eexists. split; [reflexivity|]. intros q E. injection E as <-. reflexivity.
  - (* internal error in cargo *)
    apply Keep; [reflexivity| |reflexivity|reflexivity]. intros d1 ph1 X. cbn in X. injection X as <- <-. split; [reflexivity|].
    destruct (Own _ eq_refl) as [s0 [L0 _]]. exists s0. split; [exact L0|]. discriminate.
Qed.

(** The end of a scenario. *)
Lemma finish_display : forall sh d o l1 l2 m fin, wf P ms (WFin d o) ->
  dirs_ok sh (l1 ++ WFin d o :: l2) -> scens_ok sh (l1 ++ WFin d o :: l2) (cm_scens m) -> counters m fin ->
  exists m', handle print_caught print_unviable show_all_logs (EFinished d o true) m = Some m'
    /\ scens_ok sh (l1 ++ WQueue d :: l2) (cm_scens m')
    /\ cm_copies m' = cm_copies m /\ counters m' (fin ++ [o]) /\ same_rest m m'.
Proof.
  intros sh d o l1 l2 m fin [_ F] DO SO Cn. cbn in F. cbn [handle].
  destruct (finished_summary P (oc_scenario o) (oc_results o) F) as [v V].
  replace (mkOutcome (oc_scenario o) (oc_results o)) with o in V by (destruct o; reflexivity). rewrite V.
  rewrite (print_ok o F). eexists. split; [reflexivity|].
  destruct (count_other m (is_mutant (oc_scenario o)) v) as (C1 & C2 & C3 & C4 & C5).
  cbn [set_scens cm_scens cm_copies]. rewrite C1, C2. split; [|split; [reflexivity|split]].
  - eapply (scens_step sh sh l1 (WFin d o) (WQueue d) l2 (cm_scens m) _ d eq_refl); eauto.
    + rewrite look_filter, Nat.eqb_refl. congruence.
    + left. reflexivity.
    + intros d0 Ne. rewrite look_filter. destruct (Nat.eqb d d0) eqn:E; [apply Nat.eqb_eq in E; congruence|reflexivity].
    + intros d0 [<-|[]]. split; [reflexivity|]. rewrite look_filter, Nat.eqb_refl. reflexivity.
    + discriminate.
  - pose proof (count_ok m fin o v Cn V) as C. exact C.
  - unfold same_rest. cbn. rewrite C3, C4, C5. auto.
Qed.

(** * The whole program *)
Notation XR := (xreachable P print_caught print_unviable show_all_logs true o0 t0 ms).
Notation n := (n_threads (pa_jobs P) (length ms)).

Definition told (sh : shared) (ts : list wpc) (fin : list (outcome mutant)) : Prop :=
  exists lost, Permutation (lo_outcomes (sh_lab sh)) (fin ++ flat_map untold ts ++ lost) /\ (lost <> [] -> existsb bad ts = true).
Definition basics (m : cmodel) (fin : list (outcome mutant)) : Prop :=
  counters m fin /\ cm_total m = length ms /\ cm_lab_start m <> None /\ cm_done m <= cm_total m
  /\ (cm_mutants_start m = None -> cm_done m = 0).

Definition inv (x : xstate) : Prop :=
  reachable P o0 t0 ms (x_lab x) /\
  exists m, x_console x = Some m /\ basics m (x_finished x) /\
  match ls_main (x_lab x) with
  | MBaseline c => x_finished x = [] /\ x_copying x = [] /\ cm_copies m = [] /\ cm_mutants_start m = None
      /\ scens_ok (ls_sh (x_lab x)) [c] (cm_scens m) /\ told (ls_sh (x_lab x)) [c] []
  | MWork => cm_mutants_start m <> None /\ scens_ok (ls_sh (x_lab x)) (ls_workers (x_lab x)) (cm_scens m)
      /\ copies_ok (ls_workers (x_lab x)) (cm_copies m) (x_copying x)
      /\ told (ls_sh (x_lab x)) (ls_workers (x_lab x)) (x_finished x)
  | MEnd (ROk l) => Permutation (lo_outcomes l) (x_finished x)
  | MEnd _ => True
  end.

(** How a step changes what is recorded. *)
Lemma wstep_told : forall i sh c sh' c', wstep P i sh c sh' c' ->
  (sh_lab sh' = sh_lab sh /\ (untold c' = untold c \/ bad c' = true /\ untold c' = [] \/ finishes c c' = untold c /\ untold c' = []) /\ (finishes c c' = [] \/ finishes c c' = untold c /\ untold c' = []))
  \/ (exists o, lo_outcomes (sh_lab sh') = lo_outcomes (sh_lab sh) ++ [o] /\ untold c = [] /\ untold c' = [o] /\ finishes c c' = []).
Proof.
  intros i sh c sh' c' St. destruct St as [d Hd|Hd|t| |d m q Hq'| | |c sh' c' St]; cbn; auto 10.
  destruct St; cbn; auto 10. right. eexists. split; [eapply lab_add_outcomes; eassumption|auto].
Qed.

Lemma bad_mid : forall l1 c c' l2, bad c = true -> bad c' = true \/ c' = c -> existsb bad (l1 ++ c :: l2) = true -> existsb bad (l1 ++ c' :: l2) = true.
Proof.
  intros l1 c c' l2 B [B'| ->] E; [|exact E]. rewrite existsb_app. cbn [existsb]. rewrite B'. rewrite orb_true_iff, orb_true_iff. auto.
Qed.

Lemma bad_stuck : forall i sh c sh' c', wstep P i sh c sh' c' -> bad c = false.
Proof. intros i sh c sh' c' St. destruct St as [| | | | | | |c sh' c' St]; try reflexivity. destruct St; reflexivity. Qed.

Lemma told_step : forall i sh c sh' c' l1 l2 fin, wstep P i sh c sh' c' -> told sh (l1 ++ c :: l2) fin -> told sh' (l1 ++ c' :: l2) (fin ++ finishes c c').
Proof.
  intros i sh c sh' c' l1 l2 fin St [lost [PM HL]]. pose proof (bad_stuck _ _ _ _ _ St) as NB.
  assert (HL' : lost <> [] -> existsb bad (l1 ++ c' :: l2) = true).
  { intro E. apply HL in E. rewrite existsb_app in *. cbn [existsb] in *. rewrite NB in E. rewrite orb_false_l in E. rewrite orb_true_iff in *. rewrite orb_true_iff. tauto. }
  rewrite flat_map_app in PM. cbn [flat_map] in PM. unfold told. rewrite flat_map_app. cbn [flat_map].
  destruct (wstep_told _ _ _ _ _ St) as [(L & U & F)|(o & L & U & U' & F)].
  - rewrite L. destruct U as [U|[[B U]|[U U']]].
    + destruct F as [F|[F U']].
      * exists lost. rewrite F, app_nil_r, U. auto.
      * exists lost. split; [|exact HL']. rewrite F, U'. cbn [app]. rewrite PM. rewrite <- !app_assoc. apply Permutation_app_head.
        rewrite Permutation_app_swap_app. reflexivity.
    + destruct F as [F|[F U']].
      * exists (untold c ++ lost). split; [|intros _; rewrite existsb_app; cbn [existsb]; rewrite B; rewrite orb_true_r; reflexivity].
        rewrite F, app_nil_r, U. cbn [app]. rewrite PM. apply Permutation_app_head. rewrite <- !app_assoc. apply Permutation_app_head.
        rewrite Permutation_app_swap_app. reflexivity.
      * exists lost. split; [|exact HL']. rewrite F, U'. cbn [app]. rewrite PM. rewrite <- !app_assoc. apply Permutation_app_head.
        rewrite Permutation_app_swap_app. reflexivity.
    + exists lost. split; [|exact HL']. rewrite U, U'. cbn [app]. rewrite PM. rewrite <- !app_assoc. apply Permutation_app_head.
      rewrite Permutation_app_swap_app. reflexivity.
  - exists lost. split; [|exact HL']. rewrite L, U', F, app_nil_r. rewrite PM, U. cbn [app]. rewrite <- !app_assoc. cbn [app].
    apply Permutation_app_head. apply Permutation_app_head. rewrite app_assoc. symmetry. apply Permutation_cons_append.
Qed.

Lemma done_le : forall sh ts fin, accounted ms sh ts -> told sh ts fin -> of_mutants fin <= length ms.
Proof.
  intros sh ts fin [lost [PM _]] [lost' [PT _]].
  assert (E : of_mutants (lo_outcomes (sh_lab sh)) = length (recorded (sh_lab sh))).
  { clear. unfold of_mutants, recorded. induction (lo_outcomes (sh_lab sh)) as [|[s rs] l IH]; [reflexivity|]. cbn [how_many flat_map].
    rewrite app_length. cbn [oc_scenario]. destruct s; cbn [is_mutant length]; rewrite IH; reflexivity. }
  apply Permutation_length in PM. rewrite !app_length in PM.
  assert (L : of_mutants (lo_outcomes (sh_lab sh)) = of_mutants fin + of_mutants (flat_map untold ts ++ lost')).
  { unfold of_mutants. rewrite (how_many_perm _ _ _ _ PT). apply how_many_app. }
  lia.
Qed.

Lemma cons_ok : forall (m : cmodel) sh sh' c c' l1 l2, (spare sh' = spare sh \/ exists d, In d (dir_in_use c') /\ hidden c' = [d] /\ sh_dir0 sh = Some d /\ sh_dir0 sh' = None) ->
  length (sh_trees sh) <= length (sh_trees sh') -> shows c' = None ->
  (forall d, In d (hidden c') -> look d (cm_scens m) = None) ->
  scens_ok sh (l1 ++ c :: l2) (cm_scens m) -> bad c = false -> shows c = None -> scens_ok sh' (l1 ++ c' :: l2) (cm_scens m).
Proof.
  intros m sh sh' c c' l1 l2 Sp Tr Sh Hid (A & B & C & D) NB Sc.
  assert (Spl : forall c0, In c0 (l1 ++ c' :: l2) -> c0 = c' \/ In c0 (l1 ++ c :: l2)) by (intros c0 I; rewrite in_app_iff in *; cbn in *; intuition).
  split; [|split; [|split]].
  - intros d N1. apply A in N1. destruct N1 as [Lt K]. split; [lia|]. destruct K as [K|(c0 & ph & I & K)].
    + left. rewrite existsb_app in *. cbn [existsb] in *. rewrite NB in K. rewrite !orb_true_iff in *. intuition discriminate.
    + right. exists c0, ph. split; [|exact K]. rewrite in_app_iff in *. cbn [In] in *. destruct I as [I|[->|I]]; auto. congruence.
  - intros d I. apply B. destruct Sp as [Sp|[d' (_ & _ & E1 & E2)]]; [rewrite <- Sp; exact I|]. unfold spare in I. rewrite E2 in I. destruct I.
  - intros c0 d I J. destruct (Spl _ I) as [->|I']; [apply Hid; exact J|eapply C; eauto].
  - intros c0 d ph I J. destruct (Spl _ I) as [->|I']; [congruence|eapply D; eauto].
Qed.

Lemma untold_spawn : forall k, flat_map untold (spawn k) = [].
Proof. induction k; [reflexivity|exact IHk]. Qed.

Lemma xinv : forall x, XR x -> inv x.
Proof.
  intros x [now [now' R]]. remember (xstart P print_caught print_unviable show_all_logs o0 t0 ms now now') as x0 eqn:E0.
  induction R as [x|x y z R IH St].
  - subst x. unfold xstart, inv. cbn [x_lab x_console x_finished x_copying]. split; [constructor|].
    unfold start_state. destruct (pa_skip_baseline P) eqn:SB; cbn [ls_main ls_sh ls_workers handle_all handle].
    + eexists. split; [reflexivity|]. split; [|split; [discriminate|split; [|split]]].
      * unfold basics, counters. cbn. repeat split; auto; try discriminate; lia.
      * cbn. split; [intros d X; exfalso; apply X; reflexivity|]. repeat split; try discriminate.
        intros c d ph I E. apply repeat_spec in I. subst c. discriminate.
      * intros i. split; [intros E; apply nth_error_In in E; apply repeat_spec in E; discriminate|intros _ []].
      * exists []. split; [|congruence]. rewrite untold_spawn. apply Permutation_refl.
    + eexists. split; [reflexivity|]. split; [|split; [reflexivity|split; [reflexivity|split; [reflexivity|split; [reflexivity|split]]]]].
      * unfold basics, counters. cbn. repeat split; auto; try discriminate; lia.
      * cbn. split; [intros d X; exfalso; apply X; reflexivity|]. repeat split; try discriminate.
        intros c d ph [<-|[]] E. discriminate.
      * exists []. split; [constructor|congruence].
  - specialize (IH E0). destruct IH as [Rb [m [Em [(Cn & Tt & Ls & Dn & Ms) M]]]].
    pose proof (wf_inv P o0 t0 ms _ Rb) as WI. pose proof (dirs_inv P o0 t0 ms _ Rb) as DI.
    destruct St as [sh c sh' c' m0 cp fin rd H0 H1|sh d o m0 cp fin rd nw H0 H1|sh d o m0 cp fin rd H0 H1|sh m0 cp fin|sh m0 cp fin
      |sh ws i m0 cp fin H0 H1|sh ws i b m0 cp fin H0 H1|sh ws i c sh' c' m0 cp fin rd H0 H1 H2 H3|sh ws m0 cp fin H0];
    cbn [x_lab x_console x_finished x_copying ls_main ls_sh ls_workers] in *; injection Em as Em; subst m0;
      unfold threads in WI, DI; cbn [ls_main ls_workers] in WI, DI.
    + (* baseline step *)
      destruct M as (F0 & C0 & Cc & Mn & SO & To).
      assert (Rb' : reachable P o0 t0 ms (mkLS sh' (MBaseline c') [])) by (eapply steps_more; [exact Rb|constructor; assumption]).
      destruct WI as (_ & Wf & _). inversion Wf as [|c1 l W1 W2]; subst.
      destruct (sstep_display 0 rd sh c sh' c' [] [] m [] (H1 eq_refl) H0 W1 DI SO Cn) as (m' & E & SO' & Cp & Cn' & (S1 & S2 & S3) & Fi).
      split; [exact Rb'|]. exists m'. split; [exact E|]. split.
      { unfold basics. rewrite S1, S2, S3. repeat split; try apply Cn'; auto.
        - destruct Cn as [Cd _]. destruct Cn' as [Cd' _]. rewrite Cd'. rewrite <- Cd. lia.
        - intros _. destruct Cn' as [Cd' _]. exact Cd'. }
      cbn [x_lab x_finished x_copying ls_main ls_sh]. split; [reflexivity|]. split; [reflexivity|]. split; [congruence|]. split; [congruence|]. split; [exact SO'|].
      pose proof (told_step 0 sh c sh' c' [] [] [] (ws_scenario P 0 sh c sh' c' H0) To) as T. rewrite Fi, app_nil_r in T. exact T.
    + (* baseline ok *)
      destruct M as (F0 & C0 & Cc & Mn & SO & To). subst fin cp.
      destruct WI as (_ & Wf & _). inversion Wf as [|c1 l W1 W2]; subst.
      rewrite (H1 eq_refl). destruct (finish_display sh d o [] [] m [] W1 DI SO Cn) as (m' & E & SO' & Cp & Cn' & (S1 & S2 & S3)).
      assert (Rb' : reachable P o0 t0 ms (mkLS (set_dir0 sh (Some d)) MWork (spawn n))) by (eapply steps_more; [exact Rb|apply st_baseline_ok with (o := o); assumption]).
      assert (Base : is_mutant (oc_scenario o) = false).
      { pose proof (base_inv P o0 t0 ms _ Rb) as BI. cbn in BI. destruct BI as [[d' B] _]. injection B as _ B. rewrite B. reflexivity. }
      split; [exact Rb'|]. cbn [x_console handle_all]. rewrite E. cbn [handle]. eexists. split; [reflexivity|]. split.
      { unfold basics. cbn [cm_total cm_lab_start cm_done cm_mutants_start]. split; [exact Cn'|].
        rewrite S1, S3. repeat split; auto; try discriminate. destruct Cn' as [Cd _]. rewrite Cd. unfold of_mutants. cbn [app how_many x_finished]. rewrite Base. lia. }
      cbn [x_lab x_finished x_copying ls_main ls_sh ls_workers cm_mutants_start cm_scens cm_copies]. split; [discriminate|]. split; [|split].
      * destruct SO' as (A & B & C & D). split; [|split; [|split]].
        -- intros d0 X. destruct (A d0 X) as [_ [K|(c & ph & [<-|[]] & K)]]; discriminate.
        -- intros d0 I. unfold spare in I. cbn in I. destruct I as [<-|[]]. apply (C (WQueue d) d); [left; reflexivity|left; reflexivity].
        -- intros c d0 I J. apply repeat_spec in I. subst c. destruct J.
        -- intros c d0 ph I J. apply repeat_spec in I. subst c. discriminate.
      * intros i. split; [intros X; apply nth_error_In in X; apply repeat_spec in X; discriminate|intros _ []].
      * pose proof (told_step 0 sh (WFin d o) sh (WQueue d) [] [] [] (ws_again P 0 sh d o) To) as [lost [T1 T2]].
        exists lost. cbn in T1. rewrite untold_spawn.
        cbn [app]. split; [exact T1|]. intro Ne. specialize (T2 Ne). discriminate.
    + (* baseline failed *)
      destruct M as (F0 & C0 & Cc & Mn & SO & To). subst fin cp.
      destruct WI as (_ & Wf & _). inversion Wf as [|c1 l W1 W2]; subst.
      rewrite (H1 eq_refl). destruct (finish_display sh d o [] [] m [] W1 DI SO Cn) as (m' & E & SO' & Cp & Cn' & (S1 & S2 & S3)).
      assert (Base : is_mutant (oc_scenario o) = false).
      { pose proof (base_inv P o0 t0 ms _ Rb) as BI. cbn in BI. destruct BI as [[d' B] _]. injection B as _ B. rewrite B. reflexivity. }
      assert (Z : cm_done m' = 0). { destruct Cn' as [Cd _]. rewrite Cd. unfold of_mutants. cbn [app how_many]. rewrite Base. reflexivity. }
      split; [eapply steps_more; [exact Rb|apply st_baseline_failed; assumption]|]. cbn [x_console handle_all]. rewrite E. eexists. split; [reflexivity|]. split.
      { unfold basics. split; [exact Cn'|]. rewrite S1, S3, Z. repeat split; auto; lia. }
      cbn [x_lab x_finished ls_main].
      pose proof (told_step 0 sh (WFin d o) sh (WQueue d) [] [] [] (ws_again P 0 sh d o) To) as [lost [T1 T2]]. cbn in T1, T2.
      destruct lost as [|y lost]; [exact T1|]. exfalso. assert (X : y :: lost <> []) by discriminate. apply T2 in X. discriminate.
    + split; [eapply steps_more; [exact Rb|constructor]|]. exists m. split; [reflexivity|]. split; [unfold basics; auto 10|exact I].
    + split; [eapply steps_more; [exact Rb|constructor]|]. exists m. split; [reflexivity|]. split; [unfold basics; auto 10|exact I].
    + (* start of a copy *)
      destruct M as (Mn & SO & CO & To). split; [exact Rb|]. eexists. split; [reflexivity|]. cbn [x_lab x_finished x_copying ls_main ls_sh ls_workers set_copies cm_scens cm_copies cm_mutants_start].
      split; [unfold basics; auto 10|]. split; [exact Mn|]. split; [exact SO|]. split; [|exact To].
      intros j. destruct (CO j) as [C1 C2]. split.
      * intros X [<-|J]; [exists 0%N; apply in_or_app; right; left; reflexivity|].
        destruct (C1 X J) as [b Jb]. exists b. apply in_or_app. left. exact Jb.
      * intros X [<-|J]; [congruence|]. exact (C2 X J).
    + (* progress of a copy *)
      destruct M as (Mn & SO & CO & To). split; [exact Rb|].
      destruct (change_first_copy (cm_copies m) i b (proj1 (CO i) H0 H1)) as [l' [E Q]].
      cbn [x_console handle_all handle]. rewrite E. cbn [option_map]. eexists. split; [reflexivity|].
      cbn [x_lab x_finished x_copying ls_main ls_sh ls_workers set_copies cm_scens cm_copies cm_mutants_start].
      split; [unfold basics; auto 10|]. split; [exact Mn|]. split; [exact SO|]. split; [|exact To].
      intros j. destruct (CO j) as [C1 C2]. split; [|exact C2]. intros X J. apply Q. apply C1; assumption.
    + (* worker *)
      destruct M as (Mn & SO & CO & To).
      assert (Rb' : reachable P o0 t0 ms (mkLS sh' MWork (list_set ws i c'))) by (eapply steps_more; [exact Rb|eapply st_worker; eassumption]).
      pose proof (list_split _ _ _ _ H0) as (l1 & l2 & Ews & Li & Sws).
      assert (To' : told sh' (l1 ++ c' :: l2) (fin ++ finishes c c')) by (rewrite Ews in To; eapply told_step; eassumption).
      assert (Le : of_mutants (fin ++ finishes c c') <= length ms).
      { pose proof (accounted_inv P o0 t0 ms _ Rb') as AI. cbn in AI. unfold threads in AI. cbn in AI. rewrite Sws in AI. eapply done_le; eassumption. }
      destruct WI as (Wq & Wf & _). 
      assert (W1 : wf P ms c) by (rewrite Forall_forall in Wf; apply Wf; rewrite Ews; apply in_or_app; right; left; reflexivity).
      rewrite Ews in DI, SO.
      assert (Main : exists m', H (emits i rd c c') m = Some m' /\ scens_ok sh' (l1 ++ c' :: l2) (cm_scens m')
         /\ copies_ok (l1 ++ c' :: l2) (cm_copies m') cp /\ counters m' (fin ++ finishes c c') /\ same_rest m m').
      { assert (CoKeep : forall c'', c'' <> WCopy -> c'' <> WInit -> copies_ok (l1 ++ c'' :: l2) (cm_copies m) cp).
        { intros c'' Ne Ni j. rewrite <- Sws. destruct (Nat.eq_dec j i) as [->|Nj].
          - rewrite nth_error_set_same by (eapply nth_error_lt; eassumption). split; congruence.
          - rewrite nth_error_set_other by congruence. apply CO. }
        assert (Same : same_rest m m) by (unfold same_rest; auto).
        destruct H1 as [d Hd|Hd|t Ht| |d mu q Hq|d Hq|d o|c sh' c' Hs].
        - exists m. split; [reflexivity|]. split; [|split; [apply CoKeep; discriminate|split; [rewrite app_nil_r; exact Cn|exact Same]]].
          eapply (cons_ok m sh); [right; exists d; cbn; auto|cbn; lia|reflexivity| |exact SO|reflexivity|reflexivity].
          intros d0 [<-|[]]. destruct SO as (_ & B & _). apply B. unfold spare. rewrite Hd. left. reflexivity.
        - exists m. split; [reflexivity|]. split; [|split; [|split; [rewrite app_nil_r; exact Cn|exact Same]]].
          + eapply (cons_ok m sh); [left; reflexivity|lia|reflexivity| |exact SO|reflexivity|reflexivity]. intros d0 [].
          + intros j. rewrite <- Sws. destruct (Nat.eq_dec j i) as [->|Nj].
            * rewrite nth_error_set_same by (eapply nth_error_lt; eassumption). split; [|discriminate].
              intros _ J. destruct (CO i) as [_ N1]. destruct (N1 H0 J).
            * rewrite nth_error_set_other by congruence. apply CO.
        - cbn [emits handle_all handle]. specialize (H2 _ eq_refl eq_refl). destruct (CO i) as [C1 _]. specialize (C1 H0 H2). destruct C1 as [b Ib].
          destruct (position_some _ (fun c : nat * N => Nat.eqb (fst c) i) (cm_copies m)) as (k & [i' b'] & Pk & Nk & Fk); [exists (i, b); split; [exact Ib|apply Nat.eqb_refl]|].
          cbn [fst] in Fk. apply Nat.eqb_eq in Fk. subst i'. rewrite Pk. eexists. split; [reflexivity|]. cbn [set_copies cm_scens cm_copies].
          split; [|split; [|split; [rewrite app_nil_r; exact Cn|unfold same_rest; auto]]].
          + eapply (cons_ok m sh); [left; reflexivity|cbn; rewrite app_length; lia|reflexivity| |exact SO|reflexivity|reflexivity].
            intros d0 [<-|[]]. destruct SO as (A & _). destruct (look (length (sh_trees sh)) (cm_scens m)) eqn:E; [|reflexivity].
            exfalso. assert (X : look (length (sh_trees sh)) (cm_scens m) <> None) by congruence. apply A in X. lia.
          + intros j. rewrite <- Sws. destruct (Nat.eq_dec j i) as [->|Nj].
            * rewrite nth_error_set_same by (eapply nth_error_lt; eassumption). split; discriminate.
            * rewrite nth_error_set_other by congruence. destruct (CO j) as [D1 D2]. split; [|exact D2]. intros X J. destruct (D1 X J) as [bj Ij].
              exists bj. eapply swap_remove_in; [exact Nk|exact Ij|]. congruence.
        - exists m. split; [reflexivity|]. split; [|split; [apply CoKeep; discriminate|split; [rewrite app_nil_r; exact Cn|exact Same]]].
          eapply (cons_ok m sh); [left; reflexivity|lia|reflexivity| |exact SO|reflexivity|reflexivity]. intros d0 [].
        - exists m. split; [reflexivity|]. split; [|split; [apply CoKeep; discriminate|split; [rewrite app_nil_r; exact Cn|exact Same]]].
          eapply (cons_ok m sh); [left; reflexivity|cbn; lia|reflexivity| |exact SO|reflexivity|reflexivity].
          intros d0 [<-|[]]. destruct SO as (_ & _ & C & _). apply (C (WQueue d) d); [apply in_or_app; right; left; reflexivity|left; reflexivity].
        - exists m. split; [reflexivity|]. split; [|split; [apply CoKeep; discriminate|split; [rewrite app_nil_r; exact Cn|exact Same]]].
          eapply (cons_ok m sh); [left; reflexivity|lia|reflexivity| |exact SO|reflexivity|reflexivity]. intros d0 [].
        - rewrite (H3 eq_refl). destruct (finish_display sh d o l1 l2 m fin W1 DI SO Cn) as (m' & E & SO' & Cp & Cn' & Sr).
          exists m'. cbn [emits handle_all]. rewrite E. split; [reflexivity|]. split; [exact SO'|]. split; [rewrite Cp; apply CoKeep; discriminate|]. auto.
        - destruct (sstep_display i rd sh c sh' c' l1 l2 m fin (H3 eq_refl) Hs W1 DI SO Cn) as (m' & E & SO' & Cp & Cn' & Sr & Fi).
          exists m'. split; [exact E|]. split; [exact SO'|]. split; [|rewrite Fi, app_nil_r; auto].
          rewrite Cp. apply CoKeep; destruct Hs; discriminate. }
      destruct Main as (m' & E & SO' & CO' & Cn' & (S1 & S2 & S3)).
      split; [exact Rb'|]. exists m'. split; [exact E|]. rewrite Sws. cbn [x_lab x_finished x_copying ls_main ls_sh ls_workers].
      split; [|split; [congruence|split; [exact SO'|split; [exact CO'|exact To']]]].
      unfold basics. rewrite S1, S2, S3. repeat split; try apply Cn'; auto.
      * destruct Cn' as [Cd _]. rewrite Cd, Tt. exact Le.
      * intro X. congruence.
    + (* join *)
      destruct M as (Mn & SO & CO & To).
      split; [eapply steps_more; [exact Rb|constructor; assumption]|]. cbn [x_lab x_finished ls_main x_console].
      unfold join_threads. destruct (existsb is_panic ws) eqn:Pn; [exists m; split; [reflexivity|]; split; [unfold basics; auto 10|exact I]|].
      destruct (existsb is_err ws) eqn:Er; [exists m; split; [reflexivity|]; split; [unfold basics; auto 10|exact I]|].
      cbn [handle_all handle]. eexists. split; [reflexivity|]. split; [unfold basics; cbn; auto 10|].
      destruct To as [lost [T1 T2]].
      assert (NB : existsb bad ws = false).
      { clear -Pn Er. induction ws as [|c ws IH]; [reflexivity|]. cbn [existsb] in *. apply orb_false_iff in Pn, Er. unfold bad. rewrite (proj1 Pn), (proj1 Er). apply IH; tauto. }
      assert (UN : flat_map untold ws = []).
      { clear -H0. induction ws as [|c ws IH]; [reflexivity|]. cbn [forallb flat_map] in *. apply andb_true_iff in H0. rewrite IH by tauto. destruct c; try reflexivity; destruct H0; discriminate. }
      destruct lost as [|y lost]; [|assert (X : y :: lost <> []) by discriminate; apply T2 in X; congruence].
      rewrite UN in T1. rewrite !app_nil_r in T1. exact T1.
Qed.
End Inv.

Lemma look_in : forall d l, look d l <> None <-> In d (map sc_dir l).
Proof.
  intros d l. unfold look. induction l as [|s l IH]; cbn [find map In]; [tauto|]. destruct (Nat.eqb (sc_dir s) d) eqn:E.
  - apply Nat.eqb_eq in E. split; [auto|discriminate].
  - apply Nat.eqb_neq in E. rewrite IH. tauto.
Qed.

Lemma shows_under : forall c d, under_way c = Some d <-> exists ph, shows c = Some (d, ph).
Proof.
  intros c d. split.
  - intro E. destruct c; cbn in *; try discriminate; injection E as <-; eexists; reflexivity.
  - intros [ph E]. destruct c; cbn in *; try discriminate; injection E as <- _; reflexivity.
Qed.

Lemma active_shown : forall sh ts l, scens_ok sh ts l -> all_well ts ->
  (forall d, In d (map sc_dir l) <-> exists c, In c ts /\ under_way c = Some d)
  /\ (forall d s dn p todo, In (WCargo d s dn p todo) ts -> In (mkScen d (Some p)) l).
Proof.
  intros sh ts l (A & _ & _ & D) AW. split.
  - intro d. rewrite <- look_in. split.
    + intro N1. destruct (A d N1) as [_ [K|(c & ph & I & K)]].
      * apply existsb_exists in K. destruct K as (c & I & K). destruct (AW c I) as [W1 W2]. unfold bad in K. rewrite W1, W2 in K. discriminate.
      * exists c. split; [exact I|]. apply shows_under. eauto.
    + intros (c & I & K). apply shows_under in K. destruct K as [ph K]. destruct (D c d ph I K) as (s & L & _). congruence.
  - intros d s dn p todo I. destruct (D _ d _ I eq_refl) as (sc & L & Ph). specialize (Ph _ eq_refl). unfold look in L. apply find_some in L.
    destruct L as [I' E]. apply Nat.eqb_eq in E. destruct sc as [d' ph']. cbn in *. subst. exact I'.
Qed.

(** * Drawing *)
Open Scope Q_scope.
Lemma ceil_bounds : forall q, q <= ceil q /\ ceil q < q + 1.
Proof.
  intro q. unfold ceil. split; [apply Qle_ceiling|].
  pose proof (Qceiling_lt q) as H. unfold Z.sub in H. rewrite inject_Z_plus, inject_Z_opp in H. change (inject_Z 1) with 1 in H. lra.
Qed.

Lemma q_of_nat_0 : forall n, 0 <= q_of_nat n.
Proof. intro n. unfold q_of_nat. change 0 with (inject_Z 0). rewrite <- Zle_Qle. lia. Qed.
Lemma q_of_nat_le : forall a b, (a <= b)%nat -> q_of_nat a <= q_of_nat b.
Proof. intros a b L. unfold q_of_nat. rewrite <- Zle_Qle. lia. Qed.

Lemma rem_bounds : forall rnd el total dn B, rounding rnd -> (2 < dn)%nat -> (dn <= total)%nat ->
  (Z.of_N el # 1000000000) * q_of_nat total <= B ->
  0 <= remaining_secs rnd el total dn /\ remaining_secs rnd el total dn <= 512 * B + 400.
Proof.
  intros rnd el total dn B R D L HB. unfold remaining_secs.
  set (e := Z.of_N el # 1000000000) in *. assert (E0 : 0 <= e) by (unfold e, Qle; cbn; lia).
  pose proof (q_of_nat_0 total) as T0.
  assert (D1 : 1 <= q_of_nat dn) by (change 1 with (q_of_nat 1); apply q_of_nat_le; lia).
  pose proof (q_of_nat_le _ _ L) as DL.
  set (T := q_of_nat total) in *. set (d := q_of_nat dn) in *.
  assert (AS : 0 <= as_secs rnd el /\ as_secs rnd el <= 4 * e).
  { unfold as_secs. pose proof (split_secs el) as SP. unfold exact_secs in SP. fold e in SP.
    set (sc := inject_Z (Z.of_N (el / NS))) in *. set (nn := Z.of_N (el mod NS) # 1000000000) in *.
    assert (Sc0 : 0 <= sc) by (unfold sc; change 0 with (inject_Z 0); rewrite <- Zle_Qle; apply N2Z.is_nonneg).
    assert (N0 : 0 <= nn) by (unfold nn, Qle; cbn [Qnum Qden]; pose proof (N2Z.is_nonneg (el mod NS)); lia).
    destruct (R sc Sc0) as [X1 X2]. destruct (R nn N0) as [X3 X4]. destruct (R (rnd sc + rnd nn)) as [X5 X6]; lra. }
  destruct AS as [A1 A2]. assert (TD : 0 <= T - d) by lra. destruct (R _ TD) as [B1 B2].
  set (a := as_secs rnd el) in *. set (r := rnd (T - d)) in *.
  assert (AR : 0 <= a * r) by (apply Qmult_le_0_compat; assumption).
  assert (AR' : a * r <= 8 * B).
  { assert (Y1 : a * r <= (4 * e) * r) by (apply Qmult_le_compat_r; assumption).
    assert (Y2 : r * (4 * e) <= (2 * T) * (4 * e)) by (apply Qmult_le_compat_r; lra). lra. }
  destruct (R _ AR) as [C1 C2]. set (p := rnd (a * r)) in *.
  assert (Q1 : 0 <= p / d) by (apply Qle_shift_div_l; lra).
  assert (Q2 : p / d <= p). { apply Qle_shift_div_r; [lra|]. assert (p * 1 <= p * d). { rewrite !(Qmult_comm p). apply Qmult_le_compat_r; lra. } lra. }
  destruct (R _ Q1) as [E1 E2]. set (s := rnd (p / d)) in *.
  assert (S1 : s <= 32 * B) by lra.
  destruct (Qle_bool s (inject_Z 300)); [lra|].
  assert (S30 : 0 <= s + inject_Z 30) by (change (inject_Z 30) with (30 # 1); lra).
  destruct (R _ S30) as [F1 F2]. set (f := rnd (s + inject_Z 30)) in *. change (inject_Z 30) with (30 # 1) in F2.
  assert (G0 : 0 <= f / inject_Z 60) by (apply Qle_shift_div_l; change (inject_Z 60) with (60 # 1); lra).
  assert (G0' : f / inject_Z 60 <= f * (1 # 60)) by (apply Qle_shift_div_r; change (inject_Z 60) with (60 # 1); lra).
  destruct (R _ G0) as [G1 G2]. set (g := rnd (f / inject_Z 60)) in *.
  destruct (ceil_bounds g) as [H1 H2]. set (c := ceil g) in *. change (inject_Z 60) with (60 # 1).
  assert (K0 : 0 <= c * (60 # 1)) by lra.
  destruct (R _ K0) as [K1 K2]. lra.
Qed.

Lemma ceil_0 : forall q, 0 <= q -> 0 <= ceil q.
Proof. intros q H. destruct (ceil_bounds q). lra. Qed.

Lemma rnd64_rounding : rounding rnd64.
Proof. intros q H. split; [apply rnd64_nonneg; exact H|apply rnd64_twice; exact H]. Qed.

(** * The estimate *)
Lemma rel_err : forall q, 0 <= q -> q - q * u - pow2 (-1075) <= rnd64 q /\ rnd64 q <= q + q * u + pow2 (-1075).
Proof.
  intros q H. pose proof (rnd64_error q H) as E. rewrite pow2_m53 in E. apply Qabs_Qle_condition in E. lra.
Qed.

Lemma estimate64 : forall el total dn, (2 < dn)%nat -> (dn <= total)%nat -> q_of_nat total <= 9007199254740992 ->
  let r := exact_secs el * (q_of_nat total - q_of_nat dn) / q_of_nat dn in
  r - r * (2 # 1) ^ (-50) - (2 # 1) ^ (-1073) <= remaining_secs rnd64 el total dn
  /\ remaining_secs rnd64 el total dn <= r + r * (2 # 1) ^ (-50) + 91
  /\ (r <= 299 -> remaining_secs rnd64 el total dn <= r + r * (2 # 1) ^ (-50) + (2 # 1) ^ (-1073)).
Proof.
  intros el total dn D L Big. unfold remaining_secs.
  pose proof (q_of_nat_0 total) as T0.
  assert (D1 : 1 <= q_of_nat dn) by (change 1 with (q_of_nat 1); apply q_of_nat_le; lia).
  pose proof (q_of_nat_le _ _ L) as DL.
  assert (EX : rnd64 (q_of_nat total - q_of_nat dn) == q_of_nat total - q_of_nat dn).
  { apply rnd64_float. unfold q_of_nat. destruct (int_float (Z.of_nat total - Z.of_nat dn)) as (m & e & Hm & He & E).
    - unfold q_of_nat in Big. change 9007199254740992 with (inject_Z (2 ^ 53)) in Big. rewrite <- Zle_Qle in Big. lia.
    - exists m, e. split; [exact Hm|]. split; [exact He|]. rewrite <- E. unfold Z.sub. rewrite inject_Z_plus, inject_Z_opp. ring. }
  set (T := q_of_nat total) in *. set (d := q_of_nat dn) in *. set (w := rnd64 (T - d)) in *.
  destruct (as_secs_rel el) as [A B]. pose proof (exact_nonneg el) as X0. pose proof (as_secs_nonneg el) as AS0.
  set (a := as_secs rnd64 el) in *. set (x := exact_secs el) in *.
  assert (W0 : 0 <= w) by lra.
  pose proof (Qmult_le_compat_r _ _ _ A W0) as A'. pose proof (Qmult_le_compat_r _ _ _ B W0) as B'.
  pose proof (Qmult_le_0_compat _ _ AS0 W0) as AW. pose proof (Qmult_le_0_compat _ _ X0 W0) as XW.
  destruct (rel_err _ AW) as [C1 C2]. pose proof (rnd64_nonneg _ AW) as P0. set (p := rnd64 (a * w)) in *.
  pose proof (pow2_pos (-1075)) as Zp. set (z := pow2 (-1075)) in *.
  set (r := x * (T - d) / d). cbv zeta.
  assert (Ed : forall y, y / d * d == y) by (intro y; field; lra).
  assert (R0 : 0 <= r) by (unfold r; apply Qle_shift_div_l; [lra|]; rewrite Qmult_0_l; apply Qmult_le_0_compat; lra).
  assert (Rd : r * d == x * w). { unfold r. rewrite Ed. rewrite EX. reflexivity. }
  (* p / d is near r *)
  assert (Q0 : 0 <= p / d) by (apply Qle_shift_div_l; lra).
  assert (Zd : z <= z * d) by (setoid_replace z with (z * 1) at 1 by ring; rewrite !(Qmult_comm z); apply Qmult_le_compat_r; lra).
  unfold u in *.
  assert (Q1 : r - r * ((27 # 8) * (1 # 9007199254740992)) - z <= p / d) by (apply Qle_shift_div_l; lra).
  assert (Q2 : p / d <= r + r * ((27 # 8) * (1 # 9007199254740992)) + z) by (apply Qle_shift_div_r; lra).
  destruct (rel_err _ Q0) as [S1 S2]. pose proof (rnd64_nonneg _ Q0) as S0. fold z in S1, S2. unfold u in S1, S2.
  assert (Z1 : z <= 1 # 1000) by (vm_compute; discriminate).
  assert (Z4 : (2 # 1) ^ (-1073) == 4 * z) by (fold (pow2 (-1073)); change (-1073)%Z with (2 + -1075)%Z; rewrite pow2_plus; reflexivity).
  rewrite Z4. change ((2 # 1) ^ (-50)) with (1 # 1125899906842624).
  set (s := rnd64 (p / d)) in *. set (q := p / d) in *. clearbody s q z.
  assert (B1 : r - r * ((9 # 2) * (1 # 9007199254740992)) - 3 * z <= s) by lra.
  assert (B2 : s <= r + r * ((9 # 2) * (1 # 9007199254740992)) + 3 * z) by lra.
  clear - B1 B2 R0 S0 Zp Z1.
  destruct (Qle_bool s (inject_Z 300)) eqn:E; [apply conj; [lra|apply conj; intros; lra]|].
  apply Qle_bool_false in E. change (inject_Z 300) with (300 # 1) in E. change (inject_Z 30) with (30 # 1). change (inject_Z 60) with (60 # 1).
  assert (F : forall y, not_tiny y -> y - y * (1 # 9007199254740992) <= rnd64 y /\ rnd64 y <= y + y * (1 # 9007199254740992)) by exact rnd_rel.
  destruct (F (s + (30 # 1))) as [F1 F2]; [right; lra|]. set (f := rnd64 (s + (30 # 1))) in *.
  assert (Ef : f / (60 # 1) == f * (1 # 60)) by field.
  destruct (F (f / (60 # 1))) as [G1 G2]; [right; lra|]. set (g := rnd64 (f / (60 # 1))) in *.
  destruct (ceil_bounds g) as [H1 H2]. set (c := ceil g) in *.
  destruct (F (c * (60 # 1))) as [K1 K2]; [right; lra|]. set (k := rnd64 (c * (60 # 1))) in *.
  set (f60 := f / (60 # 1)) in *. clearbody f60 k c g f. clear F.
  apply conj; [|apply conj]; [lra|lra|intro; lra].
Qed.
Open Scope nat_scope.

(** * The lab's own counters *)
Section Totals.
Context (P : params) (o0 : entries) (t0 : tree) (ms : list mutant).

Lemma lab_add_all_snoc : forall os (l l1 : lab_outcome mutant) o, lab_add_all l os = Some l1 -> lab_add_all l (os ++ [o]) = lab_add l1 o.
Proof.
  induction os as [|a os IH]; intros l l1 o E; cbn [lab_add_all app] in *.
  - injection E as <-. destruct (lab_add l o); reflexivity.
  - destruct (lab_add l a); [|discriminate]. apply IH. exact E.
Qed.

Lemma totals_inv : forall st, reachable P o0 t0 ms st ->
  match ls_main st with MEnd _ => True | _ => lab_add_all lab_new (lo_outcomes (sh_lab (ls_sh st))) = Some (sh_lab (ls_sh st)) end.
Proof.
  apply (reach_ind P o0 t0 ms (fun sh _ => lab_add_all lab_new (lo_outcomes (sh_lab sh)) = Some (sh_lab sh))).
  - reflexivity.
  - reflexivity.
  - intros i sh ts c sh' c' _ St I. destruct St as [| | | | | | |c sh' c' St]; try exact I. destruct St; try exact I.
    cbn [set_lab sh_lab]. rewrite (lab_add_outcomes _ _ _ H0). rewrite (lab_add_all_snoc _ _ _ _ I). exact H0.
  - intros sh d o I _. exact I.
Qed.

Lemma totals_end : forall sh l ws, reachable P o0 t0 ms (mkLS sh (MEnd (ROk l)) ws) -> l = sh_lab sh /\ lab_add_all lab_new (lo_outcomes l) = Some l.
Proof.
  intros sh l ws R. destruct (end_inv _ _ _ _ _ _ _ R) as [(d & o & R' & _ & E & _)|[(_ & E & _)|[(_ & E & _)|(R' & _ & E)]]]; try discriminate.
  - injection E as ->. split; [reflexivity|]. exact (totals_inv _ R').
  - unfold join_threads in E. destruct (existsb is_panic ws); [discriminate|]. destruct (existsb is_err ws); [discriminate|]. injection E as ->.
    split; [reflexivity|]. exact (totals_inv _ R').
Qed.

(** Recorded outcomes have phase results. *)
Lemma results_inv : forall st, reachable P o0 t0 ms st ->
  match ls_main st with MEnd _ => True | _ => Forall (fun o => finished_run (phases (pa_check_only P)) (oc_results o)) (lo_outcomes (sh_lab (ls_sh st)))
     /\ wfs P ms (ls_sh st) (threads st) end.
Proof.
  apply (reach_ind P o0 t0 ms (fun sh ts => Forall (fun o => finished_run (phases (pa_check_only P)) (oc_results o)) (lo_outcomes (sh_lab sh)) /\ wfs P ms sh ts)).
  - intro E. split; [constructor|]. pose proof (wf_inv P o0 t0 ms (start_state P o0 t0 ms) (steps_refl _ _ _)) as W. unfold start_state in W. rewrite E in W. exact W.
  - intro E. split; [constructor|]. pose proof (wf_inv P o0 t0 ms (start_state P o0 t0 ms) (steps_refl _ _ _)) as W. unfold start_state in W. rewrite E in W. exact W.
  - intros i sh ts c sh' c' N1 St [F W]. destruct W as (Wq & Wf & Wn).
    assert (W1 : wf P ms c) by (rewrite Forall_forall in Wf; apply Wf; eapply nth_error_In; exact N1).
    destruct (wstep_wf P ms _ _ _ _ _ St Wq W1) as (Wq' & Wc' & Wn').
    destruct (list_split _ _ _ _ N1) as (l1 & l2 & E & _ & S). split.
    + destruct St as [| | | | | | |c sh' c' St]; try exact F. destruct St; try exact F.
      cbn [set_lab sh_lab]. rewrite (lab_add_outcomes _ _ _ H0). apply Forall_app. split; [exact F|]. constructor; [|constructor]. apply W1.
    + split; [exact Wq'|]. rewrite S. rewrite E in Wf. apply Forall_app in Wf. destruct Wf as [Wf1 Wf2]. inversion Wf2; subst. split.
      * apply Forall_app. split; [exact Wf1|]. constructor; assumption.
      * intros Nm I. rewrite in_app_iff in I. cbn [In] in I. assert (X : ~ In WPanic (l1 ++ c :: l2)) by (apply Wn; exact Nm).
        rewrite in_app_iff in X. cbn [In] in X. destruct I as [I|[I|I]]; [tauto| |tauto]. exact (Wn' Nm I).
  - intros sh d o [F (Wq & _)] _. split; [exact F|]. split; [exact Wq|]. split.
    + apply Forall_forall. intros c I. apply repeat_spec in I. subst. split; [discriminate|exact Logic.I].
    + intros _ I. apply repeat_spec in I. discriminate.
Qed.

Lemma results_end : forall sh l ws, reachable P o0 t0 ms (mkLS sh (MEnd (ROk l)) ws) -> Forall (fun o => oc_results o <> []) (lo_outcomes l).
Proof.
  assert (K : forall os : list (outcome mutant), Forall (fun o => finished_run (phases (pa_check_only P)) (oc_results o)) os -> Forall (fun o => oc_results o <> []) os).
  { intros os F. eapply Forall_impl; [|exact F]. intros o X. destruct (finished_last P _ X) as (pre & r & ->). destruct pre; discriminate. }
  intros sh l ws R. destruct (totals_end _ _ _ R) as [-> _].
  destruct (end_inv _ _ _ _ _ _ _ R) as [(d & o & R' & _ & E & _)|[(_ & E & _)|[(_ & E & _)|(R' & _ & E)]]]; try discriminate; apply K; exact (proj1 (results_inv _ R')).
Qed.
End Totals.

(** * Any run has a display *)
Section Lift.
Context (P : params) (print_caught print_unviable show_all_logs : bool).
Context (o0 : entries) (t0 : tree) (ms : list mutant).
Notation XR := (xreachable P print_caught print_unviable show_all_logs).

Lemma lift : forall st, reachable P o0 t0 ms st -> exists x, XR true o0 t0 ms x /\ x_lab x = st.
Proof.
  intros st R. unfold reachable in R. remember (start_state P o0 t0 ms) as s0 eqn:E0.
  induction R as [s|s s' s'' R IH St].
  - subst s. exists (xstart P print_caught print_unviable show_all_logs o0 t0 ms 0%N 0%N). split; [|reflexivity]. exists 0%N, 0%N. constructor.
  - destruct (IH E0) as [x [X E]]. 
    assert (Step : forall x y, XR true o0 t0 ms x -> xstep P print_caught print_unviable show_all_logs true (length ms) x y -> XR true o0 t0 ms y).
    { intros x0 y [nw [nw' X0]] S. exists nw, nw'. eapply xsteps_more; eassumption. }
    pose proof (xinv _ _ _ _ _ _ _ _ X) as [_ [m [Em _]]].
    destruct x as [lab con cp fin]. cbn [x_lab x_console] in *. subst lab con.
    destruct St as [sh c sh' c' H0|sh d o H0|sh d o H0|sh|sh|sh ws i c sh' c' H0 H1|sh ws H0].
    + eexists. split; [eapply Step; [exact X|]; apply (xs_baseline _ _ _ _ _ _ sh c sh' c' m cp fin true H0); reflexivity|reflexivity].
    + eexists. split; [eapply Step; [exact X|]; apply (xs_baseline_ok _ _ _ _ _ _ sh d o m cp fin true 0%N H0); reflexivity|reflexivity].
    + eexists. split; [eapply Step; [exact X|]; apply (xs_baseline_failed _ _ _ _ _ _ sh d o m cp fin true H0); reflexivity|reflexivity].
    + eexists. split; [eapply Step; [exact X|]; apply xs_baseline_err|reflexivity].
    + eexists. split; [eapply Step; [exact X|]; apply xs_baseline_panic|reflexivity].
    + destruct (in_dec Nat.eq_dec i cp) as [I|I].
      * eexists. split; [eapply Step; [exact X|]; apply (xs_worker _ _ _ _ _ _ sh ws i c sh' c' m cp fin true H0 H1); auto|reflexivity].
      * assert (D : c = WCopy \/ c <> WCopy) by (destruct c; auto; right; discriminate). destruct D as [->|D].
        -- assert (X2 := Step _ _ X (xs_start_copy _ _ _ _ _ _ sh ws i m cp fin H0 I)). pose proof (xinv _ _ _ _ _ _ _ _ X2) as [_ [m2 [Em2 _]]].
           cbn [x_console] in Em2. rewrite Em2 in X2.
           eexists. split; [eapply Step; [exact X2|]; apply (xs_worker _ _ _ _ _ _ sh ws i WCopy sh' c' m2 (i :: cp) fin true H0 H1); [left; reflexivity|reflexivity]|reflexivity].
        -- eexists. split; [eapply Step; [exact X|]; apply (xs_worker _ _ _ _ _ _ sh ws i c sh' c' m cp fin true H0 H1); [intros; contradiction|reflexivity]|reflexivity].
    + eexists. split; [eapply Step; [exact X|]; apply (xs_join _ _ _ _ _ _ sh ws m cp fin H0)|reflexivity].
Qed.

Lemma weaken : forall x, XR true o0 t0 ms x -> XR false o0 t0 ms x.
Proof.
  intros x (nw & nw' & X). exists nw, nw'. induction X as [x|x y z X IH S]; [constructor|]. eapply xsteps_more; [exact IH|].
  destruct S; econstructor; eauto; discriminate.
Qed.
End Lift.

Lemma kind_mutants : forall v os, v = SumCaught \/ v = SumMissed \/ v = SumUnviable \/
  (v = SumTimeout /\ forall o, In o os -> is_mutant (oc_scenario o) = false -> has_timeout o = false) ->
  of_kind v os = how_many (mutant_with v) os.
Proof.
  intros v os V. unfold of_kind. induction os as [|o os IH]; cbn [how_many]; [reflexivity|].
  rewrite IH by (destruct V as [V|[V|[V|[V W]]]]; auto; right; right; right; split; [exact V|]; intros o' I; apply W; right; exact I).
  f_equal. unfold mutant_with. destruct (is_mutant (oc_scenario o)) eqn:M; [reflexivity|]. cbn [andb].
  assert (S : match summary o with Some v' => sum_eqb v v' | None => false end = false); [|rewrite S; reflexivity].
  destruct o as [[|mu] rs]; [|discriminate]. unfold summary. cbn [oc_scenario].
  destruct V as [->|[->|[->|[-> W]]]].
  1-3: destruct (has_timeout _); [reflexivity|]; destruct (oc_success _) as [[|]|]; reflexivity.
  rewrite (W _ (or_introl eq_refl) eq_refl). destruct (oc_success _) as [[|]|]; reflexivity.
Qed.
