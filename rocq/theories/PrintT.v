(** C56 and C57: what is printed, and colors; C40: the text of the display. *)
From Coq Require Import String List NArith ZArith QArith Bool Arith Lia Permutation.
From Verif Require Import Text Utf8M SpanM PathM MutantM ProcessM OutcomeM OutcomeS OptionsM PackageM CargoM OutputM LabM LabS LabP LabT TimeoutM ConsoleM ConsoleS ConsoleP ConsoleT MainM PrintM PrintS PrintP.
Import ListNotations.
Open Scope list_scope.
Open Scope nat_scope.

(** ** C56 *)
(** C56: without colors the name of a mutant is printed as it is listed; with colors the same name is
    read on a terminal. *)
Theorem C56_name : forall lc m, styled_name false lc m = mutant_name lc m
  /\ forall n, mutant_name lc m = Some n -> no_escape n -> option_map (strip false) (styled_name true lc m) = Some n.
Proof.
  intros lc m. split; [apply styled_off|]. intros n E H. destruct (styled_strip true lc m n [] E H) as (t & -> & S).
  cbn [option_map strip] in *. rewrite !app_nil_r in S. rewrite S. reflexivity.
Qed.
Print Assumptions C56_name.

(** C56: a listing with colors reads as the listing without. *)
Theorem C56_list : forall colors on diff_of c ms t, list_text diff_of c ms = Some t -> no_escape t ->
  option_map (strip false) (list_lines_text colors on diff_of c ms) = Some t.
Proof. intros colors on diff_of c ms t E H. destruct (list_strip colors on _ _ _ _ E H) as (t' & -> & S). cbn. congruence. Qed.
Print Assumptions C56_list.

(** C56: the message about a scenario that ran to its end, word for word: the verdict, the name, the
    times if wanted, and the log for an unsuccessful baseline or if all logs are wanted.  There is no
    message exactly for mutants caught or unviable when these were not asked for.  The only panics: a log that
    is to be printed cannot be read or is not UTF-8, or a mutant has no name (a function value without function). *)
Theorem C56_message : forall check_only secs po o log v, finished_run (phases check_only) (oc_results o) -> summary o = Some v ->
  outcome_message secs false po o log =
  if reported po (oc_scenario o) v
  then match scenario_name (oc_scenario o), log_part po (oc_scenario o) v log with
       | Some n, Some l => Some (Some (message secs po v n (oc_results o) l))
       | _, _ => None
       end
  else Some None.
Proof. exact message_plain. Qed.
Print Assumptions C56_message.

(** C56: with colors the message reads the same. *)
Theorem C56_colors : forall secs po o log,
  (forall n, no_escape (secs n)) ->
  (forall n, scenario_name (oc_scenario o) = Some n -> no_escape n) ->
  (forall b t, log = Some b -> from_utf8 b = Some t -> no_escape t) ->
  option_map (option_map (strip false)) (outcome_message secs true po o log) = outcome_message secs false po o log.
Proof. exact message_strip. Qed.
Print Assumptions C56_colors.

(** C56: after a run without errors what was printed is, for each recorded outcome once, the message
    above, in the order in which the scenarios ended.
    Missing: logs that are to be printed and are not UTF-8, as in C40. *)
Theorem C56_run_partial : forall P pc pu al o0 t0 ms x l secs times log,
  xreachable P pc pu al true o0 t0 ms x -> ls_main (x_lab x) = MEnd (ROk l) ->
  let po := mkPO pc pu times al in
  (forall o, In o (lo_outcomes l) -> scenario_name (oc_scenario o) <> None) ->
  (forall o v, In o (lo_outcomes l) -> summary o = Some v -> reported po (oc_scenario o) v = true -> with_log po (oc_scenario o) v = true ->
     from_utf8 (fst (log o)) = Some (snd (log o))) ->
  exists t, printed secs false po (map (fun o => (o, Some (fst (log o)))) (x_finished x)) = Some t
  /\ t = flat_map (said secs po (fun o => snd (log o))) (x_finished x)
  /\ Permutation (lo_outcomes l) (x_finished x).
Proof.
  intros P pc pu al o0 t0 ms x l secs times log R E po N L. destruct (C40_final_partial _ _ _ _ _ _ _ _ _ R E) as [Pm _].
  pose proof (xinv _ _ _ _ _ _ _ _ R) as [Rb _].
  assert (Sl : lo_outcomes l = lo_outcomes (sh_lab (ls_sh (x_lab x)))).
  { destruct (x_lab x) as [sh mn ws]. cbn [ls_main ls_sh] in *. subst mn. destruct (totals_end _ _ _ _ _ _ _ Rb) as [-> _]. reflexivity. }
  assert (I : forall o, In o (x_finished x) -> In o (lo_outcomes l)).
  { intros o Io. eapply Permutation_in; [apply Permutation_sym; exact Pm|exact Io]. }
  eexists. split; [|split; [reflexivity|exact Pm]].
  apply (printed_run (pa_check_only P)).
  - intros o Io. apply (c10_recorded _ _ _ _ _ Rb). rewrite <- Sl. auto.
  - intros o Io. auto.
  - intros o v Io. apply L. auto.
Qed.
Print Assumptions C56_run_partial.

(** C56: every mutant that was missed or timed out is printed, whatever the options. *)
Theorem C56_always : forall po m v, v <> SumCaught -> v <> SumUnviable -> reported po (Mutant m) v = true.
Proof. intros po m [] A B; try reflexivity; contradiction. Qed.
Print Assumptions C56_always.

(** C56: the panics of the display in C40 are those of the message. *)
Theorem C56_panics : forall secs on po o log, scenario_name (oc_scenario o) <> None -> summary o <> None ->
  (outcome_message secs on po o log = None <->
   print_outcome (po_caught po) (po_unviable po) (po_all_logs po) o
     (match log with Some b => match from_utf8 b with Some _ => true | None => false end | None => false end) = None).
Proof.
  intros secs on po o log N V. unfold outcome_message, print_outcome.
  destruct (mutant_caught o) as [ca|]; [|tauto]. destruct (oc_success o) as [su|]; [|tauto].
  destruct (_ || _); [split; discriminate|]. destruct (summary o) as [v|]; [|congruence].
  assert (S : exists t, style_scenario on (oc_scenario o) = Some t).
  { destruct (oc_scenario o) as [|m]; cbn in *; [eexists; reflexivity|]. rewrite <- styled_off in N. unfold styled_name in *.
    destruct (styled_parts m); [eexists; reflexivity|congruence]. }
  destruct S as [t ->]. destruct (_ || _); [|split; discriminate].
  destruct log as [b|]; [|tauto]. destruct (from_utf8 b); [split; discriminate|tauto].
Qed.
Print Assumptions C56_panics.

(** A missed mutant, with times and without colors; a caught one is not printed. *)
Example C56_case :
  outcome_message (fun n => show_N n ++ tx "s") false (mkPO false false true false)
    (mkOutcome (Mutant ex_plus) [mkPR Build 3 ExSuccess; mkPR Test 5 ExSuccess]) None
  = Some (option_map (fun n => tx "MISSED   " ++ n ++ tx " in 3s build + 5s test" ++ [NL]) (mutant_name true ex_plus))
  /\ mutant_name true ex_plus <> None
  /\ outcome_message (fun n => show_N n ++ tx "s") false (mkPO false false true false)
    (mkOutcome (Mutant ex_plus) [mkPR Build 3 ExSuccess; mkPR Test 5 (ExFailure 101)]) None = Some None.
Proof. vm_compute. split; [reflexivity|]. split; [discriminate|reflexivity]. Qed.
Example C56_colors_case : strip false ([27%N] ++ tx "[31m" ++ tx "MISSED" ++ [27%N] ++ tx "[0m") = tx "MISSED".
Proof. reflexivity. Qed.

(** ** C40 *)
(** C40: the last line drawn.  Cut at its commas it holds the number of mutants done and the total,
    then, of the outcomes so far, how many were missed, timed out, caught and unviable, if there are any,
    the time since the start and the estimate.
    Missing: as in C40_drawn_partial. *)
Theorem C40_line_partial : forall P pc pu al o0 t0 ms x rnd now dur, xreachable P pc pu al true o0 t0 ms x -> rounding rnd ->
  ((Z.of_N now # 1000000000) * q_of_nat (length ms) <= 10000000000000000)%Q -> (forall n, ~ In COMMA (dur n)) ->
  exists m s, x_console x = Some m /\ render rnd m now = Some (Some s)
    /\ cut (lab_line dur false s)
       = items (of_mutants (x_finished x)) (length ms) (of_kind SumMissed (x_finished x)) (of_kind SumTimeout (x_finished x))
           (of_kind SumCaught (x_finished x)) (of_kind SumUnviable (x_finished x)) (dur (sn_elapsed s)) (option_map dur (sn_remaining s)).
Proof.
  intros P pc pu al o0 t0 ms x rnd now dur R Rn B H. destruct (C40_drawn_partial _ _ _ _ _ _ _ _ rnd now R Rn B) as (m & s & E & D & _).
  exists m, s. split; [exact E|]. split; [exact D|].
  destruct (C40_counters_partial _ _ _ _ _ _ _ _ R) as (m' & E' & C & T & _). assert (m' = m) by congruence. subst m'.
  destruct C as (<- & <- & <- & <- & <- & _). rewrite <- T.
  assert (G : exists el rem, s = mkShown (cm_done m) (cm_total m) (positive_only (cm_missed m)) (positive_only (cm_timeouts m))
     (positive_only (cm_caught m)) (positive_only (cm_unviable m)) el rem).
  { revert D. unfold render. destruct (cm_lab_start m); [|discriminate]. destruct (Nat.ltb 2 (cm_done m)).
    - destruct (cm_mutants_start m); [|discriminate]. destruct (secs_of _); [|discriminate]. intro D. injection D as <-. do 2 eexists. reflexivity.
    - intro D. injection D as <-. do 2 eexists. reflexivity. }
  destruct G as (el & rem & ->). cbn [sn_elapsed sn_remaining]. rewrite line_items. apply cut_join; [|discriminate].
  apply items_no_comma; [apply H|]. intros r Er. destruct rem; [|discriminate]. injection Er as <-. apply H.
Qed.
Print Assumptions C40_line_partial.

(** C40: with colors the line reads the same, and the parts of the display are on lines of their own. *)
Theorem C40_colored : forall dur s, (forall n, no_escape (dur n)) -> strip false (lab_line dur true s) = lab_line dur false s.
Proof. exact line_strip. Qed.
Print Assumptions C40_colored.
Theorem C40_text : forall dur on copies scens s, (forall p, In p (copies ++ scens) -> p <> []) ->
  lab_text dur on None copies scens (Some s) = join [NL] (copies ++ scens ++ [lab_line dur on s]).
Proof.
  intros dur on copies scens s H. unfold lab_text. rewrite stack_join; [reflexivity|]. intros p I. rewrite app_assoc in I.
  apply in_app_or in I. destruct I as [I|[<-|[]]]; [apply H; exact I|]. unfold lab_line.
  intro E. apply (f_equal (@length chr)) in E. rewrite !app_length in E. cbn [length tx] in E.
  assert (K : 0 < length (tx "/")) by (cbn; lia). lia.
Qed.
Print Assumptions C40_text.

Example C40_line_case : lab_line (fun n => show_N n ++ tx "s") false (mkShown 4 12 (Some 1) None (Some 3) None 90 (Some 180%N))
  = tx "4/12 mutants tested, 1 MISSED, 3 caught, 90s elapsed, about 180s remaining".
Proof. vm_compute. reflexivity. Qed.
Example C40_line_colors : lab_line (fun n => show_N n ++ tx "s") true (mkShown 4 12 (Some 1) None None None 90 None)
  <> lab_line (fun n => show_N n ++ tx "s") false (mkShown 4 12 (Some 1) None None None 90 None).
Proof. vm_compute. discriminate. Qed.

(** ** C57 *)
(** C57: for stdout, listings, messages and the debug trace colors are used exactly as documented; the trace
    looks at stderr. *)
Theorem C57_colors : forall e c t,
  (active_stdout e c t = true <-> wants_colors e c (tm_stdout t))
  /\ (style_colors e c t = true <-> wants_colors e c (tm_stdout t))
  /\ (trace_colors e c t = true <-> wants_colors e c (tm_stderr t)).
Proof.
  intros e c t.
  assert (L : tm_stdout (lib_colors e c t) = match forced_value e c with Some x => x | None => tm_stdout t end).
  { unfold lib_colors. destruct (forced_value e c); reflexivity. }
  assert (A : active_stdout e c t = match forced_value e c with Some x => x | None => tm_stdout t end).
  { unfold active_stdout. rewrite L. destruct (forced_value e c); reflexivity. }
  unfold style_colors, trace_colors. rewrite A, L. split; [apply forced_iff|]. split; apply forced_iff.
Qed.
Print Assumptions C57_colors.

(** C57, not so: the progress display is drawn on stderr, but it has no colors if only stdout is redirected,
    although "you should still see colors on stderr if stdout is redirected" (book/src/output.md:15). *)
Theorem C57_stderr_refuted : exists e c t, wants_colors e c (tm_stderr t) /\ style_colors e c t = false.
Proof.
  exists (fun _ => None), CAuto, (mkTerm false true). split; [|reflexivity]. split; [|right; right; split; reflexivity].
  intros (x & E & _). discriminate.
Qed.
Print Assumptions C57_stderr_refuted.

Definition ex_env (x y : text) : env := fun v => if text_eqb v (tx "NO_COLOR") then Some x else if text_eqb v (tx "CLICOLOR_FORCE") then Some y else None.
Example C57_case : active_stdout (ex_env (tx "0") (tx "1")) CNever (mkTerm false false) = true
  /\ active_stdout (ex_env (tx "1") (tx "1")) CAlways (mkTerm true true) = false.
Proof. split; reflexivity. Qed.
