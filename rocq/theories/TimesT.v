(** C77: the times in messages and in the display are the times that were measured. *)
From Coq Require Import String NArith ZArith QArith Qabs List Bool Lia Lqa.
From Verif Require Import Text Utf8M ProcessM MutantM OutcomeM OutcomeS LabM LabS TimeoutM F64M F32M F32S F32P ConsoleM ConsoleS PrintM PrintS PrintP PrintT TimesM TimesS TimesP.
Import ListNotations.
Open Scope list_scope.
Open Scope N_scope.

Lemma times_join : forall secs rs, times secs rs = join (tx " + ") (map (fun r => secs (pr_duration r) ++ tx " " ++ phase_word (pr_phase r)) rs).
Proof.
  intros secs rs. induction rs as [|r rs IH]; [reflexivity|]. destruct rs as [|r' rs]; [reflexivity|].
  cbn [map]. rewrite join_cons by discriminate. change (times secs (r :: r' :: rs)) with
    (secs (pr_duration r) ++ tx " " ++ phase_word (pr_phase r) ++ tx " + " ++ times secs (r' :: rs)). rewrite IH. cbn [map].
  rewrite <- !app_assoc. reflexivity.
Qed.

(** C77: a time in words, read word by word, is the whole seconds of the time. *)
Theorem C77_words : forall d, read_duration (duration_text d) = Some (d / 1000000000).
Proof. exact duration_read. Qed.
Print Assumptions C77_words.

(** C77: the words are those of the calendar, from the largest unit to the smallest, without units of which there are none. *)
Theorem C77_calendar : forall d, 1000000000 <= d -> exists y mo da h m s,
  calendar (d / 1000000000) y mo da h m s /\ split_on SP (duration_text d) = words y mo da h m s.
Proof.
  intros d H. apply format_words. intro E. apply N.div_small_iff in E; [unfold NS in E; lia|discriminate].
Qed.
Print Assumptions C77_calendar.

(** C77: two times are shown with the same words only if their whole seconds are the same. *)
Theorem C77_distinct : forall d d', duration_text d = duration_text d' <-> d / 1000000000 = d' / 1000000000.
Proof.
  intros d d'. split; intro E.
  - pose proof (C77_words d) as A. rewrite E, C77_words in A. congruence.
  - unfold duration_text. change NS with 1000000000. rewrite E. reflexivity.
Qed.
Print Assumptions C77_distinct.

(** C77: 32-bit floats: the nearest one, of two the even one. *)
Theorem C77_rounding : forall q, nearest32 q (rnd32 q) /\ ties_to_even32 q (rnd32 q).
Proof. intro q. split; [apply rnd32_nearest|apply rnd32_ties]. Qed.
Print Assumptions C77_rounding.

(** C77: a time in seconds can be read, and it is wrong by half a tenth and what is lost in 32-bit floats. *)
Theorem C77_secs : forall d, exists k, read_tenths (secs_text d) = Some k
  /\ (Qabs ((Z.of_N k # 10) - seconds d) <= (1 # 20) + seconds d * (1 # 4194304))%Q.
Proof. intro d. exists (tenths d). split; [apply secs_read|apply tenths_error]. Qed.
Print Assumptions C77_secs.

(** C77: so for a day it is right to a tenth of a second. *)
Theorem C77_day : forall d, d <= DAY * 1000000000 -> exists k, read_tenths (secs_text d) = Some k
  /\ (Qabs ((Z.of_N k # 10) - seconds d) < (1 # 10))%Q.
Proof.
  intros d H. destruct (C77_secs d) as (k & E & B). exists k. split; [exact E|].
  assert (S : (seconds d <= 86400 # 1)%Q). { unfold seconds, Qle. cbn [Qnum Qden]. change (DAY * 1000000000) with 86400000000000 in H. lia. }
  lra.
Qed.
Print Assumptions C77_day.

(** C77: whole seconds are shown as they are, for 194 days. *)
Theorem C77_whole : forall s, s < 2 ^ 24 -> read_tenths (secs_text (s * 1000000000)) = Some (10 * s).
Proof. intros s H. rewrite secs_read. f_equal. apply tenths_whole. exact H. Qed.
Print Assumptions C77_whole.

(** C77: and a longer time is not shown as a shorter one. *)
Theorem C77_order : forall d d' k k', d <= d' -> d' < 2 ^ 24 * 1000000000 ->
  read_tenths (secs_text d) = Some k -> read_tenths (secs_text d') = Some k' -> k <= k'.
Proof. intros d d' k k' L H. rewrite !secs_read. intros E E'. injection E as <-. injection E' as <-. apply tenths_mono; assumption. Qed.
Print Assumptions C77_order.

(** C77: the last line of the display: the time since the start and the estimate can be read in it.
    Missing: as in C40_drawn_partial. *)
Theorem C77_line_partial : forall P pc pu al o0 t0 ms x rnd now, xreachable P pc pu al true o0 t0 ms x -> rounding rnd ->
  ((Z.of_N now # 1000000000) * q_of_nat (length ms) <= 10000000000000000)%Q ->
  exists m s el rem, x_console x = Some m /\ render rnd m now = Some (Some s)
    /\ cut (lab_line duration_text false s)
       = items (of_mutants (x_finished x)) (length ms) (of_kind SumMissed (x_finished x)) (of_kind SumTimeout (x_finished x))
           (of_kind SumCaught (x_finished x)) (of_kind SumUnviable (x_finished x)) el rem
    /\ strip false (lab_line duration_text true s) = lab_line duration_text false s
    /\ read_duration el = Some (sn_elapsed s / 1000000000)
    /\ match rem, sn_remaining s with
       | Some t, Some r => read_duration t = Some (r / 1000000000)
       | None, None => True
       | _, _ => False
       end.
Proof.
  intros P pc pu al o0 t0 ms x rnd now R Rn B.
  destruct (C40_line_partial P pc pu al o0 t0 ms x rnd now duration_text R Rn B duration_no_comma) as (m & s & E & D & C).
  exists m, s, (duration_text (sn_elapsed s)), (option_map duration_text (sn_remaining s)). split; [exact E|]. split; [exact D|]. split; [exact C|].
  split; [apply C40_colored; exact duration_no_escape|]. split; [apply C77_words|].
  destruct (sn_remaining s) as [r|]; [apply C77_words|exact Logic.I].
Qed.
Print Assumptions C77_line_partial.

(** C77: in the message about an outcome the times are those of its phases, in order, each with its phase. *)
Theorem C77_message : forall check_only po o log v n, finished_run (phases check_only) (oc_results o) -> summary o = Some v ->
  scenario_name (oc_scenario o) = Some n -> reported po (oc_scenario o) v = true -> with_log po (oc_scenario o) v = false -> po_times po = true ->
  exists ts, outcome_message secs_text false po o log = Some (Some (column v ++ tx " " ++ n ++ tx " in " ++ join (tx " + ") ts ++ [NL]))
    /\ Forall2 (fun t r => exists a k, t = a ++ tx " " ++ phase_word (pr_phase r) /\ read_tenths a = Some k
                  /\ (Qabs ((Z.of_N k # 10) - seconds (pr_duration r)) <= (1 # 20) + seconds (pr_duration r) * (1 # 4194304))%Q)
               ts (oc_results o).
Proof.
  intros co po o log v n F V N Rp L T.
  exists (map (fun r => secs_text (pr_duration r) ++ tx " " ++ phase_word (pr_phase r)) (oc_results o)). split.
  - rewrite (C56_message co secs_text po o log v F V), Rp, N. unfold log_part. rewrite L. do 2 f_equal. unfold message. rewrite T.
    rewrite <- !app_assoc. do 3 f_equal. f_equal. rewrite times_join. reflexivity.
  - clear. induction (oc_results o) as [|r rs IH]; [constructor|]. constructor; [|exact IH]. destruct (C77_secs (pr_duration r)) as (k & E & B).
    exists (secs_text (pr_duration r)), k. split; [reflexivity|]. split; [exact E|exact B].
Qed.
Print Assumptions C77_message.

(** C77: with colors the message reads the same. *)
Theorem C77_colors : forall po o log, (forall n, scenario_name (oc_scenario o) = Some n -> no_escape n) ->
  (forall b t, log = Some b -> from_utf8 b = Some t -> no_escape t) ->
  option_map (option_map (strip false)) (outcome_message secs_text true po o log) = outcome_message secs_text false po o log.
Proof. intros po o log. apply C56_colors. exact secs_no_escape. Qed.
Print Assumptions C77_colors.

Example C77_case_words :
  duration_text 999999999 = tx "0s" /\ duration_text 61500000000 = tx "1m 1s" /\ duration_text (93784 * NS) = tx "1day 2h 3m 4s"
  /\ duration_text (34276088 * NS) = tx "1year 1month 1day 34m 32s" /\ duration_text (66000000 * NS) = tx "2years 1month 2days 22h 46m 24s"
  /\ read_duration (tx "2years 3days 1s") = Some (2 * 31557600 + 3 * 86400 + 1)
  /\ read_duration (tx "1h  3m") = None.
Proof. vm_compute. repeat split. Qed.
Example C77_case_secs :
  secs_text 0 = tx "0.0s" /\ secs_text 1250000000 = tx "1.2s" /\ secs_text 1350000000 = tx "1.4s" /\ secs_text 999999999 = tx "1.0s"
  /\ secs_text (86399940000000) = tx "86399.9s" /\ secs_text (16777217000000000) = tx "16777216.0s"
  /\ read_tenths (tx "12.3s") = Some 123 /\ read_tenths (tx "12s") = None.
Proof. vm_compute. repeat split. Qed.
Example C77_case_message :
  outcome_message secs_text false (mkPO false false true false)
    (mkOutcome (Mutant LabT.ex_plus) [mkPR Build 3260000000 ExSuccess; mkPR Test 75000000000 ExSuccess]) None
  = Some (option_map (fun n => tx "MISSED   " ++ n ++ tx " in 3.3s build + 75.0s test" ++ [NL]) (mutant_name true LabT.ex_plus)).
Proof. vm_compute. reflexivity. Qed.
Example C77_case_line : lab_line duration_text false (mkShown 4 12 (Some 1%nat) None (Some 3%nat) None 90700000000 (Some 180000000000))
  = tx "4/12 mutants tested, 1 MISSED, 3 caught, 1m 30s elapsed, about 3m remaining".
Proof. vm_compute. reflexivity. Qed.
