(** C66: what a terminal shows. *)
From Coq Require Import String List NArith ZArith Bool Arith Lia.
From Verif Require Import Text Utf8M SpanM PathM MutantM ProcessM OutcomeM OptionsM PackageM CargoM LabM LabS LabP LabT ConsoleM MainM PrintM PrintS PrintP ColorS ColorP.
Import ListNotations.
Open Scope list_scope.

(** C66: on a terminal the name of a mutant is shown in the colors of its parts, and the parts together are the
    name.  What follows it looks as usual. *)
Theorem C66_name : forall on lc m n, mutant_name lc m = Some n ->
  exists ps, mutant_pieces lc m = Some ps /\ flat_map snd ps = n
  /\ (clean ps -> exists t, styled_name on lc m = Some t
      /\ forall u, screen usual None (t ++ u) = seen (plain_if on ps) ++ screen usual None u).
Proof.
  intros on lc m n E. rewrite <- pieces_text in E. destruct (mutant_pieces lc m) as [ps|] eqn:P; [|discriminate].
  cbn [option_map] in E. injection E as E. exists ps. split; [reflexivity|]. split; [exact E|]. intro C. exact (good_name on lc m ps P C).
Qed.
Print Assumptions C66_name.

(** C66: the message about a scenario: the verdict in its color, red and bold for what should not be, then the
    name, the times in cyan and the phases dim; the log as it is.  Nothing changes how later text looks. *)
Theorem C66_message : forall check_only secs on po o log v name l, finished_run (phases check_only) (oc_results o) -> summary o = Some v ->
  (forall n, no_escape (secs n)) -> scenario_pieces (oc_scenario o) = Some name -> clean name ->
  reported po (oc_scenario o) v = true -> log_part po (oc_scenario o) v log = Some l -> (forall t, l = Some t -> no_escape t) ->
  exists t, outcome_message secs on po o log = Some (Some t)
    /\ forall u, screen usual None (t ++ u) = seen (plain_if on (message_pieces secs po v name (oc_results o) l)) ++ screen usual None u.
Proof. exact good_message. Qed.
Print Assumptions C66_message.

(** C66: the lines of the display: a scenario with the last line of its log, a tree being copied, the counts. *)
Theorem C66_scenario : forall secs on ph name elapsed tail, (forall n, no_escape (secs n)) -> no_escape name ->
  (forall t, tail = Some t -> no_escape t) ->
  forall u, screen usual None (scenario_draw secs on ph name elapsed tail ++ u)
    = seen (plain_if on (scenario_draw_pieces ph name (secs elapsed) tail)) ++ screen usual None u.
Proof. exact good_draw. Qed.
Print Assumptions C66_scenario.
Theorem C66_copy : forall secs on bytes elapsed, (forall n, no_escape (secs n)) ->
  forall u, screen usual None (copy_text secs on bytes elapsed ++ u)
    = seen (plain_if on (copy_pieces bytes (secs elapsed))) ++ screen usual None u.
Proof. exact good_copy. Qed.
Print Assumptions C66_copy.
Theorem C66_line : forall dur on s, (forall n, no_escape (dur n)) ->
  forall u, screen usual None (lab_line dur on s ++ u) = seen (plain_if on (line_pieces s dur)) ++ screen usual None u.
Proof. exact good_line. Qed.
Print Assumptions C66_line.

(** C66: the name given to a scenario on the display may itself have been colored; then the line is as above with the name's
    pieces in place of the name. *)
Theorem C66_scenario_named : forall secs on ph s elapsed name, (forall n, no_escape (secs n)) ->
  scenario_pieces s = Some name -> clean name ->
  exists t, style_scenario on s = Some t
  /\ forall u, screen usual None (scenario_draw secs on ph t elapsed None ++ u)
    = seen (plain_if on (match ph with Some p => [(cyan_bold, phase_column p); (usual, tx " ")] | None => [] end
                         ++ name ++ [(usual, tx " ... "); (cyan, secs elapsed)])) ++ screen usual None u.
Proof. exact good_named. Qed.
Print Assumptions C66_scenario_named.

(** A missed mutant, on a terminal with colors: the word in red and bold, the operators yellow, and so on. *)
Example C66_case : exists t,
  outcome_message (fun n => show_N n ++ tx "s") true (mkPO false false true false)
    (mkOutcome (Mutant ex_plus) [mkPR Build 3 ExSuccess; mkPR Test 5 ExSuccess]) None = Some (Some t)
  /\ screen usual None t = seen
       [(red_bold, tx "MISSED  "); (usual, tx " src/a.rs:1:3: replace "); (yellow, tx "+"); (usual, tx " with "); (yellow_bright, tx "*");
        (usual, tx " in "); (cyan, tx "3s"); (usual, tx " "); (dimmed, tx "build"); (usual, tx " + "); (cyan, tx "5s"); (usual, tx " ");
        (dimmed, tx "test"); (usual, [NL])].
Proof. eexists. split; [vm_compute; reflexivity|]. vm_compute. reflexivity. Qed.
Example C66_case_display :
  screen usual None (scenario_draw (fun n => show_N n ++ tx "s") true (Some Test) (tx "Unmutated baseline") 9 (Some (tx "running 3 tests")))
  = seen [(cyan_bold, tx "test    "); (usual, tx " Unmutated baseline ... "); (cyan, tx "9s"); (usual, [NL]); (cyan, [9492%N] ++ tx "       ");
          (usual, tx " "); (dimmed, tx "running 3 tests")]
  /\ screen usual None (copy_text (fun n => show_N n ++ tx "s") true 45999999 2)
     = seen [(cyan, tx "copy    "); (usual, tx " "); (cyan, tx "45 MB"); (usual, tx " in "); (cyan, tx "2s")].
Proof. split; vm_compute; reflexivity. Qed.
