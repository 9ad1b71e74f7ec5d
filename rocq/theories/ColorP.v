(** Proofs of what a terminal shows. *)
From Coq Require Import String List NArith ZArith Bool Arith Lia.
From Verif Require Import Text Utf8M Utf8P SpanM PathM MutantM MutantP ProcessM OutcomeM OptionsM PackageM CargoM LabM LabS ConsoleM MainM PrintM PrintS PrintP ColorS.
Import ListNotations.
Open Scope list_scope.

(** A text shows these pieces, and what follows is shown as usual. *)
Definition good (on : bool) (t : text) (ps : list (look * text)) : Prop :=
  forall u, screen usual None (t ++ u) = seen (plain_if on ps) ++ screen usual None u.

Lemma plain_app : forall on p q, plain_if on (p ++ q) = plain_if on p ++ plain_if on q.
Proof. intros [] p q; [reflexivity|]. cbn. apply map_app. Qed.
Lemma seen_app : forall p q, seen (p ++ q) = seen p ++ seen q.
Proof. intros p q. unfold seen. apply flat_map_app. Qed.

Lemma good_nil : forall on, good on [] [].
Proof. intros [] u; reflexivity. Qed.
Lemma good_app : forall on a b p q, good on a p -> good on b q -> good on (a ++ b) (p ++ q).
Proof. intros on a b p q A B u. rewrite <- app_assoc, A, B, plain_app, seen_app, app_assoc. reflexivity. Qed.
Lemma screen_text : forall l t u, no_escape t -> screen l None (t ++ u) = map (pair l) t ++ screen l None u.
Proof.
  intros l t. induction t as [|c t IH]; intros u H; [reflexivity|]. cbn [app screen map].
  destruct (N.eqb_spec c 27) as [->|_]; [exfalso; apply H; left; reflexivity|]. rewrite IH; [reflexivity|].
  intro I. apply H. right. exact I.
Qed.
Lemma good_text : forall on t, no_escape t -> good on t [(usual, t)].
Proof. intros on t H u. rewrite screen_text by exact H. destruct on; cbn; rewrite app_nil_r; reflexivity. Qed.

Definition color_num (c : color) (b : bool) : N :=
  (match c with Red => 1 | Green => 2 | Yellow => 3 | Blue => 4 | Magenta => 5 | Cyan => 6 end + if b then 8 else 0)%N.
Definition look_of (s : style) : look :=
  mkLook (match st_fg s with Some c => Some (color_num c (st_bright s)) | None => None end) (st_bold s) (st_dim s).

Lemma screen_codes : forall s u, screen usual None (codes s ++ u) = screen (look_of s) None u.
Proof. intros [[[]|] [] [] []] u; reflexivity. Qed.
Lemma screen_reset : forall l u, screen l None (reset ++ u) = screen usual None u.
Proof. intros l u. reflexivity. Qed.

Lemma good_paint : forall on w s t, no_escape t -> good on (paint on w s t) [(look_of s, pad w t)].
Proof.
  intros on w s t H u. pose proof (pad_no_escape w t H) as H'. unfold paint. destruct on.
  - cbn [plain_if seen flat_map fst snd]. rewrite app_nil_r. destruct (codes s) as [|c cs] eqn:E.
    + assert (L : look_of s = usual).
      { destruct s as [[[]|] [] [] []]; cbn in E; try discriminate; reflexivity. }
      rewrite L. apply screen_text. exact H'.
    + change ((c :: cs ++ pad w t ++ reset) ++ u) with (((c :: cs) ++ pad w t ++ reset) ++ u). rewrite <- E.
      rewrite <- !app_assoc, screen_codes, screen_text by exact H'. rewrite screen_reset. reflexivity.
  - cbn [plain_if map seen flat_map fst snd]. rewrite app_nil_r. apply screen_text. exact H'.
Qed.
Lemma good_paint0 : forall on s t, no_escape t -> good on (paint on 0 s t) [(look_of s, t)].
Proof. intros on s t H. rewrite <- (pad0 t) at 2. apply good_paint. exact H. Qed.

Ltac lit := let I := fresh in intro I; cbn in I; repeat (destruct I as [I|I]; [discriminate|]); destruct I.

(** ** Names *)
Lemma no_escape_cons : forall c t, no_escape (c :: t) -> no_escape t.
Proof. intros c t H I. apply H. right. exact I. Qed.
Definition conv (ps : list (style * text)) : list (look * text) := map (fun p => (look_of (fst p), snd p)) ps.
Lemma good_parts : forall on ps, clean (conv ps) -> good on (flat_map (fun p => paint on 0 (fst p) (snd p)) ps) (conv ps).
Proof.
  intros on ps. induction ps as [|p ps IH]; intro H; [apply good_nil|]. cbn [flat_map conv map] in *. inversion H; subst.
  change ((look_of (fst p), snd p) :: map (fun p0 => (look_of (fst p0), snd p0)) ps) with ([(look_of (fst p), snd p)] ++ conv ps).
  apply good_app; [apply good_paint0; assumption|apply IH; assumption].
Qed.
Lemma parts_change : forall m, option_map conv (styled_parts m) = change_pieces m.
Proof.
  intro m. unfold styled_parts, change_pieces. destruct (mu_genre m).
  all: try reflexivity.
  - destruct (mu_fn m) as [f|]; [|reflexivity]. destruct (fn_return_type f); reflexivity.
  - destruct (mu_replacement m); destruct (mu_fn m); reflexivity.
  - destruct (mu_replacement m); destruct (mu_fn m); reflexivity.
Qed.
Lemma good_name : forall on lc m ps, mutant_pieces lc m = Some ps -> clean ps ->
  exists t, styled_name on lc m = Some t /\ good on t ps.
Proof.
  intros on lc m ps E H. unfold mutant_pieces in E. unfold styled_name. pose proof (parts_change m) as P.
  destruct (styled_parts m) as [sp|]; cbn [option_map] in P; rewrite <- P in E; [|discriminate]. injection E as <-.
  eexists. split; [reflexivity|]. inversion H as [|? ? H1 H2]; subst. cbn [snd] in H1.
  match goal with |- good _ (?a ++ ?b ++ ?c ++ ?d) ((usual, ?x) :: _) =>
    replace (a ++ b ++ c ++ d) with (x ++ d) by (rewrite <- !app_assoc; reflexivity) end.
  change (conv sp) with (conv sp). match goal with |- good _ _ (?x :: ?y) => change (x :: y) with ([x] ++ y) end.
  apply good_app; [apply good_text; exact H1|apply good_parts; exact H2].
Qed.
Lemma good_scenario : forall on s ps, scenario_pieces s = Some ps -> clean ps ->
  exists t, style_scenario on s = Some t /\ good on t ps.
Proof.
  intros on [|m] ps E H; cbn [scenario_pieces style_scenario] in *.
  - injection E as <-. eexists. split; [reflexivity|]. apply good_text. lit.
  - apply good_name; assumption.
Qed.
Lemma pieces_text : forall m lc, option_map (flat_map snd) (mutant_pieces lc m) = mutant_name lc m.
Proof.
  intros m lc. rewrite <- styled_off. unfold mutant_pieces, styled_name. rewrite <- parts_change.
  destruct (styled_parts m) as [ps|]; [|reflexivity]. cbn [option_map flat_map snd]. f_equal. rewrite <- !app_assoc.
  f_equal. f_equal. change (tx ": ") with [COLON; SP]. f_equal.
  unfold conv. induction ps as [|p ps IH]; [reflexivity|]. cbn [map flat_map snd]. rewrite paint_off, pad0. congruence.
Qed.

(** ** Messages *)
Lemma good_times : forall secs on rs, (forall n, no_escape (secs n)) -> rs <> [] ->
  good on (times_text secs on rs) ((usual, tx " in ") :: time_pieces secs rs).
Proof.
  intros secs on rs H N. unfold times_text. match goal with |- good _ _ (?x :: ?y) => change (x :: y) with ([x] ++ y) end.
  apply good_app; [apply good_text; lit|].
  assert (G : forall r, good on (paint on 0 (fg Cyan) (secs (pr_duration r)) ++ [SP] ++ paint on 0 dim (phase_text (pr_phase r)))
    [(cyan, secs (pr_duration r)); (usual, tx " "); (dimmed, phase_word (pr_phase r))]).
  { intro r. apply (good_app on _ _ [_] [_; _]); [apply (good_paint0 on (fg Cyan)); apply H|].
    apply (good_app on _ _ [_] [_]); [apply good_text; lit|]. apply (good_paint0 on dim). apply phase_no_escape. }
  induction rs as [|r rs IH]; [contradiction|]. destruct rs as [|r' rs].
  - cbn [map join time_pieces]. apply G.
  - cbn [map]. rewrite join_cons by discriminate.
    change (time_pieces secs (r :: r' :: rs)) with
      ([(cyan, secs (pr_duration r)); (usual, tx " "); (dimmed, phase_word (pr_phase r))] ++ [(usual, tx " + ")] ++ time_pieces secs (r' :: rs)).
    apply good_app; [apply G|]. apply good_app; [apply good_text; lit|]. apply IH. discriminate.
Qed.

Lemma word_piece : forall v, (look_of (fst (outcome_word v)), pad 8 (snd (outcome_word v))) = (verdict_look v, column v).
Proof. intros []; reflexivity. Qed.

Lemma good_message : forall check_only secs on po o log v name l, finished_run (phases check_only) (oc_results o) -> summary o = Some v ->
  (forall n, no_escape (secs n)) -> scenario_pieces (oc_scenario o) = Some name -> clean name ->
  reported po (oc_scenario o) v = true -> log_part po (oc_scenario o) v log = Some l ->
  (forall t, l = Some t -> no_escape t) ->
  exists t, outcome_message secs on po o log = Some (Some t)
    /\ good on t (message_pieces secs po v name (oc_results o) l).
Proof.
  intros co secs on po o log v name l F V S N C R L E.
  destruct (silent_iff co o v po F V) as (ca & su & E1 & E2 & E3 & E4). unfold outcome_message. rewrite E1, E2, E3, R. cbn [negb].
  rewrite V. destruct (good_scenario on _ _ N C) as (n & En & Gn). rewrite En. rewrite E4.
  assert (NE : oc_results o <> []).
  { destruct (finished_parts co _ F) as (pre & r & Er & _). rewrite Er. destruct pre; discriminate. }
  pose (times := if po_times po then times_text secs on (oc_results o) else []).
  pose (tp := if po_times po then (usual, tx " in ") :: time_pieces secs (oc_results o) else []).
  assert (GT : good on times tp).
  { unfold times, tp. destruct (po_times po); [apply good_times; assumption|apply good_nil]. }
  assert (GH : good on (paint on 8 (fst (outcome_word v)) (snd (outcome_word v)) ++ [SP] ++ n ++ times)
                 ([(verdict_look v, column v); (usual, tx " ")] ++ name ++ tp)).
  { change [(verdict_look v, column v); (usual, tx " ")] with ([(verdict_look v, column v)] ++ [(usual, tx " ")]). rewrite <- app_assoc.
    apply good_app; [rewrite <- word_piece; apply good_paint; apply word_no_escape|].
    apply good_app; [apply good_text; lit|]. apply good_app; assumption. }
  unfold log_part in L. unfold message_pieces. fold tp. destruct (with_log po (oc_scenario o) v).
  - destruct log as [b|]; [|discriminate]. destruct (from_utf8 b) as [t|]; [|discriminate]. injection L as <-.
    eexists. split; [reflexivity|]. fold times.
    match goal with |- good _ _ (?a ++ ?b ++ ?c ++ ?d) => replace (a ++ b ++ c ++ d) with ((a ++ b ++ c) ++ d) by (rewrite <- !app_assoc; reflexivity) end.
    apply good_app; [exact GH|]. apply (good_app on [NL] (t ++ [NL]) [_] [_; _]); [apply good_text; lit|].
    apply (good_app on t [NL] [_] [_]); apply good_text; [apply E; reflexivity|lit].
  - injection L as <-. eexists. split; [reflexivity|]. fold times.
    match goal with |- good _ _ (?a ++ ?b ++ ?c ++ ?d) => replace (a ++ b ++ c ++ d) with ((a ++ b ++ c) ++ d) by (rewrite <- !app_assoc; reflexivity) end.
    apply good_app; [exact GH|]. apply good_text. lit.
Qed.

(** ** The display *)
Lemma good_draw : forall secs on ph name elapsed tail, (forall n, no_escape (secs n)) -> no_escape name ->
  (forall t, tail = Some t -> no_escape t) ->
  good on (scenario_draw secs on ph name elapsed tail) (scenario_draw_pieces ph name (secs elapsed) tail).
Proof.
  intros secs on ph name elapsed tail S N T. unfold scenario_draw, scenario_draw_pieces.
  assert (M : good on (join [SP] [name; tx "..."; paint on 0 (fg Cyan) (secs elapsed)])
                [(usual, name); (usual, tx " ... "); (cyan, secs elapsed)]).
  { change (join [SP] [name; tx "..."; paint on 0 (fg Cyan) (secs elapsed)])
      with (name ++ tx " ... " ++ paint on 0 (fg Cyan) (secs elapsed)).
    apply (good_app on _ _ [_] [_; _]); [apply good_text; exact N|]. apply (good_app on _ _ [_] [_]); [apply good_text; lit|].
    apply (good_paint0 on (fg Cyan)). apply S. }
  assert (Tl : good on (match tail with
     | Some t => [NL] ++ paint on 0 (fg Cyan) ([9492%N] ++ repeat SP 7) ++ [SP] ++ paint on 0 dim t
     | None => [] end) (match tail with
     | Some t => [(usual, [NL]); (cyan, [9492%N] ++ tx "       "); (usual, tx " "); (dimmed, t)]
     | None => [] end)).
  { destruct tail as [t|]; [|apply good_nil]. apply (good_app on _ _ [_] [_; _; _]); [apply good_text; lit|].
    apply (good_app on _ _ [_] [_; _]); [apply (good_paint0 on (fg Cyan)); lit|]. apply (good_app on _ _ [_] [_]); [apply good_text; lit|].
    apply (good_paint0 on dim). apply T. reflexivity. }
  destruct ph as [p|].
  - match goal with |- context [join [SP] ([?a] ++ ?l)] => change ([a] ++ l) with (a :: l) end.
    rewrite join_cons by discriminate. rewrite <- !app_assoc.
    change ([(cyan_bold, phase_column p); (usual, tx " ")]) with ([(cyan_bold, phase_column p)] ++ [(usual, tx " ")]). rewrite <- !app_assoc.
    apply good_app.
    + replace (phase_column p) with (pad 8 (phase_text p)) by (destruct p; reflexivity). apply (good_paint0 on (mkStyle (Some Cyan) false true false)).
      apply pad_no_escape. apply phase_no_escape.
    + apply good_app; [apply good_text; lit|]. apply good_app; assumption.
  - rewrite (app_nil_l [name; _; _]). rewrite app_nil_l. apply good_app; assumption.
Qed.

Lemma no_escape_N : forall n, no_escape (show_N n).
Proof. intros n I. apply (is_digit_not _ 27%N (show_N_digits n)) in I; [assumption|reflexivity]. Qed.

Lemma good_copy : forall secs on bytes elapsed, (forall n, no_escape (secs n)) ->
  good on (copy_text secs on bytes elapsed) (copy_pieces bytes (secs elapsed)).
Proof.
  intros secs on bytes elapsed S. unfold copy_text, copy_pieces.
  apply (good_app on _ _ [_] [_; _; _; _]); [apply (good_paint on 8 (fg Cyan)); lit|].
  apply (good_app on _ _ [_] [_; _; _]); [apply good_text; lit|].
  apply (good_app on _ _ [_] [_; _]).
  - apply (good_paint0 on (fg Cyan)). apply no_escape_app. split; [apply no_escape_N|lit].
  - apply (good_app on _ _ [_] [_]); [apply good_text; lit|]. apply (good_paint0 on (fg Cyan)). apply S.
Qed.

Lemma good_count : forall on n after l word, good on after [(l, word)] -> good on (opt_part on n after) (count_pieces n l word).
Proof.
  intros on n after l word G. unfold opt_part, count_pieces. destruct n as [k|]; [|apply good_nil].
  apply (good_app on _ _ [_] [_; _; _]); [apply good_text; lit|].
  apply (good_app on _ _ [_] [_; _]); [apply (good_paint0 on (fg Cyan)); apply no_escape_digits|].
  apply (good_app on _ _ [_] [_]); [apply good_text; lit|exact G].
Qed.

Lemma good_line : forall dur on s, (forall n, no_escape (dur n)) -> good on (lab_line dur on s) (line_pieces s dur).
Proof.
  intros dur on s D. unfold lab_line, line_pieces.
  apply (good_app on _ _ [_] ([_; _; _] ++ _)); [apply (good_paint0 on (fg Cyan)); apply no_escape_digits|].
  apply (good_app on _ _ [_] ([_; _] ++ _)); [apply good_text; lit|].
  apply (good_app on _ _ [_] ([_] ++ _)); [apply (good_paint0 on (fg Cyan)); apply no_escape_digits|].
  apply good_app; [apply good_text; lit|].
  apply good_app; [apply good_count; apply (good_paint0 on (fg Red)); lit|].
  apply good_app; [apply good_count; apply (good_paint0 on (fg Red)); lit|].
  apply good_app; [apply good_count; apply good_text; lit|].
  apply good_app; [apply good_count; apply good_text; lit|].
  apply (good_app on _ _ [_] ([_; _] ++ _)); [apply good_text; lit|].
  apply (good_app on _ _ [_] ([_] ++ _)); [apply (good_paint0 on (fg Cyan)); apply D|].
  apply good_app; [apply good_text; lit|]. destruct (sn_remaining s); [|apply good_nil].
  apply (good_app on _ _ [_] [_; _]); [apply good_text; lit|].
  apply (good_app on _ _ [_] [_]); [apply (good_paint0 on (fg Cyan)); apply D|apply good_text; lit].
Qed.

Lemma good_named : forall secs on ph s elapsed name, (forall n, no_escape (secs n)) ->
  scenario_pieces s = Some name -> clean name ->
  exists t, style_scenario on s = Some t
  /\ good on (scenario_draw secs on ph t elapsed None)
       (match ph with Some p => [(cyan_bold, phase_column p); (usual, tx " ")] | None => [] end
        ++ name ++ [(usual, tx " ... "); (cyan, secs elapsed)]).
Proof.
  intros secs on ph s elapsed name S E C. destruct (good_scenario on s name E C) as (t & Et & Gt). exists t. split; [exact Et|].
  unfold scenario_draw. rewrite app_nil_r.
  assert (M : good on (join [SP] [t; tx "..."; paint on 0 (fg Cyan) (secs elapsed)])
                (name ++ [(usual, tx " ... "); (cyan, secs elapsed)])).
  { change (join [SP] [t; tx "..."; paint on 0 (fg Cyan) (secs elapsed)])
      with (t ++ tx " ... " ++ paint on 0 (fg Cyan) (secs elapsed)).
    apply good_app; [exact Gt|]. apply (good_app on _ _ [_] [_]); [apply good_text; lit|].
    apply (good_paint0 on (fg Cyan)). apply S. }
  destruct ph as [p|].
  - match goal with |- context [join [SP] ([?a] ++ ?l)] => change ([a] ++ l) with (a :: l) end.
    rewrite join_cons by discriminate.
    change ([(cyan_bold, phase_column p); (usual, tx " ")]) with ([(cyan_bold, phase_column p)] ++ [(usual, tx " ")]). rewrite <- !app_assoc.
    apply good_app.
    + replace (phase_column p) with (pad 8 (phase_text p)) by (destruct p; reflexivity). apply (good_paint0 on (mkStyle (Some Cyan) false true false)).
      apply pad_no_escape. apply phase_no_escape.
    + apply good_app; [apply good_text; lit|exact M].
  - rewrite app_nil_l. exact M.
Qed.
