(** Proofs for C56, C57 and the text of C40. *)
From Coq Require Import String List NArith ZArith QArith Bool Arith Lia Permutation.
From Verif Require Import Text Utf8M Utf8P SpanM PathM MutantM ProcessM OutcomeM OutcomeS OptionsM PackageM CargoM OutputM LabM LabS LabP ConsoleM ConsoleS ConsoleP MainM PrintM PrintS.
Import ListNotations.
Open Scope list_scope.
Open Scope nat_scope.

(** ** Escapes *)
Lemma strip_plain : forall t r, no_escape t -> strip false (t ++ r) = t ++ strip false r.
Proof.
  induction t as [|c t IH]; intros r H; [reflexivity|]. cbn [app strip].
  destruct (N.eqb_spec c 27) as [->|_]; [exfalso; apply H; left; reflexivity|].
  f_equal. apply IH. intro I. apply H. right. assumption.
Qed.
Lemma strip_id : forall t, no_escape t -> strip false t = t.
Proof. intros t H. rewrite <- (app_nil_r t) at 1. rewrite strip_plain by assumption. cbn. apply app_nil_r. Qed.

Definition code_text (t : text) : Prop := exists b, t = [ESC] ++ b ++ [109%N] /\ ~ In 109%N b.
Lemma strip_code : forall t r, code_text t -> strip false (t ++ r) = strip false r.
Proof.
  intros t r (b & -> & N). cbn [app strip]. change (N.eqb ESC 27) with true. cbn iota.
  induction b as [|x b IH]; cbn [app strip]; [reflexivity|].
  destruct (N.eqb_spec x 109) as [->|_]; [exfalso; apply N; left; reflexivity|]. apply IH. intro I. apply N. right. assumption.
Qed.

Lemma codes_strip : forall s r, strip false (codes s ++ r) = strip false r.
Proof.
  intros [f b bo di] r. unfold codes. cbn [st_fg st_bright st_bold st_dim].
  assert (B : strip false ((if bo then [ESC] ++ tx "[1m" else []) ++ (if di then [ESC] ++ tx "[2m" else []) ++ r) = strip false r).
  { destruct bo, di; cbn; reflexivity. }
  destruct f as [[]|]; destruct b; rewrite <- ?app_assoc; try exact B;
    match goal with |- strip false (?x ++ ?y) = _ => idtac end; cbn; exact B.
Qed.

Lemma pad_no_escape : forall w t, no_escape t -> no_escape (pad w t).
Proof.
  intros w t H I. unfold pad in I. apply in_app_or in I. destruct I as [I|I]; [auto|].
  apply repeat_spec in I. discriminate.
Qed.

Lemma paint_strip : forall on w s t r, no_escape t -> strip false (paint on w s t ++ r) = pad w t ++ strip false r.
Proof.
  intros on w s t r H. unfold paint. destruct on; [|apply strip_plain; apply pad_no_escape; assumption].
  destruct (codes s) as [|c cs] eqn:E; [apply strip_plain; apply pad_no_escape; assumption|].
  rewrite <- E, <- !app_assoc, codes_strip. rewrite strip_plain by (apply pad_no_escape; assumption). f_equal.
Qed.
Lemma paint_off : forall w s t, paint false w s t = pad w t.
Proof. reflexivity. Qed.
Lemma pad0 : forall t, pad 0 t = t.
Proof. intro t. unfold pad. cbn. apply app_nil_r. Qed.

Lemma no_escape_app : forall a b, no_escape (a ++ b) <-> no_escape a /\ no_escape b.
Proof. intros a b. unfold no_escape. rewrite in_app_iff. tauto. Qed.
Lemma no_escape_digits : forall n, no_escape (show_nat n).
Proof. intros n I. apply (is_digit_not _ 27%N (show_N_digits (N.of_nat n))) in I; [assumption|reflexivity]. Qed.

(** ** Names *)
Lemma parts_describe : forall m, match styled_parts m with
  | Some ps => describe_change m = Some (flat_map snd ps) | None => describe_change m = None end.
Proof.
  intro m. unfold styled_parts, describe_change. destruct (mu_genre m).
  - destruct (mu_fn m) as [f|]; [|reflexivity]. f_equal. destruct (fn_return_type f); cbn [app flat_map snd]; rewrite ?app_nil_r, <- ?app_assoc; reflexivity.
  - f_equal. destruct (mu_replacement m); destruct (mu_fn m); cbn [app flat_map snd]; rewrite ?app_nil_r, <- ?app_assoc; reflexivity.
  - f_equal. destruct (mu_replacement m); destruct (mu_fn m); cbn [app flat_map snd]; rewrite ?app_nil_r, <- ?app_assoc; reflexivity.
  - cbn. reflexivity.
  - cbn [app flat_map snd]. rewrite app_nil_r. reflexivity.
Qed.

Lemma styled_off : forall lc m, styled_name false lc m = mutant_name lc m.
Proof.
  intros lc m. unfold styled_name, mutant_name. pose proof (parts_describe m) as D. destruct (styled_parts m) as [ps|]; rewrite D; [|reflexivity].
  f_equal. f_equal.
  replace (flat_map (fun p => paint false 0 (fst p) (snd p)) ps) with (flat_map snd ps).
  - destruct lc; rewrite <- ?app_assoc; reflexivity.
  - clear D. induction ps as [|p ps IH]; [reflexivity|]. cbn [flat_map]. rewrite paint_off, pad0. f_equal. exact IH.
Qed.

Lemma parts_strip : forall on ps r, no_escape (flat_map snd ps) ->
  strip false (flat_map (fun p : style * text => paint on 0 (fst p) (snd p)) ps ++ r) = flat_map snd ps ++ strip false r.
Proof.
  intros on ps. induction ps as [|p ps IH]; intros r H; [reflexivity|]. cbn [flat_map] in *.
  apply no_escape_app in H. destruct H as [H1 H2]. rewrite <- !app_assoc, paint_strip by assumption. rewrite pad0, IH by assumption. reflexivity.
Qed.

Lemma styled_strip : forall on lc m n r, mutant_name lc m = Some n -> no_escape n ->
  exists t, styled_name on lc m = Some t /\ strip false (t ++ r) = n ++ strip false r.
Proof.
  intros on lc m n r E H. rewrite <- styled_off in E. unfold styled_name in *. destruct (styled_parts m) as [ps|]; [|discriminate].
  assert (Q : flat_map (fun p : style * text => paint false 0 (fst p) (snd p)) ps = flat_map snd ps).
  { clear. induction ps as [|p ps IH]; [reflexivity|]. cbn [flat_map]. rewrite paint_off, pad0. f_equal. exact IH. }
  rewrite Q in E. clear Q. set (L := if lc then _ else _) in *. clearbody L. set (F := flat_map snd ps) in E.
  assert (E' : n = tree_relative_slashes (mu_file m) ++ L ++ [COLON; SP] ++ F) by congruence. clear E. subst n.
  apply no_escape_app in H. destruct H as [H1 H]. apply no_escape_app in H. destruct H as [H2 H].
  apply no_escape_app in H. destruct H as [H3 H4].
  eexists. split; [reflexivity|]. rewrite <- !app_assoc. rewrite !strip_plain by assumption. rewrite parts_strip by assumption. reflexivity.
Qed.

(** ** Listings *)
Lemma list_strip : forall colors on diff_of c ms t, list_text diff_of c ms = Some t -> no_escape t ->
  exists t', list_lines_text colors on diff_of c ms = Some t' /\ strip false t' = t.
Proof.
  intros colors on diff_of c ms. induction ms as [|m ms IH]; intros t E H; cbn [list_text list_lines_text] in *.
  - injection E as <-. exists []. auto.
  - destruct (list_one diff_of c m) as [a|] eqn:E1; [|discriminate]. destruct (list_text diff_of c ms) as [b|]; [|discriminate].
    injection E as <-. apply no_escape_app in H. destruct H as [H1 H2]. destruct (IH b eq_refl H2) as (b' & -> & S).
    unfold list_one in E1. destruct (mutant_name (cl_line_col c) m) as [n|] eqn:En; [|discriminate]. injection E1 as <-.
    apply no_escape_app in H1. destruct H1 as [Hn Hd]. unfold list_line.
    destruct colors.
    + destruct (styled_strip on _ _ _ (([NL] ++ (if cl_diffs c then diff_of m ++ [NL] else [])) ++ b') En Hn) as (s & -> & Es).
      eexists. split; [reflexivity|]. rewrite <- app_assoc. etransitivity; [exact Es|]. rewrite strip_plain by assumption. rewrite S, <- !app_assoc. reflexivity.
    + rewrite En. eexists. split; [reflexivity|]. rewrite strip_plain; [rewrite S; reflexivity|]. apply no_escape_app. auto.
Qed.

(** ** Messages *)
Lemma word_column : forall v, pad 8 (snd (outcome_word v)) = column v.
Proof. intros []; reflexivity. Qed.

Lemma times_off : forall secs rs, rs <> [] -> times_text secs false rs = tx " in " ++ times secs rs.
Proof.
  intros secs rs N. unfold times_text. f_equal.
  assert (G : map (fun pr => paint false 0 (fg Cyan) (secs (pr_duration pr)) ++ [SP] ++ paint false 0 dim (phase_text (pr_phase pr))) rs
    = map (fun pr => secs (pr_duration pr) ++ tx " " ++ phase_text (pr_phase pr)) rs).
  { apply map_ext. intro pr. rewrite !paint_off, !pad0. reflexivity. }
  rewrite G. clear G N. induction rs as [|r rs IH]; [reflexivity|]. cbn [map].
  destruct rs as [|r' rs]; [reflexivity|]. rewrite join_cons by discriminate. rewrite IH. cbn [times]. rewrite <- !app_assoc. reflexivity.
Qed.

(** ** Finished runs *)
Section Runs.
Context (check_only : bool).
Notation PS := (phases check_only).

Lemma finished_parts : forall rs, finished_run PS rs ->
  exists pre r, rs = pre ++ [r] /\ Forall (fun x => is_success (pr_status x) = true) pre.
Proof.
  intros rs [[F1 F2]|(b & r & l & -> & _ & F2 & _)].
  - destruct (exists_last (l := rs)) as (pre & r & ->); [intros ->; unfold phases in F1; destruct check_only; discriminate|].
    exists pre, r. split; [reflexivity|]. apply Forall_app in F2. apply F2.
  - exists b, r. split; [reflexivity|exact F2].
Qed.

Lemma success_other : forall s, is_success s = true -> is_timeout s = false /\ is_failure s = false.
Proof. intros []; cbn; intro H; try discriminate; auto. Qed.

Lemma timeout_last : forall (s : scenario mutant) pre r, Forall (fun x => is_success (pr_status x) = true) pre ->
  has_timeout (mkOutcome s (pre ++ [r])) = is_timeout (pr_status r).
Proof.
  intros s pre r F. unfold has_timeout. cbn [oc_results]. rewrite existsb_app. cbn [existsb]. rewrite orb_false_r.
  induction F as [|x pre H F IH]; [reflexivity|]. cbn [existsb]. destruct (success_other _ H) as [-> _]. exact IH.
Qed.
Lemma failed_last : forall (s : scenario mutant) pre r, Forall (fun x => is_success (pr_status x) = true) pre ->
  check_or_build_failed (mkOutcome s (pre ++ [r])) = negb (phase_eqb (pr_phase r) Test) && is_failure (pr_status r).
Proof.
  intros s pre r F. unfold check_or_build_failed. cbn [oc_results]. rewrite existsb_app. cbn [existsb]. rewrite orb_false_r.
  induction F as [|x pre H F IH]; [reflexivity|]. cbn [existsb]. destruct (success_other _ H) as [_ ->]. rewrite andb_false_r. exact IH.
Qed.

Lemma silent_iff : forall o v po, finished_run PS (oc_results o) -> summary o = Some v ->
  exists ca su, mutant_caught o = Some ca /\ oc_success o = Some su
  /\ (ca && negb (po_caught po) || is_mutant (oc_scenario o) && check_or_build_failed o && negb (po_unviable po)) = negb (reported po (oc_scenario o) v)
  /\ ((negb (is_mutant (oc_scenario o)) && negb su) || po_all_logs po) = with_log po (oc_scenario o) v.
Proof.
  intros [s rs] v po F V. cbn [oc_results oc_scenario] in *. destruct (finished_parts _ F) as (pre & r & -> & S). clear F.
  revert V. unfold summary, mutant_caught, mutant_missed, oc_success. rewrite (timeout_last s), (failed_last s) by assumption.
  rewrite last_result_app. cbn [oc_scenario]. destruct po as [pc pu pt pl]. cbn [po_caught po_unviable po_all_logs].
  destruct s as [|m]; cbn [is_mutant]; [|destruct (pr_phase r)]; destruct (pr_status r); cbn; intro V; injection V as <-;
    do 2 eexists; (split; [reflexivity|]; split; [reflexivity|]); destruct pc, pu, pl; cbn; auto.
Qed.

Lemma message_plain : forall secs po o log v, finished_run PS (oc_results o) -> summary o = Some v ->
  outcome_message secs false po o log =
  if reported po (oc_scenario o) v
  then match scenario_name (oc_scenario o), log_part po (oc_scenario o) v log with
       | Some n, Some l => Some (Some (message secs po v n (oc_results o) l))
       | _, _ => None
       end
  else Some None.
Proof.
  intros secs po o log v F V. destruct (silent_iff o v po F V) as (ca & su & C & S & E1 & E2).
  unfold outcome_message. rewrite C, S, E1, V, E2. destruct (reported po (oc_scenario o) v); [|reflexivity]. cbn [negb].
  assert (N : style_scenario false (oc_scenario o) = scenario_name (oc_scenario o)).
  { destruct (oc_scenario o); [reflexivity|]. apply styled_off. }
  rewrite N. destruct (scenario_name (oc_scenario o)) as [n|]; [|reflexivity]. rewrite paint_off, word_column.
  assert (R : oc_results o <> []).
  { destruct (finished_parts _ F) as (pre & r & -> & _). destruct pre; discriminate. }
  unfold message, log_part. destruct (with_log po (oc_scenario o) v); destruct (po_times po); rewrite ?times_off by assumption;
    try (destruct log as [b|]; [|reflexivity]; destruct (from_utf8 b) as [t|]; [|reflexivity]); rewrite <- ?app_assoc; reflexivity.
Qed.
End Runs.

(** Coloring does not change the words. *)
Lemma paint0_strip : forall on s t r, no_escape t -> strip false (paint on 0 s t ++ r) = t ++ strip false r.
Proof. intros. rewrite paint_strip by assumption. rewrite pad0. reflexivity. Qed.
Lemma phase_no_escape : forall p, no_escape (phase_text p).
Proof. intros [] I; cbn in I; repeat (destruct I as [I|I]; [discriminate|]); destruct I. Qed.

Lemma times_strip : forall secs rs r, (forall n, no_escape (secs n)) ->
  strip false (times_text secs true rs ++ r) = times_text secs false rs ++ strip false r.
Proof.
  intros secs rs r H. unfold times_text. rewrite <- !app_assoc.
  rewrite strip_plain by (intro I; repeat (destruct I as [I|I]; [discriminate|]); destruct I). f_equal.
  revert r. induction rs as [|x rs IH]; intro r; [reflexivity|]. cbn [map].
  assert (A : forall r, strip false ((paint true 0 (fg Cyan) (secs (pr_duration x)) ++ [SP] ++ paint true 0 dim (phase_text (pr_phase x))) ++ r)
     = (paint false 0 (fg Cyan) (secs (pr_duration x)) ++ [SP] ++ paint false 0 dim (phase_text (pr_phase x))) ++ strip false r).
  { intro r'. rewrite <- !app_assoc, paint0_strip by apply H. rewrite (strip_plain [SP]) by (intros [I|[]]; discriminate).
    rewrite paint0_strip by apply phase_no_escape. rewrite !paint_off, !pad0. reflexivity. }
  destruct rs as [|y rs]; [cbn [map]; unfold join; rewrite A; reflexivity|].
  rewrite !join_cons by discriminate. rewrite <- (app_assoc (_ ++ _ ++ _)), A, <- (app_assoc (_ ++ _ ++ _)). f_equal.
  rewrite <- !app_assoc, strip_plain by (intro I; repeat (destruct I as [I|I]; [discriminate|]); destruct I). f_equal. apply IH.
Qed.

Lemma scenario_strip : forall s n r, scenario_name s = Some n -> no_escape n ->
  exists t, style_scenario true s = Some t /\ strip false (t ++ r) = n ++ strip false r.
Proof.
  intros [|m] n r E H; cbn [scenario_name style_scenario] in *; [|apply styled_strip; assumption].
  injection E as <-. eexists. split; [reflexivity|]. apply strip_plain. exact H.
Qed.

Lemma word_no_escape : forall v, no_escape (snd (outcome_word v)).
Proof. intros [] I; cbn in I; repeat (destruct I as [I|I]; [discriminate|]); destruct I. Qed.

Lemma strip_nl : forall t r, no_escape t -> strip false ([NL] ++ t ++ r) = [NL] ++ t ++ strip false r.
Proof. intros t r H. rewrite strip_plain by (intros [I|[]]; discriminate). rewrite strip_plain by assumption. reflexivity. Qed.

Lemma message_strip : forall secs po o log,
  (forall n, no_escape (secs n)) ->
  (forall n, scenario_name (oc_scenario o) = Some n -> no_escape n) ->
  (forall b t, log = Some b -> from_utf8 b = Some t -> no_escape t) ->
  option_map (option_map (strip false)) (outcome_message secs true po o log) = outcome_message secs false po o log.
Proof.
  intros secs po o log Hs Hn Hl. unfold outcome_message.
  destruct (mutant_caught o) as [ca|]; [|reflexivity]. destruct (oc_success o) as [su|]; [|reflexivity].
  destruct (_ || _); [reflexivity|]. destruct (summary o) as [v|]; [|reflexivity].
  assert (N0 : style_scenario false (oc_scenario o) = scenario_name (oc_scenario o)).
  { destruct (oc_scenario o); [reflexivity|]. apply styled_off. }
  rewrite N0. destruct (scenario_name (oc_scenario o)) as [n|] eqn:En.
  2:{ destruct (style_scenario true (oc_scenario o)) eqn:E2; [|reflexivity]. exfalso.
      destruct (oc_scenario o) as [|m]; cbn in *; [discriminate|]. rewrite <- styled_off in En. unfold styled_name in *.
      destruct (styled_parts m); discriminate. }
  specialize (Hn n eq_refl).
  assert (K : forall tail tail', strip false ((if po_times po then times_text secs true (oc_results o) else []) ++ tail)
     = (if po_times po then times_text secs false (oc_results o) else []) ++ tail' ->
     exists t, style_scenario true (oc_scenario o) = Some t /\
     strip false ((paint true 8 (fst (outcome_word v)) (snd (outcome_word v)) ++ [SP] ++ t ++ (if po_times po then times_text secs true (oc_results o) else [])) ++ tail)
     = (paint false 8 (fst (outcome_word v)) (snd (outcome_word v)) ++ [SP] ++ n ++ (if po_times po then times_text secs false (oc_results o) else [])) ++ tail').
  { intros tail tail' E.
    destruct (scenario_strip _ _ ((if po_times po then times_text secs true (oc_results o) else []) ++ tail) En Hn) as (t & Et & Es).
    exists t. split; [exact Et|]. rewrite <- !app_assoc, paint_strip by apply word_no_escape. rewrite paint_off. f_equal.
    rewrite strip_plain by (intros [I|[]]; discriminate). f_equal. rewrite Es. f_equal. exact E. }
  assert (TT : forall tail, strip false ((if po_times po then times_text secs true (oc_results o) else []) ++ tail)
     = (if po_times po then times_text secs false (oc_results o) else []) ++ strip false tail).
  { intro tail. destruct (po_times po); [apply times_strip; assumption|reflexivity]. }
  destruct (_ || _).
  - destruct log as [b|].
    + destruct (from_utf8 b) as [t|] eqn:Eu.
      * destruct (K ([NL] ++ t ++ [NL]) ([NL] ++ t ++ [NL])) as (s & -> & Es).
        { rewrite TT, strip_nl by (apply (Hl b t); auto). reflexivity. }
        cbn [option_map]. rewrite Es. reflexivity.
      * destruct (style_scenario true (oc_scenario o)); reflexivity.
    + destruct (style_scenario true (oc_scenario o)); reflexivity.
  - destruct (K [NL] [NL]) as (s & -> & Es).
    { rewrite TT. reflexivity. }
    cbn [option_map]. rewrite Es. reflexivity.
Qed.

(** ** The last line of the display *)
Lemma cut_last : forall t, ~ In COMMA t -> split_on COMMA t = [t].
Proof.
  induction t as [|c t IH]; intro H; [reflexivity|]. cbn [split_on].
  destruct (N.eqb_spec c COMMA) as [->|_]; [exfalso; apply H; left; reflexivity|].
  rewrite IH; [reflexivity|]. intro I. apply H. right. assumption.
Qed.
Lemma cut_more : forall t r, ~ In COMMA t -> split_on COMMA (t ++ COMMA :: r) = t :: split_on COMMA r.
Proof.
  induction t as [|c t IH]; intros r H; cbn [app split_on].
  - rewrite N.eqb_refl. reflexivity.
  - destruct (N.eqb_spec c COMMA) as [->|_]; [exfalso; apply H; left; reflexivity|].
    rewrite IH; [reflexivity|]. intro I. apply H. right. assumption.
Qed.
Lemma cut_join : forall ts, (forall t, In t ts -> ~ In COMMA t) -> ts <> [] -> cut (join (tx ", ") ts) = ts.
Proof.
  intros ts H N. unfold cut.
  assert (G : forall ts, (forall t, In t ts -> ~ In COMMA t) -> ts <> [] ->
    match split_on COMMA (join (tx ", ") ts) with [] => [] | a :: r => a :: map (fun x : text => match x with [] => [] | _ :: y => y end) r end = ts
    /\ forall p, p <> COMMA -> map (fun x : text => match x with [] => [] | _ :: y => y end) (split_on COMMA (p :: join (tx ", ") ts)) = ts).
  { clear. induction ts as [|t ts IH]; intros H N; [congruence|].
    assert (Ht : ~ In COMMA t) by (apply H; left; reflexivity).
    destruct ts as [|u ts].
    - cbn [join]. split; [rewrite cut_last by assumption; reflexivity|]. intros p Hp.
      rewrite cut_last by (intros [E|I]; auto). reflexivity.
    - destruct IH as [_ IH]; [intros; apply H; right; assumption|discriminate|].
      rewrite join_cons by discriminate. change (tx ", ") with [COMMA; SP] at 1 3. cbn [app]. split.
      + rewrite cut_more by assumption. rewrite IH by discriminate. reflexivity.
      + intros p Hp. change (p :: t ++ COMMA :: SP :: join (tx ", ") (u :: ts)) with ((p :: t) ++ COMMA :: SP :: join (tx ", ") (u :: ts)).
        rewrite cut_more by (intros [E|I]; auto). cbn [map]. rewrite IH by discriminate. reflexivity. }
  apply G; assumption.
Qed.

Lemma join_split : forall sep (a b : list text), a <> [] -> join sep (a ++ b) = join sep a ++ flat_map (fun t => sep ++ t) b.
Proof.
  intros sep a b N. revert N. induction a as [|x a IH]; intro N; [congruence|]. cbn [app].
  destruct a as [|y a].
  - cbn [app]. clear. revert x. induction b as [|z b IH]; intro x; [cbn; rewrite app_nil_r; reflexivity|].
    rewrite join_cons by discriminate. rewrite IH. cbn [flat_map join]. rewrite <- app_assoc. reflexivity.
  - rewrite (join_cons sep x ((y :: a) ++ b)) by discriminate. rewrite (join_cons sep x (y :: a)) by discriminate.
    rewrite IH by discriminate. rewrite <- !app_assoc. reflexivity.
Qed.

Definition of_positive (n : nat) : option nat := match n with O => None | _ => Some n end.
Lemma positive_of : forall n, positive_only n = of_positive n.
Proof. intros []; reflexivity. Qed.

Lemma line_items : forall dur d n ms ti ca un el rem,
  lab_line dur false (mkShown d n (positive_only ms) (positive_only ti) (positive_only ca) (positive_only un) el rem)
  = join (tx ", ") (items d n ms ti ca un (dur el) (option_map dur rem)).
Proof.
  intros. unfold lab_line, items. cbn [sn_done sn_total sn_missed sn_timeouts sn_caught sn_unviable sn_elapsed sn_remaining].
  rewrite join_split by discriminate. rewrite !flat_map_app.
  assert (K : forall k w, opt_part false (positive_only k) w = flat_map (fun t => tx ", " ++ t) (item k w)).
  { intros k w. unfold opt_part, positive_only, item. destruct k; [reflexivity|]. cbn [Nat.ltb Nat.leb flat_map].
    rewrite paint_off, pad0, app_nil_r. reflexivity. }
  rewrite !K, !paint_off, !pad0. cbn [join flat_map]. rewrite <- !app_assoc. repeat f_equal.
  destruct rem as [r|]; cbn [option_map flat_map]; rewrite ?paint_off, ?pad0, ?app_nil_r, <- ?app_assoc; reflexivity.
Qed.

Lemma show_no_comma : forall n, ~ In COMMA (show_nat n).
Proof. intros n I. apply (is_digit_not _ COMMA (show_N_digits (N.of_nat n))) in I; [assumption|reflexivity]. Qed.

Ltac lits := let I := fresh in intro I; repeat (destruct I as [I|I]; [discriminate|]); destruct I.
Ltac notin := let I := fresh in intro I; repeat (apply in_app_or in I; destruct I as [I|I]);
  first [exact (show_no_comma _ I) | (repeat (destruct I as [I|I]; [discriminate|]); destruct I) | auto].

Lemma items_no_comma : forall d n ms ti ca un el rem, ~ In COMMA el -> (forall r, rem = Some r -> ~ In COMMA r) ->
  forall t, In t (items d n ms ti ca un el rem) -> ~ In COMMA t.
Proof.
  intros d n ms ti ca un el rem He Hr t I. unfold items in I.
  assert (K : forall k w, ~ In COMMA w -> In t (item k w) -> ~ In COMMA t).
  { intros k w Hw Ik. unfold item in Ik. destruct k; [destruct Ik|]. destruct Ik as [<-|[]]. notin. }
  apply in_app_or in I. destruct I as [[<-|[]]|I]; [notin|].
  apply in_app_or in I. destruct I as [I|I]; [revert I; apply K; lits|].
  apply in_app_or in I. destruct I as [I|I]; [revert I; apply K; lits|].
  apply in_app_or in I. destruct I as [I|I]; [revert I; apply K; lits|].
  apply in_app_or in I. destruct I as [I|I]; [revert I; apply K; lits|].
  apply in_app_or in I. destruct I as [[<-|[]]|I]; [notin|].
  destruct rem as [r|]; [|destruct I]. destruct I as [<-|[]]. specialize (Hr r eq_refl). notin.
Qed.

Lemma line_strip : forall dur s, (forall n, no_escape (dur n)) -> strip false (lab_line dur true s) = lab_line dur false s.
Proof.
  intros dur s H. unfold lab_line.
  assert (O : forall k st w r, no_escape w -> strip false (opt_part true k (paint true 0 st w) ++ r) = opt_part false k (paint false 0 st w) ++ strip false r).
  { intros [k|] st w r Hw; cbn [opt_part]; [|reflexivity]. rewrite <- !app_assoc. rewrite (strip_plain (tx ", ")) by (intros [I|[I|[]]]; discriminate).
    rewrite paint0_strip by apply no_escape_digits. rewrite (strip_plain [SP]) by (intros [I|[]]; discriminate). rewrite paint0_strip by assumption.
    rewrite !paint_off, !pad0. reflexivity. }
  assert (Q : forall k w r, no_escape w -> strip false (opt_part true k w ++ r) = opt_part false k w ++ strip false r).
  { intros [k|] w r Hw; cbn [opt_part]; [|reflexivity]. rewrite <- !app_assoc. rewrite (strip_plain (tx ", ")) by (intros [I|[I|[]]]; discriminate).
    rewrite paint0_strip by apply no_escape_digits. rewrite (strip_plain [SP]) by (intros [I|[]]; discriminate). rewrite strip_plain by assumption.
    rewrite !paint_off, !pad0. reflexivity. }
  rewrite paint0_strip by apply no_escape_digits. rewrite (strip_plain (tx "/")) by lits. rewrite paint0_strip by apply no_escape_digits.
  rewrite (strip_plain (tx " mutants tested")) by lits. rewrite O by lits. rewrite O by lits. rewrite Q by lits. rewrite Q by lits.
  rewrite (strip_plain (tx ", ")) by lits. rewrite paint0_strip by apply H. rewrite (strip_plain (tx " elapsed")) by lits.
  rewrite !paint_off, !pad0. repeat f_equal.
  destruct (sn_remaining s) as [r|]; [|reflexivity]. rewrite (strip_plain (tx ", about ")) by lits. rewrite paint0_strip by apply H.
  rewrite paint_off, pad0. rewrite strip_id by lits. reflexivity.
Qed.

(** ** Runs *)
Lemma printed_run : forall check_only secs po log os,
  (forall o, In o os -> finished_run (phases check_only) (oc_results o)) ->
  (forall o, In o os -> scenario_name (oc_scenario o) <> None) ->
  (forall o v, In o os -> summary o = Some v -> reported po (oc_scenario o) v = true -> with_log po (oc_scenario o) v = true ->
     from_utf8 (fst (log o)) = Some (snd (log o))) ->
  printed secs false po (map (fun o => (o, Some (fst (log o)))) os) = Some (flat_map (said secs po (fun o => snd (log o))) os).
Proof.
  intros co secs po log os F N L. induction os as [|o os IH]; [reflexivity|]. cbn [map printed flat_map].
  rewrite IH; [|intros; apply F; right; assumption|intros; apply N; right; assumption|intros o' v' I'; apply L; right; exact I'].
  assert (Fo : finished_run (phases co) (oc_results o)) by (apply F; left; reflexivity).
  assert (V : exists v, summary o = Some v).
  { destruct o as [s rs]. destruct (finished_parts _ _ Fo) as (pre & r & E & S). cbn [oc_results] in E. subst rs.
    unfold summary, mutant_caught, mutant_missed, oc_success. rewrite (timeout_last s), (failed_last s), last_result_app by assumption. cbn [oc_scenario is_mutant].
    destruct s; cbn [is_mutant]; [|destruct (pr_phase r)]; destruct (pr_status r); cbn; eexists; reflexivity. }
  destruct V as [v V]. rewrite (message_plain co _ _ _ _ v) by assumption. unfold said. rewrite V.
  specialize (N o (or_introl eq_refl)). destruct (scenario_name (oc_scenario o)) as [n|]; [|congruence].
  destruct (reported po (oc_scenario o) v) eqn:R; [|reflexivity]. unfold log_part.
  destruct (with_log po (oc_scenario o) v) eqn:W; [|reflexivity].
  rewrite (L o v (or_introl eq_refl) V R W). reflexivity.
Qed.

(** ** Colors *)
Lemma set_not_0_iff : forall e v, set_not_0 e v = true <-> set_other_than_0 e v.
Proof.
  intros e v. unfold set_not_0, set_other_than_0. destruct (e v) as [x|].
  - rewrite negb_true_iff. split.
    + intro H. exists x. split; [reflexivity|]. intros ->. assert (E : text_eqb (tx "0") (tx "0") = true) by reflexivity. congruence.
    + intros (y & E & N). injection E as <-. destruct (text_eqb x (tx "0")) eqn:Q; [|reflexivity]. apply text_eqb_eq in Q. contradiction.
  - split; [discriminate|]. intros (x & E & _). discriminate.
Qed.
Lemma forced_iff : forall e c b, (match forced_value e c with Some x => x | None => b end) = true <-> wants_colors e c b.
Proof.
  intros e c b. unfold forced_value, wants_colors. rewrite <- !set_not_0_iff.
  destruct (set_not_0 e (tx "NO_COLOR")); [split; [discriminate|intros [H _]; contradiction H; reflexivity]|].
  assert (N : false <> true) by discriminate.
  destruct (set_not_0 e (tx "CLICOLOR_FORCE")); [split; [intros _; split; [exact N|left; reflexivity]|reflexivity]|].
  destruct c; split; intro H.
  - split; [exact N|]. auto.
  - destruct H as [_ [H|[H|[_ H]]]]; [discriminate|discriminate|exact H].
  - split; [exact N|]. auto.
  - reflexivity.
  - discriminate.
  - destruct H as [_ [H|[H|[H _]]]]; discriminate.
Qed.

Lemma stack_join : forall parts s, (forall p, In p parts -> p <> []) ->
  stack parts s = join [NL] (match s with [] => parts | _ => s :: parts end).
Proof.
  induction parts as [|p parts IH]; intros s H; cbn [stack].
  - destruct s; reflexivity.
  - assert (Hp : p <> []) by (apply H; left; reflexivity). assert (H' : forall q, In q parts -> q <> []) by (intros; apply H; right; assumption).
    destruct s as [|c s].
    + rewrite IH by assumption. destruct p; [contradiction|reflexivity].
    + rewrite IH by assumption. cbn [app]. destruct parts as [|q parts].
      * reflexivity.
      * cbn [join app]. rewrite <- app_assoc. reflexivity.
Qed.
