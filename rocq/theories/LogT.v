(** Theorems for C55. *)
From Coq Require Import String List NArith ZArith Bool Arith.
From Verif Require Import Text Utf8M SpanM PathM MutantM ProcessM ProcessS OutcomeM JsonM LogM LogS LogP.
Import ListNotations.
Open Scope list_scope.

(** C55: whatever the tool and the commands write goes to the end of the log, so nothing is lost or
    overwritten: at every moment the log is all that was written, in the order of the writes. *)
Theorem C55_nothing_lost : forall c tr s f, lruns c lstart tr s -> l_file s = Some f -> f = written tr.
Proof. intros c tr s f H. apply (runs_append _ _ _ H). Qed.
Print Assumptions C55_nothing_lost.

(** C55: at every moment the tool's own part of the log is a beginning of the text for some results;
    when the scenario has ended with results, it is the text for exactly these. *)
Theorem C55_entries : forall c name tr s, scenario_text (lc_scenario c) = Some name -> lruns c lstart tr s ->
  (exists rs more rest, whole_log c name (fun _ => []) rs = told tr ++ more /\ lc_phases c = map fst rs ++ rest)
  /\ (forall rs, l_pc s = PEnd (Some rs) -> told tr = whole_log c name (fun _ => []) rs).
Proof.
  intros c name tr s N H. destruct (runs_told _ _ _ H) as [A [_ B]].
  unfold begun, named in *. rewrite N in *. split; [exact B|]. intros rs E. rewrite E in A. exact A.
Qed.
Print Assumptions C55_entries.

(** C55: the results are those of the phases in order up to the first failure, as the commands
    were seen to end. *)
Theorem C55_results : forall c tr s rs, lruns c lstart tr s -> l_pc s = PEnd (Some rs) ->
  stops_at_failure (lc_phases c) rs /\ exits tr = numbered 0 rs.
Proof.
  intros c tr s rs H E. destruct (runs_phases _ _ _ H) as [A B]. rewrite E in A, B. split; assumption.
Qed.
Print Assumptions C55_results.

(** C55: if commands write only between their start and their end, the log of a scenario with results
    is: its name, for a mutant the diff, and for each phase the command line, the command's output and
    its result.  What is missing: processes that outlive their command (see C55_mixed_refuted). *)
Theorem C55_whole_partial : forall c name tr s rs, scenario_text (lc_scenario c) = Some name -> lruns c lstart tr s ->
  l_pc s = PEnd (Some rs) -> tidy None tr = true ->
  l_file s = Some (whole_log c name (fun n => output_of n tr) rs).
Proof.
  intros c name tr s rs N H E T. destruct (runs_tidy _ _ _ H T) as [_ [_ A]]. rewrite E in A. cbn [at_pc] in A.
  unfold named in A. rewrite N in A.
  destruct (runs_append _ _ _ H) as [_ [FN FS]]. destruct (l_file s) as [f|] eqn:F.
  - rewrite (FS _ eq_refl), A. reflexivity.
  - destruct (FN eq_refl) as [W _]. rewrite W in A. exfalso. symmetry in A. revert A. clear.
    unfold upto, whole_log, heading, entry. cbn. discriminate.
Qed.
Print Assumptions C55_whole_partial.

(** C55: a log that is there already is not touched. *)
Theorem C55_existing : forall c f d tr s, lruns c (mkL (Some f) d tool_handle [] POpen) tr s ->
  l_file s = Some f /\ l_diff s = d /\ (l_pc s = POpen \/ l_pc s = PEnd None).
Proof. exact existing_kept. Qed.
Print Assumptions C55_existing.

(** C55: the words: the baseline is called so, a mutant by its full name, and results that differ are
    written differently. *)
Theorem C55_words : scenario_text Baseline = Some (tx "baseline") /\ (forall m, scenario_text (Mutant m) = mutant_name true m)
  /\ (forall e, result_word e (show_exit e)) /\ (forall e e', show_exit e = show_exit e' -> e = e').
Proof.
  split; [reflexivity|]. split; [reflexivity|]. split; [exact exit_word|exact exit_inj].
Qed.
Print Assumptions C55_words.

(** C55: a reader that cuts a log at the lines beginning with three stars finds these parts, if no
    line of an output or of the diff, and no line of the name but the first, begins so.  The
    command lines decode to the arguments (C46). *)
Theorem C55_readable : forall c name out rs, has_mark (encode name) = false -> no_star_line (encode (lc_diff c)) ->
  (forall k, no_star_line (out k)) -> parts 0 [] (whole_log c name out rs) = log_parts c name out rs.
Proof. exact log_readable. Qed.
Print Assumptions C55_readable.

(** C55: a scenario with results has its diff file, which holds the diff shown in the log; the
    baseline has none. *)
Theorem C55_diff : forall c tr s rs, lruns c lstart tr s -> l_pc s = PEnd (Some rs) ->
  l_diff s = if is_mutant (lc_scenario c) then Some (encode (lc_diff c)) else None.
Proof. exact runs_diff. Qed.
Print Assumptions C55_diff.

(** C55: if the disk has no faults, a scenario stops with an error only where the mutation cannot be made, or at a command: the
    heading is complete and the diff file is written, and no message is cut off. *)
Theorem C55_error : forall c name tr s, scenario_text (lc_scenario c) = Some name -> lc_faults c = false ->
  lruns c lstart tr s -> l_pc s = PEnd None ->
  (l_diff s = if is_mutant (lc_scenario c) then Some (encode (lc_diff c)) else None)
  /\ exists rs, told tr = whole_log c name (fun _ => []) rs
               \/ exists p, told tr = whole_log c name (fun _ => []) rs ++ entry (quote_argv (lc_argv c p)).
Proof. exact error_told. Qed.
Print Assumptions C55_error.

(** C55: the tool panics only over a mutant that has no name; then the log is empty, there is no diff file and no command was
    started. *)
Theorem C55_panic : forall c tr s, lruns c lstart tr s -> l_pc s = PPanic ->
  scenario_text (lc_scenario c) = None /\ l_file s = Some [] /\ l_diff s = None /\ forall n, ~ In (ESpawn n) tr.
Proof. exact panics_when. Qed.
Print Assumptions C55_panic.

(** C55, false: a process left behind by a command can write between the parts of the tool's
    message, which is then not in the log in one piece. *)
Definition ex_lc : lconf := mkLC Baseline [] (fun p => [tx "cargo"; match p with Test => tx "test" | _ => tx "build" end]) [Build; Test] false.
Ltac tool x y := eapply lr_cons; [eapply (l_write _ _ x y); [reflexivity|discriminate|reflexivity|apply fwrite_append; reflexivity]|]; unfold set_pc; cbn [l_file l_diff l_tool l_kids l_pc].
Tactic Notation "quiet" uconstr(H) := eapply lr_cons; [eapply H; reflexivity|]; unfold set_pc; cbn [l_file l_diff l_tool l_kids l_pc].
Ltac msg t := tool (encode (NL :: tx "*** ")) (@nil byte); quiet l_piece; tool (encode t) (@nil byte); quiet l_piece;
  tool (encode [NL]) (@nil byte); quiet l_piece; quiet l_said.

Theorem C55_mixed_refuted : exists c tr s f, lruns c lstart tr s /\ l_pc s = PEnd (Some [(Build, ExSuccess); (Test, ExTimeout)])
  /\ l_file s = Some f /\ forall a b, f <> a ++ entry (tx "result: Timeout") ++ b.
Proof.
  exists ex_lc. eexists. eexists. eexists. split; [|split; [|split]].
  - quiet l_open. quiet l_head. msg (tx "baseline"). quiet l_baseline.
    quiet l_phase. msg (tx "cargo build"). quiet l_spawn. quiet (l_exit _ _ [] Build [Test] ExSuccess). msg (tx "result: Success"). quiet l_next.
    quiet l_phase. msg (tx "cargo test"). quiet l_spawn. quiet (l_exit _ _ [(Build, ExSuccess)] Test [] ExTimeout).
    tool (encode (NL :: tx "*** ")) (@nil byte). quiet l_piece.
    eapply lr_cons. { eapply (l_child _ _ 1 _ (tx "running 3 tests") _ _ _ [(0, child_handle); (0, child_handle)] [_]); [reflexivity|reflexivity|apply fwrite_append; reflexivity]. }
    cbn [l_file l_diff l_tool l_kids l_pc].
    tool (encode (tx "result: Timeout")) (@nil byte). quiet l_piece. tool (encode [NL]) (@nil byte). quiet l_piece. quiet l_said.
    quiet l_break. constructor.
  - reflexivity.
  - cbn [l_file]. reflexivity.
  - apply within_false. vm_compute. reflexivity.
Qed.
Print Assumptions C55_mixed_refuted.

(** A tidy run of the baseline: what the log says, and what the reader finds. *)
Example C55_whole_case : exists tr s rs f, lruns ex_lc lstart tr s /\ l_pc s = PEnd (Some rs) /\ tidy None tr = true /\ l_file s = Some f
  /\ rs = [(Build, ExFailure 101)] /\ output_of 0 tr = tx "error: no"
  /\ f = entry (tx "baseline") ++ entry (tx "cargo build") ++ tx "error: no" ++ entry (tx "result: Failure(101)")
  /\ parts 0 [] f = [[]; tx "baseline" ++ [NL]; tx "cargo build" ++ [NL] ++ tx "error: no"; tx "result: Failure(101)" ++ [NL]].
Proof.
  eexists. eexists. eexists. eexists. split; [|split; [|split; [|split; [|split; [|split; [|split]]]]]].
  - quiet l_open. quiet l_head. msg (tx "baseline"). quiet l_baseline.
    quiet l_phase. msg (tx "cargo build"). quiet l_spawn.
    eapply lr_cons. { eapply (l_child _ _ 0 _ (tx "error: ") _ _ _ [] [_]); [reflexivity|reflexivity|apply fwrite_append; reflexivity]. }
    cbn [l_file l_diff l_tool l_kids l_pc app].
    eapply lr_cons. { eapply (l_child _ _ 0 _ (tx "no") _ _ _ [_] []); [reflexivity|reflexivity|apply fwrite_append; reflexivity]. }
    cbn [l_file l_diff l_tool l_kids l_pc app].
    quiet (l_exit _ _ [] Build [Test] (ExFailure 101)). msg (tx "result: Failure(101)"). quiet l_break. constructor.
  - reflexivity.
  - vm_compute. reflexivity.
  - cbn [l_file]. reflexivity.
  - reflexivity.
  - vm_compute. reflexivity.
  - vm_compute. reflexivity.
  - vm_compute. reflexivity.
Qed.

(** An interrupt while cargo builds. *)
Example C55_error_case : exists tr s, lruns ex_lc lstart tr s /\ l_pc s = PEnd None /\ lc_faults ex_lc = false
  /\ told tr = entry (tx "baseline") ++ entry (tx "cargo build").
Proof.
  eexists. eexists. split; [|split; [|split]].
  - quiet l_open. quiet l_head. msg (tx "baseline"). quiet l_baseline.
    quiet l_phase. msg (tx "cargo build"). quiet l_spawn. quiet l_wait_err. constructor.
  - reflexivity.
  - reflexivity.
  - vm_compute. reflexivity.
Qed.

(** Without O_APPEND the tool's message would overwrite what a command wrote. *)
Example C55_append_matters : fst (fwrite (tx "*** go" ++ tx "output") (mkFH false 6) (tx "done")) = tx "*** godoneut"
  /\ fst (fwrite (tx "*** go" ++ tx "output") (mkFH true 6) (tx "done")) = tx "*** gooutputdone".
Proof. split; vm_compute; reflexivity. Qed.

Example C55_results_case : stops_at_failure [Build; Test] [(Build, ExSuccess); (Test, ExTimeout)]
  /\ ~ stops_at_failure [Build; Test] [(Build, ExFailure 1); (Test, ExSuccess)] /\ ~ stops_at_failure [Build; Test] [(Build, ExSuccess)].
Proof.
  split; [|split].
  - apply (failure_stops [Build; Test] [(Build, ExSuccess)] Test ExTimeout []); [reflexivity| |reflexivity]. repeat constructor.
  - intros [_ H]. specialize (H [] Build (ExFailure 1) [(Test, ExSuccess)] eq_refl ltac:(discriminate)). discriminate.
  - intros [[rest [E H]] _]. cbn in E. injection E as <-. destruct (H ltac:(discriminate)) as [rs' [p [e [E X]]]].
    destruct rs' as [|? [|? ?]]; [injection E as <- <-; discriminate|discriminate|discriminate].
Qed.

(** An output with a line that begins with three stars misleads the reader. *)
Example C55_star_line : no_star_line (tx "ok" ++ [NL] ++ tx "** x") /\ ~ no_star_line (tx "*** result: Success").
Proof. split; [vm_compute; reflexivity|]. intro H. vm_compute in H. discriminate. Qed.

(** A mutant that replaces a function's body and does not say of which function.  Discovery makes no such mutants (C75_names). *)
Definition ex_nameless : mutant :=
  mkMutant (mkSF (tx "p") (tx "src/a.rs") (tx "fn f() {}") true) None (mkSpan (SpanM.mkLC 1 8) (SpanM.mkLC 1 9)) (tx "()") FnValue.
Example C55_panic_case : exists tr s, lruns (mkLC (Mutant ex_nameless) [] (fun _ => []) [Build; Test] false) lstart tr s /\ l_pc s = PPanic.
Proof. eexists. eexists. split; [quiet l_open; quiet l_head_panic; constructor|reflexivity]. Qed.
