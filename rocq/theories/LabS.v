(** Specification vocabulary for C11-C15, C43, C49: what is observed of a state. *)
From Coq Require Import String List NArith ZArith Bool Permutation.
From Verif Require Import Text SpanM PathM PathS MutantM ProcessM OutcomeM OutputM OutputS LabM.
Import ListNotations.

(** The threads running scenarios: the main thread alone during the baseline, then
    the workers. *)
Definition threads (st : state) : list wpc :=
  match ls_main st with MBaseline c => [c] | _ => ls_workers st end.

(** The scenario a thread is at work on, and the directory. *)
Definition active (c : wpc) : option (nat * scenario mutant) :=
  match c with
  | WStart d s | WApply d s | WPhase d s _ _ | WCargo d s _ _ _ | WRevert d s _
  | WRevertErr d s | WAdd d s _ => Some (d, s)
  | WJson d o | WJson2 d o | WName d o | WNewline d o | WFin d o => Some (d, oc_scenario o)
  | WInit | WCopy | WQueue _ | WEnd _ | WPanic => None
  end.

(** Active scenarios. *)
Definition active_count (ts : list wpc) : nat :=
  length (filter (fun c => match active c with Some _ => true | None => false end) ts).

(** Mutants taken from the queue by a thread whose outcome is not yet recorded. *)
Definition in_hand (c : wpc) : list mutant :=
  match c with
  | WStart _ (Mutant m) | WApply _ (Mutant m) | WPhase _ (Mutant m) _ _
  | WCargo _ (Mutant m) _ _ _ | WRevert _ (Mutant m) _ | WRevertErr _ (Mutant m)
  | WAdd _ (Mutant m) _ => [m]
  | _ => []
  end.

(** Mutants with a recorded outcome, in order. *)
Definition recorded (l : lab_outcome mutant) : list mutant :=
  flat_map (fun o => match oc_scenario o with Mutant m => [m] | Baseline => [] end) (lo_outcomes l).

(** Mutants with their verdicts, in order of recording. *)
Definition verdicts (os : list (outcome mutant)) : list (mutant * summary_outcome) :=
  flat_map (fun o => match oc_scenario o, summary o with
                     | Mutant m, Some v => [(m, v)]
                     | _, _ => []
                     end) os.

(** The four lists, as documented. *)
Definition lists : list (text * summary_outcome) :=
  [(tx "caught.txt", SumCaught); (tx "missed.txt", SumMissed);
   (tx "timeout.txt", SumTimeout); (tx "unviable.txt", SumUnviable)].

Definition same_verdict (a b : summary_outcome) : bool :=
  match a, b with
  | SumSuccess, SumSuccess | SumCaught, SumCaught | SumMissed, SumMissed
  | SumUnviable, SumUnviable | SumFailure, SumFailure | SumTimeout, SumTimeout => true
  | _, _ => false
  end.

(** One line for each mutant with verdict [v]. *)
Definition list_text (v : summary_outcome) (rs : list (mutant * summary_outcome)) : text :=
  flat_map (fun mv => if same_verdict (snd mv) v
                      then match mutant_name true (fst mv) with Some n => n ++ [NL] | None => [] end
                      else []) rs.

Definition lists_exact (o : entries) (rs : list (mutant * summary_outcome)) : Prop :=
  forall f v, In (f, v) lists -> dget o f = Some (NFile (list_text v rs)).

(** The same with the name of one more mutant, not yet its newline. *)
Definition lists_half (o : entries) (rs : list (mutant * summary_outcome)) (m : mutant) (v' : summary_outcome) : Prop :=
  forall f v, In (f, v) lists ->
    dget o f = Some (NFile (list_text v rs ++
      (if same_verdict v' v then match mutant_name true m with Some n => n | None => [] end else []))).

(** A thread at a point where its directory has the mutant [m]. *)
Definition mutated_by (c : wpc) : option (nat * mutant) :=
  match c with
  | WPhase d (Mutant m) _ _ | WCargo d (Mutant m) _ _ _ | WRevert d (Mutant m) _
  | WRevertErr d (Mutant m) => Some (d, m)
  | _ => None
  end.

(** The file at [k] is as in the workspace, except that line endings may have been
    converted, and that a copy may lack it. *)
Definition as_source (P : params) (k : list text) (x : option text) : Prop :=
  x = pa_root P k \/ x = option_map without_crlf_cr (pa_root P k) \/ (pa_in_place P = false /\ x = None).

(** The mutants come from the workspace as read at the start (src/source.rs:50-76). *)
Definition loaded (P : params) (m : mutant) : Prop :=
  pa_source P (file_key m) = true /\
  exists c, pa_root P (file_key m) = Some c /\ sf_code (mu_file m) = without_crlf_cr c.

(** What the phases of a finished scenario can be: all succeeded, or the last one
    run did not and the ones before it did. *)
Definition finished_run (ps : list phase) (rs : list phase_result) : Prop :=
  (map pr_phase rs = ps /\ Forall (fun r => is_success (pr_status r) = true) rs)
  \/ (exists before r later, rs = before ++ [r]
        /\ map pr_phase rs ++ later = ps
        /\ Forall (fun r => is_success (pr_status r) = true) before
        /\ is_success (pr_status r) = false).

(** Options as accepted by the command line: --in-place conflicts with --jobs
    (src/main.rs: [conflicts_with]). *)
Definition options_ok (P : params) : Prop := pa_in_place P = true -> pa_jobs P = None.

(** Executions by length. *)
Inductive steps_k (P : params) (n : nat) : nat -> state -> state -> Prop :=
| sk_0 : forall s, steps_k P n 0 s s
| sk_S : forall k s s' s'', steps_k P n k s s' -> step P n s' s'' -> steps_k P n (S k) s s''.

(** A recorded baseline in which every phase was run and succeeded. *)
Definition baseline_passed (P : params) (o : outcome mutant) : Prop :=
  oc_scenario o = Baseline /\ map pr_phase (oc_results o) = phases (pa_check_only P)
  /\ Forall (fun r => is_success (pr_status r) = true) (oc_results o).

(** A thread at a point between two scenarios' use of directory [d], or before the
    mutation or after the revert of one. *)
Definition at_rest (c : wpc) (d : nat) : Prop :=
  match c with
  | WQueue d' => d = d'
  | WStart d' _ | WApply d' _ | WAdd d' _ _ => d = d'
  | WJson d' _ | WJson2 d' _ | WName d' _ | WNewline d' _ | WFin d' _ => d = d'
  | _ => False
  end.

(** The outcome a thread is now writing to mutants.out (holding the mutex). *)
Definition recording (c : wpc) : option (outcome mutant) :=
  match c with
  | WJson _ o | WJson2 _ o | WName _ o | WNewline _ o => Some o
  | _ => None
  end.

(** A thread that has ended with an error or a panic. *)
Definition failed (c : wpc) : bool := match c with WEnd false | WPanic => true | _ => false end.

(** What a list holds of a verdict: a beginning of the line with the mutant's name. *)
Definition piece := (mutant * summary_outcome * text)%type.
Definition begun (p : piece) : Prop :=
  exists n rest, mutant_name true (fst (fst p)) = Some n /\ n ++ [NL] = snd p ++ rest.
Definition listed (v : summary_outcome) : bool := existsb (fun fv => same_verdict v (snd fv)) lists.
Definition torn (p : piece) : bool :=
  listed (snd (fst p))
  && match mutant_name true (fst (fst p)) with Some n => negb (text_eqb (snd p) (n ++ [NL])) | None => true end.
Definition torn_count (ps : list piece) : nat := length (filter torn ps).

(** Each list is its pieces in order. *)
Definition lists_hold (o : entries) (ps : list piece) : Prop :=
  forall f v, In (f, v) lists ->
    dget o f = Some (NFile (flat_map (fun p => if same_verdict (snd (fst p)) v then snd p else []) ps)).

(** The names met when a path is followed from a directory; ".." at the top stays there. *)
Inductive leads : list text -> list comp -> list text -> Prop :=
| le_end here : leads here [] here
| le_name here n cs k : leads (here ++ [n]) cs k -> leads here (Normal n :: cs) k
| le_up here n cs k : leads here cs k -> leads (here ++ [n]) (Parent :: cs) k
| le_top cs k : leads [] cs k -> leads [] (Parent :: cs) k
| le_dot here cs k : leads here cs k -> leads here (Cur :: cs) k
| le_root here cs k : leads here cs k -> leads here (Root :: cs) k.

(** The thread is between recording an outcome and having written the files that say so (src/output.rs:187-223,
    src/lab.rs:311-315: the output directory is locked). *)
Definition writing (c : wpc) : Prop :=
  match c with WJson _ _ | WJson2 _ _ | WName _ _ | WNewline _ _ => True | _ => False end.

(** All that the output directory holds and the names it has given out. *)
Definition output_of (sh : shared) := (sh_used sh, sh_logs sh, sh_lab sh, sh_out sh).
