(** Specification vocabulary for C56, C57 and the text of C40. *)
From Coq Require Import String List NArith ZArith Bool Arith.
From Verif Require Import Text Utf8M SpanM PathM MutantM ProcessM OutcomeM OptionsM PackageM CargoM LabM LabS ConsoleM MainM PrintM.
Import ListNotations.
Open Scope list_scope.

(** A terminal that knows no colors: it leaves out what is between an escape character and the
    next letter m. *)
Fixpoint strip (inside : bool) (t : text) : text :=
  match t with
  | [] => []
  | c :: t' =>
      if inside then (if N.eqb c 109 then strip false t' else strip true t')
      else if N.eqb c 27 then strip true t' else c :: strip false t'
  end.
Definition no_escape (t : text) : Prop := ~ In 27%N t.

(** What each verdict is called, in eight columns. *)
Definition column (v : summary_outcome) : text :=
  match v with
  | SumSuccess => tx "ok      "
  | SumCaught => tx "caught  "
  | SumMissed => tx "MISSED  "
  | SumUnviable => tx "unviable"
  | SumFailure => tx "FAILED  "
  | SumTimeout => tx "TIMEOUT "
  end.

(** The name of a scenario. *)
Definition scenario_name (s : scenario mutant) : option text :=
  match s with Baseline => Some (tx "Unmutated baseline") | Mutant m => mutant_name true m end.

(** Is the verdict of a mutant printed? *)
Definition reported (po : print_options) (s : scenario mutant) (v : summary_outcome) : bool :=
  match s, v with
  | Mutant _, SumCaught => po_caught po
  | Mutant _, SumUnviable => po_unviable po
  | _, _ => true
  end.
(** Is the log printed? *)
Definition with_log (po : print_options) (s : scenario mutant) (v : summary_outcome) : bool :=
  match s, v with
  | Baseline, SumSuccess | Mutant _, _ => po_all_logs po
  | Baseline, _ => true
  end.
(** The log, if it is printed; [None]: it is wanted but cannot be read as text. *)
Definition log_part (po : print_options) (s : scenario mutant) (v : summary_outcome) (log : option (list byte)) : option (option text) :=
  if with_log po s v
  then match log with Some b => match from_utf8 b with Some t => Some (Some t) | None => None end | None => None end
  else Some None.

(** The names of the phases. *)
Definition phase_word (p : phase) : text := match p with Check => tx "check" | Build => tx "build" | Test => tx "test" end.
(** The times of the phases. *)
Fixpoint times (secs : N -> text) (rs : list phase_result) : text :=
  match rs with
  | [] => []
  | [r] => secs (pr_duration r) ++ tx " " ++ phase_word (pr_phase r)
  | r :: rs' => secs (pr_duration r) ++ tx " " ++ phase_word (pr_phase r) ++ tx " + " ++ times secs rs'
  end.

(** The message about an outcome. *)
Definition message (secs : N -> text) (po : print_options) (v : summary_outcome) (name : text) (rs : list phase_result)
    (log : option text) : text :=
  column v ++ tx " " ++ name ++ (if po_times po then tx " in " ++ times secs rs else [])
  ++ [NL] ++ match log with Some t => t ++ [NL] | None => [] end.

(** The last line of the display: what stands between the commas. *)
Definition COMMA : chr := 44%N.
Definition item (n : nat) (word : text) : list text := match n with O => [] | _ => [show_nat n ++ tx " " ++ word] end.
Definition items (done total missed timeouts caught unviable : nat) (elapsed : text) (left : option text) : list text :=
  [show_nat done ++ tx "/" ++ show_nat total ++ tx " mutants tested"]
  ++ item missed (tx "MISSED") ++ item timeouts (tx "timeout") ++ item caught (tx "caught") ++ item unviable (tx "unviable")
  ++ [elapsed ++ tx " elapsed"] ++ match left with Some r => [tx "about " ++ r ++ tx " remaining"] | None => [] end.
(** A reader that cuts a line at the commas and drops the space after each. *)
Definition cut (t : text) : list text :=
  match split_on COMMA t with [] => [] | a :: r => a :: map (fun x => match x with [] => [] | _ :: y => y end) r end.

(** What is printed about an outcome, for a verdict. *)
Definition said (secs : N -> text) (po : print_options) (log : outcome mutant -> text) (o : outcome mutant) : text :=
  match summary o, scenario_name (oc_scenario o) with
  | Some v, Some n =>
      if reported po (oc_scenario o) v
      then message secs po v n (oc_results o) (if with_log po (oc_scenario o) v then Some (log o) else None)
      else []
  | _, _ => []
  end.

(** ** Colors, from book/src/output.md *)
Definition set_other_than_0 (e : env) (v : text) : Prop := exists x, e v = Some x /\ x <> tx "0".
Definition wants_colors (e : env) (c : colors) (terminal : bool) : Prop :=
  ~ set_other_than_0 e (tx "NO_COLOR")
  /\ (set_other_than_0 e (tx "CLICOLOR_FORCE") \/ c = CAlways \/ (c = CAuto /\ terminal = true)).
