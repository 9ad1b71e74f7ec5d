(** Model of the progress display, src/console.rs, and of the calls to it from src/lab.rs. *)
From Coq Require Import String List NArith ZArith QArith Qround Bool Arith.
From Verif Require Import Text SpanM PathM MutantM ProcessM OutcomeM OutputM LabM LabS TimeoutM.
Import ListNotations.
Open Scope nat_scope.

(** src/console.rs:499-511 [ScenarioModel] and 363-380 [LabModel]; directories of scenarios are
    the numbers of LabM, those of copies the number of the thread.  The tree walk, which ends
    before, the names, and times of phases are left out. *)
Record scen := mkScen { sc_dir : nat; sc_phase : option phase }.
Record cmodel := mkCM {
  cm_scens : list scen;
  cm_copies : list (nat * N);
  cm_lab_start : option N;
  cm_mutants_start : option N;
  cm_done : nat; cm_total : nat;
  cm_caught : nat; cm_missed : nat; cm_timeouts : nat; cm_unviable : nat; cm_successes : nat; cm_failures : nat
}.
Definition set_scens m s := mkCM s (cm_copies m) (cm_lab_start m) (cm_mutants_start m) (cm_done m) (cm_total m)
  (cm_caught m) (cm_missed m) (cm_timeouts m) (cm_unviable m) (cm_successes m) (cm_failures m).
Definition set_copies m c := mkCM (cm_scens m) c (cm_lab_start m) (cm_mutants_start m) (cm_done m) (cm_total m)
  (cm_caught m) (cm_missed m) (cm_timeouts m) (cm_unviable m) (cm_successes m) (cm_failures m).

(** The methods of [Console] that change the model. *)
Inductive event :=
| EDiscovered (n : nat) (now : N)              (* discovered_mutants *)
| EStartTesting (now : N)                      (* start_testing_mutants *)
| EStarted (d : nat)                           (* scenario_started *)
| EPhaseStarted (d : nat) (p : phase)
| EPhaseFinished (d : nat) (p : phase)
| EFinished (d : nat) (o : outcome mutant) (log_readable : bool)
| EStartCopy (i : nat) | ECopyProgress (i : nat) (bytes : N) | EFinishCopy (i : nat)
| ELabFinished.

(** [Vec::swap_remove]. *)
Definition swap_remove {A} (l : list A) (i : nat) : list A :=
  match rev l with
  | [] => []
  | x :: _ => if Nat.eqb (S i) (length l) then removelast l else removelast (list_set l i x)
  end.
Fixpoint position {A} (f : A -> bool) (l : list A) : option nat :=
  match l with [] => None | x :: l' => if f x then Some 0 else option_map S (position f l') end.

(** [iter_mut().find(..)] followed by a change of the element found. *)
Fixpoint change_first {A} (f : A -> bool) (g : A -> option A) (l : list A) : option (list A) :=
  match l with
  | [] => None
  | x :: l' => if f x then option_map (fun y => y :: l') (g x) else option_map (cons x) (change_first f g l')
  end.

Section Console.
(** Options that choose which outcomes are printed. *)
Variable print_caught print_unviable show_all_logs : bool.

(** src/console.rs:66-75, the counters. *)
Definition count_outcome (m : cmodel) (is_mut : bool) (v : summary_outcome) : cmodel :=
  let d := if is_mut then cm_done m + 1 else cm_done m in
  let mk a b c u s f := mkCM (cm_scens m) (cm_copies m) (cm_lab_start m) (cm_mutants_start m) d (cm_total m) a b c u s f in
  match v with
  | SumCaught => mk (cm_caught m + 1) (cm_missed m) (cm_timeouts m) (cm_unviable m) (cm_successes m) (cm_failures m)
  | SumMissed => mk (cm_caught m) (cm_missed m + 1) (cm_timeouts m) (cm_unviable m) (cm_successes m) (cm_failures m)
  | SumTimeout => mk (cm_caught m) (cm_missed m) (cm_timeouts m + 1) (cm_unviable m) (cm_successes m) (cm_failures m)
  | SumUnviable => mk (cm_caught m) (cm_missed m) (cm_timeouts m) (cm_unviable m + 1) (cm_successes m) (cm_failures m)
  | SumSuccess => mk (cm_caught m) (cm_missed m) (cm_timeouts m) (cm_unviable m) (cm_successes m + 1) (cm_failures m)
  | SumFailure => mk (cm_caught m) (cm_missed m) (cm_timeouts m) (cm_unviable m) (cm_successes m) (cm_failures m + 1)
  end.
(** src/console.rs:79-120, what is printed: [None] is a panic, from [unwrap] on no phase
    results or from the log not being readable as UTF-8. *)
Definition print_outcome (o : outcome mutant) (log_readable : bool) : option unit :=
  match mutant_caught o, oc_success o with
  | Some caught, Some success =>
      if caught && negb print_caught
         || is_mutant (oc_scenario o) && check_or_build_failed o && negb print_unviable
      then Some tt
      else if (negb (is_mutant (oc_scenario o)) && negb success) || show_all_logs
           then if log_readable then Some tt else None
           else Some tt
  | _, _ => None
  end.

(** The methods.  [None] is a panic (an [expect], or a debug assertion in 530-535). *)
Definition handle (e : event) (m : cmodel) : option cmodel :=
  match e with
  | EDiscovered n now =>
      Some (mkCM (cm_scens m) (cm_copies m) (Some now) (cm_mutants_start m) (cm_done m) n
              (cm_caught m) (cm_missed m) (cm_timeouts m) (cm_unviable m) (cm_successes m) (cm_failures m))
  | EStartTesting now =>
      Some (mkCM (cm_scens m) (cm_copies m) (cm_lab_start m) (Some now) (cm_done m) (cm_total m)
              (cm_caught m) (cm_missed m) (cm_timeouts m) (cm_unviable m) (cm_successes m) (cm_failures m))
  | EStarted d => Some (set_scens m (cm_scens m ++ [mkScen d None]))
  | EPhaseStarted d p =>
      option_map (set_scens m) (change_first (fun s => Nat.eqb (sc_dir s) d) (fun s => Some (mkScen d (Some p))) (cm_scens m))
  | EPhaseFinished d p =>
      option_map (set_scens m)
        (change_first (fun s => Nat.eqb (sc_dir s) d)
           (fun s => match sc_phase s with Some q => if phase_eqb q p then Some (mkScen d None) else None | None => None end)
           (cm_scens m))
  | EFinished d o readable =>
      match summary o with
      | None => None
      | Some v =>
          let m' := count_outcome m (is_mutant (oc_scenario o)) v in
          match print_outcome o readable with
          | None => None
          | Some _ => Some (set_scens m' (filter (fun s => negb (Nat.eqb (sc_dir s) d)) (cm_scens m')))
          end
      end
  | EStartCopy i => Some (set_copies m (cm_copies m ++ [(i, 0%N)]))
  | ECopyProgress i b =>
      option_map (set_copies m) (change_first (fun c => Nat.eqb (fst c) i) (fun _ => Some (i, b)) (cm_copies m))
  | EFinishCopy i =>
      match position (fun c => Nat.eqb (fst c) i) (cm_copies m) with
      | None => None
      | Some k => Some (set_copies m (swap_remove (cm_copies m) k))
      end
  | ELabFinished => Some (set_scens m [])
  end.
Fixpoint handle_all (es : list event) (m : cmodel) : option cmodel :=
  match es with
  | [] => Some m
  | e :: es' => match handle e m with Some m' => handle_all es' m' | None => None end
  end.

(** src/console.rs:384-463 [LabModel::render]: the numbers drawn; [None] is a panic.  Times are
    in nanoseconds; [rnd] rounds to a 64-bit float. *)
Variable rnd : Q -> Q.
Record shown := mkShown {
  sn_done : nat; sn_total : nat; sn_missed : option nat; sn_timeouts : option nat;
  sn_caught : option nat; sn_unviable : option nat; sn_elapsed : N; sn_remaining : option N }.
Definition positive_only (n : nat) : option nat := if Nat.ltb 0 n then Some n else None.
Definition elapsed (now start : N) : N := (now - start)%N.      (* saturating *)
Definition q_of_nat (n : nat) : Q := inject_Z (Z.of_nat n).
Definition ceil (q : Q) : Q := inject_Z (Qceiling q).
Definition remaining_secs (el : N) (total dn : nat) : Q :=
  let remain := rnd (q_of_nat total - q_of_nat dn) in
  let r := rnd (rnd (as_secs rnd el * remain) / q_of_nat dn) in
  if Qle_bool r (inject_Z 300) then r
  else rnd (ceil (rnd (rnd (r + inject_Z 30) / inject_Z 60)) * inject_Z 60).
Definition render (m : cmodel) (now : N) : option (option shown) :=
  match cm_lab_start m with
  | None => Some None
  | Some start =>
      let sh rem := Some (Some (mkShown (cm_done m) (cm_total m) (positive_only (cm_missed m)) (positive_only (cm_timeouts m))
                      (positive_only (cm_caught m)) (positive_only (cm_unviable m)) (elapsed now start) rem)) in
      if Nat.ltb 2 (cm_done m)
      then match cm_mutants_start m with
           | None => None
           | Some ms =>
               match secs_of (ceil (remaining_secs (elapsed now ms) (cm_total m) (cm_done m))) with
               | Some d => sh (Some d)
               | None => None
               end
           end
      else sh None
  end.
End Console.

(** ** The calls from src/lab.rs *)
(** The call a thread makes in a step of LabM.  [rd]: can the log be read. *)
Definition emits (i : nat) (rd : bool) (c c' : wpc) : list event :=
  match c, c' with
  | WStart d _, WApply _ _ => [EStarted d]                                   (* src/lab.rs:265-266 *)
  | WPhase d _ _ (p :: _), WCargo _ _ _ _ _ => [EPhaseStarted d p]           (* 278 *)
  | WCargo d _ _ p _, WPhase _ _ _ _ => [EPhaseFinished d p]                 (* 296 *)
  | WCargo d _ _ p _, WRevert _ _ _ => [EPhaseFinished d p]
  | WFin d o, WQueue _ => [EFinished d o rd]                                 (* 319-320 *)
  | WCopy, WQueue _ => [EFinishCopy i]                                       (* src/copy_tree.rs:103 *)
  | _, _ => []
  end.
Definition finishes (c c' : wpc) : list (outcome mutant) :=
  match c, c' with WFin _ o, WQueue _ => [o] | _, _ => [] end.

(** The lab with its display.  [x_console] is [None] after a panic in the display.  [x_copying]
    lists the threads that have begun to copy the tree; [x_finished] is not in the code: the
    outcomes given to [scenario_finished] so far. *)
Record xstate := mkX { x_lab : state; x_console : option cmodel; x_copying : list nat; x_finished : list (outcome mutant) }.

Section Run.
Context (P : params) (print_caught print_unviable show_all_logs logs_ok : bool).
Notation H := (handle_all print_caught print_unviable show_all_logs).

(** One step of the lab together with its calls to the console, or a call while copying.  Calls
    are atomic, since the view is behind a mutex. *)
Inductive xstep (n : nat) : xstate -> xstate -> Prop :=
| xs_baseline : forall sh c sh' c' m cp fin rd, sstep P 0 sh c sh' c' -> (logs_ok = true -> rd = true) ->
    xstep n (mkX (mkLS sh (MBaseline c) []) (Some m) cp fin)
            (mkX (mkLS sh' (MBaseline c') []) (H (emits 0 rd c c') m) cp fin)
| xs_baseline_ok : forall sh d o m cp fin rd now, oc_success o = Some true -> (logs_ok = true -> rd = true) ->
    xstep n (mkX (mkLS sh (MBaseline (WFin d o)) []) (Some m) cp fin)
            (mkX (mkLS (set_dir0 sh (Some d)) MWork (spawn (n_threads (pa_jobs P) n)))
                 (H [EFinished d o rd; EStartTesting now] m) cp (fin ++ [o]))
| xs_baseline_failed : forall sh d o m cp fin rd, oc_success o = Some false -> (logs_ok = true -> rd = true) ->
    xstep n (mkX (mkLS sh (MBaseline (WFin d o)) []) (Some m) cp fin)
            (mkX (mkLS sh (MEnd (ROk (sh_lab sh))) []) (H [EFinished d o rd] m) cp (fin ++ [o]))
| xs_baseline_err : forall sh m cp fin,
    xstep n (mkX (mkLS sh (MBaseline (WEnd false)) []) (Some m) cp fin) (mkX (mkLS sh (MEnd RErr) []) (Some m) cp fin)
| xs_baseline_panic : forall sh m cp fin,
    xstep n (mkX (mkLS sh (MBaseline WPanic) []) (Some m) cp fin) (mkX (mkLS sh (MEnd RPanic) []) (Some m) cp fin)
| xs_start_copy : forall sh ws i m cp fin, nth_error ws i = Some WCopy -> ~ In i cp ->
    xstep n (mkX (mkLS sh MWork ws) (Some m) cp fin) (mkX (mkLS sh MWork ws) (H [EStartCopy i] m) (i :: cp) fin)
| xs_copy_progress : forall sh ws i b m cp fin, nth_error ws i = Some WCopy -> In i cp ->
    xstep n (mkX (mkLS sh MWork ws) (Some m) cp fin) (mkX (mkLS sh MWork ws) (H [ECopyProgress i b] m) cp fin)
| xs_worker : forall sh ws i c sh' c' m cp fin rd, nth_error ws i = Some c -> wstep P i sh c sh' c' ->
    (forall d, c = WCopy -> c' = WQueue d -> In i cp) -> (logs_ok = true -> rd = true) ->
    xstep n (mkX (mkLS sh MWork ws) (Some m) cp fin)
            (mkX (mkLS sh' MWork (list_set ws i c')) (H (emits i rd c c') m) cp (fin ++ finishes c c'))
| xs_join : forall sh ws m cp fin, forallb is_end ws = true ->
    xstep n (mkX (mkLS sh MWork ws) (Some m) cp fin)
            (mkX (mkLS sh (MEnd (join_threads ws (sh_lab sh))) ws)
                 (match join_threads ws (sh_lab sh) with ROk _ => H [ELabFinished] m | _ => Some m end) cp fin).
Inductive xsteps (n : nat) : xstate -> xstate -> Prop :=
| xsteps_refl x : xsteps n x x
| xsteps_more x y z : xsteps n x y -> xstep n y z -> xsteps n x z.

(** src/lab.rs:41-58, then 92 if there is no baseline: the number of mutants is set, and the first
    build directory has been copied. *)
Definition empty_model : cmodel := mkCM [] [] None None 0 0 0 0 0 0 0 0.
Definition xstart (o : entries) (t0 : tree) (ms : list mutant) (now now' : N) : xstate :=
  mkX (start_state P o t0 ms)
    (H (EDiscovered (length ms) now :: if pa_skip_baseline P then [EStartTesting now'] else []) empty_model) [] [].
Definition xreachable (o : entries) (t0 : tree) (ms : list mutant) (x : xstate) : Prop :=
  exists now now', xsteps (length ms) (xstart o t0 ms now now') x.
End Run.
