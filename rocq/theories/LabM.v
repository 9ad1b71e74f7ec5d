(** Model of src/lab.rs: running the baseline and the worker threads, as a
    transition system whose executions are all interleavings of the threads. *)
From Coq Require Import String List NArith ZArith Bool Arith.
From Verif Require Import Text SpanM PathM MutantM ProcessM OutcomeM OutputM.
Import ListNotations.

(** A source tree: contents of the file at each resolved path (names from the tree
    root, without "." and ".."); symbolic links are not modelled. *)
Definition tree := list text -> option text.

Fixpoint key_eqb (a b : list text) : bool :=
  match a, b with
  | [], [] => true
  | x :: a', y :: b' => text_eqb x y && key_eqb a' b'
  | _, _ => false
  end.

Definition tree_set (t : tree) (k : list text) (c : text) : tree :=
  fun x => if key_eqb x k then Some c else t x.

(** The names on a path from the root, following "..". *)
Fixpoint resolve (here : list text) (cs : list comp) : list text :=
  match cs with
  | [] => rev here
  | Normal t :: cs' => resolve (t :: here) cs'
  | Parent :: cs' => resolve (tl here) cs'
  | _ :: cs' => resolve here cs'
  end.

Definition file_key (m : mutant) : list text := resolve [] (components (sf_path (mu_file m))).

(** src/build_dir.rs:92-98 [overwrite_file]: the file must exist. *)
Definition overwrite_file (t : tree) (k : list text) (c : text) : option tree :=
  match t k with Some _ => Some (tree_set t k c) | None => None end.

(** What the run is given, beyond the mutants. *)
Record params := mkParams {
  pa_check_only : bool;              (* --check *)
  pa_jobs : option nat;              (* --jobs *)
  pa_in_place : bool;                (* --in-place *)
  pa_skip_baseline : bool;           (* --baseline=skip *)
  pa_faults : bool;                  (* may writes to files in mutants.out fail? *)
  pa_write_faults : bool;            (* may writes to source files fail half way? *)
  pa_root : tree;                    (* the workspace *)
  pa_source : list text -> bool;     (* which files are source files *)
  pa_json : lab_outcome mutant -> text  (* serialisation of outcomes.json *)
}.

(** Program counter of a thread; [d] is its build directory's number. *)
Inductive wpc :=
| WInit                                              (* src/lab.rs:100-102: take build_dir_0 *)
| WCopy                                              (* 103-107: copy the tree *)
| WQueue (d : nat)                                   (* 238-240: take from the queue *)
| WStart (d : nat) (s : scenario mutant)             (* 259-266: start_scenario *)
| WApply (d : nat) (s : scenario mutant)             (* 269-274: write the diff, apply *)
| WPhase (d : nat) (s : scenario mutant) (done : list phase_result) (todo : list phase)  (* 277 *)
| WCargo (d : nat) (s : scenario mutant) (done : list phase_result) (p : phase) (todo : list phase) (* 283-292 *)
| WRevert (d : nat) (s : scenario mutant) (done : list phase_result)   (* 311-313 *)
| WRevertErr (d : nat) (s : scenario mutant)         (* 301-308 *)
| WAdd (d : nat) (s : scenario mutant) (done : list phase_result)      (* 314-317 *)
| WJson (d : nat) (o : outcome mutant)               (* src/output.rs:215, holding the mutex *)
| WJson2 (d : nat) (o : outcome mutant)              (* the same, file truncated *)
| WName (d : nat) (o : outcome mutant)               (* src/output.rs:216-225: the name *)
| WNewline (d : nat) (o : outcome mutant)            (* src/output.rs:225: its newline *)
| WFin (d : nat) (o : outcome mutant)                (* src/lab.rs:318-322 *)
| WEnd (ok : bool)                                   (* the thread returned Ok or Err *)
| WPanic.                                            (* the thread panicked *)

(** State shared by the threads. *)
Record shared := mkSh {
  sh_queue : list mutant;           (* src/lab.rs:94 work_queue *)
  sh_dir0 : option nat;             (* src/lab.rs:89 build_dir_0 *)
  sh_trees : list tree;             (* contents of the build directories *)
  sh_base : list tree;              (* ghost: their contents when made *)
  sh_used : used;                   (* OutputDir: used_log_names *)
  sh_logs : list text;              (* files in mutants.out/log *)
  sh_lab : lab_outcome mutant;      (* OutputDir: lab_outcome *)
  sh_out : entries;                 (* other files in mutants.out *)
  sh_mutex : option nat             (* the thread holding output_mutex in add_scenario_outcome *)
}.

Definition set_queue sh q := mkSh q (sh_dir0 sh) (sh_trees sh) (sh_base sh) (sh_used sh) (sh_logs sh) (sh_lab sh) (sh_out sh) (sh_mutex sh).
Definition set_dir0 sh d := mkSh (sh_queue sh) d (sh_trees sh) (sh_base sh) (sh_used sh) (sh_logs sh) (sh_lab sh) (sh_out sh) (sh_mutex sh).
Definition set_trees sh t := mkSh (sh_queue sh) (sh_dir0 sh) t (sh_base sh) (sh_used sh) (sh_logs sh) (sh_lab sh) (sh_out sh) (sh_mutex sh).
Definition add_dir sh t := mkSh (sh_queue sh) (sh_dir0 sh) (sh_trees sh ++ [t]) (sh_base sh ++ [t]) (sh_used sh) (sh_logs sh) (sh_lab sh) (sh_out sh) (sh_mutex sh).
Definition set_used sh u := mkSh (sh_queue sh) (sh_dir0 sh) (sh_trees sh) (sh_base sh) u (sh_logs sh) (sh_lab sh) (sh_out sh) (sh_mutex sh).
Definition set_log sh u n := mkSh (sh_queue sh) (sh_dir0 sh) (sh_trees sh) (sh_base sh) u (sh_logs sh ++ [n]) (sh_lab sh) (sh_out sh) (sh_mutex sh).
Definition set_lab sh l m := mkSh (sh_queue sh) (sh_dir0 sh) (sh_trees sh) (sh_base sh) (sh_used sh) (sh_logs sh) l (sh_out sh) m.
Definition set_out sh o m := mkSh (sh_queue sh) (sh_dir0 sh) (sh_trees sh) (sh_base sh) (sh_used sh) (sh_logs sh) (sh_lab sh) o m.

Fixpoint list_set {A} (l : list A) (i : nat) (x : A) : list A :=
  match l, i with
  | [], _ => []
  | _ :: l', 0 => x :: l'
  | y :: l', S i' => y :: list_set l' i' x
  end.

Definition no_tree : tree := fun _ => None.
Definition get_tree (sh : shared) (d : nat) : tree := nth d (sh_trees sh) no_tree.
Definition put_tree (sh : shared) (d : nat) (t : tree) : shared := set_trees sh (list_set (sh_trees sh) d t).

Definition OUTCOMES_JSON : text := tx "outcomes.json".

(** src/lab.rs:93: [max(1, min(jobs.unwrap_or(1), mutants.len()))]. *)
Definition n_threads (jobs : option nat) (n_mutants : nat) : nat :=
  Nat.max 1 (Nat.min (match jobs with Some j => j | None => 1 end) n_mutants).

Section Lab.
Context (P : params).

(** A cargo command may change the tree, but not source files (assumption on the
    tests being run). *)
Definition same_sources (t t' : tree) : Prop := forall k, pa_source P k = true -> t' k = t k.

(** src/copy_tree.rs, src/manifest.rs: a copy may lack files (ignored ones) and have
    a changed manifest. *)
Definition copy_of (src t : tree) : Prop :=
  forall k, pa_source P k = true -> t k = src k \/ t k = None.

(** The workspace tree as it is now. *)
Definition workspace_tree (sh : shared) : tree :=
  if pa_in_place P then get_tree sh 0 else pa_root P.

(** One step of thread [i] inside [run_one_scenario] (src/lab.rs:253-323). *)
Inductive sstep (i : nat) (sh : shared) : wpc -> shared -> wpc -> Prop :=
| ss_start : forall d s u n, sh_mutex sh = None ->
    start_name (sh_used sh) s = (u, n) -> ~ In n (sh_logs sh) ->
    sstep i sh (WStart d s) (set_log sh u n) (WApply d s)
| ss_start_err : forall d s u n, pa_faults P = true -> sh_mutex sh = None ->
    start_name (sh_used sh) s = (u, n) ->
    sstep i sh (WStart d s) (set_used sh u) (WEnd false)
| ss_start_err_after : forall d s u n, pa_faults P = true -> sh_mutex sh = None ->
    start_name (sh_used sh) s = (u, n) -> ~ In n (sh_logs sh) ->
    sstep i sh (WStart d s) (set_log sh u n) (WEnd false)
| ss_start_exists : forall d s u n, sh_mutex sh = None ->     (* create_new fails *)
    start_name (sh_used sh) s = (u, n) -> In n (sh_logs sh) ->
    sstep i sh (WStart d s) (set_used sh u) (WEnd false)
| ss_diff_err : forall d s, pa_faults P = true -> is_mutant s = true ->
    sstep i sh (WApply d s) sh (WEnd false)
| ss_apply : forall d m t, overwrite_file (get_tree sh d) (file_key m) (mutant_code m) = Some t ->
    sstep i sh (WApply d (Mutant m)) (put_tree sh d t) (WPhase d (Mutant m) [] (phases (pa_check_only P)))
| ss_apply_missing : forall d m,
    overwrite_file (get_tree sh d) (file_key m) (mutant_code m) = None ->
    sstep i sh (WApply d (Mutant m)) sh (WEnd false)
| ss_apply_io : forall d m c t, pa_write_faults P = true ->
    overwrite_file (get_tree sh d) (file_key m) c = Some t ->
    sstep i sh (WApply d (Mutant m)) (put_tree sh d t) (WEnd false)   (* failed in the middle *)
| ss_apply_none : forall d,
    sstep i sh (WApply d Baseline) sh (WPhase d Baseline [] (phases (pa_check_only P)))
| ss_phase : forall d s done p todo,
    sstep i sh (WPhase d s done (p :: todo)) sh (WCargo d s done p todo)
| ss_phases_end : forall d s done,
    sstep i sh (WPhase d s done []) sh (WRevert d s done)
| ss_cargo_ok : forall d s done p todo e dur t, is_success e = true ->
    same_sources (get_tree sh d) t ->
    sstep i sh (WCargo d s done p todo) (put_tree sh d t) (WPhase d s (done ++ [mkPR p dur e]) todo)
| ss_cargo_fail : forall d s done p todo e dur t, is_success e = false ->
    same_sources (get_tree sh d) t ->
    sstep i sh (WCargo d s done p todo) (put_tree sh d t) (WRevert d s (done ++ [mkPR p dur e]))
| ss_cargo_err : forall d s done p todo t,      (* internal error, or interrupted *)
    same_sources (get_tree sh d) t ->
    sstep i sh (WCargo d s done p todo) (put_tree sh d t) (WRevertErr d s)
| ss_revert : forall d m done t, overwrite_file (get_tree sh d) (file_key m) (sf_code (mu_file m)) = Some t ->
    sstep i sh (WRevert d (Mutant m) done) (put_tree sh d t) (WAdd d (Mutant m) done)
| ss_revert_missing : forall d m done,
    overwrite_file (get_tree sh d) (file_key m) (sf_code (mu_file m)) = None ->
    sstep i sh (WRevert d (Mutant m) done) sh (WEnd false)
| ss_revert_io : forall d m done c t, pa_write_faults P = true ->
    overwrite_file (get_tree sh d) (file_key m) c = Some t ->
    sstep i sh (WRevert d (Mutant m) done) (put_tree sh d t) (WEnd false)
| ss_revert_none : forall d done,
    sstep i sh (WRevert d Baseline done) sh (WAdd d Baseline done)
| ss_reverterr : forall d m t, overwrite_file (get_tree sh d) (file_key m) (sf_code (mu_file m)) = Some t ->
    sstep i sh (WRevertErr d (Mutant m)) (put_tree sh d t) (WEnd false)
| ss_reverterr_missing : forall d m,
    overwrite_file (get_tree sh d) (file_key m) (sf_code (mu_file m)) = None ->
    sstep i sh (WRevertErr d (Mutant m)) sh (WEnd false)
| ss_reverterr_io : forall d m c t, pa_write_faults P = true ->
    overwrite_file (get_tree sh d) (file_key m) c = Some t ->
    sstep i sh (WRevertErr d (Mutant m)) (put_tree sh d t) (WEnd false)
| ss_reverterr_none : forall d, sstep i sh (WRevertErr d Baseline) sh (WEnd false)
| ss_add : forall d s done l, sh_mutex sh = None -> lab_add (sh_lab sh) (mkOutcome s done) = Some l ->
    sstep i sh (WAdd d s done) (set_lab sh l (Some i)) (WJson d (mkOutcome s done))
| ss_add_panic : forall d s done, sh_mutex sh = None -> lab_add (sh_lab sh) (mkOutcome s done) = None ->
    sstep i sh (WAdd d s done) sh WPanic
| ss_json : forall d o,
    sstep i sh (WJson d o) (set_out sh (dset (sh_out sh) OUTCOMES_JSON (NFile [])) (Some i)) (WJson2 d o)
| ss_json_err : forall d o, pa_faults P = true ->
    sstep i sh (WJson d o) (set_out sh (sh_out sh) None) (WEnd false)
| ss_json2 : forall d o,
    sstep i sh (WJson2 d o)
      (set_out sh (dset (sh_out sh) OUTCOMES_JSON (NFile (pa_json P (sh_lab sh)))) (Some i)) (WName d o)
| ss_json2_err : forall d o t r, pa_faults P = true -> pa_json P (sh_lab sh) = t ++ r ->
    sstep i sh (WJson2 d o) (set_out sh (dset (sh_out sh) OUTCOMES_JSON (NFile t)) None) (WEnd false)
| ss_json2_lost : forall d o t r, pa_faults P = true -> pa_json P (sh_lab sh) = t ++ r ->   (* an error on drop of the BufWriter *)
    sstep i sh (WJson2 d o) (set_out sh (dset (sh_out sh) OUTCOMES_JSON (NFile t)) (Some i)) (WName d o)
| ss_name : forall d m done v f n,
    summary (mkOutcome (Mutant m) done) = Some v -> list_for v = Some f -> mutant_name true m = Some n ->
    sstep i sh (WName d (mkOutcome (Mutant m) done))
      (set_out sh (append_file (sh_out sh) f n) (Some i)) (WNewline d (mkOutcome (Mutant m) done))
| ss_name_err : forall d m done v f n p r, pa_faults P = true ->
    summary (mkOutcome (Mutant m) done) = Some v -> list_for v = Some f -> mutant_name true m = Some n -> n = p ++ r ->
    sstep i sh (WName d (mkOutcome (Mutant m) done)) (set_out sh (append_file (sh_out sh) f p) None) (WEnd false)
| ss_name_panic : forall d m done, 
    summary (mkOutcome (Mutant m) done) = None \/
    (exists v f, summary (mkOutcome (Mutant m) done) = Some v /\ list_for v = Some f
                 /\ mutant_name true m = None) ->
    sstep i sh (WName d (mkOutcome (Mutant m) done)) sh WPanic
| ss_no_name : forall d m done v, summary (mkOutcome (Mutant m) done) = Some v -> list_for v = None ->
    sstep i sh (WName d (mkOutcome (Mutant m) done)) (set_out sh (sh_out sh) None)
      (WFin d (mkOutcome (Mutant m) done))
| ss_no_name_base : forall d done,
    sstep i sh (WName d (mkOutcome Baseline done)) (set_out sh (sh_out sh) None)
      (WFin d (mkOutcome Baseline done))
| ss_newline : forall d m done v f, summary (mkOutcome (Mutant m) done) = Some v -> list_for v = Some f ->
    sstep i sh (WNewline d (mkOutcome (Mutant m) done))
      (set_out sh (append_file (sh_out sh) f [NL]) None) (WFin d (mkOutcome (Mutant m) done))
| ss_newline_err : forall d o, pa_faults P = true ->
    sstep i sh (WNewline d o) (set_out sh (sh_out sh) None) (WEnd false).

(** One step of worker thread [i]: src/lab.rs:98-109 and [run_queue], 229-251. *)
Inductive wstep (i : nat) (sh : shared) : wpc -> shared -> wpc -> Prop :=
| ws_take_dir : forall d, sh_dir0 sh = Some d -> wstep i sh WInit (set_dir0 sh None) (WQueue d)
| ws_no_dir : sh_dir0 sh = None -> wstep i sh WInit sh WCopy
| ws_copy : forall t, copy_of (workspace_tree sh) t ->
    wstep i sh WCopy (add_dir sh t) (WQueue (length (sh_trees sh)))
| ws_copy_err : wstep i sh WCopy sh (WEnd false)
| ws_next : forall d m q, sh_queue sh = m :: q ->
    wstep i sh (WQueue d) (set_queue sh q) (WStart d (Mutant m))
| ws_empty : forall d, sh_queue sh = [] -> wstep i sh (WQueue d) sh (WEnd true)
| ws_again : forall d o, wstep i sh (WFin d o) sh (WQueue d)
| ws_scenario : forall c sh' c', sstep i sh c sh' c' -> wstep i sh c sh' c'.

(** The main thread and the result of [test_mutants]. *)
Inductive result := ROk (l : lab_outcome mutant) | RErr | RPanic.
Inductive main_pc := MBaseline (c : wpc) | MWork | MEnd (r : result).

Record state := mkLS { ls_sh : shared; ls_main : main_pc; ls_workers : list wpc }.

(** src/lab.rs:131-158 [join_threads]: panics are passed on, the first error is
    returned. *)
Definition is_end (c : wpc) : bool := match c with WEnd _ | WPanic => true | _ => false end.
Definition is_panic (c : wpc) : bool := match c with WPanic => true | _ => false end.
Definition is_err (c : wpc) : bool := match c with WEnd false => true | _ => false end.

Definition join_threads (ws : list wpc) (l : lab_outcome mutant) : result :=
  if existsb is_panic ws then RPanic
  else if existsb is_err ws then RErr
  else ROk l.

Definition spawn (n : nat) : list wpc := repeat WInit n.

(** One step of the whole program. [n] is the number of mutants. *)
Inductive step (n : nat) : state -> state -> Prop :=
| st_baseline : forall sh c sh' c', sstep 0 sh c sh' c' ->
    step n (mkLS sh (MBaseline c) []) (mkLS sh' (MBaseline c') [])
| st_baseline_ok : forall sh d o, oc_success o = Some true ->     (* src/lab.rs:69-72, 89-113 *)
    step n (mkLS sh (MBaseline (WFin d o)) []) (mkLS (set_dir0 sh (Some d)) MWork (spawn (n_threads (pa_jobs P) n)))
| st_baseline_failed : forall sh d o, oc_success o = Some false ->   (* src/lab.rs:73-83 *)
    step n (mkLS sh (MBaseline (WFin d o)) []) (mkLS sh (MEnd (ROk (sh_lab sh))) [])
| st_baseline_err : forall sh,
    step n (mkLS sh (MBaseline (WEnd false)) []) (mkLS sh (MEnd RErr) [])
| st_baseline_panic : forall sh,
    step n (mkLS sh (MBaseline WPanic) []) (mkLS sh (MEnd RPanic) [])
| st_worker : forall sh ws i c sh' c', nth_error ws i = Some c -> wstep i sh c sh' c' ->
    step n (mkLS sh MWork ws) (mkLS sh' MWork (list_set ws i c'))
| st_join : forall sh ws, forallb is_end ws = true ->
    step n (mkLS sh MWork ws) (mkLS sh (MEnd (join_threads ws (sh_lab sh))) ws).

Inductive steps (n : nat) : state -> state -> Prop :=
| steps_refl : forall s, steps n s s
| steps_more : forall s s' s'', steps n s s' -> step n s' s'' -> steps n s s''.

(** src/lab.rs:31-70: the start, with a list of mutants that is not empty (already
    shuffled if asked) and a first build directory with tree [t0]. *)
Definition start_state (o : entries) (t0 : tree) (ms : list mutant) : state :=
  mkLS (mkSh ms (if pa_skip_baseline P then Some 0 else None) [t0] [t0] [] [] lab_new o None)
       (if pa_skip_baseline P then MWork else MBaseline (WStart 0 Baseline))
       (if pa_skip_baseline P then spawn (n_threads (pa_jobs P) (length ms)) else []).

(** The tree of the first build directory: src/build_dir.rs:42-52. *)
Definition first_tree (t0 : tree) : Prop :=
  if pa_in_place P then t0 = pa_root P else copy_of (pa_root P) t0.

Definition reachable (o : entries) (t0 : tree) (ms : list mutant) (s : state) : Prop :=
  steps (length ms) (start_state o t0 ms) s.

(** src/lab.rs:45-48: no mutants: nothing is run. *)
Definition empty_result : result := ROk lab_new.

(** src/main.rs:515-522 and the exit code of a [main] that returns an error
    (1) or panics (101). *)
Definition process_exit (r : result) : option Z :=
  match r with
  | ROk l => lab_exit_code l
  | RErr => Some 1%Z
  | RPanic => Some 101%Z
  end.

End Lab.
