(** Model of the log and the diff file of one scenario: [ScenarioOutput] in src/output.rs, and the
    order of the writes to it from src/lab.rs [run_one_scenario], src/cargo.rs [run_cargo] and
    src/process.rs [Process::run], with the commands writing to the same file. *)
From Coq Require Import String List NArith ZArith Bool.
From Verif Require Import Text Utf8M SpanM PathM MutantM ProcessM OutcomeM JsonM.
Import ListNotations.
Open Scope list_scope.

(** An open file: its mode and its position.  With O_APPEND every write goes to the end. *)
Record fhandle := mkFH { fh_append : bool; fh_pos : nat }.

(** write(2) of some bytes: the new contents and the handle moved past them. *)
Definition fwrite (f : list byte) (h : fhandle) (b : list byte) : list byte * fhandle :=
  let p := if fh_append h then length f else fh_pos h in
  (firstn p f ++ repeat 0%N (p - length f) ++ b ++ skipn (p + length b) f,
   mkFH (fh_append h) (p + length b)).

(** src/output.rs:304-308: the scenario's own handle, opened for append. *)
Definition tool_handle : fhandle := mkFH true 0.
(** src/output.rs:342-348 [open_log_append]: the handles given to commands. *)
Definition child_handle : fhandle := mkFH true 0.

(** src/output.rs:351-353 [message]: [write!] makes one write for each piece of the format. *)
Definition message_pieces (t : text) : list (list byte) := [encode (NL :: tx "*** "); encode t; encode [NL]].

(** src/scenario.rs:17-24: [None] is the panic in [Mutant::name]. *)
Definition scenario_text (s : scenario mutant) : option text :=
  match s with Baseline => Some (tx "baseline") | Mutant m => mutant_name true m end.

(** src/process.rs:142-156: the derived [Debug] of [Exit]. *)
Definition show_exit (e : exit_t) : text :=
  match e with
  | ExSuccess => tx "Success"
  | ExFailure c => tx "Failure(" ++ show_Z c ++ tx ")"
  | ExTimeout => tx "Timeout"
  | ExSignalled c => tx "Signalled(" ++ show_Z c ++ tx ")"
  | ExOther => tx "Other"
  end.

(** What one scenario is given: the diff is computed by another crate, the command lines are in
    CargoM. *)
Record lconf := mkLC {
  lc_scenario : scenario mutant;
  lc_diff : text;
  lc_argv : phase -> list text;
  lc_phases : list phase;
  lc_faults : bool                  (* may writes and opens fail? *)
}.

(** Where the thread is. *)
Inductive lpc :=
| POpen                                            (* src/output.rs:304-308 *)
| PHead                                            (* src/output.rs:320 *)
| PSay (ps : list (list byte)) (k : lpc)           (* in [message], then on to [k] *)
| PStarted                                         (* src/lab.rs:264-270 *)
| PDiff                                            (* src/output.rs:331-333 *)
| PApply                                           (* src/lab.rs:273 *)
| PPhases (done : list (phase * exit_t)) (todo : list phase)                  (* src/lab.rs:277 *)
| PSpawn (done : list (phase * exit_t)) (p : phase) (todo : list phase)       (* src/process.rs:81-97 *)
| PWait (done : list (phase * exit_t)) (p : phase) (todo : list phase)        (* src/process.rs:58-64 *)
| PNext (done : list (phase * exit_t)) (p : phase) (e : exit_t) (todo : list phase)  (* src/cargo.rs:67, src/lab.rs:293-300 *)
| PEnd (r : option (list (phase * exit_t)))        (* the phase results, or an error *)
| PPanic.

(** The disk and the handles: commands keep theirs as long as any of their processes lives.  A
    command is known by its number. *)
Record lstate := mkL {
  l_file : option (list byte);
  l_diff : option (list byte);
  l_tool : fhandle;
  l_kids : list (nat * fhandle);
  l_pc : lpc
}.

(** What is seen of a step. *)
Inductive label :=
| EQuiet
| ETool (b : list byte)              (* the tool wrote to the log *)
| ESpawn (n : nat)                   (* command [n] was started *)
| EChild (n : nat) (b : list byte)   (* a process of command [n] wrote to the log *)
| EExit (n : nat) (e : exit_t).      (* command [n] was seen to end *)

Definition set_pc (s : lstate) (k : lpc) : lstate := mkL (l_file s) (l_diff s) (l_tool s) (l_kids s) k.
Definition say (t : text) (k : lpc) : lpc := PSay (message_pieces t) k.

Section Log.
Context (c : lconf).

Inductive lstep (s : lstate) : label -> lstate -> Prop :=
| l_open : l_pc s = POpen -> l_file s = None ->
    lstep s EQuiet (mkL (Some []) (l_diff s) tool_handle (l_kids s) PHead)
| l_open_exists : forall f, l_pc s = POpen -> l_file s = Some f ->         (* create_new *)
    lstep s EQuiet (set_pc s (PEnd None))
| l_open_err : l_pc s = POpen -> lc_faults c = true -> lstep s EQuiet (set_pc s (PEnd None))
| l_head : forall t, l_pc s = PHead -> scenario_text (lc_scenario c) = Some t ->
    lstep s EQuiet (set_pc s (say t PStarted))
| l_head_panic : l_pc s = PHead -> scenario_text (lc_scenario c) = None -> lstep s EQuiet (set_pc s PPanic)
| l_write : forall x y ps k f f' h', l_pc s = PSay ((x ++ y) :: ps) k -> x <> [] -> l_file s = Some f ->
    fwrite f (l_tool s) x = (f', h') ->                                    (* write_all: maybe in parts *)
    lstep s (ETool x) (mkL (Some f') (l_diff s) h' (l_kids s) (PSay (y :: ps) k))
| l_piece : forall ps k, l_pc s = PSay ([] :: ps) k -> lstep s EQuiet (set_pc s (PSay ps k))
| l_said : forall k, l_pc s = PSay [] k -> lstep s EQuiet (set_pc s k)
| l_say_err : forall ps k, l_pc s = PSay ps k -> lc_faults c = true -> lstep s EQuiet (set_pc s (PEnd None))
| l_baseline : l_pc s = PStarted -> lc_scenario c = Baseline ->
    lstep s EQuiet (set_pc s (PPhases [] (lc_phases c)))
| l_mutant : forall m, l_pc s = PStarted -> lc_scenario c = Mutant m ->    (* src/lab.rs:270-272, src/output.rs:329-330 *)
    lstep s EQuiet (set_pc s (say (tx "mutation diff:" ++ [NL] ++ lc_diff c) PDiff))
| l_started_err : l_pc s = PStarted -> lc_faults c = true -> lstep s EQuiet (set_pc s (PEnd None))
| l_write_diff : l_pc s = PDiff ->
    lstep s EQuiet (mkL (l_file s) (Some (encode (lc_diff c))) (l_tool s) (l_kids s) PApply)
| l_write_diff_err : forall x y, l_pc s = PDiff -> lc_faults c = true -> encode (lc_diff c) = x ++ y ->
    lstep s EQuiet (mkL (l_file s) (Some x) (l_tool s) (l_kids s) (PEnd None))
| l_open_diff_err : l_pc s = PDiff -> lc_faults c = true -> lstep s EQuiet (set_pc s (PEnd None))
| l_apply : l_pc s = PApply -> lstep s EQuiet (set_pc s (PPhases [] (lc_phases c)))
| l_apply_err : l_pc s = PApply -> lstep s EQuiet (set_pc s (PEnd None))
| l_phase : forall done p todo, l_pc s = PPhases done (p :: todo) ->       (* src/process.rs:78-79 *)
    lstep s EQuiet (set_pc s (say (quote_argv (lc_argv c p)) (PSpawn done p todo)))
| l_phases_end : forall done, l_pc s = PPhases done [] -> lstep s EQuiet (set_pc s (PEnd (Some done)))
| l_spawn : forall done p todo, l_pc s = PSpawn done p todo ->
    lstep s (ESpawn (length done))
      (mkL (l_file s) (l_diff s) (l_tool s)
           (l_kids s ++ [(length done, child_handle); (length done, child_handle)]) (PWait done p todo))
| l_spawn_err : forall done p todo, l_pc s = PSpawn done p todo -> lstep s EQuiet (set_pc s (PEnd None))
| l_exit : forall done p todo e, l_pc s = PWait done p todo ->             (* src/process.rs:65 *)
    lstep s (EExit (length done) e) (set_pc s (say (tx "result: " ++ show_exit e) (PNext done p e todo)))
| l_wait_err : forall done p todo, l_pc s = PWait done p todo -> lstep s EQuiet (set_pc s (PEnd None))
| l_next : forall done p e todo, l_pc s = PNext done p e todo -> is_success e = true ->
    lstep s EQuiet (set_pc s (PPhases (done ++ [(p, e)]) todo))
| l_break : forall done p e todo, l_pc s = PNext done p e todo -> is_success e = false ->
    lstep s EQuiet (set_pc s (PEnd (Some (done ++ [(p, e)]))))
| l_interrupted : forall done p e todo, l_pc s = PNext done p e todo -> lstep s EQuiet (set_pc s (PEnd None))
| l_child : forall n h b f f' h' k1 k2, l_kids s = k1 ++ (n, h) :: k2 -> l_file s = Some f ->
    fwrite f h b = (f', h') ->
    lstep s (EChild n b) (mkL (Some f') (l_diff s) (l_tool s) (k1 ++ (n, h') :: k2) (l_pc s)).

(** The steps so far, with what was seen. *)
Inductive lruns (s : lstate) : list label -> lstate -> Prop :=
| lr_refl : lruns s [] s
| lr_more : forall tr l s1 s2, lruns s tr s1 -> lstep s1 l s2 -> lruns s (tr ++ [l]) s2.

(** The name of the log is new (C16). *)
Definition lstart : lstate := mkL None None tool_handle [] POpen.
End Log.
