(** Specification of the logs of a run (C71). *)
From Coq Require Import String List NArith ZArith QArith Bool Arith.
From Verif Require Import Text Utf8M SpanM PathM MutantM ProcessM OutcomeM OutputM OptionsM PackageM CargoM JsonM LabM LaunchM LaunchS LogM LogS LogsM.
Import ListNotations.
Open Scope list_scope.
Open Scope nat_scope.

(** Processes that ended, each as its command line, its output and its result; [out n] is the output of the
    [n]-th command of the log. *)
Fixpoint account (out : nat -> list byte) (n : nat) (b : list launch) : list byte :=
  match b with
  | [] => []
  | l :: b' =>
      entry (quote_argv (la_argv l)) ++ out n
      ++ (match la_result l with Some (e, _) => entry (tx "result: " ++ show_exit e) | None => [] end)
      ++ account out (S n) b'
  end.

(** What is in the log of a scenario when its processes were [b]. *)
Definition log_text (diff : mutant -> text) (s : scenario mutant) (name : text) (out : nat -> list byte) (b : list launch) : list byte :=
  match s with
  | Baseline => entry name
  | Mutant m => entry name ++ entry (tx "mutation diff:" ++ [NL] ++ diff m)
  end ++ account out 0 b.

(** The name of a scenario. *)
Definition called (s : scenario mutant) (name : text) : Prop :=
  match s with Baseline => name = tx "baseline" | Mutant m => mutant_name true m = Some name end.

(** The log at [k] is the record of the processes [b] of a scenario: the tool's part is about them, nothing else
    is in the file but what the commands wrote, and if these wrote only while they ran, their output is
    where it belongs. *)
Definition record_of (diff : mutant -> text) (logs : list glog) (k : nat) (s : scenario mutant) (b : list launch) : Prop :=
  exists g name, nth_error logs k = Some g /\ gl_scenario g = s /\ called s name
    /\ told (gl_trace g) = log_text diff s name (fun _ => []) b
    /\ l_file (gl_state g) = Some (written (gl_trace g))
    /\ (tidy None (gl_trace g) = true ->
        l_file (gl_state g) = Some (log_text diff s name (fun n => output_of n (gl_trace g)) b)).

(** The diff beside it. *)
Definition diff_beside (diff : mutant -> text) (logs : list glog) (k : nat) (s : scenario mutant) : Prop :=
  forall g, nth_error logs k = Some g ->
    l_diff (gl_state g) = match s with Mutant m => Some (encode (diff m)) | Baseline => None end.

Definition outcomes_of (r : rstate) : list (outcome mutant) := lo_outcomes (sh_lab (ls_sh (rs_lab r))).

(** The paths in outcomes.json are those of the logs: what [log_path] and [diff_path] of JsonM are in a run. *)
Definition right_paths (g : gstate) (lp : outcome mutant -> text) (dp : outcome mutant -> option text) : Prop :=
  forall j o k l, nth_error (outcomes_of (g_run g)) j = Some o -> nth_error (g_named g) j = Some k -> nth_error (g_logs g) k = Some l ->
    lp o = tx "log/" ++ gl_name l ++ tx ".log"
    /\ dp o = match oc_scenario o with Mutant _ => Some (tx "diff/" ++ gl_name l ++ tx ".diff") | Baseline => None end.
