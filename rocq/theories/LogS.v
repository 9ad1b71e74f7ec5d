(** Specification vocabulary for C55: the text of a log and what was seen of a scenario's run. *)
From Coq Require Import String List NArith ZArith Bool.
From Verif Require Import Text Utf8M MutantM ProcessM OutcomeM LogM.
Import ListNotations.
Open Scope list_scope.

(** Everything that was written, in the order it was written. *)
Definition written (tr : list label) : list byte :=
  flat_map (fun l => match l with ETool b | EChild _ b => b | _ => [] end) tr.
(** What the tool wrote, and what command [n] wrote. *)
Definition told (tr : list label) : list byte := flat_map (fun l => match l with ETool b => b | _ => [] end) tr.
Definition output_of (n : nat) (tr : list label) : list byte :=
  flat_map (fun l => match l with EChild k b => if Nat.eqb k n then b else [] | _ => [] end) tr.

(** The commands that were started and how they were seen to end, in order. *)
Definition exits (tr : list label) : list (nat * exit_t) :=
  flat_map (fun l => match l with EExit n e => [(n, e)] | _ => [] end) tr.

(** One entry: a line beginning with three stars, after an empty line or the beginning of a line. *)
Definition entry (t : text) : list byte := encode ([NL] ++ tx "*** " ++ t ++ [NL]).

(** The heading of a scenario: its name, and for a mutant the diff. *)
Definition heading (s : scenario mutant) (name diff : text) : list byte :=
  entry name ++ (if is_mutant s then entry (tx "mutation diff:" ++ [NL] ++ diff) else []).

(** A command, its output, its result. *)
Definition command (argv : list text) (out : list byte) (e : exit_t) : list byte :=
  entry (quote_argv argv) ++ out ++ entry (tx "result: " ++ show_exit e).

(** The whole log, given the output of each command. *)
Fixpoint commands (argv : phase -> list text) (out : nat -> list byte) (n : nat) (rs : list (phase * exit_t)) : list byte :=
  match rs with
  | [] => []
  | (p, e) :: rs' => command (argv p) (out n) e ++ commands argv out (S n) rs'
  end.
Definition whole_log (c : lconf) (name : text) (out : nat -> list byte) (rs : list (phase * exit_t)) : list byte :=
  heading (lc_scenario c) name (lc_diff c) ++ commands (lc_argv c) out 0 rs.

(** Is [x] somewhere in [t]? *)
Fixpoint within (x t : list byte) : bool :=
  match t with [] => starts_with x [] | _ :: t' => starts_with x t || within x t' end.

(** Commands write only between their start and their end. *)
Fixpoint tidy (running : option nat) (tr : list label) : bool :=
  match tr with
  | [] => true
  | ESpawn n :: tr' => tidy (Some n) tr'
  | EExit _ _ :: tr' => tidy None tr'
  | EChild n _ :: tr' => match running with Some k => Nat.eqb n k && tidy running tr' | None => false end
  | _ :: tr' => tidy running tr'
  end.

(** The results are those of the first phases, and all but the last are successes. *)
Definition stops_at_failure (ps : list phase) (rs : list (phase * exit_t)) : Prop :=
  (exists rest, ps = map fst rs ++ rest
     /\ (rest <> [] -> exists rs' p e, rs = rs' ++ [(p, e)] /\ is_success e = false))
  /\ (forall rs' p e later, rs = rs' ++ (p, e) :: later -> later <> [] -> is_success e = true).

(** The results, numbered from [n]. *)
Fixpoint numbered (n : nat) (rs : list (phase * exit_t)) : list (nat * exit_t) :=
  match rs with [] => [] | (_, e) :: rs' => (n, e) :: numbered (S n) rs' end.

(** A reader of logs: the parts between the marks. *)
Definition mark : list byte := encode ([NL] ++ tx "*** ").
Fixpoint has_mark (t : list byte) : bool :=
  match t with [] => false | _ :: t' => starts_with mark t || has_mark t' end.
(** No line of a text begins with a mark. *)
Definition no_star_line (b : list byte) : Prop := has_mark (10%N :: b) = false.
Fixpoint parts (skip : nat) (cur : list byte) (t : list byte) : list (list byte) :=
  match t with
  | [] => [cur]
  | b :: t' =>
      match skip with
      | S k => parts k cur t'
      | O => if starts_with mark t then cur :: parts 4 [] t' else parts 0 (cur ++ [b]) t'
      end
  end.
(** The parts a reader should find. *)
Fixpoint command_parts (argv : phase -> list text) (out : nat -> list byte) (n : nat) (rs : list (phase * exit_t)) : list (list byte) :=
  match rs with
  | [] => []
  | (p, e) :: rs' =>
      (encode (quote_argv (argv p) ++ [NL]) ++ out n) :: encode (tx "result: " ++ show_exit e ++ [NL])
      :: command_parts argv out (S n) rs'
  end.
Definition log_parts (c : lconf) (name : text) (out : nat -> list byte) (rs : list (phase * exit_t)) : list (list byte) :=
  [] :: encode (name ++ [NL])
  :: (if is_mutant (lc_scenario c) then [encode (tx "mutation diff:" ++ [NL] ++ lc_diff c ++ [NL])] else [])
  ++ command_parts (lc_argv c) out 0 rs.

(** How the result of a command is written. *)
Definition result_word (e : exit_t) (t : text) : Prop :=
  match e with
  | ExSuccess => t = tx "Success"
  | ExTimeout => t = tx "Timeout"
  | ExOther => t = tx "Other"
  | ExFailure c => t = tx "Failure(" ++ (if (c <? 0)%Z then tx "-" else []) ++ show_N (Z.abs_N c) ++ tx ")"
  | ExSignalled c => t = tx "Signalled(" ++ (if (c <? 0)%Z then tx "-" else []) ++ show_N (Z.abs_N c) ++ tx ")"
  end.
