(** What standard output should say (C80). *)
From Coq Require Import String List NArith ZArith Bool Arith.
From Verif Require Import Text MutantM OutcomeM OutputM LabM LabS ConsoleM PrintM PrintS TimesM.
Import ListNotations.
Open Scope list_scope.
Open Scope nat_scope.

(** The first line. *)
Definition first_line (n : nat) : text := tx "Found " ++ (if n =? 1 then tx "1 mutant" else show_nat n ++ tx " mutants") ++ tx " to test".

(** The last line: the total and the counts that are not 0. *)
Definition last_line (time : option N) (total missed caught unviable timeouts succeeded : nat) : text :=
  (if total =? 1 then tx "1 mutant" else show_nat total ++ tx " mutants") ++ tx " tested"
  ++ match time with Some d => tx " in " ++ duration_text d | None => [] end ++ tx ": "
  ++ join (tx ", ") (map (fun c => show_nat (fst c) ++ tx " " ++ snd c) (filter (fun c => negb (fst c =? 0))
       [(missed, tx "missed"); (caught, tx "caught"); (unviable, tx "unviable"); (timeouts, tx "timeouts"); (succeeded, tx "succeeded")])).

(** How many mutants have a verdict. *)
Definition how_often (v : summary_outcome) (rs : list (mutant * summary_outcome)) : nat :=
  length (filter (fun r => same_verdict (snd r) v) rs).

(** The exit status can be told from the lines: 3 if one of them reports a timeout, else 2 if one reports a missed mutant, else 0 (book/src/exit-codes.md). *)
Definition reports (t : text) (v : summary_outcome) : Prop := exists n, In (column v ++ tx " " ++ n) (lines t).
Definition told_by_text (t : text) (code : Z) : Prop :=
  (reports t SumTimeout /\ code = 3%Z) \/ (~ reports t SumTimeout /\ reports t SumMissed /\ code = 2%Z)
  \/ (~ reports t SumTimeout /\ ~ reports t SumMissed /\ code = 0%Z).
