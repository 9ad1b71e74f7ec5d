(** Specification of what a terminal shows (C57): the select graphic rendition codes of ECMA-48, and
    the colors of the messages and of the display. *)
From Coq Require Import String List NArith ZArith Bool Arith.
From Verif Require Import Text Utf8M SpanM PathM MutantM ProcessM OutcomeM OptionsM PackageM CargoM LabM ConsoleM MainM PrintM PrintS.
Import ListNotations.
Open Scope list_scope.

(** How a character looks: the number of its color (0 to 7, bright ones from 8), bold, dim. *)
Record look := mkLook { lk_color : option N; lk_bold : bool; lk_dim : bool }.
Definition usual : look := mkLook None false false.

(** The numbers of a code, separated by semicolons. *)
Fixpoint numbers (t : text) (n : N) : list N :=
  match t with
  | [] => [n]
  | c :: t' => if N.eqb c 59 then n :: numbers t' 0 else numbers t' (n * 10 + (c - 48))
  end%N.
(** What the numbers do: 0 resets, 1 is bold, 2 is dim, 30 to 37 and 38;5;n are colors. *)
Fixpoint rendition (ns : list N) (l : look) : look :=
  match ns with
  | [] => l
  | a :: ns1 =>
      if (a =? 38)%N then match ns1 with b :: c :: ns2 => if (b =? 5)%N then mkLook (Some c) (lk_bold l) (lk_dim l) else l | _ => l end
      else rendition ns1
        (if (a =? 0)%N then usual
         else if (a =? 1)%N then mkLook (lk_color l) true (lk_dim l)
         else if (a =? 2)%N then mkLook (lk_color l) (lk_bold l) true
         else if ((30 <=? a) && (a <=? 37))%N then mkLook (Some (a - 30)%N) (lk_bold l) (lk_dim l)
         else l)
  end.
(** What is seen: after an escape character and a bracket, everything up to the letter m is a code.  [None]: no
    escape character is pending. *)
Fixpoint screen (l : look) (pending : option text) (t : text) : list (look * chr) :=
  match t with
  | [] => []
  | c :: t' =>
      match pending with
      | None => if (c =? 27)%N then screen l (Some []) t' else (l, c) :: screen l None t'
      | Some code =>
          if (c =? 109)%N
          then screen (match code with 91%N :: ns => rendition (numbers ns 0) l | _ => l end) None t'
          else screen l (Some (code ++ [c])) t'
      end
  end.

(** Pieces of text with looks, as characters with looks. *)
Definition seen (ps : list (look * text)) : list (look * chr) := flat_map (fun p => map (pair (fst p)) (snd p)) ps.
(** Without colors everything has the usual look. *)
Definition plain_if (on : bool) (ps : list (look * text)) : list (look * text) :=
  if on then ps else map (fun p => (usual, snd p)) ps.

Definition red := mkLook (Some 1%N) false false.
Definition red_bold := mkLook (Some 1%N) true false.
Definition green := mkLook (Some 2%N) false false.
Definition yellow := mkLook (Some 3%N) false false.
Definition blue := mkLook (Some 4%N) false false.
Definition magenta := mkLook (Some 5%N) false false.
Definition cyan := mkLook (Some 6%N) false false.
Definition cyan_bold := mkLook (Some 6%N) true false.
Definition yellow_bright := mkLook (Some 11%N) false false.
Definition magenta_bright := mkLook (Some 13%N) false false.
Definition dimmed := mkLook None false true.

(** A mutant: function names and types are magenta, code is yellow; names of functions and the new operator are
    bright. *)
Definition change_pieces (m : mutant) : option (list (look * text)) :=
  match mu_genre m with
  | FnValue =>
      match mu_fn m with
      | Some f => Some ([(usual, tx "replace "); (magenta_bright, fn_name f)]
                        ++ match fn_return_type f with [] => [] | r => [(usual, tx " "); (magenta, r)] end
                        ++ [(usual, tx " with "); (yellow, mu_replacement m)])
      | None => None
      end
  | MatchArmGuard => Some [(usual, tx "replace match guard with "); (yellow, mu_replacement m)]
  | MatchArm => Some [(usual, tx "delete match arm")]
  | BinaryOperator | UnaryOperator =>
      let place := match mu_fn m with Some f => [(usual, tx " in "); (magenta_bright, fn_name f)] | None => [] end in
      Some (match mu_replacement m with
            | [] => [(usual, tx "delete "); (yellow, original_text m)] ++ place
            | r => [(usual, tx "replace "); (yellow, original_text m); (usual, tx " with "); (yellow_bright, r)] ++ place
            end)
  end.
Definition mutant_pieces (line_col : bool) (m : mutant) : option (list (look * text)) :=
  match change_pieces m with
  | Some ps =>
      Some ((usual, tree_relative_slashes (mu_file m)
                    ++ (if line_col then tx ":" ++ show_nat (lc_line (sp_start (mu_span m))) ++ tx ":"
                                         ++ show_nat (lc_column (sp_start (mu_span m))) else [])
                    ++ tx ": ") :: ps)
  | None => None
  end.
Definition scenario_pieces (s : scenario mutant) : option (list (look * text)) :=
  match s with Baseline => Some [(usual, tx "Unmutated baseline")] | Mutant m => mutant_pieces true m end.

(** Bad verdicts are red and bold, good ones green, unviable mutants blue. *)
Definition verdict_look (v : summary_outcome) : look :=
  match v with
  | SumMissed | SumFailure | SumTimeout => red_bold
  | SumCaught | SumSuccess => green
  | SumUnviable => blue
  end.
Fixpoint time_pieces (secs : N -> text) (rs : list phase_result) : list (look * text) :=
  match rs with
  | [] => []
  | [r] => [(cyan, secs (pr_duration r)); (usual, tx " "); (dimmed, phase_word (pr_phase r))]
  | r :: rs' => [(cyan, secs (pr_duration r)); (usual, tx " "); (dimmed, phase_word (pr_phase r)); (usual, tx " + ")] ++ time_pieces secs rs'
  end.
(** The message about an outcome. *)
Definition message_pieces (secs : N -> text) (po : print_options) (v : summary_outcome) (name : list (look * text))
    (rs : list phase_result) (log : option text) : list (look * text) :=
  [(verdict_look v, column v); (usual, tx " ")] ++ name
  ++ (if po_times po then (usual, tx " in ") :: time_pieces secs rs else [])
  ++ (usual, [NL]) :: match log with Some t => [(usual, t); (usual, [NL])] | None => [] end.

(** The parts of the display. *)
Definition phase_column (p : phase) : text :=
  match p with Check => tx "check   " | Build => tx "build   " | Test => tx "test    " end.
Definition scenario_draw_pieces (ph : option phase) (name : text) (elapsed : text) (tail : option text) : list (look * text) :=
  match ph with Some p => [(cyan_bold, phase_column p); (usual, tx " ")] | None => [] end
  ++ [(usual, name); (usual, tx " ... "); (cyan, elapsed)]
  ++ match tail with
     | Some t => [(usual, [NL]); (cyan, [9492%N] ++ tx "       "); (usual, tx " "); (dimmed, t)]
     | None => []
     end.
Definition copy_pieces (bytes : N) (elapsed : text) : list (look * text) :=
  [(cyan, tx "copy    "); (usual, tx " "); (cyan, show_N (bytes / 1000000) ++ tx " MB"); (usual, tx " in "); (cyan, elapsed)].
Definition count_pieces (n : option nat) (l : look) (word : text) : list (look * text) :=
  match n with Some k => [(usual, tx ", "); (cyan, show_nat k); (usual, tx " "); (l, word)] | None => [] end.
Definition line_pieces (s : shown) (dur : N -> text) : list (look * text) :=
  [(cyan, show_nat (sn_done s)); (usual, tx "/"); (cyan, show_nat (sn_total s)); (usual, tx " mutants tested")]
  ++ count_pieces (sn_missed s) red (tx "MISSED") ++ count_pieces (sn_timeouts s) red (tx "timeout")
  ++ count_pieces (sn_caught s) usual (tx "caught") ++ count_pieces (sn_unviable s) usual (tx "unviable")
  ++ [(usual, tx ", "); (cyan, dur (sn_elapsed s)); (usual, tx " elapsed")]
  ++ match sn_remaining s with
     | Some r => [(usual, tx ", about "); (cyan, dur r); (usual, tx " remaining")]
     | None => []
     end.

(** No piece contains an escape character itself. *)
Definition clean (ps : list (look * text)) : Prop := Forall (fun p => no_escape (snd p)) ps.
