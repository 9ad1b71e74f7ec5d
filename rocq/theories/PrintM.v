(** Model of the text printed and drawn by src/console.rs, with colors: styles of the [console]
    crate, src/mutant.rs [to_styled_string], src/list.rs with colors, src/options.rs [Colors]. *)
From Coq Require Import String List NArith ZArith Bool Arith.
From Verif Require Import Text Utf8M SpanM PathM MutantM ProcessM OutcomeM OptionsM PackageM CargoM LabM ConsoleM MainM.
Import ListNotations.
Open Scope list_scope.

(** ** Styles: the part of the [console] crate that is used *)
Inductive color := Red | Green | Yellow | Blue | Magenta | Cyan.
Record style := mkStyle { st_fg : option color; st_bright : bool; st_bold : bool; st_dim : bool }.
Definition plain_style : style := mkStyle None false false false.
Definition fg (c : color) : style := mkStyle (Some c) false false false.
Definition bright (c : color) : style := mkStyle (Some c) true false false.
Definition bold (c : color) : style := mkStyle (Some c) false true false.
Definition dim : style := mkStyle None false false true.

Definition ESC : chr := 27%N.
Definition ansi_num (c : color) : N :=
  match c with Red => 1 | Green => 2 | Yellow => 3 | Blue => 4 | Magenta => 5 | Cyan => 6 end%N.
(** The codes before the text. *)
Definition codes (s : style) : text :=
  (match st_fg s with
   | None => []
   | Some c => if st_bright s then [ESC] ++ tx "[38;5;" ++ show_N (ansi_num c + 8) ++ tx "m"
               else [ESC] ++ tx "[" ++ show_N (ansi_num c + 30) ++ tx "m"
   end)
  ++ (if st_bold s then [ESC] ++ tx "[1m" else [])
  ++ (if st_dim s then [ESC] ++ tx "[2m" else []).
(** The code after the text, if there were any before. *)
Definition reset : text := [ESC] ++ tx "[0m".

(** [{:w}] for texts: spaces on the right. *)
Definition pad (w : nat) (t : text) : text := t ++ repeat SP (w - length t).

(** [StyledObject]'s [Display]; the width applies to the text inside. *)
Definition paint (on : bool) (w : nat) (s : style) (t : text) : text :=
  if on then match codes s with [] => pad w t | cs => cs ++ pad w t ++ reset end
  else pad w t.

(** ** Should colors be used? *)
(** src/options.rs:192-200 [Colors]. *)
Inductive colors := CAuto | CAlways | CNever.
Definition set_not_0 (e : env) (v : text) : bool :=
  match e v with Some x => negb (text_eqb x (tx "0")) | None => false end.
(** src/options.rs:208-222 [forced_value]. *)
Definition forced_value (e : env) (c : colors) : option bool :=
  if set_not_0 e (tx "NO_COLOR") then Some false
  else if set_not_0 e (tx "CLICOLOR_FORCE") then Some true
  else match c with CAlways => Some true | CNever => Some false | CAuto => None end.

(** What the [console] crate found out about stdout and stderr. *)
Record terminals := mkTerm { tm_stdout : bool; tm_stderr : bool }.
(** src/console.rs:287-293 [enable_console_colors]: what it answers afterwards. *)
Definition lib_colors (e : env) (c : colors) (t : terminals) : terminals :=
  match forced_value e c with Some b => mkTerm b b | None => t end.
(** src/options.rs:225-228 [active_stdout], after src/main.rs:448. *)
Definition active_stdout (e : env) (c : colors) (t : terminals) : bool :=
  match forced_value e c with Some b => b | None => tm_stdout (lib_colors e c t) end.
(** src/console.rs:232-234: colors of the messages on stderr; called before
    [enable_console_colors] (src/main.rs:447). *)
Definition trace_colors (e : env) (c : colors) (t : terminals) : bool :=
  match forced_value e c with Some b => b | None => tm_stderr t end.
(** [style] without [for_stderr]: used for all text of src/console.rs and src/mutant.rs, also for the
    progress display, which is drawn on stderr (src/console.rs:602-607). *)
Definition style_colors (e : env) (c : colors) (t : terminals) : bool := tm_stdout (lib_colors e c t).

(** ** Names *)
(** src/mutant.rs:130-178 [styled_parts]. *)
Definition styled_parts (m : mutant) : option (list (style * text)) :=
  match mu_genre m with
  | FnValue =>
      match mu_fn m with
      | None => None
      | Some f =>
          Some ([(plain_style, tx "replace "); (bright Magenta, fn_name f)]
                ++ (match fn_return_type f with [] => [] | r => [(plain_style, [SP]); (fg Magenta, r)] end)
                ++ [(plain_style, tx " with "); (fg Yellow, mu_replacement m)])
      end
  | MatchArmGuard => Some [(plain_style, tx "replace match guard with "); (fg Yellow, mu_replacement m)]
  | MatchArm => Some [(plain_style, tx "delete match arm")]
  | BinaryOperator | UnaryOperator =>
      Some ([(plain_style, match mu_replacement m with [] => tx "delete " | _ => tx "replace " end);
             (fg Yellow, original_text m)]
            ++ (match mu_replacement m with [] => [] | r => [(plain_style, tx " with "); (bright Yellow, r)] end)
            ++ (match mu_fn m with None => [] | Some f => [(plain_style, tx " in "); (bright Magenta, fn_name f)] end))
  end.

(** src/mutant.rs:116-127 [to_styled_string]. *)
Definition styled_name (on line_col : bool) (m : mutant) : option text :=
  match styled_parts m with
  | None => None
  | Some ps =>
      Some (tree_relative_slashes (mu_file m)
            ++ (if line_col then [COLON] ++ show_nat (lc_line (sp_start (mu_span m))) ++ [COLON]
                                 ++ show_nat (lc_column (sp_start (mu_span m))) else [])
            ++ [COLON; SP] ++ flat_map (fun p => paint on 0 (fst p) (snd p)) ps)
  end.

(** src/console.rs:642-647 [style_scenario], with line and column. *)
Definition style_scenario (on : bool) (s : scenario mutant) : option text :=
  match s with Baseline => Some (tx "Unmutated baseline") | Mutant m => styled_name on true m end.

(** src/list.rs:35-54 [list_mutants] as text; [colors] is [active_stdout], [on] what styles do. *)
Definition list_line (colors on : bool) (diff_of : mutant -> text) (c : cli) (m : mutant) : option text :=
  match (if colors then styled_name on (cl_line_col c) m else mutant_name (cl_line_col c) m) with
  | Some n => Some (n ++ [NL] ++ if cl_diffs c then diff_of m ++ [NL] else [])
  | None => None
  end.
Fixpoint list_lines_text (colors on : bool) (diff_of : mutant -> text) (c : cli) (ms : list mutant) : option text :=
  match ms with
  | [] => Some []
  | m :: ms' =>
      match list_line colors on diff_of c m, list_lines_text colors on diff_of c ms' with
      | Some a, Some b => Some (a ++ b)
      | _, _ => None
      end
  end.

(** ** What is printed when a scenario ends *)
(** src/console.rs:609-618 [style_outcome]. *)
Definition outcome_word (v : summary_outcome) : style * text :=
  match v with
  | SumCaught => (fg Green, tx "caught")
  | SumMissed => (bold Red, tx "MISSED")
  | SumFailure => (bold Red, tx "FAILED")
  | SumSuccess => (fg Green, tx "ok")
  | SumUnviable => (fg Blue, tx "unviable")
  | SumTimeout => (bold Red, tx "TIMEOUT")
  end.

(** src/outcome.rs:40-54: the name of a phase. *)
Definition phase_text (p : phase) : text := match p with Check => tx "check" | Build => tx "build" | Test => tx "test" end.

Record print_options := mkPO { po_caught : bool; po_unviable : bool; po_times : bool; po_all_logs : bool }.

Section Printing.
(** [secs]: the seconds of a duration with one decimal and an s (612-616); [dur]: a duration in
    words ([humantime], 618-624). *)
Variable secs dur : N -> text.
Variable on : bool.

(** src/console.rs:90-105. *)
Definition times_text (rs : list phase_result) : text :=
  tx " in " ++ join (tx " + ")
    (map (fun pr => paint on 0 (fg Cyan) (secs (pr_duration pr)) ++ [SP] ++ paint on 0 dim (phase_text (pr_phase pr))) rs).

(** src/console.rs:79-120: [None] is a panic, [Some None] nothing printed.  [log] is the contents of
    the log file, [None] if it cannot be opened (src/outcome.rs:192-194, src/console.rs:110-114). *)
Definition outcome_message (po : print_options) (o : outcome mutant) (log : option (list byte)) : option (option text) :=
  match mutant_caught o, oc_success o with
  | Some caught, Some success =>
      if caught && negb (po_caught po)
         || is_mutant (oc_scenario o) && check_or_build_failed o && negb (po_unviable po)
      then Some None
      else
        match summary o, style_scenario on (oc_scenario o) with
        | Some v, Some name =>
            let s := paint on 8 (fst (outcome_word v)) (snd (outcome_word v)) ++ [SP] ++ name
                     ++ (if po_times po then times_text (oc_results o) else []) in
            if (negb (is_mutant (oc_scenario o)) && negb success) || po_all_logs po
            then match match log with Some b => from_utf8 b | None => None end with
                 | Some t => Some (Some (s ++ [NL] ++ t ++ [NL]))
                 | None => None
                 end
            else Some (Some (s ++ [NL]))
        | _, _ => None
        end
  | _, _ => None
  end.

(** ** What is drawn *)
(** src/console.rs:486-495 [WalkModel::render]. *)
Definition walk_text (files found : nat) : text :=
  if Nat.eqb files 0 then tx "Scanning tree metadata..." ++ [NL]
  else tx "Finding mutation opportunities: " ++ show_nat files ++ tx " files done, "
       ++ show_nat found ++ tx " mutants found" ++ [NL].

(** src/console.rs:634-640 [format_mb], [style_mb]; 591-600 [CopyModel::render]. *)
Definition copy_text (bytes elapsed : N) : text :=
  paint on 8 (fg Cyan) (tx "copy") ++ [SP] ++ paint on 0 (fg Cyan) (show_N (bytes / 1000000) ++ tx " MB")
  ++ tx " in " ++ paint on 0 (fg Cyan) (secs elapsed).

(** src/console.rs:538-566 [ScenarioModel::render]; [tail] is the last line of the log (TailM), [None] if
    it cannot be read. *)
Definition scenario_draw (ph : option phase) (name : text) (elapsed : N) (tail : option text) : text :=
  join [SP] ((match ph with Some p => [paint on 0 (mkStyle (Some Cyan) false true false) (pad 8 (phase_text p))] | None => [] end)
             ++ [name; tx "..."; paint on 0 (fg Cyan) (secs elapsed)])
  ++ match tail with
     | Some t => [NL] ++ paint on 0 (fg Cyan) ([9492%N] ++ repeat SP 7) ++ [SP] ++ paint on 0 dim t
     | None => []
     end.

(** src/console.rs:401-462, the last line of [LabModel::render], from the numbers in ConsoleM. *)
Definition opt_part (n : option nat) (after : text) : text :=
  match n with Some k => tx ", " ++ paint on 0 (fg Cyan) (show_nat k) ++ [SP] ++ after | None => [] end.
Definition lab_line (s : shown) : text :=
  paint on 0 (fg Cyan) (show_nat (sn_done s)) ++ tx "/" ++ paint on 0 (fg Cyan) (show_nat (sn_total s)) ++ tx " mutants tested"
  ++ opt_part (sn_missed s) (paint on 0 (fg Red) (tx "MISSED"))
  ++ opt_part (sn_timeouts s) (paint on 0 (fg Red) (tx "timeout"))
  ++ opt_part (sn_caught s) (tx "caught")
  ++ opt_part (sn_unviable s) (tx "unviable")
  ++ tx ", " ++ paint on 0 (fg Cyan) (dur (sn_elapsed s)) ++ tx " elapsed"
  ++ match sn_remaining s with
     | Some r => tx ", about " ++ paint on 0 (fg Cyan) (dur r) ++ tx " remaining"
     | None => []
     end.

(** src/console.rs:384-405 [LabModel::render]: the parts, each on lines of its own. *)
Fixpoint stack (parts : list text) (s : text) : text :=
  match parts with
  | [] => s
  | p :: parts' => stack parts' (match s with [] => p | _ => s ++ [NL] ++ p end)
  end.
Definition lab_text (walk : option (nat * nat)) (copies scens : list text) (numbers : option shown) : text :=
  stack (copies ++ scens ++ match numbers with Some s => [lab_line s] | None => [] end)
        (match walk with Some (a, b) => walk_text a b | None => [] end).
End Printing.

(** Everything printed by [scenario_finished] for the outcomes in order; [None] is a panic. *)
Fixpoint printed (secs : N -> text) (on : bool) (po : print_options) (os : list (outcome mutant * option (list byte))) : option text :=
  match os with
  | [] => Some []
  | (o, log) :: os' =>
      match outcome_message secs on po o log, printed secs on po os' with
      | Some (Some a), Some b => Some (a ++ b)
      | Some None, Some b => Some b
      | _, _ => None
      end
  end.
