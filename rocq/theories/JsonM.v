(** Model of the JSON written by cargo-mutants: the serialisers in src/mutant.rs, src/outcome.rs, src/span.rs,
    src/scenario.rs, src/process.rs and src/list.rs, the pretty printer of the serde_json crate, and the buffered
    writes of src/output.rs. *)
From Coq Require Import String List NArith ZArith Bool Arith.
From Verif Require Import Text SpanM PathM MutantM ProcessM OutcomeM.
Import ListNotations.
Open Scope list_scope.

(** serde_json: the values written.  A number is its text. *)
Inductive json := JNull | JNum (t : text) | JStr (s : text) | JArr (l : list json) | JObj (l : list (text * json)).

(** * The printer (serde_json 1.0.128, src/ser.rs of that crate) *)

(** A digit of [\u00XX]: lower case. *)
Definition hex_digit (n : N) : chr := if (n <? 10)%N then (48 + n)%N else (87 + n)%N.

(** serde_json [format_escaped_str_contents]: the table [ESCAPE]. *)
Definition escape (c : chr) : text :=
  if N.eqb c QUOTE then [BSLASH; QUOTE]
  else if N.eqb c BSLASH then [BSLASH; BSLASH]
  else if N.eqb c 8 then [BSLASH; 98%N]      (* \b *)
  else if N.eqb c TAB then [BSLASH; 116%N]   (* \t *)
  else if N.eqb c NL then [BSLASH; 110%N]    (* \n *)
  else if N.eqb c 12 then [BSLASH; 102%N]    (* \f *)
  else if N.eqb c CR then [BSLASH; 114%N]    (* \r *)
  else if (c <? 32)%N then [BSLASH; 117%N; 48%N; 48%N; hex_digit (c / 16); hex_digit (c mod 16)]
  else [c].
Definition json_string (s : text) : text := QUOTE :: flat_map escape s ++ [QUOTE].

(** serde_json [PrettyFormatter] with two spaces: a new line at depth [d]. *)
Definition new_line (d : nat) : text := NL :: repeat SP (d + d).

(** serde_json [to_writer_pretty], [to_string_pretty]: the value at depth [d].  Empty arrays and objects take no new
    line; [items] are written with a comma between them. *)
Fixpoint pretty_json (d : nat) (v : json) : text :=
  match v with
  | JNull => tx "null"
  | JNum t => t
  | JStr s => json_string s
  | JArr [] => tx "[]"
  | JArr l => tx "[" ++ join (tx ",") (map (fun x => new_line (S d) ++ pretty_json (S d) x) l) ++ new_line d ++ tx "]"
  | JObj [] => tx "{}"
  | JObj l => tx "{" ++ join (tx ",") (map (fun kx => new_line (S d) ++ json_string (fst kx) ++ tx ": " ++ pretty_json (S d) (snd kx)) l)
              ++ new_line d ++ tx "}"
  end.
Definition to_pretty (v : json) : text := pretty_json 0 v.

(** * The serialisers *)

(** usize and i32. *)
Definition jnat (n : nat) : json := JNum (show_nat n).
Definition show_Z (z : Z) : text := match z with Zneg _ => tx "-" ++ show_N (Z.abs_N z) | _ => show_N (Z.abs_N z) end.
Definition jint (z : Z) : json := JNum (show_Z z).

(** src/span.rs:14-22, 40-47: derived. *)
Definition lc_json (l : line_column) : json := JObj [(tx "line", jnat (lc_line l)); (tx "column", jnat (lc_column l))].
Definition span_json (s : span) : json := JObj [(tx "start", lc_json (sp_start s)); (tx "end", lc_json (sp_end s))].

(** src/mutant.rs:59-75: derived. *)
Definition fn_json (f : fn_info) : json :=
  JObj [(tx "function_name", JStr (fn_name f)); (tx "return_type", JStr (fn_return_type f)); (tx "span", span_json (fn_span f))].

(** src/mutant.rs:20-33: derived. *)
Definition genre_name (g : genre) : text :=
  match g with
  | FnValue => tx "FnValue"
  | BinaryOperator => tx "BinaryOperator"
  | UnaryOperator => tx "UnaryOperator"
  | MatchArm => tx "MatchArm"
  | MatchArmGuard => tx "MatchArmGuard"
  end.

(** src/mutant.rs:245-258. *)
Definition mutant_fields (m : mutant) : list (text * json) :=
  [(tx "package", JStr (sf_package (mu_file m)));
   (tx "file", JStr (tree_relative_slashes (mu_file m)));
   (tx "function", match mu_fn m with None => JNull | Some f => fn_json f end);
   (tx "span", span_json (mu_span m));
   (tx "replacement", JStr (mu_replacement m));
   (tx "genre", JStr (genre_name (mu_genre m)))].
Definition mutant_json (m : mutant) : json := JObj (mutant_fields m).

(** src/output.rs:239-245: mutants.json. *)
Definition mutants_file (ms : list mutant) : text := to_pretty (JArr (map mutant_json ms)).

(** serde_json [Value::Object]: a [BTreeMap], as the feature preserve_order is off (no indexmap among the
    dependencies of serde_json in Cargo.lock), so that keys are in order; [String] compares bytes of UTF-8, which is the
    order of the code points. *)
Fixpoint text_lt (a b : text) : bool :=
  match a, b with
  | [], [] => false
  | [], _ :: _ => true
  | _ :: _, [] => false
  | x :: a', y :: b' => if (x <? y)%N then true else if (y <? x)%N then false else text_lt a' b'
  end.
(** [BTreeMap::insert]. *)
Fixpoint map_insert (k : text) (v : json) (l : list (text * json)) : list (text * json) :=
  match l with
  | [] => [(k, v)]
  | (k', v') :: l' =>
      if text_eqb k k' then (k, v) :: l'
      else if text_lt k k' then (k, v) :: l
      else (k', v') :: map_insert k v l'
  end.
Definition map_of (l : list (text * json)) : list (text * json) := fold_left (fun m kv => map_insert (fst kv) (snd kv) m) l [].
(** serde_json [to_value]: objects all the way down become maps. *)
Fixpoint to_value (v : json) : json :=
  match v with
  | JArr l => JArr (map to_value l)
  | JObj l => JObj (map_of (map (fun kx => (fst kx, to_value (snd kx))) l))
  | _ => v
  end.

(** src/list.rs:19-33: --list --json, with a diff for each mutant if asked for. *)
Definition mutant_value (m : mutant) (diff : option text) : json :=
  match to_value (mutant_json m), diff with
  | JObj l, Some d => JObj (map_insert (tx "diff") (JStr d) l)
  | v, _ => v
  end.
Definition list_mutants_json (l : list (mutant * option text)) : text :=
  to_pretty (JArr (map (fun md => mutant_value (fst md) (snd md)) l)).

(** src/list.rs:57-69: --list-files --json. *)
Definition list_files_json (fs : list source_file) : text :=
  to_pretty (JArr (map (fun f => JObj (map_of [(tx "path", JStr (to_slash_path (sf_path f))); (tx "package", JStr (sf_package f))])) fs)).

(** src/outcome.rs:33-38, src/process.rs:142-156, src/outcome.rs:314-326: derived. *)
Definition phase_name (p : phase) : text := match p with Check => tx "Check" | Build => tx "Build" | Test => tx "Test" end.
Definition exit_json (e : exit_t) : json :=
  match e with
  | ExSuccess => JStr (tx "Success")
  | ExFailure c => JObj [(tx "Failure", jint c)]
  | ExTimeout => JStr (tx "Timeout")
  | ExSignalled s => JObj [(tx "Signalled", jint s)]
  | ExOther => JStr (tx "Other")
  end.
Definition summary_name (v : summary_outcome) : text :=
  match v with
  | SumSuccess => tx "Success"
  | SumCaught => tx "CaughtMutant"
  | SumMissed => tx "MissedMutant"
  | SumUnviable => tx "Unviable"
  | SumFailure => tx "Failure"
  | SumTimeout => tx "Timeout"
  end.

Section Outcomes.
(** What OutcomeM leaves out of an outcome: the argv of each phase and the paths of the log and the diff; and how an f64
    of so many nanoseconds is written (the ryu crate). *)
Context (float : N -> text) (argv : outcome mutant -> phase_result -> list text)
  (log_path : outcome mutant -> text) (diff_path : outcome mutant -> option text).

(** src/outcome.rs:302-312. *)
Definition result_json (o : outcome mutant) (r : phase_result) : json :=
  JObj [(tx "phase", JStr (phase_name (pr_phase r))); (tx "duration", JNum (float (pr_duration r)));
        (tx "process_status", exit_json (pr_status r)); (tx "argv", JArr (map JStr (argv o r)))].

(** src/scenario.rs:9-15: derived. *)
Definition scenario_json (s : scenario mutant) : json :=
  match s with Baseline => JStr (tx "Baseline") | Mutant m => JObj [(tx "Mutant", mutant_json m)] end.

(** src/outcome.rs:161-173; [None] is a panic in [summary]. *)
Definition outcome_json (o : outcome mutant) : option json :=
  match summary o with
  | None => None
  | Some v =>
      Some (JObj [(tx "scenario", scenario_json (oc_scenario o)); (tx "summary", JStr (summary_name v));
                  (tx "log_path", JStr (log_path o));
                  (tx "diff_path", match diff_path o with None => JNull | Some p => JStr p end);
                  (tx "phase_results", JArr (map (result_json o) (oc_results o)))])
  end.
Fixpoint outcomes_json (os : list (outcome mutant)) : option (list json) :=
  match os with
  | [] => Some []
  | o :: os' => match outcome_json o, outcomes_json os' with Some v, Some vs => Some (v :: vs) | _, _ => None end
  end.

(** src/outcome.rs:57-68: derived; src/output.rs:204-210: outcomes.json. *)
Definition lab_json (l : lab_outcome mutant) : option json :=
  match outcomes_json (lo_outcomes l) with
  | None => None
  | Some vs =>
      Some (JObj [(tx "outcomes", JArr vs); (tx "total_mutants", jnat (lo_total l)); (tx "missed", jnat (lo_missed l));
                  (tx "caught", jnat (lo_caught l)); (tx "timeout", jnat (lo_timeout l)); (tx "unviable", jnat (lo_unviable l));
                  (tx "success", jnat (lo_success l))])
  end.
Definition outcomes_file (l : lab_outcome mutant) : option text := option_map to_pretty (lab_json l).
End Outcomes.

(** * Writing the files *)

(** src/output.rs:205-209, 240-244: [to_writer_pretty(BufWriter::new(File::create(..)?), ..)].  The printer calls
    [write_all] for each of [chunks]; [BufWriter] keeps up to [cap] bytes (8192 by default) and is dropped at the end,
    when it writes what it still has and ignores an error (std [BufWriter::drop]).  The [i]th write to the file may
    fail after [disk i = Some n] bytes.  Result: the file, and whether [Ok] was returned. *)
Section Buffered.
Context {A : Type} (cap : nat) (disk : nat -> option nat).

(** A write of [b] to the file: the file afterwards, and [true] for success. *)
Definition put (i : nat) (file b : list A) : list A * bool :=
  match disk i with None => (file ++ b, true) | Some n => (file ++ firstn n b, false) end.

(** std [BufWriter::write_all]: the chunks still to write, with [i] writes done and [buf] in the buffer.  A chunk that
    does not fit makes it write the buffer first; a chunk as large as the buffer is written directly.  A [BufWriter]
    whose flush failed keeps what was not written, and drop tries that once more. *)
Fixpoint write_chunks (chunks : list (list A)) (i : nat) (file buf : list A) : list A * bool :=
  match chunks with
  | [] => match buf with [] => (file, true) | _ => (fst (put i file buf), true) end
  | c :: cs =>
      let spare := cap - length buf in
      if Nat.ltb (length c) spare then write_chunks cs i file (buf ++ c)
      else if andb (Nat.ltb spare (length c)) (negb (Nat.eqb (length buf) 0))
      then
        match put i file buf with
        | (file1, false) => (fst (put (S i) file1 (skipn (length file1 - length file) buf)), false)
        | (file1, true) =>
            if Nat.leb cap (length c)
            then match put (S i) file1 c with (file2, true) => write_chunks cs (S (S i)) file2 [] | (file2, false) => (file2, false) end
            else write_chunks cs (S i) file1 c
        end
      else if Nat.leb cap (length c)
      then match put i file c with (file2, true) => write_chunks cs (S i) file2 [] | (file2, false) => (file2, false) end
      else write_chunks cs i file (buf ++ c)
  end.
Definition write_json (chunks : list (list A)) : list A * bool := write_chunks chunks 0 [] [].
End Buffered.
