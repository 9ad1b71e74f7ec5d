(** Model of src/span.rs and of the text edit in src/mutant.rs. *)
From Coq Require Import String List NArith Bool Arith.
From Verif Require Import Text.
Import ListNotations.

(** src/span.rs:13-21 [LineColumn]: 1-based line and column. *)
Record line_column := mkLC { lc_line : nat; lc_column : nat }.

(** src/span.rs:40-46 [Span]: inclusive start, exclusive end. *)
Record span := mkSpan { sp_start : line_column; sp_end : line_column }.

(** src/span.rs:23-30 [From<proc_macro2::LineColumn>]: the parser's columns are
    0-based. *)
Definition lc_from_proc_macro (line column : nat) : line_column :=
  mkLC line (column + 1).

(** src/span.rs:81-91 and 118-126: how the scanners advance [line_no]/[col_no]
    over one char ('\r' does not advance the column). *)
Definition advance (p : line_column) (c : chr) : line_column :=
  if N.eqb c NL then mkLC (lc_line p + 1) 1
  else if N.eqb c CR then p
  else mkLC (lc_line p) (lc_column p + 1).

(** src/span.rs:113-117: is the char at position [p] kept by [replace]? *)
Definition keep_outside (sp : span) (p : line_column) : bool :=
  let st := sp_start sp in
  let en := sp_end sp in
  (lc_line p <? lc_line st)
  || (lc_line en <? lc_line p)
  || ((lc_line p =? lc_line st) && (lc_column p <? lc_column st))
  || ((lc_line p =? lc_line en) && (lc_column en <=? lc_column p)).

(** src/span.rs:109-111, 128-130: at the start position the replacement is
    pushed. *)
Definition at_start (sp : span) (p : line_column) : bool :=
  (lc_line p =? lc_line (sp_start sp)) && (lc_column p =? lc_column (sp_start sp)).

(** src/span.rs:108-131: the loop of [Span::replace], from position [p] over
    the remaining chars; written in direct style (the Rust code appends to an
    accumulator). *)
Fixpoint replace_loop (sp : span) (repl : text) (p : line_column) (s : text) : text :=
  match s with
  | [] => if at_start sp p then repl else []
  | c :: s' =>
      (if at_start sp p then repl else [])
      ++ (if keep_outside sp p then [c] else [])
      ++ replace_loop sp repl (advance p c) s'
  end.

(** src/span.rs:102-132 [Span::replace]. *)
Definition span_replace (sp : span) (s repl : text) : text :=
  replace_loop sp repl (mkLC 1 1) s.

(** src/span.rs:75-79: is the char at [p] inside the span, for [extract]? *)
Definition inside (sp : span) (p : line_column) : bool :=
  let st := sp_start sp in
  let en := sp_end sp in
  (((lc_line p =? lc_line st) && (lc_column st <=? lc_column p))
   || (lc_line st <? lc_line p))
  && ((lc_line p <? lc_line en)
      || ((lc_line p =? lc_line en) && (lc_column p <? lc_column en))).

(** src/span.rs:81-96: does the loop of [extract] break after advancing over
    [c] to position [q]?  (Line 83-85 breaks on passing the end line, 91-93 on
    reaching the end column.) *)
Definition extract_break (sp : span) (c : chr) (q : line_column) : bool :=
  (N.eqb c NL && (lc_line (sp_end sp) <? lc_line q))
  || ((lc_line q =? lc_line (sp_end sp)) && (lc_column (sp_end sp) <=? lc_column q)).

(** src/span.rs:74-95: the loop of [Span::extract]. *)
Fixpoint extract_loop (sp : span) (p : line_column) (s : text) : text :=
  match s with
  | [] => []
  | c :: s' =>
      (if inside sp p then [c] else [])
      ++ (if extract_break sp c (advance p c) then []
          else extract_loop sp (advance p c) s')
  end.

(** src/span.rs:68-96 [Span::extract]. *)
Definition span_extract (sp : span) (s : text) : text :=
  extract_loop sp (mkLC 1 1) s.

(** src/main.rs:76 [MUTATION_MARKER_COMMENT]. *)
Definition mutation_marker : text := tx "/* ~ changed by cargo-mutants ~ */".

(** src/mutant.rs:78-83 [Mutant::mutated_code] (for the mutant's span,
    replacement and the code of its source file). *)
Definition mutated_code (sp : span) (replacement code : text) : text :=
  span_replace sp code (replacement ++ [SP] ++ mutation_marker).
