(** Specification for spans, independent of the scanners in [SpanM] (of which only the types and the conversion of columns are used). *)
From Coq Require Import List NArith Bool.
From Verif Require Import Text SpanM.
Import ListNotations.

(** The part of [p] after its last newline. *)
Fixpoint take_until_nl (s : text) : text :=
  match s with
  | [] => []
  | c :: s' => if N.eqb c NL then [] else c :: take_until_nl s'
  end.

Definition last_line (p : text) : text := rev (take_until_nl (rev p)).

(** The position the parser reports for the char that follows prefix [p] of
    the source: 1-based line = 1 + number of newlines before it; 0-based column
    = number of chars since the last newline. *)
Definition parser_line (p : text) : nat := 1 + count_occ N.eq_dec p NL.
Definition parser_column0 (p : text) : nat := length (last_line p).

(** The span reported by the parser for the text [b] occurring after [a]. *)
Definition parser_span (a b : text) : span :=
  mkSpan (lc_from_proc_macro (parser_line a) (parser_column0 a))
         (lc_from_proc_macro (parser_line (a ++ b)) (parser_column0 (a ++ b))).

(** The place of the char that follows prefix [p] as shown to the user, where carriage returns take
    no column. *)
Definition place (p : text) : line_column :=
  mkLC (parser_line p) (1 + length (filter (fun c => negb (N.eqb c CR)) (last_line p))).

Definition not_after (p q : line_column) : Prop :=
  lc_line p < lc_line q \/ (lc_line p = lc_line q /\ lc_column p <= lc_column q).

(** A span of the text [s]: both ends are places in [s], in order, and the start is not shared with a
    carriage return. *)
Record span_of (s : text) (sp : span) : Prop := {
  so_start : exists x y, s = x ++ y /\ place x = sp_start sp;
  so_end : exists x y, s = x ++ y /\ place x = sp_end sp;
  so_order : not_after (sp_start sp) (sp_end sp);
  so_no_cr : forall x y, s = x ++ CR :: y -> place x <> sp_start sp }.
