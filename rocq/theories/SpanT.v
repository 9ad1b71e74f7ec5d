(** Property theorems about spans: C01, C02. *)
From Coq Require Import String List NArith Bool.
From Verif Require Import Text SpanM SpanS SpanP.
Import ListNotations.

(** C01: with source [a ++ b ++ c] and the span of [b], the mutated file is [a],
    the replacement, a space and the marker, then [c].  Carriage returns are
    allowed anywhere except on the line up to the start, on the line up to the
    end, and as the very next char after the start.
    Missing: a lone carriage return on the edited line, see C01_lone_cr_refuted. *)
Theorem C01_mutation_edits_only_the_span_partial : forall a b c repl,
  ~ In CR (last_line a) -> ~ In CR (last_line (a ++ b)) ->
  (forall s', b ++ c <> CR :: s') ->
  mutated_code (parser_span a b) repl (a ++ b ++ c)
  = a ++ (repl ++ [SP] ++ mutation_marker) ++ c.
Proof. exact (fun a b c repl => replace_parser a b c (repl ++ [SP] ++ mutation_marker)). Qed.
Print Assumptions C01_mutation_edits_only_the_span_partial.

Example C01_case :
  let a := tx "fn f() -> u32 {
  " in let b := tx "1 +
 2" in let c := tx "
}" in
  ~ In CR (last_line a) /\ ~ In CR (last_line (a ++ b)) /\ (forall s', b ++ c <> CR :: s') /\
  mutated_code (parser_span a b) (tx "0") (a ++ b ++ c)
  = a ++ tx "0 /* ~ changed by cargo-mutants ~ */" ++ c.
Proof.
  vm_compute. repeat split; intuition (try discriminate).
Qed.

(** C01 fails for a lone carriage return earlier on the line (legal Rust
    whitespace, which survives loading): the parser counts it as a column, the
    editor does not, so the edit lands one char late: the spanned text stays and
    the char after it is replaced. *)
Theorem C01_lone_cr_refuted :
  exists a b c d repl,
    mutated_code (parser_span a b) repl (a ++ b ++ [c] ++ d)
      = a ++ b ++ (repl ++ [SP] ++ mutation_marker) ++ d
    /\ mutated_code (parser_span a b) repl (a ++ b ++ [c] ++ d)
      <> a ++ (repl ++ [SP] ++ mutation_marker) ++ [c] ++ d.
Proof.
  exists (tx "x " ++ [CR]), (tx "+"), SP, (tx "y"), (tx "-").
  split; vm_compute; [reflexivity|discriminate].
Qed.
Print Assumptions C01_lone_cr_refuted.

(** C02: the extracted text is exactly the text the edit removes, and putting it
    back is the identity.
    Missing: lines with a lone carriage return, see C02_lone_cr_refuted. *)
Theorem C02_extract_agrees_with_replace_partial : forall a b c repl,
  ~ In CR (last_line a) -> ~ In CR (last_line (a ++ b)) ->
  (forall s', b ++ c <> CR :: s') ->
  let sp := parser_span a b in
  let s := a ++ b ++ c in
  span_extract sp s = b
  /\ span_replace sp s repl = a ++ repl ++ c
  /\ span_replace sp s (span_extract sp s) = s.
Proof. exact extract_replace_parser. Qed.
Print Assumptions C02_extract_agrees_with_replace_partial.

Example C02_case :
  let a := tx "fn f() { match x {
 " in let b := tx "1 => {}
" in let c := tx " _ => {} }}" in
  span_extract (parser_span a b) (a ++ b ++ c) = b /\
  span_replace (parser_span a b) (a ++ b ++ c) [] = a ++ c.
Proof. vm_compute. split; reflexivity. Qed.

(** C02: for every text and every span of it, parser or not, there is one piece of text at that place that is
    shown and that the edit takes out.
    Missing: a span whose start falls on a carriage return, see C02_lone_cr_refuted. *)
Theorem C02_every_span_partial : forall s sp, span_of s sp ->
  exists a b c, s = a ++ b ++ c /\ place a = sp_start sp /\ place (a ++ b) = sp_end sp
  /\ span_extract sp s = b /\ (forall repl, span_replace sp s repl = a ++ repl ++ c)
  /\ span_replace sp s (span_extract sp s) = s.
Proof. exact every_span. Qed.
Print Assumptions C02_every_span_partial.

Example C02_span_case : span_of (tx "a" ++ [CR] ++ tx "b+c") (mkSpan (mkLC 1 3) (mkLC 1 4)).
Proof.
  split.
  - exists (tx "a" ++ [CR] ++ tx "b"), (tx "+c"). split; reflexivity.
  - exists (tx "a" ++ [CR] ++ tx "b+"), (tx "c"). split; reflexivity.
  - right. vm_compute. split; auto.
  - intros x y E. destruct x as [|c0 [|c1 [|c2 [|c3 [|c4 [|c5 x]]]]]]; vm_compute in E; try discriminate E.
    injection E as <- _; vm_compute; discriminate.
Qed.

(** Finding: with lone carriage returns on the line the parser's span can start, for the scanners, at a carriage
    return; the replacement is then put in twice, and putting the original back does not restore the file. *)
Theorem C02_lone_cr_refuted : exists a b c, b <> [] /\ ~ In CR b
  /\ span_replace (parser_span a b) (a ++ b ++ c) (span_extract (parser_span a b) (a ++ b ++ c)) <> a ++ b ++ c
  /\ mutated_code (parser_span a b) (tx "-") (a ++ b ++ c)
     = a ++ b ++ tx "- /* ~ changed by cargo-mutants ~ */- /* ~ changed by cargo-mutants ~ */".
Proof.
  exists ([CR] ++ tx "a"), (tx "+"), ([CR] ++ tx "b"). split; [discriminate|]. split; [intros [H|[]]; discriminate|].
  split; vm_compute; [discriminate|reflexivity].
Qed.
Print Assumptions C02_lone_cr_refuted.
