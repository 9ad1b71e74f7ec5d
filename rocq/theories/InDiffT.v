(** Property theorems: C05, C06, C07. *)
From Coq Require Import String List NArith Bool Arith Lia.
From Verif Require Import Text SpanM PathM PathS PathP MutantM InDiffM InDiffS InDiffP.
Import ListNotations.

(** C05: from an accepted diff whose hunks are well formed and in order, the
    selected mutants are exactly those touched by it, in the original order.
    Missing: hunks with an empty new range (as in C06), and paths without prefix below a directory b, see C05_unprefixed_b_refuted. *)
Theorem C05_selects_touched_partial : forall parse ms d ps sel,
  (exists c, In c (fixed_diff d) /\ is_whitespace c = false) ->
  parse (fixed_diff d) = Some ps -> Forall well_formed ps ->
  (forall m, In m ms -> relative (sf_path (mu_file m))) ->
  diff_filter parse ms d = DiffOk sel ->
  selects (touched ps) ms sel.
Proof. exact c05. Qed.
Print Assumptions C05_selects_touched_partial.

(** C05: an empty diff selects nothing. *)
Theorem C05_empty_diff : forall parse ms d,
  (forall c, In c (fixed_diff d) -> is_whitespace c = true) -> diff_filter parse ms d = DiffOk [].
Proof. exact c05_empty. Qed.
Print Assumptions C05_empty_diff.

(** C05: whatever the diff, nothing is invented or reordered. *)
Theorem C05_subset : forall parse ms d sel, diff_filter parse ms d = DiffOk sel ->
  exists P, selects P ms sel.
Proof. exact c05_sub. Qed.
Print Assumptions C05_subset.

(** C05: a diff that gives two patches for one file is refused. *)
Theorem C05_repeated_file : forall parse ms d ps p1 p2 a b c path,
  parse (fixed_diff d) = Some ps -> ps = a ++ p1 :: b ++ p2 :: c ->
  relative path -> patch_is_for p1 path -> patch_is_for p2 path ->
  (exists c, In c (fixed_diff d) /\ is_whitespace c = false) ->
  forall sel, diff_filter parse ms d <> DiffOk sel.
Proof. exact c05_repeated. Qed.
Print Assumptions C05_repeated_file.

(** C06: the affected lines of a patch are exactly the changed ones, for any
    sequence of context, removed and added lines, when each hunk's new range is
    not empty.
    Missing: hunks that only remove lines and have no context, see C06_zero_context_refuted. *)
Theorem C06_changed_lines_partial : forall p n, Forall (fun h => h_count h <> 0) (p_hunks p) ->
  (In n (affected_lines p) <-> exists h, In h (p_hunks p) /\ changed_by h n).
Proof. exact affected_in. Qed.
Print Assumptions C06_changed_lines_partial.

(** C06: the list is strictly increasing when hunks come in order. *)
Theorem C06_sorted : forall p, ascending 0 (p_hunks p) -> Sorted.StronglySorted lt (affected_lines p).
Proof. exact affected_sorted. Qed.
Print Assumptions C06_sorted.

Definition ex_hunk := mkHunk 3 4 [Ctx (tx "a"); Rem (tx "x"); Rem (tx "y"); Ctx (tx "b"); Ctx (tx "c"); Add (tx "d")].
Definition ex_patch := mkPatch (tx "b/src/lib.rs") [ex_hunk].

Example C06_case : affected_lines ex_patch = [3; 4; 6] /\ well_formed ex_patch.
Proof.
  split; [reflexivity|]. split; [|simpl; lia]. repeat constructor. discriminate.
Qed.

(** Finding: in a hunk that only removes lines, written without context
    ([diff -U0]), the new range is empty and its start is the line before the
    removal.  The code then takes the line before that, and misses the line
    itself. *)
Theorem C06_zero_context_refuted :
  exists p h n n', p_hunks p = [h] /\ h_count h = new_lines (h_lines h)
    /\ In n (affected_lines p) /\ ~ changed_by h n
    /\ changed_by h n' /\ ~ In n' (affected_lines p).
Proof.
  exists (mkPatch [] [mkHunk 2 0 [Rem []]]), (mkHunk 2 0 [Rem []]), 1, 2.
  split; [reflexivity|]. split; [reflexivity|]. split; [left; reflexivity|]. split; [|split].
  - intros [pre t post E Hn|pre t post E H1 Hn|pre t mid l post E Hm Hs Hn]; simpl in E.
    + destruct pre as [|z pre]; [discriminate|]. injection E as _ E. destruct pre; discriminate.
    + destruct pre as [|z pre]; [simpl in Hn; discriminate|]. injection E as _ E. destruct pre; discriminate.
    + destruct pre as [|z pre]; injection E as _ E; [destruct mid|destruct pre]; discriminate.
  - apply ch_before with (pre := []) (t := []) (post := []); [reflexivity|lia|reflexivity].
  - simpl. lia.
Qed.
Print Assumptions C06_zero_context_refuted.

(** C07: if the diff is accepted, each new-side line it quotes for a file with
    mutants is the line at that position in the file; the one exception is a blank
    line quoted past the end of the file.
    Missing: a blank line quoted past the end of the file, see C07_blank_past_end_refuted. *)
Theorem C07_quoted_lines_match_partial : forall parse ms d ps sel,
  (exists c, In c (fixed_diff d) /\ is_whitespace c = false) ->
  parse (fixed_diff d) = Some ps -> same_code ms -> diff_filter parse ms d = DiffOk sel ->
  forall p m n t, In p ps -> In m ms -> patch_is_for p (sf_path (mu_file m)) -> quotes p n t ->
  line_is (sf_code (mu_file m)) n t \/ (past_end (sf_code (mu_file m)) n /\ t = []).
Proof. exact c07_accept. Qed.
Print Assumptions C07_quoted_lines_match_partial.

(** C07: one quoted line with some text that is not in the file at that place makes
    the run fail.
    Missing: a blank line quoted past the end of the file, see C07_blank_past_end_refuted. *)
Theorem C07_stale_rejected_partial : forall parse ms d ps p m n t,
  (exists c, In c (fixed_diff d) /\ is_whitespace c = false) ->
  parse (fixed_diff d) = Some ps -> same_code ms ->
  In p ps -> In m ms -> patch_is_for p (sf_path (mu_file m)) -> quotes p n t ->
  ~ line_is (sf_code (mu_file m)) n t -> t <> [] ->
  diff_filter parse ms d = DiffMismatch.
Proof. exact c07_reject. Qed.
Print Assumptions C07_stale_rejected_partial.

(** C07: a diff that matches the files is not called stale. *)
Theorem C07_no_false_alarm : forall parse ms d ps,
  parse (fixed_diff d) = Some ps -> same_code ms ->
  (forall p m n t, In p ps -> In m ms -> patch_is_for p (sf_path (mu_file m)) -> quotes p n t ->
    line_is (sf_code (mu_file m)) n t) ->
  diff_filter parse ms d <> DiffMismatch.
Proof. exact c07_no_false_alarm. Qed.
Print Assumptions C07_no_false_alarm.

(** A concrete run: two mutants, the diff touches the second. *)
Definition ex_code := tx "1
2
a
b
c
d
".
Definition ex_src := mkSF (tx "p") (tx "src/lib.rs") ex_code true.
Definition ex_mut a b := mkMutant ex_src None (mkSpan (mkLC a 1) (mkLC b 2)) (tx "x") FnValue.
Definition ex_parse (_ : text) : option (list patch) := Some [ex_patch].

Example C05_case : diff_filter ex_parse [ex_mut 1 2; ex_mut 4 5; ex_mut 5 5; ex_mut 2 3] (tx "diff")
  = DiffOk [ex_mut 4 5; ex_mut 2 3]
  /\ (exists c, In c (fixed_diff (tx "diff")) /\ is_whitespace c = false)
  /\ patch_is_for ex_patch (tx "src/lib.rs").
Proof.
  split; [reflexivity|]. split; [exists 100%N; split; [left; reflexivity|reflexivity]|]. left. reflexivity.
Qed.

Example C07_case : diff_filter ex_parse
   [mkMutant (mkSF (tx "p") (tx "src/lib.rs") (tx "other") true) None (mkSpan (mkLC 1 1) (mkLC 1 2)) [] FnValue]
   (tx "diff") = DiffMismatch.
Proof. reflexivity. Qed.

(** Finding: a blank line quoted past the end of the file is accepted. *)
Theorem C07_blank_past_end_refuted :
  exists parse ms d ps sel p m n, parse (fixed_diff d) = Some ps /\ diff_filter parse ms d = DiffOk sel
    /\ In p ps /\ In m ms /\ patch_is_for p (sf_path (mu_file m)) /\ quotes p n []
    /\ ~ line_is (sf_code (mu_file m)) n [].
Proof.
  set (p := mkPatch (tx "b/src/lib.rs") [mkHunk 9 1 [Add []]]).
  exists (fun _ => Some [p]), [ex_mut 1 2], (tx "diff"), [p], [], p, (ex_mut 1 2), 9.
  split; [reflexivity|]. split; [reflexivity|]. split; [left; reflexivity|]. split; [left; reflexivity|].
  split; [left; reflexivity|]. split.
  - exists (mkHunk 9 1 [Add []]), [], (Add []), []. repeat split; auto. left; reflexivity.
  - intros [_ H]. vm_compute in H. discriminate.
Qed.
Print Assumptions C07_blank_past_end_refuted.

(** Finding: with a diff made without prefixes, a file below a top directory named
    "b" is not found. *)
Theorem C05_unprefixed_b_refuted :
  exists parse m d p h, parse (fixed_diff d) = Some [p]
    /\ p_new p = sf_path (mu_file m) /\ In h (p_hunks p)
    /\ changed_by h (lc_line (sp_start (mu_span m)))
    /\ diff_filter parse [m] d = DiffOk [].
Proof.
  set (h := mkHunk 1 1 [Add (tx "x")]). set (p := mkPatch (tx "b/lib.rs") [h]).
  exists (fun _ => Some [p]), (mkMutant (mkSF [] (tx "b/lib.rs") (tx "x") true) None (mkSpan (mkLC 1 1) (mkLC 1 2)) [] FnValue),
    (tx "diff"), p, h.
  split; [reflexivity|]. split; [reflexivity|]. split; [left; reflexivity|]. split; [|reflexivity].
  apply ch_added with (pre := []) (t := tx "x") (post := []); reflexivity.
Qed.
Print Assumptions C05_unprefixed_b_refuted.

(** C05: the parser gets the diff without the lines about binary files. *)
Theorem C05_parser_input : forall d, parser_text d (fixed_diff d).
Proof. exact parser_input. Qed.
Print Assumptions C05_parser_input.

(** C05: a diff with a visible ASCII character is not taken as empty. *)
Theorem C05_visible_not_blank : forall c, (33 <= c <= 126)%N -> is_whitespace c = false.
Proof. exact visible_not_blank. Qed.
Print Assumptions C05_visible_not_blank.

(** C05: a diff that matches the files and has one patch for each file is accepted; any
    number of files may be deleted. *)
Theorem C05_accepted : forall parse ms d ps,
  parse (fixed_diff d) = Some ps -> same_code ms -> one_patch_each ps ->
  (forall p m n t, In p ps -> In m ms -> patch_is_for p (sf_path (mu_file m)) -> quotes p n t ->
    line_is (sf_code (mu_file m)) n t) ->
  exists sel, diff_filter parse ms d = DiffOk sel.
Proof. exact c05_accepted. Qed.
Print Assumptions C05_accepted.

(** C05: a diff that the parser refuses is an error. *)
Theorem C05_unreadable : forall parse ms d, (exists c, In c (fixed_diff d) /\ is_whitespace c = false) ->
  parse (fixed_diff d) = None -> diff_filter parse ms d = DiffParseError.
Proof. exact c05_unreadable. Qed.
Print Assumptions C05_unreadable.

(** C05: why a diff was refused is as the error says: it cannot be parsed, it does not match the files, or it has two
    patches for one file. *)
Theorem C05_refused : forall parse ms d, same_code ms ->
  match diff_filter parse ms d with
  | DiffOk _ => True
  | DiffParseError => parse (fixed_diff d) = None
  | DiffMismatch => exists ps, parse (fixed_diff d) = Some ps
      /\ ~ forall p m n t, In p ps -> In m ms -> patch_is_for p (sf_path (mu_file m)) -> quotes p n t -> line_is (sf_code (mu_file m)) n t
  | DiffRepeated => exists ps, parse (fixed_diff d) = Some ps /\ ~ one_patch_each ps
  end.
Proof. exact c05_refused. Qed.
Print Assumptions C05_refused.

Definition ex_deletion := mkPatch (tx "/dev/null") [mkHunk 0 0 [Rem (tx "x")]].

Example C05_case_input :
  fixed_diff (tx "diff a
Binary files a and b differ
+x") = tx "diff a
+x
"
  /\ diff_filter (fun _ => Some [ex_deletion; ex_patch; ex_deletion]) [ex_mut 4 5] (tx "diff") = DiffOk [ex_mut 4 5]
  /\ diff_filter (fun _ => None) [ex_mut 4 5] (tx "diff") = DiffParseError
  /\ diff_filter (fun _ => Some [ex_patch; ex_patch]) [ex_mut 4 5] (tx "diff") = DiffRepeated.
Proof. split; [|split; [|split]]; vm_compute; reflexivity. Qed.

(** C05: a blank diff is one of Unicode's white space only. *)
Theorem C05_white_space : forall c, is_whitespace c = true <-> In c white_space.
Proof. exact white_space_iff. Qed.
Print Assumptions C05_white_space.
