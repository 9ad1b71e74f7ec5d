(** Model of src/in_diff.rs: choosing mutants touched by a diff. *)
From Coq Require Import String List NArith Bool Arith.
From Verif Require Import Text SpanM PathM MutantM.
Import ListNotations.

(** The [patch] crate's parsed form, as far as it is used: the new path and, for
    each hunk, the start and count of the new range and the lines. *)
Inductive dline := Ctx (t : text) | Add (t : text) | Rem (t : text).
Record hunk := mkHunk { h_start : nat; h_count : nat; h_lines : list dline }.
Record patch := mkPatch { p_new : text; p_hunks : list hunk }.

(** [char::is_whitespace]. *)
Definition is_whitespace (c : chr) : bool :=
  ((9 <=? c) && (c <=? 13) || (c =? 32) || (c =? 133) || (c =? 160) || (c =? 5760)
   || (8192 <=? c) && (c <=? 8202) || (c =? 8232) || (c =? 8233) || (c =? 8239)
   || (c =? 8287) || (c =? 12288))%N.

(** src/in_diff.rs:24-28: the text handed to the parser. *)
Definition fixed_diff (diff_text : text) : text :=
  join [NL] (filter (fun l => negb (starts_with (tx "Binary files ") l)) (lines diff_text) ++ [[]]).

(** src/in_diff.rs:118-121 [strip_patch_path], as components (paths are compared
    by components; [strip_prefix("b")] drops a first component "b"). *)
Definition strip_patch_path (path : text) : list comp :=
  match components path with
  | Normal b :: rest => if text_eqb b (tx "b") then rest else components path
  | cs => cs
  end.

(** Push if the last element satisfies [ok] or there is none
    ([last().map_or(true, ok)]). *)
Definition push_if (ok : nat -> bool) (l : list nat) (x : nat) : list nat :=
  match rev l with
  | [] => l ++ [x]
  | y :: _ => if ok y then l ++ [x] else l
  end.

(** src/in_diff.rs:141-174: the loop over the lines of one hunk.  The debug
    assertions are left out (they are off in release builds; their conditions
    follow from the sortedness lemma in InDiffP). *)
Fixpoint hunk_loop (acc : list nat) (lineno : nat) (prev_removed : bool) (ls : list dline) : list nat :=
  match ls with
  | [] => acc
  | l :: ls' =>
      match l with
      | Rem _ =>
          let acc' := if 1 <? lineno
                      then push_if (fun last => negb (last =? lineno - 1)) acc (lineno - 1)
                      else acc in
          hunk_loop acc' lineno true ls'
      | Ctx _ =>
          let acc1 := if prev_removed then acc ++ [lineno] else acc in
          hunk_loop acc1 (lineno + 1) false ls'
      | Add _ =>
          let acc1 := if prev_removed then acc ++ [lineno] else acc in
          let acc2 := push_if (fun last => negb (last =? lineno)) acc1 lineno in
          hunk_loop acc2 (lineno + 1) false ls'
      end
  end.

(** src/in_diff.rs:133-184 [affected_lines]. *)
Definition affected_lines (p : patch) : list nat :=
  fold_left (fun acc h => hunk_loop acc (h_start h) false (h_lines h)) (p_hunks p) [].

(** src/in_diff.rs:193-218 [partial_new_file]: (line number, text) of each new-side
    line of one hunk. *)
Fixpoint new_side (lineno : nat) (ls : list dline) : list (nat * text) :=
  match ls with
  | [] => []
  | Ctx t :: ls' | Add t :: ls' => (lineno, t) :: new_side (lineno + 1) ls'
  | Rem _ :: ls' => new_side lineno ls'
  end.

Definition partial_new_file (p : patch) : list (nat * text) :=
  flat_map (fun h => new_side (h_start h) (h_lines h)) (p_hunks p).

(** src/in_diff.rs:83-88, 91: the source file known under a path: that of the first mutant with
    this path. *)
Definition source_by_path (ms : list mutant) (path : list comp) : option source_file :=
  option_map mu_file (find (fun m => comps_eqb (components (sf_path (mu_file m))) path) ms).

(** src/in_diff.rs:95: [lines.get(lineno - 1).unwrap_or(&"")]; line number 0 wraps
    to a huge index and finds nothing (release build). *)
Definition source_line (code : text) (lineno : nat) : text :=
  match lineno with
  | 0 => []
  | S i => match nth_error (lines code) i with Some l => l | None => [] end
  end.

(** src/in_diff.rs:82-115 [check_diff_new_text_matches]: true is Ok. *)
Definition check_patch (ms : list mutant) (p : patch) : bool :=
  match source_by_path ms (strip_patch_path (p_new p)) with
  | None => true
  | Some f => forallb (fun '(n, t) => text_eqb t (source_line (sf_code f) n)) (partial_new_file p)
  end.

Definition check_diff_new_text_matches (ps : list patch) (ms : list mutant) : bool :=
  forallb (check_patch ms) ps.

(** [slice::binary_search] (std 1.82): narrows to one candidate, then compares. *)
Fixpoint bsearch_loop (fuel : nat) (v : list nat) (x base size : nat) : nat :=
  match fuel with
  | 0 => base
  | S f =>
      if size <=? 1 then base
      else let half := size / 2 in
           let mid := base + half in
           let base' := if x <? nth mid v 0 then base else mid in
           bsearch_loop f v x base' (size - half)
  end.

Definition binary_search (v : list nat) (x : nat) : bool :=
  match v with
  | [] => false
  | _ => nth (bsearch_loop (length v) v x 0 (length v)) v 0 =? x
  end.

(** src/in_diff.rs:64: does a line of the mutant's span hit? *)
Definition span_hits (changed : list nat) (sp : span) : bool :=
  existsb (binary_search changed)
    (seq (lc_line (sp_start sp)) (lc_line (sp_end sp) + 1 - lc_line (sp_start sp))).

(** src/in_diff.rs:39-51: the map from path to changed lines; [None] is the
    "repeated filename" error. *)
Fixpoint changed_by_path (acc : list (list comp * list nat)) (ps : list patch)
  : option (list (list comp * list nat)) :=
  match ps with
  | [] => Some acc
  | p :: ps' =>
      let path := strip_patch_path (p_new p) in
      if comps_eqb path (components (tx "/dev/null")) then changed_by_path acc ps'
      else if existsb (fun e => comps_eqb (fst e) path) acc then None
      else changed_by_path (acc ++ [(path, affected_lines p)]) ps'
  end.

Definition lookup_path (tbl : list (list comp * list nat)) (path : list comp) : option (list nat) :=
  option_map snd (find (fun e => comps_eqb (fst e) path) tbl).

Inductive diff_result := DiffParseError | DiffMismatch | DiffRepeated | DiffOk (ms : list mutant).

(** src/in_diff.rs:21-79 [diff_filter]; [parse] is [Patch::from_multiple]. *)
Definition diff_filter (parse : text -> option (list patch)) (ms : list mutant) (diff_text : text)
  : diff_result :=
  let fixed := fixed_diff diff_text in
  if forallb is_whitespace fixed then DiffOk []
  else match parse fixed with
       | None => DiffParseError
       | Some ps =>
           if negb (check_diff_new_text_matches ps ms) then DiffMismatch
           else match changed_by_path [] ps with
                | None => DiffRepeated
                | Some tbl =>
                    DiffOk (filter (fun m =>
                              match lookup_path tbl (components (sf_path (mu_file m))) with
                              | Some changed => span_hits changed (mu_span m)
                              | None => false
                              end) ms)
                end
       end.
