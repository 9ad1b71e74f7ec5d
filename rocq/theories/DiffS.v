(** Specification for C70: a file and an older state of it, and the unified diffs between
    the two. *)
From Coq Require Import String List NArith Bool Arith.
From Verif Require Import Text SpanM PathM PathS MutantM InDiffM InDiffS WholeM.
Import ListNotations.

(** How a file became what it is, line by line from the top: a line is kept, removed or
    added. *)
Definition script := list dline.

Definition kept (l : dline) : Prop := exists t, l = Ctx t.

(** The lines of the file as it was, and as it is. *)
Fixpoint old_file (s : script) : list text :=
  match s with
  | [] => []
  | Ctx t :: s' | Rem t :: s' => t :: old_file s'
  | Add _ :: s' => old_file s'
  end.

Fixpoint new_file (s : script) : list text :=
  match s with
  | [] => []
  | Ctx t :: s' | Add t :: s' => t :: new_file s'
  | Rem _ :: s' => new_file s'
  end.

(** Line [n] of the new file, counted from 1, is changed: it is added, or the line just
    before or just after a place where lines were removed. *)
Inductive changed_in (s : script) (n : nat) : Prop :=
| ci_added : forall a t b, s = a ++ Add t :: b -> n = S (length (new_file a)) -> changed_in s n
| ci_before : forall a t b, s = a ++ Rem t :: b -> n = length (new_file a) -> n <> 0 -> changed_in s n
| ci_after : forall a t b, s = a ++ Rem t :: b -> n = S (length (new_file a)) -> new_file b <> [] -> changed_in s n.

(** A hunk: where it is in the new file and how long it is there.  An empty range is
    written as the line before it. *)
Definition hunk_at (lines_before : nat) (body : list dline) : hunk :=
  mkHunk (match new_file body with [] => lines_before | _ :: _ => S lines_before end) (length (new_file body)) body.

(** The hunks of a unified diff, from a place with [n] lines of the new file above it: all
    lines outside hunks are kept lines, and a hunk that ends with a removed line is
    followed by no line, one that has no new line is preceded by none: there is at least
    one line of context, where there is one. *)
Inductive hunks_of : nat -> script -> list hunk -> Prop :=
| ho_rest : forall n s, Forall kept s -> hunks_of n s []
| ho_hunk : forall n pre body rest hs, Forall kept pre -> body <> [] ->
    (forall b t, body = b ++ [Rem t] -> new_file rest = []) ->
    (new_file body = [] -> n = 0 /\ pre = []) ->
    hunks_of (n + length pre + length (new_file body)) rest hs ->
    hunks_of n (pre ++ body ++ rest) (hunk_at (n + length pre) body :: hs).

(** The hunks that programs write for a width [c] of context: the runs of lines that are no
    further than [c] lines from an added or removed one. *)
Definition is_change (l : dline) : bool := match l with Ctx _ => false | _ => true end.

Definition near (c : nat) (above : list dline) (from : list dline) : bool :=
  existsb is_change (firstn c above) || existsb is_change (firstn (S c) from).

Definition closed (n : nat) (cur : list dline) : list hunk :=
  match cur with [] => [] | _ :: _ => [hunk_at n cur] end.

(** [n]: the lines of the new file above [cur]; [above]: the lines of the script above, the
    nearest first; [cur]: the run so far. *)
Fixpoint runs (c n : nat) (above cur from : list dline) : list hunk :=
  match from with
  | [] => closed n cur
  | l :: from' =>
      if near c above from then runs c n (l :: above) (cur ++ [l]) from'
      else closed n cur ++ runs c (n + length (new_file (cur ++ [l]))) (l :: above) [] from'
  end.

Definition unified (c : nat) (s : script) : list hunk := runs c 0 [] [] s.

(** A changed file. *)
Record change := mkChange { ch_path : text; ch_script : script }.

(** The patch for a change: its new path is that of the file, or "/dev/null" if no line is
    left. *)
Definition written (c : change) (p : patch) : Prop :=
  hunks_of 0 (ch_script c) (p_hunks p)
  /\ (patch_is_for p (ch_path c) \/ (deletes p /\ new_file (ch_script c) = [])).

(** The changes are in different files, given by relative paths. *)
Definition different_files (chs : list change) : Prop :=
  NoDup (map (fun c => components (ch_path c)) chs) /\ Forall (fun c => relative (ch_path c)) chs.

(** The mutants are from the tree after the changes. *)
Definition of_new_tree (chs : list change) (ms : list mutant) : Prop := forall c m, In c chs -> In m ms ->
  components (ch_path c) = components (sf_path (mu_file m)) -> lines (sf_code (mu_file m)) = new_file (ch_script c).

(** A line of the mutant is changed. *)
Definition edited (chs : list change) (m : mutant) : Prop := exists c n, In c chs
  /\ components (ch_path c) = components (sf_path (mu_file m))
  /\ changed_in (ch_script c) n
  /\ lc_line (sp_start (mu_span m)) <= n <= lc_line (sp_end (mu_span m)).

(** A path names the same file however it is written. *)
Definition one_file (w : world) : Prop := forall p q, components p = components q -> wo_read w p = wo_read w q.

(** The tree below [root] is the one after the changes, but for carriage returns before newlines. *)
Definition after_changes (w : world) (root : text) (chs : list change) : Prop := forall c t, In c chs ->
  wo_read w (path_join root (ch_path c)) = Some t -> lines (without_crlf_cr t) = new_file (ch_script c).

(** The diff that is given is of these changes. *)
Definition diff_given (w : world) (a : arguments) (chs : list change) : Prop := exists f d ps,
  ag_in_diff a = Some f /\ wo_read w f = Some d /\ (exists c, In c (fixed_diff d) /\ is_whitespace c = false)
  /\ wo_patch w (fixed_diff d) = Some ps /\ Forall2 written chs ps.
