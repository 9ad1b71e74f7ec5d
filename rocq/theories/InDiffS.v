(** Specification for C05, C06 and C07. *)
From Coq Require Import String List NArith Bool Arith.
From Verif Require Import Text SpanM PathM MutantM InDiffM.
Import ListNotations.

Definition removal (l : dline) : Prop := exists t, l = Rem t.
Definition surviving (l : dline) : Prop := ~ removal l.

(** Number of lines of the new file among these diff lines. *)
Fixpoint new_lines (ls : list dline) : nat :=
  match ls with
  | [] => 0
  | Rem _ :: ls' => new_lines ls'
  | _ :: ls' => S (new_lines ls')
  end.

(** In a unified diff, a range with count 0 names the line before it, otherwise
    its first line. *)
Definition first_new_line (h : hunk) : nat :=
  if h_count h =? 0 then S (h_start h) else h_start h.

(** Line [n] of the new file is changed by the hunk: it was added, or is the line
    just before a removed line, or is the first surviving line after a removed
    line in the hunk. *)
Inductive changed_by (h : hunk) (n : nat) : Prop :=
| ch_added : forall pre t post, h_lines h = pre ++ Add t :: post ->
    n = first_new_line h + new_lines pre -> changed_by h n
| ch_before : forall pre t post, h_lines h = pre ++ Rem t :: post ->
    1 <= n -> S n = first_new_line h + new_lines pre -> changed_by h n
| ch_after : forall pre t mid l post, h_lines h = pre ++ Rem t :: mid ++ l :: post ->
    Forall removal mid -> surviving l ->
    n = first_new_line h + new_lines pre -> changed_by h n.

(** The header counts the new-side lines, and there are some. *)
Definition counted (h : hunk) : Prop := h_count h = new_lines (h_lines h) /\ h_count h <> 0.

(** Hunks follow each other without overlap, as diff tools write them. *)
Fixpoint ascending (from : nat) (hs : list hunk) : Prop :=
  match hs with
  | [] => True
  | h :: hs' => from <= h_start h /\ ascending (h_start h + new_lines (h_lines h)) hs'
  end.

Definition well_formed (p : patch) : Prop := Forall counted (p_hunks p) /\ ascending 0 (p_hunks p).

(** The file a patch is about: its new path, without a leading "b/". *)
Definition patch_is_for (p : patch) (path : text) : Prop :=
  components (p_new p) = Normal (tx "b") :: components path
  \/ (components (p_new p) = components path
      /\ forall r, components path <> Normal (tx "b") :: r).

(** The mutant's lines contain a line changed by a patch for its file. *)
Definition touched (ps : list patch) (m : mutant) : Prop :=
  exists p h n, In p ps /\ patch_is_for p (sf_path (mu_file m)) /\ In h (p_hunks p)
    /\ changed_by h n
    /\ lc_line (sp_start (mu_span m)) <= n <= lc_line (sp_end (mu_span m)).

(** [selects P all sel]: [sel] is the elements of [all] with [P], in order. *)
Inductive selects {A} (P : A -> Prop) : list A -> list A -> Prop :=
| sel_nil : selects P [] []
| sel_keep : forall x a b, P x -> selects P a b -> selects P (x :: a) (x :: b)
| sel_drop : forall x a b, ~ P x -> selects P a b -> selects P (x :: a) b.

(** The diff says that line [n] of the new file is [t]. *)
Definition quotes (p : patch) (n : nat) (t : text) : Prop :=
  exists h pre l post, In h (p_hunks p) /\ h_lines h = pre ++ l :: post
    /\ (l = Ctx t \/ l = Add t) /\ n = h_start h + new_lines pre.

(** Line [n], counted from 1, of the code is [t]. *)
Definition line_is (code : text) (n : nat) (t : text) : Prop :=
  1 <= n /\ nth_error (lines code) (n - 1) = Some t.

(** The code has no line [n]. *)
Definition past_end (code : text) (n : nat) : Prop := n = 0 \/ length (lines code) < n.

(** Mutants in files of the same path have the same code: one file was loaded once. *)
Definition same_code (ms : list mutant) : Prop := forall m m', In m ms -> In m' ms ->
  components (sf_path (mu_file m)) = components (sf_path (mu_file m')) ->
  sf_code (mu_file m) = sf_code (mu_file m').

(** What the parser is given: each line of the diff that does not begin with
    "Binary files ", followed by a newline. *)
Definition parser_text (d given : text) : Prop :=
  exists kept, selects (fun l => ~ exists r, l = tx "Binary files " ++ r) (lines d) kept
    /\ given = flat_map (fun l => l ++ [NL]) kept.

(** The patch deletes its file. *)
Definition deletes (p : patch) : Prop := components (p_new p) = components (tx "/dev/null").

(** The new path of a patch, as components, without a leading "b/". *)
Definition target (p : patch) (cs : list comp) : Prop :=
  components (p_new p) = Normal (tx "b") :: cs
  \/ (components (p_new p) = cs /\ forall r, cs <> Normal (tx "b") :: r).

(** No file is in two patches, except for deleted ones. *)
Definition one_patch_each (ps : list patch) : Prop := forall a p1 b p2 c cs,
  ps = a ++ p1 :: b ++ p2 :: c -> target p1 cs -> target p2 cs -> deletes p1.

(** The characters with Unicode's property White_Space. *)
Definition white_space : list N :=
  [9; 10; 11; 12; 13; 32; 133; 160; 5760; 8192; 8193; 8194; 8195; 8196; 8197; 8198; 8199; 8200; 8201; 8202; 8232; 8233; 8239; 8287; 12288]%N.
