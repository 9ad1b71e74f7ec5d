(** Model of src/tail_file.rs. The file holds bytes. *)
From Coq Require Import List NArith Bool.
Import ListNotations.
From Verif Require Import Text Utf8M InDiffM.

(** src/tail_file.rs:17-22 [TailFile]: the read position of the open file and the last
    line seen. *)
Record tail := mkTail { tl_pos : nat; tl_last : text }.

(** src/tail_file.rs:26-32 [TailFile::new]. *)
Definition tail_new : tail := mkTail 0 [].

(** [str::trim] leaves nothing. *)
Definition blank (l : text) : bool := forallb is_whitespace l.

(** [Iterator::next_back]. *)
Fixpoint next_back {A} (l : list A) : option A :=
  match l with [] => None | [x] => Some x | _ :: l' => next_back l' end.

(** src/tail_file.rs:38-51 [TailFile::last_line], when the file holds [content]. Read
    errors are not modelled. *)
Definition last_line (t : tail) (content : list byte) : tail * text :=
  let buf := skipn (tl_pos t) content in
  let last := match next_back (filter (fun l => negb (blank l)) (lines (lossy buf))) with
              | Some l => l
              | None => tl_last t
              end in
  (mkTail (length content) last, last).

(** The log's writer appends while the display polls. *)
Inductive event := Append (bs : list byte) | Poll.

(** The file, the reader, and the lines shown by each poll, in order. *)
Fixpoint run (content : list byte) (t : tail) (es : list event) : list text :=
  match es with
  | [] => []
  | Append s :: es' => run (content ++ s) t es'
  | Poll :: es' => let (t', l) := last_line t content in l :: run content t' es'
  end.
