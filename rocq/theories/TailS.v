(** Specification of the progress line (C37). *)
From Coq Require Import List NArith Bool.
Import ListNotations.
From Verif Require Import Text Utf8M InDiffM TailM.

(** What has been written before each poll. *)
Fixpoint seen (content : list byte) (es : list event) : list (list byte) :=
  match es with
  | [] => []
  | Append s :: es' => seen (content ++ s) es'
  | Poll :: es' => content :: seen content es'
  end.

(** Writes of whole lines. *)
Definition whole (s : list byte) : Prop := s = [] \/ exists a, s = a ++ [NL].
Definition whole_writes (es : list event) : Prop := forall s, In (Append s) es -> whole s.

(** [l] is the last line of [s] that is not blank; if there is none, [l] is empty. *)
Definition shows (s l : text) : Prop :=
  (exists before after, lines s = before ++ [l] ++ after
     /\ (exists c, In c l /\ is_whitespace c = false)
     /\ (forall x, In x after -> forall c, In c x -> is_whitespace c = true))
  \/ (l = [] /\ forall x, In x (lines s) -> forall c, In c x -> is_whitespace c = true).

(** ... of a file, read as UTF-8. *)
Definition file_shows (bs : list byte) (l : text) : Prop := shows (lossy bs) l.

(** Bytes cut into pieces, each read as one character: the encoding of that character, or one
    to three bytes that do not begin a character and are read as the replacement character
    U+FFFD. *)
Fixpoint pieces (ps : list (list byte * chr)) : Prop :=
  match ps with
  | [] => True
  | (p, c) :: r =>
      ((scalar c = true /\ p = encode_char c)
       \/ (c = 65533%N /\ 1 <= length p <= 3
           /\ forall d s, scalar d = true -> p ++ concat (map fst r) <> encode_char d ++ s))
      /\ pieces r
  end.
