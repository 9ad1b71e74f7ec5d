(** Specification of glob matching (C39), on the glob's characters and on path
    components, following the documentation (book/src/skip_files.md). *)
From Coq Require Import String List NArith Bool.
Import ListNotations.
From Verif Require Import Text GlobM.

(** A bracket class: "[" followed by [b] is a complete class, read by globset as [rs].
    How classes are read is globset's business; what matters here is that they are read
    the same wherever they stand. *)
Definition class_body (b : text) (neg : bool) (rs : list (chr * chr)) : Prop :=
  glob_new (91%N :: b) = Some [TClass neg rs].

(** A class of ranges stands for the characters in them, or if negated for the others. *)
Definition within (rs : list (chr * chr)) (c : chr) : Prop :=
  exists lo hi, In (lo, hi) rs /\ (lo <= c)%N /\ (c <= hi)%N.
Definition in_class (neg : bool) (rs : list (chr * chr)) (c : chr) : Prop :=
  if neg then ~ within rs c else within rs c.

(** A class as one writes it: single characters and ranges, none of them special. *)
Inductive item := One (c : chr) | Range (lo hi : chr).
Definition item_text (i : item) : text := match i with One c => [c] | Range lo hi => [lo; 45%N; hi] end.
Definition item_range (i : item) : chr * chr := match i with One c => (c, c) | Range lo hi => (lo, hi) end.
Definition plain_char (c : chr) : Prop := ~ In c (tx "]-!^").
Definition plain_item (i : item) : Prop :=
  match i with One c => plain_char c | Range lo hi => plain_char lo /\ plain_char hi /\ (lo <= hi)%N end.

(** No class in [g] matches a slash. (With globset a negated class does.) *)
Definition classes_without_slash (g : text) : Prop :=
  forall a b c neg rs, g = a ++ 91%N :: b ++ c -> class_body b neg rs -> ~ in_class neg rs SLASH.

Definition ordinary (c : chr) : Prop := ~ In c (tx "?*[{}\").

(** [cmatch g s]: the glob [g] matches the path component [s]. *)
Inductive cmatch : text -> text -> Prop :=
| cm_nil : cmatch [] []
| cm_char : forall c g s, ordinary c -> cmatch g s -> cmatch (c :: g) (c :: s)
| cm_escape : forall c g s, cmatch g s -> cmatch (BSLASH :: c :: g) (c :: s)
| cm_any : forall d g s, d <> SLASH -> cmatch g s -> cmatch (63%N :: g) (d :: s)
| cm_star_none : forall g s, cmatch g s -> cmatch (STAR :: g) s
| cm_star_more : forall d g s, d <> SLASH -> cmatch (STAR :: g) s -> cmatch (STAR :: g) (d :: s)
| cm_class : forall b neg rs d g s, class_body b neg rs -> in_class neg rs d ->
    cmatch g s -> cmatch (91%N :: b ++ g) (d :: s).

(** [pmatch gs cs]: a glob with components [gs] matches the whole path [cs]; "**" stands
    for any number of components, but for at least one at the end of a longer glob. *)
Inductive pmatch : list text -> list text -> Prop :=
| pm_nil : pmatch [] []
| pm_comp : forall g gs c cs, g <> tx "**" -> cmatch g c -> pmatch gs cs -> pmatch (g :: gs) (c :: cs)
| pm_rec_none : forall gs cs, gs <> [] -> pmatch gs cs -> pmatch (tx "**" :: gs) cs
| pm_rec_more : forall gs c cs, pmatch (tx "**" :: gs) cs -> pmatch (tx "**" :: gs) (c :: cs)
| pm_rec_end : forall c, pmatch [tx "**"] [c].
