(** Model of src/pretty.rs. *)
From Coq Require Import List NArith Bool.
Import ListNotations.
From Verif Require Import Text.

(** [proc_macro2::Delimiter], [TokenTree]. Identifiers and literals are treated alike by
    the code and are both [Word]; their text is what their [to_string] gives. *)
Inductive delim := Brace | Bracket | Paren | NoDelim.
Inductive tree := Punct (c : chr) | Word (t : text) | Group (d : delim) (ts : list tree).

Definition EQ : chr := 61%N.     (* '=' *)
Definition LT : chr := 60%N.     (* '<' *)
Definition GT : chr := 62%N.     (* '>' *)
Definition MINUS : chr := 45%N.  (* '-' *)
Definition SEMI : chr := 59%N.   (* ';' *)
Definition COMMA_ : chr := 44%N. (* ',' *)
Definition BANG : chr := 33%N.   (* '!' *)

Definition opening (d : delim) : text :=
  match d with Brace => [123%N] | Bracket => [91%N] | Paren => [40%N] | NoDelim => [] end.
Definition closing (d : delim) : text :=
  match d with Brace => [125%N] | Bracket => [93%N] | Paren => [41%N] | NoDelim => [] end.

(** src/pretty.rs:31-37. *)
Definition push_punct (b : text) (c : chr) (next : option tree) : text :=
  let b := b ++ [c] in
  match next with
  | Some _ => if ends_with [MINUS; GT] b || N.eqb c COMMA_ || N.eqb c SEMI then b ++ [SP] else b
  | None => b
  end.

(** src/pretty.rs:38-57. *)
Definition push_word (b : text) (w : text) (next : option tree) : text :=
  let b := if ends_with [EQ] b || ends_with [EQ; GT] b then b ++ [SP] else b in
  let b := b ++ w in
  match next with
  | Some (Word _) => b ++ [SP]
  | Some (Punct c) => if existsb (N.eqb c) [COMMA_; SEMI; LT; GT; COLON; DOT; BANG] then b else b ++ [SP]
  | Some (Group _ _) | None => b
  end.

(** src/pretty.rs:25-82 [to_pretty_string], without the final assertion. *)
Fixpoint push_tree (b : text) (t : tree) (next : option tree) {struct t} : text :=
  match t with
  | Punct c => push_punct b c next
  | Word w => push_word b w next
  | Group d ts =>
      b ++ opening d
        ++ (fix go (b : text) (ts : list tree) : text :=
              match ts with
              | [] => b
              | t :: ts' => go (push_tree b t (hd_error ts')) ts'
              end) [] ts
        ++ closing d
  end.
Fixpoint push_all (b : text) (ts : list tree) : text :=
  match ts with
  | [] => b
  | t :: ts' => push_all (push_tree b t (hd_error ts')) ts'
  end.
Definition pretty (ts : list tree) : text := push_all [] ts.

(** src/pretty.rs:75-79: the assertion made in debug builds, here and in all groups. *)
Fixpoint asserts (t : tree) : bool :=
  match t with
  | Group _ ts => negb (ends_with [SP] (pretty ts)) && forallb asserts ts
  | _ => true
  end.
Definition pretty_asserts (ts : list tree) : bool := asserts (Group NoDelim ts).
