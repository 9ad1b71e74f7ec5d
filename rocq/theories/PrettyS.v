(** Specification of printed code (C36). *)
From Coq Require Import String List NArith Bool.
Import ListNotations.
From Verif Require Import Text PrettyM.

(** The tokens in order, with delimiters as tokens of their own. *)
Inductive lexeme := LPunct (c : chr) | LWord (t : text) | LOpen (d : delim) | LClose (d : delim).
Definition delims (d : delim) : text :=
  match d with Brace => tx "{}" | Bracket => tx "[]" | Paren => tx "()" | NoDelim => [] end.
Definition lex_text (l : lexeme) : text :=
  match l with
  | LPunct c => [c]
  | LWord t => t
  | LOpen d => firstn 1 (delims d)
  | LClose d => skipn 1 (delims d)
  end.
Definition is_word (l : lexeme) : bool := match l with LWord _ => true | _ => false end.

Fixpoint lexemes (t : tree) : list lexeme :=
  match t with
  | Punct c => [LPunct c]
  | Word w => [LWord w]
  | Group d ts => LOpen d :: flat_map lexemes ts ++ [LClose d]
  end.
Definition all_lexemes (ts : list tree) : list lexeme := flat_map lexemes ts.

(** The tokens in order with only spaces between, at least one between two words. *)
Inductive layout : list lexeme -> text -> Prop :=
| lay_nil : layout [] []
| lay_one : forall x, layout [x] (lex_text x)
| lay_cons : forall x y r s n, layout (y :: r) s -> (is_word x = true -> is_word y = true -> 0 < n) ->
    layout (x :: y :: r) (lex_text x ++ repeat SP n ++ s).

(** No invisible groups (the parser produces none from source text). *)
Inductive visible : tree -> Prop :=
| vis_punct : forall c, visible (Punct c)
| vis_word : forall w, visible (Word w)
| vis_group : forall d ts, d <> NoDelim -> (forall t, In t ts -> visible t) -> visible (Group d ts).

(** The exact spacing. [space_after p x y]: whether there is a space after [x], which follows
    [p] and comes before [y]: after a comma, a semicolon and an arrow [->], between words, and
    between a word and an operator; never before a closing delimiter. *)
Definition is_punct (c : string) (x : lexeme) : bool := match x with LPunct d => text_eqb (tx c) [d] | _ => false end.
Definition is_prev (c : string) (p : option lexeme) : bool := match p with Some x => is_punct c x | None => false end.
Definition space_after (p : option lexeme) (x y : lexeme) : bool :=
  match x, y with
  | _, LClose _ => false
  | LPunct _, _ => is_punct "," x || is_punct ";" x || (is_punct ">" x && is_prev "-" p)
  | LWord _, LWord _ => true
  | LWord _, LPunct _ => negb (existsb (fun c => is_punct c y) [","; ";"; "<"; ">"; ":"; "."; "!"]%string)
  | _, _ => false
  end.
(** A space before a word after [=] or [=>]. *)
Definition space_before (p x : option lexeme) (y : lexeme) : bool :=
  is_word y && (is_prev "=" x || (is_prev ">" x && is_prev "=" p)).
Fixpoint spaced (p x : option lexeme) (l : list lexeme) : text :=
  match l with
  | [] => []
  | y :: r =>
      (if space_before p x y then [SP] else []) ++ lex_text y
      ++ (match r with z :: _ => if space_after x y z then [SP] else [] | [] => [] end) ++ spaced x (Some y) r
  end.
(** Words are not empty and do not end as an operator. *)
Definition proper_word (l : lexeme) : Prop :=
  match l with
  | LWord w => exists u c, w = u ++ [c] /\ ~ In c (tx "=->")
  | _ => True
  end.

(** A simple tokeniser: maximal runs of word characters, and single other characters. *)
Section Lex.
Variable word_char : chr -> bool.
Definition flush (cur : text) : list text := match cur with [] => [] | _ => [cur] end.
Fixpoint tokenise (cur s : text) : list text :=
  match s with
  | [] => flush cur
  | c :: s' =>
      if N.eqb c SP then flush cur ++ tokenise [] s'
      else if word_char c then tokenise (cur ++ [c]) s'
      else flush cur ++ [c] :: tokenise [] s'
  end.

(** Words of word characters, other tokens not. *)
Definition plain_lexeme (l : lexeme) : Prop :=
  match l with
  | LWord w => w <> [] /\ forall c, In c w -> word_char c = true /\ c <> SP
  | LPunct c => word_char c = false /\ c <> SP
  | LOpen _ | LClose _ => forall c, In c (lex_text l) -> word_char c = false
  end.
End Lex.
