(** A lexer in the manner of Rust's, to say that printed code has the tokens it should
    (C36), and which tokens and types it can read. *)
From Coq Require Import String List NArith Bool.
Import ListNotations.
From Verif Require Import Text PrettyM PrettyS FnValueM.

Definition is_digit (c : chr) : bool := N.leb 48 c && N.leb c 57.
Definition word_start (c : chr) : bool := (N.leb 65 c && N.leb c 90) || (N.leb 97 c && N.leb c 122) || N.eqb c USCORE || N.leb 128 c.
Definition word_cont (c : chr) : bool := word_start c || is_digit c.

(** Identifiers and keywords; numbers, in which a dot belongs to the number if a digit follows;
    string literals with escapes; any other character is a token of its own. *)
Inductive mode := MStart | MWord (acc : text) | MNum (acc : text) | MStr (acc : text) (esc : bool).
Definition begin (c : chr) : list text * mode :=
  if N.eqb c SP then ([], MStart)
  else if N.eqb c QUOTE then ([], MStr [c] false)
  else if is_digit c then ([], MNum [c])
  else if word_start c then ([], MWord [c])
  else ([[c]], MStart).
Fixpoint lex (m : mode) (s : text) : list text :=
  match s with
  | [] => match m with MStart => [] | MWord a | MNum a | MStr a _ => [a] end
  | c :: s' =>
      match m with
      | MStart => fst (begin c) ++ lex (snd (begin c)) s'
      | MWord a => if word_cont c then lex (MWord (a ++ [c])) s' else a :: fst (begin c) ++ lex (snd (begin c)) s'
      | MNum a =>
          if word_cont c || (N.eqb c DOT && match s' with d :: _ => is_digit d | [] => false end)
          then lex (MNum (a ++ [c])) s' else a :: fst (begin c) ++ lex (snd (begin c)) s'
      | MStr a true => lex (MStr (a ++ [c]) false) s'
      | MStr a false =>
          if N.eqb c QUOTE then (a ++ [c]) :: lex MStart s'
          else lex (MStr (a ++ [c]) (N.eqb c BSLASH)) s'
      end
  end.

(** Words that are identifiers, numbers (without a sign in the exponent) or plain strings.  Raw
    identifiers, characters, byte strings and raw strings are left out. *)
Definition ident (w : text) : Prop := exists c w', w = c :: w' /\ word_start c = true /\ forallb word_cont w' = true.
Inductive num_tail : text -> Prop :=
| nt_nil : num_tail []
| nt_char c w : word_cont c = true -> num_tail w -> num_tail (c :: w)
| nt_dot d w : is_digit d = true -> num_tail (d :: w) -> num_tail (DOT :: d :: w).
Inductive str_body : text -> Prop :=
| sb_nil : str_body []
| sb_char c w : c <> QUOTE -> c <> BSLASH -> str_body w -> str_body (c :: w)
| sb_esc c w : str_body w -> str_body (BSLASH :: c :: w).
Inductive rust_word : text -> Prop :=
| rw_ident w : ident w -> rust_word w
| rw_num c w : is_digit c = true -> num_tail w -> rust_word (c :: w)
| rw_str w : str_body w -> rust_word (QUOTE :: w ++ [QUOTE]).
Definition rust_punct (c : chr) : Prop :=
  word_cont c = false /\ c <> SP /\ c <> QUOTE /\ ~ In c (tx "(){}[]").
Definition rust_lexeme (l : lexeme) : Prop :=
  match l with
  | LWord w => rust_word w
  | LPunct c => rust_punct c
  | LOpen d | LClose d => d <> NoDelim
  end.
(** No number, dot, number in a row, which would be read as one number. *)
Definition starts_digit (w : text) : bool := match w with c :: _ => is_digit c | [] => false end.
Fixpoint no_split (l : list lexeme) : bool :=
  match l with
  | [] => true
  | x :: l' =>
      negb match x, l' with
           | LWord a, LPunct c :: LWord b :: _ => starts_digit a && N.eqb c DOT && starts_digit b
           | _, _ => false
           end && no_split l'
  end.
Definition rust_tokens (ts : toks) : Prop :=
  (forall x, In x (all_lexemes ts) -> rust_lexeme x) /\ no_split (all_lexemes ts) = true.

(** Types whose names are identifiers and whose array lengths are such tokens. *)
Inductive rust_ty : ty -> Prop :=
| rt_path l p id pl a : ident id -> (forall gs g, a = Some gs -> In g gs -> rust_arg g) -> rust_ty (TPath l p id pl a)
| rt_array t n : rust_ty t -> rust_tokens n -> rust_ty (TArray t n)
| rt_slice t : rust_ty t -> rust_ty (TSlice t)
| rt_ref m t : rust_ty t -> rust_ty (TRef m t)
| rt_tuple ts : (forall t, In t ts -> rust_ty t) -> rust_ty (TTuple ts)
| rt_impl bs : (forall id gs g, In (BTrait id (Some gs)) bs -> In g gs -> rust_arg g) -> rust_ty (TImpl bs)
| rt_never : rust_ty TNever
| rt_other ts : rust_ty (TOther ts)
with rust_arg : garg -> Prop :=
| ra_type t : rust_ty t -> rust_arg (GType t)
| ra_assoc id t : rust_ty t -> rust_arg (GAssoc id t)
| ra_life : rust_arg GLifetime
| ra_other : rust_arg GOther.
