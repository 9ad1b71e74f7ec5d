(** Theorems about reading printed code back, and about the printed values (C36, C62). *)
From Coq Require Import String List NArith Bool.
Import ListNotations.
From Verif Require Import Text PrettyM PrettyS FnValueM FnValueS LexS LexP.

(** A lexer for Rust's identifiers, numbers and strings reads the printed text as the tokens
    it was printed from.
    Missing: raw identifiers, raw strings, byte and character literals, exponents with a sign,
    tuple indices of numbers, and invisible groups (C36_invisible_group_refuted). *)
Theorem C36_lexed_partial : forall ts, rust_tokens ts -> lex MStart (pretty ts) = map lex_text (all_lexemes ts).
Proof. exact pretty_lex. Qed.
Print Assumptions C36_lexed_partial.

(** So no two different token streams are printed alike.
    Missing: as above. *)
Theorem C36_injective_partial : forall ts ts', rust_tokens ts -> rust_tokens ts' -> pretty ts = pretty ts' -> ts = ts'.
Proof. exact pretty_inj. Qed.
Print Assumptions C36_injective_partial.

(** Every value for a type with such names is made of such tokens.
    Missing: as above. *)
Theorem C62_tokens_partial : forall errs t v, (forall e, In e errs -> rust_tokens e) -> rust_ty t -> In v (reps errs t) -> rust_tokens v.
Proof. exact reps_rust. Qed.
Print Assumptions C62_tokens_partial.

(** The values of a type are different also as they are printed into mutants.
    Missing: as above. *)
Theorem C62_printed_distinct_partial : forall errs t, (forall e, In e errs -> rust_tokens e) -> NoDup errs -> rust_ty t ->
  NoDup (map pretty (reps errs t)).
Proof. exact printed_distinct. Qed.
Print Assumptions C62_printed_distinct_partial.

(** Without one of the conditions, two streams are printed alike: [1.5] is one number or a
    number, a dot and a number. *)
Theorem C36_split_number_refuted : exists ts ts', ts <> ts' /\ pretty ts = pretty ts'
  /\ (forall x, In x (all_lexemes ts) -> rust_lexeme x) /\ rust_tokens ts'.
Proof.
  exists [Word (tx "1"); Punct DOT; Word (tx "5")], [Word (tx "1.5")]. split; [discriminate|]. split; [reflexivity|]. split.
  - intros x [<-|[<-|[<-|[]]]].
    + apply (rw_num 49%N []); [reflexivity|constructor].
    + repeat split; try discriminate. vm_compute. intuition discriminate.
    + apply (rw_num 53%N []); [reflexivity|constructor].
  - split; [|reflexivity]. intros x [<-|[]]. apply (rw_num 49%N (tx ".5")); [reflexivity|]. apply nt_dot; [reflexivity|]. apply nt_char; [reflexivity|constructor].
Qed.
Print Assumptions C36_split_number_refuted.

(** Nested groups, a number with a dot, and a string with a space and an escape. *)
Definition lex_str : text := [QUOTE] ++ tx "a b" ++ [BSLASH; QUOTE; QUOTE].
Definition lex_stream : toks :=
  [Word (tx "Ok"); Group Paren [Group Paren [Group Bracket [Word (tx "0.0"); Punct SEMI; Word (tx "N")]; Punct COMMA_; Word lex_str; Punct DOT; Word (tx "to_owned"); Group Paren []]]].
Example C36_case_lexed : lex MStart (pretty lex_stream)
  = map tx ["Ok"; "("; "("; "["; "0.0"; ";"; "N"; "]"; ","]%string ++ lex_str :: map tx ["."; "to_owned"; "("; ")"; ")"; ")"]%string
  /\ rust_tokens lex_stream.
Proof.
  split; [reflexivity|]. split; [|reflexivity]. intros x H. cbn [all_lexemes lex_stream flat_map lexemes app] in H.
  repeat (destruct H as [<-|H]; [first [discriminate|apply rw_ident; eexists _, _; split; [reflexivity|]; split; reflexivity
     |apply (rw_num 48%N (tx ".0")); [reflexivity|]; apply nt_dot; [reflexivity|]; apply nt_char; [reflexivity|constructor]
     |apply (rw_str (tx "a b" ++ [BSLASH; QUOTE])); do 3 (apply sb_char; [discriminate|discriminate|]); apply sb_esc; constructor
     |split; [reflexivity|]; split; [discriminate|]; split; [discriminate|]; vm_compute; intuition discriminate]|]). destruct H.
Qed.
(** [HashMap<u8, [f64; 3]>]: 7 different values. *)
Definition lex_ty : ty := generic false [tx "std"] "HashMap" [GType (named "u8"); GType (TArray (named "f64") [Word (tx "3")])].
Example C62_case_printed : rust_ty lex_ty /\ map pretty (reps [] lex_ty)
  = map tx ["HashMap::new()"; "HashMap::from_iter([(0, [0.0; 3])])"; "HashMap::from_iter([(0, [1.0; 3])])"; "HashMap::from_iter([(0, [-1.0; 3])])";
            "HashMap::from_iter([(1, [0.0; 3])])"; "HashMap::from_iter([(1, [1.0; 3])])"; "HashMap::from_iter([(1, [-1.0; 3])])"]%string.
Proof.
  split; [|reflexivity]. assert (I : forall w, match tx w with c :: w' => word_start c && forallb word_cont w' | [] => false end = true -> ident (tx w)).
  { intros w H. destruct (tx w) as [|c w'] eqn:E; [discriminate|]. apply andb_true_iff in H. exists c, w'. tauto. }
  constructor; [apply I; reflexivity|]. intros gs g E Hg. injection E as <-. destruct Hg as [<-|[<-|[]]]; constructor.
  - constructor; [apply I; reflexivity|discriminate].
  - constructor; [constructor; [apply I; reflexivity|discriminate]|]. split; [|reflexivity]. intros x [<-|[]]. apply (rw_num 51%N []); [reflexivity|constructor].
Qed.
