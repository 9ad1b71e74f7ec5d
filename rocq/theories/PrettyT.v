(** Theorems about printed code (C36). *)
From Coq Require Import String List NArith Bool.
Import ListNotations.
From Verif Require Import Text PrettyM PrettyS PrettyP.

(** For every token stream without invisible groups, the printed text is the tokens in
    order with only spaces between them, at least one between two words.
    Missing: streams with invisible groups, see C36_invisible_group_refuted. *)
Theorem C36_layout_partial : forall ts, (forall t, In t ts -> visible t) -> layout (all_lexemes ts) (pretty ts).
Proof. exact pretty_layout. Qed.
Print Assumptions C36_layout_partial.

(** Exactly which spaces there are.
    Missing: streams with invisible groups, see C36_invisible_group_refuted. *)
Theorem C36_spacing_partial : forall ts, (forall t, In t ts -> visible t) -> (forall x, In x (all_lexemes ts) -> proper_word x) ->
  pretty ts = spaced None None (all_lexemes ts).
Proof. exact pretty_spaced. Qed.
Print Assumptions C36_spacing_partial.

(** Splitting the printed text into words and other characters gives the tokens back.
    Missing: streams with invisible groups, see C36_invisible_group_refuted. *)
Theorem C36_tokens_recovered_partial : forall word_char ts, (forall t, In t ts -> visible t) ->
  (forall x, In x (all_lexemes ts) -> plain_lexeme word_char x) ->
  tokenise word_char [] (pretty ts) = map lex_text (all_lexemes ts).
Proof. exact pretty_tokenise. Qed.
Print Assumptions C36_tokens_recovered_partial.

(** So code with different tokens is printed differently.
    Missing: streams with invisible groups, see C36_invisible_group_refuted. *)
Theorem C36_distinct_partial : forall word_char ts ts', (forall t, In t ts -> visible t) -> (forall t, In t ts' -> visible t) ->
  (forall x, In x (all_lexemes ts) -> plain_lexeme word_char x) ->
  (forall x, In x (all_lexemes ts') -> plain_lexeme word_char x) ->
  pretty ts = pretty ts' -> map lex_text (all_lexemes ts) = map lex_text (all_lexemes ts').
Proof. exact pretty_same. Qed.
Print Assumptions C36_distinct_partial.

(** The assertion against trailing spaces holds at every depth.
    Missing: streams with invisible groups, see C36_trailing_space_refuted. *)
Theorem C36_no_trailing_space_partial : forall ts, (forall t, In t ts -> visible t) ->
  (forall x, In x (all_lexemes ts) -> exists u c, lex_text x = u ++ [c] /\ c <> SP) -> pretty_asserts ts = true.
Proof. exact pretty_asserts_ok. Qed.
Print Assumptions C36_no_trailing_space_partial.

(** With an invisible group, two words may be joined. *)
Theorem C36_invisible_group_refuted : exists ts,
  map lex_text (all_lexemes ts) = [tx "a"; []; tx "b"; []] /\ pretty ts = tx "ab".
Proof. exists [Word (tx "a"); Group NoDelim [Word (tx "b")]]. split; reflexivity. Qed.
Print Assumptions C36_invisible_group_refuted.

(** With an empty invisible group, the assertion fails. *)
Theorem C36_trailing_space_refuted : exists ts,
  (forall x, In x (all_lexemes ts) -> In (lex_text x) [tx ","; []]) /\ pretty_asserts ts = false.
Proof.
  exists [Punct COMMA_; Group NoDelim []]. split; [|reflexivity].
  intros x [<-|[<-|[<-|[]]]]; cbn; auto.
Qed.
Print Assumptions C36_trailing_space_refuted.

(** [-> Result<&'a str, Box<dyn Error>>], and what a tokeniser makes of it. *)
Definition ex_stream : list tree :=
  [Punct MINUS; Punct GT; Word (tx "Result"); Punct LT; Punct 38%N; Punct 39%N; Word (tx "a"); Word (tx "str"); Punct COMMA_;
   Word (tx "Box"); Punct LT; Word (tx "dyn"); Word (tx "Error"); Punct GT; Punct GT; Group Brace [Word (tx "Ok"); Group Paren [Word (tx "x")]]].
Definition alnum (c : chr) : bool := (N.leb 97 c && N.leb c 122) || (N.leb 65 c && N.leb c 90).
Example C36_case : pretty ex_stream = tx "-> Result<&'a str, Box<dyn Error>>{Ok(x)}".
Proof. reflexivity. Qed.
Example C36_case_visible : forall t, In t ex_stream -> visible t.
Proof.
  intros t H. repeat (destruct H as [<-|H]; [repeat constructor; try discriminate|]); [|destruct H].
  intros t [<-|[<-|[]]]; [constructor|]. constructor; [discriminate|]. intros t [<-|[]]. constructor.
Qed.
Example C36_case_tokens : tokenise alnum [] (pretty ex_stream)
  = map tx ["-"; ">"; "Result"; "<"; "&"; "'"; "a"; "str"; ","; "Box"; "<"; "dyn"; "Error"; ">"; ">"; "{"; "Ok"; "("; "x"; ")"; "}"]%string.
Proof. reflexivity. Qed.
Example C36_case_spacing : spaced None None (all_lexemes ex_stream) = pretty ex_stream
  /\ spaced None None (all_lexemes [Word (tx "a"); Punct EQ; Punct GT; Word (tx "b"); Punct COMMA_; Word (tx "c"); Punct 43%N; Punct EQ; Word (tx "d"); Punct COLON; Word (tx "e")])
     = tx "a => b, c += d:e".
Proof. split; reflexivity. Qed.
