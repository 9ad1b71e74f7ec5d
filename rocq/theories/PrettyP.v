From Coq Require Import String List NArith Bool Lia.
Import ListNotations.
From Verif Require Import Text PrettyM PrettyS.

Lemma push_group : forall b d ts next, push_tree b (Group d ts) next = b ++ opening d ++ pretty ts ++ closing d.
Proof.
  intros b d ts next. cbn [push_tree].
  assert (forall ts b, (fix go (b : text) (ts : list tree) : text :=
              match ts with [] => b | t :: ts' => go (push_tree b t (hd_error ts')) ts' end) b ts = push_all b ts) as K.
  { clear. induction ts as [|t ts IH]; intros b; [reflexivity|]. cbn [push_all]. apply IH. }
  rewrite K. reflexivity.
Qed.

(** Joining two layouts. *)
Lemma layout_app : forall xs x ys s s' n, layout (xs ++ [x]) s -> layout ys s' ->
  match ys with [] => n = 0 | y :: _ => is_word x = true -> is_word y = true -> 0 < n end ->
  layout (xs ++ [x] ++ ys) (s ++ repeat SP n ++ s').
Proof.
  intros xs x ys s s' n. revert s. induction xs as [|z xs IH]; intros s L L' C.
  - cbn [app] in *. inversion L; subst. destruct ys as [|y ys].
    + inversion L'; subst. cbn. rewrite app_nil_r. constructor.
    + apply lay_cons; assumption.
  - destruct xs as [|w xs].
    + cbn [app] in L, IH |- *. inversion L; subst. rewrite <- !app_assoc. apply lay_cons; [|assumption]. now apply IH.
    + cbn [app] in L, IH |- *. inversion L; subst. rewrite <- !app_assoc. apply lay_cons; [|assumption]. now apply IH.
Qed.

Lemma open_text : forall d, lex_text (LOpen d) = opening d.
Proof. intros []; reflexivity. Qed.
Lemma close_text : forall d, lex_text (LClose d) = closing d.
Proof. intros []; reflexivity. Qed.

Lemma layout_group : forall d xs s, layout xs s -> layout (LOpen d :: xs ++ [LClose d]) (opening d ++ s ++ closing d).
Proof.
  intros d xs s. rewrite <- open_text, <- close_text. intro L. destruct xs as [|x xs].
  - inversion L; subst. cbn [app]. apply (lay_cons (LOpen d) (LClose d) [] (lex_text (LClose d)) 0); [constructor|discriminate].
  - assert (x :: xs <> []) as N by discriminate. destruct (exists_last N) as [ys [y E]]. rewrite E in *.
    pose proof (layout_app ys y [LClose d] s (lex_text (LClose d)) 0 L (lay_one (LClose d)) (fun _ H => ltac:(discriminate H))) as K.
    cbn [repeat app] in K. rewrite <- app_assoc. cbn [app]. destruct ys as [|z ys]; cbn [app] in K |- *.
    + exact (lay_cons (LOpen d) y [LClose d] _ 0 K (fun H => ltac:(discriminate H))).
    + exact (lay_cons (LOpen d) z _ _ 0 K (fun H => ltac:(discriminate H))).
Qed.

(** State while printing: [xs] printed so far as [b], [next] is to come. *)
Definition printed (xs : list lexeme) (b : text) (next : option tree) : Prop :=
  (xs = [] /\ b = []) \/
  exists xs' x s n, xs = xs' ++ [x] /\ layout xs s /\ b = s ++ repeat SP n
    /\ (next = None -> n = 0)
    /\ (is_word x = true -> forall w, next = Some (Word w) -> 0 < n).

Lemma printed_layout : forall xs b, printed xs b None -> layout xs b.
Proof.
  intros xs b [[-> ->]|[xs' [x [s [n [E [L [-> [Z _]]]]]]]]]; [constructor|].
  rewrite (Z eq_refl). cbn. now rewrite app_nil_r.
Qed.

Lemma repeat_snoc : forall n s, (s ++ repeat SP n) ++ [SP] = s ++ repeat SP (S n).
Proof.
  intros n s. rewrite <- app_assoc. f_equal. induction n; [reflexivity|]. cbn [repeat app]. now rewrite IHn.
Qed.

(** Append the tokens [ys] printed as [s'], after [m] more spaces. *)
Lemma printed_add : forall xs b t ys s' m k next, printed xs b (Some t) ->
  layout ys s' -> ys <> [] ->
  (forall w, hd_error ys = Some (LWord w) -> exists w', t = Word w') ->
  (xs = [] -> m = 0) ->
  (next = None -> k = 0) -> (forall y w, last ys (LPunct 0%N) = y -> is_word y = true -> next = Some (Word w) -> 0 < k) ->
  printed (xs ++ ys) (b ++ repeat SP m ++ s' ++ repeat SP k) next.
Proof.
  intros xs b t ys s' m k next P L N H M K1 K2. right.
  destruct (exists_last N) as [ys' [y E]]. subst ys.
  destruct P as [[-> ->]|[xs' [x [s [n [-> [Lx [-> [_ W]]]]]]]]].
  - rewrite (M eq_refl). cbn [app repeat]. exists ys', y, s', k. split; [reflexivity|]. split; [exact L|].
    split; [reflexivity|]. split; [exact K1|]. intros Wy w Hn. apply (K2 y w); auto. apply last_last.
  - exists ((xs' ++ [x]) ++ ys'), y, (s ++ repeat SP (n + m) ++ s'), k. rewrite <- !app_assoc. split; [reflexivity|].
    split.
    + apply (layout_app xs' x (ys' ++ [y]) s s' (n + m) Lx L).
      destruct (ys' ++ [y]) as [|z r] eqn:E; [destruct ys'; discriminate|].
      intros Wx Wz. destruct z as [c|w|d|d]; try discriminate Wz.
      destruct (H w eq_refl) as [w' ->]. specialize (W Wx w' eq_refl). lia.
    + split; [now rewrite repeat_app, <- !app_assoc|]. split; [exact K1|].
      intros Wy w Hn. apply (K2 y w); auto. apply last_last.
Qed.

Lemma ends_with_nil : forall p, p <> [] -> ends_with p [] = false.
Proof.
  intros p N. unfold ends_with. destruct (rev p) eqn:E; [|reflexivity]. exfalso. apply N.
  apply (f_equal (@rev chr)) in E. rewrite rev_involutive in E. exact E.
Qed.

Lemma printed_push : forall t xs b next, visible t ->
  (forall ts d, t = Group d ts -> layout (all_lexemes ts) (pretty ts)) ->
  printed xs b (Some t) -> printed (xs ++ lexemes t) (push_tree b t next) next.
Proof.
  intros [c|w|d ts] xs b next V G P.
  - cbn [push_tree lexemes]. unfold push_punct.
    set (k := match next with
              | Some _ => if ends_with [MINUS; GT] (b ++ [c]) || N.eqb c COMMA_ || N.eqb c SEMI then 1 else 0
              | None => 0 end).
    match goal with |- printed _ ?x _ => assert (x = b ++ repeat SP 0 ++ [c] ++ repeat SP k) as -> end.
    { unfold k. cbn zeta. destruct next; [|reflexivity]. destruct (_ || _); [now rewrite <- app_assoc|reflexivity]. }
    apply (printed_add xs b (Punct c) [LPunct c] [c] 0 k next P); auto; try discriminate.
    + exact (lay_one (LPunct c)).
    + intros ->. reflexivity.
    + intros y w <- H. discriminate H.
  - cbn [push_tree lexemes]. unfold push_word.
    set (m := if ends_with [EQ] b || ends_with [EQ; GT] b then 1 else 0).
    set (k := match next with
              | Some (Word _) => 1
              | Some (Punct c) => if existsb (N.eqb c) [COMMA_; SEMI; LT; GT; COLON; DOT; BANG] then 0 else 1
              | _ => 0 end).
    match goal with |- printed _ ?x _ => assert (x = b ++ repeat SP m ++ w ++ repeat SP k) as -> end.
    { unfold m, k. destruct (_ || _); destruct next as [[c|w'|d ts]|]; try destruct (existsb _ _); cbn [repeat app];
        rewrite ?app_nil_r, <- ?app_assoc; reflexivity. }
    apply (printed_add xs b (Word w) [LWord w] w m k next P); auto; try discriminate.
    + exact (lay_one (LWord w)).
    + intros w' H. eauto.
    + intros ->. unfold m. destruct P as [[_ ->]|[xs' [x [s [n [E _]]]]]]; [reflexivity|]. destruct xs'; discriminate.
    + intros ->. reflexivity.
    + intros y w' _ _ ->. unfold k. lia.
  - rewrite push_group. inversion V; subst.
    assert (b ++ opening d ++ pretty ts ++ closing d = b ++ repeat SP 0 ++ (opening d ++ pretty ts ++ closing d) ++ repeat SP 0) as ->
      by (cbn [repeat app]; now rewrite app_nil_r).
    apply (printed_add xs b (Group d ts)); auto; try discriminate.
    + apply layout_group. exact (G ts d eq_refl).
    + intros y w <- K. exfalso.
      pose proof (last_last (LOpen d :: flat_map lexemes ts) (LClose d) (LPunct 0%N)) as Q. cbn [app] in Q.
      cbn [lexemes] in K. rewrite Q in K. discriminate.
Qed.

(** Induction over trees and their lists together. *)
Section TreeInd.
  Variable P : tree -> Prop.
  Hypothesis HP : forall c, P (Punct c).
  Hypothesis HW : forall w, P (Word w).
  Hypothesis HG : forall d ts, (forall t, In t ts -> P t) -> P (Group d ts).
  Fixpoint tree_all (t : tree) : P t :=
    match t with
    | Punct c => HP c
    | Word w => HW w
    | Group d ts => HG d ts ((fix go (ts : list tree) : forall t, In t ts -> P t :=
        match ts with
        | [] => fun t H => match H with end
        | u :: us => fun t H => match H with or_introl E => eq_ind u P (tree_all u) t E | or_intror H' => go us t H' end
        end) ts)
    end.
End TreeInd.

Lemma push_all_layout : forall us xs b, (forall t, In t us -> visible t) ->
  (forall d vs, In (Group d vs) us -> layout (all_lexemes vs) (pretty vs)) ->
  printed xs b (hd_error us) -> layout (xs ++ all_lexemes us) (push_all b us).
Proof.
  induction us as [|t us IHu]; intros xs b Vu G P.
  - cbn [all_lexemes flat_map push_all]. rewrite app_nil_r. now apply printed_layout.
  - unfold all_lexemes. cbn [flat_map push_all]. rewrite app_assoc. apply IHu.
    + intros u Hu. apply Vu. now right.
    + intros d vs Hv. apply (G d). now right.
    + apply printed_push; [apply Vu; now left| |exact P]. intros vs d ->. apply (G d). now left.
Qed.

Lemma group_layout : forall t, visible t -> forall d ts, t = Group d ts -> layout (all_lexemes ts) (pretty ts).
Proof.
  apply (tree_all (fun t => visible t -> forall d ts, t = Group d ts -> layout (all_lexemes ts) (pretty ts)));
    try discriminate.
  intros d ts IH V d' ts' [= <- <-]. inversion V; subst.
  apply (push_all_layout ts [] []); [assumption| |left; auto].
  intros e vs Hv. eapply IH; eauto.
Qed.

Lemma pretty_layout : forall ts, (forall t, In t ts -> visible t) -> layout (all_lexemes ts) (pretty ts).
Proof.
  intros ts V. apply (push_all_layout ts [] []); [exact V| |left; auto].
  intros d vs Hv. exact (group_layout _ (V _ Hv) d vs eq_refl).
Qed.

(** Tokenising a layout gives the tokens. *)
Section LexP.
Variable word_char : chr -> bool.
Notation tok := (tokenise word_char).
Notation plain := (plain_lexeme word_char).

Lemma tok_word : forall w cur s, (forall c, In c w -> word_char c = true /\ c <> SP) -> tok cur (w ++ s) = tok (cur ++ w) s.
Proof.
  induction w as [|c w IH]; intros cur s H; [now rewrite app_nil_r|].
  cbn [app tokenise]. destruct (H c (or_introl eq_refl)) as [Hc Hs]. apply N.eqb_neq in Hs. rewrite Hs, Hc.
  rewrite IH; [now rewrite <- app_assoc|]. intros d Hd. apply H. now right.
Qed.

Lemma tok_spaces : forall n s, tok [] (repeat SP n ++ s) = tok [] s.
Proof. induction n as [|n IH]; intros s; [reflexivity|]. cbn [repeat app tokenise]. rewrite N.eqb_refl. apply IH. Qed.

Lemma tok_spaces_cur : forall cur n s, 0 < n -> tok cur (repeat SP n ++ s) = flush cur ++ tok [] s.
Proof. intros cur [|n] s H; [lia|]. cbn [repeat app tokenise]. rewrite N.eqb_refl. f_equal. apply tok_spaces. Qed.

Definition single (x : lexeme) : Prop := exists c, lex_text x = [c] /\ word_char c = false /\ c <> SP.

Lemma plain_cases : forall x, plain x -> (forall d, x = LOpen d \/ x = LClose d -> d <> NoDelim) ->
  (exists w, x = LWord w /\ w <> [] /\ forall c, In c w -> word_char c = true /\ c <> SP) \/ (is_word x = false /\ single x).
Proof.
  intros [c|w|d|d] P V; cbn in P.
  - right. split; [reflexivity|]. exists c. now split.
  - left. exists w. now split.
  - right. split; [reflexivity|]. destruct d; try (eexists; split; [reflexivity|]; split; [apply P; now left|discriminate]).
    exfalso. now apply (V NoDelim (or_introl eq_refl)).
  - right. split; [reflexivity|]. destruct d; try (eexists; split; [reflexivity|]; split; [apply P; now left|discriminate]).
    exfalso. now apply (V NoDelim (or_intror eq_refl)).
Qed.

Lemma tok_single : forall x cur s, single x -> tok cur (lex_text x ++ s) = flush cur ++ lex_text x :: tok [] s.
Proof.
  intros x cur s [c [-> [H Hs]]]. cbn [app tokenise]. apply N.eqb_neq in Hs. now rewrite Hs, H.
Qed.

Lemma tok_layout : forall xs s, layout xs s -> (forall x, In x xs -> plain x) ->
  (forall d, In (LOpen d) xs \/ In (LClose d) xs -> d <> NoDelim) ->
  tok [] s = map lex_text xs
  /\ forall cur n, (match xs with x :: _ => is_word x = true -> cur = [] \/ 0 < n | [] => True end) ->
       tok cur (repeat SP n ++ s) = flush cur ++ map lex_text xs.
Proof.
  intros xs s L. induction L as [|x|x y r s n L IH C]; intros P V.
  - split; [reflexivity|]. intros cur n _. destruct n as [|n]; [cbn; now rewrite app_nil_r|].
    rewrite tok_spaces_cur; [reflexivity|lia].
  - assert (A : forall cur, is_word x = false \/ cur = [] -> tok cur (lex_text x) = flush cur ++ [lex_text x]).
    { intros cur Hc. destruct (plain_cases x (P x (or_introl eq_refl))) as [[w [-> [N H]]]|[W S]].
      - intros d [->| ->]; apply (V d); cbn; auto.
      - destruct Hc as [Hc| ->]; [discriminate|]. cbn [lex_text]. rewrite <- (app_nil_r w) at 1. rewrite tok_word by exact H.
        cbn. destruct w; [contradiction|reflexivity].
      - rewrite <- (app_nil_r (lex_text x)) at 1. now rewrite tok_single. }
    split; [now apply (A []); right|]. intros cur n Hn. destruct n as [|n].
    + cbn [repeat app map]. apply A. destruct (is_word x); [right|now left]. destruct (Hn eq_refl); [assumption|lia].
    + rewrite tok_spaces_cur by lia. f_equal. now apply (A []); right.
  - destruct IH as [IH1 IH2]; [intros z Hz; apply P; now right|intros d Hd; apply V; cbn in *; tauto|].
    assert (A : forall cur, is_word x = false \/ cur = [] ->
               tok cur (lex_text x ++ repeat SP n ++ s) = flush cur ++ lex_text x :: map lex_text (y :: r)).
    { intros cur Hc. destruct (plain_cases x (P x (or_introl eq_refl))) as [[w [-> [N H]]]|[W S]].
      - intros d [->| ->]; apply (V d); cbn; auto.
      - destruct Hc as [Hc| ->]; [discriminate|]. cbn [lex_text]. rewrite tok_word by exact H. cbn [app].
        rewrite (IH2 w n); [destruct w; [contradiction|reflexivity]|]. intros Wy. right. now apply C.
      - rewrite tok_single by exact S. now rewrite tok_spaces, IH1. }
    split; [now apply (A []); right|]. intros cur m Hm. destruct m as [|m].
    + cbn [repeat app]. cbn [map]. apply A. destruct (is_word x); [right|now left]. destruct (Hm eq_refl); [assumption|lia].
    + rewrite tok_spaces_cur by lia. f_equal. now apply (A []); right.
Qed.
End LexP.

Lemma visible_lexemes : forall t d, visible t -> In (LOpen d) (lexemes t) \/ In (LClose d) (lexemes t) -> d <> NoDelim.
Proof.
  intros t d. revert t. apply (tree_all (fun t => visible t -> In (LOpen d) (lexemes t) \/ In (LClose d) (lexemes t) -> d <> NoDelim)).
  - intros c _ [[H|[]]|[H|[]]]; discriminate.
  - intros w _ [[H|[]]|[H|[]]]; discriminate.
  - intros e ts IH V H. inversion V; subst. cbn [lexemes] in H.
    destruct H as [[H|H]|[H|H]]; try congruence; rewrite in_app_iff in H; destruct H as [H|[H|[]]]; try congruence;
      apply in_flat_map in H; destruct H as [t [Ht H]]; apply (IH t Ht); auto.
Qed.

Lemma pretty_tokenise : forall word_char ts, (forall t, In t ts -> visible t) ->
  (forall x, In x (all_lexemes ts) -> plain_lexeme word_char x) ->
  tokenise word_char [] (pretty ts) = map lex_text (all_lexemes ts).
Proof.
  intros word_char ts V P. refine (proj1 (tok_layout word_char _ _ (pretty_layout ts V) P _)).
  intros d H. unfold all_lexemes in H.
  assert (exists t, In t ts /\ (In (LOpen d) (lexemes t) \/ In (LClose d) (lexemes t))) as [t [Ht K]].
  { destruct H as [H|H]; apply in_flat_map in H; destruct H as [t [Ht H]]; eauto. }
  exact (visible_lexemes t d (V t Ht) K).
Qed.

Lemma pretty_same : forall word_char ts ts', (forall t, In t ts -> visible t) -> (forall t, In t ts' -> visible t) ->
  (forall x, In x (all_lexemes ts) -> plain_lexeme word_char x) ->
  (forall x, In x (all_lexemes ts') -> plain_lexeme word_char x) ->
  pretty ts = pretty ts' -> map lex_text (all_lexemes ts) = map lex_text (all_lexemes ts').
Proof.
  intros wc ts ts' V V' P P' E. rewrite <- (pretty_tokenise wc ts V P), <- (pretty_tokenise wc ts' V' P'). now rewrite E.
Qed.

(** A layout of tokens that do not end in a space does not. *)
Lemma ends_with_snoc : forall (s : text) c d, ends_with [d] (s ++ [c]) = N.eqb d c.
Proof. intros s c d. unfold ends_with. rewrite rev_unit. cbn. now rewrite andb_true_r. Qed.

Lemma layout_last : forall xs s, layout xs s -> (forall x, In x xs -> exists t c, lex_text x = t ++ [c] /\ c <> SP) ->
  xs = [] /\ s = [] \/ exists t c, s = t ++ [c] /\ c <> SP.
Proof.
  intros xs s L. induction L as [|x|x y r s n L IH C]; intros H; [now left|right|right].
  - apply H. now left.
  - destruct IH as [[E _]|[t [c [-> N]]]]; [intros z Hz; apply H; now right|discriminate|].
    exists (lex_text x ++ repeat SP n ++ t), c. split; [now rewrite <- !app_assoc|exact N].
Qed.

Lemma layout_no_space : forall xs s, layout xs s -> (forall x, In x xs -> exists t c, lex_text x = t ++ [c] /\ c <> SP) ->
  ends_with [SP] s = false.
Proof.
  intros xs s L H. destruct (layout_last xs s L H) as [[_ ->]|[t [c [-> N]]]]; [reflexivity|].
  rewrite ends_with_snoc. apply N.eqb_neq. congruence.
Qed.

Lemma asserts_ok : forall t, visible t -> (forall x, In x (lexemes t) -> exists u c, lex_text x = u ++ [c] /\ c <> SP) ->
  asserts t = true.
Proof.
  apply (tree_all (fun t => visible t -> (forall x, In x (lexemes t) -> exists u c, lex_text x = u ++ [c] /\ c <> SP) -> asserts t = true));
    try reflexivity.
  intros d ts IH V H. inversion V; subst. cbn [asserts]. apply andb_true_iff. split.
  - rewrite (layout_no_space _ _ (pretty_layout ts H3)); [reflexivity|]. intros x Hx. apply H. cbn [lexemes]. right.
    apply in_or_app. now left.
  - apply forallb_forall. intros t Ht. apply IH; auto. intros x Hx. apply H. cbn [lexemes]. right.
    apply in_or_app. left. apply in_flat_map. eauto.
Qed.

Lemma pretty_asserts_ok : forall ts, (forall t, In t ts -> visible t) ->
  (forall x, In x (all_lexemes ts) -> exists u c, lex_text x = u ++ [c] /\ c <> SP) -> pretty_asserts ts = true.
Proof.
  intros ts V H. unfold pretty_asserts. cbn [asserts]. apply andb_true_iff. split.
  - now rewrite (layout_no_space _ _ (pretty_layout ts V) H).
  - apply forallb_forall. intros t Ht. apply asserts_ok; auto. intros x Hx. apply H. apply in_flat_map. eauto.
Qed.

(** ** Exact spacing *)
Definition endings (p x : option lexeme) (b : text) : Prop :=
  ends_with [EQ] b = is_prev "=" x
  /\ ends_with [EQ; GT] b = is_prev ">" x && is_prev "=" p
  /\ ends_with [MINUS] b = is_prev "-" x.

Lemma ends_with_snoc2 : forall (s : text) c d e, ends_with [d; e] (s ++ [c]) = N.eqb e c && ends_with [d] s.
Proof. intros s c d e. unfold ends_with. rewrite rev_unit. reflexivity. Qed.

Lemma is_punct_eqb : forall s c, is_punct s (LPunct c) = text_eqb (tx s) [c].
Proof. reflexivity. Qed.

Lemma endings_punct : forall p x b c, endings p x b -> endings x (Some (LPunct c)) (b ++ [c]).
Proof.
  intros p x b c [H1 [H2 H3]]. unfold endings. rewrite !ends_with_snoc, ends_with_snoc2, H1.
  cbn [is_prev is_punct]. change (tx "=") with [EQ]. change (tx ">") with [GT]. change (tx "-") with [MINUS].
  cbn [text_eqb]. rewrite !andb_true_r. auto.
Qed.

(** A character that is none of [= - >]. *)
Lemma endings_plain : forall p x b c, ~ In c (tx "=->") -> is_punct "=" x = false -> is_punct ">" x = false -> is_punct "-" x = false ->
  endings p (Some x) (b ++ [c]).
Proof.
  intros p x b c N A B C. unfold endings. rewrite !ends_with_snoc, ends_with_snoc2. cbn [is_prev]. rewrite A, B, C.
  assert (E : forall d, In d (tx "=->") -> N.eqb d c = false).
  { intros d I. apply N.eqb_neq. intros <-. contradiction. }
  rewrite (E EQ), (E GT), (E MINUS) by (cbn; auto). auto.
Qed.

Definition next_lexeme (next : option tree) (rest : list lexeme) : Prop :=
  match next with
  | Some t => hd_error rest = hd_error (lexemes t)
  | None => rest = [] \/ exists d r, rest = LClose d :: r
  end.

Lemma hd_group : forall d ts, hd_error (lexemes (Group d ts)) = Some (LOpen d).
Proof. reflexivity. Qed.

Definition pushes (t : tree) : Prop := forall p x b next rest, endings p x b -> next_lexeme next rest ->
  exists w p' x', spaced p x (lexemes t ++ rest) = w ++ spaced p' x' rest /\ push_tree b t next = b ++ w /\ endings p' x' (b ++ w).

Lemma after_next : forall p x (next : option tree) rest (f : option tree -> bool),
  next_lexeme next rest ->
  f None = false -> (forall t y, hd_error (lexemes t) = Some y -> f (Some t) = space_after p x y) ->
  (match rest with z :: _ => if space_after p x z then [SP] else [] | [] => [] end) = (if f next then [SP] else []).
Proof.
  intros p x next rest f N F0 F1. destruct next as [t|]; cbn [next_lexeme] in N.
  - destruct rest as [|z r].
    + destruct t; discriminate N.
    + cbn [hd_error] in N. now rewrite <- (F1 t z).
  - rewrite F0. destruct N as [->|[d [r ->]]]; [reflexivity|]. unfold space_after. destruct x; reflexivity.
Qed.

Lemma push_spaced : forall t, visible t -> (forall x, In x (lexemes t) -> proper_word x) -> pushes t.
Proof.
  apply (tree_all (fun t => visible t -> (forall x, In x (lexemes t) -> proper_word x) -> pushes t)).
  - intros c _ _ p x b next rest E N. cbn [lexemes app spaced].
    destruct E as [E1 [E2 E3]]. pose proof (endings_punct p x b c (conj E1 (conj E2 E3))) as E'.
    set (k := match next with Some _ => is_punct "," (LPunct c) || is_punct ";" (LPunct c) || (is_punct ">" (LPunct c) && is_prev "-" x) | None => false end).
    rewrite (after_next x (LPunct c) next rest (fun n => match n with Some _ => is_punct "," (LPunct c) || is_punct ";" (LPunct c) || (is_punct ">" (LPunct c) && is_prev "-" x) | None => false end));
      [|exact N|reflexivity|].
    2:{ intros t y H. destruct t; injection H as <-; reflexivity. }
    fold k. exists ([c] ++ if k then [SP] else []), x, (Some (LPunct c)).
    split; [unfold space_before; cbn [is_word andb app lex_text]; reflexivity|].
    split.
    + cbn [push_tree]. unfold push_punct, k. destruct next as [t|]; [|reflexivity].
      rewrite ends_with_snoc2, E3. unfold is_punct. change (tx ",") with [COMMA_]. change (tx ";") with [SEMI]. change (tx ">") with [GT].
      cbn [text_eqb]. rewrite !andb_true_r, (N.eqb_sym c COMMA_), (N.eqb_sym c SEMI).
      replace (N.eqb GT c && is_prev "-" x || N.eqb COMMA_ c || N.eqb SEMI c)
        with (N.eqb COMMA_ c || N.eqb SEMI c || N.eqb GT c && is_prev "-" x)
        by (destruct (N.eqb COMMA_ c), (N.eqb SEMI c), (N.eqb GT c && is_prev "-" x); reflexivity).
      destruct (N.eqb COMMA_ c || N.eqb SEMI c || N.eqb GT c && is_prev "-" x); [rewrite <- app_assoc; reflexivity|reflexivity].
    + rewrite app_assoc. destruct k eqn:K; [|now rewrite app_nil_r].
      unfold endings. rewrite !ends_with_snoc, ends_with_snoc2.
      unfold k in K. destruct next; [|discriminate K]. cbn [is_prev is_punct] in *.
      change (tx ",") with [COMMA_] in *. change (tx ";") with [SEMI] in *. change (tx ">") with [GT] in *.
      change (tx "=") with [EQ] in *. change (tx "-") with [MINUS] in *. cbn [text_eqb] in *. rewrite !andb_true_r in *.
      change (N.eqb EQ SP) with false. change (N.eqb GT SP) with false. change (N.eqb MINUS SP) with false. cbn [andb].
      destruct (N.eqb_spec COMMA_ c) as [<-|Q1]; [repeat split|].
      destruct (N.eqb_spec SEMI c) as [<-|Q2]; [repeat split|].
      destruct (N.eqb_spec GT c) as [<-|Q3]; [|discriminate K]. cbn [orb andb] in K.
      split; [reflexivity|]. split; [|reflexivity].
      destruct x as [y|]; [|discriminate K]. destruct y as [e| | |]; try discriminate K.
      cbn [is_prev is_punct] in *. change (tx "-") with [MINUS] in K. change (tx "=") with [EQ]. cbn [text_eqb] in *.
      rewrite andb_true_r in *. apply N.eqb_eq in K. subst e. reflexivity.
  - intros w0 _ PW p x b next rest E N. cbn [lexemes app spaced].
    specialize (PW (LWord w0) (or_introl eq_refl)). destruct PW as [u [c [-> NI]]].
    destruct E as [E1 [E2 E3]].
    set (f := fun n => match n with
                       | Some (Word _) => true
                       | Some (Punct c) => negb (existsb (N.eqb c) [COMMA_; SEMI; LT; GT; COLON; DOT; BANG])
                       | _ => false end : bool).
    rewrite (after_next x (LWord (u ++ [c])) next rest f); [|exact N|reflexivity|].
    2:{ intros t y H. destruct t as [d|w|d ts]; injection H as <-; try reflexivity.
        cbn [f space_after existsb is_punct]. 
        change (tx ",") with [COMMA_]. change (tx ";") with [SEMI]. change (tx ">") with [GT]. change (tx "<") with [LT].
        change (tx ":") with [COLON]. change (tx ".") with [DOT]. change (tx "!") with [BANG].
        cbn [text_eqb]. rewrite !andb_true_r, !(N.eqb_sym d). reflexivity. }
    exists ((if space_before p x (LWord (u ++ [c])) then [SP] else []) ++ (u ++ [c]) ++ if f next then [SP] else []), x, (Some (LWord (u ++ [c]))).
    split; [cbn [lex_text]; now rewrite <- !app_assoc|].
    split.
    + cbn [push_tree]. unfold push_word, space_before. cbn [is_word andb]. rewrite E1, E2. 
      destruct (is_prev "=" x || is_prev ">" x && is_prev "=" p);
        destruct next as [[d|w|d ts]|]; cbn [f]; try (destruct (existsb _ _)); cbn [negb app];
        rewrite <- ?app_assoc; cbn [app]; rewrite ?app_nil_r; reflexivity.
    + set (b' := b ++ if space_before p x (LWord (u ++ [c])) then [SP] else []).
      replace (b ++ _) with ((b' ++ u ++ [c]) ++ if f next then [SP] else []) by (unfold b'; now rewrite <- !app_assoc).
      destruct (f next).
      * apply endings_plain; try reflexivity. cbn. intros [H|[H|[H|[]]]]; discriminate H.
      * rewrite app_nil_r, app_assoc. apply endings_plain; try reflexivity. exact NI.
  - intros d ts IH V PW p x b next rest E N. inversion V as [| |d' ts' ND VT]; subst.
    assert (L : forall us, (forall t, In t us -> pushes t) -> (forall t, In t us -> visible t) -> forall p x b r,
      (r = [] \/ exists e s, r = LClose e :: s) -> endings p x b ->
      exists w p' x', spaced p x (all_lexemes us ++ r) = w ++ spaced p' x' r /\ push_all b us = b ++ w /\ endings p' x' (b ++ w)).
    { clear. induction us as [|t us IHu]; intros HP HV p x b r R E.
      - exists [], p, x. cbn [all_lexemes flat_map app push_all]. rewrite app_nil_r. auto.
      - unfold all_lexemes. cbn [flat_map push_all]. rewrite <- app_assoc. fold (all_lexemes us).
        destruct (HP t (or_introl eq_refl) p x b (hd_error us) (all_lexemes us ++ r) E) as [w1 [p1 [x1 [A1 [B1 C1]]]]].
        { destruct us as [|t' us]; cbn [hd_error next_lexeme]; [exact R|].
          unfold all_lexemes. cbn [flat_map]. destruct t'; reflexivity. }
        destruct (IHu (fun t H => HP t (or_intror H)) (fun t H => HV t (or_intror H)) p1 x1 (b ++ w1) r R C1) as [w2 [p2 [x2 [A2 [B2 C2]]]]].
        exists (w1 ++ w2), p2, x2. rewrite A1, A2, B1, B2, <- !app_assoc. split; [reflexivity|]. split; [reflexivity|].
        now rewrite app_assoc. }
    destruct (L ts) with (p := x) (x := Some (LOpen d)) (b := @nil chr) (r := LClose d :: rest) as [w [p' [x' [A [B C]]]]].
    + intros t I. apply IH; auto. intros y Iy. apply PW. cbn [lexemes]. right. apply in_or_app. left. apply in_flat_map. eauto.
    + exact VT.
    + right. eauto.
    + destruct E as [E1 [E2 E3]]. split; [reflexivity|]. split; reflexivity.
    + exists (opening d ++ w ++ closing d), x', (Some (LClose d)). split; [|split].
      * cbn [lexemes app]. rewrite <- app_assoc. cbn [app]. fold (all_lexemes ts).
        assert (S1 : forall l, spaced p x (LOpen d :: l) = lex_text (LOpen d) ++ spaced x (Some (LOpen d)) l).
        { intro l. cbn [spaced]. unfold space_before. cbn [is_word andb app].
          destruct l as [|z l]; [reflexivity|]. destruct z; reflexivity. }
        rewrite S1, A.
        assert (S2 : spaced p' x' (LClose d :: rest) = lex_text (LClose d) ++ spaced x' (Some (LClose d)) rest).
        { cbn [spaced]. unfold space_before. cbn [is_word andb app].
          destruct rest as [|z l]; [reflexivity|]. destruct z; reflexivity. }
        rewrite S2, open_text, close_text. now rewrite <- !app_assoc.
      * rewrite push_group. unfold pretty. rewrite B. reflexivity.
      * assert (exists e, closing d = [e] /\ ~ In e (tx "=->")) as [e [-> NI]].
        { destruct d; try (eexists; split; [reflexivity|]; cbn; intros [H|[H|[H|[]]]]; discriminate H). contradiction. }
        rewrite !app_assoc. apply endings_plain; try reflexivity. exact NI.
Qed.

Lemma pretty_spaced : forall ts, (forall t, In t ts -> visible t) -> (forall x, In x (all_lexemes ts) -> proper_word x) ->
  pretty ts = spaced None None (all_lexemes ts).
Proof.
  intros ts V PW. 
  assert (L : forall us p x b, (forall t, In t us -> pushes t) -> endings p x b ->
      push_all b us = b ++ spaced p x (all_lexemes us)).
  { induction us as [|t us IHu]; intros p x b HP E.
    - cbn. now rewrite app_nil_r.
    - unfold all_lexemes. cbn [flat_map push_all]. fold (all_lexemes us).
      destruct (HP t (or_introl eq_refl) p x b (hd_error us) (all_lexemes us) E) as [w1 [p1 [x1 [A1 [B1 C1]]]]].
      { destruct us as [|t' us]; cbn [hd_error next_lexeme]; [now left|]. unfold all_lexemes. cbn [flat_map]. destruct t'; reflexivity. }
      rewrite A1, B1, (IHu p1 x1 (b ++ w1)), <- app_assoc; auto. intros; apply HP; now right. }
  apply (L ts None None []).
  - intros t I. apply push_spaced; [now apply V|]. intros x Ix. apply PW. apply in_flat_map. eauto.
  - split; [reflexivity|]. split; reflexivity.
Qed.
