From Coq Require Import String List NArith Bool Arith Lia.
Import ListNotations.
From Verif Require Import Text PrettyM PrettyS PrettyP FnValueM FnValueS FnValueP LexS.

Lemma lex_start : forall c s, lex MStart (c :: s) = fst (begin c) ++ lex (snd (begin c)) s.
Proof. reflexivity. Qed.
Lemma lex_spaces : forall n s, lex MStart (repeat SP n ++ s) = lex MStart s.
Proof. induction n as [|n IH]; intro s; [reflexivity|]. cbn [repeat app]. rewrite lex_start. exact (IH s). Qed.

(** What may follow a word. *)
Definition ends_word (s : text) : Prop := match s with [] => True | c :: _ => word_cont c = false end.
Lemma lex_word : forall w a s, forallb word_cont w = true -> ends_word s -> lex (MWord a) (w ++ s) = (a ++ w) :: lex MStart s.
Proof.
  induction w as [|c w IH]; intros a s F E.
  - cbn [app]. rewrite app_nil_r. destruct s as [|d s]; [reflexivity|]. cbn [lex]. cbn in E. rewrite E. reflexivity.
  - cbn [forallb] in F. apply andb_true_iff in F as [F1 F2]. cbn [app lex]. rewrite F1, IH; [|exact F2|exact E]. rewrite <- app_assoc. reflexivity.
Qed.
Definition ends_num (s : text) : Prop :=
  match s with [] => True | c :: s' => word_cont c = false /\ (c = DOT -> match s' with d :: _ => is_digit d = false | [] => True end) end.
Lemma lex_num : forall w, num_tail w -> forall a s, ends_num s -> lex (MNum a) (w ++ s) = (a ++ w) :: lex MStart s.
Proof.
  induction 1 as [|c w F H IH|d w F H IH]; intros a s E.
  - cbn [app]. rewrite app_nil_r. destruct s as [|d s]; [reflexivity|]. cbn [lex]. destruct E as [E1 E2]. rewrite E1. cbn [orb].
    destruct (N.eqb_spec d DOT) as [->|_]; [|reflexivity]. specialize (E2 eq_refl). destruct s as [|e s]; [reflexivity|]. rewrite E2. reflexivity.
  - cbn [app lex]. rewrite F. cbn [orb]. rewrite IH; [|exact E]. rewrite <- app_assoc. reflexivity.
  - cbn [app] in *. specialize (IH (a ++ [DOT]) s E). change (lex (MNum a) (DOT :: d :: w ++ s)) with
      (if word_cont DOT || (N.eqb DOT DOT && is_digit d) then lex (MNum (a ++ [DOT])) (d :: w ++ s) else a :: fst (begin DOT) ++ lex (snd (begin DOT)) (d :: w ++ s)).
    rewrite F. replace (word_cont DOT || (N.eqb DOT DOT && true)) with true by reflexivity. rewrite IH, <- app_assoc. reflexivity.
Qed.
Lemma lex_str : forall w, str_body w -> forall a s, lex (MStr a false) (w ++ QUOTE :: s) = (a ++ w ++ [QUOTE]) :: lex MStart s.
Proof.
  induction 1 as [|c w N1 N2 H IH|c w H IH]; intros a s.
  - reflexivity.
  - cbn [app lex]. destruct (N.eqb_spec c QUOTE) as [|_]; [contradiction|]. destruct (N.eqb_spec c BSLASH) as [|_]; [contradiction|].
    rewrite IH, <- app_assoc. reflexivity.
  - cbn [app]. change (lex (MStr a false) (BSLASH :: c :: w ++ QUOTE :: s)) with (lex (MStr ((a ++ [BSLASH]) ++ [c]) false) (w ++ QUOTE :: s)).
    rewrite IH, <- !app_assoc. reflexivity.
Qed.

Lemma begin_punct : forall c, word_cont c = false -> c <> SP -> c <> QUOTE -> begin c = ([[c]], MStart).
Proof.
  intros c W S Q. unfold begin. destruct (N.eqb_spec c SP); [contradiction|]. destruct (N.eqb_spec c QUOTE); [contradiction|].
  unfold word_cont in W. apply orb_false_iff in W as [-> ->]. reflexivity.
Qed.
Lemma digit_not : forall c, is_digit c = true -> c <> SP /\ c <> QUOTE.
Proof. intros c H. split; intros ->; discriminate. Qed.
Lemma start_not : forall c, word_start c = true -> c <> SP /\ c <> QUOTE /\ is_digit c = false.
Proof.
  intros c H. split; [intros ->; discriminate|]. split; [intros ->; discriminate|]. unfold word_start in H. unfold is_digit.
  destruct (N.leb_spec 48 c), (N.leb_spec c 57); try reflexivity. exfalso.
  rewrite !orb_true_iff, !andb_true_iff, !N.leb_le, N.eqb_eq in H. unfold USCORE in H.
  destruct H as [[[[A B]|[A B]]|A]|A]; lia.
Qed.

(** The first character of a token that is not a word. *)
Lemma not_word_first : forall y, is_word y = false -> rust_lexeme y -> exists c, lex_text y = [c] /\ word_cont c = false /\ c <> SP /\ c <> QUOTE.
Proof.
  intros [c|w|d|d] W R; try discriminate.
  - destruct R as (R1 & R2 & R3 & _). exists c. auto.
  - destruct d; try (exfalso; apply R; reflexivity); eexists; (split; [reflexivity|]); repeat split; discriminate.
  - destruct d; try (exfalso; apply R; reflexivity); eexists; (split; [reflexivity|]); repeat split; discriminate.
Qed.
Lemma layout_first : forall y r s, layout (y :: r) s -> exists s', s = lex_text y ++ s'.
Proof. intros y r s L. inversion L; subst; [exists []; rewrite app_nil_r; reflexivity|eauto]. Qed.
Lemma word_first : forall w, rust_word w -> exists c w', w = c :: w' /\ c <> SP /\ (is_digit c = true <-> starts_digit w = true).
Proof.
  intros w [w' (c & w1 & -> & H & _)|c w' H _|w' _].
  - exists c, w1. split; [reflexivity|]. destruct (start_not c H) as (A & _ & B). split; [exact A|reflexivity].
  - exists c, w'. split; [reflexivity|]. split; [exact (proj1 (digit_not c H))|reflexivity].
  - exists QUOTE, (w' ++ [QUOTE]). split; [reflexivity|]. split; [discriminate|reflexivity].
Qed.

(** The text after a word. *)
Lemma follow_word : forall n y r s, layout (y :: r) s -> rust_lexeme y -> (is_word y = true -> 0 < n) -> ends_word (repeat SP n ++ s).
Proof.
  intros [|n] y r s L R W; [|exact eq_refl]. destruct (is_word y) eqn:E; [specialize (W eq_refl); lia|].
  destruct (not_word_first y E R) as (c & Ec & Hc & _). destruct (layout_first _ _ _ L) as [s' ->]. rewrite Ec. exact Hc.
Qed.
Lemma follow_num : forall w n y r s, layout (y :: r) s -> (forall x, In x (y :: r) -> rust_lexeme x) -> (is_word y = true -> 0 < n) ->
  starts_digit w = true -> no_split (LWord w :: y :: r) = true -> ends_num (repeat SP n ++ s).
Proof.
  intros w [|n] y r s L R W D NS; [|split; [reflexivity|discriminate]]. destruct (is_word y) eqn:E; [specialize (W eq_refl); lia|].
  destruct (not_word_first y E (R y (or_introl eq_refl))) as (c & Ec & Hc & _).
  inversion L as [|x E1 E2|x z r' s' m L' W' E1 E2]; subst.
  - cbn [repeat app]. rewrite Ec. split; [exact Hc|intros _; exact I].
  - cbn [repeat app]. rewrite Ec. cbn [app]. split; [exact Hc|]. intros ->.
    destruct m as [|m]; [|reflexivity]. cbn [repeat app].
    destruct (layout_first _ _ _ L') as [s'' ->].
    assert (Rz := R z (or_intror (or_introl eq_refl))). destruct (is_word z) eqn:Ez.
    + destruct z as [|wz| |]; try discriminate. cbn [lex_text]. destruct (word_first wz Rz) as (d & w' & -> & _ & Hd). cbn [app].
      destruct (is_digit d) eqn:Hdd; [|reflexivity]. exfalso.
      cbn [no_split] in NS. apply andb_true_iff in NS as [NS _]. destruct y as [cy| |dy|dy]; try discriminate.
      * cbn [lex_text] in Ec. injection Ec as ->. rewrite D, (proj1 Hd eq_refl) in NS. discriminate.
      * destruct dy; discriminate.
      * destruct dy; discriminate.
    + destruct (not_word_first z Ez Rz) as (e & Ee & He & _). rewrite Ee. cbn [app]. unfold word_cont in He. apply orb_false_iff in He. tauto.
Qed.

Lemma lex_layout : forall l s, layout l s -> (forall x, In x l -> rust_lexeme x) -> no_split l = true -> lex MStart s = map lex_text l.
Proof.
  assert (W : forall w tl, rust_word w -> ends_word tl -> (starts_digit w = true -> ends_num tl) -> lex MStart (w ++ tl) = w :: lex MStart tl).
  { intros w tl R E1 E2. destruct R as [w (c & w1 & -> & H & F)|c w H F|w F].
    - cbn [app]. rewrite lex_start. destruct (start_not c H) as (A & B & C). unfold begin.
      destruct (N.eqb_spec c SP); [contradiction|]. destruct (N.eqb_spec c QUOTE); [contradiction|]. rewrite C, H. cbn [fst snd app].
      rewrite lex_word; [reflexivity|exact F|exact E1].
    - cbn [app]. rewrite lex_start. destruct (digit_not c H) as (A & B). unfold begin.
      destruct (N.eqb_spec c SP); [contradiction|]. destruct (N.eqb_spec c QUOTE); [contradiction|]. rewrite H. cbn [fst snd app].
      rewrite lex_num; [reflexivity|exact F|exact (E2 H)].
    - cbn [app]. rewrite lex_start. change (begin QUOTE) with ([] : list text, MStr [QUOTE] false). cbn [fst snd app].
      rewrite <- app_assoc. cbn [app]. rewrite lex_str; [reflexivity|exact F]. }
  assert (P : forall y tl, is_word y = false -> rust_lexeme y -> lex MStart (lex_text y ++ tl) = lex_text y :: lex MStart tl).
  { intros y tl E R. destruct (not_word_first y E R) as (c & -> & H1 & H2 & H3). cbn [app]. rewrite lex_start, begin_punct by assumption. reflexivity. }
  induction 1 as [|x|x y r s n L IH Wn]; intros R NS.
  - reflexivity.
  - specialize (R x (or_introl eq_refl)). destruct (is_word x) eqn:E.
    + destruct x as [|w| |]; try discriminate. cbn [lex_text map]. rewrite <- (app_nil_r w) at 1. rewrite W; [reflexivity|exact R|exact I|intros _; exact I].
    + cbn [map]. rewrite <- (app_nil_r (lex_text x)) at 1. rewrite P by assumption. reflexivity.
  - assert (Rx := R x (or_introl eq_refl)). assert (Rr : forall z, In z (y :: r) -> rust_lexeme z) by (intros z Hz; apply R; right; exact Hz).
    assert (NS' : no_split (y :: r) = true) by (cbn [no_split] in NS |- *; apply andb_true_iff in NS; exact (proj2 NS)).
    specialize (IH Rr NS'). cbn [map]. destruct (is_word x) eqn:E.
    + destruct x as [|w| |]; try discriminate. cbn [lex_text]. rewrite W; [rewrite lex_spaces, IH; reflexivity|exact Rx| |].
      * eapply follow_word; [exact L|apply Rr; left; reflexivity|exact (Wn eq_refl)].
      * intro D. eapply follow_num; [exact L|exact Rr|exact (Wn eq_refl)|exact D|exact NS].
    + rewrite P by assumption. rewrite lex_spaces, IH. reflexivity.
Qed.

(** ** From texts of tokens back to tokens *)
Lemma rust_visible : forall ts, rust_tokens ts -> forall t, In t ts -> visible t.
Proof.
  intros ts [H _] t Ht. assert (K : forall x, In x (lexemes t) -> rust_lexeme x) by (intros x Hx; apply H; apply in_flat_map; eauto).
  clear - K. revert K. apply (tree_all (fun t => (forall x, In x (lexemes t) -> rust_lexeme x) -> visible t)); clear t.
  - intros c _. constructor.
  - intros w _. constructor.
  - intros d us IH K. constructor.
    + exact (K (LOpen d) (or_introl eq_refl)).
    + intros u Hu. apply IH; [exact Hu|]. intros x Hx. apply K. cbn [lexemes]. right. apply in_or_app. left. apply in_flat_map. eauto.
Qed.

Lemma rust_word_nonempty : forall w, rust_word w -> exists c w', w = c :: w' /\ (word_cont c = true \/ c = QUOTE).
Proof.
  intros w [w' (c & w1 & -> & H & _)|c w' H _|w' _].
  - exists c, w1. split; [reflexivity|]. left. unfold word_cont. rewrite H. reflexivity.
  - exists c, w'. split; [reflexivity|]. left. unfold word_cont. rewrite H. apply orb_true_r.
  - exists QUOTE, (w' ++ [QUOTE]). auto.
Qed.
Lemma lex_text_inj : forall x y, rust_lexeme x -> rust_lexeme y -> lex_text x = lex_text y -> x = y.
Proof.
  assert (WN : forall w y, rust_word w -> is_word y = false -> rust_lexeme y -> lex_text y = w -> False).
  { intros w y Rw Ey Ry E. destruct (not_word_first y Ey Ry) as (c & Ec & H1 & _ & H3). rewrite E in Ec.
    destruct (rust_word_nonempty w Rw) as (c' & w' & -> & H); pose proof (f_equal (hd SP) Ec) as E0; cbn [hd] in E0; destruct H as [H|H]; congruence. }
  assert (PD : forall c y, rust_punct c -> (exists d, d <> NoDelim /\ (y = LOpen d \/ y = LClose d)) -> lex_text y = [c] -> False).
  { intros c y (_ & _ & _ & N1) (d & Hd & Hy) E. apply N1. destruct d; try contradiction; destruct Hy as [-> | ->]; injection E as <-; vm_compute; tauto. }
  intros [c|w|d|d] [c'|w'|d'|d'] Rx Ry E; try (exfalso; first [eapply (WN w); [exact Rx| |exact Ry|symmetry; exact E]; reflexivity
       |eapply (WN w'); [exact Ry| |exact Rx|exact E]; reflexivity
       |eapply (PD c); [exact Rx| |symmetry; exact E]; eauto
       |eapply (PD c'); [exact Ry| |exact E]; eauto]; fail).
  - cbn in E. injection E as ->. reflexivity.
  - cbn in E. subst. reflexivity.
  - destruct d, d'; try reflexivity; try discriminate; exfalso; first [apply Rx; reflexivity|apply Ry; reflexivity].
  - destruct d, d'; try discriminate; exfalso; first [apply Rx; reflexivity|apply Ry; reflexivity].
  - destruct d, d'; try discriminate; exfalso; first [apply Rx; reflexivity|apply Ry; reflexivity].
  - destruct d, d'; try reflexivity; try discriminate; exfalso; first [apply Rx; reflexivity|apply Ry; reflexivity].
Qed.
Lemma lex_texts_inj : forall l l', (forall x, In x l -> rust_lexeme x) -> (forall x, In x l' -> rust_lexeme x) ->
  map lex_text l = map lex_text l' -> l = l'.
Proof.
  induction l as [|x l IH]; intros [|y l'] R R' E; try discriminate; [reflexivity|]. cbn [map] in E.
  pose proof (f_equal (hd []) E) as E1. pose proof (f_equal (@tl _) E) as E2. cbn [hd tl] in E1, E2. f_equal.
  - apply lex_text_inj; [apply R; left; reflexivity|apply R'; left; reflexivity|exact E1].
  - apply IH; [intros z Hz; apply R; right; exact Hz|intros z Hz; apply R'; right; exact Hz|exact E2].
Qed.

Definition stops (l : list lexeme) : Prop := match l with [] => True | LClose _ :: _ => True | _ => False end.
Lemma trees_inj : forall n ts ts' r r', length (all_lexemes ts) <= n -> stops r -> stops r' ->
  all_lexemes ts ++ r = all_lexemes ts' ++ r' -> ts = ts' /\ r = r'.
Proof.
  induction n as [|n IH]; intros ts ts' r r' Hn Sr Sr' E.
  - destruct ts as [|[c|w|d us] ts]; try (cbn in Hn; lia). cbn [all_lexemes flat_map app] in E.
    destruct ts' as [|[c|w|d us] ts']; [auto| | |]; subst r; destruct Sr.
  - destruct ts as [|[c|w|d us] ts], ts' as [|[c'|w'|d' us'] ts']; cbn [all_lexemes flat_map lexemes app] in E, Hn; try discriminate;
      try (subst r; destruct Sr; fail); try (subst r'; destruct Sr'; fail); [auto|injection E as E1 E|injection E as E1 E|].
    + destruct (IH ts ts' r r') as [-> ->]; [cbn in Hn; unfold all_lexemes; lia|exact Sr|exact Sr'|exact E|]. subst. auto.
    + destruct (IH ts ts' r r') as [-> ->]; [cbn in Hn; unfold all_lexemes; lia|exact Sr|exact Sr'|exact E|]. subst. auto.
    + injection E as E1 E. rewrite <- !app_assoc in E. cbn [app] in E. cbn [length] in Hn. rewrite !app_length in Hn. cbn [length] in Hn.
      destruct (IH us us' (LClose d :: flat_map lexemes ts ++ r) (LClose d' :: flat_map lexemes ts' ++ r')) as [-> E2];
        [unfold all_lexemes; lia|exact I|exact I|exact E|]. injection E2 as _ E2.
      destruct (IH ts ts' r r') as [-> ->]; [unfold all_lexemes; lia|exact Sr|exact Sr'|exact E2|]. subst. auto.
Qed.

Lemma pretty_lex : forall ts, rust_tokens ts -> lex MStart (pretty ts) = map lex_text (all_lexemes ts).
Proof. intros ts R. apply lex_layout; [apply pretty_layout, rust_visible, R|exact (proj1 R)|exact (proj2 R)]. Qed.
Lemma pretty_inj : forall ts ts', rust_tokens ts -> rust_tokens ts' -> pretty ts = pretty ts' -> ts = ts'.
Proof.
  intros ts ts' R R' E. assert (L : map lex_text (all_lexemes ts) = map lex_text (all_lexemes ts')) by (rewrite <- !pretty_lex by assumption; rewrite E; reflexivity).
  apply lex_texts_inj in L; [|exact (proj1 R)|exact (proj1 R')].
  destruct (trees_inj _ ts ts' [] [] (le_n _) I I) as [K _]; [rewrite !app_nil_r; exact L|exact K].
Qed.

(** ** The values given to functions are such tokens *)
Definition good (l : list lexeme) : Prop := (forall x, In x l -> rust_lexeme x) /\ no_split l = true.
Definition safe (x : lexeme) : bool := match x with LWord w => negb (starts_digit w) | LPunct c => negb (N.eqb c DOT) | _ => true end.
Definition head_bad (x : lexeme) (l : list lexeme) : bool :=
  match x, l with LWord a, LPunct c :: LWord b :: _ => starts_digit a && N.eqb c DOT && starts_digit b | _, _ => false end.
Lemma no_split_cons : forall x l, no_split (x :: l) = negb (head_bad x l) && no_split l.
Proof. reflexivity. Qed.
Lemma head_safe : forall x l, safe x = true -> head_bad x l = false.
Proof. intros [c|w|d|d] l H; try reflexivity. cbn [safe] in H. unfold head_bad. apply negb_true_iff in H. rewrite H. destruct l as [|[]]; try reflexivity. destruct l as [|[]]; reflexivity. Qed.
Lemma no_split_mid : forall a x b, safe x = true -> no_split (a ++ x :: b) = no_split a && no_split b.
Proof.
  intros a x b S. induction a as [|y a IH].
  - cbn [app]. rewrite no_split_cons, head_safe by exact S. reflexivity.
  - cbn [app]. rewrite !no_split_cons, IH, andb_assoc. do 3 f_equal.
    destruct y as [c|w|d|d]; try reflexivity. unfold head_bad. destruct a as [|[c'|w'|d'|d'] a]; cbn [app]; try reflexivity.
    + destruct x as [c'|w'|d'|d']; try reflexivity. cbn [safe] in S. apply negb_true_iff in S. rewrite S, andb_false_r. destruct b as [|[]]; reflexivity.
    + destruct a as [|z a]; cbn [app]; [|reflexivity]. destruct x as [|w'| |]; try reflexivity. cbn [safe] in S. apply negb_true_iff in S. rewrite S, !andb_false_r. reflexivity.
Qed.
Lemma good_nil : good [].
Proof. split; [intros x []|reflexivity]. Qed.
Lemma good_cons : forall x l, safe x = true -> rust_lexeme x -> good l -> good (x :: l).
Proof.
  intros x l S R [G1 G2]. split; [intros y [<-|H]; auto|]. rewrite no_split_cons, head_safe, G2 by exact S. reflexivity.
Qed.
Lemma good_mid : forall a x b, safe x = true -> rust_lexeme x -> good a -> good b -> good (a ++ x :: b).
Proof.
  intros a x b S R [A1 A2] [B1 B2]. split; [intros y H; apply in_app_iff in H as [H|[<-|H]]; auto|]. rewrite no_split_mid, A2, B2 by exact S. reflexivity.
Qed.
Lemma good_one : forall x, rust_lexeme x -> good [x].
Proof. intros x R. split; [intros y [<-|[]]; exact R|]. destruct x; reflexivity. Qed.
Lemma good_dot : forall a w b, starts_digit w = false -> rust_word w -> good a -> good b -> good (a ++ LPunct DOT :: LWord w :: b).
Proof.
  intros a w b S R [A1 A2] [B1 B2].
  assert (RD : rust_lexeme (LPunct DOT)) by (repeat split; try discriminate; vm_compute; intuition discriminate).
  split; [intros y H; apply in_app_iff in H as [H|[<-|[<-|H]]]; auto|].
  induction a as [|y a IH].
  - cbn [app]. rewrite !no_split_cons, B2, (head_safe (LWord w)); [reflexivity|]. cbn [safe]. rewrite S. reflexivity.
  - cbn [app]. rewrite no_split_cons in A2 |- *. apply andb_true_iff in A2 as [A2 A3]. rewrite IH; [|intros z Hz; apply A1; right; exact Hz|exact A3].
    rewrite andb_true_r. destruct y as [c|v|d|d]; try reflexivity. unfold head_bad in *. destruct a as [|[c'|w'|d'|d'] a]; cbn [app] in *; try reflexivity.
    + rewrite S, andb_false_r. reflexivity.
    + destruct a as [|[c''|w''|d''|d''] a]; cbn [app] in *; try reflexivity. exact A2.
Qed.

Lemma all_cons_punct : forall c ts, all_lexemes (Punct c :: ts) = LPunct c :: all_lexemes ts. Proof. reflexivity. Qed.
Lemma all_cons_word : forall w ts, all_lexemes (Word w :: ts) = LWord w :: all_lexemes ts. Proof. reflexivity. Qed.
Lemma all_cons_group : forall d us ts, all_lexemes (Group d us :: ts) = LOpen d :: all_lexemes us ++ LClose d :: all_lexemes ts.
Proof. intros. unfold all_lexemes. cbn [flat_map lexemes app]. rewrite <- app_assoc. reflexivity. Qed.
Lemma all_app : forall a b, all_lexemes (a ++ b) = all_lexemes a ++ all_lexemes b.
Proof. intros. apply flat_map_app. Qed.

Definition identb (w : text) : bool := match w with [] => false | c :: w' => word_start c && forallb word_cont w' end.
Lemma identb_ok : forall w, identb w = true -> ident w.
Proof. intros [|c w] H; [discriminate|]. cbn in H. apply andb_true_iff in H as [H1 H2]. exists c, w. auto. Qed.
Lemma ident_start : forall w, ident w -> starts_digit w = false.
Proof. intros w (c & w' & -> & H & _). exact (proj2 (proj2 (start_not c H))). Qed.
Lemma good_punct : forall c ts, word_cont c = false -> c <> SP -> c <> QUOTE -> c <> DOT -> ~ In c (tx "(){}[]") -> good (all_lexemes ts) -> good (all_lexemes (Punct c :: ts)).
Proof. intros c ts A B C D E G. rewrite all_cons_punct. apply good_cons; [cbn; destruct (N.eqb_spec c DOT); [contradiction|reflexivity]|repeat split; assumption|exact G]. Qed.
Lemma good_word : forall w ts, ident w -> good (all_lexemes ts) -> good (all_lexemes (Word w :: ts)).
Proof. intros w ts A G. rewrite all_cons_word. apply good_cons; [cbn; rewrite ident_start by exact A; reflexivity|apply rw_ident; exact A|exact G]. Qed.
Lemma good_group : forall d us ts, d <> NoDelim -> good (all_lexemes us) -> good (all_lexemes ts) -> good (all_lexemes (Group d us :: ts)).
Proof. intros d us ts D A G. rewrite all_cons_group. apply good_cons; [reflexivity|exact D|]. apply good_mid; [reflexivity|exact D|exact A|exact G]. Qed.
Lemma good_sep : forall a c ts, word_cont c = false -> c <> SP -> c <> QUOTE -> c <> DOT -> ~ In c (tx "(){}[]") ->
  good (all_lexemes a) -> good (all_lexemes ts) -> good (all_lexemes (a ++ Punct c :: ts)).
Proof. intros a c ts A B C D E G G'. rewrite all_app, all_cons_punct. apply good_mid; [cbn; destruct (N.eqb_spec c DOT); [contradiction|reflexivity]|repeat split; assumption|exact G|exact G']. Qed.
Lemma good_empty : good (all_lexemes []).
Proof. exact good_nil. Qed.
Lemma str_body_ok : forall w, forallb (fun c => negb (N.eqb c QUOTE) && negb (N.eqb c BSLASH)) w = true -> str_body w.
Proof.
  induction w as [|c w IH]; intro H; [constructor|]. cbn [forallb] in H. apply andb_true_iff in H as [H1 H2]. apply andb_true_iff in H1 as [H1 H3].
  apply sb_char; [intros ->; discriminate|intros ->; discriminate|exact (IH H2)].
Qed.
Ltac g_punct := first [reflexivity|discriminate|vm_compute; intuition discriminate].
Ltac g_step := first
  [ assumption
  | apply good_empty
  | apply good_group; [discriminate| |]
  | apply good_word; [first [assumption|apply identb_ok; reflexivity]|]
  | apply good_punct; [g_punct|g_punct|g_punct|g_punct|g_punct|]
  | apply good_sep; [g_punct|g_punct|g_punct|g_punct|g_punct| |] ].
Ltac g := unfold q_default, q_ok, q_err, q_some, q_vec, q_assoc, q_string_new, q_neg, q_leak_new, q_leak, q_box_leak, q_from_iter, q_pair, q_array, q_iter, q_http, q_tuple,
   q_assoc, q_vec, colons, wd, paren, bracket; cbn [app]; repeat g_step.
Lemma good_str : forall s, str_body (tx s) -> good (all_lexemes [lit_str s]).
Proof. intros s H. unfold lit_str. rewrite all_cons_word. apply good_one. apply (rw_str (tx s)). exact H. Qed.
Lemma good_num : forall c w, is_digit c = true -> num_tail w -> good (all_lexemes [Word (c :: w)]).
Proof. intros c w H F. rewrite all_cons_word. apply good_one. apply rw_num; assumption. Qed.
Lemma good_neg : forall c w, is_digit c = true -> num_tail w -> good (all_lexemes [Punct MINUS; Word (c :: w)]).
Proof. intros c w H F. apply good_punct; try g_punct. apply good_num; assumption. Qed.
Lemma good_to_owned : forall r, good (all_lexemes r) -> good (all_lexemes (q_to_owned r)).
Proof.
  intros r H. unfold q_to_owned. rewrite all_app, all_cons_punct. unfold wd. rewrite all_cons_word. apply good_dot; [reflexivity|apply rw_ident, identb_ok; reflexivity|exact H|]. g.
Qed.
Lemma good_into : good (all_lexemes q_into).
Proof. change (good ([LWord ([QUOTE] ++ tx "xyzzy" ++ [QUOTE])] ++ LPunct DOT :: LWord (tx "into") :: all_lexemes [paren []])). apply good_dot; [reflexivity|apply rw_ident, identb_ok; reflexivity| |g].
  apply good_one. apply (rw_str (tx "xyzzy")). apply str_body_ok. reflexivity. Qed.
Lemma good_http : good (all_lexemes q_http).
Proof.
  change (good (all_lexemes (wd "HttpResponse" :: colons ++ [wd "Ok"; paren []]) ++ LPunct DOT :: LWord (tx "finish") :: all_lexemes [paren []])).
  apply good_dot; [reflexivity|apply rw_ident, identb_ok; reflexivity|g|g].
Qed.
Lemma good_comma : forall l, (forall r, In r l -> good (all_lexemes r)) -> good (all_lexemes (comma_sep l)).
Proof.
  induction l as [|x l IH]; intro H; [exact good_nil|]. destruct l as [|y l]; [apply H; left; reflexivity|].
  change (comma_sep (x :: y :: l)) with (x ++ Punct COMMA_ :: comma_sep (y :: l)). g; [apply H; left; reflexivity|apply IH; intros r Hr; apply H; right; exact Hr].
Qed.
Lemma num0 : num_tail []. Proof. constructor. Qed.
Lemma num_dot0 : num_tail (tx ".0"). Proof. apply nt_dot; [reflexivity|]. apply nt_char; [reflexivity|constructor]. Qed.
Definition goodt (v : toks) : Prop := good (all_lexemes v).
Ltac g_lit := first [apply good_str, str_body_ok; reflexivity
  |apply (good_num 48%N); [reflexivity|first [exact num0|exact num_dot0]]|apply (good_num 49%N); [reflexivity|first [exact num0|exact num_dot0]]
  |apply (good_neg 49%N); [reflexivity|first [exact num0|exact num_dot0]]|exact good_into|exact good_http|g].
Lemma good_reps : forall errs, (forall e, In e errs -> goodt e) -> forall t, rust_ty t -> forall v, In v (reps errs t) -> goodt v.
Proof.
  intros errs HE. apply (ty_all (fun t => rust_ty t -> forall v, In v (reps errs t) -> goodt v)).
  - intros l p id pl a HA RT. inversion RT as [? ? ? ? ? Hid Harg| | | | | | |]; subst. clear RT.
    assert (V : forall l' rs r, views errs a = Some l' -> In (AType rs) l' -> In r rs -> goodt r).
    { intros l' rs r Hv Hin Hr. destruct (views_in errs a l' rs Hv Hin) as (gs & t & -> & Ht & ->). specialize (Harg gs _ eq_refl Ht).
      inversion Harg; subst. exact (HA (GType t) Ht H0 r Hr). }
    rewrite reps_path. apply (path_cases errs _ id (views errs a) (fun rs => forall v, In v rs -> goodt v)).
    all: try solve [intros v H; cbn [In] in H; repeat (destruct H as [<-|H]; [unfold goodt; g_lit|]); destruct H].
    + intros l' rs _ Ha F v H. apply in_app_iff in H as [H|H]; apply in_map_iff in H as [r [<- H]]; unfold goodt; g; [eapply V; eauto using first_in_view|exact (HE r H)].
    + intros v [<-|H]; [unfold goodt; g|]. cbn [app] in H. apply in_map_iff in H as [r [<- H]]. unfold goodt; g. exact (HE r H).
    + intros l' rs _ Ha F v [<-|H]; [unfold goodt; g|]. apply in_map_iff in H as [r [<- H]]. unfold goodt; g. eapply V; eauto using first_in_view.
    + intros l' rs _ Ha F v [<-|H]; [unfold goodt; g|]. apply in_map_iff in H as [r [<- H]]. unfold goodt; g. eapply V; eauto using first_in_view.
    + intros l' rs _ Ha F v H. apply in_flat_map in H as [r [Hr [<-|[<-|[]]]]]; assert (Gr : good (all_lexemes r)) by (eapply V; eauto using first_in_view); unfold goodt; g. apply good_to_owned; exact Gr.
    + intros rs _ Ha v H. apply in_map_iff in H as [r [<- H]]. unfold goodt; g. eapply V; eauto. left; reflexivity.
    + intros rs _ Ha v [<-|H]; [unfold goodt; g|]. apply in_map_iff in H as [r [<- H]]. unfold goodt; g. eapply V; eauto. left; reflexivity.
    + intros ks vs _ Ha v [<-|H]; [unfold goodt; g|]. apply in_map_iff in H as [[k w] [<- H]]. apply product_in in H as [H1 H2]. unfold goodt; g; cbn [fst snd] in *.
      * eapply V; [exact Ha|left; reflexivity|exact H1].
      * eapply V; [exact Ha|right; left; reflexivity|exact H2].
    + intros l' rs Ha Hin v [<-|H]; [unfold goodt; g|]. apply in_flat_map in H as [r [Hr H]]. assert (Gr : good (all_lexemes r)) by (eapply V; eauto).
      destruct H as [<-|[<-|[<-|[]]]]; unfold goodt; g.
  - intros t n IH RT v H. inversion RT as [|? ? Rt [Rn1 Rn2]| | | | | |]; subst. cbn [reps] in H. apply in_map_iff in H as [r [<- H]]. unfold goodt; g; [exact (IH Rt r H)|split; assumption].
  - intros t IH RT v H. inversion RT; subst. cbn [reps] in H. destruct H as [<-|H]; [unfold goodt; g|]. apply in_map_iff in H as [r [<- H]]. unfold goodt; g. apply IH; assumption.
  - intros m t IH RT v H. inversion RT as [| | |? ? Rt| | | |]; subst. specialize (IH Rt).
    assert (A : In v (map (fun r => Punct AMP :: r) (reps errs t)) -> goodt v).
    { intro K. apply in_map_iff in K as [r [<- K]]. unfold goodt; g. exact (IH r K). }
    assert (B : In v (map q_box_leak (reps errs t)) -> goodt v).
    { intro K. apply in_map_iff in K as [r [<- K]]. unfold goodt; g. exact (IH r K). }
    assert (C : In v (reps errs t) -> goodt v) by (intro K; exact (IH v K)).
    destruct m, t; try exact (A H); try exact (B H); try exact (C H).
    rewrite reps_ref_path in H. destruct (is_ident lead pre id plain (views errs args) (tx "str")).
    + destruct H as [<-|[<-|[]]]; apply good_str, str_body_ok; reflexivity.
    + exact (A H).
  - intros ts IH RT v H. inversion RT as [| | | |? Rt| | |]; subst. cbn [reps] in H. apply in_map_iff in H as [r [<- H]]. unfold goodt; g. apply good_comma. intros x Hx.
    apply multi_product_in in H. clear - H IH Rt Hx. revert r H Hx. induction ts as [|t ts IHt]; intros r H Hx; inversion H as [|y z r' z' Hy Hr]; subst; [destruct Hx|].
    destruct Hx as [<-|Hx]; [apply (IH t); [left; reflexivity|apply Rt; left; reflexivity|exact Hy]|].
    eapply IHt; [intros u Hu; apply IH; right; exact Hu|intros u Hu; apply Rt; right; exact Hu|exact Hr|exact Hx].
  - intros bs IH RT v H. inversion RT as [| | | | |? Rt| |]; subst. rewrite reps_impl in H. destruct (impl_iterator (map (bview errs) bs)) as [rs|] eqn:E; [|destruct H].
    destruct (impl_some errs bs rs E) as (t & Ht & ->). destruct (iterator_item_in bs t Ht) as (id & gs & Hb & Hg).
    destruct H as [<-|H]; [unfold goodt; g|]. apply in_map_iff in H as [r [<- H]]. unfold goodt; g.
    specialize (Rt id gs _ Hb Hg). inversion Rt; subst. exact (IH _ Hb (GAssoc (tx "Item") t) Hg H1 r H).
  - intros _ v [].
  - intros ts _ v [<-|[]]. unfold goodt; g.
Qed.

Lemma reps_rust : forall errs t v, (forall e, In e errs -> rust_tokens e) -> rust_ty t -> In v (reps errs t) -> rust_tokens v.
Proof. intros errs t v HE HT H. exact (good_reps errs HE t HT v H). Qed.
Lemma printed_distinct : forall errs t, (forall e, In e errs -> rust_tokens e) -> NoDup errs -> rust_ty t -> NoDup (map pretty (reps errs t)).
Proof.
  intros errs t HE ND HT. apply NoDup_map_on; [exact (reps_NoDup errs ND t)|]. intros x y Hx Hy E.
  apply pretty_inj; [eapply reps_rust; eauto|eapply reps_rust; eauto|exact E].
Qed.
