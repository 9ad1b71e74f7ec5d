From Coq Require Import String List NArith Bool Lia.
Import ListNotations.
From Verif Require Import Text PrettyM FnValueM FnValueS.

(** ** Induction over types *)
Section TyInd.
  Variable P : ty -> Prop.
  Definition Pg (g : garg) : Prop := match g with GType t | GAssoc _ t => P t | _ => True end.
  Definition Pa (a : option (list garg)) : Prop := match a with Some l => forall g, In g l -> Pg g | None => True end.
  Definition Pb (b : bound) : Prop := match b with BTrait _ a => Pa a | BOther => True end.
  Hypothesis HPath : forall l p id pl a, Pa a -> P (TPath l p id pl a).
  Hypothesis HArray : forall t n, P t -> P (TArray t n).
  Hypothesis HSlice : forall t, P t -> P (TSlice t).
  Hypothesis HRef : forall m t, P t -> P (TRef m t).
  Hypothesis HTuple : forall ts, (forall t, In t ts -> P t) -> P (TTuple ts).
  Hypothesis HImpl : forall bs, (forall b, In b bs -> Pb b) -> P (TImpl bs).
  Hypothesis HNever : P TNever.
  Hypothesis HOther : forall ts, P (TOther ts).
  Fixpoint ty_all (t : ty) : P t :=
    match t with
    | TPath l p id pl a => HPath l p id pl a
        (match a as a' return Pa a' with
         | Some gs => (fix go (gs : list garg) : forall g, In g gs -> Pg g :=
             match gs with
             | [] => fun g H => match H with end
             | x :: gs' => fun g H => match H with or_introl E => eq_ind x Pg (garg_all x) g E | or_intror H' => go gs' g H' end
             end) gs
         | None => I
         end)
    | TArray e n => HArray e n (ty_all e)
    | TSlice e => HSlice e (ty_all e)
    | TRef m e => HRef m e (ty_all e)
    | TTuple es => HTuple es ((fix go (es : list ty) : forall t, In t es -> P t :=
        match es with
        | [] => fun t H => match H with end
        | x :: es' => fun t H => match H with or_introl E => eq_ind x P (ty_all x) t E | or_intror H' => go es' t H' end
        end) es)
    | TImpl bs => HImpl bs ((fix go (bs : list bound) : forall b, In b bs -> Pb b :=
        match bs with
        | [] => fun t H => match H with end
        | x :: bs' => fun b H => match H with or_introl E => eq_ind x Pb (bound_all x) b E | or_intror H' => go bs' b H' end
        end) bs)
    | TNever => HNever
    | TOther ts => HOther ts
    end
  with garg_all (g : garg) : Pg g :=
    match g as g' return Pg g' with GType t => ty_all t | GAssoc _ t => ty_all t | GLifetime => I | GOther => I end
  with bound_all (b : bound) : Pb b :=
    match b as b' return Pb b' with
    | BTrait _ a => match a as a' return Pa a' with
         | Some gs => (fix go (gs : list garg) : forall g, In g gs -> Pg g :=
             match gs with
             | [] => fun g H => match H with end
             | x :: gs' => fun g H => match H with or_introl E => eq_ind x Pg (garg_all x) g E | or_intror H' => go gs' g H' end
             end) gs
         | None => I
         end
    | BOther => I
    end.
End TyInd.

(** ** Unfolding *)
Definition views (errs : list toks) (a : option (list garg)) : option (list aview) :=
  match a with Some l => Some (map (view errs) l) | None => None end.
Lemma reps_path : forall errs l p id pl a,
  reps errs (TPath l p id pl a) = path_replacements errs (is_ident l p id pl (views errs a)) id (views errs a).
Proof. reflexivity. Qed.

Lemma reps_impl : forall errs bs, reps errs (TImpl bs) =
  match impl_iterator (map (bview errs) bs) with
  | Some rs => q_iter "empty" [] :: map (q_iter "once") rs
  | None => []
  end.
Proof. reflexivity. Qed.
Lemma reps_ref_path : forall errs l p id pl a,
  reps errs (TRef false (TPath l p id pl a)) =
    if is_ident l p id pl (views errs a) (tx "str") then [[lit_str ""]; [lit_str "xyzzy"]]
    else map (fun r => Punct AMP :: r) (reps errs (TPath l p id pl a)).
Proof. reflexivity. Qed.

Lemma is_ident_true : forall l p id pl a w, is_ident l p id pl a w = true <-> l = false /\ p = [] /\ id = w /\ pl = true /\ a = None.
Proof.
  intros l p id pl a w. unfold is_ident. split.
  - intro H. rewrite !andb_true_iff in H. destruct H as [[[[H1 H2] H3] H4] H5]. apply negb_true_iff in H1.
    apply text_eqb_eq in H3. destruct p; [|discriminate]. destruct a; [discriminate|]. auto.
  - intros (-> & -> & -> & -> & ->). now rewrite text_eqb_refl.
Qed.

Lemma first_view : forall errs l r, first_type_arg (map (view errs) l) = Some r -> exists t, first_arg l t /\ r = reps errs t.
Proof.
  induction l as [|g l IH]; intros r H; [discriminate|]. destruct g; cbn [map view first_type_arg] in H; try discriminate.
  - injection H as <-. eexists. split; [constructor|reflexivity].
  - destruct (IH r H) as [t [Ht E]]. exists t. split; [now constructor|exact E].
Qed.
Lemma first_arg_view : forall errs l t, first_arg l t -> first_type_arg (map (view errs) l) = Some (reps errs t).
Proof. induction 1; cbn [map view first_type_arg]; auto. Qed.
Lemma first_arg_in : forall l t, first_arg l t -> In (GType t) l.
Proof. induction 1; [now left|now right]. Qed.

Lemma match_first_some : forall id a w r, match_first_type_arg id a w = Some r -> id = w /\ exists l, a = Some l /\ first_type_arg l = Some r.
Proof.
  intros id a w r H. unfold match_first_type_arg in H. destruct (text_eqb id w) eqn:E; [|discriminate].
  apply text_eqb_eq in E. destruct a as [l|]; [|discriminate]. eauto.
Qed.
Lemma only_some : forall ns id a r, only_type_arg ns id a = Some r -> In id ns /\ a = Some [AType r].
Proof.
  intros ns id a r H. unfold only_type_arg in H. destruct (mem_text id ns) eqn:E; [|discriminate]. apply mem_text_in in E.
  destruct a as [[|[r'| | |] [|]]|]; try discriminate. injection H as ->. auto.
Qed.
Lemma map_some : forall id a k v, known_map id a = Some (k, v) -> In id maps /\ a = Some [AType k; AType v].
Proof.
  intros id a k v H. unfold known_map in H. destruct (mem_text id maps) eqn:E; [|discriminate]. apply mem_text_in in E.
  destruct a as [[|[k'| | |] [|[v'| | |] [|]]]|]; try discriminate. injection H as -> ->. auto.
Qed.
Lemma maybe_some : forall a r, maybe_collection a = Some r -> exists l, a = Some l /\ In (AType r) l.
Proof.
  intros [l|] r H; [|discriminate]. exists l. split; [reflexivity|]. cbn [maybe_collection] in H.
  destruct (type_args l) as [|x [|]] eqn:E; try discriminate. injection H as ->.
  assert (In r (type_args l)) as Hr by (rewrite E; now left). unfold type_args in Hr. apply in_flat_map in Hr.
  destruct Hr as [[r'| | |] [Ha Hb]]; try destruct Hb. { now subst. } contradiction.
Qed.

(** All results for paths. *)
Lemma path_cases : forall errs isid id a (Q : list toks -> Prop),
  Q [[wd "true"]; [wd "false"]] -> Q [q_string_new; q_into] -> Q [[lit_str ""]; [lit_str "xyzzy"]] ->
  Q [[wd "0"]; [wd "1"]] -> Q [[wd "0"]; [wd "1"]; q_neg "1"] -> Q [[wd "1"]; q_neg "1"] -> Q [[wd "1"]] ->
  Q [[wd "0.0"]; [wd "1.0"]; q_neg "1.0"] ->
  (forall l rs, id = tx "Result" -> a = Some l -> first_type_arg l = Some rs -> Q (map q_ok rs ++ map q_err errs)) ->
  Q ([q_ok q_default] ++ map q_err errs) ->
  Q [q_http] ->
  (forall l rs, id = tx "Option" -> a = Some l -> first_type_arg l = Some rs -> Q ([wd "None"] :: map q_some rs)) ->
  (forall l rs, id = tx "Vec" -> a = Some l -> first_type_arg l = Some rs -> Q (q_vec [] :: map q_vec rs)) ->
  (forall l rs, id = tx "Cow" -> a = Some l -> first_type_arg l = Some rs ->
     Q (flat_map (fun r => [q_assoc (tx "Cow") "Borrowed" r; q_assoc (tx "Cow") "Owned" (q_to_owned r)]) rs)) ->
  (forall rs, In id containers -> a = Some [AType rs] -> Q (map (q_assoc id "new") rs)) ->
  (forall rs, In id collections -> a = Some [AType rs] -> Q (q_assoc id "new" [] :: map (q_from_iter id) rs)) ->
  (forall ks vs, In id maps -> a = Some [AType ks; AType vs] ->
     Q (q_assoc id "new" [] :: map (fun kv => q_from_iter id (q_pair (fst kv) (snd kv))) (product ks vs))) ->
  (forall l rs, a = Some l -> In (AType rs) l ->
     Q (q_assoc id "new" [] :: flat_map (fun r => [q_from_iter id r; q_assoc id "new" r; q_assoc id "from" r]) rs)) ->
  Q [q_default] ->
  Q (path_replacements errs isid id a).
Proof.
  intros errs isid id a Q H1 H2 H3 H4 H5 H6 H7 H8 H9 H10 H11 H12 H13 H14 H15 H16 H17 H18 H19. unfold path_replacements.
  destruct (isid (tx "bool")); [exact H1|]. destruct (isid (tx "String")); [exact H2|]. destruct (isid (tx "str")); [exact H3|].
  destruct (existsb isid unsigneds); [exact H4|]. destruct (existsb isid signeds); [exact H5|].
  destruct (mem_text id nonzero_signeds); [exact H6|]. destruct (mem_text id nonzero_unsigneds); [exact H7|].
  destruct (existsb isid floats); [exact H8|].
  destruct (text_eqb id (tx "Result")) eqn:ER.
  { destruct (match_first_type_arg id a (tx "Result")) as [rs|] eqn:E; [|exact H10].
    apply match_first_some in E. destruct E as [E [l [-> F]]]. eapply H9; eauto. }
  destruct (text_eqb id (tx "HttpResponse")); [exact H11|].
  destruct (match_first_type_arg id a (tx "Option")) as [rs|] eqn:E1.
  { apply match_first_some in E1. destruct E1 as [E [l [-> F]]]. eapply H12; eauto. }
  destruct (match_first_type_arg id a (tx "Vec")) as [rs|] eqn:E2.
  { apply match_first_some in E2. destruct E2 as [E [l [-> F]]]. eapply H13; eauto. }
  destruct (match_first_type_arg id a (tx "Cow")) as [rs|] eqn:E3.
  { apply match_first_some in E3. destruct E3 as [E [l [-> F]]]. eapply H14; eauto. }
  destruct (only_type_arg containers id a) as [rs|] eqn:E4.
  { apply only_some in E4. destruct E4 as [E ->]. now apply H15. }
  destruct (only_type_arg collections id a) as [rs|] eqn:E5.
  { apply only_some in E5. destruct E5 as [E ->]. now apply H16. }
  destruct (known_map id a) as [[ks vs]|] eqn:E6.
  { apply map_some in E6. destruct E6 as [E ->]. now apply H17. }
  destruct (maybe_collection a) as [rs|] eqn:E7; [|exact H19].
  apply maybe_some in E7. destruct E7 as [l [-> F]]. eapply H18; eauto.
Qed.

(** Views of arguments hold replacements of argument types. *)
Lemma first_in_view : forall l r, first_type_arg l = Some r -> In (AType r) l.
Proof. induction l as [|[r'| |i r'|] l IH]; cbn; intros r H; try discriminate; [injection H as ->; auto|right; auto]. Qed.
Lemma views_in : forall errs a l r, views errs a = Some l -> In (AType r) l -> exists gs t, a = Some gs /\ In (GType t) gs /\ r = reps errs t.
Proof.
  intros errs [gs|] l r H Hr; [|discriminate]. injection H as <-. apply in_map_iff in Hr. destruct Hr as [g [E Hg]].
  destruct g; cbn in E; try discriminate. injection E as <-. eauto.
Qed.

Lemma impl_some : forall errs bs r, impl_iterator (map (bview errs) bs) = Some r -> exists t, iterator_item bs t /\ r = reps errs t.
Proof.
  induction bs as [|b bs IH]; intros r H; [discriminate|]. cbn [map] in H.
  destruct b as [id [gs|]|].
  - destruct gs as [|g gs].
    + cbn in H. destruct (IH r H) as [t [Ht E]]. exists t. split; [constructor; [discriminate|assumption]|assumption].
    + destruct g as [u| |item u|]; cbn [bview map view impl_iterator] in H;
        try (destruct (IH r H) as [t [Ht E]]; exists t; split; [constructor; [discriminate|assumption]|assumption]).
      destruct (text_eqb id (tx "Iterator") && text_eqb item (tx "Item")) eqn:E.
      * injection H as <-. apply andb_true_iff in E. destruct E as [E1 E2]. apply text_eqb_eq in E1, E2. subst.
        exists u. split; [constructor|reflexivity].
      * destruct (IH r H) as [t [Ht E']]. exists t. split; [constructor; [|assumption]|assumption].
        intros rest v K. inversion K; subst. rewrite !text_eqb_refl in E. discriminate.
  - cbn in H. destruct (IH r H) as [t [Ht E]]. exists t. split; [constructor; [discriminate|assumption]|assumption].
  - cbn in H. destruct (IH r H) as [t [Ht E]]. exists t. split; [constructor; [discriminate|assumption]|assumption].
Qed.
Lemma iterator_item_some : forall errs bs t, iterator_item bs t -> impl_iterator (map (bview errs) bs) = Some (reps errs t).
Proof.
  induction 1 as [t rest bs|b bs t N _ IH].
  - cbn [map bview view impl_iterator]. now rewrite !text_eqb_refl.
  - cbn [map]. destruct b as [id [[|[u| |item u|] gs]|]|]; cbn [bview map view impl_iterator]; auto.
    destruct (text_eqb id (tx "Iterator") && text_eqb item (tx "Item")) eqn:E; [|exact IH].
    apply andb_true_iff in E. destruct E as [E1 E2]. apply text_eqb_eq in E1, E2. subst. exfalso. eapply N. reflexivity.
Qed.
Lemma iterator_item_in : forall bs t, iterator_item bs t -> exists id gs, In (BTrait id (Some gs)) bs /\ In (GAssoc (tx "Item") t) gs.
Proof.
  induction 1 as [t rest bs|b bs t N _ [id [gs [H1 H2]]]]; [exists (tx "Iterator"), (GAssoc (tx "Item") t :: rest); split; left; reflexivity|].
  exists id, gs. split; [now right|assumption].
Qed.

(** ** Values are never empty and have no comma outside brackets *)
Definition clean (v : toks) : Prop := v <> [] /\ ~ top_comma v.

Ltac clean_tac := split; [discriminate|unfold top_comma; cbn; intuition discriminate].

Lemma clean_assoc : forall id f v, clean (q_assoc id f v).
Proof. intros. clean_tac. Qed.

Lemma clean_reps : forall errs t v, In v (reps errs t) -> clean v.
Proof.
  intros errs. apply (ty_all (fun t => forall v, In v (reps errs t) -> clean v)).
  - intros l p id pl a HA. rewrite reps_path.
    apply (path_cases errs _ id (views errs a) (fun rs => forall v, In v rs -> clean v)).
    all: try solve [intros v H; cbn [In] in H; intuition (subst; clean_tac)].
    + intros _ rs _ _ _ v H. apply in_app_iff in H. destruct H as [H|H]; apply in_map_iff in H; destruct H as [r [<- _]]; clean_tac.
    + intros v [<-|H]; [clean_tac|]. cbn [app] in H. apply in_map_iff in H. destruct H as [r [<- _]]; clean_tac.
    + intros _ rs _ _ _ v [<-|H]; [clean_tac|]. apply in_map_iff in H. destruct H as [r [<- _]]; clean_tac.
    + intros _ rs _ _ _ v [<-|H]; [clean_tac|]. apply in_map_iff in H. destruct H as [r [<- _]]; clean_tac.
    + intros _ rs _ _ _ v H. apply in_flat_map in H. destruct H as [r [_ [<-|[<-|[]]]]]; apply clean_assoc.
    + intros rs _ _ v H. apply in_map_iff in H. destruct H as [r [<- _]]. apply clean_assoc.
    + intros rs _ _ v [<-|H]; [apply clean_assoc|]. apply in_map_iff in H. destruct H as [r [<- _]]. apply clean_assoc.
    + intros ks vs _ _ v [<-|H]; [apply clean_assoc|]. apply in_map_iff in H. destruct H as [r [<- _]]. apply clean_assoc.
    + intros _ rs _ _ v [<-|H]; [apply clean_assoc|]. apply in_flat_map in H. destruct H as [r [_ [<-|[<-|[<-|[]]]]]]; apply clean_assoc.
  - intros t n IH v H. cbn [reps] in H. apply in_map_iff in H. destruct H as [r [<- _]]. clean_tac.
  - intros t IH v H. cbn [reps] in H. destruct H as [<-|H]; [clean_tac|]. apply in_map_iff in H. destruct H as [r [<- _]]. clean_tac.
  - intros m t IH v H.
    assert (A : In v (map (fun r => Punct AMP :: r) (reps errs t)) -> clean v).
    { intro K. apply in_map_iff in K. destruct K as [r [<- K]]. destruct (IH r K) as [_ N]. split; [discriminate|].
      intros [E|E]; [discriminate|now apply N]. }
    assert (B : In v (map q_box_leak (reps errs t)) -> clean v).
    { intro K. apply in_map_iff in K. destruct K as [r [<- K]]. apply clean_assoc. }
    assert (C : forall e, In v (q_leak_new :: map q_leak (reps errs e)) -> clean v).
    { intros e [<-|K]; [clean_tac|]. apply in_map_iff in K. destruct K as [r [<- K]]. apply clean_assoc. }
    destruct m, t; try exact (A H); try exact (B H); try exact (C _ H).
    rewrite reps_ref_path in H. destruct (is_ident lead pre id plain (views errs args) (tx "str")).
    + destruct H as [<-|[<-|[]]]; clean_tac.
    + exact (A H).
  - intros ts _ v H. cbn [reps] in H. apply in_map_iff in H. destruct H as [r [<- _]]. clean_tac.
  - intros bs _ v H. cbn [reps] in H. destruct (impl_iterator _); [|destruct H]. destruct H as [<-|H]; [clean_tac|].
    apply in_map_iff in H. destruct H as [r [<- _]]. clean_tac.
  - intros v [].
  - intros ts v [<-|[]]. clean_tac.
Qed.

(** ** No two values are the same *)
Lemma NoDup_map_on : forall {A B} (f : A -> B) l, NoDup l -> (forall x y, In x l -> In y l -> f x = f y -> x = y) -> NoDup (map f l).
Proof.
  intros A B f l H. induction H as [|x l N H IH]; intros I; [constructor|]. cbn [map]. constructor.
  - intro K. apply in_map_iff in K. destruct K as [y [E Hy]]. apply N. rewrite (I x y); [exact Hy|now left|now right|now symmetry].
  - apply IH. intros a b Ha Hb. apply I; now right.
Qed.
Lemma NoDup_app_on : forall {A} (l m : list A), NoDup l -> NoDup m -> (forall x, In x l -> In x m -> False) -> NoDup (l ++ m).
Proof.
  intros A l m H. induction H as [|x l N H IH]; intros Hm D; [exact Hm|]. cbn [app]. constructor.
  - rewrite in_app_iff. intros [K|K]; [now apply N|]. apply (D x); [now left|exact K].
  - apply IH; [exact Hm|]. intros y Hy. apply D. now right.
Qed.
Lemma NoDup_flat_on : forall {A B} (f : A -> list B) l, NoDup l -> (forall x, In x l -> NoDup (f x)) ->
  (forall x y b, In x l -> In y l -> In b (f x) -> In b (f y) -> x = y) -> NoDup (flat_map f l).
Proof.
  intros A B f l H. induction H as [|x l N H IH]; intros F D; [constructor|]. cbn [flat_map]. apply NoDup_app_on.
  - apply F. now left.
  - apply IH; [intros y Hy; apply F; now right|]. intros y z b Hy Hz. apply D; now right.
  - intros b H1 H2. apply in_flat_map in H2. destruct H2 as [y [Hy Hb]]. apply N.
    rewrite (D x y b); auto; [now left|now right].
Qed.

Lemma cut_eq : forall (c : tree) x y A B, ~ In c x -> ~ In c y -> x ++ c :: A = y ++ c :: B -> x = y /\ A = B.
Proof.
  induction x as [|a x IH]; intros [|b y] A B Hx Hy E; cbn [app] in E.
  - injection E as ->. auto.
  - injection E as -> _. exfalso. apply Hy. now left.
  - injection E as -> _. exfalso. apply Hx. now left.
  - injection E as -> E. destruct (IH y A B) as [-> ->]; auto; intro K; [apply Hx|apply Hy]; now right.
Qed.
Lemma comma_sep_inj : forall l m, length l = length m -> (forall v, In v l -> ~ top_comma v) -> (forall v, In v m -> ~ top_comma v) ->
  comma_sep l = comma_sep m -> l = m.
Proof.
  induction l as [|x l IH]; intros [|y m] L Hl Hm E; try discriminate; [reflexivity|].
  destruct l as [|x' l], m as [|y' m]; try discriminate.
  - cbn in E. now subst.
  - change (x ++ Punct COMMA_ :: comma_sep (x' :: l) = y ++ Punct COMMA_ :: comma_sep (y' :: m)) in E.
    destruct (cut_eq _ _ _ _ _ (Hl x (or_introl eq_refl)) (Hm y (or_introl eq_refl)) E) as [-> E'].
    f_equal. apply IH; auto; [intros v Hv; apply Hl; now right|intros v Hv; apply Hm; now right].
Qed.

Lemma multi_product_in : forall {A} (ls : list (list A)) v, In v (multi_product ls) <-> Forall2 (fun x l => In x l) v ls.
Proof.
  induction ls as [|l ls IH]; intros v; cbn [multi_product].
  - split; [intros [<-|[]]; constructor|intro H; inversion H; now left].
  - rewrite in_flat_map. split.
    + intros [a [Ha K]]. apply in_map_iff in K. destruct K as [w [<- Hw]]. constructor; [exact Ha|now apply IH].
    + intro H. inversion H; subst. exists x. split; [assumption|]. apply in_map_iff. eexists. split; [reflexivity|now apply IH].
Qed.
Lemma multi_product_NoDup : forall {A} (ls : list (list A)), (forall l, In l ls -> NoDup l) -> NoDup (multi_product ls).
Proof.
  induction ls as [|l ls IH]; intros H; cbn [multi_product]; [constructor; [intros []|constructor]|].
  apply NoDup_flat_on.
  - apply H. now left.
  - intros a Ha. apply NoDup_map_on; [apply IH; intros m Hm; apply H; now right|]. intros x y _ _ [= ->]. reflexivity.
  - intros x y b _ _ Hx Hy. apply in_map_iff in Hx, Hy. destruct Hx as [v [<- _]], Hy as [w [E _]]. now injection E as ->.
Qed.
Lemma product_in : forall {A B} (l : list A) (m : list B) p, In p (product l m) <-> In (fst p) l /\ In (snd p) m.
Proof.
  intros A B l m [a b]. unfold product. rewrite in_flat_map. cbn [fst snd]. split.
  - intros [x [Hx K]]. apply in_map_iff in K. destruct K as [y [[= -> ->] Hy]]. auto.
  - intros [Ha Hb]. exists a. split; [exact Ha|]. apply in_map_iff. eauto.
Qed.
Lemma product_NoDup : forall {A B} (l : list A) (m : list B), NoDup l -> NoDup m -> NoDup (product l m).
Proof.
  intros A B l m Hl Hm. apply NoDup_flat_on; [exact Hl| |].
  - intros x _. apply NoDup_map_on; [exact Hm|]. now intros a b _ _ [= ->].
  - intros x y b _ _ Hx Hy. apply in_map_iff in Hx, Hy. destruct Hx as [v [<- _]], Hy as [w [E _]]. now injection E as ->.
Qed.

Lemma Forall2_len : forall {A B} (R : A -> B -> Prop) l m, Forall2 R l m -> length l = length m.
Proof. induction 1; cbn; congruence. Qed.

Ltac nodup_const := repeat (apply NoDup_cons; [cbn [In]; intuition discriminate|]); apply NoDup_nil.

Lemma reps_NoDup : forall errs, NoDup errs -> forall t, NoDup (reps errs t).
Proof.
  intros errs HE. apply (ty_all (fun t => NoDup (reps errs t))).
  - intros l p id pl a HA. rewrite reps_path.
    assert (V : forall l r, views errs a = Some l -> In (AType r) l -> NoDup r /\ forall v, In v r -> clean v).
    { intros vs r E H. destruct (views_in errs a vs r E H) as [gs [t [-> [Ht ->]]]]. split; [exact (HA _ Ht)|apply clean_reps]. }
    assert (I1 : forall id f x y, q_assoc id f x = q_assoc id f y -> x = y).
    { intros i f x y E. unfold q_assoc in E. now injection E. }
    assert (NE : NoDup (map q_err errs)).
    { apply NoDup_map_on; [exact HE|]. intros x y _ _ [= ->]. reflexivity. }
    apply path_cases; try nodup_const.
    + intros vs rs _ E F. destruct (V _ _ E (first_in_view _ _ F)) as [N _]. apply NoDup_app_on; [|exact NE|].
      * apply NoDup_map_on; [exact N|]. now intros x y _ _ [= ->].
      * intros x Hx Hy. apply in_map_iff in Hx, Hy. destruct Hx as [u [<- _]], Hy as [w [K _]]. discriminate.
    + cbn [app]. constructor; [|exact NE]. intro K. apply in_map_iff in K. destruct K as [x [K _]]. discriminate.
    + intros vs rs _ E F. destruct (V _ _ E (first_in_view _ _ F)) as [N _]. constructor.
      * intro K. apply in_map_iff in K. destruct K as [x [K _]]. discriminate.
      * apply NoDup_map_on; [exact N|]. now intros x y _ _ [= ->].
    + intros vs rs _ E F. destruct (V _ _ E (first_in_view _ _ F)) as [N C]. constructor.
      * intro K. apply in_map_iff in K. destruct K as [x [K Hx]]. injection K as ->. now apply (proj1 (C [] Hx)).
      * apply NoDup_map_on; [exact N|]. now intros x y _ _ [= ->].
    + intros vs rs _ E F. destruct (V _ _ E (first_in_view _ _ F)) as [N C]. apply NoDup_flat_on; [exact N| |].
      * intros x _. nodup_const.
      * intros x y b _ _ [<-|[<-|[]]] [K|[K|[]]]; try discriminate; apply I1 in K; [now symmetry|].
        unfold q_to_owned in K. now apply app_inv_tail in K.
    + intros rs _ E. destruct (V _ _ E (or_introl eq_refl)) as [N C].
      apply NoDup_map_on; [exact N|]. intros x y _ _. apply I1.
    + intros rs _ E. destruct (V _ _ E (or_introl eq_refl)) as [N C]. constructor.
      * intro K. apply in_map_iff in K. destruct K as [x [K _]]. discriminate.
      * apply NoDup_map_on; [exact N|]. intros x y _ _ K. apply I1 in K. now injection K.
    + intros ks vs _ E. destruct (V _ _ E (or_introl eq_refl)) as [Nk Ck].
      destruct (V _ _ E (or_intror (or_introl eq_refl))) as [Nv Cv]. constructor.
      * intro K. apply in_map_iff in K. destruct K as [x [K _]]. discriminate.
      * apply NoDup_map_on; [now apply product_NoDup|]. intros [k v] [k' v'] H1 H2 K.
        apply product_in in H1, H2. cbn [fst snd] in *. apply I1 in K. injection K as K.
        destruct H1 as [H1 H1'], H2 as [H2 H2'].
        destruct (cut_eq _ _ _ _ _ (proj2 (Ck _ H1)) (proj2 (Ck _ H2)) K) as [-> ->]. reflexivity.
    + intros vs rs E H. destruct (V _ _ E H) as [N C]. constructor.
      * intro K. apply in_flat_map in K. destruct K as [x [Hx [K|[K|[K|[]]]]]]; try discriminate.
        apply I1 in K. subst. now apply (proj1 (C [] Hx)).
      * apply NoDup_flat_on; [exact N| |].
        -- intros x _. nodup_const.
        -- intros x y b _ _ [<-|[<-|[<-|[]]]] [K|[K|[K|[]]]]; try discriminate; apply I1 in K; [now injection K| |]; now symmetry.
  - intros t n IH. cbn [reps]. apply NoDup_map_on; [exact IH|]. intros x y _ _ [= K]. now apply app_inv_tail in K.
  - intros t IH. cbn [reps]. constructor.
    + intro K. apply in_map_iff in K. destruct K as [x [K _]]. discriminate.
    + apply NoDup_map_on; [exact IH|]. now intros x y _ _ [= ->].
  - intros m t IH.
    assert (A : NoDup (map (fun r => Punct AMP :: r) (reps errs t))) by (apply NoDup_map_on; [exact IH|]; now intros x y _ _ [= ->]).
    assert (B : NoDup (map q_box_leak (reps errs t))) by (apply NoDup_map_on; [exact IH|]; now intros x y _ _ [= ->]).
    destruct m, t; try exact A; try exact B; try exact IH.
    rewrite reps_ref_path. destruct (is_ident _ _ _ _ _ _); [nodup_const|exact A].
  - intros ts IH. cbn [reps]. apply NoDup_map_on.
    + apply multi_product_NoDup. intros l Hl. apply in_map_iff in Hl. destruct Hl as [t [<- Ht]]. now apply IH.
    + intros x y Hx Hy [= K]. apply multi_product_in in Hx, Hy.
      assert (Q : forall z, Forall2 (fun x l => In x l) z (map (reps errs) ts) -> forall v, In v z -> ~ top_comma v).
      { intros z Hz. clear - Hz. remember (map (reps errs) ts) as ls eqn:E. revert ts E.
        induction Hz as [|a l z ls Ha _ IHz]; intros ts E v Hv; [destruct Hv|]. destruct ts as [|t ts]; [discriminate|].
        injection E as -> E. destruct Hv as [<-|Hv]; [exact (proj2 (clean_reps _ _ _ Ha))|eapply IHz; eauto]. }
      apply comma_sep_inj; [|now apply Q|now apply Q|exact K].
      now rewrite (Forall2_len _ _ _ Hx), (Forall2_len _ _ _ Hy).
  - intros bs HB. rewrite reps_impl. destruct (impl_iterator (map (bview errs) bs)) as [rs|] eqn:E; [|constructor].
    destruct (impl_some errs bs rs E) as [t [Ht ->]].
    destruct (iterator_item_in bs t Ht) as [id [gs [H1 H2]]]. pose proof (HB _ H1 _ H2) as N. cbn [Pg] in N. constructor.
    + intro K. apply in_map_iff in K. destruct K as [x [K _]]. discriminate.
    + apply NoDup_map_on; [exact N|]. now intros x y _ _ [= ->].
  - constructor.
  - cbn [reps]. intros _. nodup_const.
Qed.

(** ** Computing for known names *)
Definition plain_names : list text := map tx ["bool"; "String"; "str"]%string ++ unsigneds ++ signeds ++ floats.
Lemma existsb_false : forall {A} (f : A -> bool) l, (forall x, In x l -> f x = false) -> existsb f l = false.
Proof. induction l as [|x l IH]; intros H; [reflexivity|]. cbn. rewrite (H x (or_introl eq_refl)). apply IH. intros y Hy. apply H. now right. Qed.
Lemma path_no_ident : forall errs isid id a, (forall w, In w plain_names -> isid w = false) ->
  path_replacements errs isid id a = path_replacements errs (fun _ => false) id a.
Proof.
  intros errs isid id a H. unfold path_replacements.
  rewrite (H (tx "bool")) by (cbn; auto). rewrite (H (tx "String")) by (cbn; auto). rewrite (H (tx "str")) by (cbn; auto).
  rewrite !existsb_false; [reflexivity| | | | | | ]; intros w Hw; try reflexivity; apply H; unfold plain_names; rewrite !in_app_iff; auto.
Qed.
Lemma reps_generic : forall errs l p id pl gs,
  reps errs (TPath l p id pl (Some gs)) = path_replacements errs (fun _ => false) id (Some (map (view errs) gs)).
Proof.
  intros errs l p id pl gs. rewrite reps_path. cbn [views]. apply path_no_ident. intros w _.
  unfold is_ident. apply andb_false_r.
Qed.
Lemma reps_special : forall errs l p id pl a, ~ In id plain_names ->
  reps errs (TPath l p id pl a) = path_replacements errs (fun _ => false) id (views errs a).
Proof.
  intros errs l p id pl a N. rewrite reps_path. apply path_no_ident. intros w Hw.
  destruct (is_ident _ _ _ _ _ w) eqn:E; [|reflexivity]. apply is_ident_true in E. destruct E as (_ & _ & -> & _). contradiction.
Qed.

Ltac not_plain := let H := fresh in intro H; repeat (destruct H as [H|H]; [discriminate H|]); destruct H.

Lemma reps_result : forall errs l p pl gs t, first_arg gs t ->
  reps errs (TPath l p (tx "Result") pl (Some gs)) = map q_ok (reps errs t) ++ map q_err errs.
Proof.
  intros. rewrite reps_generic. change (match first_type_arg (map (view errs) gs) with Some rs => map q_ok rs | None => [q_ok q_default] end ++ map q_err errs = map q_ok (reps errs t) ++ map q_err errs).
  now rewrite (first_arg_view errs gs t).
Qed.
Lemma reps_option : forall errs l p pl gs t, first_arg gs t ->
  reps errs (TPath l p (tx "Option") pl (Some gs)) = [wd "None"] :: map q_some (reps errs t).
Proof.
  intros. rewrite reps_generic. unfold path_replacements. change (mem_text (tx "Option") nonzero_signeds) with false.
  change (mem_text (tx "Option") nonzero_unsigneds) with false. change (match_first_type_arg (tx "Option") (Some (map (view errs) gs)) (tx "Option")) with (first_type_arg (map (view errs) gs)).
  now rewrite (first_arg_view errs gs t).
Qed.
Lemma reps_vec : forall errs l p pl gs t, first_arg gs t ->
  reps errs (TPath l p (tx "Vec") pl (Some gs)) = q_vec [] :: map q_vec (reps errs t).
Proof.
  intros. rewrite reps_generic. unfold path_replacements. 
  change (match_first_type_arg (tx "Vec") (Some (map (view errs) gs)) (tx "Vec")) with (first_type_arg (map (view errs) gs)).
  now rewrite (first_arg_view errs gs t).
Qed.
Lemma reps_cow : forall errs l p pl gs t, first_arg gs t ->
  reps errs (TPath l p (tx "Cow") pl (Some gs))
  = flat_map (fun r => [q_assoc (tx "Cow") "Borrowed" r; q_assoc (tx "Cow") "Owned" (q_to_owned r)]) (reps errs t).
Proof.
  intros. rewrite reps_generic. unfold path_replacements. 
  change (match_first_type_arg (tx "Cow") (Some (map (view errs) gs)) (tx "Cow")) with (first_type_arg (map (view errs) gs)).
  now rewrite (first_arg_view errs gs t).
Qed.
Lemma reps_box : forall errs l p pl c t, box_like c ->
  reps errs (TPath l p (tx c) pl (Some [GType t])) = map (q_assoc (tx c) "new") (reps errs t).
Proof. intros errs l p pl c t H. rewrite reps_generic. now destruct H. Qed.
Lemma reps_set : forall errs l p pl c t, set_like c ->
  reps errs (TPath l p (tx c) pl (Some [GType t])) = q_assoc (tx c) "new" [] :: map (q_from_iter (tx c)) (reps errs t).
Proof. intros errs l p pl c t H. rewrite reps_generic. now destruct H. Qed.
Lemma reps_map : forall errs l p pl c k v, map_like c ->
  reps errs (TPath l p (tx c) pl (Some [GType k; GType v])) = q_assoc (tx c) "new" []
    :: map (fun kv => q_from_iter (tx c) (q_pair (fst kv) (snd kv))) (product (reps errs k) (reps errs v)).
Proof. intros errs l p pl c k v H. rewrite reps_generic. now destruct H. Qed.
Lemma reps_http : forall errs l p pl a, reps errs (TPath l p (tx "HttpResponse") pl a) = [q_http].
Proof. intros. rewrite reps_special; [reflexivity|not_plain]. Qed.
Lemma reps_result_alias : forall errs l p pl, reps errs (TPath l p (tx "Result") pl None) = q_ok q_default :: map q_err errs.
Proof. intros. rewrite reps_special; [reflexivity|not_plain]. Qed.

Lemma mem_false : forall x l m, ~ In x m -> (forall y, In y l -> In y m) -> mem_text x l = false.
Proof. intros x l m N I. apply mem_text_false. intro K. apply N. now apply I. Qed.
Lemma reps_unknown : forall errs t, unknown t -> reps errs t = [q_default].
Proof.
  intros errs t [l p id pl N|ts]; [|reflexivity].
  rewrite reps_special.
  - unfold path_replacements. cbn [views].
    rewrite (mem_false id nonzero_signeds _ N) by (cbn; intuition). rewrite (mem_false id nonzero_unsigneds _ N) by (cbn; intuition).
    rewrite !existsb_false by reflexivity.
    destruct (text_eqb id (tx "Result")) eqn:E1; [apply text_eqb_eq in E1; subst; exfalso; apply N; cbn; tauto|].
    destruct (text_eqb id (tx "HttpResponse")) eqn:E2; [apply text_eqb_eq in E2; subst; exfalso; apply N; cbn; tauto|].
    unfold match_first_type_arg, only_type_arg, known_map. destruct (text_eqb id (tx "Option")), (text_eqb id (tx "Vec")), (text_eqb id (tx "Cow")), (mem_text id containers), (mem_text id collections), (mem_text id maps); reflexivity.
  - intro K. apply N. cbn in K |- *. intuition.
Qed.

Lemma reps_slice_ref : forall errs m t, reps errs (TRef m (TSlice t)) = q_leak_new :: map q_leak (reps errs t).
Proof. intros errs [] t; reflexivity. Qed.
Lemma reps_ref : forall errs t, t <> named "str" -> (forall e, t <> TSlice e) -> reps errs (TRef false t) = map (fun r => Punct AMP :: r) (reps errs t).
Proof.
  intros errs t N1 N2. destruct t; try reflexivity; [|exfalso; eapply N2; reflexivity].
  rewrite reps_ref_path. destruct (is_ident _ _ _ _ _ _) eqn:E; [|reflexivity]. apply is_ident_true in E.
  destruct E as (-> & -> & -> & -> & E). destruct args; [discriminate|]. exfalso. now apply N1.
Qed.
Lemma reps_mut : forall errs t, (forall e, t <> TSlice e) -> reps errs (TRef true t) = map q_box_leak (reps errs t).
Proof. intros errs t N. destruct t; try reflexivity. exfalso. eapply N; reflexivity. Qed.

Lemma comma_separated : forall vs, comma_sep vs = separated vs.
Proof.
  assert (K : forall vs, concat (map (fun v => Punct 44%N :: v) vs) = match vs with [] => [] | _ => Punct COMMA_ :: comma_sep vs end).
  { induction vs as [|v vs IH]; [reflexivity|]. cbn [map concat]. rewrite IH. destruct vs as [|w vs]; [cbn; now rewrite app_nil_r|]. reflexivity. }
  intros vs. unfold separated. rewrite K. now destruct vs.
Qed.
Lemma product_list_prod : forall {A B} (l : list A) (m : list B), product l m = list_prod l m.
Proof. induction l as [|a l IH]; intros m; [reflexivity|]. cbn [list_prod]. rewrite <- IH. reflexivity. Qed.
Lemma multi_product_choices : forall vss, multi_product vss = choices vss.
Proof.
  unfold choices. induction vss as [|vs vss IH]; [reflexivity|]. cbn [multi_product fold_right]. rewrite <- IH, <- product_list_prod.
  clear. unfold product. induction vs as [|v vs IH]; [reflexivity|]. cbn [flat_map]. rewrite map_app, <- IH. f_equal.
  rewrite map_map. reflexivity.
Qed.

(** *** The rest *)
Lemma simple_plain : forall id, In id (map tx simple_names) <-> In id plain_names.
Proof. intro id. cbn. tauto. Qed.
Lemma not_anywhere : forall id, ~ In id (map tx anywhere_names) ->
  mem_text id nonzero_signeds = false /\ mem_text id nonzero_unsigneds = false
  /\ text_eqb id (tx "Result") = false /\ text_eqb id (tx "HttpResponse") = false.
Proof.
  intros id N. split; [apply (mem_false id _ _ N); cbn; tauto|]. split; [apply (mem_false id _ _ N); cbn; tauto|].
  split; apply text_eqb_neq; intros ->; apply N; cbn; tauto.
Qed.
Lemma reps_path_other : forall errs l p id pl, ~ In id (map tx anywhere_names) ->
  (forall w, In w simple_names -> TPath l p id pl None <> named w) -> reps errs (TPath l p id pl None) = [q_default].
Proof.
  intros errs l p id pl N W. rewrite reps_path. cbn [views]. rewrite path_no_ident.
  - destruct (not_anywhere id N) as (A & B & C & D). unfold path_replacements. rewrite A, B, C, D, !existsb_false by reflexivity.
    unfold match_first_type_arg, only_type_arg, known_map. destruct (text_eqb id (tx "Option")), (text_eqb id (tx "Vec")), (text_eqb id (tx "Cow")), (mem_text id containers), (mem_text id collections), (mem_text id maps); reflexivity.
  - intros w Hw. destruct (is_ident _ _ _ _ _ w) eqn:E; [|reflexivity]. apply is_ident_true in E. destruct E as (-> & -> & -> & -> & _).
    exfalso. apply simple_plain in Hw. apply in_map_iff in Hw. destruct Hw as [x [<- Hx]]. apply (W x Hx). reflexivity.
Qed.
Lemma reps_result_other : forall errs l p pl a, (forall args t, a = Some args -> ~ first_arg args t) ->
  reps errs (TPath l p (tx "Result") pl a) = q_ok q_default :: map q_err errs.
Proof.
  intros errs l p pl a H. destruct a as [gs|]; [|apply reps_result_alias]. rewrite reps_generic.
  change (match first_type_arg (map (view errs) gs) with Some rs => map q_ok rs | None => [q_ok q_default] end ++ map q_err errs = q_ok q_default :: map q_err errs).
  destruct (first_type_arg (map (view errs) gs)) as [rs|] eqn:E; [|reflexivity].
  destruct (first_view _ _ _ E) as [t [K _]]. destruct (H gs t eq_refl K).
Qed.
Lemma box_in : forall c, box_like c -> In (tx c) containers.
Proof. intros c []; cbn; tauto. Qed.
Lemma containers_like : forall id, In id containers -> exists c, id = tx c /\ box_like c.
Proof. intros id H. repeat (destruct H as [<-|H]; [eexists; split; [reflexivity|constructor]|]). destruct H. Qed.
Lemma collections_like : forall id, In id collections -> exists c, id = tx c /\ set_like c.
Proof. intros id H. repeat (destruct H as [<-|H]; [eexists; split; [reflexivity|constructor]|]). destruct H. Qed.
Lemma maps_like : forall id, In id maps -> exists c, id = tx c /\ map_like c.
Proof. intros id H. repeat (destruct H as [<-|H]; [eexists; split; [reflexivity|constructor]|]). destruct H. Qed.
Lemma view_type : forall errs gs r, map (view errs) gs = [AType r] -> exists t, gs = [GType t].
Proof. intros errs [|[t| | |] [|g gs]] r H; try discriminate. eauto. Qed.
Lemma view_types : forall errs gs k v, map (view errs) gs = [AType k; AType v] -> exists t u, gs = [GType t; GType u].
Proof. intros errs [|[t| | |] [|[u| | |] [|g gs]]] k v H; try discriminate. eauto. Qed.
Lemma types_view : forall errs gs, type_args (map (view errs) gs) = map (reps errs) (types_of gs).
Proof. intros errs gs. induction gs as [|[t| | |] gs IH]; cbn [map type_args flat_map types_of app]; auto. cbn. f_equal. exact IH. Qed.
Lemma reps_other_generic : forall errs l p id pl gs, other_generic id gs ->
  reps errs (TPath l p id pl (Some gs)) =
  match types_of gs with
  | [t] => q_assoc id "new" [] :: flat_map (fun r => [q_from_iter id r; q_assoc id "new" r; q_assoc id "from" r]) (reps errs t)
  | _ => [q_default]
  end.
Proof.
  intros errs l p id pl gs (N & F & B & M). rewrite reps_generic. destruct (not_anywhere id N) as (A1 & A2 & A3 & A4).
  unfold path_replacements. rewrite A1, A2, A3, A4, !existsb_false by reflexivity.
  assert (FN : forall w, In w ["Option"; "Vec"; "Cow"]%string -> match_first_type_arg id (Some (map (view errs) gs)) (tx w) = None).
  { intros w Iw. destruct (match_first_type_arg _ _ _) as [rs|] eqn:E; [|reflexivity]. apply match_first_some in E.
    destruct E as [-> [l' [[= <-] K]]]. destruct (first_view _ _ _ K) as [t [K' _]]. destruct (F (in_map tx _ _ Iw) t K'). }
  rewrite (FN "Option"%string), (FN "Vec"%string), (FN "Cow"%string) by (cbn; auto). clear FN.
  destruct (only_type_arg containers _ _) as [rs|] eqn:E1.
  { exfalso. apply only_some in E1. destruct E1 as [I1 E1]. injection E1 as E1. destruct (view_type _ _ _ E1) as [t ->].
    destruct (containers_like _ I1) as [c [-> Hc]]. exact (B c t eq_refl (or_introl Hc) eq_refl). }
  destruct (only_type_arg collections _ _) as [rs|] eqn:E2.
  { exfalso. apply only_some in E2. destruct E2 as [I1 E2]. injection E2 as E2. destruct (view_type _ _ _ E2) as [t ->].
    destruct (collections_like _ I1) as [c [-> Hc]]. exact (B c t eq_refl (or_intror Hc) eq_refl). }
  destruct (known_map _ _) as [[ks vs]|] eqn:E3.
  { exfalso. apply map_some in E3. destruct E3 as [I1 E3]. injection E3 as E3. destruct (view_types _ _ _ _ E3) as [t [u ->]].
    destruct (maps_like _ I1) as [c [-> Hc]]. exact (M c t u eq_refl Hc eq_refl). }
  cbn [maybe_collection]. rewrite types_view. destruct (types_of gs) as [|t [|u ts]]; reflexivity.
Qed.

Lemma table_reps : forall errs t l, table errs t l -> reps errs t = l.
Proof.
  intros errs t l H. induction H.
  - cbn in H. repeat (destruct H as [<-|H]; [reflexivity|]). destruct H.
  - cbn in H, H0. repeat (destruct H as [<-|H]; [first [reflexivity|exfalso; tauto]|]). destruct H.
  - cbn in H. repeat (destruct H as [<-|H]; [reflexivity|]). destruct H.
  - rewrite reps_special.
    + cbn in H. repeat (destruct H as [<-|H]; [reflexivity|]). destruct H.
    + cbn in H. repeat (destruct H as [<-|H]; [not_plain|]). destruct H.
  - rewrite reps_special.
    + cbn in H. repeat (destruct H as [<-|H]; [reflexivity|]). destruct H.
    + cbn in H. repeat (destruct H as [<-|H]; [not_plain|]). destruct H.
  - reflexivity.
  - reflexivity.
  - reflexivity.
  - rewrite (reps_result errs l p pl args t H), IHtable. reflexivity.
  - rewrite (reps_option errs l p pl args t H), IHtable. reflexivity.
  - rewrite (reps_vec errs l p pl args t H), IHtable. reflexivity.
  - rewrite (reps_box errs l p pl c t H), IHtable. reflexivity.
  - rewrite (reps_set errs l p pl c t H), IHtable. reflexivity.
  - rewrite (reps_map errs l p pl c k v H), IHtable1, IHtable2, product_list_prod. reflexivity.
  - rewrite (reps_cow errs l p pl args t H), IHtable, flat_map_concat_map. reflexivity.
  - cbn [reps]. now rewrite IHtable.
  - rewrite reps_slice_ref, IHtable. reflexivity.
  - rewrite reps_ref, IHtable by assumption. reflexivity.
  - rewrite reps_mut, IHtable by assumption. reflexivity.
  - apply reps_http.
  - cbn [reps]. assert (map (reps errs) ts = vss) as ->.
    { clear - H H1. revert vss H H1. induction ts as [|t ts IH]; intros [|vs vss] L K; try discriminate; [reflexivity|].
      cbn [map]. f_equal; [exact (K 0 t vs eq_refl eq_refl)|]. apply IH; [now injection L|].
      intros i u us Hu Hv. exact (K (S i) u us Hu Hv). }
    rewrite multi_product_choices. apply map_ext. intros vs. unfold q_tuple. now rewrite comma_separated.
  - rewrite reps_impl, (iterator_item_some errs bs t H), IHtable. reflexivity.
  - now rewrite reps_unknown.
  - now rewrite reps_path_other.
  - now rewrite reps_result_other.
  - rewrite reps_other_generic, H0, IHtable, flat_map_concat_map by assumption. reflexivity.
  - rewrite reps_other_generic by assumption. destruct (types_of args) as [|t [|u ts]]; [reflexivity| |reflexivity]. exfalso. now apply H0.
  - reflexivity.
  - rewrite reps_slice_ref in IHtable. exact IHtable.
  - reflexivity.
  - rewrite reps_impl. destruct (impl_iterator (map (bview errs) bs)) as [rs|] eqn:E; [|reflexivity].
    destruct (impl_some errs bs rs E) as [t [Ht _]]. exfalso. now apply (H t).
Qed.

(** The table has a row for every type. *)
Lemma first_arg_dec : forall gs, (exists t, first_arg gs t) \/ forall t, ~ first_arg gs t.
Proof.
  induction gs as [|[t| |i t|] gs IH].
  - right. intros t H. inversion H.
  - left. exists t. constructor.
  - destruct IH as [[t H]|H]; [left; exists t; now constructor|]. right. intros t K. inversion K; subst. now apply (H t).
  - right. intros u H. inversion H.
  - right. intros u H. inversion H.
Qed.
Lemma item_dec : forall bs, (exists t, iterator_item bs t) \/ forall t, ~ iterator_item bs t.
Proof.
  induction bs as [|b bs IH]; [right; intros t H; inversion H|].
  assert (D : (exists rest u, b = BTrait (tx "Iterator") (Some (GAssoc (tx "Item") u :: rest)))
              \/ forall rest u, b <> BTrait (tx "Iterator") (Some (GAssoc (tx "Item") u :: rest))).
  { destruct b as [id [[|[t| |i t|] gs]|]|]; try (right; intros; discriminate).
    destruct (text_eqb id (tx "Iterator")) eqn:E1, (text_eqb i (tx "Item")) eqn:E2;
      [left; apply text_eqb_eq in E1, E2; subst; eauto| | |]; right; intros rest u [= -> -> _ _]; discriminate. }
  destruct D as [[rest [u ->]]|D]; [left; exists u; constructor|].
  destruct IH as [[t H]|H]; [left; exists t; now constructor|]. right. intros t K. inversion K; subst; [now apply (D rest t)|now apply (H t)].
Qed.
Lemma types_of_in : forall gs t, In t (types_of gs) -> In (GType t) gs.
Proof. intros gs t H. apply in_flat_map in H. destruct H as [[u| | |] [I K]]; [|destruct K|destruct K|destruct K]. destruct K as [<-|[]]. exact I. Qed.
Lemma text_dec : forall a b : text, {a = b} + {a <> b}.
Proof. intros a b. destruct (text_eqb a b) eqn:E; [left; now apply text_eqb_eq|right; now apply text_eqb_neq]. Qed.

Lemma table_total : forall errs t, exists l, table errs t l.
Proof.
  intros errs. apply ty_all.
  - intros l p id pl a HA.
    destruct (in_dec text_dec id (map tx anywhere_names)) as [I|I].
    + cbn [map anywhere_names] in I. destruct I as [<-|[<-|I]].
      * destruct a as [gs|].
        -- destruct (first_arg_dec gs) as [[t H]|H].
           ++ destruct (HA _ (first_arg_in _ _ H)) as [vs Hv]. eexists. eapply tab_result; eauto.
           ++ eexists. apply tab_result_other. intros args t [= <-]. apply H.
        -- eexists. apply tab_result_other. discriminate.
      * eexists. apply tab_http.
      * assert (NZ : In id (map (fun w => tx (String.append "NonZeroI" w)) ["8"; "16"; "32"; "64"; "128"; "size"]%string)
                  \/ In id (map (fun w => tx (String.append "NonZeroU" w)) ["8"; "16"; "32"; "64"; "128"; "size"]%string)).
        { repeat (destruct I as [<-|I]; [cbn; tauto|]). destruct I. }
        destruct NZ as [NZ|NZ]; eexists; [apply tab_nonzero_i|apply tab_nonzero_u]; exact NZ.
    + destruct a as [gs|].
      * assert (OG : other_generic id gs \/ exists vs, table errs (TPath l p id pl (Some gs)) vs).
        { destruct (in_dec text_dec id (map tx ["Option"; "Vec"; "Cow"]%string)) as [O|O].
          - destruct (first_arg_dec gs) as [[t H]|H].
            + right. destruct (HA _ (first_arg_in _ _ H)) as [vs Hv].
              destruct O as [<-|[<-|[<-|[]]]]; eexists; [eapply tab_option|eapply tab_vec|eapply tab_cow]; eauto.
            + left. split; [exact I|]. split; [auto|]. split.
              * intros c t -> [Hc|Hc]; exfalso; destruct Hc; cbn in O; intuition discriminate.
              * intros c k v -> Hc. exfalso; destruct Hc; cbn in O; intuition discriminate.
          - destruct (in_dec text_dec id containers) as [C1|C1]; [|destruct (in_dec text_dec id collections) as [C2|C2]; [|destruct (in_dec text_dec id maps) as [C3|C3]]].
            + destruct (containers_like _ C1) as [c [-> Hc]].
              assert (D : (exists t, gs = [GType t]) \/ forall t, gs <> [GType t]) by (destruct gs as [|[t| | |] [|g gs]]; eauto; right; discriminate).
              destruct D as [[t ->]|D].
              * right. destruct (HA _ (or_introl eq_refl)) as [vs Hv]. eexists. eapply tab_box; eauto.
              * left. split; [exact I|]. split; [intro; contradiction|]. split; [auto|].
                intros c' k v E Hm. exfalso. destruct Hc, Hm; discriminate E.
            + destruct (collections_like _ C2) as [c [-> Hc]].
              assert (D : (exists t, gs = [GType t]) \/ forall t, gs <> [GType t]) by (destruct gs as [|[t| | |] [|g gs]]; eauto; right; discriminate).
              destruct D as [[t ->]|D].
              * right. destruct (HA _ (or_introl eq_refl)) as [vs Hv]. eexists. eapply tab_set; eauto.
              * left. split; [exact I|]. split; [intro; contradiction|]. split; [auto|].
                intros c' k v E Hm. exfalso. destruct Hc, Hm; discriminate E.
            + destruct (maps_like _ C3) as [c [-> Hc]].
              assert (D : (exists k v, gs = [GType k; GType v]) \/ forall k v, gs <> [GType k; GType v])
                by (destruct gs as [|[t| | |] [|[u| | |] [|g gs]]]; eauto; right; discriminate).
              destruct D as [[k [v ->]]|D].
              * right. destruct (HA _ (or_introl eq_refl)) as [ks Hk]. destruct (HA _ (or_intror (or_introl eq_refl))) as [vs Hv].
                eexists. eapply tab_map; eauto.
              * left. split; [exact I|]. split; [intro; contradiction|]. split; [|auto].
                intros c' t E Hm. exfalso. destruct Hc, Hm as [Hm|Hm]; destruct Hm; discriminate E.
            + left. split; [exact I|]. split; [intro; contradiction|]. split.
              * intros c t -> [Hc|Hc]; exfalso; [apply C1|apply C2]; destruct Hc; cbn; tauto.
              * intros c k v -> Hc. exfalso. apply C3. destruct Hc; cbn; tauto. }
        destruct OG as [OG|OG]; [|exact OG].
        destruct (types_of gs) as [|t [|u ts]] eqn:E.
        -- eexists. apply tab_arguments; [exact OG|]. rewrite E. discriminate.
        -- destruct (HA (GType t)) as [vs Hv]; [apply types_of_in; rewrite E; now left|]. eexists. eapply tab_generic; eauto.
        -- eexists. apply tab_arguments; [exact OG|]. rewrite E. discriminate.
      * destruct (in_dec text_dec id (map tx simple_names)) as [S|S].
        2:{ eexists. apply tab_path; [exact I|]. intros w Hw [= -> -> -> ->]. apply S. now apply in_map. }
        assert (D : (l = false /\ p = [] /\ pl = true) \/ forall w, TPath l p id pl None <> named w).
        { destruct l; [right; discriminate|]. destruct p; [|right; discriminate]. destruct pl; [now left|right; discriminate]. }
        destruct D as [(-> & -> & ->)|D]; [|eexists; apply tab_path; auto].
        apply in_map_iff in S. destruct S as [w [<- S]]. change (TPath false [] (tx w) true None) with (named w).
        destruct S as [<-|[<-|[<-|S]]]; [eexists; apply tab_bool|eexists; apply tab_string|eexists; apply tab_bare_str|].
        change (In w (int_names ++ float_names)) in S. apply (in_app_or int_names float_names w) in S. destruct S as [S|S]; [|eexists; apply tab_float; exact S].
        destruct (in_dec string_dec w signed_names) as [G|G]; eexists; [apply tab_signed; exact G|apply tab_unsigned; [exact S|exact G]].
  - intros t n [vs H]. eexists. apply tab_array. exact H.
  - intros t [vs H]. eexists. apply tab_bare_slice, tab_slice. exact H.
  - intros m t [vs H].
    assert (D : (exists e, t = TSlice e) \/ forall e, t <> TSlice e) by (destruct t; eauto; right; discriminate).
    destruct D as [[e ->]|D].
    + assert (NU : forall u, u = TSlice e \/ u = TRef false (TSlice e) -> ~ unknown u) by (intros u [->| ->] U; inversion U).
      inversion H; subst; try discriminate; [exfalso; apply (NU (TSlice e)); auto|].
      match goal with K : table _ (TRef false (TSlice _)) _ |- _ => inversion K; subst end.
      * eexists. apply tab_slice. eassumption.
      * exfalso. congruence.
      * exfalso. apply (NU (TRef false (TSlice e))); auto.
    + destruct m; [eexists; now apply tab_mut, H|].
      assert (S : t = named "str" \/ t <> named "str").
      { destruct t as [l p id pl a| | | | | | |]; try (right; discriminate).
        destruct l, p, pl, a; try (right; discriminate). destruct (text_dec id (tx "str")) as [->|N]; [now left|right; intros [= E]; contradiction]. }
      destruct S as [->|S]; eexists; [apply tab_str|now apply tab_ref, H].
  - intros ts IH.
    assert (A : exists vss, length ts = length vss /\ forall i t vs, nth_error ts i = Some t -> nth_error vss i = Some vs -> table errs t vs).
    { induction ts as [|t ts IHt]; [exists []; split; [reflexivity|intros [|i] t vs H; discriminate]|].
      destruct IHt as [vss [L K]]; [intros u Hu; apply IH; now right|]. destruct (IH t (or_introl eq_refl)) as [v Hv].
      exists (v :: vss). split; [cbn; now rewrite L|]. intros [|i] u vs; [intros [= <-] [= <-]; exact Hv|apply K]. }
    destruct A as [vss [L K]]. eexists. now apply (tab_tuple errs ts vss).
  - intros bs IH. destruct (item_dec bs) as [[t H]|H]; [|eexists; now apply tab_opaque].
    destruct (iterator_item_in _ _ H) as [id [gs [Ib Ig]]]. destruct (IH _ Ib _ Ig) as [vs Hv]. eexists. eapply tab_iter; eauto.
  - eexists. apply tab_never.
  - intros ts. eexists. apply tab_other. constructor.
Qed.

(** ** When there are no values *)
Lemma map_nil_iff : forall {A B} (f : A -> B) l, map f l = [] <-> l = [].
Proof. intros A B f [|x l]; cbn; split; auto; discriminate. Qed.
Lemma multi_product_nil : forall {A} (ls : list (list A)), multi_product ls = [] <-> In [] ls.
Proof.
  induction ls as [|l ls IH]; cbn [multi_product In].
  - split; [discriminate|intros []].
  - destruct l as [|a l]; [tauto|]. cbn [flat_map]. split.
    + intro H. apply app_eq_nil in H. destruct H as [H _]. apply map_nil_iff in H. right. now apply IH.
    + intros [H|H]; [discriminate|]. apply IH in H. rewrite H. clear. cbn [map app]. induction l; [reflexivity|exact IHl].
Qed.

Lemma no_value_reps : forall errs t, no_value errs t -> reps errs t = [].
Proof.
  intros errs t H. induction H.
  - reflexivity.
  - rewrite reps_impl. destruct (impl_iterator (map (bview errs) bs)) as [rs|] eqn:E; [|reflexivity].
    destruct (impl_some errs bs rs E) as [t [Ht _]]. exfalso. now apply (H t).
  - rewrite (reps_result errs l p pl args t H0), IHno_value, H. reflexivity.
  - rewrite (reps_cow errs l p pl args t H), IHno_value. reflexivity.
  - rewrite (reps_box errs l p pl c t H), IHno_value. reflexivity.
  - cbn [reps]. now rewrite IHno_value.
  - destruct m.
    + rewrite reps_mut; [now rewrite IHno_value|]. intros e ->. inversion H.
    + rewrite reps_ref; [now rewrite IHno_value| |]; [intros ->|intros e ->]; inversion H; discriminate.
  - cbn [reps]. apply map_nil_iff, multi_product_nil. rewrite <- IHno_value. now apply in_map.
Qed.

Lemma in_containers : forall id, In id containers -> exists c, id = tx c /\ box_like c.
Proof.
  intros id H. repeat (destruct H as [<-|H]; [eexists; split; [reflexivity|constructor]|]). destruct H.
Qed.

Lemma reps_nil_no_value : forall errs t, reps errs t = [] -> no_value errs t.
Proof.
  intros errs. apply (ty_all (fun t => reps errs t = [] -> no_value errs t)).
  - intros l p id pl a HA. rewrite reps_path. apply path_cases; try discriminate.
    + intros vs rs -> E F K. apply app_eq_nil in K. destruct K as [K1 K2]. apply map_nil_iff in K1, K2.
      destruct a as [gs|]; [|discriminate]. injection E as <-. destruct (first_view _ _ _ F) as [t [Ht ->]].
      apply (nv_result errs l p pl gs t K2 Ht). exact (HA _ (first_arg_in _ _ Ht) K1).
    + intros vs rs -> E F K. destruct a as [gs|]; [|discriminate]. injection E as <-. destruct (first_view _ _ _ F) as [t [Ht ->]].
      apply (nv_cow errs l p pl gs t Ht). apply (HA _ (first_arg_in _ _ Ht)). destruct (reps errs t); [reflexivity|discriminate].
    + intros rs Hid E K. apply map_nil_iff in K. destruct a as [gs|]; [|discriminate]. injection E as E.
      destruct (in_containers id Hid) as [c [-> Hc]].
      destruct gs as [|g [|]]; try discriminate. destruct g as [t| | |]; try discriminate. injection E as E.
      apply nv_box; [exact Hc|]. apply (HA (GType t) (or_introl eq_refl)). change (reps errs t = rs) in E. now rewrite E.
  - intros t n IH K. cbn [reps] in K. apply map_nil_iff in K. constructor. auto.
  - discriminate.
  - intros m t IH K. assert (reps errs t = []) as K'.
    { destruct m, t; try (apply map_nil_iff in K; exact K); try discriminate.
      rewrite reps_ref_path in K. destruct (is_ident _ _ _ _ _ _); [discriminate|]. now apply map_nil_iff in K. }
    constructor. auto.
  - intros ts IH K. cbn [reps] in K. apply map_nil_iff in K. apply multi_product_nil in K. apply in_map_iff in K.
    destruct K as [t [E Ht]]. eapply nv_tuple; eauto.
  - intros bs HB K. rewrite reps_impl in K. destruct (impl_iterator (map (bview errs) bs)) as [rs|] eqn:E; [discriminate|].
    constructor. intros t Ht. rewrite (iterator_item_some errs bs t Ht) in E. discriminate.
  - intros _. constructor.
  - discriminate.
Qed.

Lemma reps_nil_iff : forall errs t, reps errs t = [] <-> no_value errs t.
Proof. intros. split; [apply reps_nil_no_value|apply no_value_reps]. Qed.

Lemma nonzero_ok : forall errs t v, nonzero t -> In v (reps errs t) -> v = [Word (tx "1")] \/ v = [Punct 45%N; Word (tx "1")].
Proof.
  intros errs t v (l & p & id & pl & a & -> & H) Hv. revert Hv. rewrite reps_special.
  - cbn in H. repeat (destruct H as [<-|H]; [intros Hv; cbn in Hv; intuition|]). destruct H.
  - cbn in H. repeat (destruct H as [<-|H]; [not_plain|]). destruct H.
Qed.

(** ** Values have the right type *)
Lemma fits_sized : forall t, fits t -> ~ unsized t.
Proof.
  intros t F [E|[e E]]; subst.
  - remember (named "str") as t eqn:E. destruct F; try discriminate E.
    + cbn in H. repeat (destruct H as [<-|H]; [discriminate E|]). destruct H.
    + cbn in H. repeat (destruct H as [<-|H]; [discriminate E|]). destruct H.
    + subst. inversion H; subst. apply H1. cbn. tauto.
  - inversion F; subst. inversion H.
Qed.


Lemma Forall2_good : forall errs ts vs, Forall2 (fun v t => good errs t v) vs ts ->
  exists es, map etoks es = vs /\ Forall2 (typed errs) es ts.
Proof.
  intros errs ts vs H. induction H as [|v t vs ts [e [E T]] _ [es [E' T']]]; [exists []; split; constructor|].
  exists (e :: es). split; [cbn; congruence|now constructor].
Qed.

Lemma good_call : forall errs t u path x v, typed errs x u -> etoks x = v ->
  (forall e, typed errs e u -> typed errs (ECall false path [e]) t) ->
  good errs t (path_toks path ++ [Group Paren v]).
Proof. intros errs t u path x v T <- H. exists (ECall false path [x]). split; [reflexivity|auto]. Qed.

Lemma typed_reps : forall errs t, fits t -> forall v, In v (reps errs t) -> good errs t v.
Proof.
  intros errs t F. induction F; intros v0 Hv.
  - destruct Hv as [<-|[<-|[]]]; eexists; (split; [|constructor]); reflexivity.
  - assert (K : In v0 [[Word (tx "0")]; [Word (tx "1")]] \/ In w signed_names /\ v0 = q_neg "1").
    { cbn in H. repeat (destruct H as [<-|H]; [cbn in Hv |- *; intuition|]). destruct H. }
    destruct K as [[<-|[<-|[]]]|[S ->]].
    + exists (EWord (tx "0")). split; [reflexivity|]. apply ty_int; [cbn; tauto|exact H].
    + exists (EWord (tx "1")). split; [reflexivity|]. apply ty_int; [cbn; tauto|exact H].
    + exists (ENeg (EWord (tx "1"))). split; [reflexivity|]. apply ty_neg; [|now left]. apply ty_int; [cbn; tauto|exact H].
  - assert (K : In v0 [[Word (tx "0.0")]; [Word (tx "1.0")]; q_neg "1.0"]).
    { cbn in H. repeat (destruct H as [<-|H]; [exact Hv|]). destruct H. }
    destruct K as [<-|[<-|[<-|[]]]].
    + exists (EWord (tx "0.0")). split; [reflexivity|]. apply ty_float; [cbn; tauto|exact H].
    + exists (EWord (tx "1.0")). split; [reflexivity|]. apply ty_float; [cbn; tauto|exact H].
    + exists (ENeg (EWord (tx "1.0"))). split; [reflexivity|]. apply ty_neg; [|now right]. apply ty_float; [cbn; tauto|exact H].
  - destruct Hv as [<-|[<-|[]]].
    + eexists; split; [|apply ty_string_new]. reflexivity.
    + exists (EMethod (EWord ([QUOTE] ++ tx "xyzzy" ++ [QUOTE])) (tx "into")). split; [reflexivity|]. apply ty_string_into. apply ty_str.
  - destruct Hv as [<-|[<-|[]]].
    + exists (EWord ([QUOTE] ++ [] ++ [QUOTE])). split; [reflexivity|]. apply ty_str.
    + exists (EWord ([QUOTE] ++ tx "xyzzy" ++ [QUOTE])). split; [reflexivity|]. apply ty_str.
  - rewrite reps_http in Hv. destruct Hv as [<-|[]]. eexists; split; [|apply ty_http]. reflexivity.
  - unfold generic in Hv. rewrite (reps_option errs l p true [GType t] t (fa_here t [])) in Hv. destruct Hv as [<-|Hv].
    + exists (EWord (tx "None")). split; [reflexivity|apply ty_none].
    + apply in_map_iff in Hv. destruct Hv as [r [<- Hr]]. destruct (IHF r Hr) as [e [<- T]].
      apply (good_call errs _ t [tx "Some"] e); auto. intros; now apply ty_some.
  - unfold generic in Hv. rewrite (reps_result errs l p true args t H) in Hv. apply in_app_iff in Hv. destruct Hv as [Hv|Hv];
      apply in_map_iff in Hv; destruct Hv as [r [<- Hr]].
    + destruct (IHF r Hr) as [e [<- T]]. apply (good_call errs _ t [tx "Ok"] e); auto. intros. now apply (ty_ok errs l p args t).
    + exists (ECall false [tx "Err"] [EUser r]). split; [reflexivity|now apply ty_err].
  - rewrite reps_result_alias in Hv. destruct Hv as [<-|Hv].
    + exists (ECall false [tx "Ok"] [ECall false [tx "Default"; tx "default"] []]). split; [reflexivity|now apply ty_ok_alias].
    + apply in_map_iff in Hv; destruct Hv as [r [<- Hr]].
      exists (ECall false [tx "Err"] [EUser r]). split; [reflexivity|now apply ty_err].
  - unfold generic in Hv. rewrite (reps_vec errs l p true [GType t] t (fa_here t [])) in Hv. destruct Hv as [<-|Hv].
    + exists (EVecMacro []). split; [reflexivity|apply ty_vec]. intros e [].
    + apply in_map_iff in Hv. destruct Hv as [r [<- Hr]]. destruct (IHF r Hr) as [e [<- T]].
      exists (EVecMacro [e]). split; [reflexivity|apply ty_vec]. now intros e' [<-|[]].
  - unfold generic in Hv. rewrite (reps_cow errs l p true args _ H) in Hv. apply in_flat_map in Hv. destruct Hv as [r [Hr Hv]].
    assert (K : exists s, r = [Word ([QUOTE] ++ s ++ [QUOTE])]).
    { destruct Hr as [<-|[<-|[]]]; [exists []|exists (tx "xyzzy")]; reflexivity. }
    destruct K as [s ->]. destruct Hv as [<-|[<-|[]]].
    + apply (good_call errs _ (TRef false (named "str")) [tx "Cow"; tx "Borrowed"] (EWord ([QUOTE] ++ s ++ [QUOTE]))); auto.
      * apply ty_str.
      * intros. now apply (ty_borrowed errs l p args (named "str")).
    + exists (ECall false [tx "Cow"; tx "Owned"] [EMethod (EWord ([QUOTE] ++ s ++ [QUOTE])) (tx "to_owned")]). split; [reflexivity|].
      apply (ty_owned errs l p args (named "str")); [exact H|apply ty_str].
  - unfold generic in Hv. rewrite (reps_cow errs l p true args _ H) in Hv. apply in_flat_map in Hv. destruct Hv as [r [Hr Hv]].
    assert (K : exists x, etoks (ECall false [tx "Vec"; tx "leak"] [x]) = r /\ typed errs (ECall false [tx "Vec"; tx "leak"] [x]) (TRef false (TSlice t))).
    { change (In r (q_leak_new :: map q_leak (reps errs t))) in Hr. destruct Hr as [<-|Hr].
      - exists (ECall false [tx "Vec"; tx "new"] []). split; [reflexivity|]. apply ty_leak. apply ty_vec_new.
      - apply in_map_iff in Hr. destruct Hr as [s [<- Hs]]. destruct (IHF s Hs) as [e [<- T]]. exists (EVecMacro [e]). split; [reflexivity|].
        apply ty_leak. apply ty_vec. now intros e' [<-|[]]. }
    destruct K as [x [<- T]]. destruct Hv as [<-|[<-|[]]].
    + apply (good_call errs _ (TRef false (TSlice t)) [tx "Cow"; tx "Borrowed"] (ECall false [tx "Vec"; tx "leak"] [x])); auto.
      intros. now apply (ty_borrowed errs l p args (TSlice t)).
    + exists (ECall false [tx "Cow"; tx "Owned"] [EMethod (ECall false [tx "Vec"; tx "leak"] [x]) (tx "to_owned")]). split; [reflexivity|].
      now apply (ty_owned errs l p args (TSlice t)).
  - unfold generic in Hv. rewrite (reps_box errs l p true c t H) in Hv. apply in_map_iff in Hv. destruct Hv as [r [<- Hr]].
    destruct (IHF r Hr) as [e [<- T]]. apply (good_call errs _ t [tx c; tx "new"] e); auto.
    intros. apply ty_new; auto. now apply fits_sized.
  - unfold generic in Hv. rewrite (reps_set errs l p true c t H) in Hv. destruct Hv as [<-|Hv].
    + exists (ECall false [tx c; tx "new"] []). split; [reflexivity|now apply ty_set_new].
    + apply in_map_iff in Hv. destruct Hv as [r [<- Hr]]. destruct (IHF r Hr) as [e [<- T]].
      exists (ECall false [tx c; tx "from_iter"] [EArray [e]]). split; [reflexivity|]. apply ty_set; [exact H|]. now intros e' [<-|[]].
  - unfold generic in Hv. rewrite (reps_map errs l p true c k v H) in Hv. destruct Hv as [<-|Hv].
    + exists (ECall false [tx c; tx "new"] []). split; [reflexivity|now apply ty_map_new].
    + apply in_map_iff in Hv. destruct Hv as [[a b] [<- Hr]]. apply product_in in Hr. destruct Hr as [Ha Hb].
      destruct (IHF1 _ Ha) as [x [Ex Tx]]. destruct (IHF2 _ Hb) as [y [Ey Ty]].
      exists (ECall false [tx c; tx "from_iter"] [EArray [ETuple [x; y]]]). split; [cbn [etoks map comma_sep]; rewrite Ex, Ey; reflexivity|].
      apply ty_map; [exact H|]. intros e' [<-|[]]. apply ty_tuple. repeat constructor; assumption.
  - cbn [reps] in Hv. apply in_map_iff in Hv. destruct Hv as [r [<- Hr]]. destruct (IHF r Hr) as [e [<- T]].
    exists (ERepeat e n). split; [reflexivity|now apply ty_repeat].
  - rewrite reps_slice_ref in Hv. destruct Hv as [<-|Hr].
    + exists (ECall false [tx "Vec"; tx "leak"] [ECall false [tx "Vec"; tx "new"] []]). split; [reflexivity|]. apply ty_leak. apply ty_vec_new.
    + apply in_map_iff in Hr. destruct Hr as [s [<- Hs]]. destruct (IHF s Hs) as [e [<- T]].
      exists (ECall false [tx "Vec"; tx "leak"] [EVecMacro [e]]). split; [reflexivity|].
      apply ty_leak. apply ty_vec. now intros e' [<-|[]].
  - pose proof (fits_sized t F) as U. rewrite reps_ref in Hv.
    + apply in_map_iff in Hv. destruct Hv as [r [<- Hr]]. destruct (IHF r Hr) as [e [<- T]].
      exists (EAddr e). split; [reflexivity|now apply ty_addr].
    + intros ->. apply U. now left.
    + intros e ->. apply U. right. eauto.
  - pose proof (fits_sized t F) as U. rewrite reps_mut in Hv.
    + apply in_map_iff in Hv. destruct Hv as [r [<- Hr]]. destruct (IHF r Hr) as [e [<- T]].
      exists (ECall false [tx "Box"; tx "leak"] [ECall false [tx "Box"; tx "new"] [e]]). split; [reflexivity|].
      apply ty_box_leak. apply ty_new; auto. constructor.
    + intros e ->. apply U. right. eauto.
  - cbn [reps] in Hv. apply in_map_iff in Hv. destruct Hv as [vs [<- Hvs]]. apply multi_product_in in Hvs.
    destruct (Forall2_good errs ts vs) as [es [E T]].
    { clear - Hvs H1. revert vs Hvs H1. induction ts as [|t ts IH]; intros vs Hvs H1; inversion Hvs; subst; constructor.
      - apply H1; [now left|assumption].
      - apply IH; [assumption|]. intros u Hu. apply H1. now right. }
    exists (ETuple es). split; [|now apply ty_tuple]. cbn [etoks]. unfold q_tuple, paren. rewrite <- E.
    pose proof (Forall2_len _ _ _ T) as L. destruct es as [|a [|b es]]; try reflexivity. exfalso. apply H. now rewrite <- L.
  - rewrite reps_impl, (iterator_item_some errs bs t H) in Hv.
    assert (exists rest, In (BTrait (tx "Iterator") (Some (GAssoc (tx "Item") t :: rest))) bs) as [rest Hb].
    { clear - H. induction H as [t rest bs|b bs t N _ [rest H]]; [exists rest; now left|exists rest; now right]. }
    destruct Hv as [<-|Hv].
    + exists (ECall true [tx "std"; tx "iter"; tx "empty"] []). split; [reflexivity|]. now apply (ty_empty errs bs rest _ t Hb).
    + apply in_map_iff in Hv. destruct Hv as [r [<- Hr]]. destruct (IHF r Hr) as [e [<- T]].
      exists (ECall true [tx "std"; tx "iter"; tx "once"] [e]). split; [reflexivity|]. now apply (ty_once errs bs rest _ t e Hb).
  - destruct Hv.
  - rewrite (reps_unknown errs t H) in Hv. destruct Hv as [<-|[]].
    exists (ECall false [tx "Default"; tx "default"] []). split; [reflexivity|now apply ty_default].
Qed.

(** ** Types for which they are not *)
Lemma snoc_not_single : forall (e : expr) c w, etoks e ++ [Punct c] <> [Word w].
Proof.
  intros e c w H. destruct (etoks e) as [|x l]; [discriminate|]. injection H as _ H. destruct l; discriminate.
Qed.
Lemma one_tuple_bad : forall errs, ~ good errs (TTuple [named "u8"]) [Group Paren [Word (tx "0")]].
Proof.
  intros errs [e [E T]]. remember (TTuple [named "u8"]) as t eqn:Et. destruct T; try discriminate Et.
  - injection Et as ->. inversion H as [|x t es' ts' Tx F']; subst. inversion F'; subst. cbn [etoks] in E. injection E as E. now apply snoc_not_single in E.
  - subst. inversion H.
Qed.
Lemma int_literal_bad : forall errs w, ~ In (tx w) (map tx int_names) -> ~ In (tx w) (map tx float_names) ->
  ~ good errs (named w) [Word (tx "1")].
Proof.
  intros errs w N1 N2 [e [E T]]. remember (named w) as t eqn:Et. destruct T; try discriminate Et; try discriminate E.
  - injection Et as Et. apply N1. rewrite <- Et. now apply in_map.
  - injection Et as Et. apply N2. rewrite <- Et. now apply in_map.
  - apply (f_equal (@length tree)) in E. cbn [etoks] in E. rewrite app_length in E. cbn in E. lia.
Qed.
Lemma box_str_bad : forall errs l p v, ~ good errs (generic l p "Box" [GType (named "str")]) v.
Proof.
  intros errs l p v [e [E T]]. remember (generic l p "Box" [GType (named "str")]) as t eqn:Et. destruct T; try discriminate Et.
  - unfold generic in Et. injection Et as _ _ _ ->. apply H0. now left.
  - destruct H; discriminate Et.
  - destruct H; discriminate Et.
  - rewrite Et in H. inversion H.
Qed.
Lemma mut_str_bad : forall errs v, ~ good errs (TRef true (named "str")) v.
Proof.
  intros errs v [e [E T]]. remember (TRef true (named "str")) as t eqn:Et. destruct T; try discriminate Et.
  - injection Et as ->. eapply (box_str_bad errs false []). exists e. split; [reflexivity|exact T].
  - rewrite Et in H. inversion H.
Qed.
Lemma string_not_copy : ~ copy (named "String").
Proof.
  intro C. remember (named "String") as t eqn:Et. destruct C; try discriminate Et;
    cbn in H; repeat (destruct H as [<-|H]; [discriminate Et|]); destruct H.
Qed.
Lemma array_string_bad : forall errs n v, ~ good errs (TArray (named "String") n) v.
Proof.
  intros errs n v [e [E T]]. remember (TArray (named "String") n) as t eqn:Et. destruct T; try discriminate Et.
  - injection Et as -> ->. now apply string_not_copy.
  - rewrite Et in H. inversion H.
Qed.
Lemma nonzero_bad : forall errs, ~ good errs (named "NonZeroU8") [Word (tx "1")].
Proof.
  intros errs. apply int_literal_bad.
  - cbn. intuition discriminate.
  - cbn. intuition discriminate.
Qed.
