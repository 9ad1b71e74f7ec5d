(** Common text library.

    A [text] models a Rust [str]/[String] as its sequence of Unicode scalar
    values ([char]s).  All string operations used by the modelled code are
    defined on this type.  (Rust std behaviour, no /repo lines: these model the
    standard library functions named in each comment.) *)
From Coq Require Import List PArith NArith Bool Lia Ascii String.
Import ListNotations.
Open Scope list_scope.
#[global] Arguments N.modulo : simpl never.
#[global] Arguments N.div : simpl never.

Definition chr := N.
Definition text := list chr.

(** Literals: [tx "abc"] is the text of an ASCII literal. *)
Definition tx (s : string) : text := map N_of_ascii (list_ascii_of_string s).

Arguments tx _%string_scope.

Definition NL : chr := 10%N.     (* '\n' *)
Definition CR : chr := 13%N.     (* '\r' *)
Definition TAB : chr := 9%N.     (* '\t' *)
Definition SP : chr := 32%N.     (* ' ' *)
Definition SLASH : chr := 47%N.  (* '/' *)
Definition BSLASH : chr := 92%N. (* '\\' *)
Definition DOT : chr := 46%N.    (* '.' *)
Definition USCORE : chr := 95%N. (* '_' *)
Definition COLON : chr := 58%N.  (* ':' *)
Definition QUOTE : chr := 34%N.  (* double quote *)
Definition APOS : chr := 39%N.   (* '\'' *)

(** [str == str]. *)
Fixpoint text_eqb (a b : text) : bool :=
  match a, b with
  | [], [] => true
  | x :: a', y :: b' => N.eqb x y && text_eqb a' b'
  | _, _ => false
  end.

Lemma text_eqb_eq : forall a b, text_eqb a b = true <-> a = b.
Proof.
  induction a as [|x a IH]; destruct b as [|y b]; simpl; split; intro H;
    try discriminate; auto.
  - apply andb_true_iff in H. destruct H as [H1 H2].
    apply N.eqb_eq in H1. apply IH in H2. now subst.
  - inversion H; subst. rewrite N.eqb_refl. simpl. now apply IH.
Qed.

Lemma text_eqb_refl : forall a, text_eqb a a = true.
Proof. intro a. now apply text_eqb_eq. Qed.

Lemma text_eqb_neq : forall a b, text_eqb a b = false <-> a <> b.
Proof.
  intros a b. split; intro H.
  - intro E. apply text_eqb_eq in E. congruence.
  - destruct (text_eqb a b) eqn:E; auto. apply text_eqb_eq in E. contradiction.
Qed.

Definition text_dec (a b : text) : {a = b} + {a <> b} := list_eq_dec N.eq_dec a b.

(** Membership as a boolean: [Vec<String>::contains] / [HashSet::contains]. *)
Definition mem_text (x : text) (l : list text) : bool := existsb (text_eqb x) l.

Lemma mem_text_in : forall x l, mem_text x l = true <-> In x l.
Proof.
  intros x l. unfold mem_text. rewrite existsb_exists. split.
  - intros [y [H1 H2]]. apply text_eqb_eq in H2. now subst.
  - intro H. exists x. split; auto. apply text_eqb_refl.
Qed.

Lemma mem_text_false : forall x l, mem_text x l = false <-> ~ In x l.
Proof.
  intros x l. rewrite <- mem_text_in. destruct (mem_text x l); split; intro H;
    try congruence; exfalso; apply H; reflexivity.
Qed.

(** [str::starts_with] *)
Fixpoint starts_with (p s : text) : bool :=
  match p, s with
  | [], _ => true
  | x :: p', y :: s' => N.eqb x y && starts_with p' s'
  | _ :: _, [] => false
  end.

Lemma starts_with_iff : forall p s, starts_with p s = true <-> exists r, s = p ++ r.
Proof.
  induction p as [|x p IH]; intros s; simpl.
  - split; eauto.
  - destruct s as [|y s].
    + split; [discriminate|]. intros [r H]. discriminate.
    + rewrite andb_true_iff, N.eqb_eq, IH. split.
      * intros [-> [r ->]]. eauto.
      * intros [r H]. inversion H. eauto.
Qed.

(** [str::ends_with] *)
Definition ends_with (p s : text) : bool := starts_with (rev p) (rev s).

(** [str::split_once(c)] *)
Fixpoint split_once (c : chr) (s : text) : option (text * text) :=
  match s with
  | [] => None
  | x :: s' =>
      if N.eqb x c then Some ([], s')
      else match split_once c s' with
           | Some (a, b) => Some (x :: a, b)
           | None => None
           end
  end.

Lemma split_once_some : forall c s a b,
  split_once c s = Some (a, b) <-> s = a ++ c :: b /\ ~ In c a.
Proof.
  induction s as [|x s IH]; intros a b; simpl.
  - split; [discriminate|]. intros [H _]. destruct a; discriminate.
  - destruct (N.eqb_spec x c) as [->|Hne].
    + split.
      * intro H. inversion H; subst. simpl. auto.
      * intros [H1 H2]. destruct a as [|y a]; simpl in H1; inversion H1; subst; auto.
        exfalso. apply H2. now left.
    + destruct (split_once c s) as [[a' b']|] eqn:E.
      * split.
        -- intro H. inversion H; subst.
           destruct (proj1 (IH a' b) eq_refl) as [-> Hn]. simpl. split; auto.
           intros [E1|E1]; auto.
        -- intros [H1 H2]. destruct a as [|y a]; simpl in H1; inversion H1; subst;
             try congruence.
           assert (Some (a', b') = Some (a, b)) as E2.
           { apply IH. split; auto. intro; apply H2; now right. }
           inversion E2; subst; auto.
      * split; [discriminate|]. intros [H1 H2].
        destruct a as [|y a]; simpl in H1; inversion H1; subst; try congruence.
        exfalso. assert (None = Some (a, b)) as E2.
        { apply IH. split; auto. intro; apply H2; now right. }
        discriminate.
Qed.

Lemma split_once_none : forall c s, split_once c s = None <-> ~ In c s.
Proof.
  induction s as [|x s IH]; simpl.
  - split; auto.
  - destruct (N.eqb_spec x c) as [->|Hne].
    + split; [discriminate|]. intro H. exfalso; auto.
    + destruct (split_once c s) as [[a b]|] eqn:E.
      * split; [discriminate|]. intro H. exfalso.
        assert (Some (a, b) = None) as E2 by (apply IH; auto). discriminate.
      * split; auto. intros _ [E1|E1]; auto. now apply IH in E1.
Qed.

(** [str::split(c)]: always at least one piece. *)
Fixpoint split_on (c : chr) (s : text) : list text :=
  match s with
  | [] => [[]]
  | x :: s' =>
      if N.eqb x c then [] :: split_on c s'
      else match split_on c s' with
           | w :: ws => (x :: w) :: ws
           | [] => [[x]]
           end
  end.

(** [slice.join(sep)] / [Itertools::join] *)
Fixpoint join (sep : text) (l : list text) : text :=
  match l with
  | [] => []
  | [a] => a
  | a :: l' => a ++ sep ++ join sep l'
  end.

Lemma split_on_nonempty : forall c s, split_on c s <> [].
Proof.
  intros c s. destruct s as [|x s]; simpl; try discriminate.
  destruct (N.eqb x c); try discriminate. destruct (split_on c s); discriminate.
Qed.

Lemma join_cons : forall sep a l, l <> [] -> join sep (a :: l) = a ++ sep ++ join sep l.
Proof. intros sep a l H. destruct l; [congruence|reflexivity]. Qed.

Lemma join_split_on : forall c s, join [c] (split_on c s) = s.
Proof.
  induction s as [|x s IH]; simpl; auto.
  destruct (N.eqb_spec x c) as [->|Hne].
  - rewrite join_cons by apply split_on_nonempty. rewrite IH. reflexivity.
  - destruct (split_on c s) as [|w ws] eqn:E; [now apply split_on_nonempty in E|].
    destruct ws; simpl in *; now rewrite <- IH.
Qed.

Lemma split_on_pieces : forall c s w, In w (split_on c s) -> ~ In c w.
Proof.
  induction s as [|x s IH]; intros w H.
  - simpl in H. destruct H as [<-|[]]; auto.
  - simpl in H. destruct (N.eqb_spec x c) as [->|Hne].
    + destruct H as [<-|H]; auto.
    + destruct (split_on c s) as [|v vs] eqn:E.
      * destruct H as [<-|[]]. simpl. intros [E1|[]]; auto.
      * destruct H as [<-|H].
        -- intros [E1|E1]; auto. now apply (IH v (or_introl eq_refl)).
        -- apply IH. now right.
Qed.

Lemma split_on_app_sep : forall c a b, ~ In c a ->
  split_on c (a ++ c :: b) = a :: split_on c b.
Proof.
  induction a as [|x a IH]; intros b H; simpl.
  - now rewrite N.eqb_refl.
  - destruct (N.eqb_spec x c) as [->|Hne].
    + exfalso. apply H. now left.
    + rewrite IH; auto. intro. apply H. now right.
Qed.

Lemma split_on_none : forall c a, ~ In c a -> split_on c a = [a].
Proof.
  induction a as [|x a IH]; intros H; simpl; auto.
  destruct (N.eqb_spec x c) as [->|Hne].
  - exfalso. apply H. now left.
  - rewrite IH; auto. intro. apply H. now right.
Qed.

Lemma split_on_join : forall c l, l <> [] -> (forall w, In w l -> ~ In c w) ->
  split_on c (join [c] l) = l.
Proof.
  induction l as [|a l IH]; intros H0 H; [congruence|].
  destruct l as [|b l].
  - simpl. apply split_on_none. apply H. now left.
  - rewrite join_cons by discriminate. simpl app.
    rewrite split_on_app_sep by (apply H; now left).
    f_equal. apply IH; [discriminate|]. intros w Hw. apply H. now right.
Qed.

(** [str::lines]: split at each '\n', the terminator optional on the last
    line; a "\r" directly before a '\n' is removed too, a "\r" at the end of an
    unterminated last line is kept (Rust std documentation). *)
Definition strip_cr (s : text) : text :=
  match rev s with
  | x :: r => if N.eqb x CR then rev r else s
  | [] => s
  end.

Fixpoint lines_aux (acc : text) (s : text) : list text :=
  match s with
  | [] => match acc with [] => [] | _ => [acc] end
  | x :: s' =>
      if N.eqb x NL then strip_cr acc :: lines_aux [] s'
      else lines_aux (acc ++ [x]) s'
  end.

Definition lines (s : text) : list text := lines_aux [] s.

Lemma lines_aux_line : forall a acc b, ~ In NL a ->
  lines_aux acc (a ++ NL :: b) = strip_cr (acc ++ a) :: lines b.
Proof.
  induction a as [|x a IH]; intros acc b H; simpl.
  - now rewrite app_nil_r.
  - destruct (N.eqb_spec x NL) as [->|Hne].
    + exfalso. apply H. now left.
    + rewrite IH; [|intro; apply H; now right]. now rewrite <- app_assoc.
Qed.

Lemma lines_line : forall a b, ~ In NL a ->
  lines (a ++ NL :: b) = strip_cr a :: lines b.
Proof. intros a b H. unfold lines. now rewrite lines_aux_line. Qed.

Lemma strip_cr_id : forall a, (forall b, a <> b ++ [CR]) -> strip_cr a = a.
Proof.
  intros a H. unfold strip_cr. destruct (rev a) as [|x r] eqn:E; auto.
  destruct (N.eqb_spec x CR) as [->|Hne]; auto.
  exfalso. apply (H (rev r)). rewrite <- (rev_involutive a), E. reflexivity.
Qed.

Lemma strip_cr_crlf : forall a, strip_cr (a ++ [CR]) = a.
Proof.
  intros a. unfold strip_cr. rewrite rev_unit. rewrite N.eqb_refl.
  apply rev_involutive.
Qed.

(** ASCII digits, and decimal formatting of unsigned integers ([{}] on usize). *)
Definition is_digit (c : chr) : bool := (N.leb 48 c && N.leb c 57)%N.

Definition digit_val (c : chr) : N := (c - 48)%N.

Definition parse_digits (s : text) : N := fold_left (fun a c => (a * 10 + digit_val c)%N) s 0%N.

Fixpoint show_aux (fuel : nat) (n : N) (acc : text) : text :=
  match fuel with
  | O => acc
  | S f =>
      let acc' := ((n mod 10) + 48)%N :: acc in
      if (n <? 10)%N then acc' else show_aux f (n / 10)%N acc'
  end.

(** Decimal rendering of an unsigned integer; [N.size_nat n] digits suffice. *)
Definition show_N (n : N) : text := show_aux (S (N.size_nat n)) n [].

Definition show_nat (n : nat) : text := show_N (N.of_nat n).

Lemma show_aux_app : forall f n acc, show_aux f n acc = show_aux f n [] ++ acc.
Proof.
  induction f as [|f IH]; intros n acc; simpl; auto.
  destruct (n <? 10)%N; auto.
  rewrite IH, (IH _ [_]), <- app_assoc. reflexivity.
Qed.

Lemma size_nat_div10 : forall n, (10 <= n)%N -> (N.size_nat (n / 10) < N.size_nat n)%nat.
Proof.
  intros n H.
  assert (Hs : forall m, N.size_nat m = N.to_nat (N.size m)).
  { intros [|p]; [reflexivity|].
    assert (Hp : forall q, Pos.size_nat q = Pos.to_nat (Pos.size q)).
    { induction q; simpl; try rewrite IHq; try rewrite Pos2Nat.inj_succ; reflexivity. }
    simpl. apply Hp. }
  rewrite !Hs.
  assert (H1 : (n / 10 < n)%N) by (apply N.div_lt; lia).
  assert (H2 : (n / 10 <> 0)%N).
  { intro E. apply N.div_small_iff in E; lia. }
  rewrite !N.size_log2 by lia.
  assert (H3 : (2 * (n / 10) <= n)%N).
  { pose proof (N.mul_div_le n 10 ltac:(lia)). lia. }
  assert (H4 : (N.log2 (2 * (n / 10)) <= N.log2 n)%N) by (apply N.log2_le_mono; lia).
  rewrite N.log2_double in H4 by (now apply N.neq_0_lt_0). lia.
Qed.

Lemma parse_digits_app : forall a b,
  parse_digits (a ++ b) = fold_left (fun x c => (x * 10 + digit_val c)%N) b (parse_digits a).
Proof. intros. unfold parse_digits. now rewrite fold_left_app. Qed.

Lemma show_aux_parse : forall f n, (N.size_nat n < f)%nat -> parse_digits (show_aux f n []) = n.
Proof.
  induction f as [|f IH]; intros n H; [lia|].
  simpl. destruct (N.ltb_spec n 10) as [Hlt|Hge].
  - unfold parse_digits, digit_val. simpl. rewrite N.mod_small by lia. lia.
  - rewrite show_aux_app, parse_digits_app, IH.
    + unfold digit_val. cbn [fold_left].
      rewrite N.add_sub.
      pose proof (N.div_mod n 10 ltac:(lia)). lia.
    + pose proof (size_nat_div10 n Hge). lia.
Qed.

Lemma parse_show_N : forall n, parse_digits (show_N n) = n.
Proof. intro n. unfold show_N. apply show_aux_parse. lia. Qed.

Lemma show_N_inj : forall n m, show_N n = show_N m -> n = m.
Proof. intros n m H. rewrite <- (parse_show_N n), <- (parse_show_N m). now rewrite H. Qed.

Lemma show_aux_digits : forall f n acc, forallb is_digit acc = true ->
  forallb is_digit (show_aux f n acc) = true.
Proof.
  induction f as [|f IH]; intros n acc H; simpl; auto.
  assert (Hd : forallb is_digit ((n mod 10 + 48)%N :: acc) = true).
  { simpl. rewrite H, andb_true_r. unfold is_digit.
    pose proof (N.mod_lt n 10 ltac:(lia)) as Hm.
    remember (n mod 10)%N as m eqn:Em. clear Em.
    apply andb_true_iff; split; apply N.leb_le; lia. }
  destruct (n <? 10)%N; auto.
Qed.

Lemma show_N_digits : forall n, forallb is_digit (show_N n) = true.
Proof. intro n. unfold show_N. now apply show_aux_digits. Qed.

Lemma show_N_nonempty : forall n, show_N n <> [].
Proof.
  intros n. unfold show_N. simpl. destruct (n <? 10)%N; [discriminate|].
  rewrite show_aux_app. intro E. apply app_eq_nil in E. destruct E; discriminate.
Qed.

Lemma show_nat_inj : forall n m, show_nat n = show_nat m -> n = m.
Proof. intros n m H. apply show_N_inj in H. lia. Qed.

Lemma is_digit_not : forall s c, forallb is_digit s = true -> is_digit c = false -> ~ In c s.
Proof.
  intros s c H Hc Hin. rewrite forallb_forall in H. apply H in Hin. congruence.
Qed.
