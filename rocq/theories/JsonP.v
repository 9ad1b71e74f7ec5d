(** Proofs about JSON. *)
From Coq Require Import String List NArith ZArith Bool Arith Lia Permutation Sorted.
From Verif Require Import Text SpanM PathM MutantM ProcessM OutcomeM JsonM JsonS.
Import ListNotations.
Open Scope list_scope.

(** * Strings *)
Lemma hex_back : forall n, (n < 16)%N -> hex_value (hex_digit n) = Some n.
Proof.
  intros n H. assert (E : In n (map N.of_nat (seq 0 16))).
  { replace n with (N.of_nat (N.to_nat n)) by lia. apply in_map. apply in_seq. lia. }
  cbn in E. repeat (destruct E as [<-|E]; [reflexivity|]). destruct E.
Qed.

Lemma read_escape : forall c r, read_chars (escape c ++ r) = more c (read_chars r).
Proof.
  intros c r. unfold escape.
  destruct (N.eqb_spec c QUOTE) as [->|N1]; [reflexivity|]. destruct (N.eqb_spec c BSLASH) as [->|N2]; [reflexivity|].
  destruct (N.eqb_spec c 8%N) as [->|N3]; [reflexivity|]. destruct (N.eqb_spec c TAB) as [->|N4]; [reflexivity|].
  destruct (N.eqb_spec c NL) as [->|N5]; [reflexivity|]. destruct (N.eqb_spec c 12%N) as [->|N6]; [reflexivity|].
  destruct (N.eqb_spec c CR) as [->|N7]; [reflexivity|]. destruct (N.ltb_spec c 32) as [L|L].
  - cbn [app read_chars]. change (N.eqb BSLASH 34) with false. change (N.eqb BSLASH 92) with true. change (N.eqb 117 117) with true. cbn iota.
    unfold hex4. change (hex_value 48%N) with (Some 0%N). cbn iota.
    assert (D : (c / 16 < 16)%N) by (apply N.div_lt_upper_bound; lia). assert (M : (c mod 16 < 16)%N) by (apply N.mod_lt; lia).
    rewrite (hex_back _ D), (hex_back _ M). replace (((0 * 16 + 0) * 16 + c / 16) * 16 + c mod 16)%N with c by (pose proof (N.div_mod c 16 ltac:(lia)); lia).
    destruct (N.leb_spec 55296 c); [lia|]. reflexivity.
  - cbn [app read_chars]. destruct (N.eqb_spec c 34%N); [contradiction|]. destruct (N.eqb_spec c 92%N); [contradiction|].
    destruct (N.ltb_spec c 32); [lia|]. reflexivity.
Qed.

Lemma read_string : forall s r, read_chars (flat_map escape s ++ QUOTE :: r) = Some (s, r).
Proof.
  induction s as [|c s IH]; intro r; [reflexivity|]. cbn [flat_map]. rewrite <- app_assoc, read_escape, IH. reflexivity.
Qed.

(** * Numbers *)
Lemma digit_char : forall c, is_digit c = true -> number_char c = true.
Proof. intros c H. unfold number_char. rewrite H. reflexivity. Qed.
Lemma digits_chars : forall k s, (forall t, k t = true -> forallb number_char t = true) -> digits_then k s = true -> forallb number_char s = true.
Proof.
  intros k s K. induction s as [|c s IH]; cbn [digits_then forallb]; intro H; [reflexivity|].
  destruct (is_digit c) eqn:D; [rewrite (digit_char _ D); auto|]. exact (K _ H).
Qed.
Lemma some_digits_chars : forall k s, (forall t, k t = true -> forallb number_char t = true) -> some_digits_then k s = true -> forallb number_char s = true.
Proof.
  intros k s K H. destruct s as [|c s]; [discriminate|]. cbn [some_digits_then forallb] in *. apply andb_true_iff in H. destruct H as [D H].
  rewrite (digit_char _ D). exact (digits_chars _ _ K H).
Qed.
Lemma exponent_chars : forall s, exponent s = true -> forallb number_char s = true.
Proof.
  intros [|e s] H; [reflexivity|]. cbn [exponent forallb] in *. apply andb_true_iff in H. destruct H as [E H].
  assert (Z : forall t, at_end t = true -> forallb number_char t = true) by (intros [|? ?]; [reflexivity|discriminate]).
  assert (Ne : number_char e = true) by (unfold number_char; apply orb_true_iff in E; destruct E as [-> | ->]; rewrite ?orb_true_r; reflexivity).
  rewrite Ne. destruct s as [|c s]; [discriminate|]. destruct (N.eqb c 43 || N.eqb c 45) eqn:C; [|exact (some_digits_chars _ _ Z H)].
  cbn [forallb]. apply some_digits_chars in H; [|exact Z]. rewrite H. unfold number_char. apply orb_true_iff in C. destruct C as [-> | ->]; rewrite ?orb_true_r; reflexivity.
Qed.
Lemma fraction_chars : forall s, fraction s = true -> forallb number_char s = true.
Proof.
  intros [|c s] H; [reflexivity|]. cbn [fraction] in H. destruct (N.eqb_spec c 46%N) as [->|N1]; [|apply exponent_chars; exact H].
  cbn [forallb]. apply some_digits_chars in H; [|apply exponent_chars]. rewrite H. reflexivity.
Qed.
Lemma integer_chars : forall s, integer s = true -> forallb number_char s = true.
Proof.
  intros [|c s] H; [discriminate|]. cbn [integer forallb] in *. destruct (N.eqb_spec c 48%N) as [->|N1]; [exact (fraction_chars _ H)|].
  apply andb_true_iff in H. destruct H as [D H]. rewrite (digit_char _ D). exact (digits_chars _ _ fraction_chars H).
Qed.
Lemma number_chars : forall s, is_number s = true -> forallb number_char s = true.
Proof.
  intros [|c s] H; [discriminate|]. cbn [is_number] in H. destruct (N.eqb_spec c 45%N) as [->|N1]; [|apply integer_chars; exact H].
  cbn [forallb]. rewrite (integer_chars _ H). reflexivity.
Qed.

Definition stops (r : text) : Prop := match r with [] => True | c :: _ => number_char c = false end.
Lemma span_all : forall t r, forallb number_char t = true -> stops r -> span_number (t ++ r) = (t, r).
Proof.
  induction t as [|c t IH]; intros r H S; cbn [app].
  - destruct r as [|c r]; [reflexivity|]. cbn [span_number]. cbn [stops] in S. rewrite S. reflexivity.
  - cbn [forallb] in H. apply andb_true_iff in H. destruct H as [Hc H]. cbn [span_number]. rewrite Hc, (IH r H S). reflexivity.
Qed.

Lemma show_N_first : forall n, n = 0%N \/ exists c s, show_N n = c :: s /\ c <> 48%N.
Proof.
  intro n. destruct (N.eq_dec n 0) as [->|Nz]; [auto|right]. unfold show_N.
  assert (G : forall f m, (N.size_nat m < f)%nat -> m <> 0%N -> exists c s, show_aux f m [] = c :: s /\ c <> 48%N).
  { induction f as [|f IH]; intros m L Z; [lia|]. cbn [show_aux]. destruct (N.ltb_spec m 10) as [Lt|Ge].
    - eexists. eexists. split; [reflexivity|]. rewrite N.mod_small by lia. lia.
    - rewrite show_aux_app. destruct (IH (m / 10)%N) as (c & s & E & C).
      + pose proof (size_nat_div10 m Ge). lia.
      + intro E. apply N.div_small_iff in E; lia.
      + rewrite E. exists c. eexists. split; [reflexivity|exact C]. }
  apply G; [lia|exact Nz].
Qed.

Lemma digits_all : forall s, forallb is_digit s = true -> digits_then fraction s = true.
Proof. induction s as [|c s IH]; intro H; [reflexivity|]. cbn [forallb digits_then] in *. apply andb_true_iff in H. destruct H as [-> H]. auto. Qed.

Lemma show_N_integer : forall n, integer (show_N n) = true.
Proof.
  intro n. destruct (show_N_first n) as [->|(c & s & E & C)]; [reflexivity|]. pose proof (show_N_digits n) as D. rewrite E in *. cbn [integer forallb] in *.
  apply N.eqb_neq in C. rewrite C. apply andb_true_iff in D. destruct D as [-> D]. exact (digits_all _ D).
Qed.
Lemma show_N_number : forall n, is_number (show_N n) = true.
Proof.
  intro n. pose proof (show_N_integer n) as I. destruct (show_N n) as [|c s] eqn:E; [discriminate|]. cbn [is_number].
  destruct (N.eqb_spec c 45%N) as [->|N1]; [|exact I]. pose proof (show_N_digits n) as D. rewrite E in D. discriminate.
Qed.
Lemma show_Z_number : forall z, is_number (show_Z z) = true.
Proof. intros [|p|p]; [reflexivity|apply show_N_number|]. cbn [show_Z app tx]. apply show_N_integer. Qed.

(** * Values *)
Section Induction.
Context (P : json -> Prop) (Hnull : P JNull) (Hnum : forall t, P (JNum t)) (Hstr : forall s, P (JStr s))
  (Harr : forall l, Forall P l -> P (JArr l)) (Hobj : forall l, Forall (fun kx => P (snd kx)) l -> P (JObj l)).
Fixpoint json_induction (v : json) : P v :=
  match v return P v with
  | JNull => Hnull
  | JNum t => Hnum t
  | JStr s => Hstr s
  | JArr l => Harr l ((fix go l : Forall P l := match l with [] => Forall_nil _ | x :: l' => Forall_cons _ (json_induction x) (go l') end) l)
  | JObj l => Hobj l ((fix go l : Forall (fun kx => P (snd kx)) l :=
      match l with [] => Forall_nil _ | kx :: l' => Forall_cons _ (json_induction (snd kx)) (go l') end) l)
  end.
End Induction.

Fixpoint cost (v : json) : nat :=
  match v with
  | JArr l => S (list_sum (map (fun x => S (cost x)) l))
  | JObj l => S (list_sum (map (fun kx => S (cost (snd kx))) l))
  | _ => 1
  end.

Lemma skip_repeat : forall n s, skip_space (repeat SP n ++ s) = skip_space s.
Proof. induction n as [|n IH]; intro s; [reflexivity|]. cbn [repeat app skip_space]. apply IH. Qed.
Lemma skip_line : forall d s, skip_space (new_line d ++ s) = skip_space s.
Proof. intros d s. unfold new_line. cbn [app skip_space]. apply skip_repeat. Qed.
Lemma stops_line : forall d s, stops (new_line d ++ s).
Proof. intros d s. reflexivity. Qed.

Lemma first_char : forall d v r, numbers_ok v = true -> exists c s, pretty_json d v ++ r = c :: s /\ json_space c = false /\ c <> 93%N /\ c <> 125%N.
Proof.
  intros d v r H. destruct v as [|t|s|l|l].
  - exists 110%N. eexists. split; [reflexivity|]. repeat split; discriminate.
  - cbn [numbers_ok] in H. pose proof (number_chars _ H) as C. destruct t as [|c t]; [discriminate|]. exists c, (t ++ r). split; [reflexivity|].
    cbn [forallb] in C. apply andb_true_iff in C. destruct C as [C _].
    repeat split; [|intros ->; discriminate|intros ->; discriminate].
    unfold json_space. destruct (N.eqb_spec c 32%N) as [->|]; [discriminate|]. destruct (N.eqb_spec c 9%N) as [->|]; [discriminate|].
    destruct (N.eqb_spec c 10%N) as [->|]; [discriminate|]. destruct (N.eqb_spec c 13%N) as [->|]; [discriminate|]. reflexivity.
  - exists 34%N. eexists. split; [reflexivity|]. repeat split; discriminate.
  - exists 91%N. destruct l; eexists; (split; [reflexivity|]); repeat split; discriminate.
  - exists 123%N. destruct l; eexists; (split; [reflexivity|]); repeat split; discriminate.
Qed.
Lemma skip_first : forall d v r, numbers_ok v = true -> skip_space (pretty_json d v ++ r) = pretty_json d v ++ r.
Proof. intros d v r H. destruct (first_char d v r H) as (c & s & E & C & _). rewrite E. cbn [skip_space]. rewrite C. reflexivity. Qed.

Lemma join_more : forall (f : json -> text) x l, join (tx ",") (map f (x :: l)) = f x ++ match l with [] => [] | _ => tx "," ++ join (tx ",") (map f l) end.
Proof. intros f x [|y l]; cbn [map join]; [rewrite app_nil_r|]; reflexivity. Qed.
Lemma join_more2 : forall (f : text * json -> text) x l, join (tx ",") (map f (x :: l)) = f x ++ match l with [] => [] | _ => tx "," ++ join (tx ",") (map f l) end.
Proof. intros f x [|y l]; cbn [map join]; [rewrite app_nil_r|]; reflexivity. Qed.

Definition reads_back (v : json) : Prop := forall d fuel r s, numbers_ok v = true -> cost v <= fuel -> stops r ->
  skip_space s = pretty_json d v ++ r -> read_value fuel s = Some (v, r).

Lemma items_back : forall l d fuel r, Forall reads_back l -> l <> [] -> forallb numbers_ok l = true ->
  list_sum (map (fun x => S (cost x)) l) <= fuel ->
  read_items fuel (join (tx ",") (map (fun x => new_line (S d) ++ pretty_json (S d) x) l) ++ new_line d ++ tx "]" ++ r) = Some (l, r).
Proof.
  induction l as [|x l IH]; intros d fuel r F NE Nu Le; [congruence|].
  inversion F as [|a b Fx Fl]; subst. cbn [map list_sum forallb] in Nu, Le. apply andb_true_iff in Nu. destruct Nu as [Nx Nl].
  destruct fuel as [|fuel]; [cbn in Le; lia|]. rewrite join_more. rewrite <- !app_assoc. cbn [read_items].
  assert (Lx : cost x <= fuel) by (cbn in Le; lia).
  destruct l as [|y l].
  - rewrite (Fx (S d) fuel (new_line d ++ tx "]" ++ r)); [|exact Nx|exact Lx|apply stops_line|rewrite skip_line; apply skip_first; exact Nx].
    rewrite skip_line. reflexivity.
  - rewrite <- app_assoc.
    match goal with |- context [read_value fuel (new_line (S d) ++ pretty_json (S d) x ++ ?r0)] => 
      rewrite (Fx (S d) fuel r0 (new_line (S d) ++ pretty_json (S d) x ++ r0) Nx Lx); [|reflexivity|rewrite skip_line; apply skip_first; exact Nx] end.
    change (tx ",") with [44%N]. cbn [app skip_space].
    change (json_space 44%N) with false. cbn iota. change (N.eqb 44 44) with true. cbn iota.
    pose proof (IH d fuel r Fl ltac:(discriminate) Nl) as I.
    match type of I with _ -> ?a = _ => match goal with |- match ?t with _ => _ end = _ => change t with a end end. rewrite I; [reflexivity|]. cbn in Le |- *. lia.
Qed.

Lemma members_back : forall l d fuel r, Forall (fun kx => reads_back (snd kx)) l -> l <> [] -> forallb (fun kx => numbers_ok (snd kx)) l = true ->
  list_sum (map (fun kx => S (cost (snd kx))) l) <= fuel ->
  read_members fuel (join (tx ",") (map (fun kx => new_line (S d) ++ json_string (fst kx) ++ tx ": " ++ pretty_json (S d) (snd kx)) l)
    ++ new_line d ++ tx "}" ++ r) = Some (l, r).
Proof.
  induction l as [|[k x] l IH]; intros d fuel r F NE Nu Le; [congruence|].
  inversion F as [|a b Fx Fl]; subst. cbn [snd] in Fx. cbn [map list_sum forallb fst snd] in Nu, Le. apply andb_true_iff in Nu. destruct Nu as [Nx Nl].
  destruct fuel as [|fuel]; [cbn in Le; lia|]. rewrite join_more2. cbn [fst snd]. unfold json_string at 1. rewrite <- !app_assoc. cbn [read_members].
  assert (Lx : cost x <= fuel) by (cbn in Le; lia).
  rewrite skip_line. cbn [app skip_space]. change (json_space QUOTE) with false. cbn iota. change (N.eqb QUOTE 34) with true. cbn iota.
  rewrite <- !app_assoc. cbn [app]. rewrite read_string. change (tx ": ") with [58%N; 32%N]. cbn [app skip_space]. change (json_space 58%N) with false. cbn iota.
  change (N.eqb 58 58) with true. cbn iota.
  destruct l as [|y l].
  - rewrite (Fx (S d) fuel (new_line d ++ tx "}" ++ r)); [|exact Nx|exact Lx|apply stops_line|cbn [app skip_space]; apply skip_first; exact Nx].
    rewrite skip_line. reflexivity.
  - rewrite <- ?app_assoc.
    match goal with |- context [read_value fuel ?s0] => match s0 with _ :: pretty_json (S d) x ++ ?r0 =>
      rewrite (Fx (S d) fuel r0 s0 Nx Lx) end end; [|reflexivity|cbn [skip_space]; apply skip_first; exact Nx].
    change (tx ",") with [44%N]. cbn [app skip_space].
    change (json_space 44%N) with false. cbn iota. change (N.eqb 44 44) with true. cbn iota.
    pose proof (IH d fuel r Fl ltac:(discriminate) Nl) as I.
    match type of I with _ -> ?a = _ => match goal with |- match ?t with _ => _ end = _ => change t with a end end. rewrite I; [reflexivity|]. cbn in Le |- *. lia.
Qed.

Lemma all_back : forall v, reads_back v.
Proof.
  apply json_induction.
  - intros d fuel r s _ Le St E. destruct fuel as [|fuel]; [cbn in Le; lia|]. cbn [read_value]. rewrite E. reflexivity.
  - intros t d fuel r s Nu Le St E. destruct fuel as [|fuel]; [cbn in Le; lia|]. cbn [read_value]. rewrite E. cbn [pretty_json numbers_ok] in *.
    pose proof (number_chars _ Nu) as C. destruct t as [|c t]; [discriminate|]. pose proof (span_all (c :: t) r C St) as Sp. cbn [app] in *.
    cbn [forallb] in C. apply andb_true_iff in C. destruct C as [C _].
    destruct (N.eqb_spec c 34%N) as [->|]; [discriminate|]. destruct (N.eqb_spec c 91%N) as [->|]; [discriminate|].
    destruct (N.eqb_spec c 123%N) as [->|]; [discriminate|].
    destruct (starts_with (tx "null") (c :: t ++ r)) eqn:SW.
    { apply starts_with_iff in SW. destruct SW as [q Q]. injection Q as -> _. discriminate. }
    rewrite Sp, Nu. reflexivity.
  - intros t d fuel r s Nu Le St E. destruct fuel as [|fuel]; [cbn in Le; lia|]. cbn [read_value]. rewrite E. cbn [pretty_json]. unfold json_string. cbn [app].
    change (N.eqb QUOTE 34) with true. cbn iota. rewrite <- app_assoc. cbn [app]. rewrite read_string. reflexivity.
  - intros l F d fuel r s Nu Le St E. destruct fuel as [|fuel]; [cbn in Le; lia|]. cbn [read_value]. rewrite E. destruct l as [|x l]; [reflexivity|].
    cbn [numbers_ok cost] in Nu, Le. apply le_S_n in Le.
    change (pretty_json d (JArr (x :: l)) ++ r) with
      (91%N :: (join (tx ",") (map (fun y => new_line (S d) ++ pretty_json (S d) y) (x :: l)) ++ new_line d ++ tx "]") ++ r).
    cbn iota. rewrite <- !app_assoc. change (N.eqb 91 34) with false. change (N.eqb 91 91) with true. cbn iota.
    pose proof (items_back (x :: l) d fuel r F ltac:(discriminate) Nu Le) as I.
    rewrite join_more at 1. rewrite <- !app_assoc. rewrite skip_line. cbn [forallb] in Nu. apply andb_true_iff in Nu. destruct Nu as [Nx _].
    match goal with |- context [skip_space (pretty_json (S d) x ++ ?r0)] => rewrite (skip_first (S d) x r0 Nx); destruct (first_char (S d) x r0 Nx) as (c & q & E1 & _ & C1 & C2) end.
    rewrite E1. apply N.eqb_neq in C1. rewrite C1. rewrite I. reflexivity.
  - intros l F d fuel r s Nu Le St E. destruct fuel as [|fuel]; [cbn in Le; lia|]. cbn [read_value]. rewrite E. destruct l as [|[k x] l]; [reflexivity|].
    cbn [numbers_ok cost] in Nu, Le. apply le_S_n in Le.
    change (pretty_json d (JObj ((k, x) :: l)) ++ r) with
      (123%N :: (join (tx ",") (map (fun kx => new_line (S d) ++ json_string (fst kx) ++ tx ": " ++ pretty_json (S d) (snd kx)) ((k, x) :: l)) ++ new_line d ++ tx "}") ++ r).
    cbn iota. rewrite <- !app_assoc. change (N.eqb 123 34) with false. change (N.eqb 123 91) with false. change (N.eqb 123 123) with true. cbn iota.
    pose proof (members_back ((k, x) :: l) d fuel r F ltac:(discriminate) Nu Le) as I.
    rewrite join_more2 at 1. rewrite <- !app_assoc. rewrite skip_line. unfold json_string at 1. cbn [app skip_space fst]. change (json_space QUOTE) with false. cbn iota.
    change (N.eqb QUOTE 125) with false. cbn iota. rewrite I. reflexivity.
Qed.

Lemma cost_length : forall v d, numbers_ok v = true -> cost v <= length (pretty_json d v).
Proof.
  apply (json_induction (fun v => forall d, numbers_ok v = true -> cost v <= length (pretty_json d v))).
  - intros d _. cbn. lia.
  - intros t d H. cbn [cost pretty_json numbers_ok] in *. destruct t; [discriminate|cbn; lia].
  - intros s d _. cbn. lia.
  - intros l F d H. destruct l as [|x l]; [cbn; lia|]. cbn [cost numbers_ok] in *.
    change (pretty_json d (JArr (x :: l))) with
      (91%N :: (join (tx ",") (map (fun y => new_line (S d) ++ pretty_json (S d) y) (x :: l)) ++ new_line d ++ tx "]")).
    cbn [length]. apply le_n_S. rewrite app_length. apply Nat.le_trans with (length (join (tx ",") (map (fun y => new_line (S d) ++ pretty_json (S d) y) (x :: l)))); [|lia].
    generalize (x :: l) F H. clear x l F H. induction l as [|x l IH]; intros F H; [cbn; lia|]. inversion F as [|a b Fx Fl]; subst.
    cbn [forallb] in H. apply andb_true_iff in H. destruct H as [Hx Hl]. rewrite join_more. cbn [map list_sum].
    change (list_sum (S (cost x) :: map (fun y => S (cost y)) l)) with (S (cost x) + list_sum (map (fun y => S (cost y)) l)).
    rewrite app_length. specialize (Fx (S d) Hx). specialize (IH Fl Hl). rewrite app_length. unfold new_line at 1. cbn [length].
    apply Nat.add_le_mono; [unfold chr in *; lia|].
    destruct l as [|y l]; [cbn; lia|]. etransitivity; [exact IH|]. rewrite app_length. apply Nat.le_add_l.
  - intros l F d H. destruct l as [|x l]; [cbn; lia|]. cbn [cost numbers_ok] in *.
    change (pretty_json d (JObj (x :: l))) with
      (123%N :: (join (tx ",") (map (fun kx => new_line (S d) ++ json_string (fst kx) ++ tx ": " ++ pretty_json (S d) (snd kx)) (x :: l)) ++ new_line d ++ tx "}")).
    cbn [length]. apply le_n_S. rewrite app_length. apply Nat.le_trans with (length (join (tx ",") (map (fun kx => new_line (S d) ++ json_string (fst kx) ++ tx ": " ++ pretty_json (S d) (snd kx)) (x :: l)))); [|lia].
    generalize (x :: l) F H. clear x l F H. induction l as [|x l IH]; intros F H; [cbn; lia|]. inversion F as [|a b Fx Fl]; subst.
    cbn [forallb] in H. apply andb_true_iff in H. destruct H as [Hx Hl]. rewrite join_more2. cbn [map list_sum].
    change (list_sum (S (cost (snd x)) :: map (fun y => S (cost (snd y))) l)) with (S (cost (snd x)) + list_sum (map (fun y => S (cost (snd y))) l)).
    rewrite app_length. specialize (Fx (S d) Hx). specialize (IH Fl Hl). rewrite !app_length. unfold new_line at 1. cbn [length].
    apply Nat.add_le_mono; [unfold chr in *; lia|].
    destruct l as [|y l]; [cbn; lia|]. etransitivity; [exact IH|]. rewrite app_length. apply Nat.le_add_l.
Qed.

Lemma round_trip : forall v, numbers_ok v = true -> read_json (to_pretty v) = Some v.
Proof.
  intros v H. unfold read_json, to_pretty.
  rewrite (all_back v 0 _ [] (pretty_json 0 v) H); [reflexivity| |exact I|].
  - pose proof (cost_length v 0 H). lia.
  - rewrite <- (app_nil_r (pretty_json 0 v)) at 1. apply skip_first. exact H.
Qed.

(** * The data *)
Lemma nodup_dec : forall l : list text, (fix go l := match l with [] => true | x :: l' => negb (mem_text x l') && go l' end) l = true -> NoDup l.
Proof.
  induction l as [|x l IH]; intro H; [constructor|]. apply andb_true_iff in H. destruct H as [N1 H]. constructor; [|auto].
  apply negb_true_iff in N1. apply mem_text_false. exact N1.
Qed.
Ltac has_tac := eexists; split; [reflexivity|]; split; [cbn [In]; tauto|apply nodup_dec; vm_compute; reflexivity].

Lemma place_json : forall l, place (lc_json l) l.
Proof. intro l. exists (jnat (lc_line l)), (jnat (lc_column l)). unfold lc_json. repeat split; has_tac. Qed.
Lemma region_json : forall s, region (span_json s) s.
Proof. intro s. exists (lc_json (sp_start s)), (lc_json (sp_end s)). unfold span_json. split; [has_tac|]. split; [apply place_json|]. split; [has_tac|]. apply place_json. Qed.
Lemma function_json : forall f, is_function (fn_json f) f.
Proof.
  intro f. unfold is_function, fn_json. split; [has_tac|]. split; [has_tac|]. exists (span_json (fn_span f)). split; [has_tac|]. apply region_json.
Qed.
Lemma genre_json : forall g, genre_text g (genre_name g).
Proof. intros []; unfold genre_text; cbn [In genre_name]; tauto. Qed.

Lemma object_json : forall m, is_mutant_object (mutant_json m) m.
Proof.
  intro m. unfold is_mutant_object, mutant_json, mutant_fields. split; [has_tac|]. split; [has_tac|]. split; [|split; [|split; [has_tac|]]].
  - eexists. split; [has_tac|]. destruct (mu_fn m); [apply function_json|reflexivity].
  - eexists. split; [has_tac|]. apply region_json.
  - eexists. split; [has_tac|]. apply genre_json.
Qed.

(** The same with sorted keys. *)
Definition lc_value (l : line_column) : json := JObj [(tx "column", jnat (lc_column l)); (tx "line", jnat (lc_line l))].
Definition span_value (s : span) : json := JObj [(tx "end", lc_value (sp_end s)); (tx "start", lc_value (sp_start s))].
Definition fn_value (f : fn_info) : json :=
  JObj [(tx "function_name", JStr (fn_name f)); (tx "return_type", JStr (fn_return_type f)); (tx "span", span_value (fn_span f))].
Definition value_fields (m : mutant) : list (text * json) :=
  [(tx "file", JStr (tree_relative_slashes (mu_file m)));
   (tx "function", match mu_fn m with None => JNull | Some f => fn_value f end);
   (tx "genre", JStr (genre_name (mu_genre m)));
   (tx "package", JStr (sf_package (mu_file m)));
   (tx "replacement", JStr (mu_replacement m));
   (tx "span", span_value (mu_span m))].
Lemma value_shape : forall m d, mutant_value m d
  = JObj ((match d with Some d => [(tx "diff", JStr d)] | None => [] end) ++ value_fields m).
Proof. intros m d. unfold mutant_value, mutant_json, mutant_fields, value_fields. destruct d, (mu_fn m); reflexivity. Qed.

Lemma place_value : forall l, place (lc_value l) l.
Proof. intro l. exists (jnat (lc_line l)), (jnat (lc_column l)). unfold lc_value. repeat split; has_tac. Qed.
Lemma region_value : forall s, region (span_value s) s.
Proof. intro s. exists (lc_value (sp_start s)), (lc_value (sp_end s)). unfold span_value. split; [has_tac|]. split; [apply place_value|]. split; [has_tac|]. apply place_value. Qed.
Lemma function_value : forall f, is_function (fn_value f) f.
Proof.
  intro f. unfold is_function, fn_value. split; [has_tac|]. split; [has_tac|]. exists (span_value (fn_span f)). split; [has_tac|]. apply region_value.
Qed.
Lemma object_value : forall m d, is_mutant_object (mutant_value m d) m
  /\ match d with Some t => has (mutant_value m d) (tx "diff") (JStr t) | None => ~ In (tx "diff") (keys (mutant_value m d)) end.
Proof.
  intros m d. rewrite value_shape. split.
  - unfold is_mutant_object, value_fields.
    destruct d as [t|]; cbn [app];
      (split; [has_tac|]; split; [has_tac|]; split; [eexists; split; [has_tac|]; destruct (mu_fn m); [apply function_value|reflexivity]|];
       split; [eexists; split; [has_tac|]; apply region_value|]; split; [has_tac|]; eexists; split; [has_tac|]; apply genre_json).
  - destruct d as [t|]; [unfold value_fields; cbn [app]; has_tac|]. apply mem_text_false. vm_compute. reflexivity.
Qed.

(** The object says what the mutant is. *)
Lemma has_same : forall v k x y, has v k x -> has v k y -> x = y.
Proof.
  intros v k x y (l & -> & I & ND) (l' & E & J & _). injection E as <-. induction l as [|[k' z] l IH]; [destruct I|].
  cbn [map fst] in ND. inversion ND as [|a b Nin ND']; subst. destruct I as [I|I], J as [J|J].
  - congruence.
  - injection I as -> ->. exfalso. apply Nin. apply in_map_iff. exists (k, y). auto.
  - injection J as -> ->. exfalso. apply Nin. apply in_map_iff. exists (k, x). auto.
  - auto.
Qed.
Lemma number_same : forall v a b, number v a -> number v b -> a = b.
Proof. intros v a b -> E. injection E as E. apply show_N_inj. exact E. Qed.
Lemma place_same : forall v a b, place v a -> place v b -> a = b.
Proof.
  intros v [l c] [l' c'] (x & y & H1 & N1 & H2 & N2) (x' & y' & H3 & N3 & H4 & N4). cbn in *.
  rewrite <- (has_same _ _ _ _ H1 H3) in N3. rewrite <- (has_same _ _ _ _ H2 H4) in N4.
  pose proof (number_same _ _ _ N1 N3). pose proof (number_same _ _ _ N2 N4). f_equal; lia.
Qed.
Lemma region_same : forall v a b, region v a -> region v b -> a = b.
Proof.
  intros v [l c] [l' c'] (x & y & H1 & N1 & H2 & N2) (x' & y' & H3 & N3 & H4 & N4). cbn in *.
  rewrite <- (has_same _ _ _ _ H1 H3) in N3. rewrite <- (has_same _ _ _ _ H2 H4) in N4.
  f_equal; eapply place_same; eassumption.
Qed.
Lemma function_same : forall v a b, is_function v a -> is_function v b -> a = b.
Proof.
  intros v [n t s] [n' t' s'] (A1 & A2 & x & A3 & A4) (B1 & B2 & y & B3 & B4). cbn in *.
  pose proof (has_same _ _ _ _ A1 B1) as E1. pose proof (has_same _ _ _ _ A2 B2) as E2. injection E1 as ->. injection E2 as ->.
  rewrite <- (has_same _ _ _ _ A3 B3) in B4. f_equal. eapply region_same; eassumption.
Qed.
Lemma genre_same : forall a b t, genre_text a t -> genre_text b t -> a = b.
Proof.
  assert (F : forall g t, genre_text g t -> t = genre_name g).
  { intros g t H. unfold genre_text in H. cbn [In] in H. repeat (destruct H as [H|H]; [injection H as <- <-; reflexivity|]). destruct H. }
  intros a b t A B. apply F in A. apply F in B. subst t. destruct a, b; try reflexivity; vm_compute in B; discriminate.
Qed.
Lemma object_same : forall v a b, is_mutant_object v a -> is_mutant_object v b -> same_data a b.
Proof.
  intros v a b (A1 & A2 & (f & A3 & A4) & (s & A5 & A6) & A7 & (t & A8 & A9)) (B1 & B2 & (f' & B3 & B4) & (s' & B5 & B6) & B7 & (t' & B8 & B9)).
  pose proof (has_same _ _ _ _ A1 B1) as E1. pose proof (has_same _ _ _ _ A2 B2) as E2. pose proof (has_same _ _ _ _ A7 B7) as E7.
  pose proof (has_same _ _ _ _ A8 B8) as E8. injection E1 as E1. injection E2 as E2. injection E7 as E7. injection E8 as <-.
  rewrite <- (has_same _ _ _ _ A3 B3) in B4. rewrite <- (has_same _ _ _ _ A5 B5) in B6. unfold same_data. repeat split; auto.
  - assert (FN : forall fn, ~ is_function JNull fn) by (intros fn [(l & K & _) _]; discriminate).
    destruct (mu_fn a) as [x|], (mu_fn b) as [y|]; subst; try reflexivity; try (exfalso; eapply FN; eassumption).
    f_equal. eapply function_same; eassumption.
  - eapply region_same; eassumption.
  - eapply genre_same; eassumption.
Qed.

(** * The numbers are numbers *)
Lemma ok_nat : forall n, numbers_ok (jnat n) = true.
Proof. intro n. apply show_N_number. Qed.
Lemma ok_span : forall s, numbers_ok (span_json s) = true.
Proof. intro s. cbn [numbers_ok span_json forallb snd lc_json]. rewrite !ok_nat. reflexivity. Qed.
Lemma ok_mutant : forall m, numbers_ok (mutant_json m) = true.
Proof.
  intro m. unfold mutant_json, mutant_fields. cbn [numbers_ok forallb snd]. rewrite ok_span. destruct (mu_fn m) as [f|]; [|reflexivity].
  unfold fn_json. cbn [numbers_ok forallb snd]. rewrite ok_span. reflexivity.
Qed.
Lemma ok_span_value : forall s, numbers_ok (span_value s) = true.
Proof. intro s. cbn [numbers_ok span_value forallb snd lc_value]. rewrite !ok_nat. reflexivity. Qed.
Lemma ok_value : forall m d, numbers_ok (mutant_value m d) = true.
Proof.
  intros m d. rewrite value_shape. unfold value_fields. cbn [numbers_ok]. rewrite forallb_app. cbn [forallb snd numbers_ok]. rewrite ok_span_value.
  replace (numbers_ok match mu_fn m with Some f => fn_value f | None => JNull end) with true;
    [|destruct (mu_fn m) as [f|]; [|reflexivity]; unfold fn_value; cbn [numbers_ok forallb snd]; rewrite ok_span_value; reflexivity].
  destruct d; reflexivity.
Qed.

Lemma mutants_back : forall ms, exists vs, read_json (mutants_file ms) = Some (JArr vs) /\ Forall2 is_mutant_object vs ms.
Proof.
  intro ms. exists (map mutant_json ms). split.
  - apply round_trip. cbn [numbers_ok]. apply forallb_forall. intros v I. apply in_map_iff in I. destruct I as (m & <- & _). apply ok_mutant.
  - induction ms as [|m ms IH]; constructor; [apply object_json|exact IH].
Qed.
Lemma list_back : forall l, exists vs, read_json (list_mutants_json l) = Some (JArr vs)
  /\ Forall2 (fun v md => is_mutant_object v (fst md)
      /\ match snd md with Some t => has v (tx "diff") (JStr t) | None => ~ In (tx "diff") (keys v) end) vs l.
Proof.
  intro l. exists (map (fun md => mutant_value (fst md) (snd md)) l). split.
  - apply round_trip. cbn [numbers_ok]. apply forallb_forall. intros v I. apply in_map_iff in I. destruct I as (m & <- & _). apply ok_value.
  - induction l as [|m l IH]; constructor; [apply object_value|exact IH].
Qed.
Lemma files_back : forall fs, exists vs, read_json (list_files_json fs) = Some (JArr vs) /\ Forall2 is_file_object vs fs.
Proof.
  intro fs. eexists. split.
  - apply round_trip. cbn [numbers_ok]. apply forallb_forall. intros v I. apply in_map_iff in I. destruct I as (m & <- & _). reflexivity.
  - induction fs as [|f fs IH]; constructor; [|exact IH].
    change (map_of [(tx "path", JStr (to_slash_path (sf_path f))); (tx "package", JStr (sf_package f))])
      with [(tx "package", JStr (sf_package f)); (tx "path", JStr (to_slash_path (sf_path f)))].
    split; has_tac.
Qed.
Lemma forall2_same : forall vs a b, Forall2 is_mutant_object vs a -> Forall2 is_mutant_object vs b -> Forall2 same_data a b.
Proof.
  intros vs a b A. revert b. induction A as [|v m vs ms O A IH]; intros b B; inversion B; subst; constructor; [eapply object_same; eassumption|auto].
Qed.

(** * Outcomes *)
Section Outcomes.
Context (float : N -> text) (argv : outcome mutant -> phase_result -> list text)
  (log_path : outcome mutant -> text) (diff_path : outcome mutant -> option text).
Context (float_number : forall n, is_number (float n) = true).

Lemma exit_is : forall e, is_exit (exit_json e) e /\ numbers_ok (exit_json e) = true.
Proof.
  intro e. assert (S : forall c, show_Z c = (if (c <? 0)%Z then tx "-" else []) ++ show_N (Z.abs_N c)) by (intros [|p|p]; reflexivity).
  destruct e; cbn [is_exit exit_json]; (split; [|cbn [numbers_ok forallb snd jint]; rewrite ?show_Z_number; reflexivity]); try reflexivity;
    eexists; (split; [reflexivity|apply S]).
Qed.
Lemma result_is : forall o r, is_result float (result_json float argv o r) r (argv o r) /\ numbers_ok (result_json float argv o r) = true.
Proof.
  intros o r. destruct (exit_is (pr_status r)) as [E1 E2]. unfold is_result, result_json. split.
  - split; [eexists; split; [has_tac|]; destruct (pr_phase r); cbn; tauto|]. split; [has_tac|].
    split; [eexists; split; [has_tac|exact E1]|]. has_tac.
  - cbn [numbers_ok forallb snd]. rewrite E2, float_number. cbn [andb]. rewrite andb_true_r. apply forallb_forall. intros v I. apply in_map_iff in I. destruct I as (t & <- & _). reflexivity.
Qed.
Lemma outcome_is : forall o v, outcome_json float argv log_path diff_path o = Some v ->
  is_outcome float argv log_path diff_path v o /\ numbers_ok v = true.
Proof.
  intros o v H. unfold outcome_json in H. destruct (summary o) as [s|] eqn:S; [|discriminate]. injection H as <-. unfold is_outcome. split.
  - split; [eexists; split; [has_tac|]; destruct (oc_scenario o) as [|m]; [reflexivity|]; split; [reflexivity|]; exists (mutant_json m); split; [has_tac|apply object_json]|].
    split; [exists s; eexists; split; [exact S|]; split; [has_tac|]; destruct s; cbn; tauto|].
    split; [has_tac|]. split; [has_tac|]. eexists. split; [has_tac|].
    induction (oc_results o) as [|r rs IH]; constructor; [apply result_is|exact IH].
  - cbn [numbers_ok forallb snd]. replace (numbers_ok (scenario_json (oc_scenario o))) with true;
      [|destruct (oc_scenario o); [reflexivity|]; cbn [scenario_json numbers_ok forallb snd]; rewrite ok_mutant; reflexivity].
    replace (numbers_ok match diff_path o with Some p => JStr p | None => JNull end) with true by (destruct (diff_path o); reflexivity).
    cbn [andb]. rewrite andb_true_r. apply forallb_forall. intros v I. apply in_map_iff in I. destruct I as (t & <- & _). apply result_is.
Qed.
Lemma lab_back : forall l t, outcomes_file float argv log_path diff_path l = Some t ->
  exists v, read_json t = Some v /\ is_lab float argv log_path diff_path v l.
Proof.
  intros l t H. unfold outcomes_file, lab_json in H. destruct (outcomes_json float argv log_path diff_path (lo_outcomes l)) as [vs|] eqn:E; [|discriminate].
  cbn [option_map] in H. injection H as <-.
  assert (V : Forall2 (is_outcome float argv log_path diff_path) vs (lo_outcomes l) /\ forallb numbers_ok vs = true).
  { revert vs E. induction (lo_outcomes l) as [|o os IH]; intros vs E; cbn [outcomes_json] in E; [injection E as <-; split; constructor|].
    destruct (outcome_json _ _ _ _ o) as [v|] eqn:O; [|discriminate]. destruct (outcomes_json _ _ _ _ os) as [vs'|]; [|discriminate]. injection E as <-.
    destruct (IH _ eq_refl) as [I1 I2]. destruct (outcome_is _ _ O) as [O1 O2]. split; [constructor; assumption|]. cbn [forallb]. rewrite O2. exact I2. }
  destruct V as [V1 V2]. eexists. split.
  - apply round_trip. cbn [numbers_ok forallb snd]. rewrite V2, !ok_nat. reflexivity.
  - unfold is_lab, counts. split; [eexists; split; [has_tac|exact V1]|]. repeat split; eexists; (split; [has_tac|reflexivity]).
Qed.
Lemma outcomes_written : forall l, Forall (fun o => summary o <> None) (lo_outcomes l) -> exists t, outcomes_file float argv log_path diff_path l = Some t.
Proof.
  intros l H. unfold outcomes_file, lab_json.
  assert (V : exists vs, outcomes_json float argv log_path diff_path (lo_outcomes l) = Some vs).
  { induction H as [|o os Ho Hs [vs IH]]; [exists []; reflexivity|]. cbn [outcomes_json]. unfold outcome_json. destruct (summary o); [|congruence]. rewrite IH. eauto. }
  destruct V as [vs ->]. cbn [option_map]. eauto.
Qed.
End Outcomes.

(** * Buffered writes *)
Section Buffered.
Context {A : Type} (cap : nat) (disk : nat -> option nat).
Notation put := (put (A := A) disk).
Notation write_chunks := (write_chunks (A := A) cap disk).

Lemma put_prefix : forall i file b, exists x y, fst (put i file b) = file ++ x /\ b = x ++ y.
Proof.
  intros i file b. unfold JsonM.put. destruct (disk i) as [n|]; cbn [fst]; [exists (firstn n b), (skipn n b); split; [reflexivity|symmetry; apply firstn_skipn]|].
  exists b, []. split; [reflexivity|symmetry; apply app_nil_r].
Qed.
Lemma put_true : forall i file b f, put i file b = (f, true) -> f = file ++ b.
Proof. intros i file b f H. unfold JsonM.put in H. destruct (disk i); congruence. Qed.
Lemma put_false : forall i file b f, put i file b = (f, false) -> disk i <> None /\ exists x y, f = file ++ x /\ b = x ++ y.
Proof.
  intros i file b f H. destruct (put_prefix i file b) as (x & y & E & F). rewrite H in E. cbn in E. split; [|eauto]. unfold JsonM.put in H. destruct (disk i); congruence.
Qed.

Lemma chunks_prefix : forall cs i file buf, length buf <= cap ->
  exists x y, fst (write_chunks cs i file buf) = file ++ x /\ buf ++ concat cs = x ++ y
    /\ (snd (write_chunks cs i file buf) = true -> length y <= cap)
    /\ ((forall j, disk j = None) -> snd (write_chunks cs i file buf) = true /\ y = []).
Proof.
  induction cs as [|c cs IH]; intros i file buf L; cbn [JsonM.write_chunks concat].
  - rewrite app_nil_r. destruct buf as [|b buf].
    { exists [], []. repeat split; cbn [fst snd length]; auto using app_nil_r; try lia; symmetry; apply app_nil_r. }
    destruct (put_prefix i file (b :: buf)) as (x & y & E & F). exists x, y. cbn [fst snd]. split; [exact E|]. split; [exact F|]. split.
    + intros _. apply (f_equal (@length A)) in F. rewrite app_length in F. lia.
    + intro NF. split; [reflexivity|]. unfold JsonM.put in E. rewrite NF in E. cbn [fst] in E. apply app_inv_head in E. subst x.
      rewrite <- (app_nil_r (b :: buf)) in F at 1. apply app_inv_head in F. auto.
  - assert (Push : length (buf ++ c) <= cap -> exists x y, fst (write_chunks cs i file (buf ++ c)) = file ++ x /\ buf ++ c ++ concat cs = x ++ y
      /\ (snd (write_chunks cs i file (buf ++ c)) = true -> length y <= cap)
      /\ ((forall j, disk j = None) -> snd (write_chunks cs i file (buf ++ c)) = true /\ y = [])).
    { intro Lc. destruct (IH i file (buf ++ c) Lc) as (x & y & E & F & G). exists x, y. rewrite <- app_assoc in F. auto. }
    assert (Direct : forall i file f2, put i file c = (f2, true) -> exists x y, fst (write_chunks cs (S i) f2 []) = file ++ x /\ c ++ concat cs = x ++ y
      /\ (snd (write_chunks cs (S i) f2 []) = true -> length y <= cap)
      /\ ((forall j, disk j = None) -> snd (write_chunks cs (S i) f2 []) = true /\ y = [])).
    { clear -IH. intros i file f2 Pt. apply put_true in Pt. subst f2. destruct (IH (S i) (file ++ c) [] ltac:(cbn; lia)) as (x & y & E & F & G). cbn [app] in F.
      exists (c ++ x), y. rewrite E, F, <- !app_assoc. auto. }
    destruct (Nat.ltb_spec (length c) (cap - length buf)) as [Lt|Ge]; [apply Push; rewrite app_length; lia|].
    destruct (Nat.ltb (cap - length buf) (length c) && negb (Nat.eqb (length buf) 0)) eqn:B.
    + destruct (put i file buf) as [f1 [|]] eqn:P1.
      * pose proof (put_true _ _ _ _ P1) as ->. destruct (Nat.leb_spec cap (length c)) as [Lc|Lc].
        -- destruct (put (S i) (file ++ buf) c) as [f2 [|]] eqn:P2.
           ++ destruct (Direct _ _ _ P2) as (x & y & E & F & G). exists (buf ++ x), y. rewrite E, F, <- !app_assoc. auto.
           ++ apply put_false in P2. destruct P2 as (Nd & x & y & -> & Ec). exists (buf ++ x), (y ++ concat cs). cbn [fst snd]. rewrite Ec, <- !app_assoc.
              split; [reflexivity|]. split; [reflexivity|]. split; [discriminate|]. intro NF. destruct (Nd (NF _)).
        -- destruct (IH (S i) (file ++ buf) c ltac:(lia)) as (x & y & E & F & G). exists (buf ++ x), y. rewrite E, F, <- !app_assoc. auto.
      * pose proof (put_false _ _ _ _ P1) as (Nd & x & y & -> & Eb). cbn [fst snd].
        destruct (put_prefix (S i) (file ++ x) (skipn (length (file ++ x) - length file) buf)) as (x' & y' & E & F). rewrite E.
        replace (length (file ++ x) - length file) with (length x) in F by (rewrite app_length; lia). rewrite Eb, skipn_app, skipn_all, Nat.sub_diag in F. cbn [skipn app] in F.
        exists (x ++ x'), (y' ++ c ++ concat cs). rewrite Eb, F, <- !app_assoc. split; [reflexivity|]. split; [reflexivity|]. split; [discriminate|]. intro NF. destruct (Nd (NF _)).
    + destruct (Nat.leb_spec cap (length c)) as [Lc|Lc].
      * assert (Bn : buf = []).
        { apply andb_false_iff in B. destruct B as [B|B].
          - apply Nat.ltb_ge in B. destruct buf; [reflexivity|cbn in *; lia].
          - apply negb_false_iff, Nat.eqb_eq in B. destruct buf; [reflexivity|discriminate]. }
        subst buf. cbn [app]. destruct (put i file c) as [f2 [|]] eqn:P2; [exact (Direct _ _ _ P2)|].
        apply put_false in P2. destruct P2 as (Nd & x & y & -> & Ec). exists x, (y ++ concat cs). cbn [fst snd]. rewrite Ec, <- !app_assoc.
        split; [reflexivity|]. split; [reflexivity|]. split; [discriminate|]. intro NF. destruct (Nd (NF _)).
      * apply Push. rewrite app_length. apply andb_false_iff in B. destruct B as [B|B].
        -- apply Nat.ltb_ge in B. lia.
        -- apply negb_false_iff, Nat.eqb_eq in B. lia.
Qed.
End Buffered.

(** * Order of keys *)
Lemma text_lt_iff : forall a b, text_lt a b = true <-> text_before a b.
Proof.
  induction a as [|x a IH]; intros [|y b]; cbn [text_lt].
  - split; [discriminate|intro H; inversion H].
  - split; [constructor|reflexivity].
  - split; [discriminate|intro H; inversion H].
  - destruct (N.ltb_spec x y) as [L|L]; [split; [intros _; apply tb_less; exact L|reflexivity]|].
    destruct (N.ltb_spec y x) as [G|G].
    + split; [discriminate|]. intro H. inversion H; subst; lia.
    + assert (x = y) by lia. subst y. rewrite IH. split; [apply tb_same|]. intro H. inversion H; subst; [lia|assumption].
Qed.
Lemma text_before_trans : forall a b c, text_before a b -> text_before b c -> text_before a c.
Proof.
  intros a b c H. revert c. induction H as [y b|x y a b L|x a b H IH]; intros c K; inversion K; subst.
  - constructor.
  - constructor.
  - apply tb_less. lia.
  - apply tb_less. assumption.
  - apply tb_less. assumption.
  - apply tb_same. apply IH. assumption.
Qed.
Lemma text_total : forall a b, text_eqb a b = false -> text_lt a b = false -> text_before b a.
Proof.
  induction a as [|x a IH]; intros [|y b] E H; try discriminate; [constructor|]. cbn [text_lt] in H.
  destruct (N.ltb_spec x y) as [L|L]; [discriminate|]. destruct (N.ltb_spec y x) as [G|G]; [apply tb_less; exact G|].
  assert (x = y) by lia. subst y. apply tb_same. apply IH; [|exact H]. cbn in E. rewrite N.eqb_refl in E. exact E.
Qed.

Lemma insert_keys : forall k v l x, In x (map fst (map_insert k v l)) <-> x = k \/ In x (map fst l).
Proof.
  intros k v l x. induction l as [|[k' v'] l IH]; cbn [map_insert]; [cbn; intuition|].
  destruct (text_eqb k k') eqn:E; [apply text_eqb_eq in E; subst k'; cbn; intuition|].
  destruct (text_lt k k'); cbn [map fst In]; [intuition|]. rewrite IH. intuition.
Qed.
Lemma insert_sorted : forall k v l, StronglySorted text_before (map fst l) -> StronglySorted text_before (map fst (map_insert k v l)).
Proof.
  intros k v l H. induction l as [|[k' v'] l IH]; cbn [map_insert]; [cbn; repeat constructor|].
  cbn [map fst] in H. apply StronglySorted_inv in H. destruct H as [H F].
  destruct (text_eqb k k') eqn:E; [apply text_eqb_eq in E; subst k'; cbn [map fst]; constructor; assumption|].
  destruct (text_lt k k') eqn:L.
  - apply text_lt_iff in L. cbn [map fst]. constructor; [constructor; assumption|]. constructor; [exact L|].
    rewrite Forall_forall in *. intros x Hx. eapply text_before_trans; [exact L|apply F; exact Hx].
  - cbn [map fst]. constructor; [apply IH; exact H|]. rewrite Forall_forall in *. intros x Hx. apply insert_keys in Hx.
    destruct Hx as [->|Hx]; [apply text_total; assumption|apply F; exact Hx].
Qed.
Lemma insert_values : forall (Q : json -> Prop) k v l, Q v -> Forall (fun kx => Q (snd kx)) l -> Forall (fun kx => Q (snd kx)) (map_insert k v l).
Proof.
  intros Q k v l Hv H. induction l as [|[k' v'] l IH]; cbn [map_insert]; [constructor; [exact Hv|constructor]|].
  inversion H; subst. destruct (text_eqb k k'); [constructor; assumption|]. destruct (text_lt k k'); [constructor; [exact Hv|exact H]|].
  constructor; [assumption|]. apply IH. assumption.
Qed.
Lemma map_of_ordered : forall l, Forall (fun kx => ordered (snd kx)) l -> ordered (JObj (map_of l)).
Proof.
  intros l H. unfold map_of.
  enough (G : forall acc, StronglySorted text_before (map fst acc) -> Forall (fun kx => ordered (snd kx)) acc ->
     ordered (JObj (fold_left (fun m kv => map_insert (fst kv) (snd kv) m) l acc))) by (apply G; constructor).
  induction H as [|[k v] l Hv H IH]; intros acc S F; cbn [fold_left fst snd]; [constructor; assumption|].
  apply IH; [apply insert_sorted; exact S|apply insert_values; assumption].
Qed.
Lemma to_value_ordered : forall v, ordered (to_value v).
Proof.
  apply json_induction; intros; cbn [to_value].
  - constructor.
  - constructor.
  - constructor.
  - constructor. apply Forall_forall. intros x Hx. apply in_map_iff in Hx as (y & <- & Hy). rewrite Forall_forall in H. apply H. exact Hy.
  - apply map_of_ordered. apply Forall_forall. intros x Hx. apply in_map_iff in Hx as (y & <- & Hy). rewrite Forall_forall in H. cbn [snd]. apply H. exact Hy.
Qed.
Lemma mutant_value_ordered : forall m d, ordered (mutant_value m d).
Proof.
  intros m d. unfold mutant_value. pose proof (to_value_ordered (mutant_json m)) as H.
  destruct (to_value (mutant_json m)); try exact H. destruct d; [|exact H]. inversion H; subst. constructor; [apply insert_sorted; assumption|apply insert_values; [constructor|assumption]].
Qed.
