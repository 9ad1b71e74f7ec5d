From Coq Require Import String NArith ZArith QArith Qabs List Bool Lia Lqa.
From Verif Require Import Text TimeoutM F64M F64P F32M F32S F32P TimesM TimesS PrintS.
Import ListNotations.
Open Scope list_scope.
Open Scope N_scope.

(** ** Numbers *)
Lemma number_app : forall ds acc u, forallb is_digit ds = true -> (match u with [] => True | c :: _ => is_digit c = false end) ->
  number_of acc (ds ++ u) = (fold_left (fun a c => a * 10 + digit_val c) ds acc, u).
Proof.
  induction ds as [|c ds IH]; intros acc u D U.
  - destruct u as [|c u]; [reflexivity|]. cbn [app number_of fold_left]. unfold is_digit in U. rewrite U. reflexivity.
  - cbn [forallb] in D. apply andb_prop in D as [D1 D2]. cbn [app number_of fold_left]. unfold is_digit in D1. rewrite D1.
    rewrite IH by assumption. f_equal. f_equal. unfold digit_val. lia.
Qed.

Lemma number_show : forall n u, (match u with [] => True | c :: _ => is_digit c = false end) -> number_of 0 (show_N n ++ u) = (n, u).
Proof.
  intros n u U. rewrite number_app; [|apply show_N_digits|exact U]. f_equal. exact (parse_show_N n).
Qed.

Lemma show_head : forall n, exists c w, show_N n = c :: w /\ is_digit c = true.
Proof.
  intros n. pose proof (show_N_nonempty n) as E. pose proof (show_N_digits n) as D. destruct (show_N n) as [|c w]; [congruence|].
  exists c, w. split; [reflexivity|]. cbn [forallb] in D. apply andb_prop in D. apply D.
Qed.

Lemma read_show : forall n u x, (match u with [] => True | c :: _ => is_digit c = false end) -> unit_secs unit_names u = Some x ->
  read_word (show_N n ++ u) = Some (n * x).
Proof.
  intros n u x U X. destruct (show_head n) as (c & w & E & D). unfold read_word. rewrite E. cbn [app]. unfold is_digit in D. rewrite D.
  change (c :: w ++ u) with ((c :: w) ++ u). rewrite <- E, number_show by exact U. rewrite X. reflexivity.
Qed.

Lemma total_app : forall a b m n, total a = Some m -> total b = Some n -> total (a ++ b) = Some (m + n).
Proof.
  induction a as [|w a IH]; intros b m n A B; cbn [app total] in *.
  - injection A as <-. exact B.
  - destruct (read_word w); [|discriminate]. destruct (total a) as [k|]; [|discriminate]. injection A as <-.
    rewrite (IH b k n eq_refl B). f_equal. lia.
Qed.

Lemma total_plural : forall u x, unit_secs unit_names u = Some x -> unit_secs unit_names (u ++ tx "s") = Some x ->
  (match u with [] => False | c :: _ => is_digit c = false end) -> forall n, total (item_plural u n) = Some (n * x).
Proof.
  intros u x A B U n. unfold item_plural. destruct (N.eqb_spec n 0) as [->|E]; [reflexivity|]. destruct u as [|c u]; [contradiction|].
  cbn [total]. destruct (1 <? n).
  - rewrite (read_show n _ x); [f_equal; lia|exact U|exact B].
  - rewrite app_nil_r. rewrite (read_show n _ x); [f_equal; lia|exact U|exact A].
Qed.
Lemma total_short : forall u x, unit_secs unit_names u = Some x ->
  (match u with [] => False | c :: _ => is_digit c = false end) -> forall n, total (item_short u n) = Some (n * x).
Proof.
  intros u x A U n. unfold item_short. destruct (N.eqb_spec n 0) as [->|E]; [reflexivity|]. destruct u as [|c u]; [contradiction|].
  cbn [total]. rewrite (read_show n _ x); [f_equal; lia|exact U|exact A].
Qed.

Lemma show_no : forall n c, is_digit c = false -> ~ In c (show_N n).
Proof.
  intros n c D I. pose proof (show_N_digits n) as H. rewrite forallb_forall in H. apply H in I. congruence.
Qed.
Lemma plural_no : forall c u n w, is_digit c = false -> ~ In c u -> c <> 115 -> In w (item_plural u n) -> ~ In c w.
Proof.
  intros c u n w D U S I. unfold item_plural in I. destruct (n =? 0); [destruct I|]. destruct I as [<-|[]]. rewrite !in_app_iff.
  intros [H|[H|H]]; [exact (show_no _ _ D H)|exact (U H)|]. destruct (1 <? n); [|destruct H]. destruct H as [H|[]]. apply S. symmetry. exact H.
Qed.
Lemma short_no : forall c u n w, is_digit c = false -> ~ In c u -> In w (item_short u n) -> ~ In c w.
Proof.
  intros c u n w D U I. unfold item_short in I. destruct (n =? 0); [destruct I|]. destruct I as [<-|[]]. rewrite !in_app_iff.
  intros [H|H]; [exact (show_no _ _ D H)|exact (U H)].
Qed.

(** ** The items *)
Definition all_items (y mo d h m s : N) : list text :=
  item_plural (tx "year") y ++ item_plural (tx "month") mo ++ item_plural (tx "day") d
  ++ item_short (tx "h") h ++ item_short (tx "m") m ++ item_short (tx "s") s.

Ltac letter := let H := fresh in intro H; cbn in H; repeat (destruct H as [H|H]; [discriminate H|]); exact H.

(** Neither digits nor letters of the units. *)
Definition foreign (c : chr) : Prop := is_digit c = false /\ ~ In c (tx "yearmonthdaysh").

Lemma items_no : forall c y mo d h m s w, foreign c -> In w (all_items y mo d h m s) -> ~ In c w.
Proof.
  intros c y mo d h m s w (D & F) I. unfold all_items in I. rewrite !in_app_iff in I.
  assert (K : forall u, incl u (tx "yearmonthdaysh") -> ~ In c u) by (intros u U J; exact (F (U _ J))).
  assert (S : c <> 115). { intros ->. apply F. cbn. tauto. }
  destruct I as [I|[I|[I|[I|[I|I]]]]];
    [eapply plural_no in I|eapply plural_no in I|eapply plural_no in I|eapply short_no in I|eapply short_no in I|eapply short_no in I];
    try exact I; try exact D; try exact S; apply K; intros x X; cbn in X |- *; tauto.
Qed.

Lemma items_total : forall y mo d h m s,
  total (all_items y mo d h m s) = Some (y * YEAR + (mo * MONTH + (d * DAY + (h * HOUR + (m * MINUTE + s * 1))))).
Proof.
  intros. unfold all_items. repeat apply total_app;
    first [apply total_plural; [reflexivity|reflexivity|reflexivity]|apply total_short; [reflexivity|reflexivity]].
Qed.

Lemma plural_word : forall u n, item_plural u n = word n u (u ++ tx "s").
Proof.
  intros u n. unfold item_plural, word. destruct (N.eqb_spec n 0); [reflexivity|]. destruct (N.eqb_spec n 1) as [->|].
  - cbn [N.ltb]. rewrite app_nil_r. reflexivity.
  - destruct (N.ltb_spec 1 n); [reflexivity|lia].
Qed.
Lemma short_word : forall u n, item_short u n = word n u u.
Proof.
  intros u n. unfold item_short, word. destruct (N.eqb_spec n 0); [reflexivity|]. destruct (N.eqb_spec n 1) as [->|]; reflexivity.
Qed.
Lemma items_words : forall y mo d h m s, all_items y mo d h m s = words y mo d h m s.
Proof. intros. unfold all_items, words. rewrite !plural_word, !short_word. reflexivity. Qed.

Definition w_y (n : N) := n / 31557600.
Definition w_mo (n : N) := n mod 31557600 / 2630016.
Definition w_d (n : N) := n mod 31557600 mod 2630016 / 86400.
Definition w_ds (n : N) := n mod 31557600 mod 2630016 mod 86400.

Lemma calendar_of : forall n, calendar n (w_y n) (w_mo n) (w_d n) (w_ds n / 3600) (w_ds n mod 3600 / 60) (w_ds n mod 60).
Proof.
  intros n. unfold calendar, w_y, w_mo, w_d, w_ds.
  change YEAR with 31557600. change MONTH with 2630016. change DAY with 86400. change HOUR with 3600. change MINUTE with 60.
  pose proof (N.div_mod n 31557600) as A. pose proof (N.mod_lt n 31557600) as A'. set (a := n mod 31557600) in *. set (qa := n / 31557600) in *.
  pose proof (N.div_mod a 2630016) as B. pose proof (N.mod_lt a 2630016) as B'. set (b := a mod 2630016) in *. set (qb := a / 2630016) in *.
  pose proof (N.div_mod b 86400) as C. pose proof (N.mod_lt b 86400) as C'. set (c := b mod 86400) in *. set (qc := b / 86400) in *.
  pose proof (N.div_mod c 3600) as D. pose proof (N.mod_lt c 3600) as D'. set (d := c mod 3600) in *. set (qd := c / 3600) in *.
  pose proof (N.div_mod d 60) as E. pose proof (N.mod_lt d 60) as E'.
  assert (F : c mod 60 = d mod 60).
  { rewrite D by lia. replace (3600 * qd + d) with (d + (60 * qd) * 60) by lia. apply N.mod_add. lia. }
  rewrite F. set (e := d mod 60) in *. set (qe := d / 60) in *. lia.
Qed.

Lemma format_items : forall n, n <> 0 ->
  format_duration n = join [SP] (all_items (w_y n) (w_mo n) (w_d n) (w_ds n / 3600) (w_ds n mod 3600 / 60) (w_ds n mod 60)).
Proof.
  intros n H. unfold format_duration. destruct (N.eqb_spec n 0); [congruence|]. reflexivity.
Qed.

Lemma items_some : forall n, n <> 0 -> all_items (w_y n) (w_mo n) (w_d n) (w_ds n / 3600) (w_ds n mod 3600 / 60) (w_ds n mod 60) <> [].
Proof.
  intros n H E. pose proof (items_total (w_y n) (w_mo n) (w_d n) (w_ds n / 3600) (w_ds n mod 3600 / 60) (w_ds n mod 60)) as T.
  rewrite E in T. cbn [total] in T. injection T as T. destruct (calendar_of n) as [C _]. lia.
Qed.

Lemma foreign_SP : foreign SP.
Proof. split; [reflexivity|]. letter. Qed.
Lemma format_split : forall n, n <> 0 -> split_on SP (format_duration n)
  = all_items (w_y n) (w_mo n) (w_d n) (w_ds n / 3600) (w_ds n mod 3600 / 60) (w_ds n mod 60).
Proof.
  intros n H. rewrite format_items by exact H. apply split_on_join; [apply items_some; exact H|].
  intros w I. eapply items_no; [apply foreign_SP|exact I].
Qed.

Lemma read_format : forall n, read_duration (format_duration n) = Some n.
Proof.
  intros n. destruct (N.eq_dec n 0) as [->|H]; [vm_compute; reflexivity|]. unfold read_duration. rewrite format_split by exact H.
  rewrite items_total. f_equal. destruct (calendar_of n) as [C _]. lia.
Qed.
Lemma duration_read : forall d, read_duration (duration_text d) = Some (d / 1000000000).
Proof. intros. apply read_format. Qed.

Lemma format_words : forall n, n <> 0 -> exists y mo d h m s, calendar n y mo d h m s /\ split_on SP (format_duration n) = words y mo d h m s.
Proof.
  intros n H. do 6 eexists. split; [apply calendar_of|]. rewrite format_split by exact H. apply items_words.
Qed.

Lemma join_no : forall c sep l, ~ In c sep -> (forall w, In w l -> ~ In c w) -> ~ In c (join sep l).
Proof.
  intros c sep l S. induction l as [|w l IH]; intros H; [intros []|]. destruct l as [|v l].
  - apply H. left. reflexivity.
  - rewrite join_cons by discriminate. rewrite !in_app_iff. intros [I|[I|I]]; [exact (H w (or_introl eq_refl) I)|exact (S I)|].
    apply IH; [|exact I]. intros x X. apply H. right. exact X.
Qed.
Lemma format_no : forall c n, foreign c -> c <> SP -> ~ In c (format_duration n).
Proof.
  intros c n F S. destruct (N.eq_dec n 0) as [->|H].
  - destruct F as [D F]. intros [I|[I|[]]]; subst c; [discriminate D|]. apply F. cbn. tauto.
  - rewrite format_items by exact H. apply join_no; [intros [E|[]]; congruence|]. intros w I. eapply items_no; [exact F|exact I].
Qed.
Lemma duration_no_comma : forall n, ~ In COMMA (duration_text n).
Proof. intros. apply format_no; [|discriminate]. split; [reflexivity|]. letter. Qed.
Lemma duration_no_escape : forall n, no_escape (duration_text n).
Proof. intros. apply format_no; [|discriminate]. split; [reflexivity|]. letter. Qed.

(** ** Seconds with one decimal *)
Lemma digit_show : forall k, k < 10 -> show_N k = [k + 48].
Proof.
  intros k H. unfold show_N. cbn [show_aux]. destruct (N.ltb_spec k 10); [|lia]. rewrite N.mod_small by exact H. reflexivity.
Qed.
Lemma tenths_read : forall k, read_tenths ((show_N (k / 10) ++ tx "." ++ show_N (k mod 10)) ++ tx "s") = Some k.
Proof.
  intros k. assert (K : k mod 10 < 10) by (apply N.mod_lt; lia). rewrite (digit_show _ K). unfold read_tenths. rewrite <- !app_assoc.
  change (tx "." ++ [k mod 10 + 48] ++ tx "s") with (46 :: [k mod 10 + 48; 115]).
  rewrite split_on_app_sep by (apply show_no; reflexivity).
  rewrite split_on_none; [|intros [E|[E|[]]]; [change ((k mod 10 + 48)%N = 46) in E; clear K; revert E; generalize (k mod 10); intros; lia|discriminate E]].
  pose proof (number_show (k / 10) [] Logic.I) as N. rewrite app_nil_r in N. destruct (show_head (k / 10)) as (c & w & E & _). rewrite E in *.
  rewrite N. destruct (N.leb_spec 48 (k mod 10 + 48)) as [_|Q]; [|clear - Q; revert Q; generalize (k mod 10); intros; lia]. destruct (N.leb_spec (k mod 10 + 48) 57) as [_|Q]; [|clear - Q K; revert Q K; generalize (k mod 10); intros; lia]. cbn [andb]. f_equal.
  pose proof (N.div_mod k 10 ltac:(discriminate)) as M. clear - M. revert M. generalize (k mod 10), (k / 10). intros. lia.
Qed.
Lemma secs_no_escape : forall n, no_escape (secs_text n).
Proof.
  intros n. unfold secs_text, one_decimal, no_escape. rewrite !in_app_iff.
  intros [[I|[I|I]]|I]; try (revert I; apply show_no; reflexivity); revert I; letter.
Qed.

Definition tenths (d : N) : N := Z.to_N (round_even ((10 # 1) * as_secs_f32 d)).
Lemma secs_read : forall d, read_tenths (secs_text d) = Some (tenths d).
Proof. intros. apply tenths_read. Qed.

(** ** Errors *)
Open Scope Q_scope.
Definition u : Q := 1 # 16777216.
Lemma u_pow : pow2 (-24) == u. Proof. reflexivity. Qed.

Definition normal (q : Q) : Prop := q == 0 \/ pow2 (-126) <= q.
Lemma err : forall q, normal q -> q - q * u <= rnd32 q /\ rnd32 q <= q + q * u.
Proof.
  intros q [H|H].
  - rewrite rnd32_zero by exact H. rewrite H. split; lra.
  - pose proof (rnd32_error_normal q H) as E. rewrite u_pow in E. apply Qabs_Qle_condition in E. lra.
Qed.
Lemma rnd32_ge : forall p q, is_float32 p -> p <= q -> p <= rnd32 q.
Proof. intros p q F H. rewrite <- (rnd32_float p F). apply rnd32_mono. exact H. Qed.
Lemma rnd32_le : forall p q, is_float32 p -> q <= p -> rnd32 q <= p.
Proof. intros p q F H. rewrite <- (rnd32_float p F). apply rnd32_mono. exact H. Qed.

Lemma min_le : forall q, (1 # 1125899906842624) <= q -> pow2 (-126) <= q.
Proof. intros q H. eapply Qle_trans; [|exact H]. apply Qle_trans with (pow2 (-50)); [apply pow2_le; lia|]. vm_compute. discriminate. Qed.
Lemma float_pow : forall e, (-149 <= e)%Z -> is_float32 (pow2 e).
Proof. intros e H. exists 1%Z, e. split; [reflexivity|]. split; [exact H|]. change (inject_Z 1) with 1. ring. Qed.

Lemma int_normal : forall n : N, normal (inject_Z (Z.of_N n)).
Proof.
  intros n. destruct (N.eq_dec n 0) as [->|H]; [left; reflexivity|]. right. apply min_le.
  apply Qle_trans with 1; [vm_compute; discriminate|]. change 1 with (inject_Z 1). rewrite <- Zle_Qle. lia.
Qed.
Lemma int_nonneg : forall n : N, 0 <= inject_Z (Z.of_N n).
Proof. intros. change 0 with (inject_Z 0). rewrite <- Zle_Qle. lia. Qed.
Lemma int_rnd : forall n : N, inject_Z (Z.of_N n) == 0 /\ rnd32 (inject_Z (Z.of_N n)) == 0 \/ 1 <= rnd32 (inject_Z (Z.of_N n)).
Proof.
  intros n. destruct (N.eq_dec n 0) as [->|H]; [left; split; reflexivity|]. right. apply rnd32_ge; [exact (int_float 1 ltac:(lia))|].
  change 1 with (inject_Z 1). rewrite <- Zle_Qle. lia.
Qed.

(** The fraction of a second. *)
Definition frac (n : N) : Q := rnd32 (rnd32 (inject_Z (Z.of_N n)) / (1000000000 # 1)).
Lemma frac_spec : forall n, normal (frac n)
  /\ inject_Z (Z.of_N n) / (1000000000 # 1) * (1 - u) * (1 - u) <= frac n
  /\ frac n <= inject_Z (Z.of_N n) / (1000000000 # 1) * (1 + u) * (1 + u).
Proof.
  intros n. unfold frac. set (a := inject_Z (Z.of_N n)). pose proof (err a (int_normal n)) as [E1 E2]. set (b := rnd32 a) in *.
  assert (B : b == 0 \/ 1 <= b). { destruct (int_rnd n) as [[_ K]|K]; [left; exact K|right; exact K]. }
  assert (C : b / (1000000000 # 1) == b * (1 # 1000000000)) by reflexivity.
  assert (A : a / (1000000000 # 1) == a * (1 # 1000000000)) by reflexivity.
  assert (N : normal (b / (1000000000 # 1))). { destruct B as [B|B]; [left; rewrite C, B; reflexivity|right; apply min_le; rewrite C; lra]. }
  pose proof (err _ N) as [F1 F2]. unfold u in *.
  set (c := b / (1000000000 # 1)) in *. set (x := a / (1000000000 # 1)) in *.
  split; [|split; lra].
  destruct B as [B|B].
  - left. assert (c == 0) by lra. rewrite rnd32_zero; [reflexivity|assumption].
  - right. apply min_le. assert ((1 # 1000000000) <= c) by lra.
    apply Qle_trans with (pow2 (-31)); [vm_compute; discriminate|]. apply rnd32_ge; [apply float_pow; lia|].
    apply Qle_trans with (1 # 1000000000); [vm_compute; discriminate|assumption].
Qed.

Lemma sum_normal : forall a b, normal a -> normal b -> normal (a + b).
Proof.
  intros a b A B. assert (P : 0 < pow2 (-126)) by apply pow2_pos. unfold normal in *.
  destruct A as [A|A], B as [B|B]; [left; lra|right; lra|right; lra|right; lra].
Qed.

Lemma seconds_split : forall d, seconds d == inject_Z (Z.of_N (d / NS)) + inject_Z (Z.of_N (d mod NS)) / (1000000000 # 1).
Proof.
  intros d. unfold seconds. pose proof (N.div_mod d NS) as E. assert (NS <> 0)%N by discriminate. specialize (E H).
  set (a := (d / NS)%N) in *. set (b := (d mod NS)%N) in *. change NS with 1000000000%N in E.
  unfold Qeq, Qplus, Qdiv, Qmult, Qinv, inject_Z. cbn [Qnum Qden]. lia.
Qed.

Lemma f32_error : forall d, Qabs (as_secs_f32 d - seconds d) <= seconds d * (1 # 4194304).
Proof.
  intros d. rewrite seconds_split. unfold as_secs_f32. fold (frac (d mod NS)).
  set (s := inject_Z (Z.of_N (d / NS))). destruct (frac_spec (d mod NS)) as (N & F1 & F2).
  pose proof (err s (int_normal _)) as [S1 S2]. pose proof (int_nonneg (d / NS)) as S0. fold s in S0.
  set (x := inject_Z (Z.of_N (d mod NS)) / (1000000000 # 1)) in *.
  assert (X : 0 <= x). { unfold x. apply Qle_shift_div_l; [reflexivity|]. rewrite Qmult_0_l. apply int_nonneg. }
  assert (Ns : normal (rnd32 s)).
  { destruct (int_rnd (d / NS)) as [[_ K]|K]; [left; exact K|right; apply min_le]. fold s in K. lra. }
  pose proof (err _ (sum_normal _ _ Ns N)) as [T1 T2]. set (t := rnd32 (rnd32 s + frac (d mod NS))) in *.
  set (a := rnd32 s) in *. set (f := frac (d mod NS)) in *. clearbody t a f x s. clear - F1 F2 S1 S2 S0 X T1 T2. unfold u in *.
  apply Qabs_Qle_condition. split; lra.
Qed.

Lemma f32_nonneg : forall d, 0 <= as_secs_f32 d.
Proof.
  intros d. unfold as_secs_f32. apply rnd32_nonneg. pose proof (rnd32_nonneg _ (int_nonneg (d / NS))). pose proof (frac_spec (d mod NS)) as (_ & _ & _).
  assert (0 <= frac (d mod NS)).
  { unfold frac. apply rnd32_nonneg. apply Qle_shift_div_l; [reflexivity|]. rewrite Qmult_0_l. apply rnd32_nonneg, int_nonneg. }
  unfold frac in *. lra.
Qed.

Lemma tenths_Z : forall d, Z.of_N (tenths d) = round_even ((10 # 1) * as_secs_f32 d).
Proof.
  intros d. unfold tenths. apply Z2N.id. pose proof (f32_nonneg d).
  change 0%Z with (round_even 0). apply round_even_mono. lra.
Qed.
Lemma tenths_error : forall d, Qabs ((Z.of_N (tenths d) # 10) - seconds d) <= (1 # 20) + seconds d * (1 # 4194304).
Proof.
  intros d. pose proof (f32_error d) as E. pose proof (round_even_near ((10 # 1) * as_secs_f32 d)) as R. rewrite <- tenths_Z in R.
  assert (K : Z.of_N (tenths d) # 10 == inject_Z (Z.of_N (tenths d)) * (1 # 10)) by (unfold Qeq, Qmult, inject_Z; cbn; lia).
  rewrite K. clear K. apply Qabs_Qle_condition in E, R. apply Qabs_Qle_condition. split; lra.
Qed.

(** ** Order *)
Lemma f32_small : forall d, (d < 16777216 * NS)%N ->
  as_secs_f32 d == rnd32 (inject_Z (Z.of_N (d / NS)) + frac (d mod NS)).
Proof.
  intros d H. unfold as_secs_f32. fold (frac (d mod NS)). apply rnd32_comp. rewrite rnd32_float; [reflexivity|].
  apply int_float. assert (K : (d / NS < 16777216)%N) by (apply N.div_lt_upper_bound; [discriminate|rewrite N.mul_comm; exact H]).
  revert K. generalize (d / NS)%N. clear. intros. lia.
Qed.
Lemma frac_mono : forall m n, (m <= n)%N -> frac m <= frac n.
Proof.
  intros m n H. unfold frac. apply rnd32_mono. unfold Qdiv. apply Qmult_le_compat_r; [|discriminate]. apply rnd32_mono.
  rewrite <- Zle_Qle. lia.
Qed.
Lemma frac_bounds : forall n, (n < NS)%N -> 0 <= frac n /\ frac n <= 1.
Proof.
  intros n H. split.
  - unfold frac. apply rnd32_nonneg. apply Qle_shift_div_l; [reflexivity|]. rewrite Qmult_0_l. apply rnd32_nonneg, int_nonneg.
  - unfold frac. apply rnd32_le; [exact (int_float 1 ltac:(lia))|]. apply Qle_shift_div_r; [reflexivity|].
    rewrite Qmult_1_l. apply rnd32_le; [|change (1000000000 # 1) with (inject_Z 1000000000); rewrite <- Zle_Qle; unfold NS in H; lia].
    exists 1953125%Z, 9%Z. split; [reflexivity|]. split; [discriminate|]. reflexivity.
Qed.
Lemma f32_mono : forall d d', (d <= d')%N -> (d' < 16777216 * NS)%N -> as_secs_f32 d <= as_secs_f32 d'.
Proof.
  intros d d' L H. rewrite (f32_small d) by lia. rewrite (f32_small d') by lia. apply rnd32_mono.
  assert (D : (d / NS <= d' / NS)%N) by (apply N.div_le_mono; [discriminate|exact L]).
  destruct (N.eq_dec (d / NS) (d' / NS)) as [E|E].
  - rewrite E. apply Qplus_le_r. apply frac_mono. pose proof (N.div_mod d NS ltac:(discriminate)). pose proof (N.div_mod d' NS ltac:(discriminate)). rewrite E in H0. lia.
  - assert (K : inject_Z (Z.of_N (d / NS)) + 1 <= inject_Z (Z.of_N (d' / NS))).
    { change 1 with (inject_Z 1). rewrite <- inject_Z_plus, <- Zle_Qle. lia. }
    destruct (frac_bounds (d mod NS)) as [_ B]; [apply N.mod_lt; discriminate|].
    destruct (frac_bounds (d' mod NS)) as [B' _]; [apply N.mod_lt; discriminate|]. lra.
Qed.
Lemma tenths_mono : forall d d', (d <= d')%N -> (d' < 16777216 * NS)%N -> (tenths d <= tenths d')%N.
Proof.
  intros d d' L H. apply N2Z.inj_le. rewrite !tenths_Z. apply round_even_mono. pose proof (f32_mono d d' L H). lra.
Qed.

Lemma frac_zero : frac 0 == 0. Proof. vm_compute. reflexivity. Qed.
Lemma tenths_whole : forall s, (s < 16777216)%N -> tenths (s * NS) = (10 * s)%N.
Proof.
  intros s H. apply N2Z.inj. rewrite tenths_Z. assert (E : as_secs_f32 (s * NS) == inject_Z (Z.of_N s)).
  { rewrite f32_small by (apply N.mul_lt_mono_pos_r; [reflexivity|exact H]). rewrite N.div_mul by discriminate. rewrite N.mod_mul by discriminate.
    rewrite (rnd32_comp _ (inject_Z (Z.of_N s))) by (rewrite frac_zero; ring). apply rnd32_float, int_float. lia. }
  rewrite (round_even_comp _ (inject_Z (10 * Z.of_N s))) by (rewrite E, inject_Z_mult; reflexivity).
  rewrite N2Z.inj_mul. change (Z.of_N 10) with 10%Z. apply round_even_exact. rewrite (Qabs_wd _ 0) by ring. reflexivity.
Qed.
