From Coq Require Import List NArith Bool Lia.
Import ListNotations.
From Verif Require Import Text Utf8M Utf8P InDiffM TailM TailS.

Lemma lines_aux_app : forall a acc b, lines_aux acc (a ++ NL :: b) = lines_aux acc (a ++ [NL]) ++ lines b.
Proof.
  induction a as [|c a IH]; intros acc b; cbn [app lines_aux].
  - rewrite N.eqb_refl. reflexivity.
  - destruct (N.eqb c NL); [cbn [app]; now rewrite IH|apply IH].
Qed.

Lemma lines_whole : forall a b, whole a -> lines (a ++ b) = lines a ++ lines b.
Proof.
  intros a b [->|[a' ->]]; [reflexivity|]. rewrite <- app_assoc. cbn [app]. apply lines_aux_app.
Qed.

Definition nonblank (s : text) : list text := filter (fun l => negb (blank l)) (lines s).
Definition final (s : text) : text := match next_back (nonblank s) with Some l => l | None => [] end.

Lemma next_back_app : forall A (a b : list A), next_back (a ++ b) = match next_back b with Some x => Some x | None => next_back a end.
Proof.
  intros A a b. induction a as [|x a IH]; [cbn; now destruct (next_back b)|].
  destruct a as [|y a].
  - destruct b as [|z b]; [reflexivity|]. cbn [app].
    assert (forall l : list A, l <> [] -> next_back l <> None) as K.
    { induction l as [|u [|v l] IHl]; [congruence|discriminate|intros _; apply IHl; discriminate]. }
    change (next_back (x :: z :: b)) with (next_back (z :: b)). destruct (next_back (z :: b)) eqn:E; [reflexivity|].
    exfalso. apply (K (z :: b)); [discriminate|exact E].
  - exact IH.
Qed.

Lemma lossy_whole : forall a b, whole a -> lossy (a ++ b) = lossy a ++ lossy b /\ whole (lossy a).
Proof.
  intros a b [->|[a' ->]]; [split; [reflexivity|now left]|]. rewrite <- app_assoc. cbn [app]. split; [apply lossy_split|].
  right. destruct (lossy_nl a') as [t E]. now exists t.
Qed.

Definition bfinal (s : list byte) : text := final (lossy s).

Lemma final_app : forall a b, whole a -> bfinal (a ++ b) = match next_back (nonblank (lossy b)) with Some l => l | None => bfinal a end.
Proof.
  intros a b W. unfold bfinal, final, nonblank. destruct (lossy_whole a b W) as [-> W'].
  rewrite lines_whole by exact W'. rewrite filter_app, next_back_app.
  destruct (next_back (filter _ (lines (lossy b)))); reflexivity.
Qed.

Lemma whole_app : forall a b, whole a -> whole b -> whole (a ++ b).
Proof.
  intros a b A [->|[b' ->]]; [now rewrite app_nil_r|]. right. exists (a ++ b'). now rewrite app_assoc.
Qed.

Lemma run_final : forall es content t, whole content -> whole_writes es ->
  (exists old new, content = old ++ new /\ tl_pos t = length old /\ whole old /\ tl_last t = bfinal old) ->
  run content t es = map bfinal (seen content es).
Proof.
  induction es as [|[s|] es IH]; intros content t W WW [old [new [E [P [Wo L]]]]]; [reflexivity| |].
  - cbn [run seen]. apply IH.
    + apply whole_app; [exact W|]. apply WW. now left.
    + intros u U. apply WW. now right.
    + exists old, (new ++ s). subst content. rewrite app_assoc. auto.
  - cbn [run seen map last_line].
    assert (match next_back (filter (fun l => negb (blank l)) (lines (lossy (skipn (tl_pos t) content)))) with Some l => l | None => tl_last t end = bfinal content) as K.
    { rewrite P. subst content. rewrite skipn_app, skipn_all, PeanoNat.Nat.sub_diag. cbn [skipn app].
      rewrite (final_app old new Wo), L. reflexivity. }
    rewrite K. f_equal. apply IH; [exact W|intros u U; apply WW; now right|].
    exists content, []. rewrite app_nil_r. auto.
Qed.

Lemma blank_iff : forall l, blank l = true <-> forall c, In c l -> is_whitespace c = true.
Proof. intros l. unfold blank. apply forallb_forall. Qed.

Lemma next_back_filter : forall A (f : A -> bool) l,
  match next_back (filter f l) with
  | Some x => exists a b, l = a ++ [x] ++ b /\ f x = true /\ (forall y, In y b -> f y = false)
  | None => forall y, In y l -> f y = false
  end.
Proof.
  intros A f l. induction l as [|x l IH] using rev_ind; [intros y []|].
  rewrite filter_app, next_back_app. cbn [filter]. destruct (f x) eqn:E.
  - cbn [next_back]. exists l, []. rewrite app_nil_r. split; [reflexivity|]. split; [exact E|intros y []].
  - cbn [next_back]. destruct (next_back (filter f l)) as [z|].
    + destruct IH as [a [b [H1 [H2 H3]]]]. exists a, (b ++ [x]). subst l. rewrite <- !app_assoc. cbn [app].
      split; [reflexivity|]. split; [exact H2|]. intros y Hy. apply in_app_iff in Hy. destruct Hy as [Hy|[<-|[]]]; auto.
    + intros y Hy. apply in_app_iff in Hy. destruct Hy as [Hy|[<-|[]]]; auto.
Qed.

Lemma final_shows : forall s, shows s (final s).
Proof.
  intros s. unfold final, nonblank. pose proof (next_back_filter _ (fun l => negb (blank l)) (lines s)) as K.
  destruct (next_back _) as [l|].
  - left. destruct K as [a [b [E [F G]]]]. exists a, b. split; [exact E|]. split.
    + apply negb_true_iff in F. unfold blank in F. 
      assert (existsb (fun c => negb (is_whitespace c)) l = true) as X.
      { clear - F. induction l as [|c l IH]; [discriminate|]. cbn in *. destruct (is_whitespace c); [cbn in *; auto|reflexivity]. }
      apply existsb_exists in X. destruct X as [c [X1 X2]]. exists c. split; [exact X1|now apply negb_true_iff].
    + intros x Hx. apply blank_iff. specialize (G x Hx). now apply negb_false_iff in G.
  - right. split; [reflexivity|]. intros x Hx. apply blank_iff. specialize (K x Hx). now apply negb_false_iff in K.
Qed.

Lemma c37 : forall es, whole_writes es -> Forall2 file_shows (seen [] es) (run [] tail_new es).
Proof.
  intros es W. rewrite (run_final es [] tail_new).
  - induction (seen [] es) as [|s l IH]; [constructor|]. cbn [map]. constructor; [apply final_shows|exact IH].
  - now left.
  - exact W.
  - exists [], []. split; [reflexivity|]. split; [reflexivity|]. split; [now left|reflexivity].
Qed.

Lemma shows_fun : forall s a b, shows s a -> shows s b -> a = b.
Proof.
  intros s a b [[x [y [E [[c [Hc Nc]] Y]]]]|[-> K1]] [[x' [y' [E' [[c' [Hc' Nc']] Y']]]]|[-> K2]].
  - rewrite E in E'. clear E. revert x' E'. induction x as [|w x IH]; intros [|w' x'] E'; cbn [app] in E'.
    + now injection E' as ->.
    + injection E' as -> ->. exfalso. assert (is_whitespace c' = true); [|congruence].
      apply (Y b); [|exact Hc']. apply in_app_iff. right. now left.
    + injection E' as -> <-. exfalso. assert (is_whitespace c = true); [|congruence].
      apply (Y' a); [|exact Hc]. apply in_app_iff. right. now left.
    + injection E' as _ E'. eauto.
  - exfalso. assert (is_whitespace c = true); [|congruence]. apply (K2 a); [|exact Hc]. rewrite E. apply in_app_iff. right. now left.
  - exfalso. assert (is_whitespace c' = true); [|congruence]. apply (K1 b); [|exact Hc']. rewrite E'. apply in_app_iff. right. now left.
  - reflexivity.
Qed.

(** ** Decoding *)
Lemma div_join : forall q m k, (m < k)%N -> ((q * k + m) / k = q)%N /\ ((q * k + m) mod k = m)%N.
Proof.
  intros q m k H. split.
  - rewrite N.div_add_l by lia. rewrite N.div_small by exact H. lia.
  - rewrite N.add_comm, N.mod_add by lia. now apply N.mod_small.
Qed.

Lemma encode_join2 : forall a b, (194 <= a <= 223)%N -> (128 <= b <= 191)%N -> encode_char (join2 a b) = [a; b].
Proof.
  intros a b A B. unfold encode_char, join2.
  destruct (div_join (a - 192) (b - 128) 64 ltac:(lia)) as [-> ->].
  destruct (N.ltb_spec ((a - 192) * 64 + (b - 128)) 128); [lia|].
  destruct (N.ltb_spec ((a - 192) * 64 + (b - 128)) 2048); [|lia].
  repeat (f_equal; try lia).
Qed.

Lemma encode_join3 : forall a b c, (224 <= a <= 239)%N -> (128 <= b <= 191)%N -> (a = 224 -> 160 <= b)%N -> (128 <= c <= 191)%N ->
  encode_char (join3 a b c) = [a; b; c].
Proof.
  intros a b c A B B' C. unfold encode_char, join3.
  replace ((a - 224) * 4096 + (b - 128) * 64 + (c - 128))%N with (((a - 224) * 64 + (b - 128)) * 64 + (c - 128))%N by lia.
  destruct (div_join ((a - 224) * 64 + (b - 128)) (c - 128) 64 ltac:(lia)) as [E1 E2].
  replace (_ / 4096)%N with ((((a - 224) * 64 + (b - 128)) * 64 + (c - 128)) / 64 / 64)%N by (rewrite N.div_div by lia; reflexivity).
  rewrite E1, E2. destruct (div_join (a - 224) (b - 128) 64 ltac:(lia)) as [-> ->].
  set (x := (((a - 224) * 64 + (b - 128)) * 64 + (c - 128))%N) in *.
  assert (2048 <= x < 65536)%N by (unfold x; lia).
  destruct (N.ltb_spec x 128); [lia|]. destruct (N.ltb_spec x 2048); [lia|]. destruct (N.ltb_spec x 65536); [|lia].
  repeat (f_equal; try lia).
Qed.

Lemma encode_join4 : forall a b c d, (240 <= a <= 244)%N -> (128 <= b <= 191)%N -> (a = 240 -> 144 <= b)%N -> (128 <= c <= 191)%N -> (128 <= d <= 191)%N ->
  encode_char (join4 a b c d) = [a; b; c; d].
Proof.
  intros a b c d A B B' C D. unfold encode_char, join4.
  replace ((a - 240) * 262144 + (b - 128) * 4096 + (c - 128) * 64 + (d - 128))%N
    with ((((a - 240) * 64 + (b - 128)) * 64 + (c - 128)) * 64 + (d - 128))%N by lia.
  destruct (div_join (((a - 240) * 64 + (b - 128)) * 64 + (c - 128)) (d - 128) 64 ltac:(lia)) as [E1 E2].
  set (x := ((((a - 240) * 64 + (b - 128)) * 64 + (c - 128)) * 64 + (d - 128))%N) in *.
  replace (x / 262144)%N with (x / 64 / 64 / 64)%N by (rewrite !N.div_div by lia; reflexivity).
  replace (x / 4096)%N with (x / 64 / 64)%N by (rewrite N.div_div by lia; reflexivity).
  rewrite E1, E2. destruct (div_join ((a - 240) * 64 + (b - 128)) (c - 128) 64 ltac:(lia)) as [-> ->].
  destruct (div_join (a - 240) (b - 128) 64 ltac:(lia)) as [-> ->].
  assert (65536 <= x)%N by (unfold x; lia).
  destruct (N.ltb_spec x 128); [lia|]. destruct (N.ltb_spec x 2048); [lia|]. destruct (N.ltb_spec x 65536); [lia|].
  repeat (f_equal; try lia).
Qed.

(** A beginning that is read as broken is not that of a character. *)
Lemma not_char : forall bs r, lossy bs = bad :: r -> (forall s, bs <> [239; 191; 189]%N ++ s) ->
  forall d s, scalar d = true -> bs <> encode_char d ++ s.
Proof.
  intros bs r L N d s Hd ->. rewrite lossy_char in L by exact Hd. injection L as -> _. apply (N s). reflexivity.
Qed.

Lemma lossy_pieces : forall bs, exists ps, bs = concat (map fst ps) /\ lossy bs = map snd ps /\ pieces ps.
Proof.
  assert (forall n bs, length bs <= n -> exists ps, bs = concat (map fst ps) /\ lossy bs = map snd ps /\ pieces ps) as K;
    [|intros bs; apply (K (length bs)); lia].
  induction n as [|n IH]; intros bs H; [destruct bs; [exists []; repeat split|cbn in H; lia]|].
  assert (G : forall c r, scalar c = true -> bs = encode_char c ++ r -> lossy bs = c :: lossy r -> length r < length bs ->
    exists ps, bs = concat (map fst ps) /\ lossy bs = map snd ps /\ pieces ps).
  { intros c r Sc E L Lr. destruct (IH r ltac:(lia)) as [ps [E1 [E2 E3]]]. exists ((encode_char c, c) :: ps).
    cbn [map concat fst snd pieces]. rewrite <- E1, <- E2, L. split; [exact E|]. split; [reflexivity|]. split; [left; auto|exact E3]. }
  assert (B : forall p r, 1 <= length p <= 3 -> bs = p ++ r -> lossy bs = bad :: lossy r -> (forall s, bs <> [239; 191; 189]%N ++ s) ->
    exists ps, bs = concat (map fst ps) /\ lossy bs = map snd ps /\ pieces ps).
  { intros p r Lp E L N. destruct (IH r) as [ps [E1 [E2 E3]]]; [rewrite E, app_length in H; lia|]. exists ((p, bad) :: ps).
    cbn [map concat fst snd pieces]. rewrite <- E1, <- E2, L. split; [exact E|]. split; [reflexivity|]. split; [|exact E3]. right.
    split; [reflexivity|]. split; [exact Lp|]. rewrite <- E. exact (not_char bs _ L N). }
  destruct bs as [|x1 a]; [exists []; repeat split|].
  destruct (N.ltb_spec x1 128%N) as [L1|L1].
  { apply (G x1 a); [apply scalar_iff; lia| | |cbn; lia].
    - unfold encode_char. destruct (N.ltb_spec x1 128); [reflexivity|lia].
    - cbn [lossy]. destruct (N.ltb_spec x1 128); [reflexivity|lia]. }
  assert (E0 : N.ltb x1 128 = false) by (apply N.ltb_ge; exact L1).
  destruct (between 194%N 223%N x1) eqn:B1.
  { pose proof B1 as B1'. apply between_iff in B1'. destruct a as [|x2 a].
    - apply (B [x1] []); [cbn; lia|reflexivity|cbn [lossy]; now rewrite E0, B1|]. intros s [=]. 
    - destruct (cont x2) eqn:C2.
      + pose proof C2 as C2'. apply between_iff in C2'. apply (G (join2 x1 x2) a); [apply scalar_iff; unfold join2; lia| | |cbn; lia].
        * now rewrite encode_join2.
        * cbn [lossy]. now rewrite E0, B1, C2.
      + apply (B [x1] (x2 :: a)); [cbn; lia|reflexivity|cbn [lossy]; now rewrite E0, B1, C2|]. intros s [= -> _]. discriminate B1. }
  destruct (between 224%N 239%N x1) eqn:B2.
  { pose proof B2 as B2'. apply between_iff in B2'. destruct a as [|x2 a].
    { apply (B [x1] []); [cbn; lia|reflexivity|cbn [lossy]; now rewrite E0, B1, B2|]. intros s [=]. }
    destruct (second3 x1 x2) eqn:C2.
    2:{ apply (B [x1] (x2 :: a)); [cbn; lia|reflexivity|cbn [lossy]; now rewrite E0, B1, B2, C2|]. intros s [= -> -> _]. discriminate C2. }
    destruct a as [|x3 a].
    { apply (B [x1; x2] []); [cbn; lia|reflexivity|cbn [lossy]; now rewrite E0, B1, B2, C2|]. intros s [=]. }
    destruct (cont x3) eqn:C3.
    2:{ apply (B [x1; x2] (x3 :: a)); [cbn; lia|reflexivity|cbn [lossy]; now rewrite E0, B1, B2, C2, C3|]. intros s [= -> -> -> _]. discriminate C3. }
    pose proof C3 as C3'. apply between_iff in C3'.
    assert (R : (128 <= x2 <= 191)%N /\ (x1 = 224 -> 160 <= x2)%N /\ (x1 = 237 -> x2 <= 159)%N).
    { unfold second3 in C2. destruct (N.eqb_spec x1 224%N); [apply between_iff in C2; lia|].
      destruct (N.eqb_spec x1 237%N); apply between_iff in C2; lia. }
    apply (G (join3 x1 x2 x3) a); [apply scalar_iff; unfold join3; lia| | |cbn; lia].
    - rewrite encode_join3; try lia. reflexivity.
    - cbn [lossy]. now rewrite E0, B1, B2, C2, C3. }
  destruct (between 240%N 244%N x1) eqn:B3.
  { pose proof B3 as B3'. apply between_iff in B3'. destruct a as [|x2 a].
    { apply (B [x1] []); [cbn; lia|reflexivity|cbn [lossy]; now rewrite E0, B1, B2, B3|]. intros s [=]. }
    destruct (second4 x1 x2) eqn:C2.
    2:{ apply (B [x1] (x2 :: a)); [cbn; lia|reflexivity|cbn [lossy]; now rewrite E0, B1, B2, B3, C2|]. intros s [= -> _]. discriminate B2. }
    destruct a as [|x3 a].
    { apply (B [x1; x2] []); [cbn; lia|reflexivity|cbn [lossy]; now rewrite E0, B1, B2, B3, C2|]. intros s [=]. }
    destruct (cont x3) eqn:C3.
    2:{ apply (B [x1; x2] (x3 :: a)); [cbn; lia|reflexivity|cbn [lossy]; now rewrite E0, B1, B2, B3, C2, C3|]. intros s [= -> _]. discriminate B2. }
    destruct a as [|x4 a].
    { apply (B [x1; x2; x3] []); [cbn; lia|reflexivity|cbn [lossy]; now rewrite E0, B1, B2, B3, C2, C3|]. intros s [= -> _]. discriminate B2. }
    destruct (cont x4) eqn:C4.
    2:{ apply (B [x1; x2; x3] (x4 :: a)); [cbn; lia|reflexivity|cbn [lossy]; now rewrite E0, B1, B2, B3, C2, C3, C4|]. intros s [= -> _]. discriminate B2. }
    pose proof C3 as C3'. apply between_iff in C3'. pose proof C4 as C4'. apply between_iff in C4'.
    assert (R : (128 <= x2 <= 191)%N /\ (x1 = 240 -> 144 <= x2)%N /\ (x1 = 244 -> x2 <= 143)%N).
    { unfold second4 in C2. destruct (N.eqb_spec x1 240%N); [apply between_iff in C2; lia|].
      destruct (N.eqb_spec x1 244%N); apply between_iff in C2; lia. }
    apply (G (join4 x1 x2 x3 x4) a); [apply scalar_iff; unfold join4; lia| | |cbn; lia].
    - rewrite encode_join4; try lia. reflexivity.
    - cbn [lossy]. now rewrite E0, B1, B2, B3, C2, C3, C4. }
  apply (B [x1] a); [cbn; lia|reflexivity|cbn [lossy]; now rewrite E0, B1, B2, B3|]. intros s [= -> _]. discriminate B2.
Qed.
