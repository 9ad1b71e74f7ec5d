From Coq Require Import List NArith Bool Lia.
Import ListNotations.
From Verif Require Import Text Utf8M.

Lemma between_iff : forall lo hi b, between lo hi b = true <-> (lo <= b <= hi)%N.
Proof. intros. unfold between. rewrite andb_true_iff, !N.leb_le. reflexivity. Qed.

Lemma between_no : forall lo hi b, (b < lo \/ hi < b)%N -> between lo hi b = false.
Proof.
  intros lo hi b H. destruct (between lo hi b) eqn:E; [|reflexivity]. apply between_iff in E. lia.
Qed.

Ltac branch :=
  repeat match goal with
  | |- context [if ?b then _ else _] =>
      first [ replace b with true by (symmetry; first [apply N.ltb_lt; lia | apply between_iff; lia])
            | replace b with false by (symmetry; first [apply N.ltb_ge; lia | apply between_no; lia]) ]
  end.

(** A newline is never inside a character. *)
Lemma second3_nl : forall a, second3 a NL = false.
Proof. intros a. unfold second3. destruct (N.eqb a 224%N); [reflexivity|]. destruct (N.eqb a 237%N); reflexivity. Qed.
Lemma second4_nl : forall a, second4 a NL = false.
Proof. intros a. unfold second4. destruct (N.eqb a 240%N); [reflexivity|]. destruct (N.eqb a 244%N); reflexivity. Qed.

Lemma lossy_split_aux : forall n a b, length a <= n -> lossy (a ++ NL :: b) = lossy (a ++ [NL]) ++ lossy b.
Proof.
  induction n as [|n IH]; intros a b H.
  - destruct a; [reflexivity|cbn in H; lia].
  - assert (forall x r, length r < length a -> x :: lossy (r ++ NL :: b) = (x :: lossy (r ++ [NL])) ++ lossy b) as K.
    { intros x r Hr. cbn [app]. f_equal. apply IH. lia. }
    assert (forall x, x :: lossy (NL :: b) = (x :: lossy [NL]) ++ lossy b) as K0 by reflexivity.
    destruct a as [|x1 a]; [reflexivity|]. 
    cbn [app lossy].
    destruct (N.ltb x1 128%N); [apply K; cbn; lia|].
    destruct (between 194%N 223%N x1).
    { destruct a as [|x2 a]; cbn [app]; [exact (K0 bad)|].
      destruct (cont x2); [apply K; cbn; lia|apply (K bad (x2 :: a)); cbn; lia]. }
    destruct (between 224%N 239%N x1).
    { destruct a as [|x2 a]; cbn [app]; [rewrite second3_nl; exact (K0 bad)|].
      destruct (second3 x1 x2); [|apply (K bad (x2 :: a)); cbn; lia].
      destruct a as [|x3 a]; cbn [app]; [exact (K0 bad)|].
      destruct (cont x3); [apply K; cbn; lia|apply (K bad (x3 :: a)); cbn; lia]. }
    destruct (between 240%N 244%N x1).
    { destruct a as [|x2 a]; cbn [app]; [rewrite second4_nl; exact (K0 bad)|].
      destruct (second4 x1 x2); [|apply (K bad (x2 :: a)); cbn; lia].
      destruct a as [|x3 a]; cbn [app]; [exact (K0 bad)|].
      destruct (cont x3); [|apply (K bad (x3 :: a)); cbn; lia].
      destruct a as [|x4 a]; cbn [app]; [exact (K0 bad)|].
      destruct (cont x4); [apply K; cbn; lia|apply (K bad (x4 :: a)); cbn; lia]. }
    apply (K bad a). cbn. lia.
Qed.

Lemma lossy_split : forall a b, lossy (a ++ NL :: b) = lossy (a ++ [NL]) ++ lossy b.
Proof. intros a b. apply (lossy_split_aux (length a)). lia. Qed.

Lemma lossy_nl : forall a, exists t, lossy (a ++ [NL]) = t ++ [NL].
Proof.
  assert (forall n a, length a <= n -> exists t, lossy (a ++ [NL]) = t ++ [NL]) as K;
    [|intros a; apply (K (length a)); lia].
  induction n as [|n IH]; intros a H.
  - destruct a; [exists []; reflexivity|cbn in H; lia].
  - assert (forall x r, length r < length a -> exists t, x :: lossy (r ++ [NL]) = t ++ [NL]) as K.
    { intros x r Hr. destruct (IH r) as [t E]; [lia|]. exists (x :: t). now rewrite E. }
    assert (forall x, exists t, x :: lossy [NL] = t ++ [NL]) as K0 by (intros x; exists [x]; reflexivity).
    destruct a as [|x1 a]; [exists []; reflexivity|]. 
    cbn [app lossy].
    destruct (N.ltb x1 128%N); [apply K; cbn; lia|].
    destruct (between 194%N 223%N x1).
    { destruct a as [|x2 a]; cbn [app]; [exact (K0 bad)|].
      destruct (cont x2); [apply K; cbn; lia|apply (K bad (x2 :: a)); cbn; lia]. }
    destruct (between 224%N 239%N x1).
    { destruct a as [|x2 a]; cbn [app]; [rewrite second3_nl; exact (K0 bad)|].
      destruct (second3 x1 x2); [|apply (K bad (x2 :: a)); cbn; lia].
      destruct a as [|x3 a]; cbn [app]; [exact (K0 bad)|].
      destruct (cont x3); [apply K; cbn; lia|apply (K bad (x3 :: a)); cbn; lia]. }
    destruct (between 240%N 244%N x1).
    { destruct a as [|x2 a]; cbn [app]; [rewrite second4_nl; exact (K0 bad)|].
      destruct (second4 x1 x2); [|apply (K bad (x2 :: a)); cbn; lia].
      destruct a as [|x3 a]; cbn [app]; [exact (K0 bad)|].
      destruct (cont x3); [|apply (K bad (x3 :: a)); cbn; lia].
      destruct a as [|x4 a]; cbn [app]; [exact (K0 bad)|].
      destruct (cont x4); [apply K; cbn; lia|apply (K bad (x4 :: a)); cbn; lia]. }
    apply (K bad a). cbn. lia.
Qed.

(** Reading what was written. *)
Lemma divmod : forall a b, (0 < b)%N -> (a = b * (a / b) + a mod b /\ a mod b < b)%N.
Proof. intros a b H. split; [apply N.div_mod; lia|apply N.mod_lt; lia]. Qed.

Lemma lossy_char : forall c r, scalar c = true -> lossy (encode_char c ++ r) = c :: lossy r.
Proof.
  intros c r Hs. unfold scalar in Hs. rewrite orb_true_iff, andb_true_iff, N.ltb_lt, !N.leb_le in Hs.
  unfold encode_char. destruct (N.ltb_spec c 128%N) as [L1|L1].
  { cbn [app lossy]. branch. reflexivity. }
  pose proof (divmod c 64 ltac:(lia)) as [D0 M0].
  destruct (N.ltb_spec c 2048%N) as [L2|L2].
  { cbn [app lossy]. set (q := (c / 64)%N) in *. set (m := (c mod 64)%N) in *. clearbody q m.
    unfold cont. branch. f_equal. unfold join2. lia. }
  pose proof (divmod (c / 64) 64 ltac:(lia)) as [D1 M1].
  rewrite N.div_div in D1 by lia. change (64 * 64)%N with 4096%N in *.
  destruct (N.ltb_spec c 65536%N) as [L3|L3].
  { cbn [app lossy]. set (q := (c / 4096)%N) in *. set (m := (c mod 64)%N) in *.
    set (p := ((c / 64) mod 64)%N) in *. set (s := (c / 64)%N) in *. clearbody q m p s.
    unfold cont. branch.
    assert (second3 (224 + q)%N (128 + p)%N = true) as E2.
    { unfold second3. destruct (N.eqb_spec (224 + q)%N 224%N); [apply between_iff; lia|].
      destruct (N.eqb_spec (224 + q)%N 237%N); apply between_iff; lia. }
    rewrite E2. branch. f_equal. unfold join3. lia. }
  pose proof (divmod (c / 4096) 64 ltac:(lia)) as [D2 M2].
  rewrite N.div_div in D2 by lia. change (4096 * 64)%N with 262144%N in *.
  cbn [app lossy]. set (q := (c / 262144)%N) in *. set (m := (c mod 64)%N) in *.
  set (p := ((c / 64) mod 64)%N) in *. set (s := (c / 64)%N) in *.
  set (p' := ((c / 4096) mod 64)%N) in *. set (s' := (c / 4096)%N) in *. clearbody q m p s p' s'.
  unfold cont. branch.
  assert (second4 (240 + q)%N (128 + p')%N = true) as E2.
  { unfold second4. destruct (N.eqb_spec (240 + q)%N 240%N); [apply between_iff; lia|].
    destruct (N.eqb_spec (240 + q)%N 244%N); apply between_iff; lia. }
  rewrite E2. branch. f_equal. unfold join4. lia.
Qed.

Lemma lossy_encode : forall t, Forall (fun c => scalar c = true) t -> lossy (encode t) = t.
Proof.
  induction 1 as [|c t H _ IH]; [reflexivity|]. change (encode (c :: t)) with (encode_char c ++ encode t).
  rewrite lossy_char by exact H. now rewrite IH.
Qed.

Lemma bytes_eqb_iff : forall a b, bytes_eqb a b = true <-> a = b.
Proof.
  induction a as [|x a IH]; intros [|y b]; cbn; [tauto|split; discriminate|split; discriminate|].
  rewrite andb_true_iff, N.eqb_eq, IH. split; [intros [-> ->]; reflexivity|intros E; injection E as -> ->; auto].
Qed.

Lemma from_utf8_encode : forall t, Forall (fun c => scalar c = true) t -> from_utf8 (encode t) = Some t.
Proof.
  intros t H. unfold from_utf8. rewrite lossy_encode by exact H.
  destruct (bytes_eqb (encode t) (encode t)) eqn:E; [reflexivity|].
  assert (bytes_eqb (encode t) (encode t) = true) by now apply bytes_eqb_iff. congruence.
Qed.

Lemma from_utf8_some : forall bs t, from_utf8 bs = Some t -> bs = encode t.
Proof.
  intros bs t H. unfold from_utf8 in H. destruct (bytes_eqb _ _) eqn:E; [|discriminate].
  injection H as <-. symmetry. now apply bytes_eqb_iff.
Qed.

(** Reading gives only characters, for bytes. *)
Lemma scalar_iff : forall c, scalar c = true <-> (c < 55296 \/ 57344 <= c <= 1114111)%N.
Proof. intros c. unfold scalar. rewrite orb_true_iff, andb_true_iff, N.ltb_lt, !N.leb_le. reflexivity. Qed.

Lemma lossy_scalar : forall bs, Forall (fun c => scalar c = true) (lossy bs).
Proof.
  assert (forall n bs, length bs <= n -> Forall (fun c => scalar c = true) (lossy bs)) as K;
    [|intros bs; apply (K (length bs)); lia].
  induction n as [|n IH]; intros bs H; [destruct bs; [constructor|cbn in H; lia]|].
  assert (forall x r, scalar x = true -> length r < length bs -> Forall (fun c => scalar c = true) (x :: lossy r)) as K.
  { intros x r Hx Hr. constructor; [exact Hx|apply IH; lia]. }
  assert (Forall (fun c => scalar c = true) [bad]) as K0 by (repeat constructor).
  destruct bs as [|x1 a]; [constructor|]. cbn [lossy].
  destruct (N.ltb_spec x1 128%N); [apply K; [apply scalar_iff; lia|cbn; lia]|].
  destruct (between 194%N 223%N x1) eqn:B1.
  { apply between_iff in B1. destruct a as [|x2 a]; [exact K0|]. destruct (cont x2) eqn:C2.
    - apply between_iff in C2. apply K; [apply scalar_iff; unfold join2; lia|cbn; lia].
    - apply K; [reflexivity|cbn; lia]. }
  destruct (between 224%N 239%N x1) eqn:B2.
  { apply between_iff in B2. destruct a as [|x2 a]; [exact K0|]. destruct (second3 x1 x2) eqn:C2; [|apply K; [reflexivity|cbn; lia]].
    destruct a as [|x3 a]; [exact K0|]. destruct (cont x3) eqn:C3; [|apply K; [reflexivity|cbn; lia]].
    apply between_iff in C3. apply K; [|cbn; lia]. apply scalar_iff. unfold join3, second3 in *.
    destruct (N.eqb_spec x1 224%N); [apply between_iff in C2; lia|].
    destruct (N.eqb_spec x1 237%N); apply between_iff in C2; lia. }
  destruct (between 240%N 244%N x1) eqn:B3.
  { apply between_iff in B3. destruct a as [|x2 a]; [exact K0|]. destruct (second4 x1 x2) eqn:C2; [|apply K; [reflexivity|cbn; lia]].
    destruct a as [|x3 a]; [exact K0|]. destruct (cont x3) eqn:C3; [|apply K; [reflexivity|cbn; lia]].
    destruct a as [|x4 a]; [exact K0|]. destruct (cont x4) eqn:C4; [|apply K; [reflexivity|cbn; lia]].
    apply between_iff in C3. apply between_iff in C4. apply K; [|cbn; lia]. apply scalar_iff. unfold join4, second4 in *.
    destruct (N.eqb_spec x1 240%N); [apply between_iff in C2; lia|].
    destruct (N.eqb_spec x1 244%N); apply between_iff in C2; lia. }
  apply K; [reflexivity|cbn; lia].
Qed.

Lemma from_utf8_iff : forall bs t, from_utf8 bs = Some t <-> (bs = encode t /\ Forall (fun c => scalar c = true) t).
Proof.
  intros bs t. split.
  - intros H. split; [now apply from_utf8_some|]. unfold from_utf8 in H. destruct (bytes_eqb _ _); [|discriminate].
    injection H as <-. apply lossy_scalar.
  - intros [-> H]. now apply from_utf8_encode.
Qed.
