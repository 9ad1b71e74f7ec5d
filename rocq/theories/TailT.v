From Coq Require Import String List NArith Bool Lia.
Import ListNotations.
From Verif Require Import Text Utf8M Utf8P InDiffM TailM TailS TailP.

(** C37: if writes are of whole lines, each poll shows the last line that is not blank of
    what was written so far, whatever the bytes. (Without the condition it is false, see
    C37_partial_writes_refuted.) *)
Theorem C37_last_line : forall es, whole_writes es -> Forall2 file_shows (seen [] es) (run [] tail_new es).
Proof. exact c37. Qed.
Print Assumptions C37_last_line.

(** ... where a file that holds a text is read as that text. *)
Theorem C37_read : forall t l, Forall (fun c => scalar c = true) t -> file_shows (encode t) l <-> shows t l.
Proof. intros t l H. unfold file_shows. now rewrite lossy_encode. Qed.
Print Assumptions C37_read.

(** ... any other bytes piece by piece ... *)
Theorem C37_decoding : forall bs, exists ps, bs = concat (map fst ps) /\ lossy bs = map snd ps /\ pieces ps.
Proof. exact lossy_pieces. Qed.
Print Assumptions C37_decoding.

(** ... and there is only one such line. *)
Theorem C37_unique : forall s a b, shows s a -> shows s b -> a = b.
Proof. exact shows_fun. Qed.
Print Assumptions C37_unique.

Example C37_case : run [] tail_new
  [Poll; Append (tx "one" ++ [NL; SP; NL]); Poll; Append (tx "two" ++ [CR; NL]); Append (tx "three" ++ [NL]); Poll; Poll; Append [NL]; Poll]
  = [[]; tx "one"; tx "three"; tx "three"; tx "three"].
Proof. vm_compute. reflexivity. Qed.

(** "é" and a broken byte. *)
Example C37_case_bytes : run [] tail_new [Append [195; 169; 255; 10]%N; Poll] = [[233; 65533]%N]
  /\ encode [233; 8364; 128512]%N = [195; 169; 226; 130; 172; 240; 159; 152; 128]%N.
Proof. vm_compute. split; reflexivity. Qed.

(** An overlong form of "/", a surrogate, and the first bytes of a character. *)
Example C37_case_broken : lossy [224; 128; 175; 237; 160; 128; 65; 240; 159; 152]%N = [bad; bad; bad; bad; bad; bad; 65%N; bad]
  /\ pieces [([195; 169]%N, 233%N); ([240; 159; 152]%N, bad)].
Proof.
  split; [vm_compute; reflexivity|]. split; [left; split; reflexivity|]. split; [|exact I]. right. split; [reflexivity|].
  split; [cbn; lia|]. intros d s Hd E. pose proof (lossy_char d s Hd) as L. rewrite <- E in L. vm_compute in L.
  injection L as L1 L2. subst d. vm_compute in E. discriminate E.
Qed.

(** Without whole-line writes it fails: only the part written since the last poll is
    shown. *)
Theorem C37_partial_writes_refuted : exists es, ~ Forall2 file_shows (seen [] es) (run [] tail_new es).
Proof.
  exists [Append (tx "ab"); Poll; Append (tx "cd" ++ [NL]); Poll]. intros H.
  inversion H as [|? ? ? ? _ H2]; subst. inversion H2 as [|? ? ? ? H3 _]; subst.
  assert (shows (tx "abcd" ++ [NL]) (tx "abcd")) as K.
  { left. exists [], []. split; [reflexivity|]. split; [exists 97%N; split; [now left|reflexivity]|intros x []]. }
  pose proof (shows_fun _ _ _ H3 K) as E. discriminate E.
Qed.
Print Assumptions C37_partial_writes_refuted.
