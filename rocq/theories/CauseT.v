(** Property theorems: C43 and C12, where errors come from. *)
From Coq Require Import String List NArith ZArith Bool Permutation Lia.
From Verif Require Import Text SpanM PathM PathS MutantM ProcessM OutcomeM OutputM OutputS IterateM LabM LabS LabP LabT CauseS CauseP.
Import ListNotations.

(** C43: no error without a cause: if writing files does not fail and the copies have the files of the mutants, a run
    that ends with an error was told by cargo of an error or an interrupt, or could not copy the tree. *)
Theorem C43_root_cause : forall P o0 t0 ms sh ws, pa_faults P = false -> pa_write_faults P = false ->
  (forall m, In m ms -> pa_source P (file_key m) = true) -> copies_complete ms sh ->
  reachable P o0 t0 ms (mkLS sh (MEnd RErr) ws) -> had_trouble P o0 t0 ms (mkLS sh (MEnd RErr) ws).
Proof.
  intros P o0 t0 ms sh ws Hf Hw Hs C H. destruct (root_cause P o0 t0 ms Hf Hw Hs _ H C) as [T|K]; [exact T|].
  exfalso. apply K. reflexivity.
Qed.
Print Assumptions C43_root_cause.

(** The run of C43_case: the interrupt of worker 0 is the cause. *)
Definition ex_before := ex_run ex_P2 ex_both.
Definition ex_then := ex_run ex_P2 (ex_both ++ [(0, None)]).
Lemma ex_step : step ex_P2 2 ex_before ex_then.
Proof. apply exec1_sound with (0, None). vm_compute. reflexivity. Qed.
Lemma ex_rest : steps ex_P2 2 ex_then ex_int.
Proof. apply exec_steps with (ok 0 1 ++ fails 1 ++ ok 1 8 ++ ok 0 1). vm_compute. reflexivity. Qed.
Definition ex_c := nth 0 (threads ex_before) WInit.
Definition ex_c' := nth 0 (threads ex_then) WInit.
Example C43_case_cause : had_trouble ex_P2 ex_out (pa_root ex_P2) ex_ms ex_int
  /\ ls_main ex_int = MEnd RErr /\ copies_complete ex_ms (ls_sh ex_int).
Proof.
  split; [|split].
  - exists ex_before, ex_then, 0, ex_c, ex_c'. split; [apply ex_reach|]. split; [exact ex_step|]. split; [exact ex_rest|].
    vm_compute. repeat split.
  - vm_compute. reflexivity.
  - intros t m Ht Hm. vm_compute in Ht. destruct Ht as [<-|[<-|[]]]; destruct Hm as [<-|[<-|[]]]; vm_compute; discriminate.
Qed.

(** C12: hence a run without trouble tests every mutant, unless the baseline fails. *)
Theorem C12_all_tested : forall P o0 t0 ms sh r ws, pa_faults P = false -> pa_write_faults P = false ->
  (forall m, In m ms -> mutant_name true m <> None /\ pa_source P (file_key m) = true) -> copies_complete ms sh ->
  reachable P o0 t0 ms (mkLS sh (MEnd r) ws) -> ~ had_trouble P o0 t0 ms (mkLS sh (MEnd r) ws) ->
  exists l, r = ROk l /\
    (Permutation (recorded l) ms
     \/ (recorded l = [] /\ exists o, In o (lo_outcomes l) /\ oc_scenario o = Baseline /\ oc_success o = Some false)).
Proof.
  intros P o0 t0 ms sh r ws Hf Hw Hm C H N. destruct r as [l| |].
  - exists l. split; [reflexivity|]. eapply C12_all_recorded. exact H.
  - exfalso. apply N. eapply C43_root_cause; try eassumption. intros m Hi. apply Hm. exact Hi.
  - exfalso. eapply C12_no_panic; [|exact H|reflexivity]. intros m Hi. apply Hm. exact Hi.
Qed.
Print Assumptions C12_all_tested.

(** The run of C12_case: two directories, each with the file. *)
Example C12_case_tested : copies_complete ex_ms (ls_sh ex_end) /\ length (sh_base (ls_sh ex_end)) = 2
  /\ (forall m, In m ex_ms -> mutant_name true m <> None /\ pa_source ex_P2 (file_key m) = true)
  /\ exists l, ls_main ex_end = MEnd (ROk l) /\ recorded l = [ex_minus; ex_plus].
Proof.
  split; [|split; [|split]].
  - intros t m Ht Hm. vm_compute in Ht. destruct Ht as [<-|[<-|[]]]; destruct Hm as [<-|[<-|[]]]; vm_compute; discriminate.
  - vm_compute. reflexivity.
  - intros m [<-|[<-|[]]]; vm_compute; split; congruence.
  - vm_compute. eexists. split; reflexivity.
Qed.
