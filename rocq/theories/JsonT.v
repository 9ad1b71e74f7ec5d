(** Property theorems: C53 and C54, the JSON files. *)
From Coq Require Import String List NArith ZArith Bool Lia Arith Permutation.
From Verif Require Import Text SpanM PathM PathS MutantM ProcessM OutcomeM OutcomeS OutcomeP OutputM OutputS LabM LabS LabP LabT CutP ConsoleP MainM MainP JsonM JsonS JsonP.
Import ListNotations.
Open Scope nat_scope.

(** ** C53 *)

(** C53: a reader of JSON reads back every value that is printed. *)
Theorem C53_round_trip : forall v, numbers_ok v = true -> read_json (to_pretty v) = Some v.
Proof. exact round_trip. Qed.
Print Assumptions C53_round_trip.

Example C53_round_trip_case : let v := JObj [(tx "a\b", JArr [JStr (tx "say ""hi""" ++ [10; 1; 233]%N); JNull; JNum (tx "-1.5e3")]); (tx "c", JObj [])] in
  numbers_ok v = true /\ lines (to_pretty v)
    = [tx "{"; tx "  ""a\\b"": ["; tx "    ""say \""hi\""\n\u0001" ++ [233]%N ++ tx ""","; tx "    null,"; tx "    -1.5e3"; tx "  ],"; tx "  ""c"": {}"; tx "}"].
Proof. split; vm_compute; reflexivity. Qed.

(** C53: mutants.json is an array with, for each mutant of the run in order, an object that describes it. *)
Theorem C53_mutants : forall ms, exists vs, read_json (mutants_file ms) = Some (JArr vs) /\ Forall2 is_mutant_object vs ms.
Proof. exact mutants_back. Qed.
Print Assumptions C53_mutants.

Example C53_mutants_case : lines (mutants_file [ex_plus])
  = [tx "["; tx "  {"; tx "    ""package"": ""p"","; tx "    ""file"": ""src/a.rs"","; tx "    ""function"": null,"; tx "    ""span"": {";
     tx "      ""start"": {"; tx "        ""line"": 1,"; tx "        ""column"": 3"; tx "      },"; tx "      ""end"": {"; tx "        ""line"": 1,";
     tx "        ""column"": 4"; tx "      }"; tx "    },"; tx "    ""replacement"": ""*"","; tx "    ""genre"": ""BinaryOperator"""; tx "  }"; tx "]"].
Proof. vm_compute. reflexivity. Qed.

(** C53: the file tells mutants apart: lists with the same file agree in all that is written about each mutant. *)
Theorem C53_same : forall a b, mutants_file a = mutants_file b -> Forall2 same_data a b.
Proof.
  intros a b E. destruct (mutants_back a) as (vs & R & Fa). destruct (mutants_back b) as (ws & R' & Fb).
  rewrite E, R' in R. injection R as <-. eapply forall2_same; eassumption.
Qed.
Print Assumptions C53_same.

(** C53: --list --json prints an array that describes the mutants that would be tested, with the diffs if asked for. *)
Theorem C53_list : forall diff c ms out, cl_json c = true -> list_mutants diff list_mutants_json c ms = Some out ->
  exists vs, read_json out = Some (JArr vs)
    /\ Forall2 (fun v m => is_mutant_object v m
        /\ if cl_diffs c then has v (tx "diff") (JStr (diff m)) else ~ In (tx "diff") (keys v)) vs ms.
Proof.
  intros diff c ms out J H. unfold list_mutants in H. rewrite J in H. injection H as <-.
  destruct (list_back (map (fun m => (m, if cl_diffs c then Some (diff m) else None)) ms)) as (vs & R & F). exists vs. split; [exact R|].
  clear R. remember (map _ ms) as l eqn:E. revert ms E. induction F as [|v md vs l K F IH]; intros ms E; destruct ms as [|m ms]; try discriminate; [constructor|].
  cbn [map] in E. injection E as -> E. constructor; [|auto]. cbn [fst snd] in K. destruct K as [K1 K2]. split; [exact K1|].
  destruct (cl_diffs c); exact K2.
Qed.
Print Assumptions C53_list.

(** C53: so does --list-files --json for the files. *)
Theorem C53_files : forall c fs, cl_json c = true -> exists vs, read_json (list_files list_files_json c fs) = Some (JArr vs) /\ Forall2 is_file_object vs fs.
Proof. intros c fs J. unfold list_files. rewrite J. apply files_back. Qed.
Print Assumptions C53_files.

(** C53: in the listings the keys of every object are in order, so that none is there twice. *)
Theorem C53_order : (forall l, exists vs, read_json (list_mutants_json l) = Some (JArr vs) /\ Forall ordered vs)
  /\ (forall fs, exists vs, read_json (list_files_json fs) = Some (JArr vs) /\ Forall ordered vs)
  /\ (forall v, ordered (to_value v)).
Proof.
  split; [|split; [|exact to_value_ordered]].
  - intro l. eexists. split.
    + apply round_trip. cbn [numbers_ok]. apply forallb_forall. intros v I. apply in_map_iff in I. destruct I as (m & <- & _). apply ok_value.
    + apply Forall_forall. intros v Hv. apply in_map_iff in Hv as ([m d] & <- & _). apply mutant_value_ordered.
  - intro fs. eexists. split.
    + apply round_trip. cbn [numbers_ok]. apply forallb_forall. intros v I. apply in_map_iff in I. destruct I as (m & <- & _). reflexivity.
    + apply Forall_forall. intros v Hv. apply in_map_iff in Hv as (f & <- & _). apply map_of_ordered. repeat constructor.
Qed.
Print Assumptions C53_order.
Example C53_order_case : to_value (JObj [(tx "name", JNull); (tx "na", JNum (tx "1")); (tx "file", JObj [(tx "b", JNull); (tx "a", JNull)]); (tx "na", JNum (tx "2"))])
  = JObj [(tx "file", JObj [(tx "a", JNull); (tx "b", JNull)]); (tx "na", JNum (tx "2")); (tx "name", JNull)].
Proof. reflexivity. Qed.

(** C53: outcomes.json describes the totals and every outcome, whenever it can be written.  Numbers of seconds are
    printed by [float]. *)
Theorem C53_outcomes : forall float argv log diff, (forall n, is_number (float n) = true) -> forall l,
  (forall t, outcomes_file float argv log diff l = Some t -> exists v, read_json t = Some v /\ is_lab float argv log diff v l)
  /\ (Forall (fun o => oc_results o <> []) (lo_outcomes l) -> exists t, outcomes_file float argv log diff l = Some t).
Proof.
  intros float argv log diff F l. split; [intro t; apply lab_back; exact F|].
  intro H. apply outcomes_written. eapply Forall_impl; [|exact H]. intros o N0. cbn beta in N0. destruct (summary_total o N0) as [v ->]. discriminate.
Qed.
Print Assumptions C53_outcomes.

(** C53 with C11 and C08: at the end of a run without error, under every schedule, outcomes.json describes exactly the
    recorded outcomes and their totals, and the four lists hold the names of the mutants with those verdicts.
    Missing: runs in which a write to mutants.out fails, see C53_end_cut and C53_end_refuted. *)
Theorem C53_end_partial : forall float argv log diff P o0 t0 ms sh l ws,
  (forall n, is_number (float n) = true) ->
  (forall x t, outcomes_file float argv log diff x = Some t -> pa_json P x = t) ->
  (forall m, In m ms -> mutant_name true m <> None) -> pa_faults P = false -> lists_exact o0 [] ->
  reachable P o0 t0 ms (mkLS sh (MEnd (ROk l)) ws) -> lo_outcomes l <> [] ->
  lists_exact (sh_out sh) (verdicts (lo_outcomes l))
  /\ exists t v, dget (sh_out sh) (tx "outcomes.json") = Some (NFile t) /\ read_json t = Some v /\ is_lab float argv log diff v l.
Proof.
  intros float argv log diff P o0 t0 ms sh l ws F J N1 NF L0 R NE.
  destruct (totals_end _ _ _ _ _ _ _ R) as [-> _]. pose proof (results_end _ _ _ _ _ _ _ R) as RE.
  destruct (C11_lists_at_end_partial P o0 t0 ms sh _ ws N1 NF L0 R) as [A B]. split; [exact A|].
  destruct (C53_outcomes float argv log diff F (sh_lab sh)) as [C D]. destruct (D RE) as [t T]. destruct (C t T) as (v & V & I).
  exists t, v. split; [|auto]. rewrite <- (J _ _ T). auto.
Qed.
Print Assumptions C53_end_partial.

(** The run of C12_case with the file as it is written. *)
Definition ex_float (n : N) : text := show_N n ++ tx ".5".
Definition ex_argv (o : outcome mutant) (r : phase_result) : list text := [tx "cargo"; tx "test"].
Definition ex_log (o : outcome mutant) : text := match oc_scenario o with Baseline => tx "log/baseline.log" | Mutant _ => tx "log/x.log" end.
Definition ex_diff (o : outcome mutant) : option text := match oc_scenario o with Baseline => None | Mutant _ => Some (tx "diff/x.diff") end.
Definition ex_PJ := mkParams false (Some 2) false false false false (pa_root ex_P2) (pa_source ex_P2)
  (fun l => match outcomes_file ex_float ex_argv ex_log ex_diff l with Some t => t | None => [] end).
Example C53_end_case : (forall x t, outcomes_file ex_float ex_argv ex_log ex_diff x = Some t -> pa_json ex_PJ x = t) /\
  exists sh l ws t, ex_run ex_PJ ex_whole = mkLS sh (MEnd (ROk l)) ws /\ length (lo_outcomes l) = 3
   /\ dget (sh_out sh) (tx "outcomes.json") = Some (NFile t) /\ firstn 16 (lines t)
    = [tx "{"; tx "  ""outcomes"": ["; tx "    {"; tx "      ""scenario"": ""Baseline"","; tx "      ""summary"": ""Success"",";
       tx "      ""log_path"": ""log/baseline.log"","; tx "      ""diff_path"": null,"; tx "      ""phase_results"": ["; tx "        {";
       tx "          ""phase"": ""Build"","; tx "          ""duration"": 1.5,"; tx "          ""process_status"": ""Success"",";
       tx "          ""argv"": ["; tx "            ""cargo"","; tx "            ""test"""; tx "          ]"].
Proof.
  split; [intros x t E; cbn [ex_PJ pa_json]; rewrite E; reflexivity|].
  do 4 eexists. split; [vm_compute; reflexivity|]. split; [vm_compute; reflexivity|]. split; [vm_compute; reflexivity|]. vm_compute. reflexivity.
Qed.

(** C53 with C11: the same when writes to mutants.out may fail: the lists are exact, and outcomes.json is a beginning of the
    text that describes the outcomes. *)
Theorem C53_end_cut : forall float argv log diff P o0 t0 ms sh l ws,
  (forall n, is_number (float n) = true) ->
  (forall x t, outcomes_file float argv log diff x = Some t -> pa_json P x = t) ->
  (forall m, In m ms -> mutant_name true m <> None) -> lists_exact o0 [] ->
  reachable P o0 t0 ms (mkLS sh (MEnd (ROk l)) ws) -> lo_outcomes l <> [] ->
  lists_exact (sh_out sh) (verdicts (lo_outcomes l))
  /\ exists t rest v, dget (sh_out sh) (tx "outcomes.json") = Some (NFile t)
     /\ read_json (t ++ rest) = Some v /\ is_lab float argv log diff v l.
Proof.
  intros float argv log diff P o0 t0 ms sh l ws F J N1 L0 R NE.
  destruct (C11_exact_if_ok P o0 t0 ms sh l ws N1 L0 R) as [-> A]. split; [exact A|].
  pose proof (results_end _ _ _ _ _ _ _ R) as RE.
  destruct (cut_end P o0 t0 ms sh _ ws R NE) as (t & r & D & E).
  destruct (C53_outcomes float argv log diff F (sh_lab sh)) as [C G]. destruct (G RE) as [t' T]. destruct (C t' T) as (v & V & I).
  exists t, r, v. split; [exact D|]. split; [|exact I]. rewrite <- E, (J _ _ T). exact V.
Qed.
Print Assumptions C53_end_cut.

(** C53 refuted when writes may fail: the end of the text can be lost without an error (see C54_reported_refuted), and the
    run ends as if outcomes.json were there. *)
Definition ex_PJF := mkParams false (Some 2) false false true false (pa_root ex_P2) (pa_source ex_P2) (pa_json ex_PJ).
Definition ex_last := ex_run ex_PJF (ex_both ++ ok 0 3 ++ fails 1 ++ ok 1 7 ++ ok 0 2).
Theorem C53_end_refuted : exists P o0 t0 ms sh l ws t,
  (forall x t, outcomes_file ex_float ex_argv ex_log ex_diff x = Some t -> pa_json P x = t)
  /\ (forall m, In m ms -> mutant_name true m <> None) /\ lists_exact o0 []
  /\ reachable P o0 t0 ms (mkLS sh (MEnd (ROk l)) ws) /\ lo_outcomes l <> []
  /\ dget (sh_out sh) (tx "outcomes.json") = Some (NFile t) /\ read_json t = None.
Proof.
  exists ex_PJF, ex_out, (pa_root ex_PJF), ex_ms.
  assert (R : reachable ex_PJF ex_out (pa_root ex_PJF) ex_ms ex_last) by apply ex_reach.
  assert (X : exists sh o c1, ex_last = mkLS sh MWork [WJson2 0 o; c1]
     /\ exists sh2 l, exec ex_PJF 2 (ok 0 4 ++ ok 1 1 ++ ok 0 1)
          (mkLS (set_out sh (dset (sh_out sh) OUTCOMES_JSON (NFile (firstn 1 (pa_json ex_PJF (sh_lab sh))))) (Some 0)) MWork [WName 0 o; c1])
        = Some (mkLS sh2 (MEnd (ROk l)) [WEnd true; WEnd true])
        /\ dget (sh_out sh2) (tx "outcomes.json") = Some (NFile (tx "{")) /\ lo_outcomes l <> []).
  { do 3 eexists. split; [vm_compute; reflexivity|]. do 2 eexists. split; [vm_compute; reflexivity|]. split; [vm_compute; reflexivity|discriminate]. }
  destruct X as (sh & o & c1 & E & sh2 & l & X & D & NE). rewrite E in R.
  pose proof (steps_more _ _ _ _ _ R (st_worker ex_PJF 2 sh [WJson2 0 o; c1] 0 _ _ _ eq_refl
    (ws_scenario _ _ _ _ _ _ (ss_json2_lost ex_PJF 0 sh 0 o (firstn 1 (pa_json ex_PJF (sh_lab sh))) (skipn 1 (pa_json ex_PJF (sh_lab sh))) eq_refl (eq_sym (firstn_skipn 1 _)))))) as R1.
  pose proof (reach_steps _ _ _ _ _ _ R1 (exec_steps _ _ _ _ _ X)) as R2.
  exists sh2, l, [WEnd true; WEnd true], (tx "{").
  split; [intros x t H; cbn [ex_PJF pa_json]; exact (proj1 C53_end_case x t H)|].
  split; [intros m [<-|[<-|[]]]; discriminate|]. split; [intros f v [H|[H|[H|[H|[]]]]]; injection H as <- <-; reflexivity|].
  split; [exact R2|]. split; [exact NE|]. split; [exact D|]. vm_compute. reflexivity.
Qed.
Print Assumptions C53_end_refuted.

(** ** C54 *)

(** C54: a result file is what was printed, up to a part of it that is left out at the end.  When the write is reported
    as done that part is at most a buffer long; when the disk takes all writes there is none and success is reported.
    Missing: success with a file that lacks the end, see C54_reported_refuted. *)
Theorem C54_written_partial : forall (A : Type) cap disk (chunks : list (list A)), exists rest,
  concat chunks = fst (write_json cap disk chunks) ++ rest
  /\ (snd (write_json cap disk chunks) = true -> length rest <= cap)
  /\ ((forall i, disk i = None) -> snd (write_json cap disk chunks) = true /\ rest = []).
Proof.
  intros A cap disk chunks. destruct (chunks_prefix cap disk chunks 0 [] []) as (x & y & E & F & G); [cbn; lia|].
  exists y. unfold write_json. rewrite E. cbn [app] in *. auto.
Qed.
Print Assumptions C54_written_partial.

(** C54 refuted: the last bytes are written when the writer is dropped, and errors then are not reported.  A file
    smaller than the buffer can so be empty although its write was reported as done. *)
Theorem C54_reported_refuted : exists disk, forall (A : Type) cap (chunks : list (list A)),
  length (concat chunks) < cap -> write_json cap disk chunks = ([], true).
Proof.
  exists (fun _ => Some 0). intros A cap chunks. unfold write_json.
  assert (K : forall cs buf, length (buf ++ concat cs) < cap -> write_chunks cap (fun _ => Some 0) cs 0 [] buf = (@nil A, true)).
  { induction cs as [|c cs IH]; intros buf L; cbn [write_chunks concat] in *.
    - destruct buf; reflexivity.
    - rewrite !app_length in L. destruct (Nat.ltb_spec (length c) (cap - length buf)); [|lia]. apply IH. rewrite !app_length. lia. }
  exact (K chunks []).
Qed.
Print Assumptions C54_reported_refuted.

Example C54_case : write_json 4 (fun i => match i with 1 => Some 2 | _ => None end) [[1; 2; 3]; [4; 5; 6]; [7; 8; 9]] = ([1; 2; 3; 4; 5; 6], false)
  /\ write_json 4 (fun i => match i with 2 => Some 2 | _ => None end) [[1; 2; 3]; [4; 5; 6]; [7; 8; 9]] = ([1; 2; 3; 4; 5; 6; 7; 8], true).
Proof. split; reflexivity. Qed.
