(** Theorems: a series of runs with the same output directory, as for --iterate (C74). *)
From Coq Require Import String List NArith ZArith Bool Arith Permutation.
From Verif Require Import Text SpanM PathM MutantM ProcessM OutcomeM OutcomeS OutputM OutputS OutputP IterateM IterateP ShardM PackageM PackageS OptionsM CargoM WalkM
  LabM LabS LabP LabT MainM MainP WholeM WholeS WholeP WholeT LaunchM LaunchS LaunchP LaunchT EndM EndS EndP EndT TogetherM RoundM RoundS RoundP.
Import ListNotations.
Open Scope list_scope.

(** C74: whatever is in the lists that the next run with --iterate will read was there before the series, and all runs were with --iterate, or
    one of the runs has cargo processes that show a mutant of that name to be caught or unviable, and all later runs were with --iterate.  This holds
    whenever the runs were stopped or killed. *)
Theorem C74_listed : forall es0 rs es n, rounds es0 rs es -> (forall x, listed es0 x -> one_line x) -> Forall plain_names rs -> listed es n ->
  (Forall iterating rs /\ listed es0 n) \/ shown rs n.
Proof.
  intros es0 rs es n H G Pl L. assert (G' : good es0) by (apply Forall_forall; intros x Hx; apply G, listed_load, Hx).
  destruct (rounds_load _ _ _ H G' Pl) as (_ & B & _). apply listed_load in L. destruct (B n L) as [[F X]|S]; [left; split; [exact F|apply listed_load; exact X]|auto].
Qed.
Print Assumptions C74_listed.

(** C74: and nothing is forgotten: a name that was there before stays as long as all runs are with --iterate, and so does the name of any mutant that was caught or
    unviable in a run that has ended, with whatever result. *)
Theorem C74_kept : forall es0 rs es n, rounds es0 rs es -> (forall x, listed es0 x -> one_line x) -> Forall plain_names rs ->
  (Forall iterating rs /\ listed es0 n) \/ decided rs n -> listed es n.
Proof.
  intros es0 rs es n H G Pl D. assert (G' : good es0) by (apply Forall_forall; intros x Hx; apply G, listed_load, Hx).
  destruct (rounds_load _ _ _ H G' Pl) as (_ & _ & C & D'). apply listed_load. destruct D as [[F X]|X]; [apply C; [exact F|apply listed_load; exact X]|apply D'; exact X].
Qed.
Print Assumptions C74_kept.

(** C74: a run with --iterate has no cargo process for a mutant with such a name. *)
Theorem C74_never_again : forall es0 rs r es n, rounds es0 (rs ++ [r]) es -> (forall x, listed es0 x -> one_line x) -> Forall plain_names rs -> iterating r ->
  (Forall iterating rs /\ listed es0 n) \/ decided rs n -> left_out r n.
Proof.
  intros es0 rs r es n H G Pl I D. destruct (rounds_last _ _ _ H rs r eq_refl) as (es1 & es2 & H1 & R).
  apply (left_out_if _ _ _ n R I). apply listed_load. exact (C74_kept _ _ _ n H1 G Pl D).
Qed.
Print Assumptions C74_never_again.

(** C74: and it leaves out no other: each mutant that the packages offer now is tested, or its name was listed before the series, or earlier processes have shown
    it to be caught or unviable. *)
Theorem C74_next : forall es0 rs r es, rounds es0 (rs ++ [r]) es -> (forall x, listed es0 x -> one_line x) -> Forall plain_names rs ->
  iterating r -> ag_in_diff (rd_args r) = None -> ag_shard (rd_args r) = None ->
  let w := rd_world r in let s := rd_setting r in
  exists ps errs, mutated_packages (fun d => locate_project w d false) (se_meta s) (se_filter s) = Some ps
    /\ Forall2 (fun e t => wo_expr w e = Some t) (op_error_values (se_options s)) errs
    /\ forall m, of_packages w (md_root (se_meta s)) (se_options s) errs ps m ->
       exists n, mutant_name true m = Some n /\ (In m (rd_mutants r) \/ (Forall iterating rs /\ listed es0 n) \/ shown rs n).
Proof.
  intros es0 rs r es H G Pl I Df Sh w s. destruct (rounds_last _ _ _ H rs r eq_refl) as (es1 & es2 & H1 & R).
  destruct (round_all _ _ _ R I Df Sh) as (ps & errs & M & F & Al). exists ps, errs. split; [exact M|]. split; [exact F|]. intros m Hm.
  destruct (Al m Hm) as (n & En & [Y|Y]); exists n; (split; [exact En|]); [left; exact Y|]. right. apply (C74_listed _ _ _ n H1 G Pl). apply listed_load. exact Y.
Qed.
Print Assumptions C74_next.

(** C74: so when, repeating until everything is caught, a run with --iterate ends with status 0, then for every mutant that the packages offer now, it or an earlier run of the
    series has run cargo for a mutant of the same name, and it did not build or its tests failed; since that run all were with --iterate.  The only
    exceptions are names that were listed before the series. *)
Theorem C74_zero : forall es0 rs r es l, rounds es0 (rs ++ [r]) es -> (forall x, listed es0 x -> one_line x) -> Forall plain_names rs ->
  iterating r -> ag_in_diff (rd_args r) = None -> ag_shard (rd_args r) = None -> op_check_only (se_options (rd_setting r)) = false ->
  rd_result r = Some (ROk l) -> status (ETested (rd_mutants r) l) = 0%Z ->
  let w := rd_world r in let s := rd_setting r in
  exists ps errs, mutated_packages (fun d => locate_project w d false) (se_meta s) (se_filter s) = Some ps
    /\ Forall2 (fun e t => wo_expr w e = Some t) (op_error_values (se_options s)) errs
    /\ forall m, of_packages w (md_root (se_meta s)) (se_options s) errs ps m ->
       exists n, mutant_name true m = Some n /\
       ((Forall iterating rs /\ listed es0 n)
        \/ exists rs1 x rs2 m' pre b st, rs ++ [r] = rs1 ++ x :: rs2 /\ Forall iterating rs2
             /\ In m' (rd_mutants x) /\ mutant_name true m' = Some n /\ one_job (Mutant m') (pre ++ [b]) /\ incl (pre ++ [b]) (rd_log x)
             /\ st <> WExited 0 /\ ended b st /\ Forall (fun y => ended y (WExited 0)) pre).
Proof.
  intros es0 rs r es l H G Pl I Df Sh Ck Re St w s. destruct (C74_next _ _ _ _ H G Pl I Df Sh) as (ps & errs & M & F & Al).
  exists ps, errs. split; [exact M|]. split; [exact F|]. intros m Hm. destruct (Al m Hm) as (n & En & [Y|[Y|Y]]); exists n; (split; [exact En|]).
  - right. destruct (rounds_last _ _ _ H rs r eq_refl) as (es1 & es2 & H1 & R). destruct (round_zero _ _ _ _ m R Re St Ck Y) as (pre & b & st & A & B & C & D & E).
    exists rs, r, [], m, pre, b, st. split; [reflexivity|]. split; [constructor|]. split; [exact Y|]. split; [exact En|]. auto.
  - left. exact Y.
  - right. destruct Y as (rs1 & x & rs2 & -> & F2 & (m' & b & v & Hm' & En' & J & Inc & Ex & Dv)).
    destruct (shown_failed _ _ _ Ex Dv) as (pre & b' & st & -> & N & E & O).
    exists rs1, x, (rs2 ++ [r]), m', pre, b', st. split; [rewrite <- app_assoc; reflexivity|].
    split; [apply Forall_app; split; [exact F2|constructor; [exact I|constructor]]|]. split; [exact Hm'|]. split; [exact En'|]. auto.
Qed.
Print Assumptions C74_zero.

(** ** Example *)
(** The two mutants of WholeT, in an empty directory.  The first run, without --iterate, catches the first and misses the second; the second run, with --iterate, has
    only the second to test, and catches it; a third has nothing to do. *)
Definition ex_again (it : bool) : arguments := mkArguments None None false [] false it false false None None ex_args.
Definition ex_in (es : entries) : world := elsewhere (fun _ => Some es) ex_world.
Definition ex_start (es : entries) (it : bool) : option (list mutant * entries * entries) :=
  match after (ex_in es) (tx "L") 10 (ex_again it) ex_setting with
  | Done (Tests ms es1) => match dget es1 OUTDIR with Some (NDir o0) => Some (ms, es1, o0) | _ => None end
  | _ => None end.
Definition ex_round (es : entries) (it : bool) (xs : list (nat * option (exit_t * N))) : option (round * entries) :=
  match ex_start es it with
  | Some ([], es1, _) => Some (mkRound (ex_in es) (ex_again it) ex_setting [] [] [] (Some empty_result), es1)
  | Some (ms, es1, o0) =>
      match rexec ex_P2 ex_ctx ms xs (rstart ex_P2 ex_ctx ms o0 (pa_root ex_P2)) with
      | Some r => Some (mkRound (ex_in es) (ex_again it) ex_setting ms (rs_log r) (lo_outcomes (sh_lab (ls_sh (rs_lab r))))
                          (match ls_main (rs_lab r) with MEnd x => Some x | _ => None end), dset es1 OUTDIR (NDir (sh_out (ls_sh (rs_lab r)))))
      | None => None end
  | None => None end.
Lemma ex_round_runs : forall es it xs r es', ex_round es it xs = Some (r, es') -> round_runs (Some es) r es'.
Proof.
  intros es it xs r es' H. unfold ex_round, ex_start in H. assert (S : settle (ex_in es) (ex_again it) = Done ex_setting) by exact (ex_settle false).
  destruct (after (ex_in es) (tx "L") 10 (ex_again it) ex_setting) as [[out|ms es1]| |] eqn:A; try discriminate.
  destruct (dget es1 OUTDIR) as [[|o0]|] eqn:G; try discriminate. destruct ms as [|m ms].
  - injection H as <- <-. apply (ru_none (Some es) (ex_in es) (ex_again it) ex_setting (tx "L") 10 es1); [reflexivity|exact S|exact A].
  - destruct (rexec ex_P2 ex_ctx (m :: ms) xs _) as [r0|] eqn:X; [|discriminate]. injection H as <- <-.
    apply (ru_tests (Some es) (ex_in es) ex_env [] (ex_again it) ex_setting (tx "L") 10 (m :: ms) es1 ex_P2 (m :: ms) o0 (pa_root ex_P2) r0);
      [reflexivity|exact S|exact A|discriminate|reflexivity|repeat split; reflexivity|reflexivity|apply LabT.C13_case|exact G|eapply rexec_sound; exact X].
Qed.

Lemma ex_round_args : forall es it xs r es', ex_round es it xs = Some (r, es') -> rd_args r = ex_again it /\ rd_setting r = ex_setting.
Proof.
  intros es it xs r es' H. unfold ex_round in H. destruct (ex_start es it) as [[[[|m ms] es1] o0]|]; [| |discriminate].
  - injection H as <- _. split; reflexivity.
  - destruct (rexec ex_P2 ex_ctx (m :: ms) xs _) as [r0|]; [|discriminate]. injection H as <- _. split; reflexivity.
Qed.

Definition ex_half : list (nat * option (exit_t * N)) :=
  ok 0 5 ++ [(0, Some (ExSuccess, secs 7))] ++ ok 0 7 ++ ok 0 7 ++ ok 1 8 ++ ok 1 8 ++ fails 0 ++ ok 0 7 ++ ok 1 2 ++ ok 0 2.
Definition ex_rest : list (nat * option (exit_t * N)) := ok 0 20 ++ fails 0 ++ ok 0 9.
Definition zero (r : round) : bool := match rd_result r with Some (ROk l) => (status (ETested (rd_mutants r) l) =? 0)%Z | _ => false end.
Definition plain (r : round) : bool :=
  forallb (fun m => match mutant_name true m with Some n => forallb (fun ch => negb (ch =? NL)%N && negb (ch =? CR)%N) n | None => false end) (rd_mutants r).
Definition ex_three_facts (a b c : round) : Prop :=
  map summary (rd_outcomes a) = [Some SumSuccess; Some SumMissed; Some SumCaught] /\ rd_mutants a = ex_ms /\ zero a = false
  /\ length (rd_mutants b) = 1 /\ map summary (rd_outcomes b) = [Some SumSuccess; Some SumCaught] /\ zero b = true
  /\ rd_mutants c = [] /\ forallb plain [a; b; c] = true /\ match rd_result a with Some (ROk _) => True | _ => False end.
Lemma ex_three : match ex_round [] false ex_half with
  | Some (a, ea) => match ex_round ea true ex_rest with
    | Some (b, eb) => match ex_round eb true [] with Some (c, ec) => ex_three_facts a b c | None => False end
    | None => False end
  | None => False end.
Proof. vm_compute. repeat split; reflexivity. Qed.
Lemma ex_series : exists a b c ea eb ec, ex_round [] false ex_half = Some (a, ea) /\ ex_round ea true ex_rest = Some (b, eb) /\ ex_round eb true [] = Some (c, ec)
  /\ ex_three_facts a b c.
Proof.
  generalize ex_three. destruct (ex_round [] false ex_half) as [[a ea]|]; [|intros []]. destruct (ex_round ea true ex_rest) as [[b eb]|] eqn:B; [|intros []].
  destruct (ex_round eb true []) as [[c ec]|] eqn:C; [|intros []]. intro Z. exists a, b, c, ea, eb, ec. split; [reflexivity|]. split; [exact B|]. split; [exact C|exact Z].
Qed.

Lemma plain_ok : forall r, plain r = true -> plain_names r.
Proof.
  intros r H m Hm. unfold plain in H. rewrite forallb_forall in H. specialize (H m Hm). destruct (mutant_name true m) as [n|]; [|discriminate].
  exists n. split; [reflexivity|]. rewrite forallb_forall in H. split.
  - intro X. specialize (H _ X). rewrite N.eqb_refl in H. discriminate H.
  - intros a ->. assert (X : In CR (a ++ [CR])) by (apply in_app_iff; right; left; reflexivity). specialize (H _ X). rewrite (N.eqb_refl CR), andb_false_r in H. discriminate H.
Qed.

Example C74_case : exists a b c es la lb, rounds (Some []) [a; b; c] (Some es)
  /\ Forall plain_names [a; b; c] /\ (forall x, listed (Some []) x -> one_line x) /\ Forall iterating [b; c] /\ ~ iterating a
  /\ rd_mutants a = ex_ms /\ map summary (rd_outcomes a) = [Some SumSuccess; Some SumMissed; Some SumCaught]
  /\ rd_result a = Some (ROk la) /\ status (ETested (rd_mutants a) la) <> 0%Z
  /\ length (rd_mutants b) = 1 /\ map summary (rd_outcomes b) = [Some SumSuccess; Some SumCaught]
  /\ rd_result b = Some (ROk lb) /\ status (ETested (rd_mutants b) lb) = 0%Z /\ op_check_only (se_options (rd_setting b)) = false
  /\ ag_in_diff (rd_args b) = None /\ ag_shard (rd_args b) = None
  /\ rd_mutants c = [].
Proof.
  destruct ex_series as (a & b & c & ea & eb & ec & A & B & C & Z). unfold ex_three_facts in Z.
  destruct Z as (Z1 & Z2 & Z3 & Z4 & Z5 & Z6 & Z7 & Z8 & Z9).
  assert (Ra := ex_round_runs _ _ _ _ _ A). assert (Rb := ex_round_runs _ _ _ _ _ B). assert (Rc := ex_round_runs _ _ _ _ _ C).
  assert (Aa := ex_round_args _ _ _ _ _ A). assert (Ab := ex_round_args _ _ _ _ _ B). assert (Ac := ex_round_args _ _ _ _ _ C).
  clear A B C. assert (Ka : exists l, rd_result a = Some (ROk l)) by (destruct (rd_result a) as [[]|]; try contradiction; eauto).
  destruct Ka as [la Ka]. unfold zero in Z3, Z6. rewrite Ka in Z3. destruct (rd_result b) as [[lb| | ]|] eqn:Kb; try discriminate Z6.
  exists a, b, c, ec, la, lb. destruct Ab as [Ab Sb].
  split; [apply (rn_run (Some []) [a; b] (Some eb)); [apply (rn_run (Some []) [a] (Some ea)); [apply (rn_run (Some []) [] (Some [])); [constructor|exact Ra]|exact Rb]|exact Rc]|].
  split; [cbn [forallb] in Z8; rewrite !andb_true_iff in Z8; destruct Z8 as (X & Y & W & _); repeat constructor; apply plain_ok; assumption|].
  split; [intros x (d & o & f & t & D & G & _); injection D as <-; discriminate G|].
  split; [unfold iterating; repeat constructor; [rewrite Ab|rewrite (proj1 Ac)]; reflexivity|].
  split; [unfold iterating; rewrite (proj1 Aa); discriminate|].
  split; [exact Z2|]. split; [exact Z1|]. split; [exact Ka|]. split; [apply Z.eqb_neq; exact Z3|]. split; [exact Z4|]. split; [exact Z5|].
  split; [exact Kb|]. split; [apply Z.eqb_eq; exact Z6|]. split; [rewrite Sb; reflexivity|]. split; [rewrite Ab; reflexivity|]. split; [rewrite Ab; reflexivity|]. exact Z7.
Qed.

(** The first run is killed before its end, after it has recorded that the first mutant is caught; the next run with --iterate still leaves that one out. *)
Definition ex_cut : list (nat * option (exit_t * N)) :=
  ok 0 5 ++ [(0, Some (ExSuccess, secs 7))] ++ ok 0 7 ++ ok 0 7 ++ ok 1 8 ++ fails 0 ++ ok 0 6.
Lemma ex_killed_facts : match ex_round [] true ex_cut with
  | Some (a, ea) => match ex_round ea true ex_rest with
    | Some (b, eb) => rd_result a = None /\ map summary (rd_outcomes a) = [Some SumSuccess; Some SumCaught] /\ length (rd_mutants a) = 2
        /\ length (rd_mutants b) = 1 /\ zero b = true
    | None => False end
  | None => False end.
Proof. vm_compute. repeat split; reflexivity. Qed.
Example C74_case_killed : exists a b es, rounds (Some []) [a; b] (Some es) /\ Forall iterating [a; b]
  /\ rd_result a = None /\ map summary (rd_outcomes a) = [Some SumSuccess; Some SumCaught] /\ length (rd_mutants a) = 2
  /\ length (rd_mutants b) = 1 /\ zero b = true.
Proof.
  generalize ex_killed_facts. destruct (ex_round [] true ex_cut) as [[a ea]|] eqn:A; [|intros []].
  destruct (ex_round ea true ex_rest) as [[b eb]|] eqn:B; [|intros []]. intros Z. exists a, b, eb.
  split; [apply (rn_run (Some []) [a] (Some ea)); [apply (rn_run (Some []) [] (Some [])); [constructor|eapply ex_round_runs; exact A]|eapply ex_round_runs; exact B]|].
  split; [|exact Z]. unfold iterating. repeat constructor; [rewrite (proj1 (ex_round_args _ _ _ _ _ A))|rewrite (proj1 (ex_round_args _ _ _ _ _ B))]; reflexivity.
Qed.
