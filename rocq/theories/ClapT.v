(** Theorems: what the words of a command line ask for (C68). *)
From Coq Require Import String List NArith ZArith QArith Bool Arith Permutation.
From Verif Require Import Text F64M SpanM PathM MutantM ProcessM OutcomeM OutcomeS OutputM ShardM PackageM PackageS OptionsM PrintM CargoM LabM WalkM MainM
  WholeM WholeT LaunchM LaunchS EndM EndS EndT ClapM ClapS ClapQ ClapR.
Import ListNotations.
Open Scope list_scope.

(** C68: the program starts to work with given arguments exactly if the words (and variables) can be read as uses of the options that fit
    together, and these say so, field by field. *)
Theorem C68_command : forall e ts a, command_of e ts = CmdRun a <->
  exists us rest, asks e ts us rest /\ ~ used us (tx "version") /\ ~ used us (tx "completions") /\ says us rest a.
Proof. exact command_iff. Qed.
Print Assumptions C68_command.

(** C68: it shows its version or completions exactly if it was asked to. *)
Theorem C68_information : forall e ts,
  (command_of e ts = CmdVersion <-> exists us rest, asks e ts us rest /\ used us (tx "version"))
  /\ (command_of e ts = CmdCompletions <-> exists us rest, asks e ts us rest /\ ~ used us (tx "version") /\ used us (tx "completions")).
Proof. intros e ts. split; [apply version_iff|apply completions_iff]. Qed.
Print Assumptions C68_information.

(** C68: it shows help exactly if a question for help comes after uses that are right so far. *)
Theorem C68_help : forall e ts, command_of e ts = CmdErr 0 <-> exists us, right us /\ reads at_help ts us [].
Proof.
  intros e ts. rewrite <- (parse_help e ts). unfold command_of. destruct (parse e ts) as [n|m rest]; [split; intro H; injection H as ->; reflexivity|].
  split; [|discriminate]. destruct (flag m "version"); [discriminate|]. destruct (value m "completions"); discriminate.
Qed.
Print Assumptions C68_help.

(** C68: and everything else is a usage error: exit status 1, and nothing is done. *)
Theorem C68_usage : forall w e ts r, (forall us rest, ~ asks e ts us rest) -> (forall us, right us -> ~ reads at_help ts us []) ->
  command_of e ts = CmdErr 2 /\ (ends w (command_of e ts) r -> r = EClap 2 /\ status r = 1%Z \/ r = EPanic).
Proof.
  intros w e ts r N H. assert (E : command_of e ts = CmdErr 2).
  { unfold command_of. destruct (parse e ts) as [n|m rest] eqn:P.
    - destruct (parse_code _ _ _ P) as [->| ->]; [|reflexivity]. apply parse_help in P. destruct P as (us & R & P). destruct (H us R P).
    - apply parse_ok in P. destruct P as (us & A & _). destruct (N us rest A). }
  split; [exact E|]. rewrite E. intro X. remember (CmdErr 2) as c eqn:Ec. destruct X; try discriminate; [|right; reflexivity]. injection Ec as ->. left. split; reflexivity.
Qed.
Print Assumptions C68_usage.

(** C68: words can be understood in one way only. *)
Theorem C68_one : forall e ts us rest us' rest', asks e ts us rest -> asks e ts us' rest' -> us = us' /\ rest = rest'.
Proof. exact asks_one. Qed.
Print Assumptions C68_one.

(** C68: the colours and the level of messages. *)
Theorem C68_console : forall e ts c l, console_of e ts = Some (c, l) <->
  exists us rest, asks e ts us rest /\ with_default us color_means "colors" CAuto c /\ with_default us level_means "level" LInfo l.
Proof. exact console_iff. Qed.
Print Assumptions C68_console.

(** C68: and all of this for the words after [mutants], which has to be the first after the name of the program; without it there is only help. *)
Theorem C68_program : forall e argv,
  (forall c, (forall n, c <> CmdErr n) -> (program_command e argv = c <-> exists p ts, argv = p :: tx "mutants" :: ts /\ command_of e ts = c))
  /\ (program_command e argv = CmdErr 0 <-> asks_help argv \/ exists p ts, argv = p :: tx "mutants" :: ts /\ command_of e ts = CmdErr 0)
  /\ (forall n, program_command e argv = CmdErr n -> n = 0%Z \/ n = 2%Z).
Proof.
  intros e argv. split; [|split].
  - intros c N. split.
    + intro H. destruct argv as [|p [|w ts]]; try (destruct (N _ (eq_sym H))). cbn [program_command] in H. destruct (text_eqb w (tx "mutants")) eqn:W.
      * apply text_eqb_eq in W. subst w. exists p, ts. auto.
      * exfalso. destruct (text_eqb w (tx "help")).
        -- destruct ts as [|x [|y ts]]; [destruct (N _ (eq_sym H))| |destruct (N _ (eq_sym H))].
           destruct (text_eqb x (tx "mutants") || text_eqb x (tx "help")); destruct (N _ (eq_sym H)).
        -- destruct (text_eqb w (tx "--help") || text_eqb (firstn 2 w) (tx "-h")); destruct (N _ (eq_sym H)).
    + intros (p & ts & -> & H). exact H.
  - split.
    + intro H. destruct argv as [|p [|w ts]]; try discriminate H. cbn [program_command] in H. destruct (text_eqb w (tx "mutants")) eqn:W.
      * apply text_eqb_eq in W. subst w. right. exists p, ts. auto.
      * left. destruct (text_eqb w (tx "help")) eqn:V.
        -- apply text_eqb_eq in V. subst w. destruct ts as [|x [|y ts]]; [apply ah_help| |discriminate H]. apply ah_about.
           destruct (text_eqb x (tx "mutants")) eqn:X; [left; apply text_eqb_eq; exact X|]. destruct (text_eqb x (tx "help")) eqn:Y; [right; apply text_eqb_eq; exact Y|discriminate H].
        -- apply ah_option. destruct (text_eqb w (tx "--help")) eqn:X; [left; apply text_eqb_eq; exact X|]. destruct (text_eqb (firstn 2 w) (tx "-h")) eqn:Y; [|discriminate H].
           right. exists (skipn 2 w). apply text_eqb_eq in Y. rewrite <- Y. symmetry. apply firstn_skipn.
    + intros [H|(p & ts & -> & H)]; [|exact H]. destruct H as [p w ts [->|[s ->]]|p|p x [->| ->]]; try reflexivity.
  - intros n H. destruct argv as [|p [|w ts]]; try (injection H as <-; auto). cbn [program_command] in H. destruct (text_eqb w (tx "mutants")).
    + unfold command_of in H. destruct (parse e ts) as [c|m rest] eqn:P; [injection H as <-; exact (parse_code _ _ _ P)|].
      destruct (flag m "version"); [discriminate|]. destruct (value m "completions"); discriminate.
    + destruct (text_eqb w (tx "help")).
      * destruct ts as [|x [|y ts]]; [injection H as <-; auto| |injection H as <-; auto]. destruct (text_eqb x (tx "mutants") || text_eqb x (tx "help")); injection H as <-; auto.
      * destruct (text_eqb w (tx "--help") || text_eqb (firstn 2 w) (tx "-h")); injection H as <-; auto.
Qed.
Print Assumptions C68_program.
Example C68_case_program :
  program_command (fun _ => None) [tx "cargo-mutants"; tx "mutants"; tx "--list"; tx "-j4"] = command_of (fun _ => None) [tx "--list"; tx "-j4"]
  /\ (exists a, program_command (fun _ => None) [tx "cargo-mutants"; tx "mutants"; tx "--list"; tx "-j4"] = CmdRun a /\ ag_list a = true)
  /\ program_command (fun _ => None) [tx "cargo-mutants"] = CmdErr 2 /\ program_command (fun _ => None) [tx "cargo-mutants"; tx "--list"] = CmdErr 2
  /\ program_command (fun _ => None) [tx "cargo-mutants"; tx "help"; tx "mutants"] = CmdErr 0
  /\ program_command (fun _ => None) [tx "cargo-mutants"; tx "help"; tx "--list"] = CmdErr 2
  /\ program_command (fun _ => None) [tx "cargo-mutants"; tx "--help"] = CmdErr 0.
Proof. split; [reflexivity|]. split; [eexists; split; vm_compute; reflexivity|]. repeat split; reflexivity. Qed.

(** C68: neither the order in which different options are written nor the way in which each is spelled makes a difference. *)
Theorem C68_order : forall e ts ts' us us' rest, reads at_end ts us rest -> reads at_end ts' us' rest -> same_uses us us' -> fine e us ->
  command_of e ts' = command_of e ts /\ console_of e ts' = console_of e ts.
Proof. exact order. Qed.
Print Assumptions C68_order.

(** C68: a variable counts as its option, written before the others; if the option is there then the variable is ignored. *)
Theorem C68_variables : forall e n id ts us rest, In (n, id) variables_for -> reads at_end ts us rest -> fine e us ->
  (used us id -> command_of (without n e) ts = command_of e ts /\ console_of (without n e) ts = console_of e ts)
  /\ (forall v o x, ~ used us id -> e n = Some v -> In o rows -> ro_name o = id -> In x (ro_words o) ->
       command_of (without n e) ((x ++ 61%N :: v) :: ts) = command_of e ts
       /\ console_of (without n e) ((x ++ 61%N :: v) :: ts) = console_of e ts).
Proof.
  intros e n id ts us rest I H F. split; [intro U; eapply variable_ignored; eassumption|]. intros v o x U E Ho Eo Hx. eapply variable_read; eassumption.
Qed.
Print Assumptions C68_variables.

(** C68: exactly the consistent arguments can be asked for, and [line_for] asks for them. *)
Theorem C68_exact : forall a, consistent a <-> exists ts, command_of (fun _ => None) ts = CmdRun a.
Proof. exact exact. Qed.
Print Assumptions C68_exact.
Theorem C68_line : forall shows a, consistent a -> (forall v, In v (floats a) -> float (shows v) v) ->
  command_of (fun _ => None) (line_for shows a) = CmdRun a.
Proof. exact line_command. Qed.
Print Assumptions C68_line.
Theorem C68_consistent : forall e ts a, command_of e ts = CmdRun a -> consistent a.
Proof. exact any_consistent. Qed.
Print Assumptions C68_consistent.

(** C68 with C67: for a run that was asked for on a command line, what C67 says about its processes and its exit status holds without the condition on
    [--in-place] and [--jobs]. *)
Theorem C68_processes : forall w e js ts a s ms P r l, command_of e ts = CmdRun a -> program_runs w e js a s ms P r -> tree_as_read w s P ms ->
  names_unique (se_meta s) -> In l (rs_log r) ->
  (la_scenario l = Baseline \/ exists m, In m ms /\ la_scenario l = Mutant m)
  /\ right_command P (context_for e js s) ms l /\ right_files P l.
Proof.
  intros w e js ts a s ms P r l C H T U Hl. eapply C67_processes; try eassumption. destruct H. eapply settled_places; [eassumption|]. eapply C68_consistent. exact C.
Qed.
Print Assumptions C68_processes.
Theorem C68_status : forall w e js ts a s ms P r l, command_of e ts = CmdRun a -> program_runs w e js a s ms P r -> tree_as_read w s P ms ->
  names_unique (se_meta s) -> ls_main (rs_lab r) = MEnd (ROk l) ->
  account P (context_for e js s) ms (rs_log r) (op_baseline (se_options s)) (status (ETested ms l)).
Proof.
  intros w e js ts a s ms P r l C H T U E. eapply C67_status; try eassumption. destruct H. eapply settled_places; [eassumption|]. eapply C68_consistent. exact C.
Qed.
Print Assumptions C68_status.

(** C68 with C67: if none of [--check], [--iterate], [--in-diff] and [--shard] is on the command line, then status 0 means that for every mutant that the
    packages offer cargo was run on the source with that mutation, and noticed it. *)
Theorem C68_zero : forall w e js ts us rest a s ms P r l, asks e ts us rest -> command_of e ts = CmdRun a ->
  Forall (fun n => ~ used us (tx n)) ["check"; "iterate"; "in_diff"; "shard"]%string ->
  program_runs w e js a s ms P r -> tree_as_read w s P ms -> names_unique (se_meta s) ->
  ls_main (rs_lab r) = MEnd (ROk l) -> status (ETested ms l) = 0%Z ->
  exists ps errs, mutated_packages (fun d => locate_project w d false) (se_meta s) (se_filter s) = Some ps
    /\ Forall2 (fun x t => wo_expr w x = Some t) (op_error_values (se_options s)) errs
    /\ exists bl rest bs, rs_log r = bl ++ rest /\ one_job Baseline bl /\ woven bs rest
    /\ Forall (right_command P (context_for e js s) ms) (rs_log r) /\ Forall (right_files P) (rs_log r)
    /\ forall m, WholeS.of_packages w (md_root (se_meta s)) (se_options s) errs ps m ->
       exists pre b st, In (pre ++ [b]) bs /\ one_job (Mutant m) (pre ++ [b]) /\ st <> WExited 0 /\ ended b st /\ Forall (fun x => ended x (WExited 0)) pre.
Proof.
  intros w e js ts us rest a s ms P r l A C N H T U E St. pose proof (C68_consistent _ _ _ C) as Co. apply command_iff in C. destruct C as (us' & rest' & A' & _ & _ & Sy).
  destruct (asks_one _ _ _ _ _ _ A A') as [<- <-]. inversion N as [|x1 y1 N1 N']; subst. inversion N' as [|x2 y2 N2 N'']; subst. inversion N'' as [|x3 y3 N3 N3']; subst. inversion N3' as [|x4 y4 N4 _]; subst.
  assert (S : settle w a = Done s) by (destruct H; assumption).
  eapply C67_zero; try eassumption.
  - eapply settled_places; eassumption.
  - rewrite (settled_check _ _ _ S). exact (not_used_flag _ _ _ (y_check _ _ _ Sy) N1).
  - exact (not_used_flag _ _ _ (y_iterate _ _ _ Sy) N2).
  - exact (not_used_value _ _ _ (y_in_diff _ _ _ Sy) N3).
  - exact (not_used_thing _ _ _ _ _ (y_shard _ _ _ Sy) N4).
Qed.
Print Assumptions C68_zero.

(** ** Examples *)
Definition no_env : text -> option text := fun _ => None.
Definition words (l : list string) : list text := map tx l.
Definition get (c : command) : option (list text * option nat * bool * list text) :=
  match c with CmdRun a => Some (ar_file (ag_options a), ar_jobs (ag_options a), ar_caught (ag_options a), ar_cargo_test_args (ag_options a)) | _ => None end.
(** Short and long words, values in the same word or in the next, flags together, and words for the tests. *)
Example C68_case : get (command_of no_env (words ["-vVj4"; "-f"; "a.rs"; "--file=b.rs"; "--"; "--nocapture"; "-x"]%string))
  = Some (words ["a.rs"; "b.rs"]%string, Some 4, true, words ["--nocapture"; "-x"]%string).
Proof. vm_compute. reflexivity. Qed.
(** A use twice, unknown words, bad values, a value that is missing or looks like an option, words without a dash,
    options that exclude each other. *)
Example C68_case_usage : Forall (fun l => command_of no_env (words l) = CmdErr 2)
  [ ["-j4"; "-j4"]; ["--list"; "--list"]; ["--nope"]; ["--shard=3/2"]; ["--jobs=-1"]; ["--jobs"]; ["--dir"; "-x"]; ["src"]; ["--list=true"];
    ["--in-place"; "-j1"]; ["--dir=a"; "--manifest-path=b"]; ["--nope"; "-h"]; ["--timeout=1"; "--timeout-multiplier=2"]; ["--help=1"] ]%string.
Proof. repeat constructor; vm_compute; reflexivity. Qed.
(** Help comes first, if what is before it is right. *)
Example C68_case_help : command_of no_env (words ["-vh"; "--nope"]%string) = CmdErr 0 /\ command_of no_env (words ["--dir=a"; "--manifest-path=b"; "--help"]%string) = CmdErr 0.
Proof. split; vm_compute; reflexivity. Qed.
Example C68_case_information : command_of no_env (words ["--version"; "--completions=zsh"]%string) = CmdVersion
  /\ command_of no_env (words ["--completions"; "zsh"]%string) = CmdCompletions.
Proof. split; vm_compute; reflexivity. Qed.
(** [--gitignore] and [--no-copy-target] exclude each other, since both are in the group of [--in-place]. *)
Example C68_case_copy : command_of no_env (words ["--gitignore=true"; "--no-copy-target"]%string) = CmdErr 2.
Proof. vm_compute. reflexivity. Qed.
(** A variable counts as its option, also for what excludes what. *)
Definition jobs_env : text -> option text := fun n => if text_eqb n (tx "CARGO_MUTANTS_JOBS") then Some (tx "3") else None.
Example C68_case_variable : get (command_of jobs_env (words ["-f=x"]%string)) = Some (words ["x"]%string, Some 3, false, [])
  /\ get (command_of jobs_env (words ["-f=x"; "-j2"]%string)) = Some (words ["x"]%string, Some 2, false, [])
  /\ command_of jobs_env (words ["--in-place"]%string) = CmdErr 2.
Proof. repeat split; vm_compute; reflexivity. Qed.
(** Only [--cargo-arg] takes a word with a dash. *)
Example C68_case_dash : match command_of no_env (words ["-C"; "--locked"; "--cargo-arg"; "--"]%string) with
  | CmdRun a => ar_cargo_arg (ag_options a) = words ["--locked"; "--"]%string | _ => False end.
Proof. vm_compute. reflexivity. Qed.
Example C68_case_console : console_of no_env (words ["-L"; "WARN"; "--colors=never"]%string) = Some (CNever, LWarn)
  /\ console_of no_env (words ["-L5"]%string) = Some (CAuto, LTrace) /\ console_of no_env [] = Some (CAuto, LInfo).
Proof. repeat split; vm_compute; reflexivity. Qed.
(** How words are read. *)
Example C68_case_reads : exists us rest, asks no_env (words ["--in-place"; "-fx"; "--"; "y"]%string) us rest /\ rest = [tx "y"]
  /\ us = [(tx "in_place", None); (tx "file", Some (tx "x"))].
Proof.
  destruct (proj1 (parse_ok no_env (words ["--in-place"; "-fx"; "--"; "y"]%string) [(tx "in_place", tx "true"); (tx "file", tx "x")] [tx "y"])) as (us & A & E); [vm_compute; reflexivity|].
  exists us, [tx "y"]. split; [exact A|]. split; [reflexivity|]. apply (enc_inj us); [eapply asks_rows; exact A| |rewrite <- E; reflexivity].
  repeat constructor; [exists (nth 16 rows (r "" [] Switch any))|exists (nth 14 rows (r "" [] Switch any))]; (split; [apply nth_In; cbn; repeat constructor|]; split; [reflexivity|]); cbn; split; congruence.
Qed.
(** The arguments of the run in EndT: a line for them, and the same in other words. *)
Example C68_case_line : line_for (fun _ => []) (ex_arguments false) = words ["--cap-lints=true"; "--jobs=2"; "--no-shuffle"; "--"]%string.
Proof. vm_compute. reflexivity. Qed.
Definition ex_words : list text := words ["--no-shuffle"; "-j"; "2"; "--cap-lints=true"]%string.
Example C68_case_same : command_of ex_env ex_words = CmdRun (ex_arguments false) /\ consistent (ex_arguments false).
Proof. split; [vm_compute; reflexivity|]. apply (C68_consistent no_env ex_words). vm_compute. reflexivity. Qed.
(** The run of C67_case_runs was asked for by these words, so its status 0 means what C68_zero says. *)
Example C68_case_zero : exists r l, program_runs ex_world ex_env [] (ex_arguments false) ex_setting LabT.ex_ms LabT.ex_P2 r
  /\ ls_main (rs_lab r) = MEnd (ROk l) /\ status (ETested LabT.ex_ms l) = 0%Z
  /\ account LabT.ex_P2 (context_for ex_env [] ex_setting) LabT.ex_ms (rs_log r) (op_baseline (se_options ex_setting)) 0%Z.
Proof.
  destruct C67_case_runs as (r & l & H & T & U & ND & _ & M & Z & _). exists r, l. repeat (split; [assumption|]). rewrite <- Z.
  eapply (C68_status ex_world ex_env [] ex_words); try eassumption. exact (proj1 C68_case_same).
Qed.
