(** Theorems: the configuration file (C69). *)
From Coq Require Import String List NArith ZArith QArith Bool Permutation.
From Verif Require Import Text PathM F64M TimeoutM TimeoutS GlobM OptionsM OptionsS PackageM MainM WholeM WholeS WholeT ConfigM ConfigS ConfigP ConfigQ.
Import ListNotations.
Open Scope list_scope.

(** C69: a file is taken exactly if no setting comes twice, all of them are known, and each has a value that fits; and then each
    field of the configuration is what its entry says, or unset. *)
Theorem C69_settings : forall et l c, config_of et l = Some c <->
  NoDup (map fst l) /\ (forall k v, In (k, v) l -> In k setting_names) /\ says et l c.
Proof. exact ConfigP.config_iff. Qed.
Print Assumptions C69_settings.
Theorem C69_accepted : forall et l, (exists c, config_of et l = Some c) <-> NoDup (map fst l) /\ forall k v, In (k, v) l -> fits et k v.
Proof. exact accepted_iff. Qed.
Print Assumptions C69_accepted.

(** C69: the order of the settings does not matter. *)
Theorem C69_order : forall et l l', Permutation l l' -> config_of et l = config_of et l'.
Proof. exact config_perm. Qed.
Print Assumptions C69_order.

(** C69: a number without a point is taken as it is, if it has no more than 53 binary digits. *)
Theorem C69_integers : forall z, (Z.abs z < 2 ^ 53)%Z -> exists q, is_number (VInt z) (Fin q) /\ (q == inject_Z z)%Q.
Proof. intros z H. exists (rnd64 (inject_Z z)). split; [constructor|apply rnd_integer, H]. Qed.
Print Assumptions C69_integers.

(** C69: in a run for which there is a configuration file and that gets as far as looking for mutants, the file was right, and every setting in it is
    in force, as far as the command line does not say otherwise. *)
Theorem C69_in_force : forall et parse w a s, (forall t, wo_toml w t = config_from_str et parse t) -> settle w a = Done s ->
  ag_no_config a = false -> wo_exists w (config_path (md_root (se_meta s))) = true ->
  exists t l, wo_read w (config_path (md_root (se_meta s))) = Some t /\ parse t = Some l
    /\ (forall k v, In (k, v) l -> fits et k v) /\ acts et l (ag_options a) (se_options s).
Proof.
  intros et parse w a s T S N X. destruct (file_used et parse w a T s S N X) as (t & l & c & R & P & ND & K & Sy & O).
  exists t, l. split; [exact R|]. split; [exact P|]. split; [intros k v I; eapply says_fits; eauto|eapply acts_new; eassumption].
Qed.
Print Assumptions C69_in_force.

(** C69: without a file, or with [--no-config], the options are as with an empty one. *)
Theorem C69_no_file : forall et w a s, settle w a = Done s ->
  ag_no_config a = true \/ wo_exists w (config_path (md_root (se_meta s))) = false -> acts et [] (ag_options a) (se_options s).
Proof.
  intros et w a s S N. destruct (WholeP.settle_inv w a s S) as (_ & _ & (c & U & O) & _).
  assert (E : c = nothing_set).
  { inversion U as [N'|N' X'|t c' N' X' R T]; subst; try reflexivity. destruct N as [N|N]; [congruence|unfold config_path in N; congruence]. }
  subst c. eapply acts_new; [constructor| |exact O]. constructor; right; (split; [intros v []|reflexivity]).
Qed.
Print Assumptions C69_no_file.

(** C69: a file that is wrong is never ignored: the run ends with an error (or, if not even that can be written, a panic) before it looks for mutants. *)
Theorem C69_wrong : forall et parse w a start md e, (forall t, wo_toml w t = config_from_str et parse t) ->
  start_dir (wo_is_file w) (ag_manifest a) (ag_dir a) = Some start -> open_workspace w start = Done md ->
  ag_no_config a = false -> wo_exists w (config_path (md_root md)) = true -> wrong et parse (wo_read w (config_path (md_root md))) ->
  settle w a = Fails /\ (ends w (CmdRun a) e -> e = EError /\ status e = 1%Z \/ e = EPanic).
Proof.
  intros et parse w a start md e T S O N X W. pose proof (wrong_rejected et parse w a T start md S O N X W) as F. split; [exact F|].
  intro E. inversion E; subst; auto; congruence.
Qed.
Print Assumptions C69_wrong.

(** ** Examples *)
Definition no_table (l : list entry) : option test_tool := None.
Definition ex_file : list entry :=
  [(tx "timeout_multiplier", VInt 3); (tx "examine_re", VArr [VStr (tx "names")]); (tx "cap_lints", VBool true);
   (tx "test_tool", VStr (tx "nextest")); (tx "minimum_test_timeout", VFloat (Fin (5 # 2)))].
Example C69_case : config_of no_table ex_file
  = Some (mkConfig true None [] [] [] [] [tx "names"] [] [] (Some (Fin (5 # 2))) None None [] None [] (Some ToolNextest)
            (Some (Fin (rnd64 3))) None None)
  /\ (rnd64 3 == 3)%Q.
Proof. split; [lazy -[rnd64]; reflexivity|vm_compute; reflexivity]. Qed.
Example C69_case_order : config_of no_table (rev ex_file) = config_of no_table ex_file.
Proof. lazy -[rnd64]. reflexivity. Qed.
(** A misspelt setting, a number for a truth value, a text for a list, a list with a number, an unknown tool, and a setting that is there twice. *)
Example C69_case_wrong : map (config_of no_table)
  [ [(tx "exclude_regex", VArr [])]; [(tx "cap_lints", VInt 1)]; [(tx "exclude_re", VStr (tx "x"))]; [(tx "exclude_re", VArr [VStr (tx "x"); VInt 2])];
    [(tx "test_tool", VStr (tx "Nextest"))]; [(tx "profile", VStr (tx "x")); (tx "profile", VStr (tx "x"))]; [(tx "mutants", VTab ex_file)] ]
  = [None; None; None; None; None; None; None].
Proof. vm_compute. reflexivity. Qed.
(** The world of WholeT with a TOML parser for two texts: a run with a right file, and one with a wrong one. *)
Definition ex_parse (t : text) : option (list entry) :=
  if text_eqb t (tx "C") then Some ex_file else None.
Definition ex_world_of (p : text -> option (list entry)) : world :=
  mkWorld (wo_is_file ex_world) (wo_is_dir ex_world) (wo_exists ex_world) (wo_read ex_world) (wo_dir ex_world) (wo_locate ex_world)
    (wo_metadata ex_world) (config_from_str no_table p) (wo_re_ok ex_world) (wo_re_match ex_world) (wo_expr ex_world) (wo_syn ex_world)
    (wo_patch ex_world) (wo_diff ex_world) (wo_json_mutants ex_world) (wo_json_files ex_world).
Example C69_case_run : (exists s, settle (ex_world_of ex_parse) (ex_arguments false) = Done s
    /\ op_examine_names (se_options s) = [tx "names"] /\ op_cap_lints (se_options s) = true
    /\ op_test_tool (se_options s) = ToolNextest /\ op_minimum_test_timeout (se_options s) = 2500000000%N)
  /\ settle (ex_world_of (fun _ => None)) (ex_arguments false) = Fails
  /\ settle (ex_world_of (fun _ => Some [(tx "colour", VBool true)])) (ex_arguments false) = Fails
  /\ wrong no_table (fun _ => Some [(tx "colour", VBool true)]) (wo_read ex_world (config_path (tx "/t"))).
Proof.
  split; [|split; [|split]].
  - assert (H : match settle (ex_world_of ex_parse) (ex_arguments false) with
                | Done s => op_examine_names (se_options s) = [tx "names"] /\ op_cap_lints (se_options s) = true
                    /\ op_test_tool (se_options s) = ToolNextest /\ op_minimum_test_timeout (se_options s) = 2500000000%N
                | _ => False end) by (vm_compute; repeat split).
    destruct (settle (ex_world_of ex_parse) (ex_arguments false)) as [s| |]; try destruct H. exists s. auto.
  - vm_compute. reflexivity.
  - vm_compute. reflexivity.
  - eapply wr_entry; [reflexivity|left; reflexivity|]. intro F. apply fits_known in F. cbn [setting_names map In] in F.
    repeat (destruct F as [F|F]; [discriminate F|]). destruct F.
Qed.
