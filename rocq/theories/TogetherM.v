(** Several runs of the program, each for one shard, as for several machines (book/src/shards.md): the same
    command line but for --shard, on the same tree.  On top of WholeM and EndM. *)
From Coq Require Import String List NArith ZArith Bool.
From Verif Require Import Text SpanM PathM MutantM OutcomeM OutputM ShardM PackageM OptionsM CargoM LabM MainM WholeM LaunchM EndM EndS.
Import ListNotations.
Open Scope list_scope.

(** The same tree and tools, but another directory for the output. *)
Definition elsewhere (d : text -> option entries) (w : world) : world :=
  mkWorld (wo_is_file w) (wo_is_dir w) (wo_exists w) (wo_read w) d (wo_locate w) (wo_metadata w) (wo_toml w) (wo_re_ok w) (wo_re_match w)
    (wo_expr w) (wo_syn w) (wo_patch w) (wo_diff w) (wo_json_mutants w) (wo_json_files w).

(** src/main.rs:322-324, 510-512: the same arguments with another shard. *)
Definition for_shard (s : option shard) (a : arguments) : arguments :=
  mkArguments (ag_manifest a) (ag_dir a) (ag_no_config a) (ag_packages a) (ag_workspace a) (ag_iterate a) (ag_list_files a) (ag_list a)
    (ag_in_diff a) s (ag_options a).

(** A run that has ended with results: its mutants, its processes, and its exit status. *)
Record job := mkJob { jb_mutants : list mutant; jb_log : list launch; jb_status : Z }.
(** Environment, job server, output directory and schedule are its own.  A shard may have no mutants (src/lab.rs:45-48). *)
Inductive ran (w : world) (a : arguments) (s : setting) (k n : N) : job -> Prop :=
| ra_runs d e js ms P r l : program_runs (elsewhere d w) e js (for_shard (Some (mkShard k n)) a) s ms P r -> tree_as_read w s P ms ->
    ls_main (rs_lab r) = MEnd (ROk l) -> ran w a s k n (mkJob ms (rs_log r) (status (ETested ms l)))
| ra_none d lk fuel es : settle (elsewhere d w) (for_shard (Some (mkShard k n)) a) = Done s ->
    after (elsewhere d w) lk fuel (for_shard (Some (mkShard k n)) a) s = Done (Tests [] es) ->
    ran w a s k n (mkJob [] [] (status (ETested [] lab_new))).

(** book/src/shards.md: the shards 0/n, 1/n up to (n-1)/n. *)
Definition shards (n : N) : list N := map N.of_nat (seq 0 (N.to_nat n)).
