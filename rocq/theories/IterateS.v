(** Specification for C19 and the disk side of C49. *)
From Coq Require Import String List NArith Bool.
From Verif Require Import Text SpanM PathM MutantM OutcomeM OutputM OutputS IterateM.
Import ListNotations.

(** One --iterate run as seen from outside: what was found in the tree, what was
    left after exclusion, which mutants got which verdict (in order), and the
    contents of mutants.out at the end. *)
Record irun := mkIRun {
  ir_lock : text;
  ir_found : list mutant;
  ir_candidates : list mutant;
  ir_tested : list (mutant * summary_outcome);
  ir_end : entries
}.

(** The names among the results that were caught or unviable. *)
Definition decided (l : list (mutant * summary_outcome)) (n : text) : Prop :=
  exists m v, In (m, v) l /\ mutant_name true m = Some n /\ (v = SumCaught \/ v = SumUnviable).

(** A run takes the parent directory from [es] to [es']: tested mutants are
    candidates (some may be left out by other filters, or by a crash or interrupt),
    and apart from the lists mutants.out may change freely. *)
Definition iterates (es : entries) (r : irun) (es' : entries) : Prop :=
  exists es1 o2 o3,
    iterate_start (ir_lock r) es (ir_found r) = Some (ir_candidates r, es1, o2)
    /\ (forall m v, In (m, v) (ir_tested r) -> In m (ir_candidates r))
    /\ record_all o2 (ir_tested r) = Some o3
    /\ (forall k, In k [CAUGHT_TXT; UNVIABLE_TXT; PREVIOUSLY_CAUGHT_TXT; LOCK_JSON] ->
          dget (ir_end r) k = dget o3 k)
    /\ es' = dset es1 OUTDIR (NDir (ir_end r)).

Inductive series : entries -> list irun -> entries -> Prop :=
| series_nil : forall es, series es [] es
| series_snoc : forall es rs es' r es'', series es rs es' -> iterates es' r es'' ->
    series es (rs ++ [r]) es''.

(** Names of mutants take one line. *)
Definition clean_names (ms : list mutant) : Prop :=
  forall m n, In m ms -> mutant_name true m = Some n -> one_line n.
