(** What the progress display should say (C64). *)
From Coq Require Import String List NArith ZArith Bool Arith.
Import ListNotations.
From Verif Require Import Text SpanM PathM PackageM MutantM GlobM OptionsM PrettyM FnValueM VisitM VisitS WalkM WalkS CopyM ProgressM.
Open Scope list_scope.

(** Files and mutants reported by calls. *)
Fixpoint files_told (cs : list walk_call) : nat :=
  match cs with [] => 0 | WFiles n :: cs' => n + files_told cs' | _ :: cs' => files_told cs' end.
Fixpoint mutants_told (cs : list walk_call) : nat :=
  match cs with [] => 0 | WMutants n :: cs' => n + mutants_told cs' | _ :: cs' => mutants_told cs' end.

Section Spec.
Variable read : text -> option text.
Variable is_file : text -> bool.
Variable parse : text -> option node.
Variable re_match : text -> text -> bool.
Variable tree : text.
Variable opts : options.
Variable errs : list toks.
Variable skip_calls : list text.
Variable ps : list package.

(** The files that belong to the packages, and the mutants in them that the name filters let pass. *)
Definition belongs (f : source_file) : Prop :=
  exists p e, In p ps
    /\ reach read is_file parse tree skip_calls (pk_name p) (map (fun t => (t, true)) (pk_tops p)) e
    /\ load read tree (fst e) (pk_name p) (snd e) = Loaded f.
Definition passes (m : mutant) : Prop :=
  exists f root, belongs f /\ parse (sf_code f) = Some root /\ offered f errs skip_calls root m
    /\ allows_mutant re_match opts m = Some true.
End Spec.

(** Sizes of the files among entries, in order, and their running sums. *)
Definition file_sizes (l : list (list text * shape * bool)) : list N :=
  flat_map (fun x => match snd (fst x) with SFile _ b => [N.of_nat (length b)] | _ => [] end) l.
Fixpoint sums (from : N) (l : list N) : list N :=
  match l with [] => [] | n :: l' => (from + n)%N :: sums (from + n)%N l' end.
