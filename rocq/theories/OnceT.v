(** Theorems: no mutant is generated twice (C62). *)
From Coq Require Import String List NArith Bool Arith.
Import ListNotations.
From Verif Require Import Text SpanM PathM PackageM MutantM GlobM OptionsM PrettyM FnValueM VisitM VisitS VisitT WalkM LexS OnceS OnceP.

(** In one file no change is offered twice, if its places and the values of each function are
    different. *)
Theorem C62_file : forall file errs skip_calls root ms ext,
  walk_syntax file errs skip_calls root = Some (ms, ext) -> separate errs root -> NoDup (map change ms).
Proof. intros file errs skip_calls root ms ext H [P F]. exact (walk_once file errs skip_calls root ms ext H P F). Qed.
Print Assumptions C62_file.

(** The values are different if the configured errors are and the names are identifiers.
    Missing: return types with raw identifiers or other literals. *)
Theorem C62_values_partial : forall errs root,
  (forall e, In e errs -> rust_tokens e) -> NoDup errs -> rust_tree root -> NoDup (all_places root) -> separate errs root.
Proof. exact rust_separate. Qed.
Print Assumptions C62_values_partial.

(** In a whole tree no change is listed twice, if no file is visited twice.
    Missing: files that are, see C29_once_refuted. *)
Theorem C62_tree_partial : forall read is_file parse re_match tree opts errs skip_calls fuel ps visited ms files,
  walk_tree read is_file parse re_match tree opts errs skip_calls fuel ps = WOk visited ms files ->
  NoDup (map fst visited) ->
  (forall p code root, In p (map fst visited) -> read (path_join tree p) = Some code -> parse (crlf_to_lf code) = Some root -> separate errs root) ->
  NoDup (map change_at ms).
Proof.
  intros read is_file parse re_match tree opts errs skip_calls fuel ps visited ms files H D S.
  refine (proj1 (tree_once read is_file parse re_match tree opts errs skip_calls fuel ps visited ms files H D _)).
  intros p Hp code root. exact (S p code root Hp).
Qed.
Print Assumptions C62_tree_partial.

(** The values must be different as printed: two configured errors that are printed alike give
    the same mutant twice, even if they are different tokens. *)
Theorem C62_errors_refuted : exists errs root ms ext,
  NoDup errs /\ NoDup (all_places root) /\ walk_syntax ex_file errs [] root = Some (ms, ext) /\ ~ NoDup (map change ms).
Proof.
  pose (e1 := [Word (tx "1"); Punct DOT; Word (tx "5")]). pose (e2 := [Word (tx "1.5")]).
  pose (f := mkFnDecl FreeFn [] false (tx "f") (RType (TPath false [] (tx "Result") true None)) [] (ex_sp 1) (Some (mkBlk [ex_sp 2] []))).
  exists [e1; e2], (Node (KFn f) []). eexists _, _. split; [|split; [|split; [vm_compute; reflexivity|]]].
  - constructor; [intros [E|[]]; discriminate|]. constructor; [intros []|constructor].
  - constructor; [intros []|constructor].
  - intro N1. apply NoDup_cons_iff in N1 as [_ N1]. apply NoDup_cons_iff in N1 as [N1 _]. apply N1. left. reflexivity.
Qed.
Print Assumptions C62_errors_refuted.

(** The tree of the example for C30: 16 places and 10 mutants. *)
Example C62_case : separate [] ex_root /\ length (all_places ex_root) = 16
  /\ option_map (fun r => length (fst r)) (walk_syntax ex_file [] [tx "with_capacity"] ex_root) = Some 10.
Proof.
  split; [|split; reflexivity]. split.
  - vm_compute. repeat (constructor; [cbn [In]; intuition discriminate|]). constructor.
  - intros anc f H. assert (R : fd_ret f = ex_bool) by (vm_compute in H; intuition; try discriminate; match goal with E : (_, _) = (_, _) |- _ => injection E as _ <- end; reflexivity).
    rewrite R. vm_compute. constructor; [intros [E|[]]; discriminate|]. constructor; [intros []|constructor].
Qed.
