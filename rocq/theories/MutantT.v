(** Property theorems: C45, and C01 for whole mutants. *)
From Coq Require Import String List NArith Bool.
From Verif Require Import Text SpanM SpanS SpanP PathM PathS PathP MutantM MutantP.
Import ListNotations.

(** C45: two mutants with the same displayed name (with line and column) are in
    the same file, at the same position, with the same description.  Hypotheses:
    source paths are relative to the tree and hold no colon and no component
    that is a lone backslash.
    Missing: paths with a colon, see C45_colon_in_path_refuted. *)
Theorem C45_name_identifies_partial : forall m1 m2 n,
  relative (sf_path (mu_file m1)) -> relative (sf_path (mu_file m2)) ->
  Forall nice (components (sf_path (mu_file m1))) ->
  Forall nice (components (sf_path (mu_file m2))) ->
  ~ In COLON (tree_relative_slashes (mu_file m1)) ->
  ~ In COLON (tree_relative_slashes (mu_file m2)) ->
  mutant_name true m1 = Some n -> mutant_name true m2 = Some n ->
  components (sf_path (mu_file m1)) = components (sf_path (mu_file m2))
  /\ sp_start (mu_span m1) = sp_start (mu_span m2)
  /\ describe_change m1 = describe_change m2.
Proof. exact c45. Qed.
Print Assumptions C45_name_identifies_partial.

(** C45: and for mutants of the same kind, function and original text the
    description determines the replacement (match arm deletions have none). *)
Theorem C45_description_identifies : forall m1 m2,
  mu_genre m1 = mu_genre m2 -> mu_fn m1 = mu_fn m2 -> original_text m1 = original_text m2 ->
  mu_genre m1 <> MatchArm ->
  describe_change m1 <> None ->
  describe_change m1 = describe_change m2 -> mu_replacement m1 = mu_replacement m2.
Proof. exact describe_inj. Qed.
Print Assumptions C45_description_identifies.

Definition ex_file := mkSF (tx "pkg") (tx "src/./lib.rs") (tx "fn f() -> bool { a == b }") true.
Definition ex_fn := mkFn (tx "f") (tx "-> bool") (mkSpan (mkLC 1 1) (mkLC 1 26)).
Definition ex_m1 := mkMutant ex_file (Some ex_fn) (mkSpan (mkLC 1 18) (mkLC 1 24)) (tx "true") FnValue.
Definition ex_m2 := mkMutant ex_file (Some ex_fn) (mkSpan (mkLC 1 20) (mkLC 1 22)) (tx "!=") BinaryOperator.

Example C45_case :
  mutant_name true ex_m1 = Some (tx "src/lib.rs:1:18: replace f -> bool with true")
  /\ mutant_name true ex_m2 = Some (tx "src/lib.rs:1:20: replace == with != in f")
  /\ relative (sf_path ex_file) /\ Forall nice (components (sf_path ex_file))
  /\ ~ In COLON (tree_relative_slashes ex_file).
Proof.
  repeat split; try reflexivity.
  - repeat constructor; simpl; try discriminate; intuition discriminate.
  - intro H. vm_compute in H. intuition discriminate.
Qed.

(** Without the condition on colons it is false. *)
Theorem C45_colon_in_path_refuted :
  exists m1 m2 n, mutant_name true m1 = Some n /\ mutant_name true m2 = Some n
    /\ tree_relative_slashes (mu_file m1) <> tree_relative_slashes (mu_file m2).
Proof.
  exists (mkMutant (mkSF [] (tx "a") [] true) (Some (mkFn (tx "f") [] (mkSpan (mkLC 1 2) (mkLC 1 2))))
            (mkSpan (mkLC 1 2) (mkLC 1 2)) (tx "x:3:4: delete match arm") FnValue).
  exists (mkMutant (mkSF [] (tx "a:1:2: replace f with x") [] true) None
            (mkSpan (mkLC 3 4) (mkLC 3 4)) [] MatchArm).
  eexists. split; [vm_compute; reflexivity|]. split; [vm_compute; reflexivity|].
  vm_compute. discriminate.
Qed.
Print Assumptions C45_colon_in_path_refuted.

(** C01: the text written for a mutant found at [b] in a file is the file with [b] replaced.
    Missing: as in [C01_mutation_edits_only_the_span_partial]. *)
Theorem C01_mutant_file_partial : forall m a b c, sf_code (mu_file m) = a ++ b ++ c -> mu_span m = parser_span a b ->
  ~ In CR (last_line a) -> ~ In CR (last_line (a ++ b)) -> (forall s', b ++ c <> CR :: s') ->
  mutant_code m = a ++ mu_replacement m ++ tx " /* ~ changed by cargo-mutants ~ */" ++ c
  /\ original_text m = b.
Proof.
  intros m a b c E S A B C. unfold mutant_code, original_text, mutated_code. rewrite E, S. unfold parser_span. split.
  - rewrite replace_parser by assumption. rewrite <- !app_assoc. reflexivity.
  - apply extract_parser; assumption.
Qed.
Print Assumptions C01_mutant_file_partial.

Example C01_file_case :
  let m := mkMutant (mkSF (tx "p") (tx "a.rs") (tx "a + b") true) None (parser_span (tx "a ") (tx "+")) (tx "-") BinaryOperator in
  mutant_code m = tx "a - /* ~ changed by cargo-mutants ~ */ b" /\ original_text m = tx "+"
  /\ mutant_name true m = Some (tx "a.rs:1:3: replace + with -").
Proof. repeat split; reflexivity. Qed.

(** C52: the header of a mutant's diff names the file and the change; the change takes
    one line, as each line break in it becomes a space. *)
Theorem C52_diff_header : forall m old new, diff_labels m = Some (old, new) ->
  old = tree_relative_slashes (mu_file m)
  /\ (exists d, describe_change m = Some d
       /\ Forall2 (fun x y => x = NL /\ y = SP \/ x <> NL /\ y = x) d new)
  /\ ~ In NL new.
Proof.
  intros m old new H. unfold diff_labels in H. destruct (describe_change m) as [d|]; [|discriminate].
  injection H as <- <-. split; [reflexivity|].
  assert (F : Forall2 (fun x y => x = NL /\ y = SP \/ x <> NL /\ y = x) d (map (fun c => if N.eqb c NL then SP else c) d)).
  { induction d as [|c d IH]; constructor; [|exact IH]. destruct (N.eqb_spec c NL); auto. }
  split; [eauto|]. clear -F. induction F as [|x y l l' H F IH]; [intros []|].
  intros [E|E]; [|contradiction]. destruct H as [[_ H]|[H1 H2]]; [rewrite E in H; discriminate|congruence].
Qed.
Print Assumptions C52_diff_header.

Example C52_case : diff_labels ex_m1 = Some (tx "src/lib.rs", tx "replace f -> bool with true").
Proof. vm_compute. reflexivity. Qed.
