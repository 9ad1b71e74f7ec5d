(** Model of src/mutant.rs: mutants, their names and log file names. *)
From Coq Require Import String List NArith Bool.
From Verif Require Import Text SpanM PathM.
Import ListNotations.

(** src/mutant.rs:22-33 [Genre]. *)
Inductive genre := FnValue | BinaryOperator | UnaryOperator | MatchArm | MatchArmGuard.

(** src/mutant.rs:60-75 [Function]. *)
Record fn_info := mkFn { fn_name : text; fn_return_type : text; fn_span : span }.

(** src/mutant.rs:35-55 [Mutant]. *)
Record mutant := mkMutant {
  mu_file : source_file;
  mu_fn : option fn_info;
  mu_span : span;
  mu_replacement : text;
  mu_genre : genre
}.

(** src/source.rs:106-109 [tree_relative_slashes]. *)
Definition tree_relative_slashes (f : source_file) : text := to_slash_path (sf_path f).

(** src/mutant.rs:180-182 [original_text]. *)
Definition original_text (m : mutant) : text := span_extract (mu_span m) (sf_code (mu_file m)).

(** src/mutant.rs:130-178 [styled_parts], without colours, and
    src/mutant.rs:88-93 [describe_change]: the concatenated parts.  [None] is the
    panic of [expect] for a function-value mutant without a function. *)
Definition describe_change (m : mutant) : option text :=
  match mu_genre m with
  | FnValue =>
      match mu_fn m with
      | None => None
      | Some f =>
          Some (tx "replace " ++ fn_name f
                ++ (match fn_return_type f with [] => [] | r => [SP] ++ r end)
                ++ tx " with " ++ mu_replacement m)
      end
  | MatchArmGuard => Some (tx "replace match guard with " ++ mu_replacement m)
  | MatchArm => Some (tx "delete match arm")
  | BinaryOperator | UnaryOperator =>
      Some ((match mu_replacement m with [] => tx "delete " | _ => tx "replace " end)
            ++ original_text m
            ++ (match mu_replacement m with [] => [] | r => tx " with " ++ r end)
            ++ (match mu_fn m with None => [] | Some f => tx " in " ++ fn_name f end))
  end.

(** src/mutant.rs:95-112 [Mutant::name]. *)
Definition mutant_name (show_line_col : bool) (m : mutant) : option text :=
  match describe_change m with
  | None => None
  | Some d =>
      Some (tree_relative_slashes (mu_file m)
            ++ (if show_line_col then
                  [COLON] ++ show_nat (lc_line (sp_start (mu_span m))) ++ [COLON]
                  ++ show_nat (lc_column (sp_start (mu_span m))) ++ [COLON; SP]
                else [COLON; SP])
            ++ d)
  end.

(** src/mutant.rs:220-229 [log_file_name_base]. *)
Definition log_file_name_base (m : mutant) : text :=
  clean_filename (tree_relative_slashes (mu_file m))
  ++ tx "_line_" ++ show_nat (lc_line (sp_start (mu_span m)))
  ++ tx "_col_" ++ show_nat (lc_column (sp_start (mu_span m))).

(** src/mutant.rs:78-83 [mutated_code] and src/mutant.rs:210-216 [revert]: the
    two texts written for a mutant. *)
Definition mutant_code (m : mutant) : text :=
  mutated_code (mu_span m) (mu_replacement m) (sf_code (mu_file m)).

(** src/mutant.rs:193-196: the labels in the diff header (the diff body is
    computed by the [similar] crate and not modelled). *)
Definition diff_labels (m : mutant) : option (text * text) :=
  match describe_change m with
  | None => None
  | Some d => Some (tree_relative_slashes (mu_file m), map (fun c => if N.eqb c NL then SP else c) d)
  end.
