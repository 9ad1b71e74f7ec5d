(** No mutant is generated twice (C62): the places in a tree that can be changed. *)
From Coq Require Import String List NArith Bool Arith.
Import ListNotations.
From Verif Require Import Text SpanM PathM MutantM PrettyM FnValueM VisitM VisitS LexS.

(** What can be changed at a node: a whole function body, an operator, the arms of a match, and
    their guards. *)
Definition places (k : kind) : list (genre * span) :=
  match k with
  | KFn f =>
      match fd_block f with
      | Some b => match blk_stmts b with
                  | [] => []
                  | first :: more => [(FnValue, mkSpan (sp_start first) (sp_end (last more first)))]
                  end
      | None => []
      end
  | KBinary _ _ sp => [(BinaryOperator, sp)]
  | KUnary _ _ sp => [(UnaryOperator, sp)]
  | KMatch _ arms => map (fun a => (MatchArm, arm_span a)) arms
      ++ flat_map (fun a => match arm_guard a with Some g => [(MatchArmGuard, g)] | None => [] end) arms
  | _ => []
  end.
(** All places of a tree, in order. *)
Definition all_places (root : node) : list (genre * span) := flat_map (fun p => places (snd p)) (positions [] root).

(** What a mutant changes, and to what. *)
Definition change (m : mutant) : genre * span * text := (mu_genre m, mu_span m, mu_replacement m).

(** The places are different, and so are the values for each function as they are printed. *)
Definition separate (errs : list toks) (root : node) : Prop :=
  NoDup (all_places root)
  /\ forall anc f, In (anc, KFn f) (positions [] root) -> NoDup (map pretty (return_type_replacements errs (fd_ret f))).
(** Functions whose return types are read back by the lexer. *)
Definition rust_tree (root : node) : Prop :=
  forall anc f t, In (anc, KFn f) (positions [] root) -> fd_ret f = RType t -> rust_ty t.
(** The same, with the path of the file. *)
Definition change_at (m : mutant) : text * (genre * span * text) := (sf_path (mu_file m), change m).
