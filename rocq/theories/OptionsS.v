(** Specification of option merging (C22) and of the filters (C21). *)
From Coq Require Import String List NArith ZArith QArith Bool.
Import ListNotations.
From Verif Require Import Text GlobM F64M TimeoutM TimeoutS OptionsM.
Open Scope nat_scope.

(** The command line value if given, else the configured one, else the default. *)
Definition precedence {A} (cli cfg : option A) (default result : A) : Prop :=
  (forall v, cli = Some v -> result = v)
  /\ (cli = None -> forall v, cfg = Some v -> result = v)
  /\ (cli = None -> cfg = None -> result = default).

(** The same for values that may stay unset. *)
Definition precedence_opt {A} (cli cfg result : option A) : Prop :=
  (forall v, cli = Some v -> result = Some v) /\ (cli = None -> result = cfg).

(** Filter lists: the command line replaces the configuration. *)
Definition replaced {A} (cli cfg result : list A) : Prop :=
  (cli <> [] -> result = cli) /\ (cli = [] -> result = cfg).

(** A file glob matches a path (C39 says what this means). *)
Definition glob_hits (g path : text) : Prop :=
  exists x, build_glob_set [g] = Some (Some x) /\ set_match x path = true.

(** A time given in seconds, in nanoseconds. *)
Definition seconds (q : option f64) (r : option N) : Prop :=
  match q, r with
  | None, None => True
  | Some x, Some n => duration_of x n
  | _, _ => False
  end.
