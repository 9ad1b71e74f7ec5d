(** Model of the construction of cargo commands in src/cargo.rs. *)
From Coq Require Import String List NArith Bool.
Import ListNotations.
From Verif Require Import Text PathM ProcessM OutcomeM OptionsM PackageM.

(** Environment variables: [None] when unset or not UTF-8 ([env::var]). *)
Definition env := text -> option text.

(** src/cargo.rs:84-90 [cargo_bin]. *)
Definition cargo_bin (e : env) : text :=
  match e (tx "CARGO") with Some c => c | None => tx "cargo" end.

(** src/package.rs:75-77 [version_qualified_name]. *)
Definition version_qualified_name (p : package) : text := pk_name p ++ tx "@" ++ pk_version p.

(** src/cargo.rs:97-127: the subcommand. *)
Definition subcommand (ph : phase) (t : test_tool) : list text :=
  match ph with
  | Test => match t with ToolCargo => [tx "test"] | ToolNextest => [tx "nextest"; tx "run"] end
  | Build => match t with
             | ToolCargo => [tx "test"; tx "--no-run"]
             | ToolNextest => [tx "nextest"; tx "run"; tx "--no-run"]
             end
  | Check => [tx "check"; tx "--tests"]
  end.

(** src/cargo.rs:128-136. *)
Definition profile_args (o : options) : list text :=
  match op_profile o with
  | None => []
  | Some p => match op_test_tool o with
              | ToolCargo => [tx "--profile=" ++ p]
              | ToolNextest => [tx "--cargo-profile=" ++ p]
              end
  end.

(** src/cargo.rs:138-149. *)
Definition package_args (s : selection) : list text :=
  match s with
  | SelAll => [tx "--workspace"]
  | SelExplicit ps => map (fun p => tx "--package=" ++ version_qualified_name p) ps
  end.

(** src/cargo.rs:150-158. *)
Definition feature_args (f : features) : list text :=
  (if fe_no_default f then [tx "--no-default-features"] else [])
  ++ (if fe_all f then [tx "--all-features"] else [])
  ++ map (fun x => tx "--features=" ++ x) (fe_features f).

(** src/cargo.rs:92-164 [cargo_argv]. *)
Definition cargo_argv (e : env) (s : selection) (ph : phase) (o : options) : list text :=
  [cargo_bin e] ++ subcommand ph (op_test_tool o) ++ profile_args o ++ [tx "--verbose"]
  ++ package_args s ++ feature_args (op_features o) ++ op_additional_cargo_args o
  ++ (if phase_eqb ph Test then op_additional_cargo_test_args o else []).

Definition US : chr := 31%N.  (* '\x1f' *)
Definition CAP_LINTS : text := tx "--cap-lints=warn".

(** src/cargo.rs:166-205 [encoded_rustflags]. *)
Definition encoded_rustflags (e : env) (o : options) : option text :=
  if negb (op_cap_lints o) then None
  else match e (tx "CARGO_ENCODED_RUSTFLAGS") with
       | Some enc => match enc with
                     | [] => Some CAP_LINTS
                     | _ => Some (enc ++ [US] ++ CAP_LINTS)
                     end
       | None =>
           match e (tx "RUSTFLAGS") with
           | Some flags =>
               match flags with
               | [] => Some CAP_LINTS
               | _ => Some (join [US]
                        (filter (fun s => negb (text_eqb s [])) (split_on SP flags) ++ [CAP_LINTS]))
               end
           | None => Some CAP_LINTS
           end
       end.

(** src/cargo.rs:47-57: environment variables set for cargo ... *)
Definition cargo_env (e : env) (o : options) : list (text * text) :=
  [(tx "INSTA_UPDATE", tx "no"); (tx "INSTA_FORCE_PASS", tx "0")]
  ++ match encoded_rustflags e o with
     | Some f => [(tx "CARGO_ENCODED_RUSTFLAGS", f)]
     | None => []
     end.

(** ... on top of the inherited environment ([Command::envs], src/process.rs:86). *)
Fixpoint child_env (e : env) (vars : list (text * text)) : env :=
  match vars with
  | [] => e
  | (k, v) :: vars' => child_env (fun n => if text_eqb n k then Some v else e n) vars'
  end.
