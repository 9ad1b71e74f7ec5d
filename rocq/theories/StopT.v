(** Theorems: interrupts before and between the tests (C76). *)
From Coq Require Import String List NArith ZArith Bool Arith Lia.
From Verif Require Import Text SpanM PathM MutantM OutcomeM OutputM IterateM InDiffM ShardM PackageM OptionsM PrettyM FnValueM VisitM
  WalkM WalkT MainM LabT WholeM WholeT CopyM CopyT StopM StopS StopP.
Import ListNotations.
Open Scope list_scope.
Open Scope nat_scope.

(** C76: with an interrupt that comes after [k] checks the search finds all that it finds without, or ends with an error;
    then it has parsed exactly the first [k] files, has read one more, and has done nothing else. *)
Theorem C76_search : forall w fuel k se, let x := discover_checked w fuel (Some k) se in let x0 := discover_checked w fuel None se in
  fst x0 = Went (discover w fuel se) None
  /\ ((exists j, fst x = Went (discover w fuel se) (Some j) /\ snd x = snd x0 /\ parsed (snd x) + j = k)
      \/ (fst x = Interrupted /\ parsed (snd x) = k /\ ends_before (snd x) (snd x0))).
Proof. intros w fuel k se x x0. split; [apply discover_plain|apply discover_cases]. Qed.
Print Assumptions C76_search.

(** C76: which of the two, depends only on how many files there are to parse. *)
Theorem C76_search_iff : forall w fuel k se,
  fst (discover_checked w fuel (Some k) se) = Interrupted <-> k < parsed (snd (discover_checked w fuel None se)).
Proof.
  intros w fuel k se. destruct (discover_cases w fuel k se) as [(j & A & B & C)|(A & B & l & x & rest & E & F)].
  - rewrite A, <- B. split; [discriminate|lia].
  - split; [intros _|intros _; exact A]. rewrite E in B. rewrite F. rewrite parsed_app in B. cbn [parsed] in B.
    rewrite parsed_app. cbn [parsed]. lia.
Qed.
Print Assumptions C76_search_iff.

(** C76: a search that is interrupted ends, also one that would go on for ever (C29_ends_refuted). *)
Theorem C76_search_ends : forall w k se, exists n, forall fuel s, n <= fuel ->
  fst (discover_checked w fuel (Some k) se) <> Went WFuel s.
Proof. exact discover_ends. Qed.
Print Assumptions C76_search_ends.

Definition ex_stop (syn : text -> option node) (k : option nat) : option (stopped wresult * list event) :=
  option_map (fun o => search_tree WalkT.ex_read ex_is syn (fun _ _ => true) (tx "/t") o [] [] 20 k
    [mkPackage (tx "p") (tx "1.0.0") (tx "/t") [tx "src/lib.rs"]]) (ex_opts []).
(** The third of four files has been read; all four are parsed without an interrupt; and a file that is its own module. *)
Example C76_case_search :
  ex_stop WalkT.ex_code (Some 2) = Some (Interrupted,
    [Loads (tx "src/lib.rs"); Parses (tx "src/lib.rs"); Loads (tx "src/a.rs"); Parses (tx "src/a.rs"); Loads (tx "src/c/mod.rs")])
  /\ option_map (fun x => parsed (snd x)) (ex_stop WalkT.ex_code None) = Some 4
  /\ match ex_stop WalkT.ex_code (Some 4) with Some (Went (WOk _ _ fs) (Some 0), _) => length fs = 4 | _ => False end
  /\ option_map fst (ex_stop loop_code (Some 7)) = Some Interrupted
  /\ option_map fst (ex_stop loop_code None) = Some (Went WFuel None).
Proof. vm_compute. repeat split. Qed.

(** C76: waiting for the lock of an output directory ends at the first attempt that finds the flag set and not the lock
    free. *)
Theorem C76_lock : forall free k fuel, k < fuel ->
  ((exists n, n <= k /\ free n = true) -> exists s, wait_lock free fuel (Some k) 0 = Went true s)
  /\ ((forall n, n <= k -> free n = false) -> wait_lock free fuel (Some k) 0 = Interrupted).
Proof.
  intros free k fuel H. pose proof (wait_ends free k fuel 0) as E. pose proof (wait_when free k fuel 0) as W.
  destruct (wait_lock free fuel (Some k) 0) as [[|] s|] eqn:R.
  - split; [intros _; exists s; reflexivity|]. intro F. destruct (W s eq_refl) as (n & L & X). change (0 + n) with n in X. rewrite (F n L) in X. discriminate.
  - destruct (E s H eq_refl).
  - split; [|reflexivity]. intros (n & L & F). exfalso. clear E W.
    assert (G : forall m fuel k i, wait_lock free fuel (Some k) i = Interrupted -> m <= k -> free (i + m) = true -> False).
    { clear. induction m as [|m IH]; intros fuel k i R L F; (destruct fuel as [|fuel]; [discriminate|]); cbn [wait_lock] in R.
      - rewrite Nat.add_0_r in F. rewrite F in R. discriminate.
      - destruct (free i); [discriminate|]. destruct k as [|k]; [lia|]. cbn [check] in R.
        apply (IH fuel k (S i) R); [lia|]. rewrite Nat.add_succ_r in F. exact F. }
    exact (G n fuel k 0 R L F).
Qed.
Print Assumptions C76_lock.

Example C76_case_lock : wait_lock (fun n => Nat.eqb n 3) 10 (Some 3) 0 = Went true (Some 0)
  /\ wait_lock (fun n => Nat.eqb n 3) 10 (Some 2) 0 = Interrupted
  /\ wait_lock (fun _ => false) 10 None 0 = Went false None.
Proof. vm_compute. auto. Qed.

(** C76: up to the tests, an interrupt changes nothing but that the program may end with an error before: what it prints,
    the mutants that it goes on to test, its errors and panics are those without an interrupt. *)
Theorem C76_program : forall w free free' lk fuel k a,
  before_tests w free free' lk fuel (Some k) a = Interrupted
  \/ exists x j, j <= k /\ before_tests w free free' lk fuel (Some k) a = Went x (Some j)
     /\ before_tests w free free' lk fuel None a = Went x None
     /\ forall r, x = Some r -> match settle w a with Done se => r = after w lk fuel a se | Fails => r = Fails | Panics => r = Panics end.
Proof.
  intros w free free' lk fuel k a. destruct (before_cases w free free' lk fuel k a) as [H|(x & j & L & A & B)]; [left; exact H|].
  right. exists x, j. split; [exact L|]. split; [exact A|]. split; [exact B|]. intros r ->.
  destruct (before_plain w free free' lk fuel a) as (x' & C & D). rewrite B in C. injection C as <-.
  destruct D as [D|(r' & D & E)]; [discriminate|]. injection D as <-. exact E.
Qed.
Print Assumptions C76_program.

(** C76: an interrupted program does not search or wait for ever. *)
Theorem C76_ends : forall w free free' lk k a, exists n, forall fuel s, n <= fuel ->
  before_tests w free free' lk fuel (Some k) a <> Went None s.
Proof. exact before_ends. Qed.
Print Assumptions C76_ends.

(** C76: a program that is interrupted before the workspace is opened finds and prints nothing. *)
Theorem C76_at_once : forall w free free' lk fuel a,
  before_tests w free free' lk fuel (Some 0) a = Interrupted
  \/ (exists s, before_tests w free free' lk fuel (Some 0) a = Went (Some Fails) s /\ settle w a = Fails)
  \/ (exists s, before_tests w free free' lk fuel (Some 0) a = Went (Some Panics) s /\ settle w a = Panics).
Proof. exact before_first. Qed.
Print Assumptions C76_at_once.

(** C76: so a list that is printed is the whole list, also if there was an interrupt. *)
Theorem C76_listed : forall w free free' lk fuel k a t s, before_tests w free free' lk fuel (Some k) a = Went (Some (Done (Printed t))) s ->
  ends w (CmdRun a) (EListed t).
Proof.
  intros w free free' lk fuel k a t s H. destruct (C76_program w free free' lk fuel k a) as [E|(x & j & _ & A & _ & B)]; [congruence|].
  rewrite A in H. injection H as -> _. specialize (B _ eq_refl). destruct (settle w a) as [se| |] eqn:S; try discriminate.
  eapply en_listed; [exact S|]. symmetry. exact B.
Qed.
Print Assumptions C76_listed.

(** The program of WholeT makes two checks before it lists its mutants, and waits for no lock. *)
Example C76_case :
  map (fun k => match before_tests ex_world (fun _ => false) (fun _ => false) [] 20 (Some k) (ex_arguments true) with
                | Went (Some (Done (Printed t))) (Some j) => Some (length (lines t), j)
                | _ => None end) [0; 1; 2; 3] = [None; None; Some (2, 0); Some (2, 1)]
  /\ map (fun k => match before_tests ex_world (fun _ => false) (fun n => Nat.eqb n 2) [] 20 (Some k) (ex_arguments false) with
                | Went (Some (Done (Tests ms _))) (Some j) => Some (length ms, j)
                | Interrupted => None
                | _ => Some (9, 9) end) [0; 1; 2; 3; 4; 5] = [None; None; None; None; Some (2, 0); Some (2, 1)].
Proof. vm_compute. auto. Qed.

(** C76: copying a tree: it is whole if the flag is not set before the last entry is looked at; otherwise there is an error
    and the new tree has what the first [k] entries make, and nothing more. *)
Theorem C76_copy : forall copy_vcs gitignore ignored utf8 readable k top,
  let l := walk copy_vcs gitignore ignored readable [] top in
  match copy_tree_checked copy_vcs gitignore ignored utf8 readable (Some k) top with
  | Copied d _ => length l <= k /\ copy_tree copy_vcs gitignore ignored utf8 readable top = Some d
  | CopyFailed _ => copy_tree copy_vcs gitignore ignored utf8 readable top = None
  | CopyStopped d => k < length l /\ copy_all utf8 readable empty_dir (firstn k l) = Some d
  end.
Proof.
  intros copy_vcs gitignore ignored utf8 readable k top l. unfold copy_tree_checked, copy_tree. fold l.
  pose proof (copy_cases utf8 readable l k empty_dir) as H. destruct (copy_checked utf8 readable (Some k) empty_dir l) as [d s|d|d].
  - destruct H as (_ & H & E). split; assumption.
  - destruct H as [_ H]. rewrite copy_plain, H. reflexivity.
  - exact H.
Qed.
Print Assumptions C76_copy.

(** C76: a copy that is begun after the interrupt makes nothing. *)
Theorem C76_copy_at_once : forall copy_vcs gitignore ignored utf8 readable top,
  copy_tree_checked copy_vcs gitignore ignored utf8 readable (Some 0) top = CopyStopped empty_dir.
Proof.
  intros. unfold copy_tree_checked. pose proof (walk_not_nil copy_vcs gitignore ignored readable [] top) as N.
  destruct (walk copy_vcs gitignore ignored readable [] top); [contradiction|reflexivity].
Qed.
Print Assumptions C76_copy_at_once.

Example C76_case_copy :
  map (fun k => match copy_tree_checked false true ex_ignored (fun _ => true) (fun _ => true) (Some k) ex_tree with
                | Copied d _ => (true, map (fun p => match d p with Some _ => true | None => false end) [[tx "Cargo.toml"]; [tx "src"; tx "lib.rs"]; [tx ".hidden"]])
                | CopyStopped d => (false, map (fun p => match d p with Some _ => true | None => false end) [[tx "Cargo.toml"]; [tx "src"; tx "lib.rs"]; [tx ".hidden"]])
                | CopyFailed _ => (false, [])
                end) [0; 2; 4; 5; 6]
  = [(false, [false; false; false]); (false, [true; false; false]); (false, [true; true; false]); (false, [true; true; false]); (true, [true; true; true])].
Proof. vm_compute. reflexivity. Qed.
