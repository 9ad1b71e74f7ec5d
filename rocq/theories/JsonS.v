(** What JSON text means: a reader after RFC 8259, independent of the printer; and what the data must be. *)
From Coq Require Import String List NArith ZArith Bool Arith Sorted.
From Verif Require Import Text SpanM PathM MutantM ProcessM OutcomeM JsonM.
Import ListNotations.
Open Scope list_scope.

(** * The reader *)

(** RFC 8259 section 2: white space. *)
Definition json_space (c : chr) : bool := N.eqb c 32 || N.eqb c 9 || N.eqb c 10 || N.eqb c 13.
Fixpoint skip_space (s : text) : text :=
  match s with c :: s' => if json_space c then skip_space s' else s | [] => [] end.

(** Section 7: strings.  The characters up to the closing quote.  Surrogate pairs, which may be used for characters that
    need no escape, are refused. *)
Definition hex_value (c : chr) : option N :=
  if is_digit c then Some (c - 48)%N
  else if ((97 <=? c) && (c <=? 102))%N then Some (c - 87)%N
  else if ((65 <=? c) && (c <=? 70))%N then Some (c - 55)%N
  else None.
Definition hex4 (a b c d : chr) : option N :=
  match hex_value a, hex_value b, hex_value c, hex_value d with
  | Some a, Some b, Some c, Some d =>
      let n := (((a * 16 + b) * 16 + c) * 16 + d)%N in
      if ((55296 <=? n) && (n <=? 57343))%N then None else Some n
  | _, _, _, _ => None
  end.
Definition simple_escape (e : chr) : option chr :=
  if N.eqb e 34 then Some 34%N        (* double quote *)
  else if N.eqb e 92 then Some 92%N   (* backslash *)
  else if N.eqb e 47 then Some 47%N   (* slash *)
  else if N.eqb e 98 then Some 8%N    (* b *)
  else if N.eqb e 102 then Some 12%N  (* f *)
  else if N.eqb e 110 then Some 10%N  (* n *)
  else if N.eqb e 114 then Some 13%N  (* r *)
  else if N.eqb e 116 then Some 9%N   (* t *)
  else None.
Definition more (c : chr) (r : option (text * text)) : option (text * text) :=
  match r with Some (a, b) => Some (c :: a, b) | None => None end.
Fixpoint read_chars (s : text) : option (text * text) :=
  match s with
  | [] => None
  | c :: s' =>
      if N.eqb c 34 then Some ([], s')
      else if N.eqb c 92 then
        match s' with
        | [] => None
        | e :: s2 =>
            if N.eqb e 117 then
              match s2 with
              | h1 :: h2 :: h3 :: h4 :: s3 => match hex4 h1 h2 h3 h4 with Some x => more x (read_chars s3) | None => None end
              | _ => None
              end
            else match simple_escape e with Some x => more x (read_chars s2) | None => None end
        end
      else if (c <? 32)%N then None
      else more c (read_chars s')
  end.

(** Section 6: numbers.  The longest run of characters that occur in numbers must be one. *)
Definition number_char (c : chr) : bool := is_digit c || N.eqb c 45 || N.eqb c 43 || N.eqb c 46 || N.eqb c 101 || N.eqb c 69.
Fixpoint span_number (s : text) : text * text :=
  match s with
  | c :: s' => if number_char c then let '(a, b) := span_number s' in (c :: a, b) else ([], s)
  | [] => ([], [])
  end.
Fixpoint digits_then (k : text -> bool) (s : text) : bool :=
  match s with c :: s' => if is_digit c then digits_then k s' else k s | [] => k [] end.
Definition some_digits_then (k : text -> bool) (s : text) : bool :=
  match s with c :: s' => is_digit c && digits_then k s' | [] => false end.
Definition at_end (s : text) : bool := match s with [] => true | _ => false end.
Definition exponent (s : text) : bool :=
  match s with
  | [] => true
  | e :: s' =>
      (N.eqb e 101 || N.eqb e 69) &&
      match s' with
      | c :: s2 => if N.eqb c 43 || N.eqb c 45 then some_digits_then at_end s2 else some_digits_then at_end s'
      | [] => false
      end
  end.
Definition fraction (s : text) : bool :=
  match s with c :: s' => if N.eqb c 46 then some_digits_then exponent s' else exponent s | [] => true end.
Definition integer (s : text) : bool :=
  match s with c :: s' => if N.eqb c 48 then fraction s' else is_digit c && digits_then fraction s' | [] => false end.
Definition is_number (s : text) : bool :=
  match s with c :: s' => if N.eqb c 45 then integer s' else integer s | [] => false end.

(** Sections 3 to 5: a value, the items of an array after the first bracket or comma, the members of an object.  The
    fuel bounds the number of values. *)
Fixpoint read_value (fuel : nat) (s : text) : option (json * text) :=
  match fuel with
  | O => None
  | S f =>
      match skip_space s with
      | [] => None
      | c :: s' =>
          if N.eqb c 34 then match read_chars s' with Some (t, r) => Some (JStr t, r) | None => None end
          else if N.eqb c 91 then
            match skip_space s' with
            | c1 :: r => if N.eqb c1 93 then Some (JArr [], r)
                         else match read_items f s' with Some (l, r') => Some (JArr l, r') | None => None end
            | [] => None
            end
          else if N.eqb c 123 then
            match skip_space s' with
            | c1 :: r => if N.eqb c1 125 then Some (JObj [], r)
                         else match read_members f s' with Some (l, r') => Some (JObj l, r') | None => None end
            | [] => None
            end
          else if starts_with (tx "null") (c :: s') then Some (JNull, skipn 4 (c :: s'))
          else let '(t, r) := span_number (c :: s') in if is_number t then Some (JNum t, r) else None
      end
  end
with read_items (fuel : nat) (s : text) : option (list json * text) :=
  match fuel with
  | O => None
  | S f =>
      match read_value f s with
      | None => None
      | Some (v, r) =>
          match skip_space r with
          | c :: r' =>
              if N.eqb c 44 then match read_items f r' with Some (l, r2) => Some (v :: l, r2) | None => None end
              else if N.eqb c 93 then Some ([v], r') else None
          | [] => None
          end
      end
  end
with read_members (fuel : nat) (s : text) : option (list (text * json) * text) :=
  match fuel with
  | O => None
  | S f =>
      match skip_space s with
      | q :: s' =>
          if N.eqb q 34 then
            match read_chars s' with
            | None => None
            | Some (k, r) =>
                match skip_space r with
                | c :: r1 =>
                    if N.eqb c 58 then
                      match read_value f r1 with
                      | None => None
                      | Some (v, r2) =>
                          match skip_space r2 with
                          | c2 :: r3 =>
                              if N.eqb c2 44 then match read_members f r3 with Some (l, r4) => Some ((k, v) :: l, r4) | None => None end
                              else if N.eqb c2 125 then Some ([(k, v)], r3) else None
                          | [] => None
                          end
                      end
                    else None
                | [] => None
                end
            end
          else None
      | [] => None
      end
  end.

(** Section 2: a text is one value with white space around it.  (true and false, which are never written, are refused.) *)
Definition read_json (s : text) : option json :=
  match read_value (S (length s + length s)) s with Some (v, r) => if at_end (skip_space r) then Some v else None | None => None end.

(** * The data *)

(** The keys of an object, and the value of a field of an object without double keys. *)
Definition keys (v : json) : list text := match v with JObj l => map fst l | _ => [] end.
Definition has (v : json) (k : text) (x : json) : Prop := exists l, v = JObj l /\ In (k, x) l /\ NoDup (map fst l).

Definition number (v : json) (n : N) : Prop := v = JNum (show_N n).
Definition place (v : json) (l : line_column) : Prop :=
  exists a b, has v (tx "line") a /\ number a (N.of_nat (lc_line l)) /\ has v (tx "column") b /\ number b (N.of_nat (lc_column l)).
Definition region (v : json) (s : span) : Prop :=
  exists a b, has v (tx "start") a /\ place a (sp_start s) /\ has v (tx "end") b /\ place b (sp_end s).

(** The object describes the function, the mutant. *)
Definition is_function (v : json) (f : fn_info) : Prop :=
  has v (tx "function_name") (JStr (fn_name f)) /\ has v (tx "return_type") (JStr (fn_return_type f))
  /\ exists s, has v (tx "span") s /\ region s (fn_span f).
Definition genre_text (g : genre) (t : text) : Prop :=
  In (g, t) [(FnValue, tx "FnValue"); (BinaryOperator, tx "BinaryOperator"); (UnaryOperator, tx "UnaryOperator");
             (MatchArm, tx "MatchArm"); (MatchArmGuard, tx "MatchArmGuard")].
Definition is_mutant_object (v : json) (m : mutant) : Prop :=
  has v (tx "package") (JStr (sf_package (mu_file m)))
  /\ has v (tx "file") (JStr (to_slash_path (sf_path (mu_file m))))
  /\ (exists f, has v (tx "function") f /\ match mu_fn m with None => f = JNull | Some fn => is_function f fn end)
  /\ (exists s, has v (tx "span") s /\ region s (mu_span m))
  /\ has v (tx "replacement") (JStr (mu_replacement m))
  /\ (exists t, has v (tx "genre") (JStr t) /\ genre_text (mu_genre m) t).

(** What of a mutant is in its object: all but the source text and whether the file is the top of a package. *)
Definition same_data (a b : mutant) : Prop :=
  sf_package (mu_file a) = sf_package (mu_file b) /\ to_slash_path (sf_path (mu_file a)) = to_slash_path (sf_path (mu_file b))
  /\ mu_fn a = mu_fn b /\ mu_span a = mu_span b /\ mu_replacement a = mu_replacement b /\ mu_genre a = mu_genre b.

(** The object describes the outcome. *)
Definition summary_text (v : summary_outcome) (t : text) : Prop :=
  In (v, t) [(SumSuccess, tx "Success"); (SumCaught, tx "CaughtMutant"); (SumMissed, tx "MissedMutant");
             (SumUnviable, tx "Unviable"); (SumFailure, tx "Failure"); (SumTimeout, tx "Timeout")].
Definition is_scenario (v : json) (s : scenario mutant) : Prop :=
  match s with
  | Baseline => v = JStr (tx "Baseline")
  | Mutant m => keys v = [tx "Mutant"] /\ exists x, has v (tx "Mutant") x /\ is_mutant_object x m
  end.
Definition phase_text (p : phase) (t : text) : Prop := In (p, t) [(Check, tx "Check"); (Build, tx "Build"); (Test, tx "Test")].
Definition is_exit (v : json) (e : exit_t) : Prop :=
  match e with
  | ExSuccess => v = JStr (tx "Success")
  | ExTimeout => v = JStr (tx "Timeout")
  | ExOther => v = JStr (tx "Other")
  | ExFailure c => exists t, v = JObj [(tx "Failure", JNum t)] /\ t = (if (c <? 0)%Z then tx "-" else []) ++ show_N (Z.abs_N c)
  | ExSignalled c => exists t, v = JObj [(tx "Signalled", JNum t)] /\ t = (if (c <? 0)%Z then tx "-" else []) ++ show_N (Z.abs_N c)
  end.
Definition is_result (secs : N -> text) (v : json) (r : phase_result) (args : list text) : Prop :=
  (exists t, has v (tx "phase") (JStr t) /\ phase_text (pr_phase r) t)
  /\ has v (tx "duration") (JNum (secs (pr_duration r)))
  /\ (exists x, has v (tx "process_status") x /\ is_exit x (pr_status r))
  /\ has v (tx "argv") (JArr (map JStr args)).
Definition is_outcome (secs : N -> text) (argv : outcome mutant -> phase_result -> list text) (log_path : outcome mutant -> text)
  (diff_path : outcome mutant -> option text) (v : json) (o : outcome mutant) : Prop :=
  (exists x, has v (tx "scenario") x /\ is_scenario x (oc_scenario o))
  /\ (exists s t, summary o = Some s /\ has v (tx "summary") (JStr t) /\ summary_text s t)
  /\ has v (tx "log_path") (JStr (log_path o))
  /\ has v (tx "diff_path") (match diff_path o with None => JNull | Some p => JStr p end)
  /\ (exists l, has v (tx "phase_results") (JArr l) /\ Forall2 (fun x r => is_result secs x r (argv o r)) l (oc_results o)).

(** The object describes the whole run. *)
Definition counts (v : json) (k : text) (n : nat) : Prop := exists x, has v k x /\ number x (N.of_nat n).
Definition is_lab (secs : N -> text) (argv : outcome mutant -> phase_result -> list text) (log_path : outcome mutant -> text)
  (diff_path : outcome mutant -> option text) (v : json) (l : lab_outcome mutant) : Prop :=
  (exists xs, has v (tx "outcomes") (JArr xs) /\ Forall2 (is_outcome secs argv log_path diff_path) xs (lo_outcomes l))
  /\ counts v (tx "total_mutants") (lo_total l) /\ counts v (tx "missed") (lo_missed l) /\ counts v (tx "caught") (lo_caught l)
  /\ counts v (tx "timeout") (lo_timeout l) /\ counts v (tx "unviable") (lo_unviable l) /\ counts v (tx "success") (lo_success l).

(** The object describes the file. *)
Definition is_file_object (v : json) (f : source_file) : Prop :=
  has v (tx "path") (JStr (to_slash_path (sf_path f))) /\ has v (tx "package") (JStr (sf_package f)).

(** Every number in the value is written as a number. *)
Fixpoint numbers_ok (v : json) : bool :=
  match v with
  | JNum t => is_number t
  | JArr l => forallb numbers_ok l
  | JObj l => forallb (fun kx => numbers_ok (snd kx)) l
  | _ => true
  end.

(** Dictionary order of texts by code points. *)
Inductive text_before : text -> text -> Prop :=
| tb_nil y b : text_before [] (y :: b)
| tb_less x y a b : (x < y)%N -> text_before (x :: a) (y :: b)
| tb_same x a b : text_before a b -> text_before (x :: a) (x :: b).
(** In each object of a value the keys are in order, so that none is there twice. *)
Inductive ordered : json -> Prop :=
| or_null : ordered JNull
| or_num t : ordered (JNum t)
| or_str t : ordered (JStr t)
| or_arr l : Forall ordered l -> ordered (JArr l)
| or_obj l : StronglySorted text_before (map fst l) -> Forall (fun kx => ordered (snd kx)) l -> ordered (JObj l).
