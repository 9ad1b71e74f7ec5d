(** Model of src/glob.rs and of the part of the globset crate (0.4.10, Cargo.lock:591)
    it uses. *)
From Coq Require Import String List NArith Bool.
Import ListNotations.
From Verif Require Import Text.

Definition STAR : chr := 42%N.  (* '*' *)

(** Tokens of a parsed glob (globset's [Token]); alternates [{a,b}] are not modelled:
    a glob with braces is rejected by [parse]. *)
Inductive token :=
| TLit (c : chr)
| TAny
| TStar
| TPrefix                                          (* RecursivePrefix, "**/" at the start *)
| TSuffix                                          (* RecursiveSuffix, "/**" at the end *)
| TMiddle                                          (* RecursiveZeroOrMore, "/**/" *)
| TClass (negated : bool) (ranges : list (chr * chr)).

(** State inside a bracket class (globset's [parse_class]): negation known or not yet,
    ranges in reverse, at the first character, after a range dash. *)
Inductive mode :=
| MNormal
| MOpen                                            (* just after '[' *)
| MClass (negated : bool) (rev_ranges : list (chr * chr)) (first in_range : bool).

(** globset's parser: [prev] is the last character consumed, [acc] the tokens so far,
    reversed. [None] is any parse error. *)
Fixpoint parse (m : mode) (prev : option chr) (acc : list token) (s : text) : option (list token) :=
  match m with
  | MNormal =>
      match s with
      | [] => Some (rev acc)
      | c :: s1 =>
          if N.eqb c 63 then parse MNormal (Some c) (TAny :: acc) s1            (* ? *)
          else if N.eqb c 91 then parse MOpen (Some c) acc s1                   (* [ *)
          else if N.eqb c 123 || N.eqb c 125 then None                          (* { } *)
          else if N.eqb c BSLASH then
            match s1 with
            | [] => None                                                        (* DanglingEscape *)
            | d :: s2 => parse MNormal (Some d) (TLit d :: acc) s2
            end
          else if N.eqb c STAR then
            match s1 with
            | c2 :: s2 =>
                if N.eqb c2 STAR then
                  match acc with
                  | [] =>
                      match s2 with
                      | [] => Some [TPrefix]
                      | c3 :: s3 => if N.eqb c3 SLASH then parse MNormal (Some c3) [TPrefix] s3
                                    else parse MNormal (Some c2) [TStar; TStar] s2
                      end
                  | last :: acc' =>
                      match prev with
                      | Some p =>
                          if N.eqb p SLASH then
                            match s2 with
                            | [] => Some (rev (match last with TPrefix => TPrefix | _ => TSuffix end :: acc'))
                            | c3 :: s3 =>
                                if N.eqb c3 SLASH then
                                  parse MNormal (Some c3)
                                    (match last with TPrefix => TPrefix | TSuffix => TSuffix | _ => TMiddle end :: acc') s3
                                else parse MNormal (Some c2) (TStar :: TStar :: acc) s2
                            end
                          else parse MNormal (Some c2) (TStar :: TStar :: acc) s2
                      | None => parse MNormal (Some c2) (TStar :: TStar :: acc) s2
                      end
                  end
                else parse MNormal (Some c) (TStar :: acc) s1
            | [] => parse MNormal (Some c) (TStar :: acc) s1
            end
          else parse MNormal (Some c) (TLit c :: acc) s1
      end
  | MOpen =>
      match s with
      | [] => None                                                              (* UnclosedClass *)
      | c :: s1 =>
          if N.eqb c 33 || N.eqb c 94 then parse (MClass true [] true false) (Some c) acc s1   (* ! ^ *)
          else if N.eqb c 93 then parse (MClass false [(c, c)] false false) (Some c) acc s1   (* first ] *)
          else if N.eqb c 45 then parse (MClass false [(c, c)] false false) (Some c) acc s1   (* first - *)
          else parse (MClass false [(c, c)] false false) (Some c) acc s1
      end
  | MClass neg rs first in_range =>
      match s with
      | [] => None                                                              (* UnclosedClass *)
      | c :: s1 =>
          if N.eqb c 93 && negb first then                                      (* ] *)
            parse MNormal (Some c)
              (TClass neg (rev (if in_range then (45%N, 45%N) :: rs else rs)) :: acc) s1
          else if N.eqb c 45 && negb first && negb in_range then                (* - *)
            parse (MClass neg rs false true) (Some c) acc s1
          else if in_range then
            match rs with
            | (lo, _) :: rs' => if N.ltb c lo then None                         (* InvalidRange *)
                                else parse (MClass neg ((lo, c) :: rs') false false) (Some c) acc s1
            | [] => None                                                        (* unreachable *)
            end
          else parse (MClass neg ((c, c) :: rs) false false) (Some c) acc s1
      end
  end.

Definition glob_new (g : text) : option (list token) := parse MNormal None [] g.

(** A class matches a character (the regex [[...]] globset emits). *)
Definition class_match (neg : bool) (rs : list (chr * chr)) (c : chr) : bool :=
  xorb neg (existsb (fun r => N.leb (fst r) c && N.leb c (snd r)) rs).

(** [f] holds of some rest of [s] reached by skipping characters satisfying [skip]. *)
Fixpoint skip_some (skip : chr -> bool) (f : text -> bool) (s : text) : bool :=
  f s || match s with [] => false | c :: s' => skip c && skip_some skip f s' end.

(** [f] holds of some rest of [s] that follows a slash. *)
Fixpoint after_slash (f : text -> bool) (s : text) : bool :=
  match s with [] => false | c :: s' => (N.eqb c SLASH && f s') || after_slash f s' end.

(** Matching of tokens, per globset's translation to regexes with
    [literal_separator(true)] (src/glob.rs:38): TAny is [[^/]], TStar [[^/]*], TPrefix
    [(?:/?|.*/)], TSuffix [/.*], TMiddle [(?:/|/.*/)]. *)
Fixpoint tmatch (ts : list token) (s : text) : bool :=
  match ts with
  | [] => match s with [] => true | _ => false end
  | TLit c :: r => match s with d :: s' => N.eqb c d && tmatch r s' | [] => false end
  | TAny :: r => match s with d :: s' => negb (N.eqb d SLASH) && tmatch r s' | [] => false end
  | TClass n rs :: r => match s with d :: s' => class_match n rs d && tmatch r s' | [] => false end
  | TStar :: r => skip_some (fun d => negb (N.eqb d SLASH)) (tmatch r) s
  | TPrefix :: r => tmatch r s || match s with d :: s' => N.eqb d SLASH && tmatch r s' | [] => false end
                    || after_slash (tmatch r) s
  | TSuffix :: r => match s with d :: s' => N.eqb d SLASH && skip_some (fun _ => true) (tmatch r) s' | [] => false end
  | TMiddle :: r => match s with
                    | d :: s' => N.eqb d SLASH && (tmatch r s' || after_slash (tmatch r) s')
                    | [] => false
                    end
  end.

(** A glob that is just "**" matches everything (globset's special case). *)
Definition glob_match (ts : list token) (s : text) : bool :=
  match ts with [TPrefix] => true | _ => tmatch ts s end.

(** src/glob.rs:19-34: a glob without a slash becomes two. The Windows separator is not
    modelled. *)
Definition adjusted (g : text) : list text :=
  if existsb (N.eqb SLASH) g then [g]
  else [tx "**/" ++ g; tx "**/" ++ g ++ tx "/**"].

Fixpoint all_some {A B} (f : A -> option B) (l : list A) : option (list B) :=
  match l with
  | [] => Some []
  | a :: l' => match f a, all_some f l' with Some b, Some bs => Some (b :: bs) | _, _ => None end
  end.

(** [build_glob_set] (src/glob.rs:12-46): [None] is an error, [Some None] no filter. *)
Definition build_glob_set (globs : list text) : option (option (list (list token))) :=
  match globs with
  | [] => Some None
  | _ => match all_some glob_new (flat_map adjusted globs) with
         | Some gs => Some (Some gs)
         | None => None
         end
  end.

(** [GlobSet::is_match]: some glob of the set matches. *)
Definition set_match (gs : list (list token)) (path : text) : bool := existsb (fun g => glob_match g path) gs.
