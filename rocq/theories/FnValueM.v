(** Model of src/fnvalue.rs: replacement values for function bodies. *)
From Coq Require Import String List NArith Bool.
Import ListNotations.
From Verif Require Import Text PrettyM.

Definition toks := list tree.

(** [syn::Type] as far as src/fnvalue.rs looks at it.  A path keeps the identifiers of all
    segments but the last ([pre]), whether it starts with "::" ([lead]), the last identifier
    and its angle-bracketed arguments if any ([None] also stands for parenthesised arguments
    such as [Fn(u8)]; [plain] is false for these).  Arguments of earlier segments and the
    [<T as Trait>] part of a qualified path are not looked at by the code and are left out.
    [TOther] is every other type ([(T)], pointers, [dyn], function types, macros, ...). *)
Inductive ty :=
| TPath (lead : bool) (pre : list text) (id : text) (plain : bool) (args : option (list garg))
| TArray (elem : ty) (len : toks)
| TSlice (elem : ty)
| TRef (mutable : bool) (elem : ty)
| TTuple (elems : list ty)
| TImpl (bounds : list bound)
| TNever
| TOther (ts : toks)
with garg := GType (t : ty) | GLifetime | GAssoc (id : text) (t : ty) | GOther
with bound := BTrait (id : text) (args : option (list garg)) | BOther.

(** [syn::ReturnType]. *)
Inductive ret := RDefault | RType (t : ty).

(** Tokens of the [quote!] templates. *)
Definition AMP : chr := 38%N.   (* '&' *)
Definition colons : toks := [Punct COLON; Punct COLON].
Definition wd (s : string) : tree := Word (tx s).
Arguments wd _%string_scope.
Definition lit_str (s : string) : tree := Word ([QUOTE] ++ tx s ++ [QUOTE]).
Arguments lit_str _%string_scope.
Definition paren (ts : toks) : tree := Group Paren ts.
Definition bracket (ts : toks) : tree := Group Bracket ts.
Fixpoint comma_sep (l : list toks) : toks :=
  match l with
  | [] => []
  | [x] => x
  | x :: l' => x ++ Punct COMMA_ :: comma_sep l'
  end.

Definition q_default : toks := wd "Default" :: colons ++ [wd "default"; paren []].
Definition q_ok (r : toks) : toks := [wd "Ok"; paren r].
Definition q_err (r : toks) : toks := [wd "Err"; paren r].
Definition q_some (r : toks) : toks := [wd "Some"; paren r].
Definition q_vec (r : toks) : toks := [wd "vec"; Punct BANG; bracket r].
Definition q_assoc (ty_name : text) (f : string) (args : toks) : toks := Word ty_name :: colons ++ [wd f; paren args].
Arguments q_assoc _ _%string_scope _.
Definition q_string_new : toks := q_assoc (tx "String") "new" [].
Definition q_into : toks := [lit_str "xyzzy"; Punct DOT; wd "into"; paren []].
Definition q_neg (w : string) : toks := [Punct MINUS; wd w].
Arguments q_neg _%string_scope.
Definition q_to_owned (r : toks) : toks := r ++ [Punct DOT; wd "to_owned"; paren []].
Definition q_leak_new : toks := q_assoc (tx "Vec") "leak" (q_assoc (tx "Vec") "new" []).
Definition q_leak (r : toks) : toks := q_assoc (tx "Vec") "leak" (q_vec r).
Definition q_box_leak (r : toks) : toks := q_assoc (tx "Box") "leak" (q_assoc (tx "Box") "new" r).
Definition q_from_iter (c : text) (r : toks) : toks := q_assoc c "from_iter" [bracket r].
Definition q_pair (k v : toks) : toks := [paren (k ++ Punct COMMA_ :: v)].
Definition q_tuple (rs : list toks) : toks := [paren (comma_sep rs)].
Definition q_array (r len : toks) : toks := [bracket (r ++ Punct SEMI :: len)].
Definition q_iter (f : string) (args : toks) : toks := colons ++ wd "std" :: colons ++ wd "iter" :: colons ++ [wd f; paren args].
Arguments q_iter _%string_scope _.
Definition q_http : toks := wd "HttpResponse" :: colons ++ [wd "Ok"; paren []; Punct DOT; wd "finish"; paren []].

(** Generic arguments as seen by the matching functions: a type argument carries the
    replacements of its type.  (The Rust code returns the type and then recurses; the
    recursion is pure, so it makes no difference to compute it first.) *)
Inductive aview := AType (r : list toks) | ALifetime | AAssoc (id : text) (r : list toks) | AOther.

(** src/fnvalue.rs:416-435 [match_first_type_arg]. *)
Fixpoint first_type_arg (l : list aview) : option (list toks) :=
  match l with
  | [] => None
  | AType r :: _ => Some r
  | ALifetime :: l' => first_type_arg l'
  | _ => None
  end.
Definition match_first_type_arg (id : text) (args : option (list aview)) (expected : text) : option (list toks) :=
  if text_eqb id expected then match args with Some l => first_type_arg l | None => None end else None.

(** src/fnvalue.rs:270-293 [known_container] and 295-325 [known_collection]. *)
Definition containers : list text := map tx ["Box"; "Cell"; "RefCell"; "Arc"; "Rc"; "Mutex"]%string.
Definition collections : list text := map tx ["BinaryHeap"; "BTreeSet"; "HashSet"; "LinkedList"; "VecDeque"]%string.
Definition maps : list text := map tx ["BTreeMap"; "HashMap"]%string.
Definition only_type_arg (names : list text) (id : text) (args : option (list aview)) : option (list toks) :=
  if mem_text id names then match args with Some [AType r] => Some r | _ => None end else None.

(** src/fnvalue.rs:327-346 [known_map]. *)
Definition known_map (id : text) (args : option (list aview)) : option (list toks * list toks) :=
  if mem_text id maps then match args with Some [AType k; AType v] => Some (k, v) | _ => None end else None.

(** src/fnvalue.rs:347-366 [maybe_collection_or_container]. *)
Definition type_args (l : list aview) : list (list toks) :=
  flat_map (fun a => match a with AType r => [r] | _ => [] end) l.
Definition maybe_collection (args : option (list aview)) : option (list toks) :=
  match args with
  | Some l => match type_args l with [r] => Some r | _ => None end
  | None => None
  end.

(** src/fnvalue.rs:245-268 [match_impl_iterator]: [bs] are the bounds with the views of
    their arguments. *)
Fixpoint impl_iterator (bs : list (option (text * option (list aview)))) : option (list toks) :=
  match bs with
  | [] => None
  | Some (id, Some (AAssoc item r :: _)) :: bs' =>
      if text_eqb id (tx "Iterator") && text_eqb item (tx "Item") then Some r else impl_iterator bs'
  | _ :: bs' => impl_iterator bs'
  end.

(** [Path::is_ident]. *)
Definition is_ident (lead : bool) (pre : list text) (id : text) (plain : bool) (args : option (list aview)) (w : text) : bool :=
  negb lead && match pre with [] => true | _ => false end && text_eqb id w && plain
    && match args with None => true | Some _ => false end.

(** src/fnvalue.rs:368-414. *)
Definition floats : list text := map tx ["f32"; "f64"]%string.
Definition unsigneds : list text := map tx ["u8"; "u16"; "u32"; "u64"; "u128"; "usize"]%string.
Definition signeds : list text := map tx ["i8"; "i16"; "i32"; "i64"; "i128"; "isize"]%string.
Definition nonzero_signeds : list text :=
  map tx ["NonZeroIsize"; "NonZeroI8"; "NonZeroI16"; "NonZeroI32"; "NonZeroI64"; "NonZeroI128"]%string.
Definition nonzero_unsigneds : list text :=
  map tx ["NonZeroUsize"; "NonZeroU8"; "NonZeroU16"; "NonZeroU32"; "NonZeroU64"; "NonZeroU128"]%string.

(** [Iterator::cartesian_product] and [multi_cartesian_product] (itertools 0.13: the
    product of no lists is one empty list). *)
Definition product {A B} (l : list A) (m : list B) : list (A * B) := flat_map (fun a => map (pair a) m) l.
Fixpoint multi_product {A} (ls : list (list A)) : list (list A) :=
  match ls with
  | [] => [[]]
  | l :: ls' => flat_map (fun a => map (cons a) (multi_product ls')) l
  end.

(** src/fnvalue.rs:40-154: the branch for paths; [isid] is [path.is_ident]. *)
Definition path_replacements (errs : list toks) (isid : text -> bool) (id : text) (args : option (list aview)) : list toks :=
  if isid (tx "bool") then [[wd "true"]; [wd "false"]]
  else if isid (tx "String") then [q_string_new; q_into]
  else if isid (tx "str") then [[lit_str ""]; [lit_str "xyzzy"]]
  else if existsb isid unsigneds then [[wd "0"]; [wd "1"]]
  else if existsb isid signeds then [[wd "0"]; [wd "1"]; q_neg "1"]
  else if mem_text id nonzero_signeds then [[wd "1"]; q_neg "1"]
  else if mem_text id nonzero_unsigneds then [[wd "1"]]
  else if existsb isid floats then [[wd "0.0"]; [wd "1.0"]; q_neg "1.0"]
  else if text_eqb id (tx "Result") then
    match match_first_type_arg id args (tx "Result") with
    | Some rs => map q_ok rs
    | None => [q_ok q_default]
    end ++ map q_err errs
  else if text_eqb id (tx "HttpResponse") then [q_http]
  else match match_first_type_arg id args (tx "Option") with
  | Some rs => [wd "None"] :: map q_some rs
  | None =>
  match match_first_type_arg id args (tx "Vec") with
  | Some rs => q_vec [] :: map q_vec rs
  | None =>
  match match_first_type_arg id args (tx "Cow") with
  | Some rs => flat_map (fun r => [q_assoc (tx "Cow") "Borrowed" r; q_assoc (tx "Cow") "Owned" (q_to_owned r)]) rs
  | None =>
  match only_type_arg containers id args with
  | Some rs => map (q_assoc id "new") rs
  | None =>
  match only_type_arg collections id args with
  | Some rs => q_assoc id "new" [] :: map (q_from_iter id) rs
  | None =>
  match known_map id args with
  | Some (ks, vs) => q_assoc id "new" [] :: map (fun kv => q_from_iter id (q_pair (fst kv) (snd kv))) (product ks vs)
  | None =>
  match maybe_collection args with
  | Some rs => q_assoc id "new" []
      :: flat_map (fun r => [q_from_iter id r; q_assoc id "new" r; q_assoc id "from" r]) rs
  | None => [q_default]
  end end end end end end end.

(** src/fnvalue.rs:31-239 [type_replacements]; [errs] are the tokens of the error values. *)
Section Reps.
Variable errs : list toks.
Fixpoint reps (t : ty) : list toks :=
  match t with
  | TPath lead pre id plain args =>
      let views := match args with Some l => Some (map view l) | None => None end in
      path_replacements errs (is_ident lead pre id plain views) id views
  | TArray e len => map (fun r => q_array r len) (reps e)
  | TSlice e => q_leak_new :: map q_leak (reps e)
  | TRef false e =>
      match e with
      | TPath lead pre id plain args =>
          let views := match args with Some l => Some (map view l) | None => None end in
          if is_ident lead pre id plain views (tx "str") then [[lit_str ""]; [lit_str "xyzzy"]]
          else map (fun r => Punct AMP :: r) (reps e)
      | TSlice e' => q_leak_new :: map q_leak (reps e')
      | _ => map (fun r => Punct AMP :: r) (reps e)
      end
  | TRef true e =>
      match e with
      | TSlice e' => q_leak_new :: map q_leak (reps e')
      | _ => map q_box_leak (reps e)
      end
  | TTuple es => map q_tuple (multi_product (map reps es))
  | TImpl bs =>
      match impl_iterator (map bview bs) with
      | Some rs => q_iter "empty" [] :: map (q_iter "once") rs
      | None => []
      end
  | TNever => []
  | TOther _ => [q_default]
  end
with view (g : garg) : aview :=
  match g with
  | GType t => AType (reps t)
  | GLifetime => ALifetime
  | GAssoc id t => AAssoc id (reps t)
  | GOther => AOther
  end
with bview (b : bound) : option (text * option (list aview)) :=
  match b with
  | BTrait id args => Some (id, match args with Some l => Some (map view l) | None => None end)
  | BOther => None
  end.
End Reps.

(** src/fnvalue.rs:20-29 [return_type_replacements]. *)
Definition return_type_replacements (errs : list toks) (r : ret) : list toks :=
  match r with
  | RDefault => [[paren []]]
  | RType t => reps errs t
  end.
