(** Specification of replacement values (C34, C35): Rust expressions, their tokens and a
    typing relation written from the Rust language rules; the documented table. *)
From Coq Require Import String List NArith Bool.
Import ListNotations.
From Verif Require Import Text PrettyM FnValueM.

(** ** Expressions *)
Inductive expr :=
| EWord (w : text)                              (* literal or identifier *)
| ENeg (e : expr)                               (* -e *)
| EAddr (e : expr)                              (* &e *)
| ECall (lead : bool) (path : list text) (args : list expr)  (* a::b(args) *)
| EMethod (e : expr) (name : text)              (* e.name() *)
| EVecMacro (es : list expr)                    (* vec![es] *)
| ERepeat (e : expr) (len : toks)               (* [e; len] *)
| EArray (es : list expr)                       (* [es] *)
| ETuple (es : list expr)                       (* (), (e,), (e, f) *)
| EUser (ts : toks).                            (* an expression given by the user *)

Fixpoint path_toks (path : list text) : toks :=
  match path with
  | [] => []
  | [x] => [Word x]
  | x :: p => Word x :: Punct COLON :: Punct COLON :: path_toks p
  end.

(** Operators bind less tightly than a method call, so such receivers need parentheses;
    a one-element tuple needs its comma. *)
Fixpoint etoks (e : expr) : toks :=
  match e with
  | EWord w => [Word w]
  | ENeg e => Punct MINUS :: etoks e
  | EAddr e => Punct AMP :: etoks e
  | ECall lead path args =>
      (if lead then [Punct COLON; Punct COLON] else []) ++ path_toks path ++ [Group Paren (comma_sep (map etoks args))]
  | EMethod e name =>
      (match e with
       | ENeg _ | EAddr _ | EUser _ => [Group Paren (etoks e)]
       | _ => etoks e
       end) ++ [Punct DOT; Word name; Group Paren []]
  | EVecMacro es => [Word (tx "vec"); Punct BANG; Group Bracket (comma_sep (map etoks es))]
  | ERepeat e len => [Group Bracket (etoks e ++ Punct SEMI :: len)]
  | EArray es => [Group Bracket (comma_sep (map etoks es))]
  | ETuple es =>
      [Group Paren (match es with
                    | [e] => etoks e ++ [Punct COMMA_]
                    | _ => comma_sep (map etoks es)
                    end)]
  | EUser ts => ts
  end.

(** ** Types *)
(** The type named by one plain identifier. *)
Definition named (w : string) : ty := TPath false [] (tx w) true None.
Arguments named _%string_scope.
(** [path::Id<args>]. *)
Definition generic (lead : bool) (pre : list text) (id : string) (args : list garg) : ty :=
  TPath lead pre (tx id) true (Some args).
Arguments generic _ _ _%string_scope _.

Definition int_names : list string :=
  ["u8"; "u16"; "u32"; "u64"; "u128"; "usize"; "i8"; "i16"; "i32"; "i64"; "i128"; "isize"]%string.
Definition signed_names : list string := ["i8"; "i16"; "i32"; "i64"; "i128"; "isize"]%string.
Definition float_names : list string := ["f32"; "f64"]%string.

(** Types without a size known to the compiler. *)
Definition unsized (t : ty) : Prop := t = named "str" \/ exists e, t = TSlice e.

(** Types whose values are copied freely, as needed for [[e; n]] (n > 1). *)
Inductive copy : ty -> Prop :=
| copy_bool : copy (named "bool")
| copy_int : forall w, In w int_names -> copy (named w)
| copy_float : forall w, In w float_names -> copy (named w)
| copy_ref : forall t, copy (TRef false t)
| copy_option : forall l p t, copy t -> copy (generic l p "Option" [GType t])
| copy_array : forall t n, copy t -> copy (TArray t n)
| copy_tuple : forall ts, (forall t, In t ts -> copy t) -> copy (TTuple ts).

(** [lifetimes* T], and then anything: the first type argument. *)
Inductive first_arg : list garg -> ty -> Prop :=
| fa_here : forall t r, first_arg (GType t :: r) t
| fa_lifetime : forall r t, first_arg r t -> first_arg (GLifetime :: r) t.

Inductive box_like : string -> Prop :=
| bl_box : box_like "Box" | bl_cell : box_like "Cell" | bl_refcell : box_like "RefCell"
| bl_arc : box_like "Arc" | bl_rc : box_like "Rc" | bl_mutex : box_like "Mutex".
Inductive set_like : string -> Prop :=
| sl_heap : set_like "BinaryHeap" | sl_bset : set_like "BTreeSet" | sl_hset : set_like "HashSet"
| sl_list : set_like "LinkedList" | sl_deque : set_like "VecDeque".
Inductive map_like : string -> Prop := ml_b : map_like "BTreeMap" | ml_h : map_like "HashMap".

(** Types that this specification says nothing about, and which the code fills with
    [Default::default()]: a plain name that is not one of those above, or any type form
    that the code does not look into. *)
Definition special_names : list string :=
  ["bool"; "String"; "str"; "Result"; "HttpResponse"; "f32"; "f64";
   "u8"; "u16"; "u32"; "u64"; "u128"; "usize"; "i8"; "i16"; "i32"; "i64"; "i128"; "isize";
   "NonZeroIsize"; "NonZeroI8"; "NonZeroI16"; "NonZeroI32"; "NonZeroI64"; "NonZeroI128";
   "NonZeroUsize"; "NonZeroU8"; "NonZeroU16"; "NonZeroU32"; "NonZeroU64"; "NonZeroU128"]%string.
Inductive unknown : ty -> Prop :=
| unk_name : forall lead pre id plain, ~ In id (map tx special_names) -> unknown (TPath lead pre id plain None)
| unk_other : forall ts, unknown (TOther ts).

(** ** Typing, after the Rust reference; lifetimes, imports and trait bounds of type
    parameters are not considered. [errs] are the values configured by the user. *)
Section Typed.
Variable errs : list toks.
Inductive typed : expr -> ty -> Prop :=
| ty_true : typed (EWord (tx "true")) (named "bool")
| ty_false : typed (EWord (tx "false")) (named "bool")
| ty_int : forall n w, In n ["0"; "1"]%string -> In w int_names -> typed (EWord (tx n)) (named w)
| ty_neg : forall e w, typed e (named w) -> In w signed_names \/ In w float_names -> typed (ENeg e) (named w)
| ty_float : forall n w, In n ["0.0"; "1.0"]%string -> In w float_names -> typed (EWord (tx n)) (named w)
| ty_str : forall s, typed (EWord ([QUOTE] ++ s ++ [QUOTE])) (TRef false (named "str"))
| ty_string_new : typed (ECall false [tx "String"; tx "new"] []) (named "String")
| ty_string_into : forall e, typed e (TRef false (named "str")) -> typed (EMethod e (tx "into")) (named "String")
| ty_http : forall l p a, typed (EMethod (ECall false [tx "HttpResponse"; tx "Ok"] []) (tx "finish")) (TPath l p (tx "HttpResponse") true a)
| ty_none : forall l p t, typed (EWord (tx "None")) (generic l p "Option" [GType t])
| ty_some : forall l p t e, typed e t -> typed (ECall false [tx "Some"] [e]) (generic l p "Option" [GType t])
| ty_ok : forall l p args t e, first_arg args t -> typed e t -> typed (ECall false [tx "Ok"] [e]) (generic l p "Result" args)
| ty_ok_alias : forall l p e, e = ECall false [tx "Default"; tx "default"] [] ->
    typed (ECall false [tx "Ok"] [e]) (TPath l p (tx "Result") true None)
| ty_err : forall l p a e, In e errs -> typed (ECall false [tx "Err"] [EUser e]) (TPath l p (tx "Result") true a)
| ty_vec : forall l p t es, (forall e, In e es -> typed e t) -> typed (EVecMacro es) (generic l p "Vec" [GType t])
| ty_vec_new : forall l p t, typed (ECall false [tx "Vec"; tx "new"] []) (generic l p "Vec" [GType t])
| ty_repeat : forall t e n, typed e t -> copy t -> typed (ERepeat e n) (TArray t n)
| ty_new : forall l p c t e, box_like c -> typed e t -> ~ unsized t ->
    typed (ECall false [tx c; tx "new"] [e]) (generic l p c [GType t])
| ty_set_new : forall l p c t, set_like c -> typed (ECall false [tx c; tx "new"] []) (generic l p c [GType t])
| ty_set : forall l p c t es, set_like c -> (forall e, In e es -> typed e t) ->
    typed (ECall false [tx c; tx "from_iter"] [EArray es]) (generic l p c [GType t])
| ty_map_new : forall l p c k v, map_like c -> typed (ECall false [tx c; tx "new"] []) (generic l p c [GType k; GType v])
| ty_map : forall l p c k v es, map_like c -> (forall e, In e es -> typed e (TTuple [k; v])) ->
    typed (ECall false [tx c; tx "from_iter"] [EArray es]) (generic l p c [GType k; GType v])
| ty_borrowed : forall l p args t e, first_arg args t -> typed e (TRef false t) ->
    typed (ECall false [tx "Cow"; tx "Borrowed"] [e]) (generic l p "Cow" args)
| ty_owned : forall l p args t e, first_arg args t -> typed e (TRef false t) ->
    typed (ECall false [tx "Cow"; tx "Owned"] [EMethod e (tx "to_owned")]) (generic l p "Cow" args)
| ty_leak : forall m t e, typed e (generic false [] "Vec" [GType t]) ->
    typed (ECall false [tx "Vec"; tx "leak"] [e]) (TRef m (TSlice t))
| ty_addr : forall t e, typed e t -> typed (EAddr e) (TRef false t)
| ty_box_leak : forall t e, typed e (generic false [] "Box" [GType t]) ->
    typed (ECall false [tx "Box"; tx "leak"] [e]) (TRef true t)
| ty_tuple : forall es ts, Forall2 typed es ts -> typed (ETuple es) (TTuple ts)
| ty_empty : forall bs rest b t, In b bs -> b = BTrait (tx "Iterator") (Some (GAssoc (tx "Item") t :: rest)) ->
    typed (ECall true [tx "std"; tx "iter"; tx "empty"] []) (TImpl bs)
| ty_once : forall bs rest b t e, In b bs -> b = BTrait (tx "Iterator") (Some (GAssoc (tx "Item") t :: rest)) ->
    typed e t -> typed (ECall true [tx "std"; tx "iter"; tx "once"] [e]) (TImpl bs)
| ty_default : forall t, unknown t -> typed (ECall false [tx "Default"; tx "default"] []) t.
End Typed.

(** The tokens are those of an expression of the type. *)
Definition good (errs : list toks) (t : ty) (v : toks) : Prop := exists e, etoks e = v /\ typed errs e t.

(** The first item of a bound [Iterator<Item = t, ..>]. *)
Inductive iterator_item : list bound -> ty -> Prop :=
| it_here : forall t rest bs, iterator_item (BTrait (tx "Iterator") (Some (GAssoc (tx "Item") t :: rest)) :: bs) t
| it_later : forall b bs t, (forall rest u, b <> BTrait (tx "Iterator") (Some (GAssoc (tx "Item") u :: rest))) ->
    iterator_item bs t -> iterator_item (b :: bs) t.

(** ** Types for which the values are right. *)
Inductive fits : ty -> Prop :=
| fit_bool : fits (named "bool")
| fit_int : forall w, In w int_names -> fits (named w)
| fit_float : forall w, In w float_names -> fits (named w)
| fit_string : fits (named "String")
| fit_str : fits (TRef false (named "str"))
| fit_http : forall l p a, fits (TPath l p (tx "HttpResponse") true a)
| fit_option : forall l p t, fits t -> fits (generic l p "Option" [GType t])
| fit_result : forall l p args t, first_arg args t -> fits t -> fits (generic l p "Result" args)
| fit_result_alias : forall l p, fits (TPath l p (tx "Result") true None)
| fit_vec : forall l p t, fits t -> fits (generic l p "Vec" [GType t])
| fit_cow_str : forall l p args, first_arg args (named "str") -> fits (generic l p "Cow" args)
| fit_cow_slice : forall l p args t, first_arg args (TSlice t) -> fits t -> fits (generic l p "Cow" args)
| fit_box : forall l p c t, box_like c -> fits t -> fits (generic l p c [GType t])
| fit_set : forall l p c t, set_like c -> fits t -> fits (generic l p c [GType t])
| fit_map : forall l p c k v, map_like c -> fits k -> fits v -> fits (generic l p c [GType k; GType v])
| fit_array : forall t n, fits t -> copy t -> fits (TArray t n)
| fit_slice : forall m t, fits t -> fits (TRef m (TSlice t))
| fit_ref : forall t, fits t -> fits (TRef false t)
| fit_mut : forall t, fits t -> fits (TRef true t)
| fit_tuple : forall ts, length ts <> 1 -> (forall t, In t ts -> fits t) -> fits (TTuple ts)
| fit_iter : forall bs t, iterator_item bs t -> fits t -> fits (TImpl bs)
| fit_never : fits TNever
| fit_unknown : forall t, unknown t -> fits t.

(** ** What is left of the paths when the named types are set apart. *)
(** Names that are looked at whatever the path and the arguments. *)
Definition anywhere_names : list string :=
  ["Result"; "HttpResponse";
   "NonZeroIsize"; "NonZeroI8"; "NonZeroI16"; "NonZeroI32"; "NonZeroI64"; "NonZeroI128";
   "NonZeroUsize"; "NonZeroU8"; "NonZeroU16"; "NonZeroU32"; "NonZeroU64"; "NonZeroU128"]%string.
(** Names that are known only as the whole path. *)
Definition simple_names : list string := ["bool"; "String"; "str"]%string ++ int_names ++ float_names.
Definition types_of (args : list garg) : list ty := flat_map (fun a => match a with GType t => [t] | _ => [] end) args.
(** A generic type that is not one of the known ones with the arguments they have. *)
Definition other_generic (id : text) (args : list garg) : Prop :=
  ~ In id (map tx anywhere_names)
  /\ (In id (map tx ["Option"; "Vec"; "Cow"]%string) -> forall t, ~ first_arg args t)
  /\ (forall c t, id = tx c -> box_like c \/ set_like c -> args <> [GType t])
  /\ (forall c k v, id = tx c -> map_like c -> args <> [GType k; GType v]).

(** ** The documented table (book/src/mutants.md:21-49), at any nesting: [table t l] when
    the documentation gives the values [l] for the type [t]. *)
(** Values separated by commas; one value from each list, the last varying fastest. *)
Definition separated (vs : list toks) : toks := tl (concat (map (fun v => Punct 44%N :: v) vs)).
Definition choices (vss : list (list toks)) : list (list toks) :=
  fold_right (fun vs acc => map (fun p => fst p :: snd p) (list_prod vs acc)) [[]] vss.

Section Table.
Variable errs : list toks.
Inductive table : ty -> list toks -> Prop :=
| tab_signed : forall w, In w signed_names -> table (named w) [[Word (tx "0")]; [Word (tx "1")]; [Punct 45%N; Word (tx "1")]]
| tab_unsigned : forall w, In w int_names -> ~ In w signed_names -> table (named w) [[Word (tx "0")]; [Word (tx "1")]]
| tab_float : forall w, In w float_names -> table (named w) [[Word (tx "0.0")]; [Word (tx "1.0")]; [Punct 45%N; Word (tx "1.0")]]
| tab_nonzero_i : forall l p id pl a, In id (map (fun w => tx (String.append "NonZeroI" w)) ["8"; "16"; "32"; "64"; "128"; "size"]%string) ->
    table (TPath l p id pl a) [[Word (tx "1")]; [Punct 45%N; Word (tx "1")]]
| tab_nonzero_u : forall l p id pl a, In id (map (fun w => tx (String.append "NonZeroU" w)) ["8"; "16"; "32"; "64"; "128"; "size"]%string) ->
    table (TPath l p id pl a) [[Word (tx "1")]]
| tab_bool : table (named "bool") [[Word (tx "true")]; [Word (tx "false")]]
| tab_string : table (named "String") [etoks (ECall false [tx "String"; tx "new"] []); etoks (EMethod (EWord ([QUOTE] ++ tx "xyzzy" ++ [QUOTE])) (tx "into"))]
| tab_str : table (TRef false (named "str")) [[Word [QUOTE; QUOTE]]; [Word ([QUOTE] ++ tx "xyzzy" ++ [QUOTE])]]
| tab_result : forall l p pl args t vs, first_arg args t -> table t vs ->
    table (TPath l p (tx "Result") pl (Some args))
      (map (fun v => [Word (tx "Ok"); Group Paren v]) vs ++ map (fun v => [Word (tx "Err"); Group Paren v]) errs)
| tab_option : forall l p pl args t vs, first_arg args t -> table t vs ->
    table (TPath l p (tx "Option") pl (Some args)) ([Word (tx "None")] :: map (fun v => [Word (tx "Some"); Group Paren v]) vs)
| tab_vec : forall l p pl args t vs, first_arg args t -> table t vs ->
    table (TPath l p (tx "Vec") pl (Some args))
      ([Word (tx "vec"); Punct 33%N; Group Bracket []] :: map (fun v => [Word (tx "vec"); Punct 33%N; Group Bracket v]) vs)
| tab_box : forall l p pl c t vs, box_like c -> table t vs ->
    table (TPath l p (tx c) pl (Some [GType t])) (map (fun v => path_toks [tx c; tx "new"] ++ [Group Paren v]) vs)
| tab_set : forall l p pl c t vs, set_like c -> table t vs ->
    table (TPath l p (tx c) pl (Some [GType t]))
      ((path_toks [tx c; tx "new"] ++ [Group Paren []]) :: map (fun v => path_toks [tx c; tx "from_iter"] ++ [Group Paren [Group Bracket v]]) vs)
| tab_map : forall l p pl c k v ks vs, map_like c -> table k ks -> table v vs ->
    table (TPath l p (tx c) pl (Some [GType k; GType v]))
      ((path_toks [tx c; tx "new"] ++ [Group Paren []])
       :: map (fun kv => path_toks [tx c; tx "from_iter"] ++ [Group Paren [Group Bracket [Group Paren (fst kv ++ [Punct 44%N] ++ snd kv)]]])
            (list_prod ks vs))
| tab_cow : forall l p pl args t vs, first_arg args t -> table t vs ->
    table (TPath l p (tx "Cow") pl (Some args))
      (concat (map (fun v => [path_toks [tx "Cow"; tx "Borrowed"] ++ [Group Paren v];
                              path_toks [tx "Cow"; tx "Owned"] ++ [Group Paren (v ++ [Punct 46%N; Word (tx "to_owned"); Group Paren []])]]) vs))
| tab_array : forall t n vs, table t vs -> table (TArray t n) (map (fun v => [Group Bracket (v ++ [Punct 59%N] ++ n)]) vs)
| tab_slice : forall m t vs, table t vs ->
    table (TRef m (TSlice t))
      (etoks (ECall false [tx "Vec"; tx "leak"] [ECall false [tx "Vec"; tx "new"] []])
       :: map (fun v => path_toks [tx "Vec"; tx "leak"] ++ [Group Paren [Word (tx "vec"); Punct 33%N; Group Bracket v]]) vs)
| tab_ref : forall t vs, t <> named "str" -> (forall e, t <> TSlice e) -> table t vs ->
    table (TRef false t) (map (fun v => Punct 38%N :: v) vs)
| tab_mut : forall t vs, (forall e, t <> TSlice e) -> table t vs ->
    table (TRef true t) (map (fun v => path_toks [tx "Box"; tx "leak"] ++ [Group Paren (path_toks [tx "Box"; tx "new"] ++ [Group Paren v])]) vs)
| tab_http : forall l p pl a, table (TPath l p (tx "HttpResponse") pl a)
    [etoks (EMethod (ECall false [tx "HttpResponse"; tx "Ok"] []) (tx "finish"))]
| tab_tuple : forall ts vss, length ts = length vss ->
    (forall i t vs, nth_error ts i = Some t -> nth_error vss i = Some vs -> table t vs) ->
    table (TTuple ts) (map (fun vs => [Group Paren (separated vs)]) (choices vss))
| tab_iter : forall bs t vs, iterator_item bs t -> table t vs ->
    table (TImpl bs)
      (etoks (ECall true [tx "std"; tx "iter"; tx "empty"] [])
       :: map (fun v => [Punct 58%N; Punct 58%N] ++ path_toks [tx "std"; tx "iter"; tx "once"] ++ [Group Paren v]) vs)
| tab_other : forall t, unknown t -> table t [path_toks [tx "Default"; tx "default"] ++ [Group Paren []]]
(* The rest is not in the book: what the code does with all other types. *)
| tab_path : forall l p id pl, ~ In id (map tx anywhere_names) -> (forall w, In w simple_names -> TPath l p id pl None <> named w) ->
    table (TPath l p id pl None) [path_toks [tx "Default"; tx "default"] ++ [Group Paren []]]
| tab_result_other : forall l p pl a, (forall args t, a = Some args -> ~ first_arg args t) ->
    table (TPath l p (tx "Result") pl a)
      ([Word (tx "Ok"); Group Paren (path_toks [tx "Default"; tx "default"] ++ [Group Paren []])]
       :: map (fun v => [Word (tx "Err"); Group Paren v]) errs)
| tab_generic : forall l p id pl args t vs, other_generic id args -> types_of args = [t] -> table t vs ->
    table (TPath l p id pl (Some args))
      ((path_toks [id; tx "new"] ++ [Group Paren []])
       :: concat (map (fun v => [path_toks [id; tx "from_iter"] ++ [Group Paren [Group Bracket v]];
                                 path_toks [id; tx "new"] ++ [Group Paren v];
                                 path_toks [id; tx "from"] ++ [Group Paren v]]) vs))
| tab_arguments : forall l p id pl args, other_generic id args -> length (types_of args) <> 1 ->
    table (TPath l p id pl (Some args)) [path_toks [tx "Default"; tx "default"] ++ [Group Paren []]]
| tab_bare_str : table (named "str") [[Word [QUOTE; QUOTE]]; [Word ([QUOTE] ++ tx "xyzzy" ++ [QUOTE])]]
| tab_bare_slice : forall t vs, table (TRef false (TSlice t)) vs -> table (TSlice t) vs
| tab_never : table TNever []
| tab_opaque : forall bs, (forall t, ~ iterator_item bs t) -> table (TImpl bs) [].
End Table.

(** ** When there is no value at all: the type needs a value of the never type or of an
    opaque type that is not an iterator. *)
Section NoValue.
Variable errs : list toks.
Inductive no_value : ty -> Prop :=
| nv_never : no_value TNever
| nv_impl : forall bs, (forall t, ~ iterator_item bs t) -> no_value (TImpl bs)
| nv_result : forall l p pl args t, errs = [] -> first_arg args t -> no_value t -> no_value (TPath l p (tx "Result") pl (Some args))
| nv_cow : forall l p pl args t, first_arg args t -> no_value t -> no_value (TPath l p (tx "Cow") pl (Some args))
| nv_box : forall l p pl c t, box_like c -> no_value t -> no_value (TPath l p (tx c) pl (Some [GType t]))
| nv_array : forall t n, no_value t -> no_value (TArray t n)
| nv_ref : forall m t, no_value t -> no_value (TRef m t)
| nv_tuple : forall ts t, In t ts -> no_value t -> no_value (TTuple ts).
End NoValue.

(** ** Zero literals *)
Definition nonzero (t : ty) : Prop :=
  exists l p id pl a, t = TPath l p (tx (String.append "NonZero" id)) pl a
    /\ In id ["U8"; "U16"; "U32"; "U64"; "U128"; "Usize"; "I8"; "I16"; "I32"; "I64"; "I128"; "Isize"]%string.

(** A comma outside all brackets. *)
Definition top_comma (v : toks) : Prop := In (Punct 44%N) v.
