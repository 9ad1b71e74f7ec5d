(** Theorems about replacement values (C34, C35). *)
From Coq Require Import String List NArith Bool.
Import ListNotations.
From Verif Require Import Text PrettyM FnValueM FnValueS FnValueP.

(** For every type built from the known types (as listed in [fits], at any nesting), every
    value is an expression of that type.
    Missing: the types outside [fits], see the refuted cases below. *)
Theorem C34_values_have_type_partial : forall errs t, fits t -> forall v, In v (reps errs t) -> good errs t v.
Proof. exact typed_reps. Qed.
Print Assumptions C34_values_have_type_partial.

(** A function without return type gets the unit value. *)
Theorem C34_no_return_type : forall errs v, In v (return_type_replacements errs RDefault) -> good errs (TTuple []) v.
Proof. intros errs v [<-|[]]. exists (ETuple []). split; [reflexivity|]. apply ty_tuple. constructor. Qed.
Print Assumptions C34_no_return_type.

(** [(u8,)] gets [(0)], which is a [u8]. *)
Theorem C34_one_tuple_refuted : forall errs, exists t v, t = TTuple [named "u8"] /\ In v (reps errs t) /\ ~ good errs t v.
Proof. intros errs. do 2 eexists. split; [reflexivity|]. split; [left; reflexivity|apply one_tuple_bad]. Qed.
Print Assumptions C34_one_tuple_refuted.

(** [NonZeroU8] gets [1], but a literal is never of a non-zero type. *)
Theorem C34_nonzero_refuted : forall errs, exists t v, t = named "NonZeroU8" /\ In v (reps errs t) /\ ~ good errs t v.
Proof. intros errs. do 2 eexists. split; [reflexivity|]. split; [left; reflexivity|apply nonzero_bad]. Qed.
Print Assumptions C34_nonzero_refuted.

(** [Box<str>] (and [Arc<str>], [Box<[T]>] likewise) gets a box of a reference. *)
Theorem C34_box_str_refuted : forall errs, exists t v, t = generic false [] "Box" [GType (named "str")] /\ In v (reps errs t) /\ ~ good errs t v.
Proof. intros errs. do 2 eexists. split; [reflexivity|]. split; [left; reflexivity|apply box_str_bad]. Qed.
Print Assumptions C34_box_str_refuted.

(** [&mut str] gets a mutable reference to a [&str]. *)
Theorem C34_mut_str_refuted : forall errs, exists t v, t = TRef true (named "str") /\ In v (reps errs t) /\ ~ good errs t v.
Proof. intros errs. do 2 eexists. split; [reflexivity|]. split; [left; reflexivity|apply mut_str_bad]. Qed.
Print Assumptions C34_mut_str_refuted.

(** [[String; 2]] repeats a value that cannot be copied. *)
Theorem C34_array_refuted : forall errs, exists t v, t = TArray (named "String") [Word (tx "2")] /\ In v (reps errs t) /\ ~ good errs t v.
Proof. intros errs. do 2 eexists. split; [reflexivity|]. split; [left; reflexivity|apply array_string_bad]. Qed.
Print Assumptions C34_array_refuted.

(** The values are exactly those of the documented table, at any nesting, and of the rows for
    the types that are not documented; every type is in one row. *)
Theorem C35_table : forall errs t l, table errs t l <-> reps errs t = l.
Proof.
  intros errs t l. split; [apply table_reps|]. intros <-. destruct (table_total errs t) as [l H].
  now rewrite (table_reps _ _ _ H).
Qed.
Print Assumptions C35_table.

(** A function without a return type gets [()] and nothing else; any other those of its type. *)
Theorem C35_return : forall errs r, return_type_replacements errs r = match r with RDefault => [[Group Paren []]] | RType t => reps errs t end.
Proof. intros errs [|t]; reflexivity. Qed.
Print Assumptions C35_return.

(** There is no value exactly if one of the never type or of an opaque type would be needed. *)
Theorem C35_no_value : forall errs t, reps errs t = [] <-> no_value errs t.
Proof. exact reps_nil_iff. Qed.
Print Assumptions C35_no_value.

(** All values of a type are different, if the configured errors are. *)
Theorem C35_distinct : forall errs t, NoDup errs -> NoDup (reps errs t).
Proof. intros errs t H. exact (reps_NoDup errs H t). Qed.
Print Assumptions C35_distinct.

(** Non-zero integer types get no zero. *)
Theorem C35_nonzero : forall errs t v, nonzero t -> In v (reps errs t) -> v = [Word (tx "1")] \/ v = [Punct 45%N; Word (tx "1")].
Proof. exact nonzero_ok. Qed.
Print Assumptions C35_nonzero.

(** No value is empty, and none has a comma outside brackets, so that tuples have as many
    elements as their type. *)
Theorem C35_no_stray_comma : forall errs t v, In v (reps errs t) -> v <> [] /\ ~ top_comma v.
Proof. exact clean_reps. Qed.
Print Assumptions C35_no_stray_comma.

(** [Result<(bool, Option<String>), E>] with one error value, printed. *)
Definition ex_ty : ty :=
  generic false [] "Result" [GType (TTuple [named "bool"; generic false [] "Option" [GType (named "String")]]); GType (named "E")].
Definition ex_errs : list toks := [[Word (tx "anyhow"); Punct BANG; Group Paren [Word ([QUOTE] ++ tx "m" ++ [QUOTE])]]].
Definition q (s : string) : text := map (fun c => if N.eqb c 96 then QUOTE else c) (tx s).
Example C35_case : map pretty (reps ex_errs ex_ty) = map q
  ["Ok((true, None))"; "Ok((true, Some(String::new())))"; "Ok((true, Some(`xyzzy`.into())))";
   "Ok((false, None))"; "Ok((false, Some(String::new())))"; "Ok((false, Some(`xyzzy`.into())))"; "Err(anyhow!(`m`))"]%string.
Proof. reflexivity. Qed.
Example C34_case : fits ex_ty.
Proof.
  eapply fit_result; [constructor|]. apply fit_tuple; [discriminate|].
  intros t [<-|[<-|[]]]; [apply fit_bool|]. apply fit_option, fit_string.
Qed.
Example C35_case_cow : map pretty (reps [] (generic false [] "Cow" [GLifetime; GType (named "str")])) = map q
  ["Cow::Borrowed(``)"; "Cow::Owned(``.to_owned())"; "Cow::Borrowed(`xyzzy`)"; "Cow::Owned(`xyzzy`.to_owned())"]%string.
Proof. reflexivity. Qed.
Example C35_case_map : map pretty (reps [] (TRef true (generic false [tx "std"] "BTreeMap" [GType (named "bool"); GType (TArray (named "i8") [Word (tx "2")])]))) = map q
  ["Box::leak(Box::new(BTreeMap::new()))";
   "Box::leak(Box::new(BTreeMap::from_iter([(true, [0; 2])])))"; "Box::leak(Box::new(BTreeMap::from_iter([(true, [1; 2])])))";
   "Box::leak(Box::new(BTreeMap::from_iter([(true, [-1; 2])])))"; "Box::leak(Box::new(BTreeMap::from_iter([(false, [0; 2])])))";
   "Box::leak(Box::new(BTreeMap::from_iter([(false, [1; 2])])))"; "Box::leak(Box::new(BTreeMap::from_iter([(false, [-1; 2])])))"]%string.
Proof. reflexivity. Qed.
Example C35_case_no_value : reps [] (TTuple [named "bool"; generic false [] "Box" [GType TNever]]) = []
  /\ no_value [] (TTuple [named "bool"; generic false [] "Box" [GType TNever]]).
Proof.
  split; [reflexivity|]. eapply nv_tuple; [right; left; reflexivity|]. apply (nv_box [] false [] true "Box"); constructor.
Qed.

Example C35_case_nonzero : map pretty (reps [] (named "NonZeroI8")) = map q ["1"; "-1"]%string
  /\ map pretty (reps [] (generic false [] "Option" [GType (named "NonZeroU64")])) = map q ["None"; "Some(1)"]%string
  /\ map pretty (return_type_replacements ex_errs RDefault) = map q ["()"]%string.
Proof. split; [reflexivity|]. split; reflexivity. Qed.
Example C35_case_table : exists l, table ex_errs ex_ty l /\ length l = 7.
Proof.
  eexists. split.
  - eapply tab_result; [constructor|]. apply tab_tuple with (vss := [reps ex_errs (named "bool"); reps ex_errs (generic false [] "Option" [GType (named "String")])]); [reflexivity|].
    intros [|[|[|i]]] t vs H1 H2; [| |discriminate|discriminate]; injection H1 as <-; injection H2 as <-.
    + apply tab_bool.
    + eapply tab_option; [constructor|apply tab_string].
  - reflexivity.
Qed.
(** Other generic types: [Foo<T>], and [Box<T, A>], which is not taken for a box. *)
Example C35_case_generic : map pretty (reps [] (generic false [] "Foo" [GLifetime; GType (named "bool")])) = map q
  ["Foo::new()"; "Foo::from_iter([true])"; "Foo::new(true)"; "Foo::from(true)"; "Foo::from_iter([false])"; "Foo::new(false)"; "Foo::from(false)"]%string
  /\ map pretty (reps [] (generic false [] "Box" [GType (named "bool"); GType (named "A")])) = map q ["Default::default()"]%string
  /\ table [] (generic false [] "Box" [GType (named "bool"); GType (named "A")]) [q_default].
Proof.
  split; [reflexivity|]. split; [reflexivity|]. apply C35_table. reflexivity.
Qed.
