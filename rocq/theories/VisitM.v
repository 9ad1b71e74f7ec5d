(** Model of the syntax tree visitor in src/visit.rs. *)
From Coq Require Import String List NArith Bool Arith.
Import ListNotations.
From Verif Require Import Text SpanM PathM MutantM PrettyM FnValueM.

(** ** Attributes *)
(** A path in an attribute ([syn::Path]). *)
Record mpath := mkPath { mp_lead : bool; mp_segs : list text }.
(** [syn::Meta]: [path], [path(tokens)] (any brackets) or [path = value]; the value is kept
    when it is a string literal. *)
Inductive meta := MPath (p : mpath) | MList (p : mpath) (ts : toks) | MNameValue (p : mpath) (lit : option text).
Definition meta_path (m : meta) : mpath := match m with MPath p | MList p _ | MNameValue p _ => p end.

(** [Path::is_ident] and src/visit.rs:792-794 [path_is]. *)
Definition path_is_ident (p : mpath) (w : text) : bool :=
  negb (mp_lead p) && match mp_segs p with [x] => text_eqb x w | _ => false end.
Fixpoint texts_eqb (a b : list text) : bool :=
  match a, b with
  | [], [] => true
  | x :: a', y :: b' => text_eqb x y && texts_eqb a' b'
  | _, _ => false
  end.
Definition path_is (p : mpath) (ids : list text) : bool := texts_eqb (mp_segs p) ids.

(** Is a word token an identifier (including keywords and raw identifiers), not a literal? *)
Definition id_start (c : chr) : bool := (N.leb 65 c && N.leb c 90) || (N.leb 97 c && N.leb c 122) || N.eqb c USCORE || N.leb 128 c.
Definition id_char (c : chr) : bool := id_start c || (N.leb 48 c && N.leb c 57).
Definition ident_word (w : text) : bool :=
  let w := if starts_with (tx "r#") w then skipn 2 w else w in
  match w with [] => false | c :: w' => id_start c && forallb id_char w' end.

(** [syn::meta::parse_meta_path]: [a], [::a], [a::b], ...; returns the rest.  The code in
    the syn crate (2.0) is: an optional "::", an identifier, and then "::" and an identifier
    as long as "::" follows.  Whether the two colons are adjacent is not modelled. *)
Fixpoint parse_segs (ts : toks) : option (list text * toks) :=
  match ts with
  | Word w :: ts' =>
      if ident_word w then
        match ts' with
        | Punct c :: Punct d :: ts'' =>
            if N.eqb c COLON && N.eqb d COLON then
              match parse_segs ts'' with
              | Some (ws, r) => Some (w :: ws, r)
              | None => None
              end
            else Some ([w], ts')
        | _ => Some ([w], ts')
        end
      else None
  | _ => None
  end.
Definition parse_meta_path (ts : toks) : option (mpath * toks) :=
  let '(lead, ts) := match ts with
                     | Punct c :: Punct d :: ts' => if N.eqb c COLON && N.eqb d COLON then (true, ts') else (false, ts)
                     | _ => (false, ts)
                     end in
  match parse_segs ts with
  | Some (ws, r) => Some (mkPath lead ws, r)
  | None => None
  end.

(** [Attribute::parse_nested_meta] with a callback that consumes nothing: the paths between
    commas, or [None] for an error.  [fuel] is the number of tokens. *)
Fixpoint nested_loop (fuel : nat) (ts : toks) : option (list mpath) :=
  match fuel with
  | O => None
  | S fuel' =>
      match parse_meta_path ts with
      | None => None
      | Some (p, []) => Some [p]
      | Some (p, Punct c :: ts') =>
          if N.eqb c COMMA_ then
            match ts' with
            | [] => Some [p]
            | _ => match nested_loop fuel' ts' with Some ps => Some (p :: ps) | None => None end
            end
          else None
      | Some (p, _) => None
      end
  end.
Definition nested_metas (ts : toks) : option (list mpath) :=
  match ts with [] => Some [] | _ => nested_loop (length ts) ts end.

(** src/visit.rs:764-785 [attr_is_cfg_test] ([parse_nested_meta] is an error for an attribute
    that is not a list). *)
Definition attr_is_cfg_test (a : meta) : bool :=
  path_is (meta_path a) [tx "cfg"] &&
  match a with
  | MList _ ts => match nested_metas ts with Some ps => existsb (fun p => path_is_ident p (tx "test")) ps | None => false end
  | _ => false
  end.
(** src/visit.rs:787-790 [attr_is_test]. *)
Definition attr_is_test (a : meta) : bool := path_is_ident (meta_path a) (tx "test").
(** src/visit.rs:807-832 [attr_is_mutants_skip]. *)
Definition skip_segs : list text := [tx "mutants"; tx "skip"].
Definition attr_is_mutants_skip (a : meta) : bool :=
  if path_is (meta_path a) skip_segs then true
  else path_is (meta_path a) [tx "cfg_attr"] &&
  match a with
  | MList _ ts => match nested_metas ts with Some ps => existsb (fun p => path_is p skip_segs) ps | None => false end
  | _ => false
  end.
(** src/visit.rs:750-757 [attrs_excluded]. *)
Definition attrs_excluded (attrs : list meta) : bool :=
  existsb (fun a => attr_is_cfg_test a || attr_is_test a || attr_is_mutants_skip a) attrs.

(** src/visit.rs:834-861 [find_path_attribute]: [inl] is the error for an absolute path. *)
Fixpoint find_path_attribute (attrs : list meta) : text + option text :=
  match attrs with
  | [] => inr None
  | MNameValue p (Some s) :: attrs' =>
      if path_is_ident p (tx "path") then
        if starts_with [SLASH] s then inl s else inr (Some s)
      else find_path_attribute attrs'
  | _ :: attrs' => find_path_attribute attrs'
  end.

(** ** Syntax trees *)
(** [syn::BinOp] and [syn::UnOp] (all variants). *)
Inductive binop :=
| OEq | ONe | OAnd | OOr | OLt | OGt | OLe | OGe
| OAdd | OAddAssign | OSub | OSubAssign | OMul | OMulAssign | ODiv | ODivAssign | ORem | ORemAssign
| OShl | OShlAssign | OShr | OShrAssign
| OBitAnd | OBitAndAssign | OBitOr | OBitOrAssign | OBitXor | OBitXorAssign.
Inductive unop := UNot | UNeg | UDeref.

(** An arm of a match: whether the pattern is [_], the span of the guard expression, and
    the span of the arm. *)
Record arm := mkArm { arm_wild : bool; arm_guard : option span; arm_span : span }.

(** The block of a function: spans of its statements, and its tokens without the braces. *)
Record blk := mkBlk { blk_stmts : list span; blk_toks : toks }.

Inductive fn_form := FreeFn | ImplFn | TraitFn.
(** [ItemFn], [ImplItemFn] and [TraitItemFn]; the block is absent for a required function
    of a trait.  [fd_ret_toks] are the tokens of the return type with the arrow. *)
Record fn_decl := mkFnDecl {
  fd_form : fn_form; fd_attrs : list meta; fd_unsafe : bool; fd_ident : text;
  fd_ret : ret; fd_ret_toks : toks; fd_span : span; fd_block : option blk
}.

(** What the visitor looks at in each kind of node.  [KOther] is every node without a method of
    its own in the visitor; its attributes are kept to state what is not checked.
    [im_trait]: tokens and last identifier of the trait. *)
Inductive kind :=
| KFile (attrs : list meta)
| KFn (f : fn_decl)
| KImpl (attrs : list meta) (is_unsafe : bool) (self_ty : toks) (tr : option (toks * text))
| KTrait (attrs : list meta) (is_unsafe : bool) (ident : text)
| KMod (attrs : list meta) (ident : text) (sp : span) (inline : bool)
| KCall (attrs : list meta) (path_last : option text)
| KMethod (attrs : list meta) (name : text)
| KBinary (attrs : list meta) (op : binop) (sp : span)
| KUnary (attrs : list meta) (op : unop) (sp : span)
| KMatch (attrs : list meta) (arms : list arm)
| KOther (attrs : list meta).

(** A node with all its child nodes in the order in which [syn::visit] visits them. *)
Inductive node := Node (k : kind) (children : list node).

(** ** Operator tables *)
Definition puncts (s : string) : toks := map Punct (tx s).
Arguments puncts _%string_scope.
(** src/visit.rs:532-572; the last case of the code is not reached by
    the operators that syn 2.0 has. *)
Definition binary_replacements (op : binop) : list toks :=
  match op with
  | OEq => [puncts "!="]
  | ONe => [puncts "=="]
  | OAnd => [puncts "||"]
  | OOr => [puncts "&&"]
  | OLt => [puncts "=="; puncts ">"; puncts "<="]
  | OGt => [puncts "=="; puncts "<"; puncts ">="]
  | OLe => [puncts ">"]
  | OGe => [puncts "<"]
  | OAdd => [puncts "-"; puncts "*"]
  | OAddAssign => [puncts "-="; puncts "*="]
  | OSub | OMul => [puncts "+"; puncts "/"]
  | OSubAssign | OMulAssign => [puncts "+="; puncts "/="]
  | ODiv => [puncts "%"; puncts "*"]
  | ODivAssign => [puncts "%="; puncts "*="]
  | ORem => [puncts "/"; puncts "+"]
  | ORemAssign => [puncts "/="; puncts "+="]
  | OShl => [puncts ">>"]
  | OShlAssign => [puncts ">>="]
  | OShr => [puncts "<<"]
  | OShrAssign => [puncts "<<="]
  | OBitAnd => [puncts "|"; puncts "^"]
  | OBitAndAssign => [puncts "|="; puncts "^="]
  | OBitOr => [puncts "&"; puncts "^"]
  | OBitOrAssign => [puncts "&="; puncts "^="]
  | OBitXor => [puncts "|"; puncts "&"]
  | OBitXorAssign => [puncts "|="; puncts "&="]
  end.
(** src/visit.rs:585-595: the span and [quote! {}] for operators that are deleted. *)
Definition unary_replacements (op : unop) : list toks :=
  match op with UNot | UNeg => [[]] | UDeref => [] end.

(** src/visit.rs:609-641: spans, replacements and genres for a match, in order. *)
Definition match_replacements (arms : list arm) : list (span * toks * genre) :=
  (if existsb arm_wild arms then
     map (fun a => (arm_span a, [], MatchArm))
       (filter (fun a => negb (arm_wild a) && match arm_guard a with None => true | Some _ => false end) arms)
   else [])
  ++ flat_map (fun a => match arm_guard a with
                        | Some g => [(g, [Word (tx "true")], MatchArmGuard); (g, [Word (tx "false")], MatchArmGuard)]
                        | None => []
                        end) arms.

(** ** The visitor *)
(** src/visit.rs:190-201 [ModNamespace]. *)
Record mod_ns := mkModNs { mn_name : text; mn_path : option text; mn_loc : span }.

(** src/visit.rs:217-254 [DiscoveryVisitor]: its changing parts.  Stacks have their top
    first. *)
Record vstate := mkV {
  v_mutants : list mutant;
  v_mods : list mod_ns;
  v_ns : list text;
  v_fns : list fn_info;
  v_external : list (list mod_ns)
}.

Section Visit.
(** The file, the error values and the names of calls to skip. *)
Variable file : source_file.
Variable errs : list toks.
Variable skip_calls : list text.

Definition lc_eqb (a b : line_column) : bool := Nat.eqb (lc_line a) (lc_line b) && Nat.eqb (lc_column a) (lc_column b).
Definition span_eqb (a b : span) : bool := lc_eqb (sp_start a) (sp_start b) && lc_eqb (sp_end a) (sp_end b).
Definition fn_eqb (a b : fn_info) : bool :=
  text_eqb (fn_name a) (fn_name b) && text_eqb (fn_return_type a) (fn_return_type b) && span_eqb (fn_span a) (fn_span b).
Definition opt_text_eqb (a b : option text) : bool :=
  match a, b with Some x, Some y => text_eqb x y | None, None => true | _, _ => false end.
Definition mod_ns_eqb (a b : mod_ns) : bool :=
  text_eqb (mn_name a) (mn_name b) && opt_text_eqb (mn_path a) (mn_path b) && span_eqb (mn_loc a) (mn_loc b).

Definition set_mutants (s : vstate) (ms : list mutant) : vstate := mkV ms (v_mods s) (v_ns s) (v_fns s) (v_external s).

(** src/visit.rs:257-272 [enter_function]. *)
Definition enter_function (f : fn_decl) (s : vstate) : fn_info * vstate :=
  let ns := fd_ident f :: v_ns s in
  let fi := mkFn (join (tx "::") (rev ns)) (pretty (fd_ret_toks f)) (fd_span f) in
  (fi, mkV (v_mutants s) (v_mods s) ns (fi :: v_fns s) (v_external s)).

(** src/visit.rs:274-283 [leave_function]; [None] is a panic. *)
Definition leave_function (fi : fn_info) (s : vstate) : option vstate :=
  match v_ns s with
  | [] => None
  | _ :: ns =>
      match v_fns s with
      | [] => None
      | g :: fs => if fn_eqb g fi then Some (mkV (v_mutants s) (v_mods s) ns fs (v_external s)) else None
      end
  end.

(** src/visit.rs:286-294 [collect_mutant]. *)
Definition collect_mutant (sp : span) (rep : toks) (g : genre) (s : vstate) : vstate :=
  set_mutants s (v_mutants s ++ [mkMutant file (hd_error (v_fns s)) sp (pretty rep) g]).

(** src/visit.rs:648-653 [function_body_span]. *)
Definition function_body_span (b : blk) : option span :=
  match blk_stmts b with
  | [] => None
  | first :: _ => Some (mkSpan (sp_start first) (sp_end (last (blk_stmts b) first)))
  end.

(** src/visit.rs:296-329 [collect_fn_mutants]; [None] is the panic for an empty body. *)
Definition collect_fn_mutants (f : fn_decl) (b : blk) (s : vstate) : option vstate :=
  match v_fns s with
  | [] => Some s
  | _ :: _ =>
      match function_body_span b with
      | None => None
      | Some sp =>
          Some (fold_left (fun s rep =>
                  if text_eqb (pretty [Group Brace (blk_toks b)]) (pretty [Group Brace rep]) then s
                  else collect_mutant sp rep FnValue s)
                (return_type_replacements errs (fd_ret f)) s)
      end
  end.

(** src/visit.rs:334-342 [in_namespace]. *)
Definition in_namespace (name : text) (body : vstate -> option vstate) (s : vstate) : option vstate :=
  match body (mkV (v_mutants s) (v_mods s) (name :: v_ns s) (v_fns s) (v_external s)) with
  | None => None
  | Some s' =>
      match v_ns s' with
      | [] => None
      | x :: ns => if text_eqb x name then Some (mkV (v_mutants s') (v_mods s') ns (v_fns s') (v_external s')) else None
      end
  end.

(** src/visit.rs:398,418-422,440-446,741-748,760-762: the conditions under which a function
    is not visited. *)
Definition block_is_empty (b : blk) : bool := match blk_stmts b with [] => true | _ => false end.
Definition fn_skipped (f : fn_decl) : bool :=
  fd_unsafe f || attrs_excluded (fd_attrs f)
  || (match fd_form f with FreeFn => false | _ => text_eqb (fd_ident f) (tx "new") end)
  || match fd_block f with None => true | Some b => block_is_empty b end.

(** src/visit.rs:459-468: the name of an [impl] block. *)
Definition impl_name (self_ty : toks) (tr : option (toks * text)) : text :=
  match tr with
  | Some (t, _) => tx "<impl " ++ pretty t ++ tx " for " ++ pretty self_ty ++ tx ">"
  | None => pretty self_ty
  end.

(** Raw identifiers: [Ident::unraw]. *)
Definition unraw (w : text) : text := if starts_with (tx "r#") w then skipn 2 w else w.

Definition collect_all (l : list (span * toks * genre)) (s : vstate) : vstate :=
  fold_left (fun s x => match x with (sp, r, g) => collect_mutant sp r g s end) l s.

(** src/visit.rs:345-645: the [visit_*] methods, and the default traversal of [syn::visit]. *)
Fixpoint visit (n : node) (s : vstate) : option vstate :=
  match n with
  | Node k children =>
      let inner := fix go (cs : list node) (s : vstate) : option vstate :=
        match cs with
        | [] => Some s
        | c :: cs' => match visit c s with Some s' => go cs' s' | None => None end
        end in
      match k with
      | KFile attrs => if attrs_excluded attrs then Some s else inner children s
      | KFn f =>
          if fn_skipped f then Some s
          else match fd_block f with
          | None => Some s
          | Some b =>
              let '(fi, s1) := enter_function f s in
              match collect_fn_mutants f b s1 with
              | None => None
              | Some s2 => match inner children s2 with None => None | Some s3 => leave_function fi s3 end
              end
          end
      | KImpl attrs _ self_ty tr =>
          if attrs_excluded attrs then Some s
          else if match tr with Some (_, l) => text_eqb l (tx "Default") | None => false end then Some s
          else in_namespace (impl_name self_ty tr) (inner children) s
      | KTrait attrs _ ident =>
          if attrs_excluded attrs then Some s else in_namespace ident (inner children) s
      | KMod attrs ident sp inline =>
          if attrs_excluded attrs then Some s
          else match find_path_attribute attrs with
          | inl _ => Some s
          | inr path =>
              let mn := mkModNs (unraw ident) path sp in
              let mods := mn :: v_mods s in
              let s1 := mkV (v_mutants s) mods (v_ns s) (v_fns s)
                          (if inline then v_external s else v_external s ++ [rev mods]) in
              match in_namespace (mn_name mn) (inner children) s1 with
              | None => None
              | Some s2 =>
                  match v_mods s2 with
                  | [] => None
                  | m :: ms => if mod_ns_eqb m mn then Some (mkV (v_mutants s2) ms (v_ns s2) (v_fns s2) (v_external s2)) else None
                  end
              end
          end
      | KCall attrs path =>
          if attrs_excluded attrs then Some s
          else if match path with Some l => mem_text l skip_calls | None => false end then Some s
          else inner children s
      | KMethod attrs name =>
          if attrs_excluded attrs then Some s
          else if mem_text name skip_calls then Some s
          else inner children s
      | KBinary attrs op sp =>
          if attrs_excluded attrs then Some s
          else inner children (collect_all (map (fun r => (sp, r, BinaryOperator)) (binary_replacements op)) s)
      | KUnary attrs op sp =>
          if attrs_excluded attrs then Some s
          else inner children (collect_all (map (fun r => (sp, r, UnaryOperator)) (unary_replacements op)) s)
      | KMatch attrs arms =>
          if attrs_excluded attrs then Some s
          else inner children (collect_all (match_replacements arms) s)
      | KOther _ => inner children s
      end
  end.

(** src/visit.rs:134-155 [walk_file] after parsing. *)
Definition walk_syntax (root : node) : option (list mutant * list (list mod_ns)) :=
  match visit root (mkV [] [] [] [] []) with
  | Some s => Some (v_mutants s, v_external s)
  | None => None
  end.
End Visit.
