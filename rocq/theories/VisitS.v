(** What discovery in one file must produce, stated on positions in the tree. *)
From Coq Require Import String List NArith Bool Arith.
Import ListNotations.
From Verif Require Import Text SpanM PathM MutantM PrettyM FnValueM VisitM.

(** ** Attributes that mark code to be skipped *)
(** Tokens of a path. *)
Fixpoint segs_toks (ws : list text) : toks :=
  match ws with
  | [] => []
  | [w] => [Word w]
  | w :: ws' => Word w :: Punct COLON :: Punct COLON :: segs_toks ws'
  end.
Definition path_toks (p : mpath) : toks :=
  (if mp_lead p then [Punct COLON; Punct COLON] else []) ++ segs_toks (mp_segs p).
Definition good_path (p : mpath) : Prop := mp_segs p <> [] /\ forall w, In w (mp_segs p) -> ident_word w = true.
(** Tokens that are a list of paths with commas between them, and perhaps one at the end. *)
Inductive args : toks -> list mpath -> Prop :=
| args_nil : args [] []
| args_last p : good_path p -> args (path_toks p) [p]
| args_more p ts ps : good_path p -> args ts ps -> args (path_toks p ++ Punct COMMA_ :: ts) (p :: ps).

(** [#[test]] and [#[cfg(.., test, ..)]]. *)
Definition marks_test (a : meta) : Prop :=
  meta_path a = mkPath false [tx "test"]
  \/ exists lead ts ps, a = MList (mkPath lead [tx "cfg"]) ts /\ args ts ps /\ In (mkPath false [tx "test"]) ps.
(** [#[mutants::skip]] and [#[cfg_attr(.., mutants::skip, ..)]]. *)
Definition marks_skip (a : meta) : Prop :=
  mp_segs (meta_path a) = [tx "mutants"; tx "skip"]
  \/ exists lead ts ps p, a = MList (mkPath lead [tx "cfg_attr"]) ts /\ args ts ps
       /\ In p ps /\ mp_segs p = [tx "mutants"; tx "skip"].
Definition marked (attrs : list meta) : Prop := exists a, In a attrs /\ (marks_test a \/ marks_skip a).

(** The first [#[path = "..."]] among the attributes. *)
Inductive path_attr : list meta -> option text -> Prop :=
| pa_none : path_attr [] None
| pa_here s l : path_attr (MNameValue (mkPath false [tx "path"]) (Some s) :: l) (Some s)
| pa_next a l o :
    (forall s, a <> MNameValue (mkPath false [tx "path"]) (Some s)) ->
    path_attr l o -> path_attr (a :: l) o.

(** ** Positions *)
(** [occurs root anc n]: [n] is in [root], and [anc] are the nodes above it, outermost first. *)
Inductive occurs : node -> list kind -> node -> Prop :=
| occ_here n : occurs n [] n
| occ_below k cs c anc n : In c cs -> occurs c anc n -> occurs (Node k cs) (k :: anc) n.

(** Nodes that are skipped with everything inside them. *)
Definition skipped (skip_calls : list text) (k : kind) : Prop :=
  match k with
  | KFile a => marked a
  | KFn f => marked (fd_attrs f) \/ fd_unsafe f = true \/ (fd_form f <> FreeFn /\ fd_ident f = tx "new")
             \/ fd_block f = None \/ exists b, fd_block f = Some b /\ blk_stmts b = []
  | KImpl a _ _ tr => marked a \/ exists t, tr = Some (t, tx "Default")
  | KTrait a _ _ => marked a
  | KMod a _ _ _ => marked a \/ exists s, path_attr a (Some (SLASH :: s))
  | KCall a path => marked a \/ exists l, path = Some l /\ In l skip_calls
  | KMethod a name => marked a \/ In name skip_calls
  | KBinary a _ _ | KUnary a _ _ | KMatch a _ => marked a
  | KOther _ => False
  end.

(** ** The function around a position *)
(** A name without the [r#] that lets it be a keyword. *)
Definition plain_name (w : text) : text :=
  match w with
  | 114%N :: 35%N :: w' => w'
  | _ => w
  end.
Definition names (k : kind) : list text :=
  match k with
  | KFn f => [fd_ident f]
  | KImpl _ _ self_ty None => [pretty self_ty]
  | KImpl _ _ self_ty (Some (t, _)) => [tx "<impl " ++ pretty t ++ tx " for " ++ pretty self_ty ++ tx ">"]
  | KTrait _ _ ident => [ident]
  | KMod _ ident _ _ => [plain_name ident]
  | _ => []
  end.
Definition info (above : list kind) (f : fn_decl) : fn_info :=
  mkFn (join (tx "::") (flat_map names above ++ [fd_ident f])) (pretty (fd_ret_toks f)) (fd_span f).
(** The innermost function among the nodes above (or at) a position. *)
Inductive in_fn : list kind -> option fn_info -> Prop :=
| in_none anc : (forall f, ~ In (KFn f) anc) -> in_fn anc None
| in_some above f below : (forall g, ~ In (KFn g) below) -> in_fn (above ++ KFn f :: below) (Some (info above f)).

(** ** What each node yields *)
Definition op_text (o : binop) : text :=
  match o with
  | OEq => tx "==" | ONe => tx "!=" | OAnd => tx "&&" | OOr => tx "||"
  | OLt => tx "<" | OGt => tx ">" | OLe => tx "<=" | OGe => tx ">="
  | OAdd => tx "+" | OAddAssign => tx "+=" | OSub => tx "-" | OSubAssign => tx "-="
  | OMul => tx "*" | OMulAssign => tx "*=" | ODiv => tx "/" | ODivAssign => tx "/="
  | ORem => tx "%" | ORemAssign => tx "%=" | OShl => tx "<<" | OShlAssign => tx "<<="
  | OShr => tx ">>" | OShrAssign => tx ">>=" | OBitAnd => tx "&" | OBitAndAssign => tx "&="
  | OBitOr => tx "|" | OBitOrAssign => tx "|=" | OBitXor => tx "^" | OBitXorAssign => tx "^="
  end.
Inductive op_kind := Comparison | Logical | Arithmetic | Bits | ArithmeticAssign | BitsAssign.
Definition kind_of (o : binop) : op_kind :=
  match o with
  | OEq | ONe | OLt | OGt | OLe | OGe => Comparison
  | OAnd | OOr => Logical
  | OAdd | OSub | OMul | ODiv | ORem => Arithmetic
  | OShl | OShr | OBitAnd | OBitOr | OBitXor => Bits
  | OAddAssign | OSubAssign | OMulAssign | ODivAssign | ORemAssign => ArithmeticAssign
  | OShlAssign | OShrAssign | OBitAndAssign | OBitOrAssign | OBitXorAssign => BitsAssign
  end.
(** The compound assignment of an operator. *)
Definition assign_of (o : binop) : option binop :=
  match o with
  | OAdd => Some OAddAssign | OSub => Some OSubAssign | OMul => Some OMulAssign
  | ODiv => Some ODivAssign | ORem => Some ORemAssign | OShl => Some OShlAssign | OShr => Some OShrAssign
  | OBitAnd => Some OBitAndAssign | OBitOr => Some OBitOrAssign | OBitXor => Some OBitXorAssign
  | _ => None
  end.
(** The documented table (book/src/mutants.md), with the two rows for [<] and [>] as in the
    code. *)
Definition swaps : list (binop * list binop) := [
  (OEq, [ONe]); (ONe, [OEq]); (OAnd, [OOr]); (OOr, [OAnd]);
  (OLt, [OEq; OGt; OLe]); (OGt, [OEq; OLt; OGe]); (OLe, [OGt]); (OGe, [OLt]);
  (OAdd, [OSub; OMul]); (OSub, [OAdd; ODiv]); (OMul, [OAdd; ODiv]); (ODiv, [ORem; OMul]); (ORem, [ODiv; OAdd]);
  (OShl, [OShr]); (OShr, [OShl]);
  (OBitAnd, [OBitOr; OBitXor]); (OBitOr, [OBitAnd; OBitXor]); (OBitXor, [OBitOr; OBitAnd])].

(** [swap o o']: [o'] may replace [o]; compound assignments follow the plain operators. *)
Inductive swap : binop -> binop -> Prop :=
| swap_plain o l o' : In (o, l) swaps -> In o' l -> swap o o'
| swap_assign o o' a a' : swap o o' -> assign_of o = Some a -> assign_of o' = Some a' -> swap a a'.

Inductive yields (errs : list toks) : kind -> span -> text -> genre -> Prop :=
| y_fn f b first lst rep :
    fd_block f = Some b ->
    (exists more, blk_stmts b = first :: more) -> (exists more, blk_stmts b = more ++ [lst]) ->
    In rep (return_type_replacements errs (fd_ret f)) ->
    pretty [Group Brace (blk_toks b)] <> pretty [Group Brace rep] ->
    yields errs (KFn f) (mkSpan (sp_start first) (sp_end lst)) (pretty rep) FnValue
| y_binary a o sp o' : swap o o' -> yields errs (KBinary a o sp) sp (op_text o') BinaryOperator
| y_unary a o sp : o = UNot \/ o = UNeg -> yields errs (KUnary a o sp) sp [] UnaryOperator
| y_arm a arms x y :
    In x arms -> arm_wild x = false -> arm_guard x = None -> In y arms -> arm_wild y = true ->
    yields errs (KMatch a arms) (arm_span x) [] MatchArm
| y_guard a arms x g t :
    In x arms -> arm_guard x = Some g -> t = tx "true" \/ t = tx "false" ->
    yields errs (KMatch a arms) g t MatchArmGuard.

(** A mutant that the file should have. *)
Definition offered (file : source_file) (errs : list toks) (skip_calls : list text) (root : node) (m : mutant) : Prop :=
  exists anc k cs,
    occurs root anc (Node k cs)
    /\ (forall k', In k' (anc ++ [k]) -> ~ skipped skip_calls k')
    /\ yields errs k (mu_span m) (mu_replacement m) (mu_genre m)
    /\ in_fn (anc ++ [k]) (mu_fn m)
    /\ mu_file m = file.

(** The nodes of a tree, parents before children and children in order, each with the nodes
    above it. *)
Fixpoint positions (anc : list kind) (n : node) : list (list kind * kind) :=
  match n with
  | Node k cs => (anc, k) :: flat_map (positions (anc ++ [k])) cs
  end.

(** The modules around a position, outermost first. *)
Inductive modules : list kind -> list mod_ns -> Prop :=
| mo_nil : modules [] []
| mo_mod a ident sp inline path ks l :
    path_attr a path -> modules ks l ->
    modules (KMod a ident sp inline :: ks) (mkModNs (plain_name ident) path sp :: l)
| mo_other k ks l :
    (forall a i s b, k <> KMod a i s b) -> modules ks l -> modules (k :: ks) l.
(** A [mod name;] that is to be followed. *)
Definition declared (skip_calls : list text) (root : node) (chain : list mod_ns) : Prop :=
  exists anc a ident sp cs,
    occurs root anc (Node (KMod a ident sp false) cs)
    /\ (forall k', In k' (anc ++ [KMod a ident sp false]) -> ~ skipped skip_calls k')
    /\ modules (anc ++ [KMod a ident sp false]) chain.

(** ** Conditional compilation *)
(** Predicates of [#[cfg(..)]], their tokens and their meaning. *)
Inductive cpred := CId (w : text) | CKey (k v : text) | CAll (l : list cpred) | CAny (l : list cpred) | CNot (p : cpred).
Fixpoint commas (l : list toks) : toks :=
  match l with [] => [] | [t] => t | t :: l' => t ++ Punct COMMA_ :: commas l' end.
Fixpoint cfg_toks (p : cpred) : toks :=
  match p with
  | CId w => [Word w]
  | CKey k v => [Word k; Punct EQ; Word v]
  | CAll l => [Word (tx "all"); Group Paren (commas (map cfg_toks l))]
  | CAny l => [Word (tx "any"); Group Paren (commas (map cfg_toks l))]
  | CNot q => [Word (tx "not"); Group Paren (cfg_toks q)]
  end.
Fixpoint holds (ids : text -> bool) (keys : text -> text -> bool) (p : cpred) : bool :=
  match p with
  | CId w => ids w
  | CKey k v => keys k v
  | CAll l => forallb (holds ids keys) l
  | CAny l => existsb (holds ids keys) l
  | CNot q => negb (holds ids keys q)
  end.
(** Code under the predicate is only ever compiled for tests. *)
Definition test_only (p : cpred) : Prop :=
  forall ids keys, ids (tx "test") = false -> holds ids keys p = false.

(** Words that are identifiers: letters, digits and underscores and anything outside ASCII, not starting with a digit; with or
    without the mark of raw identifiers. *)
Definition letters : text := tx "ABCDEFGHIJKLMNOPQRSTUVWXYZabcdefghijklmnopqrstuvwxyz_".
Definition digits : text := tx "0123456789".
Definition begins_word (c : chr) : Prop := In c letters \/ (128 <= c)%N.
Definition plain_identifier (w : text) : Prop :=
  exists c r, w = c :: r /\ begins_word c /\ forall d, In d r -> begins_word d \/ In d digits.
Definition identifier (w : text) : Prop := plain_identifier w \/ exists w', w = tx "r#" ++ w' /\ plain_identifier w'.
