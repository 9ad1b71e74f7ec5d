(** Proofs about the visitor. *)
From Coq Require Import String List NArith Bool Arith Lia.
Import ListNotations.
From Verif Require Import Text SpanM PathM MutantM PrettyM FnValueM VisitM VisitS.

(** ** Attributes *)
Lemma parse_segs_sound : forall n ts ws r, length ts <= n -> parse_segs ts = Some (ws, r) ->
  ts = segs_toks ws ++ r /\ ws <> [] /\ (forall w, In w ws -> ident_word w = true) /\ length r < length ts.
Proof.
  induction n as [|n IH]; intros ts ws r L H.
  - destruct ts; [discriminate|cbn in L; lia].
  - destruct ts as [|[c|w|d g] ts]; try discriminate. cbn [parse_segs] in H.
    destruct (ident_word w) eqn:E; [|discriminate].
    assert (Base : forall r', Some ([w], ts) = Some (ws, r') -> Word w :: ts = segs_toks ws ++ r' /\ ws <> [] /\ (forall w', In w' ws -> ident_word w' = true) /\ length r' < length (Word w :: ts)).
    { intros r' H'. injection H' as <- <-. cbn [segs_toks app length]. repeat split; try discriminate; try lia.
      intros w' [<-|[]]; auto. }
    destruct ts as [|[c|w2|d g] ts]; try (apply Base; exact H).
    destruct ts as [|[c2|w2|d g] ts]; try (apply Base; exact H).
    destruct (N.eqb c COLON && N.eqb c2 COLON) eqn:C; [|apply Base; exact H].
    apply andb_prop in C. destruct C as [C1 C2]. apply N.eqb_eq in C1, C2. subst c c2.
    destruct (parse_segs ts) as [[ws' r']|] eqn:P; [|discriminate].
    injection H as <- <-.
    cbn [length] in L. destruct (IH ts ws' r') as [-> [N1 [G Lr]]]; [lia|auto|].
    repeat split; try discriminate.
    + destruct ws' as [|w' ws']; [congruence|]. reflexivity.
    + intros x [<-|I]; auto.
    + cbn [length]. lia.
Qed.

Lemma parse_segs_complete : forall ws r,
  ws <> [] -> (forall w, In w ws -> ident_word w = true) ->
  (r = [] \/ exists r', r = Punct COMMA_ :: r') ->
  parse_segs (segs_toks ws ++ r) = Some (ws, r).
Proof.
  intros ws r N1 G R. induction ws as [|w ws IH]; [congruence|].
  assert (E : ident_word w = true) by (apply G; left; reflexivity).
  destruct ws as [|w2 ws].
  - cbn [segs_toks app parse_segs]. rewrite E.
    destruct R as [->|[r' ->]]; [reflexivity|]. destruct r' as [|[c|x|d g] r']; try reflexivity.
  - change (segs_toks (w :: w2 :: ws)) with (Word w :: Punct COLON :: Punct COLON :: segs_toks (w2 :: ws)).
    cbn [app parse_segs]. rewrite E. rewrite N.eqb_refl. cbn [andb].
    rewrite IH; [reflexivity|discriminate|]. intros x I. apply G. right. exact I.
Qed.

Lemma parse_path_sound : forall ts p r, parse_meta_path ts = Some (p, r) ->
  ts = path_toks p ++ r /\ good_path p /\ length r < length ts.
Proof.
  intros ts p r H. unfold parse_meta_path in H.
  assert (Plain : match parse_segs ts with Some (ws, r0) => Some (mkPath false ws, r0) | None => None end = Some (p, r) ->
                  ts = path_toks p ++ r /\ good_path p /\ length r < length ts).
  { intro H'. destruct (parse_segs ts) as [[ws r0]|] eqn:E; [|discriminate]. injection H' as <- <-.
    destruct (parse_segs_sound (length ts) ts ws r0) as [A [B [C D]]]; auto.
    unfold path_toks, good_path. cbn [mp_lead mp_segs app]. auto. }
  destruct ts as [|[c|w|d g] ts]; try (apply Plain; exact H).
  destruct ts as [|[c2|w|d g] ts]; try (apply Plain; exact H).
  destruct (N.eqb c COLON && N.eqb c2 COLON) eqn:C; [|apply Plain; exact H].
  apply andb_prop in C. destruct C as [C1 C2]. apply N.eqb_eq in C1, C2. subst c c2.
  destruct (parse_segs ts) as [[ws r0]|] eqn:E; [|discriminate]. injection H as <- <-.
  destruct (parse_segs_sound (length ts) ts ws r0) as [A [B [D F]]]; auto.
  unfold path_toks, good_path. cbn [mp_lead mp_segs app]. rewrite <- A. repeat split; auto. cbn [length]. lia.
Qed.

Lemma parse_path_complete : forall p r, good_path p -> (r = [] \/ exists r', r = Punct COMMA_ :: r') ->
  parse_meta_path (path_toks p ++ r) = Some (p, r).
Proof.
  intros [lead ws] r [N1 G] R. cbn [mp_segs] in *. unfold path_toks. cbn [mp_lead mp_segs].
  unfold parse_meta_path. destruct lead.
  - cbn [app]. rewrite N.eqb_refl. cbn [andb]. rewrite parse_segs_complete; auto.
  - cbn [app]. destruct ws as [|w ws]; [congruence|].
    pose proof (parse_segs_complete (w :: ws) r N1 G R) as Q.
    assert (S : exists t, segs_toks (w :: ws) ++ r = Word w :: t) by (destruct ws; eexists; reflexivity).
    destruct S as [t S]. rewrite S in *. rewrite Q. reflexivity.
Qed.

Lemma path_toks_nonempty : forall p, good_path p -> path_toks p <> [].
Proof.
  intros [lead ws] [N1 _] H. unfold path_toks in H. cbn [mp_lead mp_segs] in *.
  destruct ws as [|w [|w2 ws]]; [congruence| |]; destruct lead; discriminate H.
Qed.

Lemma nested_sound : forall fuel ts ps, nested_loop fuel ts = Some ps -> args ts ps.
Proof.
  induction fuel as [|fuel IH]; intros ts ps H; [discriminate|]. cbn [nested_loop] in H.
  destruct (parse_meta_path ts) as [[p r]|] eqn:E; [|discriminate].
  apply parse_path_sound in E. destruct E as [-> [G L]].
  destruct r as [|[c|w|d g] r]; try discriminate.
  - injection H as <-. rewrite app_nil_r. constructor. exact G.
  - destruct (N.eqb c COMMA_) eqn:C; [|discriminate]. apply N.eqb_eq in C. subst c.
    destruct r as [|t r].
    + injection H as <-. apply args_more; [exact G|constructor].
    + destruct (nested_loop fuel (t :: r)) as [ps'|] eqn:E; [|discriminate]. injection H as <-.
      apply args_more; [exact G|]. apply IH. exact E.
Qed.

Lemma args_nonempty : forall ts ps, args ts ps -> (ts = [] <-> ps = []).
Proof.
  intros ts ps H. destruct H as [|p G|p ts ps G A].
  - tauto.
  - split; intro E; [|discriminate]. exfalso. apply (path_toks_nonempty p G E).
  - split; intro E; [|discriminate]. destruct (path_toks p); discriminate E.
Qed.

Lemma nested_complete : forall ts ps, args ts ps -> ts <> [] -> forall fuel, length ts <= fuel -> nested_loop fuel ts = Some ps.
Proof.
  intros ts ps A. induction A as [|p G|p ts ps G A IH]; intros N1 fuel L.
  - congruence.
  - destruct fuel as [|fuel]; [destruct (path_toks p) eqn:E; [congruence|cbn in L; lia]|].
    cbn [nested_loop]. pose proof (parse_path_complete p [] G (or_introl eq_refl)) as Q. rewrite app_nil_r in Q. rewrite Q. reflexivity.
  - rewrite app_length in L. cbn [length] in L. destruct fuel as [|fuel]; [lia|].
    cbn [nested_loop]. rewrite parse_path_complete; [|exact G|right; eauto].
    rewrite N.eqb_refl. destruct ts as [|t ts].
    + assert (ps = []) by (apply (args_nonempty _ _ A); reflexivity). subst ps. reflexivity.
    + rewrite IH; [reflexivity|discriminate|lia].
Qed.

Lemma nested_iff : forall ts ps, nested_metas ts = Some ps <-> args ts ps.
Proof.
  intros ts ps. unfold nested_metas. destruct ts as [|t ts].
  - split; intro H.
    + injection H as <-. constructor.
    + assert (ps = []) by (apply (args_nonempty _ _ H); reflexivity). subst. reflexivity.
  - split; intro H.
    + eapply nested_sound. exact H.
    + apply nested_complete; [exact H|discriminate|lia].
Qed.

Lemma texts_eqb_eq : forall a b, texts_eqb a b = true <-> a = b.
Proof.
  induction a as [|x a IH]; intros [|y b]; cbn [texts_eqb]; split; intro H; try reflexivity; try discriminate.
  - apply andb_prop in H. destruct H as [H1 H2]. apply text_eqb_eq in H1. apply IH in H2. congruence.
  - injection H as -> ->. rewrite text_eqb_refl. apply IH. reflexivity.
Qed.

Lemma is_ident_iff : forall p w, path_is_ident p w = true <-> p = mkPath false [w].
Proof.
  intros [lead ws] w. unfold path_is_ident. cbn [mp_lead mp_segs]. split; intro H.
  - apply andb_prop in H. destruct H as [H1 H2]. destruct lead; [discriminate|].
    destruct ws as [|x [|y ws]]; try discriminate. apply text_eqb_eq in H2. congruence.
  - injection H as -> ->. cbn [negb andb]. apply text_eqb_refl.
Qed.

Lemma path_is_iff : forall p ids, path_is p ids = true <-> mp_segs p = ids.
Proof. intros p ids. apply texts_eqb_eq. Qed.

Lemma cfg_test_iff : forall a, attr_is_cfg_test a = true <->
  exists lead ts ps, a = MList (mkPath lead [tx "cfg"]) ts /\ args ts ps /\ In (mkPath false [tx "test"]) ps.
Proof.
  intro a. unfold attr_is_cfg_test. split.
  - intro H. apply andb_prop in H. destruct H as [H1 H2]. apply path_is_iff in H1.
    destruct a as [p|p ts|p l]; try discriminate. cbn [meta_path] in H1. destruct p as [lead ws]. cbn [mp_segs] in H1. subst ws.
    destruct (nested_metas ts) as [ps|] eqn:E; [|discriminate]. apply nested_iff in E.
    apply existsb_exists in H2. destruct H2 as [p [I H2]]. apply is_ident_iff in H2. subst p. eauto 10.
  - intros [lead [ts [ps [-> [A I]]]]]. apply andb_true_intro. split; [apply path_is_iff; reflexivity|].
    apply nested_iff in A. rewrite A. apply existsb_exists. eexists. split; [exact I|]. apply is_ident_iff. reflexivity.
Qed.

Lemma skip_iff : forall a, attr_is_mutants_skip a = true <-> marks_skip a.
Proof.
  intro a. unfold attr_is_mutants_skip, marks_skip. fold skip_segs.
  destruct (path_is (meta_path a) skip_segs) eqn:E.
  - apply path_is_iff in E. split; auto.
  - assert (NE : mp_segs (meta_path a) <> skip_segs) by (intro X; apply path_is_iff in X; congruence).
    split.
    + intro H. right. apply andb_prop in H. destruct H as [H1 H2]. apply path_is_iff in H1.
      destruct a as [p|p ts|p l]; try discriminate. cbn [meta_path] in H1. destruct p as [lead ws]. cbn [mp_segs] in H1. subst ws.
      destruct (nested_metas ts) as [ps|] eqn:E2; [|discriminate]. apply nested_iff in E2.
      apply existsb_exists in H2. destruct H2 as [p [I H2]]. apply path_is_iff in H2. eauto 10.
    + intros [H|[lead [ts [ps [p [-> [A [I H]]]]]]]]; [contradiction|].
      apply andb_true_intro. split; [apply path_is_iff; reflexivity|].
      apply nested_iff in A. rewrite A. apply existsb_exists. exists p. split; [exact I|]. apply path_is_iff. exact H.
Qed.

Lemma excluded_iff : forall l, attrs_excluded l = true <-> marked l.
Proof.
  intro l. unfold attrs_excluded, marked. rewrite existsb_exists.
  split; intros [a [I H]]; exists a; (split; [exact I|]).
  - apply orb_prop in H. destruct H as [H|H]; [apply orb_prop in H; destruct H as [H|H]|].
    + left. right. apply cfg_test_iff. exact H.
    + left. left. apply is_ident_iff. exact H.
    + right. apply skip_iff. exact H.
  - destruct H as [[H|H]|H].
    + unfold attr_is_test. apply is_ident_iff in H. rewrite H. rewrite orb_true_r. reflexivity.
    + apply cfg_test_iff in H. rewrite H. reflexivity.
    + apply skip_iff in H. rewrite H. apply orb_true_r.
Qed.

Lemma find_path_step : forall a l, (forall s, a <> MNameValue (mkPath false [tx "path"]) (Some s)) ->
  find_path_attribute (a :: l) = find_path_attribute l.
Proof.
  intros a l H. destruct a as [p|p ts|p [s|]]; try reflexivity. cbn [find_path_attribute].
  destruct (path_is_ident p (tx "path")) eqn:E; [|reflexivity].
  apply is_ident_iff in E. subst p. exfalso. apply (H s). reflexivity.
Qed.

Lemma path_attr_total : forall l, exists o, path_attr l o.
Proof.
  induction l as [|a l [o IH]]; [eexists; constructor|].
  assert (D : (exists s, a = MNameValue (mkPath false [tx "path"]) (Some s)) \/ forall s, a <> MNameValue (mkPath false [tx "path"]) (Some s)).
  { destruct a as [p|p ts|p [s|]]; try (right; intros; discriminate).
    destruct (path_is_ident p (tx "path")) eqn:E.
    - left. apply is_ident_iff in E. subst. eauto.
    - right. intros s' X. injection X as -> ->. assert (path_is_ident (mkPath false [tx "path"]) (tx "path") = true) by (apply is_ident_iff; reflexivity). congruence. }
  destruct D as [[s ->]|D]; [eexists; constructor|]. exists o. constructor; auto.
Qed.

Lemma find_path_iff : forall l o, path_attr l o ->
  find_path_attribute l = match o with
                          | Some s => if starts_with [SLASH] s then inl s else inr (Some s)
                          | None => inr None
                          end.
Proof.
  intros l o H. induction H as [|s l|a l o D H IH].
  - reflexivity.
  - cbn [find_path_attribute]. replace (path_is_ident (mkPath false [tx "path"]) (tx "path")) with true by reflexivity. reflexivity.
  - rewrite find_path_step; auto.
Qed.

Lemma path_attr_fun : forall l o o', path_attr l o -> path_attr l o' -> o = o'.
Proof.
  intros l o o' H. revert o'. induction H as [|s l|a l o D H IH]; intros o' H'.
  - inversion H'. reflexivity.
  - inversion H' as [| |a' l' o'' D' H'']; subst; [reflexivity|]. exfalso. eapply D'. reflexivity.
  - inversion H' as [|s' l'|a' l' o'' D' H'']; subst; [exfalso; eapply D; reflexivity|]. auto.
Qed.

(** ** The traversal *)
Section NodeInd.
  Variable P : node -> Prop.
  Hypothesis H : forall k cs, (forall c, In c cs -> P c) -> P (Node k cs).
  Fixpoint node_all (n : node) : P n :=
    match n with
    | Node k cs =>
        H k cs ((fix go (l : list node) : forall c, In c l -> P c :=
          match l return forall c, In c l -> P c with
          | [] => fun c F => match F with end
          | x :: l' => fun c I => match I with or_introl E => eq_ind x P (node_all x) c E | or_intror I' => go l' c I' end
          end) cs)
    end.
End NodeInd.

Section Run.
Variable file : source_file.
Variable errs : list toks.
Variable skip_calls : list text.

Definition skips (k : kind) : bool :=
  match k with
  | KFile a => attrs_excluded a
  | KFn f => fn_skipped f
  | KImpl a _ _ tr => attrs_excluded a || match tr with Some (_, l) => text_eqb l (tx "Default") | None => false end
  | KTrait a _ _ => attrs_excluded a
  | KMod a _ _ _ => attrs_excluded a || match find_path_attribute a with inl _ => true | inr _ => false end
  | KCall a path => attrs_excluded a || match path with Some l => mem_text l skip_calls | None => false end
  | KMethod a name => attrs_excluded a || mem_text name skip_calls
  | KBinary a _ _ | KUnary a _ _ | KMatch a _ => attrs_excluded a
  | KOther _ => false
  end.

Lemma or_iff : forall a b P Q, (a = true <-> P) -> (b = true <-> Q) -> (a || b = true <-> P \/ Q).
Proof. intros a b P Q A B. rewrite orb_true_iff. tauto. Qed.

Lemma skips_iff : forall k, skips k = true <-> skipped skip_calls k.
Proof.
  intro k. destruct k as [a|f|a u st tr|a u i|a i sp inl_|a p|a nm|a o sp|a o sp|a arms|a]; cbn [skips skipped]; try apply excluded_iff.
  - unfold fn_skipped. rewrite !orb_true_iff. rewrite excluded_iff.
    assert (N1 : (match fd_form f with FreeFn => false | _ => text_eqb (fd_ident f) (tx "new") end) = true
                 <-> fd_form f <> FreeFn /\ fd_ident f = tx "new").
    { destruct (fd_form f).
      - split; [discriminate|]. intros [H _]. congruence.
      - rewrite text_eqb_eq. split; [intro H; split; [discriminate|exact H]|tauto].
      - rewrite text_eqb_eq. split; [intro H; split; [discriminate|exact H]|tauto]. }
    assert (N2 : match fd_block f with None => true | Some b => block_is_empty b end = true
                 <-> fd_block f = None \/ exists b, fd_block f = Some b /\ blk_stmts b = []).
    { destruct (fd_block f) as [b|].
      - unfold block_is_empty. split.
        + intro H. right. exists b. split; [reflexivity|]. destruct (blk_stmts b); [reflexivity|discriminate].
        + intros [H|[b' [H1 H2]]]; [discriminate|]. injection H1 as <-. rewrite H2. reflexivity.
      - split; auto. }
    tauto.
  - apply or_iff; [apply excluded_iff|]. destruct tr as [[t l]|].
    + rewrite text_eqb_eq. split; [intros ->; eauto|intros [t' E]; congruence].
    + split; [discriminate|]. intros [t E]. discriminate.
  - apply or_iff; [apply excluded_iff|]. destruct (path_attr_total a) as [o P]. rewrite (find_path_iff a o P).
    destruct o as [s|].
    + destruct (starts_with [SLASH] s) eqn:E.
      * split; [|reflexivity]. intros _. apply starts_with_iff in E. destruct E as [r ->]. exists r. exact P.
      * split; [discriminate|]. intros [s' P']. pose proof (path_attr_fun _ _ _ P P') as X. injection X as ->.
        assert (T : starts_with [SLASH] (SLASH :: s') = true) by (apply starts_with_iff; exists s'; reflexivity). congruence.
    + split; [discriminate|]. intros [s' P']. pose proof (path_attr_fun _ _ _ P P') as X. discriminate.
  - apply or_iff; [apply excluded_iff|]. destruct p as [l|].
    + rewrite mem_text_in. split; [eauto|]. intros [l' [E I]]. congruence.
    + split; [discriminate|]. intros [l [E _]]. discriminate.
  - apply or_iff; [apply excluded_iff|]. apply mem_text_in.
  - split; [discriminate|contradiction].
Qed.

(** Nodes above, innermost first. *)
Fixpoint rfns (r : list kind) : list fn_info :=
  match r with
  | [] => []
  | KFn f :: r' => mkFn (join (tx "::") (rev (fd_ident f :: flat_map names r'))) (pretty (fd_ret_toks f)) (fd_span f) :: rfns r'
  | _ :: r' => rfns r'
  end.
Lemma plain_raw : forall w, plain_name w = match w with a :: b :: w' => if (114 =? a)%N && (35 =? b)%N then w' else w | _ => w end.
Proof.
  intros [|a [|b w]]; unfold plain_name.
  - reflexivity.
  - destruct a; [reflexivity|]. repeat (destruct p; try reflexivity).
  - destruct (N.eqb_spec 114 a) as [<-|Na]; cbn [andb].
    + destruct (N.eqb_spec 35 b) as [<-|Nb]; [reflexivity|]. destruct b; [reflexivity|]. repeat (destruct p; try reflexivity; try congruence).
    + destruct a; [reflexivity|]. repeat (destruct p; try reflexivity; try congruence).
Qed.
Lemma unraw_plain : forall w, unraw w = plain_name w.
Proof.
  intro w. rewrite plain_raw. unfold unraw. change (tx "r#") with [114%N; 35%N].
  destruct w as [|a [|b w]]; cbn [starts_with]; [reflexivity|rewrite andb_false_r; reflexivity|]. rewrite andb_true_r. reflexivity.
Qed.
Definition mod_entry (k : kind) : list mod_ns :=
  match k with
  | KMod a i sp _ => [mkModNs (plain_name i) (match find_path_attribute a with inr p => p | inl _ => None end) sp]
  | _ => []
  end.
Definition st (r : list kind) (ms : list mutant) (ex : list (list mod_ns)) : vstate :=
  mkV ms (flat_map mod_entry r) (flat_map names r) (rfns r) ex.

Definition mk (r : list kind) (x : span * toks * genre) : mutant :=
  match x with (sp, t, g) => mkMutant file (hd_error (rfns r)) sp (pretty t) g end.
Definition raw (k : kind) : list (span * toks * genre) :=
  match k with
  | KFn f =>
      match fd_block f with
      | Some b =>
          match function_body_span b with
          | Some sp => map (fun t => (sp, t, FnValue))
                         (filter (fun t => negb (text_eqb (pretty [Group Brace (blk_toks b)]) (pretty [Group Brace t])))
                            (return_type_replacements errs (fd_ret f)))
          | None => []
          end
      | None => []
      end
  | KBinary _ op sp => map (fun t => (sp, t, BinaryOperator)) (binary_replacements op)
  | KUnary _ op sp => map (fun t => (sp, t, UnaryOperator)) (unary_replacements op)
  | KMatch _ arms => match_replacements arms
  | _ => []
  end.
Definition own (r : list kind) (k : kind) : list mutant := map (mk (k :: r)) (raw k).
Definition own_ext (r : list kind) (k : kind) : list (list mod_ns) :=
  match k with KMod _ _ _ false => [rev (flat_map mod_entry (k :: r))] | _ => [] end.

Fixpoint gen (r : list kind) (n : node) : list mutant :=
  match n with Node k cs => if skips k then [] else own r k ++ flat_map (gen (k :: r)) cs end.
Fixpoint gex (r : list kind) (n : node) : list (list mod_ns) :=
  match n with Node k cs => if skips k then [] else own_ext r k ++ flat_map (gex (k :: r)) cs end.

Fixpoint visit_all (cs : list node) (s : vstate) : option vstate :=
  match cs with
  | [] => Some s
  | c :: cs' => match visit file errs skip_calls c s with Some s' => visit_all cs' s' | None => None end
  end.

Lemma visit_unfold : forall k children s, visit file errs skip_calls (Node k children) s =
      match k with
      | KFile attrs => if attrs_excluded attrs then Some s else visit_all children s
      | KFn f =>
          if fn_skipped f then Some s
          else match fd_block f with
          | None => Some s
          | Some b =>
              let '(fi, s1) := enter_function f s in
              match collect_fn_mutants file errs f b s1 with
              | None => None
              | Some s2 => match visit_all children s2 with None => None | Some s3 => leave_function fi s3 end
              end
          end
      | KImpl attrs _ self_ty tr =>
          if attrs_excluded attrs then Some s
          else if match tr with Some (_, l) => text_eqb l (tx "Default") | None => false end then Some s
          else in_namespace (impl_name self_ty tr) (visit_all children) s
      | KTrait attrs _ ident =>
          if attrs_excluded attrs then Some s else in_namespace ident (visit_all children) s
      | KMod attrs ident sp inline =>
          if attrs_excluded attrs then Some s
          else match find_path_attribute attrs with
          | inl _ => Some s
          | inr path =>
              let mn := mkModNs (unraw ident) path sp in
              let mods := mn :: v_mods s in
              let s1 := mkV (v_mutants s) mods (v_ns s) (v_fns s)
                          (if inline then v_external s else v_external s ++ [rev mods]) in
              match in_namespace (mn_name mn) (visit_all children) s1 with
              | None => None
              | Some s2 =>
                  match v_mods s2 with
                  | [] => None
                  | m :: ms => if mod_ns_eqb m mn then Some (mkV (v_mutants s2) ms (v_ns s2) (v_fns s2) (v_external s2)) else None
                  end
              end
          end
      | KCall attrs path =>
          if attrs_excluded attrs then Some s
          else if match path with Some l => mem_text l skip_calls | None => false end then Some s
          else visit_all children s
      | KMethod attrs name =>
          if attrs_excluded attrs then Some s
          else if mem_text name skip_calls then Some s
          else visit_all children s
      | KBinary attrs op sp =>
          if attrs_excluded attrs then Some s
          else visit_all children (collect_all file (map (fun r => (sp, r, BinaryOperator)) (binary_replacements op)) s)
      | KUnary attrs op sp =>
          if attrs_excluded attrs then Some s
          else visit_all children (collect_all file (map (fun r => (sp, r, UnaryOperator)) (unary_replacements op)) s)
      | KMatch attrs arms =>
          if attrs_excluded attrs then Some s
          else visit_all children (collect_all file (match_replacements arms) s)
      | KOther _ => visit_all children s
      end.
Proof. intros k children s. destruct k; reflexivity. Qed.

Lemma collect_all_st : forall l r ms ex, collect_all file l (st r ms ex) = st r (ms ++ map (mk r) l) ex.
Proof.
  induction l as [|[[sp t] g] l IH]; intros r ms ex.
  - cbn. rewrite app_nil_r. reflexivity.
  - unfold collect_all. cbn [fold_left]. fold (collect_all file l).
    change (collect_all file l (st r (ms ++ [mk r (sp, t, g)]) ex) = st r (ms ++ map (mk r) ((sp, t, g) :: l)) ex).
    rewrite IH. cbn [map]. rewrite <- app_assoc. reflexivity.
Qed.

Lemma span_eqb_refl : forall s, span_eqb s s = true.
Proof. intros [[a b] [c d]]. unfold span_eqb, lc_eqb. cbn. rewrite !Nat.eqb_refl. reflexivity. Qed.
Lemma fn_eqb_refl : forall f, fn_eqb f f = true.
Proof. intro f. unfold fn_eqb. rewrite !text_eqb_refl, span_eqb_refl. reflexivity. Qed.
Lemma mod_ns_eqb_refl : forall m, mod_ns_eqb m m = true.
Proof. intros [n p l]. unfold mod_ns_eqb. cbn. rewrite text_eqb_refl, span_eqb_refl. destruct p; cbn; rewrite ?text_eqb_refl; reflexivity. Qed.

Lemma fn_fold : forall b sp l r ms ex,
  fold_left (fun s rep =>
     if text_eqb (pretty [Group Brace (blk_toks b)]) (pretty [Group Brace rep]) then s
     else collect_mutant file sp rep FnValue s) l (st r ms ex)
  = st r (ms ++ map (mk r) (map (fun t => (sp, t, FnValue))
       (filter (fun t => negb (text_eqb (pretty [Group Brace (blk_toks b)]) (pretty [Group Brace t]))) l))) ex.
Proof.
  intros b sp l r. set (p := fun t => text_eqb (pretty [Group Brace (blk_toks b)]) (pretty [Group Brace t])).
  change (forall ms ex, fold_left (fun s rep => if p rep then s else collect_mutant file sp rep FnValue s) l (st r ms ex)
   = st r (ms ++ map (mk r) (map (fun t => (sp, t, FnValue)) (filter (fun t => negb (p t)) l))) ex).
  induction l as [|t l IH]; intros ms ex.
  - cbn. rewrite app_nil_r. reflexivity.
  - cbn [fold_left filter]. destruct (p t); cbn [negb].
    + apply IH.
    + change (collect_mutant file sp t FnValue (st r ms ex)) with (st r (ms ++ [mk r (sp, t, FnValue)]) ex).
      rewrite IH. cbn [map]. rewrite <- app_assoc. reflexivity.
Qed.

Lemma impl_name_names : forall a u sty tr, names (KImpl a u sty tr) = [impl_name sty tr].
Proof. intros a u sty [[t l]|]; reflexivity. Qed.

Lemma children_run : forall cs r,
  (forall c, In c cs -> forall r ms ex, visit file errs skip_calls c (st r ms ex) = Some (st r (ms ++ gen r c) (ex ++ gex r c))) ->
  forall ms ex, visit_all cs (st r ms ex) = Some (st r (ms ++ flat_map (gen r) cs) (ex ++ flat_map (gex r) cs)).
Proof.
  induction cs as [|c cs IH]; intros r H ms ex.
  - cbn. rewrite !app_nil_r. reflexivity.
  - cbn [visit_all flat_map]. rewrite H by (left; reflexivity). rewrite IH.
    + rewrite <- !app_assoc. reflexivity.
    + intros c' I. apply H. right. exact I.
Qed.

Lemma visit_run : forall n r ms ex,
  visit file errs skip_calls n (st r ms ex) = Some (st r (ms ++ gen r n) (ex ++ gex r n)).
Proof.
  apply (node_all (fun n => forall r ms ex, visit file errs skip_calls n (st r ms ex) = Some (st r (ms ++ gen r n) (ex ++ gex r n)))).
  intros k cs IH r ms ex. rewrite visit_unfold.
  assert (C : forall r ms ex, visit_all cs (st r ms ex) = Some (st r (ms ++ flat_map (gen r) cs) (ex ++ flat_map (gex r) cs))).
  { intros r0. apply children_run. exact IH. }
  cbn [gen gex].
  assert (Z : Some (st r ms ex) = Some (st r (ms ++ []) (ex ++ []))) by (rewrite !app_nil_r; reflexivity).
  destruct k as [a|f|a u sty tr|a u i|a i sp inl_|a p|a nm|a o sp|a o sp|a arms|a]; cbn [skips].
  - destruct (attrs_excluded a); [exact Z|]. apply (C (KFile a :: r)).
  - destruct (fn_skipped f) eqn:E; [exact Z|].
    unfold fn_skipped in E. apply orb_false_iff in E. destruct E as [_ E].
    unfold own. cbn [raw own_ext]. destruct (fd_block f) as [b|] eqn:B; [|discriminate].
    unfold enter_function, collect_fn_mutants. cbn [v_fns]. unfold function_body_span.
    unfold block_is_empty in E. destruct (blk_stmts b) as [|s0 ss] eqn:Bs; [discriminate|].
    set (fi := mkFn (join (tx "::") (rev (fd_ident f :: v_ns (st r ms ex)))) (pretty (fd_ret_toks f)) (fd_span f)).
    set (sp := mkSpan (sp_start s0) (sp_end (last (s0 :: ss) s0))).
    change (mkV (v_mutants (st r ms ex)) (v_mods (st r ms ex)) (fd_ident f :: v_ns (st r ms ex)) (fi :: v_fns (st r ms ex)) (v_external (st r ms ex)))
      with (st (KFn f :: r) ms ex).
    rewrite fn_fold. cbv beta iota. rewrite C. unfold leave_function.
    cbn [st v_ns v_fns flat_map names app rfns].
    change (v_ns (st r ms ex)) with (flat_map names r) in fi.
    fold fi. rewrite fn_eqb_refl. cbn [v_mutants v_mods v_external flat_map mod_entry app]. 
    rewrite <- !app_assoc. reflexivity.
  - destruct (attrs_excluded a); [exact Z|]. cbn [orb].
    destruct (match tr with Some (_, l) => text_eqb l (tx "Default") | None => false end); [exact Z|].
    unfold in_namespace.
    assert (S1 : forall ms ex, mkV ms (flat_map mod_entry r) (impl_name sty tr :: flat_map names r) (rfns r) ex = st (KImpl a u sty tr :: r) ms ex).
    { intros. unfold st. cbn [flat_map mod_entry app rfns]. rewrite impl_name_names. reflexivity. }
    change (mkV (v_mutants (st r ms ex)) (v_mods (st r ms ex)) (impl_name sty tr :: v_ns (st r ms ex)) (v_fns (st r ms ex)) (v_external (st r ms ex)))
      with (mkV ms (flat_map mod_entry r) (impl_name sty tr :: flat_map names r) (rfns r) ex).
    rewrite S1, C. rewrite <- S1. cbn [v_ns]. rewrite text_eqb_refl. reflexivity.
  - destruct (attrs_excluded a); [exact Z|]. unfold in_namespace.
    change (mkV (v_mutants (st r ms ex)) (v_mods (st r ms ex)) (i :: v_ns (st r ms ex)) (v_fns (st r ms ex)) (v_external (st r ms ex)))
      with (st (KTrait a u i :: r) ms ex).
    rewrite C. cbn [st v_ns flat_map names app]. rewrite text_eqb_refl. reflexivity.
  - destruct (attrs_excluded a); [exact Z|]. cbn [orb].
    destruct (find_path_attribute a) as [bad|path] eqn:F; [exact Z|].
    cbv zeta. rewrite unraw_plain. unfold in_namespace. cbn [mn_name].
    set (k := KMod a i sp inl_).
    assert (S1 : forall ms ex, mkV ms (mkModNs (plain_name i) path sp :: flat_map mod_entry r) (plain_name i :: flat_map names r) (rfns r) ex = st (k :: r) ms ex).
    { intros. unfold st, k. cbn [flat_map mod_entry app rfns names]. rewrite F. reflexivity. }
    cbn [v_mutants v_mods v_ns v_fns v_external st].
    rewrite S1, C. rewrite <- S1. cbn [v_ns]. rewrite text_eqb_refl. cbn [v_mods]. rewrite mod_ns_eqb_refl.
    cbn [v_mutants v_ns v_fns v_external]. unfold st. f_equal. f_equal.
    unfold own_ext, k. destruct inl_; cbn [app]; [reflexivity|].
    cbn [flat_map mod_entry app]. rewrite F. rewrite <- app_assoc. reflexivity.
  - destruct (attrs_excluded a); [exact Z|]. cbn [orb].
    destruct (match p with Some l => mem_text l skip_calls | None => false end); [exact Z|]. apply (C (KCall a p :: r)).
  - destruct (attrs_excluded a); [exact Z|]. cbn [orb].
    destruct (mem_text nm skip_calls); [exact Z|]. apply (C (KMethod a nm :: r)).
  - destruct (attrs_excluded a); [exact Z|]. rewrite collect_all_st.
    unfold own. cbn [raw own_ext app]. rewrite app_assoc. apply (C (KBinary a o sp :: r)).
  - destruct (attrs_excluded a); [exact Z|]. rewrite collect_all_st.
    unfold own. cbn [raw own_ext app]. rewrite app_assoc. apply (C (KUnary a o sp :: r)).
  - destruct (attrs_excluded a); [exact Z|]. rewrite collect_all_st.
    unfold own. cbn [raw own_ext app]. rewrite app_assoc. apply (C (KMatch a arms :: r)).
  - apply (C (KOther a :: r)).
Qed.

Lemma walk_run : forall root, walk_syntax file errs skip_calls root = Some (gen [] root, gex [] root).
Proof. intro root. unfold walk_syntax. change (mkV [] [] [] [] []) with (st [] [] []). rewrite visit_run. reflexivity. Qed.
End Run.

(** ** From the traversal to positions *)
Lemma flat_map_rev1 : forall (A B : Type) (f : A -> list B) l, (forall x, length (f x) <= 1) ->
  rev (flat_map f l) = flat_map f (rev l).
Proof.
  intros A B f l H. induction l as [|x l IH]; [reflexivity|].
  cbn [flat_map rev]. rewrite rev_app_distr, IH, flat_map_app. f_equal. cbn [flat_map]. rewrite app_nil_r.
  specialize (H x). destruct (f x) as [|y [|z t]]; [reflexivity|reflexivity|cbn in H; lia].
Qed.

Lemma names_one : forall k, length (names k) <= 1.
Proof. intro k. destruct k as [a|f|a u sty [[t l]|]|a u i|a i sp inl_|a p|a nm|a o sp|a o sp|a arms|a]; cbn; lia. Qed.
Lemma mod_entry_one : forall k, length (mod_entry k) <= 1.
Proof. intro k. destruct k; cbn; lia. Qed.

Lemma in_fn_rfns : forall r, in_fn (rev r) (hd_error (rfns r)).
Proof.
  induction r as [|k r IH]; [constructor; intros f []|].
  destruct k; try (cbn [rfns rev]; inversion IH as [anc D E1 E2|above f' below D E1 E2];
    [apply in_none; intros g I; apply in_app_or in I; destruct I as [I|[I|[]]]; [apply (D g I)|discriminate]
    | rewrite <- app_assoc; apply in_some; intros g I; apply in_app_or in I; destruct I as [I|[I|[]]]; [apply (D g I)|discriminate]]).
  cbn [rfns rev hd_error]. replace (mkFn _ _ _) with (info (rev r) f).
  - apply in_some. intros g [].
  - unfold info. f_equal. f_equal. cbn [rev]. f_equal. symmetry. apply flat_map_rev1. apply names_one.
Qed.

Lemma split_fn_unique : forall a1 f1 b1 a2 f2 b2,
  (forall g, ~ In (KFn g) b1) -> (forall g, ~ In (KFn g) b2) ->
  a1 ++ KFn f1 :: b1 = a2 ++ KFn f2 :: b2 -> a1 = a2 /\ f1 = f2.
Proof.
  induction a1 as [|x a1 IH]; intros f1 b1 a2 f2 b2 D1 D2 E.
  - destruct a2 as [|y a2]; cbn [app] in E.
    + injection E as -> ->. auto.
    + injection E as <- ->. exfalso. apply (D1 f2). apply in_or_app. right. left. reflexivity.
  - destruct a2 as [|y a2]; cbn [app] in E.
    + injection E as -> <-. exfalso. apply (D2 f1). apply in_or_app. right. left. reflexivity.
    + injection E as -> E. destruct (IH _ _ _ _ _ D1 D2 E) as [-> ->]. auto.
Qed.

Lemma in_fn_fun : forall anc o o', in_fn anc o -> in_fn anc o' -> o = o'.
Proof.
  intros anc o o' H H'. destruct H as [anc D|above f below D]; inversion H' as [anc' D' E1 E2|above' f' below' D' E1 E2]; subst.
  - reflexivity.
  - exfalso. apply (D f'). apply in_or_app. right. left. reflexivity.
  - exfalso. apply (D' f). apply in_or_app. right. left. reflexivity.
  - destruct (split_fn_unique _ _ _ _ _ _ D' D E1) as [-> ->]. reflexivity.
Qed.

(** ** Operators *)
Definition alts (o : binop) : list binop :=
  match o with
  | OEq => [ONe] | ONe => [OEq] | OAnd => [OOr] | OOr => [OAnd]
  | OLt => [OEq; OGt; OLe] | OGt => [OEq; OLt; OGe] | OLe => [OGt] | OGe => [OLt]
  | OAdd => [OSub; OMul] | OSub | OMul => [OAdd; ODiv] | ODiv => [ORem; OMul] | ORem => [ODiv; OAdd]
  | OShl => [OShr] | OShr => [OShl]
  | OBitAnd => [OBitOr; OBitXor] | OBitOr => [OBitAnd; OBitXor] | OBitXor => [OBitOr; OBitAnd]
  | OAddAssign => [OSubAssign; OMulAssign] | OSubAssign | OMulAssign => [OAddAssign; ODivAssign]
  | ODivAssign => [ORemAssign; OMulAssign] | ORemAssign => [ODivAssign; OAddAssign]
  | OShlAssign => [OShrAssign] | OShrAssign => [OShlAssign]
  | OBitAndAssign => [OBitOrAssign; OBitXorAssign] | OBitOrAssign => [OBitAndAssign; OBitXorAssign]
  | OBitXorAssign => [OBitOrAssign; OBitAndAssign]
  end.

Lemma swap_alts : forall o o', swap o o' -> In o' (alts o).
Proof.
  intros o o' H. induction H as [o l o' I J|o o' a a' H IH A A'].
  - unfold swaps in I. cbn [In] in I.
    repeat (destruct I as [I|I]; [injection I as <- <-; exact J|]). contradiction.
  - destruct o; try discriminate A; injection A as <-; cbn [alts In] in IH |- *;
      repeat (destruct IH as [IH|IH]; [subst o'; injection A' as <-; tauto|]); contradiction.
Qed.

Ltac plain_try p := exists p; split; [tauto|reflexivity].
Ltac plain_of := first [ plain_try OAdd | plain_try OSub | plain_try OMul | plain_try ODiv | plain_try ORem
  | plain_try OShl | plain_try OShr | plain_try OBitAnd | plain_try OBitOr | plain_try OBitXor ].
Lemma alts_swap : forall o o', In o' (alts o) -> swap o o'.
Proof.
  assert (P : forall o, In (o, alts o) swaps -> forall o', In o' (alts o) -> swap o o') by (intros; eapply swap_plain; eauto).
  assert (PL : forall o, kind_of o <> ArithmeticAssign -> kind_of o <> BitsAssign -> In (o, alts o) swaps).
  { intros o K1 K2. destruct o; cbn [kind_of] in *; try congruence; unfold swaps; cbn [In alts]; tauto. }
  assert (AS : forall o a, assign_of o = Some a -> forall a', In a' (alts a) -> exists o', In o' (alts o) /\ assign_of o' = Some a').
  { intros o a A a' I. destruct o; try discriminate A; injection A as <-; cbn [alts In] in I |- *;
      repeat (destruct I as [I|I]; [subst a'; plain_of|]); contradiction. }
  intros o o' I.
  assert (D : (kind_of o <> ArithmeticAssign /\ kind_of o <> BitsAssign) \/ exists p, assign_of p = Some o /\ kind_of p <> ArithmeticAssign /\ kind_of p <> BitsAssign).
  { destruct o; try (left; split; discriminate); right;
      first [ exists OAdd; split; [reflexivity|split; discriminate] | exists OSub; split; [reflexivity|split; discriminate]
            | exists OMul; split; [reflexivity|split; discriminate] | exists ODiv; split; [reflexivity|split; discriminate]
            | exists ORem; split; [reflexivity|split; discriminate] | exists OShl; split; [reflexivity|split; discriminate]
            | exists OShr; split; [reflexivity|split; discriminate] | exists OBitAnd; split; [reflexivity|split; discriminate]
            | exists OBitOr; split; [reflexivity|split; discriminate] | exists OBitXor; split; [reflexivity|split; discriminate] ]. }
  destruct D as [[K1 K2]|[p [A [K1 K2]]]].
  - apply P; auto.
  - destruct (AS p o A o' I) as [q [J B]]. apply (swap_assign p q); [apply P; [apply PL; assumption|exact J]|exact A|exact B].
Qed.

Lemma binary_alts : forall o, map pretty (binary_replacements o) = map op_text (alts o).
Proof. intro o. destruct o; vm_compute; reflexivity. Qed.

(** ** What a node yields *)
Section Yield.
Variable file : source_file.
Variable errs : list toks.
Variable skip_calls : list text.

Lemma last_ends : forall (A : Type) (l : list A) x d, last (l ++ [x]) d = x.
Proof. intros A l x d. induction l as [|y l IH]; [reflexivity|]. cbn [app]. destruct (l ++ [x]) eqn:E; [destruct l; discriminate|]. cbn [last]. exact IH. Qed.

Lemma raw_yields : forall k sp t g, In (sp, t, g) (raw errs k) -> yields errs k sp (pretty t) g.
Proof.
  intros k sp t g H. destruct k as [a|f|a u sty tr|a u i|a i s inl_|a p|a nm|a o s|a o s|a arms|a]; cbn [raw] in H; try contradiction.
  - destruct (fd_block f) as [b|] eqn:B; [|contradiction]. unfold function_body_span in H.
    destruct (blk_stmts b) as [|s0 ss] eqn:Bs; [contradiction|].
    apply in_map_iff in H. destruct H as [t' [E H]]. injection E as <- <- <-.
    apply filter_In in H. destruct H as [I N1]. apply negb_true_iff in N1. apply text_eqb_neq in N1.
    refine (y_fn errs f b s0 (last (s0 :: ss) s0) t' B _ _ I N1); [rewrite Bs; eauto|].
    rewrite Bs. destruct (@exists_last _ (s0 :: ss)) as [more [z E]]; [discriminate|].
    exists more. replace (last (s0 :: ss) s0) with z; [exact E|]. rewrite E. rewrite last_ends. reflexivity.
  - apply in_map_iff in H. destruct H as [t' [E H]]. injection E as <- <- <-.
    assert (I : In (pretty t') (map pretty (binary_replacements o))) by (apply in_map; exact H).
    rewrite binary_alts in I. apply in_map_iff in I. destruct I as [o' [<- I]].
    apply y_binary. apply alts_swap. exact I.
  - apply in_map_iff in H. destruct H as [t' [E H]]. injection E as <- <- <-.
    destruct o; cbn [unary_replacements In] in H; try contradiction; destruct H as [<-|[]]; apply y_unary; auto.
  - unfold match_replacements in H. apply in_app_or in H. destruct H as [H|H].
    + destruct (existsb arm_wild arms) eqn:E; [|contradiction]. apply existsb_exists in E. destruct E as [y [Iy Wy]].
      apply in_map_iff in H. destruct H as [x [E H]]. injection E as <- <- <-.
      apply filter_In in H. destruct H as [I F]. apply andb_prop in F. destruct F as [F1 F2].
      apply negb_true_iff in F1. destruct (arm_guard x) eqn:G; [discriminate|]. apply (y_arm errs a arms x y); auto.
    + apply in_flat_map in H. destruct H as [x [I H]]. destruct (arm_guard x) as [g0|] eqn:G; [|contradiction].
      destruct H as [H|[H|[]]]; injection H as <- <- <-.
      * apply (y_guard errs a arms x); auto.
      * apply (y_guard errs a arms x); auto.
Qed.

Lemma yields_raw : forall k sp tt g, yields errs k sp tt g -> exists t, In (sp, t, g) (raw errs k) /\ tt = pretty t.
Proof.
  intros k sp tt g H. destruct H as [f b first lst rep B [m1 F] [m2 L] I N1|a o sp o' W|a o sp U|a arms x y I W G Iy Wy|a arms x g t I G T].
  - exists rep. split; [|reflexivity]. cbn [raw]. rewrite B.
    assert (SP : function_body_span b = Some (mkSpan (sp_start first) (sp_end lst))).
    { assert (Q : last (first :: m1) first = lst) by (rewrite <- F, L; apply last_ends).
      unfold function_body_span. rewrite F. rewrite Q. reflexivity. }
    rewrite SP.
    apply in_map_iff. exists rep. split; [reflexivity|]. apply filter_In. split; [exact I|].
    apply negb_true_iff. apply text_eqb_neq. exact N1.
  - apply swap_alts in W. assert (J : In (op_text o') (map op_text (alts o))) by (apply in_map; exact W).
    rewrite <- binary_alts in J. apply in_map_iff in J. destruct J as [t [E J]].
    exists t. split; [|congruence]. cbn [raw]. apply in_map_iff. exists t. auto.
  - exists []. split; [|reflexivity]. cbn [raw]. destruct U as [->| ->]; left; reflexivity.
  - exists []. split; [|reflexivity]. cbn [raw]. unfold match_replacements. apply in_or_app. left.
    replace (existsb arm_wild arms) with true by (symmetry; apply existsb_exists; eauto).
    apply in_map_iff. exists x. split; [reflexivity|]. apply filter_In. split; [exact I|]. rewrite W, G. reflexivity.
  - assert (Z : forall u, u = [Word (tx "true")] \/ u = [Word (tx "false")] -> In (g, u, MatchArmGuard) (raw errs (KMatch a arms))).
    { intros u U. cbn [raw]. unfold match_replacements. apply in_or_app. right. apply in_flat_map. exists x. split; [exact I|].
      rewrite G. destruct U as [->| ->]; [left; reflexivity|right; left; reflexivity]. }
    destruct T as [->| ->].
    + exists [Word (tx "true")]. split; [apply Z; auto|reflexivity].
    + exists [Word (tx "false")]. split; [apply Z; auto|reflexivity].
Qed.

Lemma own_iff : forall anc k m, In m (own file errs (rev anc) k) <->
  (yields errs k (mu_span m) (mu_replacement m) (mu_genre m) /\ in_fn (anc ++ [k]) (mu_fn m) /\ mu_file m = file).
Proof.
  intros anc k m. unfold own. rewrite in_map_iff.
  assert (R : in_fn (anc ++ [k]) (hd_error (rfns (k :: rev anc)))).
  { pose proof (in_fn_rfns (k :: rev anc)) as H. cbn [rev] in H. rewrite rev_involutive in H. exact H. }
  split.
  - intros [[[sp t] g] [<- H]]. cbn [mk mu_span mu_replacement mu_genre mu_fn mu_file]. split; [apply raw_yields; exact H|]. auto.
  - intros [Y [F E]]. apply yields_raw in Y. destruct Y as [t [H P]]. exists (mu_span m, t, mu_genre m). split; [|exact H].
    pose proof (in_fn_fun _ _ _ R F) as Q. cbn [mk]. rewrite Q. destruct m as [mf mfn msp mr mg]. cbn in *. subst. reflexivity.
Qed.

Lemma not_skipped : forall l, (forall k, In k l -> skips skip_calls k = false) <-> (forall k, In k l -> ~ skipped skip_calls k).
Proof.
  intro l. split; intros H k I.
  - intro S. apply skips_iff in S. rewrite (H k I) in S. discriminate.
  - destruct (skips skip_calls k) eqn:E; [|reflexivity]. exfalso. apply (H k I). apply skips_iff. exact E.
Qed.

Section Gen.
  Variable A : Type.
  Variable f : list kind -> kind -> list A.
  Fixpoint pre (r : list kind) (n : node) : list A :=
    match n with Node k cs => if skips skip_calls k then [] else f r k ++ flat_map (pre (k :: r)) cs end.

  Lemma pre_in : forall n r x, In x (pre r n) <->
    exists anc k cs, occurs n anc (Node k cs) /\ (forall k', In k' (anc ++ [k]) -> skips skip_calls k' = false) /\ In x (f (rev anc ++ r) k).
  Proof.
    apply (node_all (fun n => forall r x, In x (pre r n) <->
      exists anc k cs, occurs n anc (Node k cs) /\ (forall k', In k' (anc ++ [k]) -> skips skip_calls k' = false) /\ In x (f (rev anc ++ r) k))).
    intros k cs IH r x. cbn [pre]. split.
    - destruct (skips skip_calls k) eqn:S; [contradiction|]. intro H. apply in_app_or in H. destruct H as [H|H].
      + exists [], k, cs. split; [constructor|]. split; [|exact H]. intros k' [<-|[]]. exact S.
      + apply in_flat_map in H. destruct H as [c [I H]]. apply (IH c I) in H.
        destruct H as [anc [k' [cs' [O [N1 H]]]]]. exists (k :: anc), k', cs'. split; [eapply occ_below; eauto|]. split.
        * intros q [<-|J]; [exact S|apply N1; exact J].
        * cbn [rev]. rewrite <- app_assoc. exact H.
    - intros [anc [k' [cs' [O [N1 H]]]]]. inversion O as [n E1 E2|k0 cs0 c anc0 n I O' E1 E2]; subst.
      + rewrite (N1 k') by (left; reflexivity). apply in_or_app. left. exact H.
      + rewrite (N1 k) by (left; reflexivity). apply in_or_app. right. apply in_flat_map. exists c. split; [exact I|].
        apply (IH c I). exists anc0, k', cs'. split; [exact O'|]. split.
        * intros q J. apply N1. right. exact J.
        * cbn [rev] in H. rewrite <- app_assoc in H. exact H.
  Qed.

  Lemma pre_positions : forall n anc,
    flat_map (fun p => if existsb (skips skip_calls) (fst p ++ [snd p]) then [] else f (rev (fst p)) (snd p)) (positions anc n)
    = if existsb (skips skip_calls) anc then [] else pre (rev anc) n.
  Proof.
    set (g := fun p => if existsb (skips skip_calls) (fst p ++ [snd p]) then [] else f (rev (fst p)) (snd p)).
    apply (node_all (fun n => forall anc, flat_map g (positions anc n) = if existsb (skips skip_calls) anc then [] else pre (rev anc) n)).
    intros k cs IH anc. cbn [positions flat_map pre].
    assert (C : flat_map g (flat_map (positions (anc ++ [k])) cs)
                = if existsb (skips skip_calls) (anc ++ [k]) then [] else flat_map (pre (k :: rev anc)) cs).
    { clear -IH. induction cs as [|c cs IHc].
      - cbn. destruct (existsb _ _); reflexivity.
      - cbn [flat_map]. rewrite flat_map_app. rewrite IHc by (intros c' I; apply IH; right; exact I).
        rewrite (IH c (or_introl eq_refl)). rewrite rev_app_distr. cbn [rev app].
        destruct (existsb (skips skip_calls) (anc ++ [k])); reflexivity. }
    rewrite C. unfold g at 1. cbn [fst snd]. rewrite existsb_app. cbn [existsb]. rewrite orb_false_r.
    destruct (existsb (skips skip_calls) anc); [reflexivity|]. cbn [orb].
    destruct (skips skip_calls k); reflexivity.
  Qed.
End Gen.

Lemma gen_pre : forall n r, gen file errs skip_calls r n = pre mutant (own file errs) r n.
Proof. reflexivity. Qed.
Lemma gex_pre : forall n r, gex skip_calls r n = pre (list mod_ns) own_ext r n.
Proof. reflexivity. Qed.

Lemma walk_offered : forall root ms ext, walk_syntax file errs skip_calls root = Some (ms, ext) ->
  forall m, In m ms <-> offered file errs skip_calls root m.
Proof.
  intros root ms ext H m. rewrite walk_run in H. injection H as <- <-. rewrite gen_pre, pre_in. unfold offered.
  split; intros [anc [k [cs [O [N1 H]]]]]; exists anc, k, cs; (split; [exact O|]).
  - rewrite app_nil_r in H. apply own_iff in H. destruct H as [Y [F E]]. split; [apply not_skipped; exact N1|]. auto.
  - split; [apply not_skipped; exact N1|]. rewrite app_nil_r. apply own_iff. exact H.
Qed.

(** What one position contributes. *)
Lemma walk_positions : forall root ms ext, walk_syntax file errs skip_calls root = Some (ms, ext) ->
  exists l, ms = concat l /\ Forall2 (fun (p : list kind * kind) mm =>
    ((exists k, In k (fst p ++ [snd p]) /\ skipped skip_calls k) -> mm = [])
    /\ ((forall k, In k (fst p ++ [snd p]) -> ~ skipped skip_calls k) ->
        forall m, In m mm <-> (yields errs (snd p) (mu_span m) (mu_replacement m) (mu_genre m)
                               /\ in_fn (fst p ++ [snd p]) (mu_fn m) /\ mu_file m = file)))
    (positions [] root) l.
Proof.
  intros root ms ext H. rewrite walk_run in H. injection H as <- <-. rewrite gen_pre.
  pose proof (pre_positions mutant (own file errs) root []) as P. cbn [existsb rev] in P.
  set (g := fun p : list kind * kind => if existsb (skips skip_calls) (fst p ++ [snd p]) then [] else own file errs (rev (fst p)) (snd p)) in *.
  exists (map g (positions [] root)). split.
  - rewrite <- P. rewrite flat_map_concat_map. reflexivity.
  - generalize (positions [] root). intro l. induction l as [|p l IH]; [constructor|]. cbn [map]. constructor; [|exact IH]. split.
    + intros [k [I S]]. unfold g. replace (existsb (skips skip_calls) (fst p ++ [snd p])) with true; [reflexivity|].
      symmetry. apply existsb_exists. exists k. split; [exact I|apply skips_iff; exact S].
    + intros N1 m. unfold g. replace (existsb (skips skip_calls) (fst p ++ [snd p])) with false.
      * apply own_iff.
      * symmetry. destruct (existsb (skips skip_calls) (fst p ++ [snd p])) eqn:E; [|reflexivity].
        apply existsb_exists in E. destruct E as [k [I S]]. apply skips_iff in S. exfalso. apply (N1 k I S).
Qed.

Lemma modules_app : forall a la b lb, modules a la -> modules b lb -> modules (a ++ b) (la ++ lb).
Proof. intros a la b lb H. induction H; intro Hb; cbn [app]; [exact Hb|apply mo_mod; auto|apply mo_other; auto]. Qed.

Lemma modules_entries : forall l, (forall k, In k l -> skips skip_calls k = false) -> modules l (flat_map mod_entry l).
Proof.
  induction l as [|k l IH]; intro N1; [constructor|]. cbn [flat_map].
  assert (H : modules l (flat_map mod_entry l)) by (apply IH; intros q I; apply N1; right; exact I).
  destruct k; try (apply mo_other; [intros; discriminate|exact H]).
  cbn [mod_entry app]. apply mo_mod; [|exact H]. specialize (N1 _ (or_introl eq_refl)). cbn [skips] in N1.
  apply orb_false_iff in N1. destruct N1 as [_ N1]. destruct (path_attr_total attrs) as [o P].
  rewrite (find_path_iff _ _ P) in *. destruct o as [s|]; [|exact P]. destruct (starts_with [SLASH] s); [discriminate|exact P].
Qed.

Lemma modules_fun : forall l a b, modules l a -> modules l b -> a = b.
Proof.
  intros l a b H. revert b. induction H as [|at_ i sp inl_ path ks l P H IH|k ks l D H IH]; intros b H'.
  - inversion H'. reflexivity.
  - inversion H' as [|at' i' sp' inl' path' ks' l' P' H''|k' ks' l' D' H'']; subst.
    + rewrite (path_attr_fun _ _ _ P P'). f_equal. auto.
    + exfalso. eapply D'. reflexivity.
  - inversion H' as [|at' i' sp' inl' path' ks' l' P' H''|k' ks' l' D' H'']; subst.
    + exfalso. eapply D. reflexivity.
    + auto.
Qed.

Lemma walk_declared : forall root ms ext, walk_syntax file errs skip_calls root = Some (ms, ext) ->
  forall chain, In chain ext <-> declared skip_calls root chain.
Proof.
  intros root ms ext H chain. rewrite walk_run in H. injection H as <- <-. rewrite gex_pre, pre_in. unfold declared. split.
  - intros [anc [k [cs [O [N1 H]]]]]. rewrite app_nil_r in H. destruct k; try contradiction. cbn [own_ext] in H.
    destruct inline; [contradiction|]. destruct H as [<-|[]].
    exists anc, attrs, ident, sp, cs. split; [exact O|]. split; [apply not_skipped; exact N1|].
    rewrite flat_map_rev1 by apply mod_entry_one. cbn [rev]. rewrite rev_involutive. apply modules_entries. exact N1.
  - intros [anc [a [i [sp [cs [O [N1 M]]]]]]]. exists anc, (KMod a i sp false), cs. split; [exact O|].
    assert (N2 := proj2 (not_skipped _) N1). split; [exact N2|]. rewrite app_nil_r.
    cbn [own_ext]. left. rewrite flat_map_rev1 by apply mod_entry_one. cbn [rev]. rewrite rev_involutive.
    eapply modules_fun; [apply modules_entries; exact N2|exact M].
Qed.
End Yield.

Lemma skipped_visit : forall file errs skip_calls k cs s, skipped skip_calls k -> visit file errs skip_calls (Node k cs) s = Some s.
Proof.
  intros file errs skip_calls k cs s S. apply skips_iff in S. rewrite visit_unfold.
  destruct k as [a|f|a u sty tr|a u i|a i sp inl_|a p|a nm|a o sp|a o sp|a arms|a]; cbn [skips] in S; try (rewrite S; reflexivity); try discriminate.
  - destruct (attrs_excluded a); [reflexivity|]. cbn [orb] in S. rewrite S. reflexivity.
  - destruct (attrs_excluded a); [reflexivity|]. cbn [orb] in S. destruct (find_path_attribute a); [reflexivity|discriminate].
  - destruct (attrs_excluded a); [reflexivity|]. cbn [orb] in S. rewrite S. reflexivity.
  - destruct (attrs_excluded a); [reflexivity|]. cbn [orb] in S. rewrite S. reflexivity.
Qed.

Lemma op_text_inj : forall o o', op_text o = op_text o' -> o = o'.
Proof. intros o o'. destruct o; destruct o'; vm_compute; intro H; try reflexivity; discriminate H. Qed.

Lemma alts_good : forall o o', In o' (alts o) -> o' <> o /\ kind_of o' = kind_of o.
Proof.
  intros o o' I. destruct o; cbn [alts In] in I; repeat (destruct I as [<-|I]; [split; [discriminate|reflexivity]|]); contradiction.
Qed.
Lemma alts_NoDup : forall o, NoDup (alts o).
Proof. intro o. destruct o; cbn [alts]; repeat constructor; cbn [In]; intuition discriminate. Qed.

Lemma NoDup_map_inj : forall (A B : Type) (f : A -> B) l, (forall x y, f x = f y -> x = y) -> NoDup l -> NoDup (map f l).
Proof.
  intros A B f l I H. induction H as [|x l N1 H IH]; cbn [map]; constructor; [|exact IH].
  intro J. apply in_map_iff in J. destruct J as [y [E J]]. apply I in E. subst. contradiction.
Qed.

Lemma binary_swap : forall o t, In t (map pretty (binary_replacements o)) <-> exists o', swap o o' /\ t = op_text o'.
Proof.
  intros o t. rewrite binary_alts, in_map_iff. split.
  - intros [o' [<- I]]. exists o'. split; [apply alts_swap; exact I|reflexivity].
  - intros [o' [S ->]]. exists o'. split; [reflexivity|apply swap_alts; exact S].
Qed.
Lemma compound : forall o a, assign_of o = Some a ->
  map pretty (binary_replacements a) = map (fun t => t ++ tx "=") (map pretty (binary_replacements o)).
Proof. intros o a A. destruct o; try discriminate A; injection A as <-; vm_compute; reflexivity. Qed.

Lemma cfg_exact : forall lead p, attr_is_cfg_test (MList (mkPath lead [tx "cfg"]) (cfg_toks p)) = true <-> p = CId (tx "test").
Proof.
  intros lead p. split.
  - intro H. unfold attr_is_cfg_test in H. apply andb_prop in H. destruct H as [_ H].
    assert (K : forall w t ts, (exists d g, t = Group d g) \/ t = Punct EQ -> nested_metas (Word w :: t :: ts) = None).
    { intros w t ts T. unfold nested_metas. cbn [length nested_loop]. unfold parse_meta_path. cbn [parse_segs].
      destruct (ident_word w); [|reflexivity]. destruct T as [[d [g ->]]| ->]; [reflexivity|].
      destruct ts as [|[c|x|d g] ts]; try reflexivity. }
    destruct p as [w|k v|l|l|q]; cbn [cfg_toks] in H.
    + unfold nested_metas in H. cbn [length nested_loop] in H. unfold parse_meta_path in H. cbn [parse_segs] in H.
      destruct (ident_word w); [|discriminate]. cbn [existsb] in H. rewrite orb_false_r in H.
      apply is_ident_iff in H. injection H as ->. reflexivity.
    + rewrite K in H by auto. discriminate.
    + rewrite K in H by eauto. discriminate.
    + rewrite K in H by eauto. discriminate.
    + rewrite K in H by eauto. discriminate.
  - intros ->. unfold attr_is_cfg_test. apply andb_true_intro. split; [apply path_is_iff; reflexivity|reflexivity].
Qed.

(** Identifiers. *)
Lemma begins_iff : forall c, id_start c = true <-> begins_word c.
Proof.
  intro c. unfold id_start, begins_word. rewrite !orb_true_iff, !andb_true_iff, !N.leb_le, N.eqb_eq. split.
  - intros [[[H|H]|H]|H]; [left|left|left|right; exact H].
    + assert (E : exists n, c = N.of_nat n /\ 65 <= n <= 90) by (exists (N.to_nat c); lia). destruct E as [n [-> E]].
      do 91 (destruct n as [|n]; [try lia; vm_compute; tauto|]). lia.
    + assert (E : exists n, c = N.of_nat n /\ 97 <= n <= 122) by (exists (N.to_nat c); lia). destruct E as [n [-> E]].
      do 123 (destruct n as [|n]; [try lia; vm_compute; tauto|]). lia.
    + subst c. vm_compute. tauto.
  - intros [H|H]; [|right; exact H]. left. vm_compute in H. unfold USCORE.
    repeat (destruct H as [<-|H]; [lia|]). destruct H.
Qed.
Lemma digit_iff : forall c, (N.leb 48 c && N.leb c 57)%bool = true <-> In c digits.
Proof.
  intro c. rewrite andb_true_iff, !N.leb_le. split.
  - intro H. assert (E : exists n, c = N.of_nat n /\ 48 <= n <= 57) by (exists (N.to_nat c); lia). destruct E as [n [-> E]].
    do 58 (destruct n as [|n]; [try lia; vm_compute; tauto|]). lia.
  - intro H. vm_compute in H. repeat (destruct H as [<-|H]; [lia|]). destruct H.
Qed.
Lemma plain_iff : forall w, match w with [] => false | c :: w' => id_start c && forallb id_char w' end = true <-> plain_identifier w.
Proof.
  intros [|c w]; unfold plain_identifier; [split; [discriminate|intros (c & r & H & _); discriminate]|].
  rewrite andb_true_iff, forallb_forall, begins_iff. split.
  - intros [H1 H2]. exists c, w. split; [reflexivity|]. split; [exact H1|]. intros d I. specialize (H2 d I).
    unfold id_char in H2. apply orb_true_iff in H2. rewrite begins_iff, digit_iff in H2. exact H2.
  - intros (c' & r & E & H1 & H2). injection E as <- <-. split; [exact H1|]. intros d I. unfold id_char. apply orb_true_iff.
    rewrite begins_iff, digit_iff. auto.
Qed.
Lemma identifier_iff : forall w, ident_word w = true <-> identifier w.
Proof.
  intro w. unfold ident_word. cbv zeta. rewrite plain_iff. unfold identifier. destruct (starts_with (tx "r#") w) eqn:S.
  - apply starts_with_iff in S. destruct S as [r ->]. split.
    + intro H. right. exists r. split; [reflexivity|exact H].
    + intros [H|(w' & E & H)].
      * exfalso. destruct H as (c & r' & E & _ & A). change (tx "r#" ++ r) with (114%N :: 35%N :: r) in E. injection E as <- <-. specialize (A 35%N (or_introl eq_refl)).
        destruct A as [[A|A]|A]; [vm_compute in A; intuition discriminate|lia|vm_compute in A; intuition discriminate].
      * apply app_inv_head in E. subst w'. exact H.
  - split; [auto|]. intros [H|(w' & -> & H)]; [exact H|]. assert (T : starts_with (tx "r#") (tx "r#" ++ w') = true) by (apply starts_with_iff; eauto). congruence.
Qed.
