(* The parsers that the macro generates read values of their definitions (SpecConforms.v). *)
From Coq Require Import ZifyBool ZifyNat ZifyN Permutation.
From Coq Require Import String.
From Coq Require Import List.
From Verif Require Import AstSheet Values SpecSheet SpecLex SpecTrace SpecParser SpecSyntax SpecTraits SpecRules SpecFeatures SpecCursor SpecToken LexBase TokenProofs KindProofs LexFacts LexTrace CursorProofs CursorLex
  ParserProofs ParserProofs2 ParserProofs3 ParserProofs4 CompareProofs SyntaxProofs SyntaxTotal TraitsTotal RulesTotal FeatureProofs FaithProofs FaithTraits FaithRules Goes Goes2 Goes3 SheetTotal ValuesTotal Tells Tells2 Tells3 ValuesTold SpecConforms ValuesConform.
Open Scope N_scope.
Open Scope list_scope.
Notation length := List.length.

(* where the generated parser tests the range of a type ([checked]: the parser is made of type_steps) *)
Section Enforced.
Variable enf : text -> bool.
Definition enforced_type (checked : bool) (t : dtype) : bool :=
  match t with DCustom w => enf w | _ => match type_checks t with RgNone => true | RgFrom _ | RgTo _ => checked | _ => false end end.
Definition enforced_def (d : def) : bool :=
  match d with
  | DComb l SOptions => forallb (enforced_type false) (def_types d)
  | DComb l SOrdered => forallb (fun d => match d with DOptional _ => forallb (enforced_type false) (def_types d) | _ => forallb (enforced_type true) (def_types d) end) l
  | DMult d' (MuRange (RgRange _ _)) => forallb (enforced_type false) (def_types d')
  | _ => forallb (enforced_type true) (def_types d)
  end.
End Enforced.
(* keywords are written in lower case, and counts are in order *)
Definition plain_name (d : def) : bool := match d with DIdent w | DFunction w _ => text_eqb (kebab w) w | _ => true end.
Definition plain_def (d : def) : bool := match d with DComb l _ => forallb plain_name l | DMult _ (MuRange (RgRange a b)) => a <=? b | _ => true end.

Section Generated.
Variable src : text.
Variable f : feature.
Variable strict : bool.
Notation tells := (tells src f).
Notation onto := (onto src f).
Notation tv := (tv src f).
Notation conforms := (conforms src strict).
Notation rd := (rd src f strict).
Variable env : text -> option ty.
Variable enf : text -> bool.
Hypothesis env_conforms : forall w x, env w = Some x -> (strict = true -> enf w = true) -> rd (DType (DCustom w)) (ty_parse x).
Lemma pairs_length : forall A B (R : A -> B -> Prop) l r, Forall2 R l r -> length l = length r.
Proof. intros A B R l r F. induction F as [| a b l r H F IH]; [reflexivity |]. cbn [List.length]. now rewrite IH. Qed.
(* a built-in type: one token of it, or a value of its description *)
Definition leaf_token (t : dtype) : bool := match t with DColor | DImage | DImage1D | DCustom _ => false | _ => true end.
Lemma leaf_tokens : forall t, leaf_token t = true -> tells (ty_parse (leaf_ty t)) (fun l u => exists c, l = [c] /\ bare u = [c] /\ token_of src t c).
Proof.
  assert (S : forall k, solo (mod_ := false) src f k -> solid k) by (intros k X; exact (solo_solid src f k X)).
  intros t L. destruct t; try discriminate; cbn [leaf_ty ty_parse token_ty LENGTH LENGTH_PERCENTAGE FLOAT ANGLE TIME RESOLUTION INT].
  - apply c_one; [exact (S _ (solo_length src f)) | apply means_length | apply token_lasts].
  - apply c_one; [exact (S _ (solo_lp src f)) | apply means_lp | apply token_lasts].
  - apply c_one; [exact (S _ (solo_angle src f)) | apply means_angle | apply token_lasts].
  - apply c_one; [exact (S _ (solo_time src f)) | apply means_time | apply token_lasts].
  - apply c_one; [apply solid_set; discriminate | apply means_resolution | apply token_lasts].
  - apply c_one; [exact (S _ (solo_int src f)) | apply means_int | apply token_lasts].
  - apply c_one; [exact (S _ (solo_float src f)) | apply means_float | apply token_lasts].
  - apply (c_one src f _ (token_of src (DPercentage r))); [exact (S _ (solo_float src f)) | exact (means_float src RgNone) | apply token_lasts].
  - apply c_one; [apply solid_kind; discriminate | exact (means_kind src K_Ident) | apply (token_lasts src DString)].
  - apply c_one; [exact solid_dashed | apply means_dashed | apply (token_lasts src DDashedIdent)].
  - apply c_one; [apply solid_kind; discriminate | exact (means_kind src K_Ident) | apply (token_lasts src DCustomIdent)].
Qed.
Lemma others_unranged : forall t, leaf_token t = false -> type_checks t = RgNone.
Proof. intros t L. destruct t; try discriminate; reflexivity. Qed.
Lemma leaf_others : forall t, leaf_token t = false -> (forall w, t <> DCustom w) -> rd (DType t) (ty_parse (leaf_ty t)).
Proof. intros t L N. destruct t; try discriminate; cbn [leaf_ty]; [apply rd_color | apply rd_image | apply rd_image1d | elim (N name); reflexivity]. Qed.
Lemma named_is_leaf : forall t x, type_named leaf_ty env t = Some x -> (exists w, t = DCustom w /\ env w = Some x) \/ ((forall w, t <> DCustom w) /\ x = leaf_ty t).
Proof. intros t x E. destruct t; cbn [type_named] in E; try (right; split; [discriminate | apply some_inj in E; now symmetry]). left. eauto. Qed.
(* its Parse alone *)
Lemma named_conforms : forall t x, type_named leaf_ty env t = Some x -> (strict = true -> enforced_type enf false t = true) -> rd (DType t) (ty_parse x).
Proof.
  intros t x E F. destruct (named_is_leaf t x E) as [(w & -> & Ex) | (N & ->)]; [exact (env_conforms w x Ex F) |]. destruct (leaf_token t) eqn:L; [| exact (leaf_others t L N)].
  eapply tells_imp; [exact (leaf_tokens t L) |]. intros l u (c & _ & -> & T). apply of_token; [exact T |]. intro S. specialize (F S). unfold enforced_type in F. destruct t; try (elim (N name); reflexivity); destruct (type_checks _); try discriminate; exact Logic.I.
Qed.
(* and the test of the range *)
Lemma steps_conform : forall t m, type_steps leaf_ty env t = Some m -> (strict = true -> enforced_type enf true t = true) -> rd (DType t) m.
Proof.
  intros t m E F. unfold type_steps in E. destruct (range_compiles _) eqn:Rc; [| discriminate]. destruct (type_named leaf_ty env t) as [x |] eqn:Ex; [| discriminate]. apply some_inj in E. subst m.
  destruct (leaf_token t) eqn:L.
  - assert (N : (forall w, t <> DCustom w) /\ x = leaf_ty t) by (destruct (named_is_leaf t x Ex) as [(w & -> & _) | X]; [discriminate | exact X]). destruct N as (N & ->).
    intros p cs O. eapply tv_bind; [exact O | exact (leaf_tokens t L) |]. intros l u q r _ Oq (c & -> & E & T).
    assert (G : (strict = true -> in_bounds (type_checks t) c) -> tv r (fun _ v => conforms (DType t) (bare (u ++ v))) (ret [c] q)) by (intro B; apply tv_ok; [exact Oq |]; rewrite app_nil_r, E; apply of_token; [exact T | exact B]).
    assert (F' : strict = true -> match type_checks t with RgFixed _ => False | _ => True end) by (intro S; specialize (F S); destruct t; try (elim (N name); reflexivity); cbn [enforced_type] in F; destruct (type_checks _); try discriminate; exact Logic.I).
    unfold range_check. cbn [value_of]. destruct (type_checks t); try discriminate.
    + apply G. intros _. exact Logic.I.
    + destruct (f32_lt (tvalue (ctok c)) (f32_of_nat a)) eqn:X; [apply tells_fail; exact Oq |]. apply G. intros _. exact X.
    + destruct (f32_lt (f32_of_nat b) (tvalue (ctok c))) eqn:X; [apply tells_fail; exact Oq |]. apply G. intros _. exact X.
    + apply G. intro S. elim (F' S).
  - rewrite (others_unranged t L). assert (X : rd (DType t) (ty_parse x)).
    { apply (named_conforms t x Ex). intro S. specialize (F S). destruct t; try discriminate; exact F. }
    intros p cs O. eapply tv_bind; [exact O | exact X |]. intros l u q r _ Oq K. cbv beta in K. apply tv_ok; [exact Oq |]. rewrite app_nil_r. exact K.
Qed.
Lemma all_types : forall b d t, forallb (enforced_type enf b) (def_types d) = true -> In t (def_types d) -> enforced_type enf b t = true.
Proof. intros b d t E I. rewrite forallb_forall in E. exact (E t I). Qed.
Lemma alternative_conforms : forall d m, alternative_steps leaf_ty env d = Some m -> plain_name d = true -> (strict = true -> forallb (enforced_type enf true) (def_types d) = true) -> rd d m.
Proof.
  intros d m E W F. assert (G : forall t q, In t (def_types d) -> type_steps leaf_ty env t = Some q -> rd (DType t) q) by (intros t q I Eq; apply (steps_conform t q Eq); intro S; exact (all_types true d t (F S) I)).
  destruct d as [w | w d | t | d | l s | d s | d x | ch]; cbn [alternative_steps def_types] in *; try discriminate.
  - cbn [plain_name] in W. apply text_eqb_spec in W. destruct d as [| | t | | | | d x |]; try discriminate.
    + destruct (type_steps leaf_ty env t) as [x |] eqn:Ex; [| discriminate]. apply some_inj in E. subst m. rewrite W. apply rd_function_of. apply (G t x); [left; reflexivity | exact Ex].
    + destruct d as [| | t | | | | |]; try discriminate. destruct x as [| | [] |]; try discriminate. destruct (type_steps leaf_ty env t) as [x |] eqn:Ex; [| discriminate]. apply some_inj in E. subst m. rewrite W. apply rd_function_of. apply rd_comma. apply (G t x); [left; reflexivity | exact Ex].
  - apply (G t m); [left; reflexivity | exact E].
  - destruct d as [| | t | | | | |]; try discriminate. cbn [def_types] in F. destruct x as [| | [] | []]; try discriminate; destruct (type_steps leaf_ty env t) as [x |] eqn:Ex; try discriminate; apply some_inj in E; subst m.
    + apply rd_comma. apply (G t x); [left; reflexivity | exact Ex].
    + assert (X : forall n, Forall2 rd (repeat (DType t) n) (repeat x n)) by (intro n; induction n as [| n IH]; cbn [repeat]; [constructor | constructor; [apply (G t x); [left; reflexivity | exact Ex] | exact IH]]).
      eapply tells_imp; [exact (c_order src f strict _ _ (X (N.to_nat a))) |]. intros l u (parts & Fp & ->). apply of_many.
      * apply Forall_forall. intros y Iy. clear - Fp Iy. remember (repeat (DType t) (N.to_nat a)) as l0 eqn:E0. assert (R : forall d, In d l0 -> d = DType t) by (intros d I; subst l0; exact (repeat_spec _ _ _ I)). clear E0. induction Fp as [| d p0 l0 ps H Fp IH]; [destruct Iy |]. destruct Iy as [<- | Iy]; [rewrite (R d (or_introl eq_refl)) in H; exact H | apply IH; [exact Iy |]; intros e I; apply R; right; exact I].
      * cbn [count_fits]. rewrite <- (pairs_length _ _ _ _ _ Fp). apply repeat_length.
Qed.
Lemma keyword_in : forall l w, forallb plain_name l = true -> In w (keywords_of l) -> In (DIdent w) l.
Proof.
  intros l w Pl I. unfold keywords_of in I. apply in_flat_map in I. destruct I as (d & Id & Iw). destruct d as [x | | | | | | |]; [destruct Iw as [<- | []] | destruct Iw ..]. rewrite forallb_forall in Pl. specialize (Pl _ Id). cbn [plain_name] in Pl. apply text_eqb_spec in Pl. rewrite Pl. exact Id.
Qed.

Lemma one_of_conforms : forall D l ks ms, (forall d q, In d l -> alternative_steps leaf_ty env d = Some q -> rd D q) -> all_some (map (def_peek leaf_ty env) l) = Some ks -> all_some (map (alternative_steps leaf_ty env) l) = Some ms -> rd D (one_of (List.combine ks ms)).
Proof.
  intros D l. induction l as [| d l IH]; intros ks ms H Ek Em.
  - apply some_inj in Ek, Em. subst ks ms. cbn [List.combine one_of]. apply t_unexpected_any.
  - cbn [map] in Ek, Em. destruct (all_some_cons _ _ _ _ Ek) as (k & ks' & Ek1 & Ek2 & ->). destruct (all_some_cons _ _ _ _ Em) as (q & ms' & Em1 & Em2 & ->). cbn [List.combine one_of]. apply rd_or; [apply (H d q); [left; reflexivity | exact Em1] |]. apply (IH ks' ms'); [| exact Ek2 | exact Em2]. intros e q' I. apply H. right. exact I.
Qed.
Lemma alternatives_conform : forall l m, alternatives leaf_ty env l = Some m -> forallb plain_name l = true -> (strict = true -> forallb (enforced_type enf true) (flat_map def_types l) = true) -> rd (DComb l SAlternatives) m.
Proof.
  intros l m E Pl F. unfold alternatives in E. set (others := filter (fun d => negb (is_keyword d)) l) in *.
  assert (Ho : forall d q, In d others -> alternative_steps leaf_ty env d = Some q -> rd (DComb l SAlternatives) q).
  { intros d q I Eq. assert (Id : In d l) by (apply filter_In in I; apply I). apply (rd_alt src f strict d l q Id). apply (alternative_conforms d q Eq); [rewrite forallb_forall in Pl; exact (Pl d Id) |]. intro S. specialize (F S). rewrite forallb_forall in F. apply forallb_forall. intros t It. apply F. apply in_flat_map. eauto. }
  destruct (all_some (map (def_peek leaf_ty env) others)) as [ks |] eqn:Ek; [| discriminate]. destruct (all_some (map (alternative_steps leaf_ty env) others)) as [ms |] eqn:Em; [| discriminate].
  set (rest := if takes_custom l then one (peek_kind K_Ident) else match ms with [] => unexpected_ident | [m] => m | _ => one_of (List.combine ks ms) end) in *.
  assert (R : rd (DComb l SAlternatives) rest).
  { subst rest. destruct (takes_custom l) eqn:Tc.
    - unfold takes_custom in Tc. apply existsb_exists in Tc. destruct Tc as (d & Id & Ed). assert (Ed' : d = DType DCustomIdent) by (destruct d as [| | [] | | | | |]; try discriminate; reflexivity). subst d. apply (rd_alt src f strict (DType DCustomIdent) l _ Id). apply rd_token; [apply solid_kind; discriminate | exact (means_kind src K_Ident) | reflexivity].
    - destruct ms as [| m1 [| m2 ms]]; [apply t_unexpected_ident | | exact (one_of_conforms _ others ks _ Ho Ek Em)].
      destruct others as [| d [| d2 r]] eqn:Eo; [discriminate | |].
      + cbn [map all_some] in Em. destruct (alternative_steps leaf_ty env d) as [m1' |] eqn:Ed; [| discriminate]. injection Em as ->. apply (Ho d m1); [left; reflexivity | exact Ed].
      + cbn [map all_some] in Em. destruct (alternative_steps leaf_ty env d); [| discriminate]. destruct (alternative_steps leaf_ty env d2); [| discriminate]. clear - Em. destruct (all_some _); cbn [option_map] in Em; discriminate Em. }
  destruct (existsb is_keyword l); [| apply some_inj in E; subst m; exact R]. destruct (keywords_of l) as [| w ws] eqn:Kw; [discriminate |]. apply some_inj in E. subst m.
  intros p cs O. eapply tv_bind; [exact O | apply tells_if_peek, c_set; discriminate |]. intros [x |] u q r _ Oq K; cbv beta iota in K.
  - apply tv_ok; [exact Oq |]. rewrite app_nil_r. destruct K as (Eu & v & I & W). rewrite Eu. apply (of_one _ _ l (DIdent v)); [| apply of_word; exact W]. apply (keyword_in l v Pl). rewrite Kw. unfold words in I. apply in_map_iff in I. destruct I as (y & Ey & I). injection Ey as <- _. exact I.
  - subst u. cbn [app]. exact (R q r Oq).
Qed.
Definition field_enforced (d : def) : bool := match d with DOptional _ => forallb (enforced_type enf false) (def_types d) | _ => forallb (enforced_type enf true) (def_types d) end.
Lemma field_conforms : forall d m, field_steps leaf_ty env d = Some m -> (strict = true -> field_enforced d = true) -> rd d m.
Proof.
  intros d m E F. destruct d as [w | w d | t | d | l s | d s | d x | ch]; cbn [field_steps field_enforced] in *; try discriminate.
  - apply (steps_conform t m E). intro S. exact (all_types true (DType t) t (F S) (or_introl eq_refl)).
  - destruct d as [| | t | | | | |]; try discriminate. destruct (type_named leaf_ty env t) as [x |] eqn:Ex; [| discriminate]. apply some_inj in E. subst m. unfold if_ty. apply rd_maybe. apply (named_conforms t x Ex). intro S. exact (all_types false (DOptional (DType t)) t (F S) (or_introl eq_refl)).
Qed.
Lemma ordered_parts : forall l t, ordered_ty leaf_ty env l = Some t -> (strict = true -> forallb field_enforced l = true) -> tells (ty_parse t) (fun _ u => exists parts, Forall2 conforms l parts /\ bare u = concat parts).
Proof.
  intros l t E F. unfold ordered_ty in E. destruct l as [| d l]; [discriminate |]. destruct (all_some (map (field_steps leaf_ty env) (d :: l))) as [ms |] eqn:Em; [| discriminate]. destruct (def_peek leaf_ty env d) as [k |]; [| discriminate]. apply some_inj in E. subst t. cbn [ty_parse].
  apply c_order. generalize dependent ms. generalize dependent (d :: l). clear d l k. intro l. induction l as [| d l IH]; intros F ms Em; [apply some_inj in Em; subst ms; constructor |]. cbn [map] in Em. destruct (all_some_cons _ _ _ _ Em) as (q & ms' & Eq & Em' & ->). cbn [forallb] in F. constructor.
  - apply (field_conforms d q Eq). intro S. specialize (F S). apply andb_prop in F. apply F.
  - apply IH; [| exact Em']. intro S. specialize (F S). apply andb_prop in F. apply F.
Qed.
Lemma ordered_conforms : forall l t, ordered_ty leaf_ty env l = Some t -> (strict = true -> forallb field_enforced l = true) -> rd (DComb l SOrdered) (ty_parse t).
Proof. intros l t E F. eapply tells_imp; [exact (ordered_parts l t E F) |]. intros a u (parts & Fp & ->). apply of_sequence. exact Fp. Qed.
(* the fields of [a || b]: those that have been read, those that have not *)
Definition field : Type := ty * option (list cursor).
Fixpoint empties (ds : list def) (l : list field) : list def := match ds, l with d :: ds, (_, None) :: l => d :: empties ds l | _ :: ds, _ :: l => empties ds l | _, _ => [] end.
Fixpoint filled (ds : list def) (l : list field) : list def := match ds, l with d :: ds, (_, Some _) :: l => d :: filled ds l | _ :: ds, _ :: l => filled ds l | _, _ => [] end.
Definition fields_of (ds : list def) (l : list field) : Prop := Forall2 (fun d x => rd d (ty_parse (fst x))) ds l.
Lemma fill_conforms : forall ds l, fields_of ds l -> tells (fill_field l) (fun o u => match o with Some l' => fields_of ds l' /\ exists d, Permutation (empties ds l) (d :: empties ds l') /\ filled ds l' <> [] /\ conforms d (bare u) | None => u = [] end).
Proof.
  intros ds l F. induction F as [| d (t & o) ds l G F IH]; cbn [fill_field]; [intros p cs O; apply tv_ok; [exact O | reflexivity] |]. cbn [fst] in G.
  assert (N : forall x, tells (pmap (option_map (cons (t, x))) (fill_field l)) (fun o u => match o with Some l' => fields_of (d :: ds) l' /\ exists e, Permutation (empties (d :: ds) ((t, x) :: l)) (e :: empties (d :: ds) l') /\ filled (d :: ds) l' <> [] /\ conforms e (bare u) | None => u = [] end)).
  { intros x p cs O. apply tv_pmap. eapply tv_use; [exact O | exact IH |]. intros [l' |] u K; cbn [option_map]; [| exact K]. destruct K as (F' & e & Pm & Nf & C). split; [constructor; [exact G | exact F'] |]. exists e. destruct x as [y |]; cbn [empties filled]; (split; [| split; [first [exact Nf | discriminate] | exact C]]); [exact Pm |]. eapply Permutation_trans; [apply perm_skip; exact Pm | apply perm_swap]. }
  destruct o as [y |]; [exact (N (Some y)) |]. intros p cs O. apply tv_or_peek; intros _; [| exact (N None p cs O)]. apply tv_pmap. eapply tv_use; [exact O | exact G |]. intros a u K. cbv beta in K. split; [constructor; assumption |]. exists d. cbn [empties filled]. split; [apply Permutation_refl |]. split; [discriminate | exact K].
Qed.
Lemma options_conform : forall n ds l, fields_of ds l -> tells (options_loop n l) (fun _ u => exists chosen others parts, Permutation (empties ds l) (chosen ++ others) /\ Forall2 conforms chosen parts /\ bare u = concat parts /\ (filled ds l = [] -> chosen <> [])).
Proof.
  intro n. induction n as [| n IH]; intros ds l F p cs O; [apply tv_none |]. cbn [options_loop]. eapply tv_bind; [exact O | exact (fill_conforms ds l F) |]. intros o u q r _ Oq K. destruct o as [l' |]; cbv beta iota in K.
  - destruct K as (F' & d & Pm & _ & C). eapply tv_use; [exact Oq | exact (IH ds l' F') |]. intros a v (chosen & others & parts & P' & Fp & E & _). exists (d :: chosen), others, (bare u :: parts). split; [eapply Permutation_trans; [exact Pm | cbn [app]; apply perm_skip; exact P'] |]. split; [constructor; assumption |]. split; [rewrite bare_app, E; reflexivity | discriminate].
  - subst u. match goal with |- context [if ?b then _ else _] => destruct b eqn:Al end; [apply t_unexpected_any; exact Oq |]. apply tv_ok; [exact Oq |]. exists [], (empties ds l), []. split; [apply Permutation_refl |]. split; [constructor |]. split; [reflexivity |]. intros Ef _. apply Bool.not_true_iff_false in Al. apply Al. clear - F Ef. induction F as [| d (t & o) ds l G F IH]; [reflexivity |]. cbn [filled] in Ef. cbn [forallb snd]. destruct o; [discriminate |]. exact (IH Ef).
Qed.
Lemma any_order_conforms : forall ds ts, Forall2 (fun d t => rd d (ty_parse t)) ds ts -> rd (DComb ds SOptions) (in_any_order ts).
Proof.
  intros ds ts F. unfold in_any_order. eapply tells_imp; [apply (options_conform _ ds) |].
  - induction F as [| d t ds ts H F IH]; cbn [map]; constructor; [exact H | exact IH].
  - intros a u (chosen & others & parts & Pm & Fp & -> & Ne). assert (E : empties ds (map (fun t : ty => (t, @None (list cursor))) ts) = ds /\ filled ds (map (fun t : ty => (t, @None (list cursor))) ts) = []).
    { clear - F. induction F as [| d t ds ts H F IH]; [split; reflexivity |]. cbn [map empties filled]. destruct IH as (-> & ->). split; reflexivity. }
    destruct E as (E1 & E2). rewrite E1 in Pm. apply (of_some _ _ ds chosen others); [exact Pm | exact (Ne E2) | exact Fp].
Qed.
(* the values of [<t>{a,b}]: those that are there *)
Lemma copies_many : forall t l parts, Forall2 conforms l parts -> (forall d, In d l -> d = DType t \/ d = DOptional (DType t)) ->
  exists some_, Forall (conforms (DType t)) some_ /\ concat parts = concat some_ /\ (length (filter (fun d => match d with DType _ => true | _ => false end) l) <= length some_ <= length l)%nat.
Proof.
  intros t l parts F. induction F as [| d x l parts H F IH]; intro L; [exists []; split; [constructor |]; split; [reflexivity | cbn; lia] |]. destruct IH as (sm & Fs & Es & Ls); [intros e I; apply L; right; exact I |]. destruct (L d (or_introl eq_refl)) as [-> | ->].
  - exists (x :: sm). split; [constructor; assumption |]. split; [cbn [concat]; now rewrite Es | cbn [filter List.length]; lia].
  - apply maybe_cases in H. destruct H as [-> | H].
    + exists sm. split; [exact Fs |]. split; [exact Es | cbn [filter List.length]; lia].
    + exists (x :: sm). split; [constructor; assumption |]. split; [cbn [concat]; now rewrite Es | cbn [filter List.length]; lia].
Qed.
Lemma copies_filter : forall t n m, length (filter (fun d => match d with DType _ => true | _ => false end) (repeat (DType t) n ++ repeat (DOptional (DType t)) m)) = n.
Proof.
  intros t n m. rewrite filter_app, app_length. assert (A : forall n, filter (fun d => match d with DType _ => true | _ => false end) (repeat (DType t) n) = repeat (DType t) n) by (intro k; induction k as [| k IH]; [reflexivity |]; cbn [repeat filter]; now rewrite IH).
  assert (B : forall n, filter (fun d => match d with DType _ => true | _ => false end) (repeat (DOptional (DType t)) n) = []) by (intro k; induction k as [| k IH]; [reflexivity |]; cbn [repeat filter]; exact IH). rewrite A, B, repeat_length. cbn [List.length]. lia.
Qed.
Lemma generate_conforms : forall d t, generate leaf_ty env d = Some t -> plain_def d = true -> (strict = true -> enforced_def enf d = true) -> rd d (ty_parse t).
Proof.
  intros d t E Pl F. destruct d as [w | w d | t' | d | l s | d s | d x | ch]; cbn [generate] in E; try discriminate.
  - destruct (def_peek leaf_ty env (DType t')); [| discriminate]. destruct (type_steps leaf_ty env t') as [q |] eqn:Em; [| discriminate]. apply some_inj in E. subst t. apply (steps_conform t' q Em). intro S. exact (all_types true (DType t') t' (F S) (or_introl eq_refl)).
  - cbn [plain_def] in Pl. destruct s; try discriminate.
    + apply (ordered_conforms l t E). exact F.
    + match type of E with match ?X with _ => _ end = _ => destruct X as [ts |] eqn:Et; [| discriminate] end. apply some_inj in E. subst t. cbn [ty_parse]. apply any_order_conforms.
      assert (F' : strict = true -> forallb (enforced_type enf false) (flat_map def_types l) = true) by exact F. clear F Pl. generalize dependent ts. induction l as [| d l IH]; intros ts Et; [apply some_inj in Et; subst ts; constructor |]. cbn [map] in Et. destruct (all_some_cons _ _ _ _ Et) as (x & ts' & Ex & Et' & ->). cbn [flat_map] in F'. rewrite forallb_app in F'. constructor; [| apply IH; [intro S; specialize (F' S); apply andb_prop in F'; apply F' | exact Et']].
      destruct d as [| | t' | | | | |]; try discriminate. apply (named_conforms t' x Ex). intro S. specialize (F' S). apply andb_prop in F'. exact (all_types false (DType t') t' (proj1 F') (or_introl eq_refl)).
    + destruct (all_some (map (def_peek leaf_ty env) l)) as [ks |]; [| discriminate]. destruct (alternatives leaf_ty env l) as [q |] eqn:Em; [| discriminate]. apply some_inj in E. subst t. exact (alternatives_conform l q Em Pl F).
  - destruct d as [| | t' | | | | |]; try discriminate. destruct x as [| | [] | []]; try discriminate.
    + destruct (def_peek leaf_ty env (DType t')); [| discriminate]. destruct (type_steps leaf_ty env t') as [q |] eqn:Em; [| discriminate]. apply some_inj in E. subst t. cbn [ty_parse]. apply rd_comma. apply (steps_conform t' q Em). intro S. exact (all_types true (DType t') t' (F S) (or_introl eq_refl)).
    + cbn [plain_def enforced_def] in Pl, F. assert (F' : strict = true -> forallb field_enforced (copies t' a b) = true).
      { intro S. specialize (F S). apply forallb_forall. intros d I. unfold copies in I. apply in_app_or in I. destruct I as [I | I]; apply repeat_spec in I; subst d; cbn [field_enforced def_types] in *; [| exact F]. cbn [forallb] in F |- *. apply andb_prop in F. destruct F as (F & _). rewrite andb_true_r. destruct t'; cbn [enforced_type] in F |- *; try exact F; destruct (type_checks _); try discriminate; reflexivity. }
      eapply tells_imp; [exact (ordered_parts _ t E F') |]. intros l u (parts & Fp & ->). destruct (copies_many t' _ parts Fp) as (sm & Fs & Es & Ls); [intros d I; unfold copies in I; apply in_app_or in I; destruct I as [I | I]; apply repeat_spec in I; auto |]. rewrite Es. apply of_many; [exact Fs |]. unfold copies in Ls. rewrite copies_filter, app_length, !repeat_length in Ls. cbn [count_fits]. lia.
    + eapply tells_imp; [apply (ordered_parts _ t E) |].
      * intro S. specialize (F S). cbn [enforced_def] in F. apply forallb_forall. intros d I. apply repeat_spec in I. subst d. exact F.
      * intros l u (parts & Fp & ->). destruct (copies_many t' _ parts Fp) as (sm & Fs & Es & Ls); [intros d I; apply repeat_spec in I; auto |]. rewrite Es. apply of_many; [exact Fs |]. pose proof (copies_filter t' (N.to_nat a) 0) as X. cbn [repeat] in X. rewrite app_nil_r in X. rewrite X, repeat_length in Ls. cbn [count_fits]. lia.
Qed.
End Generated.
