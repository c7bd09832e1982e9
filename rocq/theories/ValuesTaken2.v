(* Values without functions that are values of a definition are accepted: the types of one token. *)
From Coq Require Import ZifyBool ZifyNat ZifyN Permutation.
From Coq Require Import String.
From Coq Require Import List.
From Verif Require DimProofs.
From Verif Require Import AstSheet Values SpecSheet SpecLex SpecTrace SpecParser SpecSyntax SpecTraits SpecRules SpecFeatures SpecCursor SpecToken LexBase TokenProofs KindProofs LexFacts LexTrace CursorProofs CursorLex
  ParserProofs ParserProofs2 ParserProofs3 ParserProofs4 CompareProofs SyntaxProofs SyntaxTotal TraitsTotal RulesTotal FeatureProofs FaithProofs FaithTraits FaithRules Goes Goes2 Goes3 SheetTotal ValuesTotal Tells ValuesTold SpecSelectors SpecSelectorText SelectorProofs3 SelectorProofs9 SelectorGoes SpecConforms ValuesConform ValuesConform2 ValuesConform3 ValuesTaken.
Open Scope N_scope.
Open Scope list_scope.
Notation length := List.length.

Definition SPECIAL : list text := map chars ["HashToken"; "NumberToken"; "PercentageToken"; "UrlToken"; "StringToken"; "FlexToken"; "OpacityValue"]%string.
Definition special (w : text) : bool := existsb (text_eqb w) SPECIAL.
Lemma token_special : forall src w c, token_of src (DCustom w) c -> special w = true.
Proof.
  intros src w c T. cbn [token_of] in T. unfold special. apply existsb_exists. exists w. split; [| apply text_eqb_refl]. unfold SPECIAL. cbn [map].
  repeat (destruct T as [(-> & _) | T]; [do 0 idtac; solve [repeat (first [left; reflexivity | right])] |]). destruct T as (-> & _). repeat (first [left; reflexivity | right]).
Qed.
Lemma kws_in : forall l d, In d (map DIdent l) -> exists w, In w l /\ d = DIdent w.
Proof. intros l d I. apply in_map_iff in I. destruct I as (w & <- & I). eauto. Qed.
Definition COLOR_WORDS : list text := COLOR_KEYWORDS ++ NAMED_COLORS ++ SYSTEM_COLORS.
Lemma color_words_lower : forallb (fun w => text_eqb (lower_text w) w) COLOR_WORDS = true.
Proof. vm_compute. reflexivity. Qed.

Section Singles.
Variable src : text.
Context {mod_ : mode}.
Variable f : feature.
Notation stands := (stands src f).
Notation seen := (seen src).
Notation whole := (whole src f).
Notation good := (good src f).
Notation conforms := (conforms src true).
Notation here := (here src f).
Notation hits := (hits src f).
Notation quiet := (quiet src f).
Notation eats := (eats src f).
Notation plainly := (plainly src).

Definition free (cs : list cursor) : Prop := Forall (fun c => kind_of c <> K_Function) cs.
Definition tok (d : def) (c : cursor) : Prop := conforms d [c] /\ kind_of c <> K_Function.
Definition single (d : def) (k : peeker) (m : P (list cursor)) : Prop := (forall cs, conforms d cs -> free cs -> exists c, cs = [c]) /\ eats (tok d) m /\ hits k (tok d) /\ quiet k.
Definition fonly (d : def) (k : peeker) : Prop := (forall cs, conforms d cs -> ~ free cs) /\ forall p c, tok_is (ctok c) K_Function = false -> k p c = Some false.

Lemma head_function : forall d cs, (exists c r, cs = c :: r /\ kind_of c = K_Function) -> free cs -> conforms d cs -> False.
Proof. intros d cs (c & r & -> & K) F _. inversion F; subst. contradiction. Qed.
Lemma leaf_one : forall t, leaf_token t = true -> forall cs, conforms (DType t) cs -> exists c, cs = [c] /\ token_of src t c /\ in_bounds (type_checks t) c.
Proof. intros t L cs C. destruct (inv_type src _ _ C) as [X | (name & d & E & _)]; [exact X |]. destruct t; discriminate. Qed.
Lemma eats_range : forall t m, eats (token_of src t) m -> range_compiles (type_checks t) = true -> eats (fun c => token_of src t c /\ in_bounds (type_checks t) c) (bind m (range_check (type_checks t))).
Proof.
  intros t m H Rc p g c rest Hh G L Pc (T & B). destruct (H p g c rest Hh G L Pc T) as (q & E & Hq). exists q. split; [| exact Hq]. unfold bind. rewrite E. unfold range_check. cbn [value_of]. destruct (type_checks t); cbn [in_bounds] in B; try discriminate; try rewrite B; reflexivity.
Qed.
Lemma parse_leaf : forall t, leaf_token t = true -> ty_parse (leaf_ty t) = one (ty_peek (leaf_ty t)).
Proof. intros t L. destruct t; try discriminate; reflexivity. Qed.
Lemma single_leaf : forall t, leaf_token t = true -> single (DType t) (ty_peek (leaf_ty t)) (ty_parse (leaf_ty t)).
Proof.
  intros t L. assert (X : forall c, tok (DType t) c -> token_of src t c) by (intros c (C & _); destruct (leaf_one t L _ C) as (c0 & E & T & _); injection E as <-; exact T).
  split; [intros cs C _; destruct (leaf_one t L cs C) as (c & -> & _); eauto |]. split; [rewrite (parse_leaf t L); apply eats_one; eapply hits_imp; [exact (hits_token src f t L) | exact X] |]. split; [eapply hits_imp; [exact (hits_token src f t L) | exact X] |]. apply quiet_leaf. intros w ->. discriminate.
Qed.
Lemma single_leaf_steps : forall t, leaf_token t = true -> range_compiles (type_checks t) = true -> single (DType t) (ty_peek (leaf_ty t)) (bind (ty_parse (leaf_ty t)) (range_check (type_checks t))).
Proof.
  intros t L Rc. destruct (single_leaf t L) as (S1 & _ & S3 & S4). split; [exact S1 |]. split; [| auto]. eapply eats_imp; [apply eats_range; [rewrite (parse_leaf t L); apply eats_one, hits_token; exact L | exact Rc] |].
  intros c (C & _). destruct (leaf_one t L _ C) as (c0 & E & T). injection E as <-. exact T.
Qed.
(* parsers of words *)
Lemma eats_words : forall l, Forall (fun w => lower_text w = w) l -> eats (fun c => exists w, In w l /\ word_of src K_Ident w c) (parse_words l).
Proof.
  intros l Fl p g c rest Hh G L Pc T. pose proof T as (w & I & W). rewrite Forall_forall in Fl. destruct (word_lower src K_Ident w c Pc (Fl w I) W) as (K & E). destruct (here_next src f p g c rest Hh G L) as (q & N & Pn & Hq & Sc). exists q. split; [| exact Hq].
  unfold parse_words, pmap, bind, parse_set, peek. rewrite Pn. rewrite (hits_words src f K_Ident l ltac:(apply Forall_forall; exact Fl) p _ c (proj1 Hh) Sc L Pc T), N. unfold build_set, look_up. destruct Hq as ((S1 & _) & _). rewrite S1, E.
  pose proof (words_get l w) as Gw. destruct (map_get (words l) w); [reflexivity | contradiction].
Qed.
Lemma custom_described : forall w d, special w = false -> map_get DESCRIPTIONS w = Some (Some d) -> forall cs, conforms (DType (DCustom w)) cs -> conforms d cs.
Proof.
  intros w d Sp E cs C. destruct (inv_type src _ _ C) as [(c & _ & T & _) | (name & d' & En & Ed & Cd)]; [apply token_special in T; rewrite T in Sp; discriminate |]. cbn [type_name] in En. injection En as <-. rewrite E in Ed. injection Ed as <-. exact Cd.
Qed.
Lemma special_token : forall w, map_get DESCRIPTIONS w = None -> forall cs, conforms (DType (DCustom w)) cs -> exists c, cs = [c] /\ token_of src (DCustom w) c.
Proof.
  intros w E cs C. destruct (inv_type src _ _ C) as [(c & -> & T & _) | (name & d' & En & Ed & _)]; [eauto |]. cbn [type_name] in En. injection En as <-. rewrite E in Ed. discriminate.
Qed.
Lemma kws_one : forall l cs, conforms (kws l) cs -> exists c, cs = [c] /\ exists w, In w l /\ word_of src K_Ident w c.
Proof. intros l cs C. destruct (inv_alt src _ _ C) as (d & I & Cd). destruct (kws_in l d I) as (w & Iw & ->). destruct (inv_word src _ _ Cd) as (c & -> & W). eauto. Qed.
Lemma single_words : forall w l, special w = false -> map_get DESCRIPTIONS w = Some (Some (kws (map chars l))) -> forallb (fun s => text_eqb (lower_text (chars s)) (chars s)) l = true -> single (DType (DCustom w)) (ty_peek (words_ty l)) (ty_parse (words_ty l)).
Proof.
  intros w l Sp E Lo. pose proof (lower_texts l Lo) as Fl. assert (X : forall cs, conforms (DType (DCustom w)) cs -> exists c, cs = [c] /\ exists x, In x (map chars l) /\ word_of src K_Ident x c) by (intros cs C; apply kws_one; exact (custom_described w _ Sp E cs C)).
  assert (Y : forall c, tok (DType (DCustom w)) c -> exists x, In x (map chars l) /\ word_of src K_Ident x c) by (intros c (C & _); destruct (X _ C) as (c0 & Ec & R); injection Ec as <-; exact R).
  split; [intros cs C _; destruct (X cs C) as (c & -> & _); eauto |]. split; [eapply eats_imp; [exact (eats_words _ Fl) | exact Y] |]. split; [eapply hits_imp; [exact (hits_words src f K_Ident _ Fl) | exact Y] |]. apply quiet_set; discriminate.
Qed.
(* <line-width> *)
Lemma single_line_width : single (DType (DCustom (chars "LineWidth"))) (ty_peek LINE_WIDTH) (ty_parse LINE_WIDTH).
Proof.
  assert (X : forall cs, conforms (DType (DCustom (chars "LineWidth"))) cs -> exists c, cs = [c] /\ (token_of src (DLength RgNone) c \/ exists w, In w (map chars ["thin"; "medium"; "thick"]%string) /\ word_of src K_Ident w c)).
  { intros cs C. apply (custom_described (chars "LineWidth") (alt [DType (DLength RgNone); kw "thin"; kw "medium"; kw "thick"]) ltac:(vm_compute; reflexivity) ltac:(vm_compute; reflexivity)) in C. destruct (inv_alt src _ _ C) as (d & I & Cd). destruct I as [<- | I].
    - destruct (leaf_one (DLength RgNone) eq_refl _ Cd) as (c & -> & T & _). eauto.
    - assert (I' : In d (map DIdent (map chars ["thin"; "medium"; "thick"]%string))) by exact I. destruct (kws_in _ _ I') as (w & Iw & ->). destruct (inv_word src _ _ Cd) as (c & -> & W). eauto 6. }
  assert (Hk : hits (ty_peek LINE_WIDTH) (tok (DType (DCustom (chars "LineWidth"))))).
  { intros p cs c S Sc L Pc (C & _). destruct (X _ C) as (c0 & Ec & T). injection Ec as <-. assert (W : Forall whole [peek_length; peek_words (map chars ["thin"; "medium"; "thick"]%string)]) by (apply Forall_cons; [apply solo_length | apply Forall_cons; [apply solo_words | apply Forall_nil]]).
    destruct T as [T | T].
    - exact (hits_any src f _ peek_length _ W (or_introl eq_refl) (hits_token src f (DLength RgNone) eq_refl) p cs c S Sc L Pc T).
    - exact (hits_any src f _ (peek_words (map chars ["thin"; "medium"; "thick"]%string)) _ W (or_intror (or_introl eq_refl)) (hits_words src f K_Ident _ (lower_texts ["thin"; "medium"; "thick"]%string eq_refl)) p cs c S Sc L Pc T). }
  split; [intros cs C _; destruct (X cs C) as (c & -> & _); eauto |]. split; [exact (eats_one src f _ _ Hk) |]. split; [exact Hk |].
  apply quiet_any. apply Forall_cons; [exact (quiet_leaf src f (DLength RgNone) ltac:(discriminate)) | apply Forall_cons; [apply quiet_set; discriminate | apply Forall_nil]].
Qed.
Lemma single_opacity : single (DType (DCustom (chars "OpacityValue"))) (ty_peek OPACITY) (ty_parse OPACITY).
Proof.
  assert (X : forall cs, conforms (DType (DCustom (chars "OpacityValue"))) cs -> exists c, cs = [c] /\ token_of src (DCustom (chars "OpacityValue")) c) by (apply special_token; vm_compute; reflexivity).
  assert (Hk : hits peek_opacity (tok (DType (DCustom (chars "OpacityValue"))))) by (eapply hits_imp; [exact (hits_opacity src f) |]; intros c (C & _); destruct (X _ C) as (c0 & Ec & T); injection Ec as <-; exact T).
  split; [intros cs C _; destruct (X cs C) as (c & -> & _); eauto |]. split; [exact (eats_one src f _ _ Hk) |]. split; [exact Hk |].
  intros p cs c S Sc E. cbn [ty_peek OPACITY token_ty]. unfold peek_opacity. rewrite (quiet_tok c K_Number) by (auto; discriminate). cbn [andb]. pose proof (quiet_dimension src f U_Percent (unit_str U_Percent) p cs c S Sc E) as Y. change (peek_dimension U_Percent (unit_str U_Percent)) with peek_percent in Y. rewrite Y. reflexivity.
Qed.
Lemma single_anchor : single (DType (DCustom (chars "AnchorName"))) peek_dashed_ident (one peek_dashed_ident).
Proof.
  destruct (single_leaf DDashedIdent eq_refl) as (S1 & S2 & S3 & S4). assert (X : forall cs, conforms (DType (DCustom (chars "AnchorName"))) cs -> conforms (DType DDashedIdent) cs) by (apply custom_described; vm_compute; reflexivity).
  split; [intros cs C F; exact (S1 cs (X cs C) F) |]. split; [eapply eats_imp; [exact S2 |]; intros c (C & K); split; auto |]. split; [eapply hits_imp; [exact S3 |]; intros c (C & K); split; auto | exact S4].
Qed.
End Singles.
