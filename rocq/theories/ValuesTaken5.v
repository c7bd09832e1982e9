(* Values without functions that are values of a definition are accepted: the table of definitions. *)
From Coq Require Import ZifyBool ZifyNat ZifyN Permutation.
From Coq Require Import String.
From Coq Require Import List.
From Verif Require DimProofs.
From Verif Require Import AstSheet Values SpecSheet SpecLex SpecTrace SpecParser SpecSyntax SpecTraits SpecRules SpecFeatures SpecCursor SpecToken LexBase TokenProofs KindProofs LexFacts LexTrace CursorProofs CursorLex CursorFacts
  ParserProofs ParserProofs2 ParserProofs3 ParserProofs4 CompareProofs SyntaxProofs SyntaxTotal TraitsTotal RulesTotal FeatureProofs FaithProofs FaithTraits FaithRules Goes Goes2 Goes3 SheetTotal ValuesTotal Tells ValuesTold SpecSelectors SpecSelectorText SelectorProofs3 SelectorProofs9 SelectorGoes SpecConforms SpecAccepts ValuesConform ValuesConform2 ValuesConform3 ValuesTaken ValuesTaken2 ValuesTaken3 ValuesTaken4.
Open Scope N_scope.
Open Scope list_scope.
Notation length := List.length.

(* ---- tokens without escapes ---- *)
Lemma lower_loop : forall l fuel b src st en i str, (length l < fuel)%nat -> ~ In 92 l -> ~ In 0 l -> parse_str_lower_loop fuel b src st en i l str = Some (str ++ lower_text l).
Proof.
  intro l. induction l as [| c l IH]; intros fuel b src st en i str L B Z; destruct fuel as [| fuel]; cbn [length] in L; try lia; cbn [parse_str_lower_loop].
  - rewrite app_nil_r. reflexivity.
  - replace (c =? 0) with false by (symmetry; apply N.eqb_neq; intros ->; apply Z; left; reflexivity). replace (c =? 92) with false by (symmetry; apply N.eqb_neq; intros ->; apply B; left; reflexivity).
    rewrite IH; [| lia | intro X; apply B; right; exact X | intro X; apply Z; right; exact X]. rewrite <- app_assoc. reflexivity.
Qed.
Lemma eq_loop_same : forall l fuel b src st en i w, ~ In 92 l -> ~ In 0 l -> eq_loop fuel b src st en i l w = Some true -> l = w.
Proof.
  intro l. induction l as [| c l IH]; intros fuel b src st en i w B Z E; destruct fuel as [| fuel]; try discriminate; cbn [eq_loop] in E; destruct w as [| o w]; try discriminate; [reflexivity |].
  replace (c =? 0) with false in E by (symmetry; apply N.eqb_neq; intros ->; apply Z; left; reflexivity). replace (c =? 92) with false in E by (symmetry; apply N.eqb_neq; intros ->; apply B; left; reflexivity).
  destruct (c =? o) eqn:Q; [| discriminate]. apply N.eqb_eq in Q. subst o. cbn [negb] in E. f_equal. apply (IH _ _ _ _ _ _ _) in E; [exact E | intro X; apply B; right; exact X | intro X; apply Z; right; exact X].
Qed.
Lemma take_len : forall l n s, take_bytes n l = Some s -> n = blen s.
Proof.
  intro l. induction l as [| c l IH]; intros n s E; cbn [take_bytes] in E; destruct (n =? 0) eqn:Q; try discriminate; try (apply some_inj in E; subst s; cbn [blen]; lia).
  destruct (n <? len_utf8 c) eqn:Q2; [discriminate |]. destruct (take_bytes (n - len_utf8 c) l) as [r |] eqn:Er; [| discriminate]. apply some_inj in E. subst s. apply IH in Er. cbn [blen]. lia.
Qed.
Lemma lower_not_dimension : forall c, is_lower_case (ctok c) = true -> kind_of c <> K_Dimension.
Proof.
  intros c E K. unfold is_lower_case, is_ident_like in E. unfold kind_of in K. assert (X : kind_bits (ctok c) = kind_code K_Dimension) by (rewrite <- K; apply well_formed_kind, wf_of_kind; rewrite K; discriminate). rewrite X in E. vm_compute in E. discriminate.
Qed.
Lemma lower_blen : forall p, blen (lower_text p) = blen p.
Proof.
  intro p. induction p as [| c p IH]; [reflexivity |]. cbn [lower_text map blen]. fold (lower_text p). rewrite IH. f_equal. unfold to_ascii_lowercase, is_ascii_upper. destruct ((65 <=? c) && (c <=? 90)) eqn:E; [| reflexivity]. rewrite !len_utf8_ascii by lia. reflexivity.
Qed.
Lemma same_case : forall s w, lower_text w = w -> eq_ignore_case_text s w = true <-> lower_text s = w.
Proof. intros s w L. unfold eq_ignore_case_text. fold (lower_text s). fold (lower_text w). rewrite L. apply text_eqb_spec. Qed.
Lemma unescaped_plainly : forall src c, unescaped src c -> plainly src c.
Proof.
  intros src c (F & U). split.
  - intros w L E. unfold eq_ignore_ascii_case in E. unfold parse_str_lower, parse_str. destruct (text_end c) as [en |]; [| discriminate]. specialize (U en). destruct (contains_escape_chars (ctok c)) eqn:Ce; cbn [negb] in *.
    + destruct (slice src (text_start c) en) as [s |]; [| discriminate]. destruct (U s eq_refl eq_refl) as (B & Z). apply eq_loop_same in E; [| assumption | assumption]. subst s. destruct (is_lower_case (ctok c)) eqn:Lo; [apply lower_not_dimension in Lo; specialize (F Lo); discriminate |]. rewrite lower_loop; [rewrite L; reflexivity | lia | assumption | assumption].
    + destruct (en <? text_start c); [discriminate |]. destruct (negb (en - text_start c =? blen w)); [discriminate |]. destruct (slice src (text_start c) en) as [s |]; [| discriminate]. destruct (U s eq_refl eq_refl) as (B & Z). destruct (is_lower_case (ctok c)); apply some_inj in E.
      * apply text_eqb_spec in E. subst s. reflexivity.
      * rewrite lower_loop; [| lia | assumption | assumption]. apply same_case in E; [| exact L]. rewrite <- E. reflexivity.
  - intros K w L E. assert (Ce : contains_escape_chars (ctok c) = false) by (apply F; rewrite K; discriminate). unfold eq_ignore_ascii_case. unfold parse_str_lower, parse_str in E. rewrite Ce in *. cbn [negb] in *. destruct (text_end c) as [en |] eqn:Te; [| destruct (is_lower_case (ctok c)); discriminate]. specialize (U en).
    destruct (slice src (text_start c) en) as [s |] eqn:Sl; [| destruct (is_lower_case (ctok c)); discriminate]. destruct (U s eq_refl eq_refl) as (B & Z). clear U.
    assert (Ln : en <? text_start c = false /\ en - text_start c = blen s).
    { unfold slice in Sl. destruct (en <? text_start c) eqn:Q; [discriminate |]. split; [reflexivity |]. destruct (drop_bytes (text_start c) src) as [r |]; [| discriminate]. exact (take_len _ _ _ Sl). }
    destruct Ln as (Q & Ln). rewrite Q, Ln. destruct (is_lower_case (ctok c)).
    + apply some_inj in E. subst s. rewrite N.eqb_refl. cbn [negb]. f_equal. apply text_eqb_spec. reflexivity.
    + rewrite lower_loop in E; [| lia | assumption | assumption]. apply some_inj in E. cbn [app] in E. subst w. rewrite lower_blen, N.eqb_refl. cbn [negb]. f_equal. apply same_case; [exact L | reflexivity].
Qed.

(* ---- the named types ---- *)
Definition NAMED_SINGLE : list text := map chars
  ["LineWidth"; "LineStyle"; "OpacityValue"; "VisualBox"; "Repetition"; "AnchorName"; "TrySize"; "SingleAnimationIterationCount"; "SingleAnimationDirection"; "SingleAnimationPlayState";
   "SingleAnimationFillMode"; "SingleAnimationComposition"; "Attachment"; "BgClip"; "TransitionBehaviorValue"; "OutlineLineStyle"; "CompatAuto"; "CompatSpecial"]%string.
Definition sg0 (w : text) : bool := existsb (text_eqb w) NAMED_SINGLE.
Fixpoint sg_at (n : nat) (name : text) : bool :=
  match map_get NAMED_TYPES name with
  | Some _ => sg0 name
  | None => match n with O => false | S n => match map_get VALUE_DEFS name with Some (Some d) => sg_def (sg_at n) d | _ => false end end
  end.

Section Table.
Variable src : text.
Context {mod_ : mode}.
Variable f : feature.
Notation stands := (stands src f).
Notation seen := (seen src).
Notation whole := (whole src f).
Notation conforms := (conforms src true).
Notation here := (here src f).
Notation hits := (hits src f).
Notation quiet := (quiet src f).
Notation eats := (eats src f).
Notation plainly := (plainly src).
Notation single := (single src f).
Notation fonly := (fonly src).
Notation tok := (tok src).

Lemma single_iteration : single (DType (DCustom (chars "SingleAnimationIterationCount"))) (ty_peek ITERATION_COUNT) (ty_parse ITERATION_COUNT).
Proof.
  set (T := fun c => word_of src K_Ident (chars "infinite") c \/ (kind_of c = K_Number /\ is_float (ctok c) = true) /\ f32_lt (tvalue (ctok c)) 0 = false).
  assert (X : forall cs, conforms (DType (DCustom (chars "SingleAnimationIterationCount"))) cs -> exists c, cs = [c] /\ T c).
  { intros cs C. apply (custom_described src (chars "SingleAnimationIterationCount") (alt [kw "infinite"; DType (DNumber (RgFrom 0))]) ltac:(vm_compute; reflexivity) ltac:(vm_compute; reflexivity)) in C. destruct (inv_alt src _ _ C) as (d & I & Cd). destruct I as [<- | [<- | []]].
    - destruct (inv_word src _ _ Cd) as (c & -> & W). exists c. split; [reflexivity | left; exact W].
    - destruct (leaf_one src (DNumber (RgFrom 0)) eq_refl _ Cd) as (c & -> & Tc & B). exists c. split; [reflexivity |]. right. split; [exact Tc |]. cbn [in_bounds type_checks] in B. replace (f32_of_nat 0) with 0 in B by (vm_compute; reflexivity). exact B. }
  assert (Y : forall c, tok (DType (DCustom (chars "SingleAnimationIterationCount"))) c -> T c) by (intros c (C & _); destruct (X _ C) as (c0 & E & Tc); injection E as <-; exact Tc).
  assert (Wd : forall c, plainly c -> word_of src K_Ident (chars "infinite") c -> kind_of c = K_Ident /\ eq_ignore_ascii_case c src (chars "infinite") = Some true) by (intros c (_ & Pc) (K & [E | E]); (split; [exact K |]); [apply Pc; [exact K | vm_compute; reflexivity | exact E] | exact E]).
  split; [intros cs C _; destruct (X cs C) as (c & -> & _); eauto |]. split; [| split].
  - intros p g c rest Hh G L Pc Tc. apply Y in Tc. destruct (here_next src f p g c rest Hh G L) as (q & N & Pn & Hq & Sc). cbn [ty_parse ITERATION_COUNT]. unfold parse_iteration_count, peek. rewrite Pn, (here_peek_one src f p g c rest Hh G L). unfold peek_kind at 1. pose proof (proj1 (proj1 Hh)) as Sr. destruct Tc as [W | ((K & Fl) & B)].
    + destruct (Wd c Pc W) as (K & E). rewrite (tok_kind K_Ident c K) by discriminate. rewrite Sr, E. exact (eats_one src f _ _ (hits_kind src f K_Ident) p g c rest Hh G L Pc K).
    + rewrite (tok_not K_Ident c) by (rewrite K; discriminate). exists q. split; [| exact Hq]. unfold bind, parse_single, peek. rewrite Pn. unfold peek_float. rewrite (tok_kind K_Number c K), Fl by discriminate. cbn [andb]. rewrite N, B. reflexivity.
  - intros p cs c S Sc L Pc Tc. apply Y in Tc. cbn [ty_peek ITERATION_COUNT any_peek]. unfold peek_float, peek_named. destruct Tc as [W | ((K & Fl) & B)].
    + destruct (Wd c Pc W) as (K & E). destruct (_ && _); [reflexivity |]. rewrite (tok_kind K_Ident c K) by discriminate. pose proof (proj1 S) as Sr. rewrite Sr, E. reflexivity.
    + rewrite (tok_kind K_Number c K), Fl by discriminate. reflexivity.
  - intros p cs c S Sc E. cbn [ty_peek ITERATION_COUNT any_peek]. unfold peek_float, peek_named. rewrite (quiet_tok c K_Number), (quiet_tok c K_Ident) by (auto; discriminate). reflexivity.
Qed.
Ltac pick := lazymatch goal with
  | |- sg0 _ = true -> single (DType (DCustom (chars "LineWidth"))) _ _ => intros _; exact (single_line_width src f)
  | |- sg0 _ = true -> single (DType (DCustom (chars "OpacityValue"))) _ _ => intros _; exact (single_opacity src f)
  | |- sg0 _ = true -> single (DType (DCustom (chars "AnchorName"))) _ _ => intros _; exact (single_anchor src f)
  | |- sg0 _ = true -> single (DType (DCustom (chars "SingleAnimationIterationCount"))) _ _ => intros _; exact single_iteration
  | |- sg0 _ = true -> single (DType (DCustom _)) (ty_peek (words_ty _)) _ => intros _; apply single_words; [vm_compute; reflexivity | vm_compute; reflexivity | vm_compute; reflexivity]
  | |- sg0 _ = true -> _ => let H := fresh in intro H; exfalso; vm_compute in H; discriminate H
  end.
Lemma named_singles : Forall (fun x => sg0 (fst x) = true -> single (DType (DCustom (fst x))) (ty_peek (snd x)) (ty_parse (snd x))) NAMED_TYPES.
Proof. unfold NAMED_TYPES. cbn [map fst snd]. repeat (apply Forall_cons; [cbn [fst snd]; pick |]). apply Forall_nil. Qed.
Lemma named_get : forall w n, (exists t, map_get NAMED_TYPES w = Some t) -> value_ty n w = map_get NAMED_TYPES w.
Proof. intros w n (t & E). destruct n; cbn [value_ty]; rewrite E; reflexivity. Qed.
Lemma mix_named : map_get NAMED_TYPES (chars "DynamicRangeLimitMix") = Some RANGE_LIMIT_MIX.
Proof. reflexivity. Qed.
Lemma snap_block_named : map_get NAMED_TYPES (chars "SnapBlock") = Some (snap_ty "snap-block" ["start"; "end"; "near"]%string).
Proof. reflexivity. Qed.
Lemma snap_inline_named : map_get NAMED_TYPES (chars "SnapInline") = Some (snap_ty "snap-inline" ["left"; "right"; "near"]%string).
Proof. reflexivity. Qed.
Lemma value_fonly : forall n w x, value_ty n w = Some x -> fo w = true -> fonly (DType (DCustom w)) (ty_peek x).
Proof.
  intros n w x E F. unfold fo in F. apply existsb_exists in F. destruct F as (w' & I & Ew). apply text_eqb_spec in Ew. subst w'. unfold FONLY in I. cbn [map] in I.
  assert (Pn : forall k w0, (forall p c, tok_is (ctok c) K_Function = false -> peek_named K_Function w0 p c = Some false) -> k = peek_named K_Function w0 -> forall p c, tok_is (ctok c) K_Function = false -> k p c = Some false) by (intros k w0 H ->; exact H).
  assert (Pz : forall w0 p c, tok_is (ctok c) K_Function = false -> peek_named K_Function w0 p c = Some false) by (intros w0 p c T; unfold peek_named; rewrite T; reflexivity).
  assert (Nt : forall c, ~ token_of src (DCustom w) c) by (intros c T; apply token_special in T; repeat (destruct I as [<- | I]; [vm_compute in T; discriminate T |]); destruct I).
  destruct I as [<- | [<- | [<- | [<- | []]]]].
  - rewrite (named_get (chars "CalcSize") n (ex_intro _ _ calc_size_named)) in E. fold CALC_SIZE_NAME in E. rewrite calc_size_named in E. apply some_inj in E. subst x. split.
    + intros cs C _. apply (custom_described src (chars "CalcSize") (alt []) ltac:(vm_compute; reflexivity) ltac:(vm_compute; reflexivity)) in C. destruct (inv_alt src _ _ C) as (d & [] & _).
    + exact (Pz _).
  - rewrite (named_get _ n (ex_intro _ _ mix_named)) in E. rewrite mix_named in E. apply some_inj in E. subst x. split.
    + eapply fonly_named; [exists (chars "DynamicRangeLimitMix"); split; [reflexivity | vm_compute; reflexivity] | exact Nt].
    + exact (Pz _).
  - rewrite (named_get _ n (ex_intro _ _ snap_block_named)) in E. rewrite snap_block_named in E. apply some_inj in E. subst x. split.
    + eapply fonly_named; [exists (chars "SnapBlock"); split; [reflexivity | vm_compute; reflexivity] | exact Nt].
    + exact (Pz _).
  - rewrite (named_get _ n (ex_intro _ _ snap_inline_named)) in E. rewrite snap_inline_named in E. apply some_inj in E. subst x. split.
    + eapply fonly_named; [exists (chars "SnapInline"); split; [reflexivity | vm_compute; reflexivity] | exact Nt].
    + exact (Pz _).
Qed.
Lemma value_whole : forall n w x, value_ty n w = Some x -> whole (ty_peek x).
Proof.
  intros n w x E. destruct (text_eqb w CALC_SIZE_NAME) eqn:Q; [| exact (proj1 (value_good src f n w x E ltac:(intros ->; rewrite text_eqb_refl in Q; discriminate)))]. apply text_eqb_spec in Q. subst w.
  rewrite (named_get _ n ltac:(eexists; exact calc_size_named)) in E. rewrite calc_size_named in E. apply some_inj in E. subst x. apply solo_named; [constructor | discriminate].
Qed.
Lemma no_special : forallb (fun r => negb (special (chars (fst r)))) VALUE_TABLE = true.
Proof. vm_compute. reflexivity. Qed.
Lemma defined_value : forall name d, map_get VALUE_DEFS name = Some (Some d) -> forall cs, conforms (DType (DCustom name)) cs -> conforms d cs.
Proof.
  intros name d E. destruct (in_defs name d E) as (w & s & I & -> & C & _). apply custom_described.
  - pose proof no_special as X. rewrite forallb_forall in X. specialize (X _ I). cbn [fst] in X. apply negb_true_iff in X. exact X.
  - apply described_get. right. exists w, s. auto.
Qed.
Lemma single_through : forall name d k m, (forall cs, conforms (DType (DCustom name)) cs -> conforms d cs) -> single d k m -> single (DType (DCustom name)) k m.
Proof.
  intros name d k m X (S1 & S2 & S3 & S4). assert (Y : forall c, tok (DType (DCustom name)) c -> tok d c) by (intros c (C & K); split; auto). split; [intros cs C F; exact (S1 cs (X cs C) F) |]. split; [exact (eats_imp src f _ _ _ S2 Y) |]. split; [exact (hits_imp src f _ _ _ S3 Y) | exact S4].
Qed.
Lemma value_single : forall n name x, value_ty n name = Some x -> sg_at n name = true -> single (DType (DCustom name)) (ty_peek x) (ty_parse x).
Proof.
  assert (Nm : forall name x, map_get NAMED_TYPES name = Some x -> sg0 name = true -> single (DType (DCustom name)) (ty_peek x) (ty_parse x)) by (intros name x E G; pose proof named_singles as X; rewrite Forall_forall in X; exact (X _ (map_get_in _ _ _ _ E) G)).
  intro n. induction n as [| n IH]; intros name x E G; cbn [value_ty sg_at] in E, G; destruct (map_get NAMED_TYPES name) as [y |] eqn:En; try discriminate; try (apply some_inj in E; subst y; exact (Nm _ _ En G)).
  destruct (map_get VALUE_DEFS name) as [[d |] |] eqn:Ed; try discriminate. apply (single_through name d); [exact (defined_value name d Ed) |]. exact (single_generated src f (value_ty n) (sg_at n) IH (value_fonly n) (value_whole n) d x G E).
Qed.
End Table.
