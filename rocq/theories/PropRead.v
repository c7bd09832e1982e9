(* Theorems for C62 (a stylesheet written as CSS says is read rule for rule). What is written is in SpecRead.v. *)
From Coq Require Import String.
From Coq Require Import List Lia.
From Verif Require Import SpecWords.
From Verif Require Import LexTrace AstSheet Values SpecSheet SpecLex SpecTrace SpecParser SpecSyntax SpecTraits SpecFeatures SpecSelectors SpecSelectorText SelectorProofs3 SelectorProofs SheetReadable SpecConforms SpecAccepts SpecTree SpecDecl SpecPage SpecRead LexFacts KindProofs ParserProofs FeatureProofs SheetTotal TraitsTotal SyntaxAccept PropSheet PropSelectors Reads Reads8.
Open Scope N_scope.
Open Scope list_scope.

(* ---- C62 ---- *)
(* [partial]: SpecRead.v has every at-rule; left out are conditions of more than two features or with "not", and what hdx
   reads otherwise (below). Values: see C57. *)
Theorem C62_sheet_read_partial : forall src f tokens rules, readable_text src f tokens -> sheet_written src rules tokens ->
  exists read q, parse_sheet VALUES (parser_new src f) = Some (Ok read, q) /\ map outline read = rules.
Proof.
  intros src f tokens rules A W. pose proof (readable_stands src f tokens A) as St. assert (R : ready (parser_new src f)).
  { destruct A as (W1 & Z & V & B & _). apply (C48_ready_states src f (parser_new src f) W1 Z V B); [apply st_refl | reflexivity]. }
  assert (Ap : at_ (mod_ := false) src f (parser_new src f) tokens) by (split; [exact St | exact R]).
  destruct (sheet_read src f rules tokens W (sfuel (parser_new src f)) (parser_new src f) Ap (sfuel_more _ _ (at_ahead src f _ _ Ap))) as (g & _ & read & q & E & H & _). exists read, q. split; [exact E | exact H].
Qed.
Print Assumptions C62_sheet_read_partial.
(* one tree: what is written says which rules there are *)
Theorem C62_one_sheet : forall src f tokens rules rules', readable_text src f tokens -> sheet_written src rules tokens -> sheet_written src rules' tokens -> rules = rules'.
Proof.
  intros src f tokens rules rules' A W W'. destruct (C62_sheet_read_partial src f tokens rules A W) as (l & q & E & <-). destruct (C62_sheet_read_partial src f tokens rules' A W') as (l' & q' & E' & <-). rewrite E in E'. injection E' as -> _. reflexivity.
Qed.
Print Assumptions C62_one_sheet.
(* a declaration alone, in any parser at it: before a semicolon or a closing brace *)
Theorem C62_declaration_read_partial : forall (M : mode) src f p d t g c rest, stands src f p (t ++ g ++ c :: rest) -> ready p -> declaration_written src d t -> gap g -> kind_of c = K_Semicolon \/ kind_of c = K_RightCurly ->
  exists x q, parse_property VALUES p = Some (Ok x, q) /\ outline_property x = d.
Proof.
  intros M src f p d t g c rest S R W G K. destruct (Reads3.property_reads src f d t W p [] g c rest (conj S R) (Forall_nil _) G K) as (g' & _ & x & q & E & H & _). exists x, q. split; [exact E | exact H].
Qed.
Print Assumptions C62_declaration_read_partial.

(* ---- a case: a layer statement, <!--, @media with a style rule that has two declarations, and @font-face ---- *)
Definition read_text : text := chars "@layer a;<!-- @media print { .b>#c{color:inherit !important;--x:1}; } @font-face{}".
Definition read_tokens : list cursor := Eval vm_compute in match lex read_text no_features with Some l => l | None => [] end.
Definition tok (i : nat) : cursor := nth i read_tokens (Cursor 0 T_EOF).
Definition toks (l : list nat) : list cursor := map tok l.
Definition read_style : css_rule :=
  RStyle [([SClass (tok 12) (tok 13); SCombinator (CChild (tok 14)); SId (tok 15)], None)] (tok 16)
    [(Property (tok 17) (tok 18) (SvKeyword (chars "inherit", tok 19)) (Some (tok 21, tok 22)), Some (tok 23)); (Property (tok 24) (tok 25) (SvCustom []) None, None)] [] (Some (tok 27)).
Definition read_rules : list css_rule :=
  [RLayerNames (tok 0) (Some [((tok 2, []), None)]) (tok 3);
   RMedia (tok 6) [MediaQuery None (Some (Some (chars "print"), tok 8)) None None] (tok 10) [] [read_style] (Some (tok 30));
   RFontFace (tok 32) (tok 33) [] (Some (tok 34))].
Ltac g_ := solve [apply Forall_nil | apply Forall_cons; [left; reflexivity | apply Forall_nil]].
Lemma read_selectors : list_laid read_text [([SClass (tok 12) (tok 13); SCombinator (CChild (tok 14)); SId (tok 15)], None)] (toks [12; 13; 14; 15]%nat).
Proof.
  change (toks [12; 13; 14; 15]%nat) with ([] ++ [tok 12; tok 13] ++ [tok 14] ++ [tok 15]). apply laid_one; [g_ |]. apply laid_first; [| intros x r [= <- <-] (w & X); discriminate X].
  apply laid_cons; [apply laid_class; [split; reflexivity | reflexivity] | exact Logic.I |]. apply laid_cons; [apply (laid_combinator read_text (CChild (tok 14))); [split; reflexivity | discriminate] | exact Logic.I |].
  apply laid_last; [apply laid_id; reflexivity | intros (w & X); discriminate X].
Qed.
Lemma read_declarations : items_written read_text true [(Property (tok 17) (tok 18) (SvKeyword (chars "inherit", tok 19)) (Some (tok 21, tok 22)), Some (tok 23)); (Property (tok 24) (tok 25) (SvCustom []) None, None)] []
  (toks [17; 18; 19; 20; 21; 22; 23; 24; 25; 26]%nat).
Proof.
  change (toks [17; 18; 19; 20; 21; 22; 23; 24; 25; 26]%nat) with ([] ++ (tok 17 :: [] ++ tok 18 :: ([] ++ [tok 19]) ++ [tok 20] ++ tok 21 :: [] ++ [tok 22]) ++ [] ++ tok 23 :: ([] ++ (tok 24 :: [] ++ tok 25 :: [tok 26]) ++ [])).
  apply iw_declaration; [g_ | | g_ | reflexivity |].
  - apply dw_important; [reflexivity | g_ | reflexivity | | exact Logic.I | g_ | g_ | split; [split; reflexivity | split; [reflexivity | vm_compute; reflexivity]]].
    apply vw_wide; [discriminate | g_ |]. split; [cbn; tauto |]. split; [reflexivity | vm_compute; reflexivity].
  - apply iw_last; [g_ | | g_]. apply dw_plain; [reflexivity | g_ | reflexivity |]. apply vw_custom; [reflexivity |]. apply vt_plain; [vm_compute; intuition discriminate | right; split; discriminate | apply vt_nil].
Qed.
Lemma read_written : sheet_written read_text read_rules read_tokens.
Proof.
  unfold read_rules. change read_tokens with ([] ++ (tok 0 :: ([tok 1] ++ [tok 2]) ++ [] ++ [tok 3]) ++ [] ++ tok 4 :: [tok 5] ++
    (tok 6 :: [tok 7] ++ [tok 8] ++ [tok 9] ++ tok 10 :: ([tok 11] ++ (toks [12; 13; 14; 15]%nat ++ [] ++ tok 16 :: toks [17; 18; 19; 20; 21; 22; 23; 24; 25; 26]%nat ++ [tok 27]) ++ ([] ++ tok 28 :: [tok 29])) ++ [tok 30]) ++
    [tok 31] ++ (tok 32 :: [] ++ tok 33 :: [] ++ [tok 34]) ++ []).
  apply sw_cons; [g_ | |].
  { apply rw_layer_names; [split; [reflexivity |]; split; vm_compute; reflexivity | | g_ | reflexivity]. apply cw_one; [g_ |]. apply lw_name; [reflexivity | apply lt_none]. }
  apply sw_cdo; [g_ | reflexivity |]. apply sw_cons; [g_ | |].
  { apply rw_media; [split; [reflexivity |]; split; vm_compute; reflexivity | g_ | | g_ | reflexivity | | reflexivity].
    - apply qw_type, (mt_type read_text (Some (chars "print"), tok 8)). split; [reflexivity |]. exists (chars "print"). split; [vm_compute; reflexivity |]. split; [vm_compute; intuition discriminate |]. split; [reflexivity | vm_compute; tauto].
    - apply iw_rule; [g_ | | apply iw_semicolon; [g_ | reflexivity | apply iw_none; g_]].
      apply rw_style; [exact read_selectors | | g_ | reflexivity | exact read_declarations | reflexivity]. exists (tok 12), (toks [13; 14; 15]%nat). split; [reflexivity |]. split; [intros [X | X]; discriminate X |]. split; [reflexivity |]. intros _ X. discriminate X. }
  apply sw_cons; [g_ | | apply sw_none; g_]. apply (rw_font_face read_text false (tok 32) [] (tok 33) [] [] (tok 34)); [split; [reflexivity |]; split; vm_compute; reflexivity | g_ | reflexivity | apply ds_none; g_ | apply Forall_nil | reflexivity].
Qed.
Example C62_case : readable_text read_text no_features read_tokens /\ sheet_written read_text read_rules read_tokens.
Proof.
  split; [| exact read_written]. destruct (text_ok_spec read_text no_features) as (cs & A); [vm_compute; reflexivity |]. assert (E : lex read_text no_features = Some read_tokens) by (vm_compute; reflexivity).
  pose proof A as (_ & _ & _ & _ & _ & E' & _). rewrite E in E'. injection E' as <-. exact (acceptable_readable _ _ _ A).
Qed.
Example C62_declaration_case : declaration_written read_text (Property (tok 24) (tok 25) (SvCustom []) None) [tok 24; tok 25; tok 26] /\ kind_of (tok 27) = K_RightCurly.
Proof.
  split; [| reflexivity]. change [tok 24; tok 25; tok 26] with (tok 24 :: [] ++ tok 25 :: [tok 26]). apply dw_plain; [reflexivity | g_ | reflexivity |]. apply vw_custom; [reflexivity |]. apply vt_plain; [vm_compute; intuition discriminate | right; split; discriminate | apply vt_nil].
Qed.

(* ---- a second case: @media with a prefix, a type and two features joined by "and", and @container with a condition ---- *)
Definition cond_text : text := chars "@media not print and (min-width:1px) and ( 1px<=height<2px ){}@container (width> 1px){}".
Definition cond_tokens : list cursor := Eval vm_compute in match lex cond_text no_features with Some l => l | None => [] end.
Definition ctk (i : nat) : cursor := nth i cond_tokens (Cursor 0 T_EOF).
Definition cond_min : feature_ast := FaRanged (RLegacy (ctk 8) (chars "min-width", ctk 9) (ctk 10) [ctk 11] (ctk 12)).
Definition cond_range : feature_ast := FaRanged (RRange (ctk 16) [ctk 18] (CmpLe (ctk 19) (ctk 20)) (chars "height", ctk 21) (CmpLt (ctk 22)) [ctk 23] (ctk 25)).
Definition cond_wide : feature_ast := FaRanged (RLeft (ctk 30) (chars "width", ctk 31) (CmpGt (ctk 32)) [ctk 34] (ctk 35)).
Definition cond_rules : list css_rule :=
  [RMedia (ctk 0) [MediaQuery (Some (chars "not", ctk 2)) (Some (Some (chars "print"), ctk 4)) (Some (ctk 6)) (Some (CAnd [(MfFeature (chars "width") cond_min, Some (KwAnd, ctk 14)); (MfFeature (chars "height") cond_range, None)]))]
     (ctk 26) [] [] (Some (ctk 27));
   RContainer (ctk 28) [ContainerCondition None (Some (CIs (chars "width", cond_wide)))] (ctk 36) [] (Some (ctk 37))].
Lemma px_fits : forall c, kind_of c = K_Dimension -> dimension_unit (ctok c) = U_Px -> number_fits cond_text NLength [c].
Proof. intros c K U. exists c. split; [reflexivity |]. right. split; [exact K |]. exists U_Px. split; [cbn; tauto | left; exact U]. Qed.
Ltac word_ := split; [reflexivity |]; eexists; split; [vm_compute; reflexivity |]; cbn; tauto.
Lemma apart1 : forall c l toks, ~ trivia_token c -> spread l toks -> spread (c :: l) (c :: toks).
Proof. intros c l toks N W. exact (sp_cons [] c l toks (Forall_nil _) N W). Qed.
Lemma apart2 : forall s c l toks, trivia_token s -> ~ trivia_token c -> spread l toks -> spread (c :: l) (s :: c :: toks).
Proof. intros s c l toks T N W. exact (sp_cons [s] c l toks (Forall_cons _ T (Forall_nil _)) N W). Qed.
Lemma cond_written : sheet_written cond_text cond_rules cond_tokens.
Proof.
  unfold cond_rules. change cond_tokens with ([] ++ (ctk 0 :: [ctk 1] ++ ((ctk 2 :: [ctk 3] ++ [ctk 4]) ++ [ctk 5] ++ ctk 6 :: ((ctk 7 :: map ctk [8; 9; 10; 11; 12]%nat) ++ [ctk 13] ++ ctk 14 :: (ctk 15 :: map ctk [16; 17; 18; 19; 20; 21; 22; 23; 24; 25]%nat))) ++ [] ++ ctk 26 :: [] ++ [ctk 27]) ++
    [] ++ (ctk 28 :: [] ++ (ctk 29 :: map ctk [30; 31; 32; 33; 34; 35]%nat) ++ [] ++ ctk 36 :: [] ++ [ctk 37]) ++ []).
  apply sw_cons; [g_ | | apply sw_cons; [g_ | | apply sw_none; g_]].
  - apply rw_media; [split; [reflexivity |]; split; vm_compute; reflexivity | g_ | | g_ | reflexivity | apply iw_none; g_ | reflexivity].
    apply qw_and; [| g_ | reflexivity | vm_compute; reflexivity |].
    + apply (mt_prefixed cond_text (chars "not", ctk 2) [ctk 3] (Some (chars "print"), ctk 4)); [word_ | g_ |].
      split; [reflexivity |]. exists (chars "print"). split; [vm_compute; reflexivity |]. split; [vm_compute; intuition discriminate |]. split; [reflexivity | vm_compute; tauto].
    + apply cn_and; [| g_ | reflexivity | vm_compute; reflexivity |].
      * apply (mfw_feature cond_text ["width"; "max-width"; "min-width"]%string (css_range "width" "max-width" "min-width" NLength) cond_min (chars "min-width")).
        { cbn; tauto. } { vm_compute; reflexivity. } { vm_compute; tauto. }
        { split; [reflexivity |]. split; [word_ |]. split; [reflexivity |]. split; [| reflexivity]. apply px_fits; reflexivity. }
        { cbn [map]. apply apart2; [left; reflexivity | intros [X | X]; discriminate X |]. repeat (apply apart1; [intros [X | X]; discriminate X |]). apply sp_nil. }
      * apply (mfw_feature cond_text ["height"; "max-height"; "min-height"]%string (css_range "height" "max-height" "min-height" NLength) cond_range (chars "height")).
        { cbn; tauto. } { vm_compute; reflexivity. } { vm_compute; tauto. }
        { split; [reflexivity |]. split; [apply px_fits; reflexivity |]. split; [split; [split; reflexivity |]; split; [split; reflexivity | reflexivity] |]. split; [word_ |]. split; [reflexivity |]. split; [split; reflexivity |]. split; [apply px_fits; reflexivity | reflexivity]. }
        { cbn [map]. apply apart2; [left; reflexivity | intros [X | X]; discriminate X |]. apply apart2; [left; reflexivity | intros [X | X]; discriminate X |]. repeat (apply apart1; [intros [X | X]; discriminate X |]).
          apply apart2; [left; reflexivity | intros [X | X]; discriminate X |]. apply sp_nil. }
  - apply rw_container; [split; [reflexivity |]; split; vm_compute; reflexivity | g_ | | g_ | reflexivity | apply rsw_none; g_ | reflexivity].
    apply ctw_condition, cn_is, (cfw_feature cond_text (chars "width") (FRanged [chars "width"] [] NLength) cond_wide).
    { cbn; tauto. } { vm_compute; reflexivity. }
    { split; [reflexivity |]. split; [word_ |]. split; [reflexivity |]. split; [split; reflexivity |]. split; [apply px_fits; reflexivity | reflexivity]. }
    { right. left. reflexivity. }
    { cbn [map]. apply apart2; [left; reflexivity | intros [X | X]; discriminate X |]. repeat (apply apart1; [intros [X | X]; discriminate X |]).
      apply apart2; [left; reflexivity | intros [X | X]; discriminate X |]. apply apart1; [intros [X | X]; discriminate X |]. apply sp_nil. }
Qed.
Example C62_conditions_case : readable_text cond_text no_features cond_tokens /\ sheet_written cond_text cond_rules cond_tokens.
Proof.
  split; [| exact cond_written]. destruct (text_ok_spec cond_text no_features) as (cs & A); [vm_compute; reflexivity |]. assert (E : lex cond_text no_features = Some cond_tokens) by (vm_compute; reflexivity).
  pose proof A as (_ & _ & _ & _ & _ & E' & _). rewrite E in E'. injection E' as <-. exact (acceptable_readable _ _ _ A).
Qed.

(* ---- a third case: @document, @property, @supports with a declaration, and @-webkit-keyframes ---- *)
Definition more_text : text := chars "@document url(a), url-prefix('b'){}@property --a{inherits:true;syntax:'x'}@supports (--a:b){}@-webkit-keyframes k{}".
Definition more_tokens : list cursor := Eval vm_compute in match lex more_text no_features with Some l => l | None => [] end.
Definition mtk (i : nat) : cursor := nth i more_tokens (Cursor 0 T_EOF).
Definition more_rules : list css_rule :=
  [RDocument (mtk 0) [(DmUrl (mtk 2), Some (mtk 3)); (DmUrlPrefix (mtk 5) (mtk 6) (mtk 7), None)] (mtk 8) [] (Some (mtk 9));
   RProperty (mtk 10) (mtk 12) (mtk 13) [(Registered (mtk 14) (mtk 15) (PvInherits (chars "true", mtk 16)), Some (mtk 17)); (Registered (mtk 18) (mtk 19) (PvSyntax (mtk 20)), None)] (Some (mtk 21));
   RSupports (mtk 22) (CIs (SfProperty (mtk 24) (Property (mtk 25) (mtk 26) (SvCustom []) None) (Some (mtk 28)))) (mtk 29) [] (Some (mtk 30));
   RWebkitKeyframes (mtk 31) (mtk 33) (mtk 34) [] (Some (mtk 35))].
Lemma more_written : sheet_written more_text more_rules more_tokens.
Proof.
  unfold more_rules. change more_tokens with ([] ++ (mtk 0 :: ([mtk 1] ++ [mtk 2] ++ [] ++ mtk 3 :: ([mtk 4] ++ (mtk 5 :: [] ++ mtk 6 :: [] ++ [mtk 7]))) ++ [] ++ mtk 8 :: [] ++ [mtk 9]) ++
    [] ++ (mtk 10 :: [mtk 11] ++ mtk 12 :: [] ++ mtk 13 :: ([] ++ (mtk 14 :: [] ++ mtk 15 :: [] ++ [mtk 16]) ++ [] ++ mtk 17 :: ([] ++ (mtk 18 :: [] ++ mtk 19 :: [] ++ [mtk 20]) ++ [])) ++ [mtk 21]) ++
    [] ++ (mtk 22 :: [mtk 23] ++ (mtk 24 :: [] ++ mtk 25 :: [] ++ mtk 26 :: [mtk 27] ++ [] ++ [mtk 28]) ++ [] ++ mtk 29 :: [] ++ [mtk 30]) ++ [] ++ (mtk 31 :: [mtk 32] ++ mtk 33 :: [] ++ mtk 34 :: [] ++ [mtk 35]) ++ []).
  apply sw_cons; [g_ | | apply sw_cons; [g_ | | apply sw_cons; [g_ | | apply sw_cons; [g_ | | apply sw_none; g_]]]].
  - apply rw_document; [split; [reflexivity |]; split; vm_compute; reflexivity | | g_ | reflexivity | apply rsw_none; g_ | reflexivity].
    apply cw_cons; [g_ | apply dcw_url; reflexivity | g_ | reflexivity |]. apply cw_one; [g_ |]. apply dcw_prefix; [| g_ | g_]. split; [reflexivity |]. split; [vm_compute; reflexivity | split; reflexivity].
  - apply rw_property; [split; [reflexivity |]; split; vm_compute; reflexivity | g_ | reflexivity | reflexivity | g_ | reflexivity | | reflexivity].
    apply rds_cons; [g_ | | g_ | reflexivity | apply rds_last; [g_ | | g_]].
    + apply (rdw_inherits more_text (mtk 14) [] (mtk 15) [] (chars "true", mtk 16)); [reflexivity | vm_compute; reflexivity | g_ | reflexivity | g_ | word_].
    + apply rdw_syntax; [reflexivity | vm_compute; reflexivity | g_ | reflexivity | g_ | reflexivity].
  - apply rw_supports; [split; [reflexivity |]; split; vm_compute; reflexivity | g_ | | g_ | reflexivity | apply rsw_none; g_ | reflexivity].
    apply spw_declaration; [reflexivity | g_ | reflexivity | g_ | reflexivity | | intros w l X; discriminate X | g_ | reflexivity].
    apply vw_custom; [reflexivity |]. apply vt_plain; [vm_compute; intuition discriminate | right; split; discriminate | apply vt_nil].
  - apply rw_webkit_keyframes; [split; [reflexivity |]; split; vm_compute; reflexivity | g_ | | g_ | reflexivity | apply fsw_none; g_ | reflexivity].
    right. split; [reflexivity |]. exists (chars "k"). split; [vm_compute; reflexivity | vm_compute; intuition discriminate].
Qed.
Example C62_more_case : readable_text more_text no_features more_tokens /\ sheet_written more_text more_rules more_tokens.
Proof.
  split; [| exact more_written]. destruct (text_ok_spec more_text no_features) as (cs & A); [vm_compute; reflexivity |]. assert (E : lex more_text no_features = Some more_tokens) by (vm_compute; reflexivity).
  pose proof A as (_ & _ & _ & _ & _ & E' & _). rewrite E in E'. injection E' as <-. exact (acceptable_readable _ _ _ A).
Qed.

(* ---- a fourth case: @page with selectors, declarations and margin boxes, and @page without any ---- *)
Definition page_text : text := chars "@page a:first , :left{--x:y;@top-left{--a:b}@Bottom-Right {--c:d;}}@page{}".
Definition page_tokens : list cursor := Eval vm_compute in match lex page_text no_features with Some l => l | None => [] end.
Definition ptk (i : nat) : cursor := nth i page_tokens (Cursor 0 T_EOF).
Definition page_rules : list css_rule :=
  [RPage (ptk 0) (Some [(PageSelector (Some (ptk 2)) [(PpFirst, (ptk 3, ptk 4))], Some (ptk 6)); (PageSelector None [(PpLeft, (ptk 8, ptk 9))], None)]) (ptk 10)
     [(Property (ptk 11) (ptk 12) (SvCustom []) None, Some (ptk 14))]
     [MarginRule (ptk 15) (ptk 16, [(Property (ptk 17) (ptk 18) (SvCustom []) None, None)], Some (ptk 20));
      MarginRule (ptk 21) (ptk 23, [(Property (ptk 24) (ptk 25) (SvCustom []) None, Some (ptk 27))], Some (ptk 28))] (Some (ptk 29));
   RPage (ptk 30) None (ptk 31) [] [] (Some (ptk 32))].
Lemma page_written_ : sheet_written page_text page_rules page_tokens.
Proof.
  unfold page_rules. change page_tokens with ([] ++ (ptk 0 :: ([ptk 1] ++ (ptk 2 :: [ptk 3; ptk 4]) ++ [ptk 5] ++ ptk 6 :: ([ptk 7] ++ [ptk 8; ptk 9])) ++ [] ++ ptk 10 ::
    ([] ++ (ptk 11 :: [] ++ ptk 12 :: [ptk 13]) ++ [] ++ ptk 14 :: ([] ++ (ptk 15 :: [] ++ ptk 16 :: ([] ++ (ptk 17 :: [] ++ ptk 18 :: [ptk 19]) ++ []) ++ [ptk 20]) ++
      ([] ++ (ptk 21 :: [ptk 22] ++ ptk 23 :: ([] ++ (ptk 24 :: [] ++ ptk 25 :: [ptk 26]) ++ [] ++ ptk 27 :: []) ++ [ptk 28]) ++ []))) ++ [ptk 29]) ++ [] ++ (ptk 30 :: [] ++ ptk 31 :: [] ++ [ptk 32]) ++ []).
  apply sw_cons; [g_ | | apply sw_cons; [g_ | | apply sw_none; g_]].
  - apply rw_page_selected; [split; [reflexivity |]; split; vm_compute; reflexivity | | g_ | reflexivity | | reflexivity].
    + apply pw_more; [g_ | | g_ | reflexivity | apply pw_one; [g_ |]].
      * apply pw_type; [reflexivity |]. apply (pw_cons _ PpFirst); [reflexivity | reflexivity | vm_compute; reflexivity | apply pw_none].
      * apply pw_pseudos. apply (pw_cons _ PpLeft); [reflexivity | reflexivity | vm_compute; reflexivity | apply pw_none].
    + apply pi_declaration; [g_ | | g_ | reflexivity |].
      { apply dw_plain; [reflexivity | g_ | reflexivity |]. apply vw_custom; [reflexivity |]. apply vt_plain; [vm_compute; intuition discriminate | right; split; discriminate | apply vt_nil]. }
      apply pi_margin; [g_ | | apply pi_margin; [g_ | | apply pi_none; g_]].
      * apply (mw_of page_text _ (chars "top-left")); [reflexivity | vm_compute; reflexivity | cbn; tauto | g_ | reflexivity | | reflexivity]. apply ds_last; [g_ | | g_].
        apply dw_plain; [reflexivity | g_ | reflexivity |]. apply vw_custom; [reflexivity |]. apply vt_plain; [vm_compute; intuition discriminate | right; split; discriminate | apply vt_nil].
      * apply (mw_of page_text _ (chars "bottom-right")); [reflexivity | vm_compute; reflexivity | cbn; tauto | g_ | reflexivity | | reflexivity]. apply ds_cons; [g_ | | g_ | reflexivity | apply ds_none; g_].
        apply dw_plain; [reflexivity | g_ | reflexivity |]. apply vw_custom; [reflexivity |]. apply vt_plain; [vm_compute; intuition discriminate | right; split; discriminate | apply vt_nil].
  - apply rw_page; [split; [reflexivity |]; split; vm_compute; reflexivity | g_ | reflexivity | apply pi_none; g_ | reflexivity].
Qed.
Example C62_page_case : readable_text page_text no_features page_tokens /\ sheet_written page_text page_rules page_tokens.
Proof.
  split; [| exact page_written_]. destruct (text_read_spec page_text no_features) as (cs & A); [vm_compute; reflexivity |]. assert (E : lex page_text no_features = Some page_tokens) by (vm_compute; reflexivity).
  pose proof A as (_ & _ & _ & _ & _ & E' & _). rewrite E in E'. injection E' as <-. exact A.
Qed.

(* ---- the limits: stylesheets that CSS has and hdx reads otherwise ---- *)
Definition rules_of (s : string) : option (list css_rule) := match parse_sheet VALUES (parser_new (chars s) no_features) with Some (Ok l, _) => Some l | _ => None end.
(* two media queries, and a feature without a value, make an unknown at-rule *)
Theorem C62_media_queries_refuted : Forall (fun s => match rules_of s with Some [RUnknownAt _] => True | _ => False end) ["@media print, screen{}"; "@media (width){}"; "@media (width) or (height){}"]%string.
Proof. repeat (apply Forall_cons; [vm_compute; exact Logic.I |]). apply Forall_nil. Qed.
Print Assumptions C62_media_queries_refuted.
(* nor are the conditions of mediaqueries-5 and css-contain-3 with "not" or with three features: they are unknown at-rules, or are
   taken for two queries, the second of them without a comma before it. So is a container's name before its condition; and a feature
   of a container whose name is its fifth token is not found. The features of ratios and resolutions are not there *)
Theorem C62_conditions_refuted :
  Forall (fun s => match rules_of s with Some [RUnknownAt _] => True | _ => False end)
    ["@media (width>1px) and (width<2px) and (height>1px){}"; "@container not (width>1px){}"; "@container (1px<=width){}"; "@media (aspect-ratio:1/2){}"; "@media (min-resolution:2dppx){}"]%string /\
  match rules_of "@media not (hover){}" with Some [RMedia _ [_; _] _ _ _ _] => True | _ => False end /\
  match rules_of "@container a (width>1px){}" with Some [RContainer _ [_; _] _ _ _] => True | _ => False end.
Proof. split; [repeat (apply Forall_cons; [vm_compute; exact Logic.I |]); apply Forall_nil | split; vm_compute; exact Logic.I]. Qed.
Print Assumptions C62_conditions_refuted.
(* a style rule in a block whose selector begins with a name and a colon is a declaration, with the block as its value *)
Theorem C62_nested_rule_refuted : match rules_of "a{b:hover{}}" with Some [RStyle _ _ [(d, None)] [] _] => exists o c, pr_value d = SvUnknown [o; c] | _ => False end.
Proof. vm_compute. eexists _, _. reflexivity. Qed.
Print Assumptions C62_nested_rule_refuted.
(* of the semicolons before a rule, blocks of rules pass over one *)
Theorem C62_semicolons_refuted : match rules_of "@layer{;a{}}", rules_of "@layer{;;a{}}" with Some [RLayer _ _ _ [RStyle _ _ _ _ _] _], Some [RLayer _ _ _ [RUnknown _] _] => True | _, _ => False end.
Proof. vm_compute. exact Logic.I. Qed.
Print Assumptions C62_semicolons_refuted.
(* the initial value of a registered property has the descriptors after it *)
Theorem C62_registered_refuted : match rules_of "@property --a{initial-value:red;inherits:false}" with Some [RProperty _ _ _ [(d, None)] (Some _)] => exists a b c e g, rg_value d = PvInitial [a; b; c; e; g] | _ => False end.
Proof. vm_compute. eexists _, _, _, _, _. reflexivity. Qed.
Print Assumptions C62_registered_refuted.
(* in a condition of @supports the value of a known property is not read as such, though it is in a declaration; and conditions with
   "not", "and" or "or", or in parentheses, make an unknown at-rule *)
Theorem C62_supports_refuted :
  match rules_of "@supports (float:left){}", rules_of "a{float:left}" with
  | Some [RSupports _ (CIs (SfProperty _ d (Some _))) _ _ _], Some [RStyle _ _ [(d', _)] _ _] => (exists l, pr_value d = SvUnknown l) /\ exists l, pr_value d' = SvKnown (chars "float") l
  | _, _ => False
  end /\
  Forall (fun s => match rules_of s with Some [RUnknownAt _] => True | _ => False end) ["@supports not (--a:b){}"; "@supports (--a:b) and (--c:d){}"; "@supports selector(a) or selector(b){}"; "@supports ((--a:b)){}"]%string.
Proof. split; [vm_compute; split; eexists; reflexivity | repeat (apply Forall_cons; [vm_compute; exact Logic.I |]); apply Forall_nil]. Qed.
Print Assumptions C62_supports_refuted.
(* domain(), media-document() and regexp() are taken for url-prefix() *)
Theorem C62_document_refuted : Forall (fun s => match rules_of s with Some [RDocument _ [(DmUrlPrefix _ _ _, None)] _ _ _] => True | _ => False end)
  ["@document domain('a'){}"; "@document media-document('video'){}"; "@document regexp('a'){}"]%string.
Proof. repeat (apply Forall_cons; [vm_compute; exact Logic.I |]). apply Forall_nil. Qed.
Print Assumptions C62_document_refuted.
(* a semicolon of its own in the block of @page, or in that of a margin box, makes an unknown at-rule *)
Theorem C62_page_refuted : Forall (fun s => match rules_of s with Some [RUnknownAt _] => True | _ => False end) ["@page{;--a:b}"; "@page{--a:b;;--c:d}"; "@page{@top-left{;}}"]%string.
Proof. repeat (apply Forall_cons; [vm_compute; exact Logic.I |]). apply Forall_nil. Qed.
Print Assumptions C62_page_refuted.
