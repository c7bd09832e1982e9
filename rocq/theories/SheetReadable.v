(* Stylesheets: every token of a source text can be read. *)
From Coq Require Import ZifyBool ZifyNat ZifyN.
From Coq Require Import List.
From Verif Require Import Selectors SpecLex SpecTrace SpecParser SpecSyntax SpecTraits SpecFeatures SpecSelectors SpecCursor SpecToken LexBase TokenProofs KindProofs LexFacts LexTrace LexLimits
  LexKinds ScanProofs ScanProofs2 ScanProofs3 LexProps LexProps2 LexProps3 DimProofs NumProofs CursorProofs CursorLex CursorFacts NthLex
  ParserProofs ParserProofs2 ParserProofs3 ParserProofs4 CompareProofs SyntaxProofs SyntaxTotal TraitsTotal RulesTotal FeatureProofs SelectorProofs SpanProofs WriteProofs AstSheet SpecSheet.
Open Scope N_scope.
Open Scope list_scope.

Section Laid.
Variables (pre : text) (t : token) (lead content trail r : text).
Hypothesis L1 : leading_len t = blen lead.
Hypothesis L2 : trailing_len t = blen trail.
Hypothesis L3 : tlen t = blen (lead ++ content ++ trail).
Hypothesis ND : blen pre <> DUMMY_OFFSET.
Lemma laid_bounds : text_start (Cursor (blen pre) t) = blen (pre ++ lead) /\ text_end (Cursor (blen pre) t) = Some (blen (pre ++ lead) + blen content).
Proof.
  unfold text_start, text_end, cend. cbn [coff ctok].
  replace (blen pre =? DUMMY_OFFSET) with false by lia. rewrite L1, L2, L3, !blen_app.
  replace (blen pre + (blen lead + (blen content + blen trail)) <? blen trail) with false by lia. split; [reflexivity |]. f_equal. lia.
Qed.
Lemma str_laid : (contains_escape_chars t = true -> exists v, css_value (is_string_tok t) content (trail ++ r) v) -> parse_str (Cursor (blen pre) t) (pre ++ lead ++ content ++ trail ++ r) <> None.
Proof.
  intro Hv. destruct laid_bounds as (B1 & B2). unfold parse_str. rewrite B1, B2. cbn [ctok]. rewrite layout_slice. destruct (contains_escape_chars t) eqn:E; cbn [negb]; [| discriminate].
  destruct (Hv eq_refl) as (v & Hw).
  replace (pre ++ lead ++ content ++ trail ++ r) with ((pre ++ lead) ++ [] ++ content ++ trail ++ r) by (rewrite <- app_assoc; reflexivity).
  replace (blen (pre ++ lead) + blen content) with (blen (pre ++ lead) + blen [] + blen content) by (cbn [blen]; lia). change 0 with (blen []).
  rewrite (parse_str_loop_spec _ _ _ _ Hw) by lia. discriminate.
Qed.
Lemma eq_laid : (contains_escape_chars t = true -> is_string_tok t = false /\ ~ In 0 content /\ exists v, css_value false content (trail ++ r) v) -> forall w, eq_ignore_ascii_case (Cursor (blen pre) t) (pre ++ lead ++ content ++ trail ++ r) w <> None.
Proof.
  intros Hv w. destruct laid_bounds as (B1 & B2). unfold eq_ignore_ascii_case. rewrite B1, B2. cbn [ctok]. rewrite layout_slice. destruct (contains_escape_chars t) eqn:E; cbn [negb].
  - destruct (Hv eq_refl) as (Es & N0 & v & Hw). rewrite Es.
    replace (pre ++ lead ++ content ++ trail ++ r) with ((pre ++ lead) ++ [] ++ content ++ trail ++ r) by (rewrite <- app_assoc; reflexivity).
    replace (blen (pre ++ lead) + blen content) with (blen (pre ++ lead) + blen [] + blen content) by (cbn [blen]; lia). change 0 with (blen []).
    rewrite (eq_loop_spec _ _ _ Hw N0) by lia. discriminate.
  - replace (blen (pre ++ lead) + blen content <? blen (pre ++ lead)) with false by lia. destruct (negb _); [discriminate |]. destruct (is_lower_case t); discriminate.
Qed.
End Laid.

Lemma numeric_read : forall f pre l t, well_behaved (single_line_comments f) l -> ~ In 0 l -> blen (pre ++ l) < 4294967296 -> token_at f pre l t ->
  tkind t = K_Number \/ tkind t = K_Dimension -> parse_str (Cursor (blen pre) t) (pre ++ l) <> None /\ forall w, eq_ignore_ascii_case (Cursor (blen pre) t) (pre ++ l) w <> None.
Proof.
  intros f pre l t WB H0 HB T K. assert (Hn : l <> []) by (apply (numeric_nonempty f pre l t T); destruct K; congruence). pose proof (u32_not_dummy _ _ Hn HB) as ND.
  pose proof (number_only f pre l t WB Hn T K) as W. pose proof WB as (He & WL & SV & _).
  destruct (number_token f pre l t W WL He T) as (p & r & HL & NL & _). destruct (dimension_token f pre l t p r W WL He SV H0 T HL) as (D1 & D2 & D3).
  pose proof HL as (El & Cn & _). pose proof (number_char p Cn) as Fp.
  assert (Cases : (starts (eq 37) r \/ would_start_ident r) \/ (~ starts (eq 37) r /\ ~ would_start_ident r)).
  { destruct (number_scan f pre l t W T) as (r0 & V). destruct V as [p' r' fl v Hl Hf Hv Hs Hi | p' r' fl v Hl Hf Hv | p' r1 fl v u n ps r' Hl Hf Hv Hi Hp Hq Hu Hu'];
      destruct (longest_det _ _ _ _ _ HL Hl) as (<- & Er); subst.
    - right. split; [exact Hs |]. intro Q. rewrite start_sequence_complete in Hi; [discriminate | | exact Q]. intro I. apply H0. apply in_or_app. now right.
    - left. left. exists 37, r'. auto.
    - left. right. now apply start_sequence_sound. }
  assert (ST : is_string_tok t = false) by (unfold is_string_tok; destruct K as [K | K]; rewrite (kind_bits_of t _ K ltac:(discriminate)); reflexivity).
  assert (TR : trailing_len t = 0) by (unfold trailing_len; destruct K as [K | K]; rewrite K; reflexivity).
  assert (X : exists lead content r', l = lead ++ content ++ [] ++ r' /\ leading_len t = blen lead /\ tlen t = blen (lead ++ content ++ []) /\ exists v, css_value false content r' v).
  { destruct Cases as [[Q | Q] | (Q & Q')].
    - destruct (D1 Q) as (K' & _ & LT). destruct Q as (c & r' & -> & <-).
      exists p, [37], r'. split; [exact El |]. split; [unfold leading_len; rewrite K'; exact NL |]. split; [rewrite app_nil_r, blen_app; exact LT |]. apply chars_value; [repeat constructor; lia | discriminate].
    - destruct (D2 Q) as (K' & ps & r' & Hp & LT & _). pose proof (ident_pieces_app _ _ _ Hp) as Er. destruct (ident_css _ _ _ Hp) as (v & Hv). exists p, (pieces_text ps), r'.
      split; [now rewrite El, Er |]. split; [unfold leading_len; rewrite K'; exact NL |]. split; [rewrite app_nil_r, blen_app; exact LT |]. eauto.
    - destruct (D3 Q Q') as (K' & LT). exists [], p, r. split; [exact El |]. split; [unfold leading_len; rewrite K'; reflexivity |]. split; [cbn [app]; rewrite app_nil_r; exact LT |]. apply chars_value; [exact Fp | discriminate]. }
  clear El. destruct X as (lead & content & r' & El & Q1 & Q2 & v & Hv). assert (N0 : ~ In 0 content) by (intro I; apply H0; rewrite El; apply in_or_app; right; apply in_or_app; now left).
  rewrite El. split.
  - apply str_laid; [exact Q1 | exact TR | exact Q2 | exact ND |]. intros _. rewrite ST. eauto.
  - apply eq_laid; [exact Q1 | exact TR | exact Q2 | exact ND |]. intros _. eauto.
Qed.
Lemma kinds_split : forall k, k <> K_Eof -> In k texty \/ (k = K_Number \/ k = K_Dimension) \/ (~ In k texty /\ ~ (k = K_Number \/ k = K_Dimension) /\ k <> K_Comment) \/ k = K_Comment.
Proof. intros k N. destruct k; cbn; try tauto; right; right; left; (split; [intuition discriminate | split; [intuition discriminate | discriminate]]). Qed.
Lemma no_escapes : forall t, tkind t <> K_Eof -> ~ In (tkind t) texty -> ~ (tkind t = K_Number \/ tkind t = K_Dimension) -> contains_escape_chars t = false.
Proof.
  intros t N A B. pose proof (kind_bits_of t _ eq_refl N) as E. unfold contains_escape_chars, can_escape, is_ident_like. rewrite E.
  destruct (tkind t); try reflexivity; exfalso; first [apply N; reflexivity | apply B; tauto | apply A; cbn; tauto].
Qed.
Lemma block_is_block : forall l, comment_is_block (block_comment_style l) = true.
Proof. intro l. unfold block_comment_style. cbv zeta. destruct (_ && _); [reflexivity |]. destruct (_ =? 35); [reflexivity |]. destruct (_ =? 33); [reflexivity |]. destruct (_ || _); reflexivity. Qed.
Lemma single_is_not : forall l, comment_is_block (single_comment_style l) = false.
Proof. intro l. unfold single_comment_style. cbv zeta. destruct (_ =? 42); [reflexivity |]. destruct (_ =? 33); reflexivity. Qed.
Lemma token_readable : forall f pre l t, well_behaved (single_line_comments f) l -> ~ In 0 l -> Forall (fun c => valid_char c = true) l -> blen (pre ++ l) < 4294967296 -> l <> [] -> token_at f pre l t ->
  (tkind t = K_Url -> url_limits l) -> (tkind t = K_Comment -> closed_comment (pre ++ l) (Cursor (blen pre) t)) -> text_readable (pre ++ l) (Cursor (blen pre) t).
Proof.
  intros f pre l t WB H0 HV HB Hn T UL CC. pose proof (u32_not_dummy _ _ Hn HB) as ND. destruct (kind_shape f pre l t WB Hn T) as (r & Sh & V).
  destruct (view_extent _ _ _ _ V WB) as (p & El & Hp & LT & KE). pose proof (cursor_slice pre p r t LT ND) as Sl. rewrite <- El in Sl. unfold text_readable, kind_of. cbn [ctok]. rewrite Sl.
  assert (Plain : leading_len t = 0 -> trailing_len t = 0 -> contains_escape_chars t = false -> parse_str (Cursor (blen pre) t) (pre ++ l) <> None).
  { intros Q1 Q2 Q3. rewrite El. apply (str_laid pre t [] p [] r); [exact Q1 | exact Q2 | cbn [app]; rewrite app_nil_r; exact LT | exact ND | intro X; rewrite Q3 in X; discriminate X]. }
  assert (Texty : In (tkind t) texty -> parse_str (Cursor (blen pre) t) (pre ++ l) <> None).
  { intro Kt. destruct (value_exists f pre l t WB H0 UL T Kt) as (v & Sv). rewrite (value_parse_str f pre l t WB H0 UL HB T Kt v Sv). discriminate. }
  split; [| split; [| split; [discriminate |]]].
  - intro W. assert (K : is_name (tkind t) \/ tkind t = K_Number \/ tkind t = K_Dimension) by (unfold is_name; cbn [In]; inversion W; tauto). destruct K as [K | K].
    + assert (Kt : In (tkind t) texty) by (unfold is_name in K; cbn in K |- *; tauto).
      destruct (value_exists f pre l t WB H0 UL T Kt) as (v & Sv). split.
      * intro w. destruct (eq_returns f pre l t WB H0 HB T K w) as (b & ->). discriminate.
      * rewrite (value_lower f pre l t WB H0 UL HB T Kt v Sv). discriminate.
    + split; [apply (numeric_read f pre l t WB H0 HB T K) |]. destruct (numeric_readable f pre l t WB H0 HB T K) as (v & ->). discriminate.
  - destruct (kinds_split (tkind t) KE) as [K | [K | [(K1 & K2 & K3) | K]]]; [exact (Texty K) | exact (proj1 (numeric_read f pre l t WB H0 HB T K)) | |].
    { apply Plain; [| | apply no_escapes; [exact KE | exact K1 | exact K2]]; [unfold leading_len | unfold trailing_len]; destruct (tkind t); try reflexivity; exfalso; first [apply K3; reflexivity | apply K2; tauto | apply K1; cbn; tauto]. }
    (* comments *)
    assert (CE : contains_escape_chars t = false) by (apply no_escapes; [exact KE | |]; rewrite K; [intro X; cbn in X; intuition discriminate | intros [X | X]; discriminate X]).
    unfold shape in Sh. rewrite K in Sh. destruct Sh as [(l' & q & El' & Bc & ->) | (q & Fs & El' & Fq & _ & ->)].
    + destruct (comment_read (block_comment_style l') (blen q)) as (_ & Lq & St). rewrite Lq in LT.
      destruct (CC K) as (w & Sw & Cw). rewrite Sw in Sl. apply some_inj in Sl. subst w. destruct Cw as [(b & ->) | (b & ->)]; [exfalso; rewrite El' in El; cbn [app] in El; injection El; discriminate |].
      rewrite El. replace (pre ++ (47 :: 42 :: b ++ [42; 47]) ++ r) with (pre ++ [47; 42] ++ b ++ [42; 47] ++ r) by (cbn [app]; rewrite <- app_assoc; reflexivity).
      apply str_laid; [unfold leading_len; rewrite K; reflexivity | unfold trailing_len; rewrite K, St, block_is_block; reflexivity | rewrite Lq, LT; reflexivity | exact ND | intro X; rewrite CE in X; discriminate X].
    + destruct (comment_read (single_comment_style (q ++ r)) (2 + N.of_nat (length q))) as (_ & Lq & St).
      assert (exists b, p = 47 :: 47 :: b). { rewrite El' in El. destruct p as [| a [| b p]]; cbn [app] in El. 1: congruence. 1: { exfalso. injection El as <- E. rewrite Lq in LT. change (blen [47]) with 1 in LT. lia. } injection El as <- <- _. eauto. }
      destruct H as (b & ->). rewrite El. cbn [app]. replace (pre ++ 47 :: 47 :: b ++ r) with (pre ++ [47; 47] ++ b ++ [] ++ r) by reflexivity.
      apply str_laid; [unfold leading_len; rewrite K; reflexivity | unfold trailing_len; rewrite K, St, single_is_not; reflexivity | rewrite app_nil_r; exact LT | exact ND | intro X; rewrite CE in X; discriminate X].
  - intro K. destruct (delim_token f pre l t WB Hn HV T) as (c & r' & _ & Q & _); [rewrite K; cbn; tauto | congruence].
Qed.
Lemma tokens_readable : forall src f cs, readable_text src f cs -> Forall (text_readable src) cs.
Proof.
  intros src f cs (W & H0 & HV & HB & UL & E & CC). destruct (lex_tiles_at src f W) as (cs' & E' & _ & _ & H). rewrite E in E'. injection E' as <-.
  rewrite Forall_forall in CC. apply Forall_forall. intros c I. destruct c as [o t]. pose proof (CC _ I) as Cc. destruct (H o t I) as (a & b & -> & -> & Hb & T).
  apply (token_readable f a b t); [exact (well_behaved_suffix _ _ _ W) | intro Q; apply H0, in_or_app; now right | apply Forall_app in HV; apply HV | exact HB | exact Hb | exact T | intros _; exact (UL a b eq_refl) | exact Cc].
Qed.
Lemma fresh_stands {M : mode} : forall src f cs, well_behaved (single_line_comments f) src -> lex src f = Some cs -> supported src cs -> stands src f (parser_new src f) cs.
Proof.
  intros src f cs W E Sup. destruct (fresh_ahead src f W) as (all & A & E'). rewrite E in E'. injection E' as <-.
  split; [reflexivity |]. split; [reflexivity |]. split; [exact A |]. split; [exact Sup |]. intros k Hk. change (pskip (parser_new src f)) with KS_TRIVIA in Hk. destruct k; cbn in Hk; try discriminate; auto.
Qed.
Lemma readable_stands : forall src f cs, readable_text src f cs -> stands (M := false) src f (parser_new src f) cs.
Proof.
  intros src f cs A. pose proof (tokens_readable src f cs A) as R. destruct A as (W & _ & _ & _ & _ & E & _). apply (fresh_stands src f cs W E).
  split; [eapply Forall_impl; [| exact R]; intros c X; split; [exact X | discriminate] | discriminate].
Qed.
Lemma acceptable_readable : forall src f cs, acceptable src f cs -> readable_text src f cs.
Proof. intros src f cs (W & H0 & HV & HB & UL & E & CC & _). unfold readable_text. auto 10. Qed.
Lemma acceptable_stands : forall src f cs, acceptable src f cs -> stands_finished src f (parser_new src f) cs.
Proof.
  intros src f cs A. pose proof (tokens_readable src f cs (acceptable_readable src f cs A)) as R. destruct A as (W & _ & _ & _ & _ & E & _ & NU & PC). apply (fresh_stands src f cs W E). split; [| intros _; exact PC].
  rewrite Forall_forall in *. intros c I. split; [exact (R c I) | intros _; exact (NU c I)].
Qed.
