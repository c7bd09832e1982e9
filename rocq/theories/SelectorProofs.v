(* Selectors: the parsers they are read from. *)
From Coq Require Import ZifyBool ZifyNat ZifyN.
From Coq Require Import List.
From Verif Require Import Selectors SpecLex SpecTrace SpecParser SpecSyntax SpecTraits SpecFeatures SpecSelectors SpecCursor SpecToken LexBase TokenProofs KindProofs LexFacts LexTrace LexLimits
  LexKinds ScanProofs ScanProofs2 ScanProofs3 LexProps LexProps2 LexProps3 DimProofs NumProofs CursorProofs CursorLex CursorFacts NthLex
  ParserProofs ParserProofs2 ParserProofs3 ParserProofs4 CompareProofs SyntaxProofs SyntaxTotal TraitsTotal RulesTotal FeatureProofs FeatureProofs2 FeatureProofs3 FeatureProofs4 FeatureProofs5 FeatureProofs6.
Open Scope N_scope.
Open Scope list_scope.

Lemma numeric_nonempty : forall f pre l t, token_at f pre l t -> tkind t <> K_Eof -> l <> [].
Proof.
  intros f pre l t T K ->. destruct (T T_EOF) as (x & E). unfold lexer_advance in E. cbn [lsrc loff lfeat] in E. rewrite app_nil_r in E. unfold read_next_token in E. rewrite N.eqb_refl in E.
  assert (t = T_EOF) by congruence. subst t. now apply K.
Qed.

Lemma number_char : forall p, css_number p -> Forall (fun c => c <> 92 /\ c <> 0) p.
Proof.
  intros p (s & m & x & -> & Hs & Hm & Hx).
  assert (D : forall ds, digits ds -> Forall (fun c => c <> 92 /\ c <> 0) ds) by (intros ds Hd; eapply Forall_impl; [| exact Hd]; unfold digit; lia).
  assert (S0 : forall s, opt_sign s -> Forall (fun c => c <> 92 /\ c <> 0) s) by (intros z [-> | [-> | ->]]; repeat constructor; lia).
  apply Forall_app. split; [now apply S0 |]. apply Forall_app. split.
  - destruct Hm as [(_ & Q) | (i & f & -> & Q & _ & F)]; [now apply D |]. apply Forall_app. split; [now apply D |]. constructor; [lia | now apply D].
  - destruct Hx as [-> | (e & s' & d & -> & He & Hs' & _ & Q)]; [constructor |]. constructor; [lia |]. apply Forall_app. split; [now apply S0 | now apply D].
Qed.
Lemma chars_value : forall b p r, Forall (fun c => c <> 92 /\ c <> 0) p -> (b = true -> Forall (fun c => ~ newline c) p) -> exists v, css_value b p r v.
Proof.
  intros b p r F G. induction F as [| c p (H1 & H2) F IH]; [exists []; constructor |]. destruct IH as (v & Hv); [intro Q; specialize (G Q); now inversion G |].
  eexists. apply va_char; [exact H1 | | exact Hv]. intro Q. specialize (G Q). now inversion G.
Qed.
Lemma lower_laid : forall pre t lead content r v, leading_len t = blen lead -> trailing_len t = 0 -> tlen t = blen (lead ++ content) -> is_lower_case t = false -> blen pre <> DUMMY_OFFSET ->
  css_value (is_string_tok t) content r v -> exists w, parse_str_lower (Cursor (blen pre) t) (pre ++ lead ++ content ++ r) = Some w.
Proof.
  intros pre t lead content r v L1 L2 L3 LO Hd Hv. unfold parse_str_lower. cbn [ctok]. rewrite LO.
  assert (B1 : text_start (Cursor (blen pre) t) = blen (pre ++ lead)) by (unfold text_start; cbn [coff ctok]; rewrite L1, blen_app; reflexivity).
  assert (B2 : text_end (Cursor (blen pre) t) = Some (blen (pre ++ lead) + blen content)).
  { unfold text_end, cend. cbn [coff ctok]. replace (blen pre =? DUMMY_OFFSET) with false by lia. rewrite L2, L3, !blen_app.
    replace (blen pre + (blen lead + blen content) <? 0) with false by lia. f_equal. lia. }
  rewrite B1, B2. pose proof (layout_slice pre lead content [] r) as Sl. cbn [app] in Sl. rewrite Sl.
  replace (pre ++ lead ++ content ++ r) with ((pre ++ lead) ++ [] ++ content ++ r) by (rewrite <- app_assoc; reflexivity).
  replace (blen (pre ++ lead) + blen content) with (blen (pre ++ lead) + blen [] + blen content) by (cbn [blen]; lia). change 0 with (blen []).
  rewrite (parse_str_lower_loop_spec _ _ _ _ Hv) by lia. eexists. reflexivity.
Qed.
Lemma numeric_readable : forall f pre l t, well_behaved (single_line_comments f) l -> ~ In 0 l -> blen (pre ++ l) < 4294967296 -> token_at f pre l t ->
  tkind t = K_Number \/ tkind t = K_Dimension -> exists v, parse_str_lower (Cursor (blen pre) t) (pre ++ l) = Some v.
Proof.
  intros f pre l t WB H0 HB T K. assert (Hn : l <> []) by (apply (numeric_nonempty f pre l t T); destruct K; congruence). pose proof (u32_not_dummy _ _ Hn HB) as ND.
  pose proof (number_only f pre l t WB Hn T K) as W. pose proof WB as (He & WL & SV & _).
  destruct (number_token f pre l t W WL He T) as (p & r & HL & NL & _). destruct (dimension_token f pre l t p r W WL He SV H0 T HL) as (D1 & D2 & D3).
  pose proof HL as (El & Cn & _). pose proof (number_char p Cn) as Fp.
  assert (Cases : (starts (eq 37) r \/ would_start_ident r) \/ (~ starts (eq 37) r /\ ~ would_start_ident r)).
  { destruct (number_scan f pre l t W T) as (r0 & V). destruct V as [p' r' fl v Hl Hf Hv Hs Hi | p' r' fl v Hl Hf Hv | p' r1 fl v u n ps r' Hl Hf Hv Hi Hp Hq Hu Hu'];
      destruct (longest_det _ _ _ _ _ HL Hl) as (<- & Er); subst.
    - right. split; [exact Hs |]. intro Q. rewrite start_sequence_complete in Hi; [discriminate | | exact Q]. intro I. apply H0. apply in_or_app. now right.
    - left. left. exists 37, r'. auto.
    - left. right. now apply start_sequence_sound. }
  assert (ST : is_string_tok t = false) by (unfold is_string_tok; destruct K as [K | K]; rewrite (kind_bits_of t _ K ltac:(discriminate)); reflexivity).
  assert (LO : is_lower_case t = false) by (unfold is_lower_case, is_ident_like; destruct K as [K | K]; rewrite (kind_bits_of t _ K ltac:(discriminate)); reflexivity).
  assert (TR : trailing_len t = 0) by (unfold trailing_len; destruct K as [K | K]; rewrite K; reflexivity).
  destruct Cases as [[Q | Q] | (Q & Q')].
  - destruct (D1 Q) as (K' & _ & LT). destruct Q as (c & r' & -> & <-).
    destruct (chars_value false [37] r') as (v & Hv); [repeat constructor; lia | discriminate |]. rewrite El.
    apply (lower_laid pre t p [37] r' v); [unfold leading_len; rewrite K'; exact NL | exact TR | rewrite blen_app; exact LT | exact LO | exact ND | rewrite ST; exact Hv].
  - destruct (D2 Q) as (K' & ps & r' & Hp & LT & _). pose proof (ident_pieces_app _ _ _ Hp) as Er. destruct (ident_css _ _ _ Hp) as (v & Hv). rewrite El, Er.
    apply (lower_laid pre t p (pieces_text ps) r' v); [unfold leading_len; rewrite K'; exact NL | exact TR | rewrite blen_app; exact LT | exact LO | exact ND | rewrite ST; exact Hv].
  - destruct (D3 Q Q') as (K' & LT). destruct (chars_value false p r Fp) as (v & Hv); [discriminate |]. rewrite El.
    apply (lower_laid pre t [] p r v); [unfold leading_len; rewrite K'; reflexivity | exact TR | exact LT | exact LO | exact ND | rewrite ST; exact Hv].
Qed.
Lemma colon_readable : forall f pre l t, well_behaved (single_line_comments f) l -> Forall (fun c => valid_char c = true) l -> blen (pre ++ l) < 4294967296 -> token_at f pre l t -> tkind t = K_Colon ->
  exists v, parse_str (Cursor (blen pre) t) (pre ++ l) = Some v.
Proof.
  intros f pre l t WB HV HB T K. assert (Hn : l <> []) by (apply (numeric_nonempty f pre l t T); congruence). pose proof (u32_not_dummy _ _ Hn HB) as ND.
  destruct (kind_shape f pre l t WB Hn T) as (r & Sh & _). unfold shape in Sh. rewrite K in Sh. destruct Sh as (c & -> & Hc).
  pose proof (kind_bits_of t _ K ltac:(discriminate)) as KB.
  assert (LT : tlen t = len_utf8 c).
  { destruct Hc as [I | (-> & Q & _)]; [destruct (constants_read _ _ I) as (_ & Q1 & Q2 & _); congruence |]. exfalso. inversion HV; subst. destruct (delim_read c ltac:(assumption)) as (Kd & _). congruence. }
  unfold parse_str, text_end, text_start, cend. cbn [coff ctok]. replace (blen pre =? DUMMY_OFFSET) with false by lia. unfold leading_len, trailing_len. rewrite K.
  assert (Z : (blen pre + tlen t <? 0) = false) by (apply N.ltb_ge; lia). rewrite Z. assert (CE : contains_escape_chars t = false) by (unfold contains_escape_chars, can_escape, is_ident_like; rewrite KB; reflexivity). rewrite CE. cbn [negb].
  pose proof (layout_slice pre [] [c] [] r) as Sl. cbn [app] in Sl. rewrite app_nil_r in Sl. rewrite LT. rewrite N.sub_0_r. change (blen pre + 0) with (blen pre + 0). rewrite N.add_0_r.
  cbn [blen] in Sl. rewrite N.add_0_r in Sl. eexists. exact Sl.
Qed.
Lemma constant_chars : forall c t, In (c, t) punctuation_constants -> tkind t = K_Delim \/ In c [58; 59; 44; 91; 93; 40; 41; 123; 125].
Proof.
  intros c t I. assert (B : forallb (fun x => kind_eqb (tkind (snd x)) K_Delim || existsb (N.eqb (fst x)) [58; 59; 44; 91; 93; 40; 41; 123; 125]) punctuation_constants = true) by (vm_compute; reflexivity).
  rewrite forallb_forall in B. specialize (B _ I). cbn [fst snd] in B. apply Bool.orb_true_iff in B. destruct B as [B | B]; [left; now apply kind_eqb_eq | right].
  apply existsb_exists in B. destruct B as (x & Ix & E). apply N.eqb_eq in E. now subst.
Qed.
Lemma other_chars : forall f pre l t, well_behaved (single_line_comments f) l -> Forall (fun c => valid_char c = true) l -> l <> [] -> token_at f pre l t ->
  tkind t = K_Delim \/ tchar t = None \/ exists ch, In ch [58; 59; 44; 91; 93; 40; 41; 123; 125] /\ tchar t = Some ch.
Proof.
  intros f pre l t WB HV Hn T. destruct (in_dec kind_eq_dec (tkind t) doc_delim_like) as [D | D].
  - destruct (kind_shape f pre l t WB Hn T) as (r & S & _). apply (delim_kind _ D) in S; [| reflexivity]. destruct S as (c & -> & [I | (-> & _)]).
    + destruct (constants_read _ _ I) as (A & _). destruct (constant_chars _ _ I) as [K | J]; [now left | right; right; eauto].
    + left. inversion HV; subst. exact (proj1 (delim_read c ltac:(assumption))).
  - right. left. destruct (kind_eq_dec (tkind t) K_Eof) as [Ke | Ke].
    + destruct (kind_shape f pre l t WB Hn T) as (r & S & _). unfold shape in S. rewrite Ke in S. destruct S.
    + unfold tchar. destruct (is_delim_like t) eqn:E; [| reflexivity]. apply delim_like_spec in E; [contradiction | now apply wf_of_kind].
Qed.
Theorem reached_signs : forall src f p, well_behaved (single_line_comments f) src -> ~ In 0 src -> Forall (fun c => valid_char c = true) src -> blen src < 4294967296 ->
  reached_parser src f p -> signs_readable p.
Proof.
  intros src f p W H0 HV HB R. destruct (reached_stream src f p W R) as (all & don & cs & E & -> & A & S1 & S2). intros cs' c A' I. rewrite (ahead_det _ _ A _ A') in I. rewrite S1.
  destruct (lex_tiles_at src f W) as (all & E' & _ & _ & H). rewrite E in E'. injection E' as <-. destruct c as [o t]. unfold kind_of. cbn [ctok].
  destruct (H o t) as (a & b & -> & -> & Hb & T); [apply in_or_app; now right |].
  pose proof (well_behaved_suffix _ _ _ W) as WB. assert (H0' : ~ In 0 b) by (intro Q; apply H0, in_or_app; now right). apply Forall_app in HV.
  split; [| split; [| split]].
  - exact (numeric_readable f a b t WB H0' HB T).
  - exact (colon_readable f a b t WB (proj2 HV) HB T).
  - intro K. assert (Hn : b <> []) by (apply (numeric_nonempty f a b t T); congruence).
    destruct (delim_token f a b t WB Hn (proj2 HV) T) as (c & r & _ & Q & _); [rewrite K; cbn; tauto | congruence].
  - exact (other_chars f a b t WB (proj2 HV) Hb T).
Qed.
Theorem reached_ready : forall src f p, well_behaved (single_line_comments f) src -> ~ In 0 src -> Forall (fun c => valid_char c = true) src -> blen src < 4294967296 ->
  reached_parser src f p -> pskip p = KS_TRIVIA -> ready p.
Proof. intros src f p W H0 HV HB R Sk. split; [exact (usual_reached src f p W H0 HB R Sk) | exact (reached_signs src f p W H0 HV HB R)]. Qed.
