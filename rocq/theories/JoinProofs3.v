(* C23: putting the text of a token before other text. *)
From Coq Require Import ZifyBool ZifyNat ZifyN.
From Verif Require Import Lexer SpecToken SpecLex SpecTrace SpecWrite LexBase TokenProofs KindProofs ScanProofs ScanProofs2 ScanProofs3 NumProofs DimProofs LexProofs LexFacts LexKinds LexProps LexProps2 LexProps3 LexTrace LexUrl CursorFacts RestProofs RestProofs2 JoinProofs JoinProofs2.
Open Scope N_scope.
Open Scope list_scope.

Lemma prefix_blen : forall (a b r s : list N), a ++ r = b ++ s -> blen a = blen b -> a = b /\ r = s.
Proof.
  induction a as [| c a IH]; intros [| d b] r s E L; cbn in *.
  - auto.
  - pose proof (len_utf8_pos d). lia.
  - pose proof (len_utf8_pos c). lia.
  - inversion E; subst. destruct (IH b r s H1) as (-> & ->); [lia | auto].
Qed.
Lemma delim_scan : forall f c y, c <> 0 -> esc_ok (c :: y) -> ~ would_start_ident (c :: y) -> ~ would_start_number (c :: y) -> ~ white c -> ~ quote c ->
  (c < 128 -> nth (N.to_nat c) SINGLE_CHAR_TOKENS T_EOF = T_EOF) -> ~ In c [45; 60; 35; 64; 92; 47] -> scan_token f (c :: y) = Some (new_delim c).
Proof.
  intros f c y C0 He WI WN Cw Cq Ct Cl. destruct (scan_spec f (c :: y) ltac:(discriminate) He) as (t & r & E & V). rewrite E. f_equal.
  remember (c :: y) as l eqn:El.
  destruct V as [c0 r t Hc Ht Hn | l t r W Hn V | l p r Hs Hr Hp | l p r b Hs Hp Hr | c0 l p e r Hq E2 Hb | l t r W Hn V | r | r
    | c0 r t Hi H1 H2 H3 H4 H5 H6 | c0 r H0 H1 H2 H3 H4 H5 H6 | l ps r Hi Hp | l ps r Hi Hp | l p r Hb | p r Hf Hp Hr]; try (inversion El; subst); try contradiction.
  - exfalso. now apply Hn, Ct.
  - exfalso. destruct Hr as (E1 & F & _). destruct p as [| d p]; [congruence |]. inversion E1; subst. inversion F; subst. contradiction.
  - exfalso. destruct p as [| d p]; [congruence |].
    destruct Hr as [(_ & (E1 & F & _)) | [(_ & (E1 & F & _)) | (_ & (E1 & F & _))]]; inversion E1; subst; inversion F; subst; apply Cw; unfold white; auto.
  - exfalso. apply Cl. cbn. auto.
  - exfalso. apply Cl. cbn. auto.
  - exfalso. apply Cl. cbn in Hi |- *. intuition congruence.
  - reflexivity.
  - exfalso. apply Cl. cbn. auto.
  - exfalso. apply Cl. cbn. auto.
  - exfalso. apply Cl. cbn. auto 8.
  - exfalso. apply Cl. cbn. auto 8.
Qed.
Lemma number_head : forall c y, would_start_number (c :: y) -> digit c \/ (c = 46 /\ starts digit y) \/ ((c = 43 \/ c = 45) /\ would_start_number y).
Proof.
  intros c y (s & Hs & r & E & Hr). destruct Hs as [-> | [-> | ->]]; cbn [app] in E.
  - subst r. destruct Hr as [(d & z & E & Hd) | (z & E & Hd)]; inversion E; subst; auto.
  - inversion E; subst. right. right. split; [auto |]. exists []. split; [now left |]. exists r. auto.
  - inversion E; subst. right. right. split; [auto |]. exists []. split; [now left |]. exists r. auto.
Qed.
Lemma plain_digit_number : forall y, starts digit y -> would_start_number y.
Proof. intros y S. exists []. split; [now left |]. exists y. auto. Qed.
Lemma seq_false : forall l, ~ would_start_ident l -> is_ident_start_sequence (peek_nth l 0) (peek_nth l 1) (peek_nth l 2) = false.
Proof. intros l H. destruct (is_ident_start_sequence (peek_nth l 0) (peek_nth l 1) (peek_nth l 2)) eqn:Q; [| reflexivity]. exfalso. now apply H, start_sequence_sound. Qed.
Lemma num_false : forall l, ~ would_start_number l -> is_number_start l = false.
Proof. intros l H. destruct (is_number_start l) eqn:Q; [| reflexivity]. exfalso. now apply H, number_start_spec. Qed.
Lemma block_style_swap : forall b r y, block_comment_style (b ++ 42 :: 47 :: r) = block_comment_style (b ++ 42 :: 47 :: y).
Proof. intros [| c [| d b]] r y; reflexivity. Qed.
Lemma url_percent : forall u, (u <> U_Unknown -> exists q, Forall letter q /\ (lower_text q = name_of u \/ u = U_S)) -> u <> U_Percent.
Proof.
  intros u H E. subst u. destruct H as (q & F & [Q | Q]); [discriminate | | discriminate]. destruct q as [| c [| d q]]; [discriminate | | discriminate].
  inversion F; subst. unfold lower_text in Q. cbn [map] in Q. injection Q as Q. unfold to_ascii_lowercase in Q. unfold letter, upper, lower in *.
  match type of Q with (if ?b then _ else _) = _ => destruct b end; lia.
Qed.

Lemma escape_sequence_spec : forall l, is_escape_sequence (peek_nth l 0) (peek_nth l 1) = true <-> starts_escape l.
Proof.
  intro l. rewrite starts_escape_peek. split; [intro H; split; [intros ->; rewrite peek_nil in H; discriminate | exact H] | tauto].
Qed.
Lemma string_end_rest : forall q l p e r, string_body q l p e r -> e = AtEnd -> r = [].
Proof. intros q l p e r H. induction H; intro E; try discriminate; auto. Qed.
Lemma contains_split : forall b b' x y, b ++ 42 :: 47 :: x = b' ++ 42 :: 47 :: y -> ~ contains [42; 47] (b ++ [42]) -> ~ contains [42; 47] (b' ++ [42]) -> b = b'.
Proof.
  assert (G : forall c b, ~ contains [42; 47] ((c :: b) ++ [42]) -> ~ contains [42; 47] (b ++ [42])).
  { intros c b H (u & v & E). apply H. exists (c :: u), v. cbn [app]. now rewrite E. }
  assert (Z : forall c b x y, 42 :: 47 :: x = (c :: b) ++ 42 :: 47 :: y -> ~ contains [42; 47] ((c :: b) ++ [42]) -> False).
  { intros c b x y E H. cbn [app] in E. inversion E; subst c. destruct b as [| d b]; [discriminate |]. cbn [app] in *. match goal with Q : 47 :: _ = _ |- _ => inversion Q; subst d end.
    apply H. exists [], (b ++ [42]). reflexivity. }
  induction b as [| c b IH]; intros [| d b'] x y E H1 H2.
  - reflexivity.
  - exfalso. exact (Z _ _ _ _ E H2).
  - exfalso. exact (Z _ _ _ _ (eq_sym E) H1).
  - cbn [app] in E. inversion E; subst d. f_equal. eapply IH; eauto.
Qed.
Lemma block_comment_closed_det : forall b y q r, ~ contains [42; 47] (b ++ [42]) -> block_comment (47 :: 42 :: b ++ 42 :: 47 :: y) q r -> q = 47 :: 42 :: b ++ [42; 47].
Proof.
  intros b y q r NC H. inversion H as [b' r' NC' E | b' NC' E]; subst.
  - assert (b = b') by (eapply contains_split; eauto). now subst.
  - exfalso. apply NC'. exists b, y. reflexivity.
Qed.
Lemma join : forall f pre pre2 p r y t1 t2,
  well_behaved (single_line_comments f) (p ++ r) -> well_behaved (single_line_comments f) (p ++ y) -> ~ In 0 (p ++ r) -> ~ In 0 (p ++ y) ->
  token_at f pre (p ++ r) t1 -> tlen t1 = blen p -> p <> [] -> token_at f pre2 y t2 -> needs_separator_for t1 t2 = false -> apart f t1 p r t2 y ->
  scan_token f (p ++ y) = Some t1.
Proof.
  intros f pre pre2 p r y t1 t2 WB WBY H0 Y0 T1 L1 Hp T2 NS AP.
  assert (Hnr : p ++ r <> []) by (destruct p; [congruence | discriminate]). assert (Hny : p ++ y <> []) by (destruct p; [congruence | discriminate]).
  pose proof (well_behaved_suffix _ _ _ WBY) as WY. pose proof (proj2 (no0_app _ _ Y0)) as NY0.
  assert (He : esc_ok (p ++ r)) by apply WB. assert (Hey : esc_ok (p ++ y)) by apply WBY.
  pose proof T1 as T. apply token_at_scan in T; [| exact Hnr].
  destruct (scan_spec f (p ++ r) Hnr He) as (t' & r' & E & V). rewrite E in T. inversion T. subst t'. clear T.
  destruct (view_extent _ _ _ _ V WB) as (p' & Ep & _ & L & KE). destruct (prefix_blen _ _ _ _ Ep) as (<- & <-); [lia |]. clear Ep L.
  destruct AP as [A1 A2 A3 A4 A5 A6 A7 A8 A9 A10 A11].
  remember (p ++ r) as l eqn:El.
  destruct V as [c r0 t Hc Ht Hn | l t r0 W Hn V | l q r0 Hs Hr Hq | l q r0 b Hs Hq Hr | c l q e r0 Hq E2 Hb | l t r0 W Hn V | r0 | r0
    | c r0 t Hi H1 H2 H3 H4 H5 H6 | c r0 C0 H1 H2 H3 H4 H5 H6 | l ps r0 Hi Hps | l ps r0 Hi Hps | l q r0 Hb | q r0 Hf Hq Hr].
  - change (c :: r0) with ([c] ++ r0) in El. apply split_prefix in El. subst p t. cbn [app].
    pose proof (table_chars c Hc Hn) as I. apply scan_punct; [now apply table_token |]. intro J. cbn in I, J. lia.
  - (* ident-like *)
    subst l.
    assert (KI : tkind t = K_Ident -> ~ open_escape p /\ ~ starts ident_cp y /\ ~ starts_escape y /\ ~ starts (eq 40) y).
    { intro K. split; [exact A1 |]. destruct (rule_name f pre2 y t2 WY NY0 T2 t) as (B1 & B2 & B3); [rewrite K; cbn; auto | exact NS |].
      destruct (name_tail y B1 B2) as (B4 & B5); [apply A6; left; rewrite K; cbn; auto |]. auto. }
    assert (Z : would_start_ident (p ++ y) /\ consume_ident_like_token (p ++ y) = Some (t, y)).
    { apply (like_swap p r0 y t V W H0 Y0 Hey KI).
      - intros K (tu & x & Eu & Ku). apply (A11 K). exists tu. split; [| exact Ku]. apply token_at_scan; [exact Hp |].
        assert (V' : exists ps, p = pieces_text ps ++ [40] /\ ident_pieces (p ++ r0) ps (40 :: r0)).
        { remember (p ++ r0) as l. destruct V as [ps r1 nl d e u Hps Hu Hs | ps r1 nl d e u Hps Hu Hs | ps r1 nl d e w c t r2 paren Hps Hu Hq Hw Hb | ps r1 nl d e w c t q r2 Hps Hu Hq Hw Hbr Hb].
          - destruct (ident_read nl d e (blen (pieces_text ps))) as (K' & _). congruence.
          - exists ps. split; [| exact Hps]. apply (split_prefix p r1). rewrite <- Heql, <- app_assoc. exact (ident_pieces_app _ _ _ Hps).
          - destruct (url_read_gen paren (0 <? blen w) (e || has_esc c || b_space t) (blen (pieces_text ps) + 1 + blen w) (blen t) (blen (pieces_text ps) + 1 + blen w + blen c + blen t)) as (K' & _). congruence.
          - discriminate. }
        destruct V' as (ps & -> & Hps). rewrite (scan_ident_like f _ Hp); [rewrite Eu; reflexivity | |].
        + apply start_sequence_complete; [intro I; apply H0; apply in_or_app; now left |].
          apply (open_paren_start ((pieces_text ps ++ [40]) ++ r0) ps r0 []); [now rewrite <- app_assoc | exact W | exact Hps].
        + intros z Q. rewrite Q in E. cbn [app] in E. unfold scan_token in E. cbn in E. inversion E as [E']. rewrite <- E' in K. discriminate.
      - intro K. apply A2. cbn. destruct K as [-> | ->]; auto. }
    destruct Z as (WY' & EC). rewrite (scan_ident_like f _ Hny); [rewrite EC; reflexivity | now apply start_sequence_complete |].
    intros z Q.
    assert (KD : tkind t <> K_CdcOrCdo).
    { intro K. destruct V as [ps r1 nl d e u Hps Hu Hs | ps r1 nl d e u Hps Hu Hs | ps r1 nl d e w c t r2 paren Hps Hu Hq Hw Hb | ps r1 nl d e w c t q r2 Hps Hu Hq Hw Hbr Hb].
      - destruct (ident_read nl d e (blen (pieces_text ps))) as (K' & _). congruence.
      - destruct (function_read nl d e (blen (pieces_text ps) + 1)) as (K' & _). congruence.
      - destruct (url_read_gen paren (0 <? blen w) (e || has_esc c || b_space t) (blen (pieces_text ps) + 1 + blen w) (blen t) (blen (pieces_text ps) + 1 + blen w + blen c + blen t)) as (K' & _). congruence.
      - discriminate. }
    destruct p as [| a [| b [| c p]]]; [congruence | | |]; cbn [app] in Q.
    + inversion Q; subst a. assert (K : tkind t = K_Ident).
      { remember ([45] ++ r0) as l. assert (G : forall ps x, ident_pieces l ps (40 :: x) -> ps <> [] -> (length x < length r0)%nat).
        { intros ps x Hps Hne. pose proof (pieces_nonempty _ _ _ Hps Hne) as Q1. pose proof (ident_pieces_app _ _ _ Hps) as Q2. rewrite Heql in Q2. apply (f_equal (@length N)) in Q2. rewrite !app_length in Q2. cbn in Q2. destruct (pieces_text ps); [congruence | cbn in Q2; lia]. }
        destruct V as [ps r1 nl d e u Hps Hu Hs | ps r1 nl d e u Hps Hu Hs | ps r1 nl d e w c t r2 paren Hps Hu Hq Hw Hb | ps r1 nl d e w c t q r2 Hps Hu Hq Hw Hbr Hb].
        - apply ident_read.
        - exfalso. pose proof (G _ _ Hps (ident_pieces_nonempty _ _ _ W Hps)). lia.
        - exfalso. pose proof (G _ _ Hps (ident_pieces_nonempty _ _ _ W Hps)). destruct Hw as (-> & _). rewrite !app_length in H. lia.
        - exfalso. pose proof (G _ _ Hps (ident_pieces_nonempty _ _ _ W Hps)). destruct Hw as (-> & _). rewrite !app_length in H. lia. }
      apply A6; [left; rewrite K; cbn; auto |]. exists 45, (62 :: z). auto.
    + inversion Q; subst a b. apply A8; [reflexivity |]. exists 62, z. auto.
    + inversion Q; subst a b c. cbn [app] in E. unfold scan_token in E. cbn in E. inversion E as [E']. rewrite <- E' in KD. now apply KD.
  - (* whitespace *)
    pose proof Hr as (Er & Fr & Sr). subst l. apply split_prefix in Er. subst q.
    assert (SY : ~ starts white y) by (intro S; apply A5; [apply whitespace_read, ws_style_lt | now apply (second_white f pre2 y t2 T2)]).
    assert (SP : starts white (p ++ y)) by (destruct p as [| c p]; [congruence |]; inversion Fr; subst; exists c, (p ++ y); auto).
    destruct (scan_whitespace f (p ++ y) SP Hs) as (q & r1 & Rq & _ & ->).
    destruct (run_det _ _ _ _ _ _ Rq (conj eq_refl (conj Fr SY))) as (-> & _). reflexivity.
  - subst l.
    assert (SY : ~ starts white y) by (intro S; apply A5; [apply whitespace_read; destruct Hr as [(-> & _) | [(-> & _) | (-> & _)]]; reflexivity | now apply (second_white f pre2 y t2 T2)]).
    assert (Eq : q = p /\ ((b = WS_Space /\ Forall (eq 32) p) \/ (b = WS_Tab /\ Forall (eq 9) p) \/ (b = WS_Newline /\ Forall newline p))).
    { destruct Hr as [(-> & (Er & F & _)) | [(-> & (Er & F & _)) | (-> & (Er & F & _))]]; apply split_prefix in Er; subst; auto. }
    destruct Eq as (-> & Hb).
    assert (SP : starts white (p ++ y)).
    { destruct p as [| c p]; [congruence |]. exists c, (p ++ y). split; [reflexivity |]. unfold white. destruct Hb as [(_ & F) | [(_ & F) | (_ & F)]]; inversion F; subst; auto. }
    destruct (scan_whitespace_sep f (p ++ y) SP Hs) as (q & r1 & b' & Hq' & -> & Hb').
    assert (SY1 : ~ starts (eq 32) y /\ ~ starts (eq 9) y /\ ~ starts newline y).
    { repeat split; intros (c & z & Ez & Hz); apply SY; exists c, z; (split; [exact Ez |]); unfold white; auto. }
    destruct SY1 as (S1 & S2 & S3). destruct p as [| c p]; [congruence |]. destruct q as [| d q]; [congruence |].
    destruct Hb as [(-> & F) | [(-> & F) | (-> & F)]], Hb' as [(-> & R) | [(-> & R) | (-> & R)]];
      try (assert (RP : (d :: q) = (c :: p)) by (refine (proj1 (run_det _ _ _ _ _ _ R (conj eq_refl (conj F _)))); assumption); rewrite RP; reflexivity);
      exfalso; destruct R as (Q & F' & _); inversion Q; subst; inversion F; subst; inversion F'; subst; unfold newline in *; lia.
  - (* string *)
    assert (Hl0 : ~ In 0 l) by (intro I; apply H0; now right). specialize (Hb Hl0).
    assert (Eq : p = c :: q) by (apply (split_prefix p r0); rewrite <- El, E2; reflexivity). subst p.
    assert (Ee : e = Closed).
    { destruct e; [reflexivity | exfalso | exfalso].
      - apply A2; [unfold string_tok; left; symmetry; apply string_read |]. exact (string_end_rest _ _ _ _ _ Hb eq_refl).
      - apply A3. unfold string_tok. reflexivity. }
    subst e. cbn [app]. destruct (scan_string f c (q ++ y) Hq Hey) as (q' & e' & r' & -> & E3 & Hb').
    assert (HlY : ~ In 0 (q ++ y)) by (intro I; apply Y0; now right). specialize (Hb' HlY).
    destruct (string_body_det c _ _ _ _ Hq (string_swap _ _ _ _ _ Hb eq_refl y) _ _ _ Hb') as (<- & <- & _). reflexivity.
  - (* number *)
    subst l. pose proof (scan_numeric f _ W) as SN. rewrite E in SN. destruct (consume_numeric_spec (p ++ r0) (proj2 (number_start_spec _) W)) as (t' & r' & EN & V').
    rewrite EN in SN. cbn [ofst] in SN. inversion SN. subst t'. clear SN V.
    destruct (numeric_extent _ _ _ _ WB V') as (p' & Ep & _ & L & _). destruct (prefix_blen _ _ _ _ Ep) as (<- & <-); [lia |]. clear Ep L.
    assert (X : exists n q, p = n ++ q /\ longest_number (p ++ r0) n (q ++ r0) /\
      (q = [] -> tkind t = K_Number) /\ (q = [37] -> tkind t = K_Dimension) /\ (q <> [] -> q <> [37] -> tkind t = K_Dimension /\ dimension_unit t <> U_Percent)).
    { destruct WB as (_ & WL & _). assert (SL : suffix_of (p ++ r0) (p ++ r0)) by (exists []; reflexivity). remember (p ++ r0) as l eqn:El.
      destruct V' as [n r1 fl v Hl Hf Hv Hs Hi | n r1 fl v Hl Hf Hv | n r1 fl v u m ps r2 Hl Hf Hv Hi Hps Hm Hu Hu'].
      - exists n, []. destruct (number_read fl (is_sign (peek_nth l 0)) (blen n) v) as (K & _); [apply (WL _ _ _ SL Hl) |].
        rewrite app_nil_r. split; [destruct Hl as (Q & _); apply (split_prefix p r1); congruence |]. split; [exact Hl |]. repeat split; intros; congruence.
      - exists n, [37]. destruct (dimension_read fl (is_sign (peek_nth l 0)) (blen n) 1 v U_Percent) as (K & _); [apply (WL _ _ _ SL Hl); exists 37, r1; auto | discriminate |].
        split; [destruct Hl as (Q & _); apply (split_prefix p r1); rewrite <- app_assoc; cbn [app]; congruence |]. split; [exact Hl |]. repeat split; intros; congruence.
      - exists n, (pieces_text ps). pose proof (start_sequence_sound _ Hi) as W'. destruct (WL _ _ _ SL Hl) as (_ & _ & A). specialize (A ps r2 W' Hps).
        pose proof (ident_pieces_app _ _ _ Hps) as E1.
        assert (Hen : m = blen (pieces_text ps)). { apply Hm. destruct Hl as (Q & _). rewrite Q in He. now apply esc_ok_suffix in He. }
        destruct (dimension_read fl (is_sign (peek_nth l 0)) (blen n) m v u) as (K & _ & _ & _ & _ & _ & U & _); [tauto | intros _; lia |].
        split; [destruct Hl as (Q & _); apply (split_prefix p r2); rewrite <- app_assoc, <- E1; congruence |]. split; [rewrite <- E1; exact Hl |].
        pose proof (pieces_nonempty _ _ _ Hps (ident_pieces_nonempty _ _ _ W' Hps)) as HN.
        split; [intro; contradiction |]. split; [intros _; exact K |]. intros _ _. split; [exact K |]. rewrite U. apply url_percent. intro NU. destruct (Hu NU) as (q & _ & F & [Q | (Q & _)]); exists q; auto. }
    destruct X as (n & q & Enq & HL & K1 & K2 & K3).
    assert (HY : would_start_number (p ++ y) /\ consume_numeric_token (p ++ y) = Some (t, y)).
    { apply (numeric_swap p r0 y n q t Enq HL EN He Hey H0 Y0).
      - intro Q. exact (rule_number f pre2 y t2 WY NY0 T2 t (K1 Q) NS).
      - intro Q. assert (K : tkind t = K_Dimension).
        { destruct q as [| a [| b q]]; [congruence | | apply K3; discriminate]. destruct (N.eq_dec a 37) as [-> | D]; [now apply K2 | apply K3; congruence]. }
        destruct (rule_name f pre2 y t2 WY NY0 T2 t) as (B1 & B2 & _); [rewrite K; cbn; auto | exact NS |].
        assert (D37 : q = [37] \/ q <> [37]). { destruct q as [| a [| b q]]; [right; discriminate | | right; discriminate]. destruct (N.eq_dec a 37) as [-> | D]; [now left | right; congruence]. }
        split; [exact B1 |]. destruct D37 as [D37 | D37].
        + split; [now left |]. intros [Z | Z]; rewrite D37 in Z; discriminate.
        + assert (ND : ~ starts (eq 45) y) by (apply A6; right; now apply K3). split.
          * right. split; [exact A1 |]. now apply name_tail.
          * intros Z (c & z & Ez & [-> | ->]).
            -- apply A7; [| exists 43, z; auto]. destruct HL as (_ & CN & _). destruct Z as [-> | ->]; [exists n, 101 | exists n, 69]; auto.
            -- apply ND. exists 45, z. auto. }
    destruct HY as (WN & EC). rewrite (scan_numeric f _ WN), EC. reflexivity.
  - change (45 :: 45 :: 62 :: r0) with ([45; 45; 62] ++ r0) in El. apply split_prefix in El. subst p. reflexivity.
  - change (60 :: 33 :: 45 :: 45 :: r0) with ([60; 33; 45; 45] ++ r0) in El. apply split_prefix in El. subst p. reflexivity.
  - (* delimiters with a constant *)
    change (c :: r0) with ([c] ++ r0) in El. apply split_prefix in El. subst p. cbn [app] in *. cbn [In] in Hi.
    destruct Hi as [Q | [Q | [Q | [Q | [Q | [Q | []]]]]]]; inversion Q; subst c t; clear Q.
    + destruct (rule_dash_like f pre2 y t2 WY NY0 T2 T_DASH (or_intror eq_refl) NS) as (B1 & B2 & B3).
      assert (NI : ~ would_start_ident (45 :: y)).
      { intros [S | [S | (x & Q & S)]].
        - rewrite starts_cons in S. unfold ident_start_cp, letter, upper, lower, non_ascii_ident in S. lia.
        - apply starts_escape_92 in S. discriminate.
        - inversion Q. subst x. destruct S as [S | [S | S]]; [apply B1; now left | contradiction | apply B1; right; now left]. }
      assert (NN : ~ would_start_number (45 :: y)).
      { intro S. apply number_head in S. destruct S as [S | [(S & _) | (_ & S)]]; [unfold digit in S; lia | discriminate | contradiction]. }
      pose proof (seq_false _ NI) as Q1. pose proof (num_false _ NN) as Q2. rewrite peek0, peek1, peek2 in Q1. unfold scan_token. rewrite peek1, peek2, peek0. rewrite Q1, Q2.
      replace (peek_nth y 0 =? 45) with false; [reflexivity |]. symmetry. destruct (peek_nth y 0 =? 45) eqn:Q; [| reflexivity].
      exfalso. apply peek_eq_starts in Q; [| discriminate]. destruct Q as (z & ->). apply B3. exists 45, z. auto.
    + unfold scan_token. cbn [tl].
      replace ((peek_nth y 0 =? 33) && (peek_nth y 1 =? 45) && (peek_nth y 2 =? 45)) with false; [reflexivity |]. symmetry.
      destruct ((peek_nth y 0 =? 33) && (peek_nth y 1 =? 45) && (peek_nth y 2 =? 45)) eqn:Q; [| reflexivity]. exfalso. rewrite !andb_true_iff in Q. destruct Q as ((Q1 & Q2) & Q3).
      apply peek_eq_starts in Q1; [| discriminate]. destruct Q1 as (y1 & ->). rewrite peek1 in Q2. rewrite peek2 in Q3. apply peek_eq_starts in Q2; [| discriminate]. destruct Q2 as (y2 & ->). rewrite peek1 in Q3.
      apply peek_eq_starts in Q3; [| discriminate]. destruct Q3 as (y3 & ->). exact (A9 eq_refl y3 eq_refl).
    + destruct (rule_dash_like f pre2 y t2 WY NY0 T2 T_HASH (or_introl eq_refl) NS) as (B1 & B2 & B3).
      destruct (name_tail y) as (B4 & B5); [intro S; apply B2; now apply plain_digit_number | exact B1 | exact B3 |].
      unfold scan_token. rewrite peek1, peek2.
      replace (is_ident (peek_nth y 0) || is_escape_sequence (peek_nth y 0) (peek_nth y 1)) with false; [reflexivity |].
      symmetry. apply orb_false_iff. split.
      * destruct (is_ident (peek_nth y 0)) eqn:Q; [| reflexivity]. exfalso. destruct y as [| c z]; [rewrite peek_nil in Q; discriminate |]. rewrite peek0 in Q. apply is_ident_spec in Q. destruct Q as (Q & _). apply B4. now rewrite starts_cons.
      * destruct (is_escape_sequence (peek_nth y 0) (peek_nth y 1)) eqn:Q; [| reflexivity]. exfalso. apply B5. now apply escape_sequence_spec.
    + pose proof (rule_at f pre2 y t2 WY NY0 T2 NS) as B1. unfold scan_token. cbn [tl]. rewrite (seq_false _ B1). reflexivity.
    + exfalso. apply A1. exists [], []. split; [reflexivity | constructor].
    + pose proof (rule_slash f pre2 y t2 T2 NS) as B1. unfold scan_token. rewrite peek1.
      replace (peek_nth y 0 =? 42) with false.
      2:{ symmetry. destruct (peek_nth y 0 =? 42) eqn:Q; [| reflexivity]. exfalso. apply peek_eq_starts in Q; [| discriminate]. destruct Q as (z & ->). apply B1. exists 42, z. auto. }
      replace ((peek_nth y 0 =? 47) && single_line_comments f) with false; [reflexivity |]. symmetry. destruct (single_line_comments f) eqn:SL; [| now rewrite andb_false_r]. rewrite andb_true_r.
      destruct (peek_nth y 0 =? 47) eqn:Q; [| reflexivity]. exfalso. apply peek_eq_starts in Q; [| discriminate]. destruct Q as (z & ->). apply (A10 eq_refl eq_refl). exists 47, z. auto.
  - (* other delimiters *)
    change (c :: r0) with ([c] ++ r0) in El. apply split_prefix in El. subst p. cbn [app] in *.
    apply delim_scan; auto.
    + intros [S | [S | (x & Q & _)]].
      * apply H1. left. eapply starts_head; eauto.
      * apply starts_escape_92 in S. subst c. apply H6. cbn. auto 8.
      * inversion Q. subst c. apply H6. cbn. auto.
    + intro S. apply number_head in S. destruct S as [S | [(-> & S) | (Q & S)]].
      * apply H2. apply plain_digit_number. exists c, r0. auto.
      * apply (rule_point f pre2 y t2 WY T2 46 (or_introl eq_refl) NS). now apply plain_digit_number.
      * destruct Q as [-> | ->]; [exact (rule_point f pre2 y t2 WY T2 43 (or_intror eq_refl) NS S) | apply H6; cbn; auto].
  - (* hash *)
    pose proof (ident_pieces_app _ _ _ Hps) as E1. assert (Eq : p = 35 :: pieces_text ps) by (apply (split_prefix p r0); rewrite <- El, E1; reflexivity). subst p. cbn [app] in *.
    destruct (hash_read (existsb b_nonlower ps) (is_ident (peek_nth l 0)) (existsb b_escaped ps) (blen (pieces_text ps) + 1)) as (K & _).
    destruct (rule_name f pre2 y t2 WY NY0 T2 _ ltac:(rewrite K; cbn; auto) NS) as (B1 & B2 & _). destruct (name_tail y B1 B2) as (B4 & B5); [apply A6; left; rewrite K; cbn; auto |].
    assert (NO : ~ open_escape (pieces_text ps)) by (intro Q; apply A1; exact (open_escape_app [35] _ Q)).
    assert (HY : ident_pieces (pieces_text ps ++ y) ps y) by (apply (pieces_any _ _ _ Hps); auto).
    assert (Hne : pieces_text ps <> []).
    { intro Q. destruct ps as [| x ps]; [| eapply (pieces_nonempty _ _ _ Hps); [discriminate | exact Q]]. inversion Hps as [l0 S1 S2 | |]; subst. change (pieces_text [] ++ r0) with r0 in Hi.
      apply orb_true_iff in Hi. destruct Hi as [Hi | Hi].
      - destruct r0 as [| c z]; [rewrite peek_nil in Hi; discriminate |]. rewrite peek0 in Hi. apply is_ident_spec in Hi. destruct Hi as (Hi & _). apply S1. now rewrite starts_cons.
      - apply S2. now apply escape_sequence_spec. }
    assert (Hl0 : ~ In 0 l) by (intro I; apply H0; now right). assert (HlY : ~ In 0 (pieces_text ps ++ y)) by (intro I; apply Y0; now right).
    assert (I1 : is_ident (peek_nth (pieces_text ps ++ y) 0) = is_ident (peek_nth l 0)) by (rewrite E1; destruct (pieces_text ps); [congruence | reflexivity]).
    assert (HS : is_ident (peek_nth (pieces_text ps ++ y) 0) || is_escape_sequence (peek_nth (pieces_text ps ++ y) 0) (peek_nth (pieces_text ps ++ y) 1) = true).
    { rewrite I1. apply orb_true_iff in Hi. apply orb_true_iff. destruct Hi as [Hi | Hi]; [now left | right]. apply escape_sequence_spec. apply escape_sequence_spec in Hi.
      rewrite E1 in Hi. destruct (pieces_text ps) as [| c [| d z]]; [congruence | |]; cbn [app] in *.
      - exfalso. pose proof (starts_escape_92 _ _ Hi). subst c. apply NO. exists [], []. split; [reflexivity | constructor].
      - pose proof (starts_escape_92 _ _ Hi). subst c. eapply starts_escape_head; eauto. }
    unfold scan_token. rewrite peek1, peek2, HS. unfold consume_hash_token. cbn [tl].
    destruct (consume_ident_spec (pieces_text ps ++ y)) as (n & ps' & r' & -> & Hps' & Hb' & _). destruct (ident_pieces_det _ _ _ HY _ _ Hps') as (<- & <-).
    rewrite (Hb' (esc_ok_tl _ _ Hey)). rewrite I1. reflexivity.
  - (* at-keyword *)
    pose proof (ident_pieces_app _ _ _ Hps) as E1. assert (Eq : p = 64 :: pieces_text ps) by (apply (split_prefix p r0); rewrite <- El, E1; reflexivity). subst p. cbn [app] in *.
    destruct (atkeyword_read (existsb b_nonlower ps) (b_dashed ps) (existsb b_escaped ps) (blen (pieces_text ps) + 1)) as (K & _).
    destruct (rule_name f pre2 y t2 WY NY0 T2 _ ltac:(rewrite K; cbn; auto) NS) as (B1 & B2 & _). destruct (name_tail y B1 B2) as (B4 & B5); [apply A6; left; rewrite K; cbn; auto |].
    assert (NO : ~ open_escape (pieces_text ps)) by (intro Q; apply A1; exact (open_escape_app [64] _ Q)).
    assert (HY : ident_pieces (pieces_text ps ++ y) ps y) by (apply (pieces_any _ _ _ Hps); auto).
    assert (HlY : ~ In 0 (pieces_text ps ++ y)) by (intro I; apply Y0; now right).
    pose proof (start_sequence_sound _ Hi) as W. rewrite E1 in W, Hps.
    pose proof (start_sequence_complete _ HlY (wsi_swap ps _ r0 y eq_refl W Hps (or_introl NO))) as Q1.
    unfold scan_token. cbn [tl]. rewrite Q1.
    destruct (consume_ident_spec (pieces_text ps ++ y)) as (n & ps' & r' & -> & Hps' & Hb' & _). destruct (ident_pieces_det _ _ _ HY _ _ Hps') as (<- & <-).
    rewrite (Hb' (esc_ok_tl _ _ Hey)). reflexivity.
  - (* block comment *)
    assert (Hr0 : r0 <> []) by (apply A2; cbn; right; right; right; left; symmetry; apply comment_read).
    remember (47 :: 42 :: l) as l0 eqn:El0. destruct Hb as [b r0 NC | b NC]; [| congruence].
    inversion El0. subst l. assert (Eq : p = 47 :: 42 :: b ++ [42; 47]).
    { apply (split_prefix p r0). rewrite <- El. cbn [app]. now rewrite <- app_assoc. }
    subst p. cbn [app]. rewrite <- app_assoc. cbn [app].
    destruct (scan_block_comment f (b ++ 42 :: 47 :: y)) as (q & r' & Hq & ->). 
    assert (Eq : q = 47 :: 42 :: b ++ [42; 47]).
    { exact (block_comment_closed_det b y q r' NC Hq). }
    rewrite Eq. rewrite (block_style_swap b y r0). reflexivity.
  - (* line comment *)
    exfalso. destruct A4 as (z & Q); [apply comment_read |]. rewrite Q in El. discriminate.
Qed.
