(* The text of lexed tokens. *)
From Coq Require Import ZifyBool ZifyNat ZifyN.
From Verif Require Import Lexer Span Cursor SpecToken SpecLex SpecTrace SpecCursor LexBase TokenProofs KindProofs ScanProofs ScanProofs2 ScanProofs3 NumProofs DimProofs LexProofs LexFacts LexTrace LexKinds LexProps LexProps2 LexProps3 CursorProofs.
Open Scope N_scope.
Open Scope list_scope.
Ltac Zify.zify_post_hook ::= Z.div_mod_to_equations.

Lemma escape_has_value : forall l e r, escape_at l e r -> exists c, escape_value e c.
Proof. intros l e r H. destruct (parse_escape_spec _ _ _ H) as (ch & _ & Hv). eauto. Qed.

Lemma ident_css : forall l ps r, ident_pieces l ps r -> exists v, css_value false (pieces_text ps) r v.
Proof.
  intros l ps r H. induction H as [l H1 H2 | c l ps r Hc H (v & IH) | l e l' ps r He H (v & IH)].
  - exists []. constructor.
  - exists (nul_fixed c :: v). change (pieces_text (Plain c :: ps)) with (c :: pieces_text ps). constructor; auto; [| discriminate]. intros ->. now apply not_ident_92.
  - destruct (escape_has_value _ _ _ He) as (c & Hc). exists (c :: v). change (pieces_text (Esc e :: ps)) with (e ++ pieces_text ps). econstructor; eauto; [discriminate |].
    pose proof (ident_pieces_app _ _ _ H) as E. rewrite <- E. pose proof (escape_at_app _ _ _ He) as (E2 & _). rewrite <- E2. exact He.
Qed.
Lemma string_body_app : forall q l p e r, string_body q l p e r -> l = p ++ r.
Proof.
  intros q l p e r H. induction H; try reflexivity.
  - cbn. now f_equal.
  - apply one_newline_starts in H. destruct H as (_ & E). cbn. f_equal. rewrite <- app_assoc, <- IHstring_body. exact E.
  - apply escape_at_app in H. destruct H as (E & _). rewrite <- app_assoc, <- IHstring_body. exact E.
Qed.
Lemma escape_eof : forall l r, escape_at l [92] r -> r = [].
Proof.
  intros l r H. remember [92] as e eqn:E. destruct H as [| c r Hh Hn | hs ws r Hl F Hd O]; [reflexivity | discriminate |].
  destruct hs; [cbn in Hl; lia | discriminate].
Qed.
Lemma string_css : forall q l p e r, string_body q l p e r -> quote q -> e <> AtNewline ->
  exists c, p = c ++ (match e with Closed => [q] | _ => [] end) /\ exists v, css_value true c ((match e with Closed => [q] | _ => [] end) ++ r) v.
Proof.
  intros q l p e r H Hq. induction H as [r | | c r Hc | c l p e r H1 H2 H3 H IH | l n l' p e r Hn H IH | l x l' p e r Hx H IH]; intro He.
  - exists []. split; [reflexivity |]. exists []. constructor.
  - exists []. split; [reflexivity |]. exists []. constructor.
  - congruence.
  - destruct (IH He) as (k & -> & v & Hv). exists (c :: k). split; [reflexivity |]. exists (nul_fixed c :: v). constructor; auto.
  - destruct (IH He) as (k & -> & v & Hv). exists (92 :: n ++ k). split; [cbn; now rewrite <- app_assoc |]. exists v. constructor; auto.
    pose proof (string_body_app _ _ _ _ _ H) as E. pose proof (one_newline_starts _ _ _ Hn) as (_ & E2). rewrite <- app_assoc in E. rewrite <- E. rewrite <- E2. exact Hn.
  - destruct (list_eq_dec N.eq_dec x [92]) as [-> | Hne].
    + pose proof (escape_eof _ _ Hx) as ->. remember [] as l0 eqn:E0. destruct H; try discriminate.
      * exists [92]. split; [reflexivity |]. exists []. now constructor.
      * exfalso. apply escape_at_app in H. destruct H as (E & e' & ->). subst. discriminate.
    + destruct (IH He) as (k & -> & v & Hv). exists (x ++ k). split; [now rewrite <- app_assoc |]. destruct (escape_has_value _ _ _ Hx) as (c & Hc).
      exists (c :: v). econstructor; eauto.
      pose proof (string_body_app _ _ _ _ _ H) as E. pose proof (escape_at_app _ _ _ Hx) as (E2 & _). rewrite <- app_assoc in E. rewrite <- E, <- E2. exact Hx.
Qed.
Lemma url_body_app : forall x c t e r, url_body x c t e r -> x = c ++ t ++ r.
Proof.
  intros x c t e r H. induction H; cbn [app]; rewrite <- ?app_assoc, ?app_nil_r; try reflexivity.
  - now f_equal.
  - apply escape_at_app in H. destruct H as (E & _). now rewrite <- IHurl_body.
Qed.
Lemma url_css : forall x c t e r, url_body x c t e r -> exists v, css_value false c (t ++ r) v.
Proof.
  intros x c t e r H. induction H as [w r Hw | w Hw | w l H1 H2 H3 H4 | c l H1 | c l H1 | c l p t e r H1 H2 H3 H4 H5 H6 H (v & IH) | l x l' p t e r Hx H (v & IH)];
    try (exists []; constructor).
  - exists (nul_fixed c :: v). constructor; auto. discriminate.
  - destruct (escape_has_value _ _ _ Hx) as (c & Hc). exists (c :: v). econstructor; eauto; [discriminate |].
    pose proof (url_body_app _ _ _ _ _ H) as E. pose proof (escape_at_app _ _ _ Hx) as (E2 & _). rewrite <- E, <- E2. exact Hx.
Qed.

Lemma css_value_plain : forall b p r v, css_value b p r v -> ~ In 92 p -> ~ In 0 p -> v = p.
Proof.
  intros b p r v H. induction H as [r | c p r v Hc Hnl H IH | n p r v Hs Hn H IH | Hs | e p r c v Hs He Hv H IH]; intros H92 H0.
  - reflexivity.
  - apply not_in_cons in H0. destruct H0 as (Hc0 & H0). unfold nul_fixed. replace (c =? 0) with false by lia. f_equal. apply IH; [| exact H0]. cbn in H92. tauto.
  - cbn in H92. tauto.
  - cbn in H92. tauto.
  - exfalso. apply escape_at_app in He. destruct He as (_ & e' & ->). apply H92. now left.
Qed.

(* ---- where the parts of a lexed token are ---- *)
Definition layout (t : token) (lead content trail : list N) : Prop :=
  leading_len t = blen lead /\ trailing_len t = blen trail /\ tlen t = blen (lead ++ content ++ trail) /\
  (contains_escape_chars t = false -> ~ In 92 content /\ ~ In 0 content) /\
  (is_lower_case t = true -> tkind t <> K_Url -> contains_escape_chars t = false -> lower_text content = content).

Lemma lower_text_id : forall p, (forall c, In c p -> ~ upper c) -> lower_text p = p.
Proof.
  intros p H. induction p as [| c p IH]; [reflexivity |]. cbn [lower_text map]. fold (lower_text p). rewrite IH by (intros; apply H; now right). f_equal.
  specialize (H c (or_introl eq_refl)). unfold upper in H. unfold to_ascii_lowercase, is_ascii_upper. destruct ((65 <=? c) && (c <=? 90)) eqn:E; [lia | reflexivity].
Qed.
Lemma plain_pieces_chars : forall ps, existsb b_escaped ps = false -> (forall c, In (Plain c) ps -> ident_cp c) -> forall c, In c (pieces_text ps) -> In c (plain_chars ps) /\ c <> 0.
Proof.
  intros ps. induction ps as [| [x | e] ps IH]; intros H Hi c I; cbn [existsb b_escaped] in H; [destruct I | | discriminate].
  apply orb_false_iff in H. destruct H as (H1 & H2). change (pieces_text (Plain x :: ps)) with (x :: pieces_text ps) in I. change (plain_chars (Plain x :: ps)) with (x :: plain_chars ps).
  destruct I as [-> | I]; [split; [now left | intros ->; discriminate] |]. destruct (IH H2) with (c := c); [intros; apply Hi; now right | exact I |]. split; [now right | assumption].
Qed.

Lemma has_esc_false : forall p, has_esc p = false -> ~ In 92 p /\ ~ In 0 p.
Proof.
  intros p H. split; intro I; (assert (has_esc p = true); [apply existsb_exists; eexists; split; [exact I | reflexivity] | congruence]).
Qed.
Lemma pieces_plain : forall ps, existsb b_escaped ps = false -> (forall c, In (Plain c) ps -> ident_cp c) -> ~ In 92 (pieces_text ps) /\ ~ In 0 (pieces_text ps).
Proof.
  intros ps H Hi. induction ps as [| [c | e] ps IH]; cbn [existsb b_escaped] in H; [split; intros [] | | discriminate].
  apply orb_false_iff in H. destruct H as (H1 & H2). destruct (IH H2) as (A & B); [intros; apply Hi; now right |].
  change (pieces_text (Plain c :: ps)) with (c :: pieces_text ps). split; intros [E | I]; try tauto.
  - subst c. apply not_ident_92. apply Hi. now left.
  - subst c. discriminate.
Qed.
Lemma pieces_ident : forall l ps r, ident_pieces l ps r -> forall c, In (Plain c) ps -> ident_cp c.
Proof. intros l ps r H. induction H; intros d I; [destruct I | |]; destruct I as [E | I]; try congruence; auto. Qed.
Lemma ident_layout_text : forall l ps r, ident_pieces l ps r -> existsb b_escaped ps = false -> ~ In 92 (pieces_text ps) /\ ~ In 0 (pieces_text ps).
Proof. intros l ps r H E. apply pieces_plain; [exact E |]. exact (pieces_ident _ _ _ H). Qed.

Lemma pieces_lower_id : forall l ps r, ident_pieces l ps r -> existsb b_escaped ps = false -> (forall c, In c (plain_chars ps) -> lower c \/ digit c \/ c = 45 \/ c = 0) ->
  lower_text (pieces_text ps) = pieces_text ps.
Proof.
  intros l ps r H E L. apply lower_text_id. intros c I. destruct (plain_pieces_chars ps E (pieces_ident _ _ _ H) c I) as (I1 & I2).
  specialize (L _ I1). unfold upper, lower, digit in *. lia.
Qed.
Lemma uflags_lower_id : forall l ps r nl d e u, ident_pieces l ps r -> uflags 0 false false false true ps = (nl, d, e, u) -> negb nl = true -> e = false ->
  lower_text (pieces_text ps) = pieces_text ps.
Proof.
  intros l ps r nl d e u H Hu N E. pose proof (uflags_esc _ _ _ _ _ _ _ _ _ _ Hu) as Ee. destruct (uflags_lower _ _ _ _ _ _ _ _ _ _ Hu) as (A & _).
  apply negb_true_iff in N. destruct (A N) as (_ & A'). eapply pieces_lower_id; [exact H | cbn [orb] in Ee; congruence |]. intros c I. destruct (A' c I) as [Q | [Q | Q]]; auto.
Qed.
Lemma nonlower_id : forall l ps r, ident_pieces l ps r -> negb (existsb b_nonlower ps) = true -> existsb b_escaped ps = false -> lower_text (pieces_text ps) = pieces_text ps.
Proof.
  intros l ps r H N E. apply negb_true_iff in N. eapply pieces_lower_id; [exact H | exact E |]. intros c I.
  assert (~ In 0 (pieces_text ps)) as H0 by (eapply ident_layout_text; eauto). pose proof (proj1 (b_nonlower_spec ps H0) N c I). tauto.
Qed.

Definition laid_out (l : list N) (t : token) : Prop :=
  exists lead content trail r v, inner l (tkind t) lead content trail r /\ l = lead ++ content ++ trail ++ r /\
    css_value (is_string_tok t) content (trail ++ r) v /\ layout t lead content trail.
Lemma ident_laid : forall l ps r nl d e u, ident_pieces l ps r -> uflags 0 false false false true ps = (nl, d, e, u) -> laid_out l (new_ident nl d e (blen (pieces_text ps))).
Proof.
  intros l ps r nl d e u Hp Hu. destruct (ident_css _ _ _ Hp) as (v & Hv). exists [], (pieces_text ps), [], r, v. rewrite (proj1 (ident_read _ _ _ _)).
    split; [now constructor |]. split; [exact (ident_pieces_app _ _ _ Hp) |].
    replace (is_string_tok (new_ident nl d e (blen (pieces_text ps)))) with false by (destruct nl, d, e; reflexivity). split; [exact Hv |].
    destruct (ident_read nl d e (blen (pieces_text ps))) as (Kk & L & Lo & Da & Es). split; [destruct nl, d, e; reflexivity |]. split; [destruct nl, d, e; reflexivity |].
    split; [rewrite L, app_nil_r; reflexivity |]. rewrite Es, Lo. split; [| intros N _ Q; eapply uflags_lower_id; eauto]. intro Q. apply (ident_layout_text _ _ _ Hp). pose proof (uflags_esc _ _ _ _ _ _ _ _ _ _ Hu) as Ee. cbn [orb] in Ee. congruence.
Qed.
Lemma function_laid : forall l ps r nl d e u, ident_pieces l ps (40 :: r) -> uflags 0 false false false true ps = (nl, d, e, u) -> laid_out l (new_function nl d e (blen (pieces_text ps) + 1)).
Proof.
  intros l ps r nl d e u Hp Hu. destruct (ident_css _ _ _ Hp) as (v & Hv). exists [], (pieces_text ps), [40], r, v. rewrite (proj1 (function_read _ _ _ _)).
    split; [now constructor |]. split; [exact (ident_pieces_app _ _ _ Hp) |].
    replace (is_string_tok (new_function nl d e (blen (pieces_text ps) + 1))) with false by (destruct nl, d, e; reflexivity). split; [exact Hv |].
    destruct (function_read nl d e (blen (pieces_text ps) + 1)) as (Kk & L & Lo & Da & Es). split; [destruct nl, d, e; reflexivity |]. split; [destruct nl, d, e; reflexivity |].
    split; [rewrite L; cbn [app]; rewrite blen_app; reflexivity |]. rewrite Es, Lo. split; [| intros N _ Q; eapply uflags_lower_id; eauto]. intro Q. apply (ident_layout_text _ _ _ Hp). pose proof (uflags_esc _ _ _ _ _ _ _ _ _ _ Hu) as Ee. cbn [orb] in Ee. congruence.
Qed.
Lemma at_laid : forall l' ps r, ident_pieces l' ps r -> laid_out (64 :: l') (new_atkeyword (existsb b_nonlower ps) (b_dashed ps) (existsb b_escaped ps) (blen (pieces_text ps) + 1)).
Proof.
  intros l' ps r Hp. destruct (ident_css _ _ _ Hp) as (v & Hv). exists [64], (pieces_text ps), [], r, v. rewrite (proj1 (atkeyword_read _ _ _ _)).
    split; [now constructor |]. split; [cbn [app]; f_equal; exact (ident_pieces_app _ _ _ Hp) |].
    set (nl := existsb b_nonlower ps). set (d := b_dashed ps). set (n := blen (pieces_text ps) + 1).
    destruct (atkeyword_read nl d (existsb b_escaped ps) n) as (Kk & L & Lo & Da & Es).
    remember (existsb b_escaped ps) as e eqn:Ee. replace (is_string_tok (new_atkeyword nl d e n)) with false by (destruct nl, d, e; reflexivity). split; [exact Hv |].
    split; [destruct nl, d, e; reflexivity |]. split; [destruct nl, d, e; reflexivity |]. split; [rewrite L; unfold n; rewrite app_nil_r, blen_app; change (blen [64]) with 1; lia |].
    rewrite Es, Lo. split; [| intros N _ Q; unfold nl in N; eapply nonlower_id; eauto; congruence]. intro Q. apply (ident_layout_text _ _ _ Hp). congruence.
Qed.
Lemma hash_laid : forall l' ps r d, ident_pieces l' ps r -> laid_out (35 :: l') (new_hash (existsb b_nonlower ps) d (existsb b_escaped ps) (blen (pieces_text ps) + 1)).
Proof.
  intros l' ps r d Hp. destruct (ident_css _ _ _ Hp) as (v & Hv). exists [35], (pieces_text ps), [], r, v. rewrite (proj1 (hash_read _ _ _ _)).
    split; [now constructor |]. split; [cbn [app]; f_equal; exact (ident_pieces_app _ _ _ Hp) |].
    set (nl := existsb b_nonlower ps). set (n := blen (pieces_text ps) + 1).
    destruct (hash_read nl d (existsb b_escaped ps) n) as (Kk & L & Lo & Da & Es).
    remember (existsb b_escaped ps) as e eqn:Ee. replace (is_string_tok (new_hash nl d e n)) with false by (destruct nl, d, e; reflexivity). split; [exact Hv |].
    split; [destruct nl, d, e; reflexivity |]. split; [destruct nl, d, e; reflexivity |]. split; [rewrite L; unfold n; rewrite app_nil_r, blen_app; change (blen [35]) with 1; lia |].
    rewrite Es, Lo. split; [| intros N _ Q; unfold nl in N; eapply nonlower_id; eauto; congruence]. intro Q. apply (ident_layout_text _ _ _ Hp). congruence.
Qed.
Lemma string_laid : forall q l' p e r, quote q -> l' = p ++ r -> string_body q l' p e r -> e <> AtNewline ->
  laid_out (q :: l') (string_tok (if q =? 34 then QS_Double else QS_Single) (has_esc p) (1 + blen p) e).
Proof.
  intros q l' p e r Hq El Hb He. destruct (string_css _ _ _ _ _ Hb Hq He) as (c & Ep & v & Hv).
    assert (Hq1 : blen [q] = 1) by (cbn [blen]; rewrite len_utf8_ascii by (unfold quote in Hq; lia); reflexivity).
    set (trail := match e with Closed => [q] | _ => [] end) in *. set (qs := if q =? 34 then QS_Double else QS_Single) in *.
    exists [q], c, trail, r, v.
    assert (E : tkind (string_tok qs (has_esc p) (1 + blen p) e) = K_String) by (destruct e; [apply string_read | apply string_read | congruence]). rewrite E.
    split. { destruct e; unfold trail in *; [constructor; [exact Hq | now rewrite <- Ep] | | congruence]. rewrite app_nil_r in Ep. subst c. now constructor. }
    split; [cbn [app]; f_equal; rewrite El, Ep, <- app_assoc; reflexivity |].
    assert (NE : has_esc p = false -> ~ In 92 c /\ ~ In 0 c). { intro Q. apply has_esc_false. rewrite Ep, has_esc_app in Q. apply orb_false_iff in Q. tauto. }
    destruct e; unfold string_tok in *; [| | congruence].
    + destruct (string_read qs true (has_esc p) (1 + blen p)) as (Kk & L & C & X & _).
      replace (is_string_tok (new_string qs true (has_esc p) (1 + blen p))) with true by (unfold qs; destruct (q =? 34), (has_esc p); reflexivity). split; [exact Hv |].
      split; [rewrite Hq1; unfold qs; destruct (q =? 34), (has_esc p); reflexivity |].
      split; [unfold trail; rewrite Hq1; unfold qs; destruct (q =? 34), (has_esc p); reflexivity |].
      split; [rewrite L, blen_app, Hq1, <- Ep; reflexivity |]. rewrite X. split; [exact NE |]. intro Q. exfalso. revert Q. unfold qs. destruct (q =? 34), (has_esc p); discriminate.
    + destruct (string_read qs false (has_esc p) (1 + blen p)) as (Kk & L & C & X & _).
      replace (is_string_tok (new_string qs false (has_esc p) (1 + blen p))) with true by (unfold qs; destruct (q =? 34), (has_esc p); reflexivity). split; [exact Hv |].
      split; [rewrite Hq1; unfold qs; destruct (q =? 34), (has_esc p); reflexivity |].
      split; [unfold qs; destruct (q =? 34), (has_esc p); reflexivity |].
      split; [rewrite L, blen_app, Hq1, <- Ep; reflexivity |]. rewrite X. split; [exact NE |]. intro Q. exfalso. revert Q. unfold qs. destruct (q =? 34), (has_esc p); discriminate.
Qed.
Lemma url_laid : forall l ps r1 nl d e w c t r (paren : bool), ~ In 0 l -> url_limits l -> ident_pieces l ps (40 :: r1) -> uflags 0 false false false true ps = (nl, d, e, true) ->
  run white r1 w (c ++ t ++ r) -> (~ In 0 r1 -> url_body (c ++ t ++ r) c t (if paren then UClosed else UAtEnd) r) ->
  laid_out l (new_url paren (0 <? blen w) (e || has_esc c || b_space t) (blen (pieces_text ps) + 1 + blen w) (blen t) (blen (pieces_text ps) + 1 + blen w + blen c + blen t)).
Proof.
  intros l ps r1 nl d e w c t r paren H0 UL Hp Hu Hw Hb. assert (N1 : ~ In 0 r1). { intro I. apply H0. rewrite (ident_pieces_app _ _ _ Hp). apply in_or_app. right. now right. }
    specialize (Hb N1). destruct (url_css _ _ _ _ _ Hb) as (v & Hv).
    assert (HI : inner l K_Url (pieces_text ps ++ 40 :: w) c t r) by (eapply in_url; eauto; destruct paren; discriminate).
    destruct (UL _ _ _ _ HI) as (U1 & U2). exists (pieces_text ps ++ 40 :: w), c, t, r, v.
    assert (Bl : blen (pieces_text ps) + 1 + blen w = blen (pieces_text ps ++ 40 :: w)) by (rewrite blen_app; cbn [blen]; rewrite len_utf8_ascii by lia; lia).
    rewrite (proj1 (url_read_gen _ _ _ _ _ _)). split; [exact HI |].
    split. { rewrite (ident_pieces_app _ _ _ Hp) at 1. rewrite <- app_assoc. cbn [app]. f_equal. f_equal. now destruct Hw. }
    rewrite Bl. set (fl := e || has_esc c || b_space t). set (ws := 0 <? blen w).
    destruct (url_read paren ws fl (blen (pieces_text ps ++ 40 :: w)) (blen t) (blen (pieces_text ps ++ 40 :: w) + blen c + blen t) U1 U2) as (Kk & L & _ & _ & Es & Ld & Tr).
    replace (is_string_tok _) with false.
    2:{ symmetry. unfold is_string_tok. destruct (kind_bits _ =? _) eqn:Q; [| reflexivity]. exfalso. unfold tkind in Kk. apply N.eqb_eq in Q. rewrite Q in Kk. discriminate. }
    split; [exact Hv |]. split; [exact Ld |]. split; [exact Tr |]. split; [rewrite L, !blen_app; lia |].
    split; [| intros _ Q; congruence]. rewrite Es. unfold fl. intro Q. apply has_esc_false. destruct e, (has_esc c); try discriminate. reflexivity.
Qed.

Lemma view_laid : forall l t r, ident_like_view l t r -> ~ In 0 l -> (tkind t = K_Url -> url_limits l) -> tkind t <> K_BadUrl -> laid_out l t.
Proof.
  intros l t r V H0 UL K. destruct V as [ps r nl d e u Hp Hu Hs | ps r nl d e u Hp Hu Hs | ps r1 nl d e w c t r paren Hp Hu Hq Hw Hb | ps r1 nl d e w c t p r Hp Hu Hq Hw Hbr Hb].
  - exact (ident_laid _ _ _ _ _ _ _ Hp Hu).
  - exact (function_laid _ _ _ _ _ _ _ Hp Hu).
  - exact (url_laid _ _ _ _ _ _ _ _ _ _ _ H0 (UL (proj1 (url_read_gen _ _ _ _ _ _))) Hp Hu Hw Hb).
  - exfalso. apply K. exact (proj1 (bad_url_read _)).
Qed.
Lemma lexed_layout : forall f pre l t, well_behaved (single_line_comments f) l -> ~ In 0 l -> (tkind t = K_Url -> url_limits l) -> l <> [] -> token_at f pre l t -> In (tkind t) texty -> laid_out l t.
Proof.
  intros f pre l t WB H0 UL Hn T K. destruct (kind_shape f pre l t WB Hn T) as (r & S & _). unfold shape in S. unfold texty in K. cbn [In] in K.
  destruct K as [E | [E | [E | [E | [E | [E | []]]]]]]; symmetry in E; rewrite E in S.
  - apply (view_laid l t r); [tauto | exact H0 | exact UL | congruence].
  - apply (view_laid l t r); [tauto | exact H0 | exact UL | congruence].
  - destruct S as (l' & ps & -> & Hs & Hp & ->). exact (at_laid _ _ _ Hp).
  - destruct S as (l' & ps & -> & Hs & Hp & ->). exact (hash_laid _ _ _ _ Hp).
  - destruct S as (q & l' & p & e & -> & Hq & El & Hb & -> & Hbad).
    apply (string_laid q l' p e r); auto; [apply Hb; intro I; apply H0; now right | intro Q; apply Hbad in Q; discriminate].
  - apply (view_laid l t r); [tauto | exact H0 | exact UL | congruence].
Qed.

(* ---- the three methods on a token with that layout ---- *)
Lemma layout_bounds : forall pre t lead content trail, layout t lead content trail -> blen pre <> DUMMY_OFFSET ->
  text_start (Cursor (blen pre) t) = blen (pre ++ lead) /\ text_end (Cursor (blen pre) t) = Some (blen (pre ++ lead) + blen content).
Proof.
  intros pre t lead content trail (L1 & L2 & L3 & _) Hd. unfold text_start, text_end, cend. cbn [coff ctok].
  replace (blen pre =? DUMMY_OFFSET) with false by lia. rewrite L1, L2, L3, !blen_app.
  replace (blen pre + (blen lead + (blen content + blen trail)) <? blen trail) with false by lia. split; [reflexivity |]. f_equal. lia.
Qed.
Lemma layout_slice : forall pre lead content trail r, slice (pre ++ lead ++ content ++ trail ++ r) (blen (pre ++ lead)) (blen (pre ++ lead) + blen content) = Some content.
Proof. intros. rewrite (app_assoc pre). apply slice_app. Qed.

Lemma parse_str_layout : forall pre t lead content trail r v, layout t lead content trail -> blen pre <> DUMMY_OFFSET ->
  css_value (is_string_tok t) content (trail ++ r) v -> parse_str (Cursor (blen pre) t) (pre ++ lead ++ content ++ trail ++ r) = Some v.
Proof.
  intros pre t lead content trail r v L Hd Hv. destruct (layout_bounds pre t lead content trail L Hd) as (B1 & B2). destruct L as (_ & _ & _ & LE & _).
  unfold parse_str. rewrite B1, B2. cbn [ctok]. rewrite layout_slice. destruct (contains_escape_chars t) eqn:E; cbn [negb].
  - replace (pre ++ lead ++ content ++ trail ++ r) with ((pre ++ lead) ++ [] ++ content ++ trail ++ r) by (rewrite <- app_assoc; reflexivity).
    replace (blen (pre ++ lead) + blen content) with (blen (pre ++ lead) + blen [] + blen content) by (cbn [blen]; lia). change 0 with (blen []).
    rewrite (parse_str_loop_spec _ _ _ _ Hv) by lia. reflexivity.
  - f_equal. destruct (LE eq_refl). symmetry. eapply css_value_plain; eauto.
Qed.
Lemma parse_str_lower_layout : forall pre t lead content trail r v, layout t lead content trail -> blen pre <> DUMMY_OFFSET ->
  css_value (is_string_tok t) content (trail ++ r) v -> parse_str_lower (Cursor (blen pre) t) (pre ++ lead ++ content ++ trail ++ r) = Some (if is_lower_case t then v else lower_text v).
Proof.
  intros pre t lead content trail r v L Hd Hv. unfold parse_str_lower. cbn [ctok]. rewrite (parse_str_layout pre t lead content trail r v L Hd Hv).
  destruct (layout_bounds pre t lead content trail L Hd) as (B1 & B2). destruct (is_lower_case t); [reflexivity |].
  rewrite B1, B2. rewrite layout_slice.
  replace (pre ++ lead ++ content ++ trail ++ r) with ((pre ++ lead) ++ [] ++ content ++ trail ++ r) by (rewrite <- app_assoc; reflexivity).
  replace (blen (pre ++ lead) + blen content) with (blen (pre ++ lead) + blen [] + blen content) by (cbn [blen]; lia). change 0 with (blen []).
  rewrite (parse_str_lower_loop_spec _ _ _ _ Hv) by lia. reflexivity.
Qed.
Lemma eq_layout_plain : forall pre t lead content trail r other, layout t lead content trail -> blen pre <> DUMMY_OFFSET -> contains_escape_chars t = false ->
  eq_ignore_ascii_case (Cursor (blen pre) t) (pre ++ lead ++ content ++ trail ++ r) other =
  Some ((blen content =? blen other) && (if is_lower_case t then text_eqb content other else eq_ignore_case_text content other)).
Proof.
  intros pre t lead content trail r other L Hd E. destruct (layout_bounds pre t lead content trail L Hd) as (B1 & B2).
  unfold eq_ignore_ascii_case. rewrite B1, B2. cbn [ctok]. rewrite E, layout_slice. cbn [negb].
  replace (blen (pre ++ lead) + blen content <? blen (pre ++ lead)) with false by lia.
  replace (blen (pre ++ lead) + blen content - blen (pre ++ lead)) with (blen content) by lia.
  destruct (blen content =? blen other); cbn [negb andb]; [| reflexivity]. now destruct (is_lower_case t).
Qed.
Lemma eq_layout_escaped : forall pre t lead content trail r v other, layout t lead content trail -> blen pre <> DUMMY_OFFSET -> contains_escape_chars t = true ->
  is_string_tok t = false -> ~ In 0 content -> css_value false content (trail ++ r) v ->
  eq_ignore_ascii_case (Cursor (blen pre) t) (pre ++ lead ++ content ++ trail ++ r) other = Some (text_eqb v other).
Proof.
  intros pre t lead content trail r v other L Hd E Hs H0 Hv. destruct (layout_bounds pre t lead content trail L Hd) as (B1 & B2).
  unfold eq_ignore_ascii_case. rewrite B1, B2. cbn [ctok]. rewrite E, layout_slice, Hs. cbn [negb].
  replace (pre ++ lead ++ content ++ trail ++ r) with ((pre ++ lead) ++ [] ++ content ++ trail ++ r) by (rewrite <- app_assoc; reflexivity).
  replace (blen (pre ++ lead) + blen content) with (blen (pre ++ lead) + blen [] + blen content) by (cbn [blen]; lia). change 0 with (blen []).
  apply (eq_loop_spec _ _ _ Hv H0). lia.
Qed.

(* ---- statements ---- *)
Lemma u32_not_dummy : forall pre l, l <> [] -> blen (pre ++ l) < 4294967296 -> blen pre <> DUMMY_OFFSET.
Proof. intros pre l Hn H. rewrite blen_app in H. pose proof (blen_pos l Hn). unfold DUMMY_OFFSET. lia. Qed.
Lemma texty_nonempty : forall f pre l t, token_at f pre l t -> In (tkind t) texty -> l <> [].
Proof.
  intros f pre l t T K ->. destruct (T T_EOF) as (x & E). unfold lexer_advance in E. cbn [lsrc loff lfeat] in E. rewrite app_nil_r in E. unfold read_next_token in E. rewrite N.eqb_refl in E.
  assert (t = T_EOF) by congruence. subst t. cbn in K. intuition discriminate.
Qed.
Lemma lexed_parse_str : forall f pre l t, well_behaved (single_line_comments f) l -> ~ In 0 l -> (tkind t = K_Url -> url_limits l) -> blen (pre ++ l) < 4294967296 ->
  token_at f pre l t -> In (tkind t) texty ->
  exists lead content trail r v, inner l (tkind t) lead content trail r /\ css_value (is_string_tok t) content (trail ++ r) v /\
    parse_str (Cursor (blen pre) t) (pre ++ l) = Some v.
Proof.
  intros f pre l t WB H0 UL Hb T K. pose proof (texty_nonempty _ _ _ _ T K) as Hn. destruct (lexed_layout f pre l t WB H0 UL Hn T K) as (lead & content & trail & r & v & HI & El & Hv & L).
  exists lead, content, trail, r, v. split; [exact HI |]. split; [exact Hv |]. rewrite El. apply parse_str_layout; auto. exact (u32_not_dummy _ _ Hn Hb).
Qed.
Lemma lexed_parse_str_lower : forall f pre l t, well_behaved (single_line_comments f) l -> ~ In 0 l -> (tkind t = K_Url -> url_limits l) -> blen (pre ++ l) < 4294967296 ->
  token_at f pre l t -> In (tkind t) texty ->
  exists v, parse_str (Cursor (blen pre) t) (pre ++ l) = Some v /\ parse_str_lower (Cursor (blen pre) t) (pre ++ l) = Some (if is_lower_case t then v else lower_text v).
Proof.
  intros f pre l t WB H0 UL Hb T K. pose proof (texty_nonempty _ _ _ _ T K) as Hn. destruct (lexed_layout f pre l t WB H0 UL Hn T K) as (lead & content & trail & r & v & HI & El & Hv & L).
  pose proof (u32_not_dummy _ _ Hn Hb). exists v. rewrite El. split; [now apply parse_str_layout | now apply parse_str_lower_layout].
Qed.
