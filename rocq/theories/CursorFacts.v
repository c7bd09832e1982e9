(* Uniqueness of the specified value, and the statements about the cursor's text methods. *)
From Coq Require Import ZifyBool ZifyNat ZifyN.
From Verif Require Import Lexer Span Cursor SpecToken SpecLex SpecTrace SpecCursor LexBase TokenProofs KindProofs ScanProofs ScanProofs2 ScanProofs3 LexProofs LexFacts LexTrace LexKinds LexProps LexProps2 LexProps3 CursorProofs CursorLex.
Open Scope N_scope.
Open Scope list_scope.
Ltac Zify.zify_post_hook ::= Z.div_mod_to_equations.

Lemma white_92 : ~ white 92. Proof. unfold white, newline. lia. Qed.
Lemma white_41 : ~ white 41. Proof. unfold white, newline. lia. Qed.
Lemma ws_split : forall w x w' x', Forall white w -> Forall white w' -> ~ starts white x -> ~ starts white x' -> w ++ x = w' ++ x' -> w = w' /\ x = x'.
Proof. intros. apply (app_class_unique white); auto. Qed.
Lemma not_starts_cons : forall (P : N -> Prop) c r, ~ P c -> ~ starts P (c :: r).
Proof. intros P c r H (x & y & E & Hx). injection E as -> ->. contradiction. Qed.
Lemma not_starts_nil : forall (P : N -> Prop), ~ starts P [].
Proof. intros P (x & y & E & _). discriminate. Qed.

Lemma escape_nonblank : forall l x r, escape_at l x r -> exists l', l = 92 :: l'.
Proof. intros l x r H. destruct H; eexists; reflexivity. Qed.
Lemma white_head_absurd : forall w y l x r, Forall white w -> w <> [] -> escape_at l x r -> l = w ++ y -> False.
Proof. intros w y l x r F N H E. destruct (escape_nonblank _ _ _ H) as (l' & ->). destruct w; [congruence |]. cbn in E. injection E as <- _. inversion F; subst. now apply white_92. Qed.
Lemma white_or : forall w c y, Forall white w -> forall l, c :: l = w ++ y -> w = [] \/ white c.
Proof. intros w c y F l E. destruct w; [now left | right]. cbn in E. injection E as <- _. now inversion F. Qed.

Lemma url_body_det : forall x c t e r, url_body x c t e r -> forall c' t' e' r', url_body x c' t' e' r' -> c = c' /\ t = t' /\ e = e' /\ r = r'.
Proof.
  assert (Q : forall c, quote c \/ c = 40 \/ non_printable c -> ~ white c /\ c <> 41 /\ c <> 92) by (intros c; unfold quote, non_printable, white, newline; lia).
  intros x c t e r H. induction H as [w r Hw | w Hw | w l H1 H2 H3 H4 | c l H1 | c l H1 | c l p t e r H1 H2 H3 H4 H5 H6 H IH | l x l' p t e r Hx H IH]; intros c' t' e' r' H'.
  - remember (w ++ 41 :: r) as s eqn:E. destruct H' as [w' r' Hw' | w' Hw' | w' l' K1 K2 K3 K4 | c' l' K1 | c' l' K1 | c' l' p' t' e' r' K1 K2 K3 K4 K5 K6 K | l0 x' l' p' t' e' r' Kx K].
    + destruct (ws_split w' (41 :: r') w (41 :: r)) as (-> & E2); auto; try (apply not_starts_cons, white_41). injection E2 as ->. auto.
    + exfalso. assert (In 41 w') by (rewrite E; apply in_or_app; right; now left). rewrite Forall_forall in Hw'. now apply white_41, Hw'.
    + destruct K2 as (_ & Kw & Ks). destruct (ws_split w' l' w (41 :: r)) as (-> & ->); auto; [apply not_starts_cons, white_41 |]. exfalso. apply K4. exists 41, r. auto.
    + destruct (Q _ K1) as (Q1 & Q2 & Q3). destruct (white_or _ _ _ Hw _ E) as [-> | W]; [| tauto]. cbn in E. injection E as -> _. congruence.
    + destruct (white_or _ _ _ Hw _ E) as [-> | W]; [discriminate | now apply white_92 in W].
    + destruct (white_or _ _ _ Hw _ E) as [-> | W]; [| tauto]. cbn in E. injection E as -> _. congruence.
    + destruct w as [| w0 w]; [| exfalso; eapply white_head_absurd; eauto; discriminate]. destruct (escape_nonblank _ _ _ Kx) as (y & ->). discriminate.
  - remember w as s eqn:E. rewrite E in Hw. destruct H' as [w' r' Hw' | w' Hw' | w' l' K1 K2 K3 K4 | c' l' K1 | c' l' K1 | c' l' p' t' e' r' K1 K2 K3 K4 K5 K6 K | l0 x' l' p' t' e' r' Kx K].
    + exfalso. subst w. rewrite Forall_forall in Hw. apply white_41, Hw. apply in_or_app. right. now left.
    + auto.
    + exfalso. subst w. destruct K2 as (_ & Kw & Ks). apply Forall_app in Hw. destruct Hw as (_ & Hw). destruct l'; [congruence |]. apply Ks. inversion Hw; subst. eexists _, _; eauto.
    + destruct (Q _ K1) as (Q1 & _). subst w. inversion Hw; subst. tauto.
    + subst w. inversion Hw; subst. now apply white_92 in H1.
    + subst w. inversion Hw; subst. tauto.
    + destruct (escape_nonblank _ _ _ Kx) as (y & ->). subst w. inversion Hw; subst. now apply white_92 in H1.
  - destruct H2 as (_ & Hw & Hs). remember (w ++ l) as s eqn:E. destruct H' as [w' r' Hw' | w' Hw' | w' l' K1 K2 K3 K4 | c' l' K1 | c' l' K1 | c' l' p' t' e' r' K1 K2 K3 K4 K5 K6 K | l0 x' l' p' t' e' r' Kx K].
    + destruct (ws_split w' (41 :: r') w l) as (-> & <-); auto; [apply not_starts_cons, white_41 |]. exfalso. apply H4. exists 41, r'. auto.
    + exfalso. subst w'. apply Forall_app in Hw'. destruct Hw' as (_ & Hw'). destruct l; [congruence |]. apply Hs. inversion Hw'; subst. eexists _, _; eauto.
    + destruct K2 as (_ & Kw & Ks). destruct (ws_split w' l' w l) as (-> & ->); auto.
    + destruct (Q _ K1) as (Q1 & _). destruct (white_or _ _ _ Hw _ E) as [-> | W]; [congruence | tauto].
    + destruct (white_or _ _ _ Hw _ E) as [-> | W]; [congruence | now apply white_92 in W].
    + destruct (white_or _ _ _ Hw _ E) as [-> | W]; [congruence | tauto].
    + exfalso. eapply white_head_absurd; eauto.
  - destruct (Q _ H1) as (Q1 & Q2 & Q3). remember (c :: l) as s eqn:E. destruct H' as [w' r' Hw' | w' Hw' | w' l' K1 K2 K3 K4 | c' l' K1 | c' l' K1 | c' l' p' t' e' r' K1 K2 K3 K4 K5 K6 K | l0 x' l' p' t' e' r' Kx K].
    + destruct (white_or _ _ _ Hw' _ (eq_sym E)) as [-> | W]; [| tauto]. cbn in E. congruence.
    + subst w'. inversion Hw'; tauto.
    + destruct K2 as (_ & Kw & Ks). destruct (white_or _ _ _ Kw _ (eq_sym E)) as [-> | W]; [congruence | tauto].
    + auto.
    + congruence.
    + injection E as -> ->. tauto.
    + destruct (escape_nonblank _ _ _ Kx) as (y & ->). congruence.
  - remember (92 :: c :: l) as s eqn:E. destruct H' as [w' r' Hw' | w' Hw' | w' l' K1 K2 K3 K4 | c' l' K1 | c' l' K1 | c' l' p' t' e' r' K1 K2 K3 K4 K5 K6 K | l0 x' l' p' t' e' r' Kx K].
    + destruct (white_or _ _ _ Hw' _ (eq_sym E)) as [-> | W]; [discriminate | now apply white_92 in W].
    + subst w'. inversion Hw'; subst. now apply white_92 in H2.
    + destruct K2 as (_ & Kw & Ks). destruct (white_or _ _ _ Kw _ (eq_sym E)) as [-> | W]; [congruence | now apply white_92 in W].
    + destruct (Q _ K1) as (Q1 & Q2 & Q3). congruence.
    + auto.
    + congruence.
    + exfalso. rewrite E in Kx. remember (92 :: c :: l) as s' eqn:E'. destruct Kx as [| d r0 D1 D2 | hs ws r0 Hl F D O]; [discriminate | injection E' as -> _; tauto |].
      destruct hs as [| h hs]; [cbn in Hl; lia |]. cbn in E'. injection E' as -> _. inversion F; subst. unfold newline, hex, digit in *. lia.
  - remember (c :: l) as s eqn:E. destruct H' as [w' r' Hw' | w' Hw' | w' l' K1 K2 K3 K4 | c' l' K1 | c' l' K1 | c' l' p' t' e' r' K1 K2 K3 K4 K5 K6 K | l0 x' l' p' t' e' r' Kx K].
    + destruct (white_or _ _ _ Hw' _ (eq_sym E)) as [-> | W]; [| tauto]. cbn in E. congruence.
    + subst w'. inversion Hw'; tauto.
    + destruct K2 as (_ & Kw & Ks). destruct (white_or _ _ _ Kw _ (eq_sym E)) as [-> | W]; [congruence | tauto].
    + injection E as -> ->. tauto.
    + congruence.
    + injection E as -> ->. destruct (IH _ _ _ _ K) as (-> & -> & -> & ->). auto.
    + destruct (escape_nonblank _ _ _ Kx) as (y & ->). congruence.
  - revert Hx. destruct H' as [w' r' Hw' | w' Hw' | w' l0 K1 K2 K3 K4 | c' l0 K1 | c' l0 K1 | c' l0 p' t' e' r' K1 K2 K3 K4 K5 K6 K | l0 x' l0' p' t' e' r' Kx K]; intro Hx.
    + exfalso. destruct w'; [| eapply (white_head_absurd (n :: w')); eauto; discriminate]. destruct (escape_nonblank _ _ _ Hx) as (y & E). discriminate.
    + exfalso. destruct (escape_nonblank _ _ _ Hx) as (y & ->). inversion Hw'; subst. now apply white_92 in H2.
    + exfalso. destruct K2 as (_ & Kw & Ks). eapply white_head_absurd; eauto.
    + destruct (Q _ K1) as (Q1 & Q2 & Q3). destruct (escape_nonblank _ _ _ Hx) as (y & E). congruence.
    + exfalso. remember (92 :: c' :: l0) as s' eqn:E'. destruct Hx as [| d r0 D1 D2 | hs ws r0 Hl F D O]; [discriminate | injection E' as -> _; tauto |].
      destruct hs as [| h hs]; [cbn in Hl; lia |]. cbn in E'. injection E' as -> _. inversion F; subst. unfold newline, hex, digit in *. lia.
    + destruct (escape_nonblank _ _ _ Hx) as (y & E). congruence.
    + destruct (escape_det _ _ _ _ _ Hx Kx) as (-> & ->). destruct (IH _ _ _ _ K) as (-> & -> & -> & ->). auto.
Qed.

Lemma escape_not_newline : forall l e r, escape_at l e r -> forall w, l = 92 :: w -> ~ starts newline w.
Proof.
  intros l e r X w ->. pose proof (escape_at_starts _ _ _ X) as S. destruct S as [E | (c & y & E & Hc)].
  - injection E as ->. apply not_starts_nil.
  - injection E as ->. now apply not_starts_cons.
Qed.
Lemma css_value_det : forall b p r v, css_value b p r v -> forall v', css_value b p r v' -> v = v'.
Proof.
  intros b p r v H. induction H as [r | c p r v Hc Hnl H IH | n p r v Hs Hn H IH | Hs | e p r c v Hs He Hv H IH]; intros v' H'.
  - remember [] as q eqn:E. destruct H' as [r | c p r v' Hc Hnl H | n p r v' Hs Hn H | Hs | e p r c v' Hs He Hv H]; try discriminate; [reflexivity |].
    exfalso. destruct (escape_at_app _ _ _ He) as (_ & e' & ->). discriminate.
  - remember (c :: p) as q eqn:E. destruct H' as [r | c' p' r v' Kc Knl K | n p' r v' Ks Kn K | Ks | e p' r c' v' Ks Ke Kv K]; try discriminate; [| congruence | congruence |].
    + injection E as -> ->. now rewrite (IH _ K).
    + destruct (escape_at_app _ _ _ Ke) as (_ & e' & ->). cbn in E. congruence.
  - remember (92 :: n ++ p) as q eqn:E. destruct H' as [r | c' p' r v' Kc Knl K | n' p' r v' Ks Kn K | Ks | e p' r c' v' Ks Ke Kv K]; [discriminate | congruence | | |].
    + injection E as E. assert (n' = n /\ p' = p) as (-> & ->).
      { pose proof Kn as Kn2. rewrite app_assoc, E, <- app_assoc in Kn. destruct (one_newline_det _ _ _ _ _ Hn Kn) as (-> & _). split; [reflexivity |]. now apply app_inv_head in E. }
      now apply IH.
    + injection E as E. destruct n; [| discriminate]. exfalso. cbn in E. apply one_newline_starts in Hn. destruct p; [| discriminate]. cbn in Hn. destruct Hn as (Hn & _). now apply not_starts_nil in Hn.
    + exfalso. pose proof (escape_not_newline _ _ _ Ke) as Q. rewrite app_assoc, E in Q. cbn in Q. specialize (Q _ eq_refl). apply one_newline_starts in Hn. destruct Hn as (Hn & _). rewrite <- app_assoc in Q. contradiction.
  - remember [92] as q eqn:E. remember [] as r eqn:Er. destruct H' as [r | c' p' r v' Kc Knl K | n' p' r v' Ks Kn K | Ks | e p' r c' v' Ks Ke Kv K]; [discriminate | congruence | | reflexivity |].
    + subst r. injection E as E. destruct n'; [| discriminate]. cbn in E. subst. apply one_newline_starts in Kn. destruct Kn as (Kn & _). now apply not_starts_nil in Kn.
    + subst r. destruct (escape_at_app _ _ _ Ke) as (_ & e' & ->). cbn in E. injection E as E. apply app_eq_nil in E. destruct E as (-> & ->). now destruct (Ks Hs).
  - remember (e ++ p) as q eqn:E. revert Hs He H IH. destruct H' as [r | c' p' r v' Kc Knl K | n' p' r v' Ks Kn K | Ks | e' p' r c' v' Ks Ke Kv K]; intros Hs He H IH.
    + exfalso. destruct (escape_at_app _ _ _ He) as (_ & e' & ->). discriminate.
    + destruct (escape_at_app _ _ _ He) as (_ & e' & ->). cbn in E. congruence.
    + exfalso. pose proof (escape_not_newline _ _ _ He) as Q. rewrite app_assoc, <- E in Q. cbn in Q. specialize (Q _ eq_refl). apply one_newline_starts in Kn. destruct Kn as (Kn & _). rewrite <- app_assoc in Q. contradiction.
    + destruct (escape_at_app _ _ _ He) as (_ & e' & ->). cbn in E. injection E as E. symmetry in E. apply app_eq_nil in E. destruct E as (-> & ->). now destruct (Hs Ks).
    + pose proof Ke as Ke2. rewrite app_assoc, E, <- app_assoc in Ke. destruct (escape_det _ _ _ _ _ He Ke) as (-> & _). apply app_inv_head in E. subst p'. rewrite (IH _ K). now rewrite (escape_value_det _ _ _ Hv Kv).
Qed.
Lemma inner_det : forall l k lead c t r, inner l k lead c t r -> forall lead' c' t' r', inner l k lead' c' t' r' -> lead = lead' /\ c = c' /\ t = t' /\ r = r'.
Proof.
  intros l k lead c t r H. destruct H as [l ps r Hp | l ps r Hp | l ps r Hp | l ps r Hp | q l p r Hq Hb | q l p r Hq Hb | l ps r1 w x c t e r Hp Hw Hb He]; intros lead' c' t' r' H'.
  - remember K_Ident as k eqn:Ek. destruct H' as [l ps' r' Kp | l ps' r' Kp | l ps' r' Kp | l ps' r' Kp | | |]; try discriminate. destruct (ident_pieces_det _ _ _ Hp _ _ Kp) as (-> & ->). auto.
  - remember K_Function as k eqn:Ek. destruct H' as [l ps' r' Kp | l ps' r' Kp | l ps' r' Kp | l ps' r' Kp | | |]; try discriminate. destruct (ident_pieces_det _ _ _ Hp _ _ Kp) as (-> & E). injection E as ->. auto.
  - remember K_AtKeyword as k eqn:Ek. remember (64 :: l) as s eqn:Es. destruct H' as [l' ps' r' Kp | l' ps' r' Kp | l' ps' r' Kp | l' ps' r' Kp | | |]; try discriminate. injection Es as ->. destruct (ident_pieces_det _ _ _ Hp _ _ Kp) as (-> & ->). auto.
  - remember K_Hash as k eqn:Ek. remember (35 :: l) as s eqn:Es. destruct H' as [l' ps' r' Kp | l' ps' r' Kp | l' ps' r' Kp | l' ps' r' Kp | | |]; try discriminate. injection Es as ->. destruct (ident_pieces_det _ _ _ Hp _ _ Kp) as (-> & ->). auto.
  - remember K_String as k eqn:Ek. remember (q :: l) as s eqn:Es. destruct H' as [l' ps' r' Kp | l' ps' r' Kp | l' ps' r' Kp | l' ps' r' Kp | q' l' p' r' Kq Kb | q' l' p' r' Kq Kb |]; try discriminate; injection Es as -> ->; destruct (string_body_det _ _ _ _ _ Hq Hb _ _ _ Kb) as (E & Ee & ->); [| discriminate]. apply app_inj_tail in E. destruct E as (-> & _). auto.
  - remember K_String as k eqn:Ek. remember (q :: l) as s eqn:Es. destruct H' as [l' ps' r' Kp | l' ps' r' Kp | l' ps' r' Kp | l' ps' r' Kp | q' l' p' r' Kq Kb | q' l' p' r' Kq Kb |]; try discriminate; injection Es as -> ->; destruct (string_body_det _ _ _ _ _ Hq Hb _ _ _ Kb) as (E & Ee & ->); [discriminate |]. subst. auto.
  - remember K_Url as k eqn:Ek. destruct H' as [l' ps' r' Kp | l' ps' r' Kp | l' ps' r' Kp | l' ps' r' Kp | | | l' ps' r1' w' x' c' t' e' r' Kp Kw Kb Ke]; try discriminate.
    destruct (ident_pieces_det _ _ _ Hp _ _ Kp) as (-> & E). injection E as ->. destruct (run_det _ _ _ _ _ _ Hw Kw) as (-> & ->). destruct (url_body_det _ _ _ _ _ Hb _ _ _ _ Kb) as (-> & -> & -> & ->). auto.
Qed.

(* ---- what the user sees ---- *)
Lemma stands_for_det : forall l k v v', stands_for l k v -> stands_for l k v' -> v = v'.
Proof.
  intros l k v v' (lead & c & t & r & b & H & Hb & Hv) (lead' & c' & t' & r' & b' & H' & Hb' & Hv').
  destruct (inner_det _ _ _ _ _ _ H _ _ _ _ H') as (-> & -> & -> & ->).
  assert (b = b') by (destruct b, b'; intuition congruence). subst. eapply css_value_det; eauto.
Qed.
Lemma is_string_tok_kind : forall t, is_string_tok t = true <-> tkind t = K_String.
Proof.
  intros t. unfold is_string_tok, tkind. rewrite N.eqb_eq. split; [intros ->; reflexivity |].
  intro Q. assert (B : forall b, kind_from_bits b = K_String -> b = kind_code K_String). { intros b. destruct b as [| p]; [discriminate |]. repeat (destruct p as [p | p |]; try discriminate). reflexivity. }
  now apply B.
Qed.

Section Lexed.
  Context (f : feature) (pre l : text) (t : token).
  Context (WB : well_behaved (single_line_comments f) l) (H0 : ~ In 0 l) (UL : tkind t = K_Url -> url_limits l) (HB : blen (pre ++ l) < 4294967296)
    (T : token_at f pre l t) (K : In (tkind t) texty).
  Let Hn : l <> [] := texty_nonempty _ _ _ _ T K.
  Let Hd : blen pre <> DUMMY_OFFSET := u32_not_dummy _ _ Hn HB.
  Lemma laid_stands : forall lead content trail r v, inner l (tkind t) lead content trail r -> css_value (is_string_tok t) content (trail ++ r) v -> stands_for l (tkind t) v.
  Proof. intros lead content trail r v HI Hv. exists lead, content, trail, r, (is_string_tok t). split; [exact HI |]. split; [apply is_string_tok_kind | exact Hv]. Qed.
  Lemma value_exists : exists v, stands_for l (tkind t) v.
  Proof. destruct (lexed_layout f pre l t WB H0 UL Hn T K) as (lead & content & trail & r & v & HI & El & Hv & L). exists v. eapply laid_stands; eauto. Qed.
  Lemma value_parse_str : forall v, stands_for l (tkind t) v -> parse_str (Cursor (blen pre) t) (pre ++ l) = Some v.
  Proof.
    intros v Sv. destruct (lexed_layout f pre l t WB H0 UL Hn T K) as (lead & content & trail & r & v' & HI & El & Hv & L).
    rewrite (stands_for_det _ _ _ _ Sv (laid_stands _ _ _ _ _ HI Hv)). rewrite El at 1. apply parse_str_layout; auto.
  Qed.
  Lemma value_lower : forall v, stands_for l (tkind t) v -> parse_str_lower (Cursor (blen pre) t) (pre ++ l) = Some (if is_lower_case t then v else lower_text v).
  Proof.
    intros v Sv. destruct (lexed_layout f pre l t WB H0 UL Hn T K) as (lead & content & trail & r & v' & HI & El & Hv & L).
    rewrite (stands_for_det _ _ _ _ Sv (laid_stands _ _ _ _ _ HI Hv)). rewrite El at 1. apply parse_str_lower_layout; auto.
  Qed.
  Lemma value_plain_lower : forall v, stands_for l (tkind t) v -> is_lower_case t = true -> tkind t <> K_Url -> contains_escape_chars t = false -> lower_text v = v.
  Proof.
    intros v Sv Lo U E. destruct (lexed_layout f pre l t WB H0 UL Hn T K) as (lead & content & trail & r & v' & HI & El & Hv & L).
    rewrite (stands_for_det _ _ _ _ Sv (laid_stands _ _ _ _ _ HI Hv)). destruct L as (_ & _ & _ & LE & LL). destruct (LE E). rewrite (css_value_plain _ _ _ _ Hv) by auto. auto.
  Qed.
  Lemma value_lower_case : forall v, stands_for l (tkind t) v -> is_lower_case t = false \/ (contains_escape_chars t = false /\ tkind t <> K_Url) ->
    parse_str_lower (Cursor (blen pre) t) (pre ++ l) = Some (lower_text v).
  Proof.
    intros v Sv W. rewrite (value_lower v Sv). destruct (is_lower_case t) eqn:E; [| reflexivity]. f_equal. symmetry. apply value_plain_lower; intuition congruence.
  Qed.
  Lemma blen_lower_text : forall p, blen (lower_text p) = blen p.
  Proof.
    intro p. induction p as [| c p IH]; [reflexivity |]. cbn [lower_text map blen]. fold (lower_text p). rewrite IH. f_equal. unfold to_ascii_lowercase, is_ascii_upper.
    destruct ((65 <=? c) && (c <=? 90)) eqn:E; [| reflexivity]. rewrite !len_utf8_ascii by lia. reflexivity.
  Qed.
  Lemma value_eq_plain : forall v k, stands_for l (tkind t) v -> contains_escape_chars t = false -> (tkind t <> K_Url \/ is_lower_case t = false) -> lower_text k = k ->
    eq_ignore_ascii_case (Cursor (blen pre) t) (pre ++ l) k = Some (text_eqb (lower_text v) k).
  Proof.
    intros v k Sv E U Lk. pose proof (value_plain_lower v Sv) as PL. destruct (lexed_layout f pre l t WB H0 UL Hn T K) as (lead & content & trail & r & v' & HI & El & Hv & L).
    rewrite El at 1. rewrite (eq_layout_plain pre t lead content trail r k L Hd E). f_equal.
    assert (v = content) as ->. { rewrite (stands_for_det _ _ _ _ Sv (laid_stands _ _ _ _ _ HI Hv)). destruct L as (_ & _ & _ & LE & LL). destruct (LE E). eapply css_value_plain; eauto. }
    destruct (is_lower_case t) eqn:Lo.
    - rewrite PL by intuition congruence. destruct (text_eqb content k) eqn:Q; [| apply andb_false_r]. apply text_eqb_spec in Q. subst. now rewrite N.eqb_refl.
    - unfold eq_ignore_case_text. fold (lower_text content). fold (lower_text k). rewrite Lk. destruct (text_eqb (lower_text content) k) eqn:Q; [| apply andb_false_r].
      apply text_eqb_spec in Q. rewrite <- Q, blen_lower_text, N.eqb_refl. reflexivity.
  Qed.
  Lemma value_eq_escaped : forall v k, stands_for l (tkind t) v -> contains_escape_chars t = true -> tkind t <> K_String ->
    eq_ignore_ascii_case (Cursor (blen pre) t) (pre ++ l) k = Some (text_eqb v k).
  Proof.
    intros v k Sv E U. destruct (lexed_layout f pre l t WB H0 UL Hn T K) as (lead & content & trail & r & v' & HI & El & Hv & L).
    rewrite (stands_for_det _ _ _ _ Sv (laid_stands _ _ _ _ _ HI Hv)). rewrite El at 1.
    assert (S : is_string_tok t = false) by (destruct (is_string_tok t) eqn:Q; [apply is_string_tok_kind in Q; contradiction | reflexivity]).
    rewrite S in Hv. apply eq_layout_escaped; auto. intro I. apply H0. rewrite El. apply in_or_app. right. apply in_or_app. now left.
  Qed.
End Lexed.

(* ---- escapes ---- *)
Lemma decode_spec : forall l e r, escape_at (92 :: l) e r -> exists ch n, parse_escape_sequence l = (ch, n) /\ 1 + n = blen e /\ escape_value e (nul_fixed ch).
Proof.
  intros l e r H. destruct (parse_escape_spec _ _ _ H) as (ch & E & V). exists ch, (blen e - 1). split; [exact E |]. split; [| exact V].
  destruct (escape_at_app _ _ _ H) as (_ & e' & ->). cbn [blen]. rewrite (len_utf8_ascii 92) by lia. lia.
Qed.
Lemma decode_scalar : forall l ch n, Forall (fun c => valid_char c = true) l -> parse_escape_sequence l = (ch, n) -> valid_char ch = true /\ (ch = 0 -> starts (eq 0) l).
Proof.
  intros l ch n F E. destruct l as [| c r].
  - cbn in E. injection E as <- <-. split; [reflexivity | discriminate].
  - unfold parse_escape_sequence in E. destruct (is_ascii_hexdigit c); cbn [negb] in E.
    + destruct (hex_loop 6 c r 0 0) as (((value & i) & c') & r'). destruct (value =? 0) eqn:Z; cbn [orb] in E.
      * injection E as <- _. split; [reflexivity | discriminate].
      * destruct (in_range 55296 57343 value); [injection E as <- _; split; [reflexivity | discriminate] |]. unfold char_from_u32 in E. destruct (valid_char value) eqn:V.
        -- injection E as <- _. split; [exact V |]. intros ->. lia.
        -- injection E as <- _. split; [reflexivity | discriminate].
    + injection E as <- _. inversion F; subst. split; [assumption |]. intros ->. exists 0, r. auto.
Qed.
Lemma scanners_agree : forall l, starts_escape (92 :: l) -> esc_ok (92 :: l) -> fst (consume_escape_sequence l) = 1 + snd (parse_escape_sequence l).
Proof.
  intros l S E. destruct (consume_escape_spec l S) as (n & e & r & -> & A & B & _). destruct (decode_spec _ _ _ A) as (ch & m & -> & D & _). cbn [fst snd]. rewrite (B E). congruence.
Qed.
Lemma small_url_limits : forall l, blen l < 4096 -> url_limits l.
Proof.
  intros l H lead c t r HI. remember K_Url as k eqn:Ek. destruct HI as [| | | | | | l ps r1 w x c t e r Hp Hw Hb He]; try discriminate.
  assert (E : l = (pieces_text ps ++ 40 :: w) ++ c ++ t ++ r).
  { rewrite (ident_pieces_app _ _ _ Hp) at 1. rewrite <- app_assoc. cbn [app]. f_equal. f_equal. destruct Hw as (-> & _). f_equal. exact (url_body_app _ _ _ _ _ Hb). }
  rewrite E, !blen_app in H. rewrite !blen_app. lia.
Qed.
