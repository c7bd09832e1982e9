(* C23: numbers, comments, strings, delimiters when the text after them changes. *)
From Coq Require Import ZifyBool ZifyNat ZifyN.
From Verif Require Import Lexer SpecToken SpecLex SpecTrace SpecWrite LexBase TokenProofs KindProofs ScanProofs ScanProofs2 ScanProofs3 NumProofs DimProofs LexProofs LexFacts LexKinds LexProps LexProps2 LexProps3 LexTrace LexUrl CursorFacts RestProofs RestProofs2 JoinProofs.
Open Scope N_scope.
Open Scope list_scope.

Lemma css_number_nonempty : forall p, css_number p -> p <> [].
Proof.
  intros p (s & m & x & -> & _ & Hm & _) E. apply app_eq_nil in E. destruct E as (_ & E). apply app_eq_nil in E. destruct E as (-> & _).
  destruct Hm as [(Hn & _) | (i & f & E & _)]; [congruence | destruct i; discriminate].
Qed.
Lemma css_number_starts : forall p y, css_number p -> would_start_number (p ++ y).
Proof.
  intros p y (s & m & x & -> & Hs & Hm & _). exists s. split; [exact Hs |]. exists (m ++ x ++ y). split; [now rewrite <- !app_assoc |].
  destruct Hm as [(Hn & Hd) | (i & f & -> & Hi & (Hf & Df))].
  - left. destruct m as [| c m]; [congruence |]. inversion Hd; subst. exists c, (m ++ x ++ y). auto.
  - destruct i as [| c i].
    + right. exists (f ++ x ++ y). split; [reflexivity |]. destruct f as [| c f]; [congruence |]. inversion Df; subst. exists c, (f ++ x ++ y). auto.
    + left. inversion Hi; subst. exists c. eexists. split; [rewrite <- !app_assoc; reflexivity | assumption].
Qed.
Lemma number_not_ident_seq : forall l, would_start_number l -> is_ident_start_sequence (peek_nth l 0) (peek_nth l 1) (peek_nth l 2) = false.
Proof.
  intros l W. destruct (is_ident_start_sequence (peek_nth l 0) (peek_nth l 1) (peek_nth l 2)) eqn:Q; [| reflexivity].
  exfalso. apply start_sequence_sound in Q. now apply number_not_ident in W.
Qed.
Lemma scan_numeric : forall f l, would_start_number l -> scan_token f l = ofst (consume_numeric_token l).
Proof.
  intros f l W. destruct (scan_number f l W (number_not_ident_seq l W)) as (t & r & E & V). rewrite E.
  apply number_start_spec in W. destruct l as [| c l]; [discriminate |].
  enough (X : forall z, consume_numeric_token (c :: l) = z -> scan_token f (c :: l) = ofst z) by (specialize (X _ eq_refl); congruence).
  intros z Ez. clear E V. assert (NI := number_not_ident_seq (c :: l) (proj1 (number_start_spec _) W)). unfold scan_token. rewrite Ez.
  unfold is_number_start in W. rewrite peek0 in *. rewrite peek1, peek2 in *.
  destruct (is_ascii_digit c) eqn:D.
  { assert (C : c = 48 \/ c = 49 \/ c = 50 \/ c = 51 \/ c = 52 \/ c = 53 \/ c = 54 \/ c = 55 \/ c = 56 \/ c = 57) by (unfold is_ascii_digit in D; lia).
    clear -C. repeat (destruct C as [-> | C]; [reflexivity |]). rewrite C; reflexivity. }
  assert (NS : is_number_start (c :: l) = true) by (unfold is_number_start; rewrite peek0, peek1, peek2, D; exact W).
  destruct (is_sign c) eqn:S.
  - assert (C : c = 43 \/ c = 45) by (unfold is_sign in S; lia). destruct C as [-> | ->].
    + rewrite NS. reflexivity.
    + rewrite NI, NS.
      replace ((peek_nth l 0 =? 45) && (peek_nth l 1 =? 62)) with false; [reflexivity |].
      cbn [orb andb] in W. unfold is_ascii_digit in W. lia.
  - cbn [orb andb] in W. assert (c = 46) by lia. subst c. rewrite NS. reflexivity.
Qed.
(* [q] is the unit of the number [n], if any *)
Lemma numeric_swap : forall p r y n q t, p = n ++ q -> longest_number (p ++ r) n (q ++ r) -> consume_numeric_token (p ++ r) = Some (t, r) ->
  esc_ok (p ++ r) -> esc_ok (p ++ y) -> ~ In 0 (p ++ r) -> ~ In 0 (p ++ y) ->
  (q = [] -> stops y /\ ~ starts (eq 37) y /\ ~ would_start_ident y) ->
  (q <> [] -> ~ starts digit y /\ (q = [37] \/ (~ open_escape p /\ ~ starts ident_cp y /\ ~ starts_escape y)) /\ (q = [101] \/ q = [69] -> ~ starts sign y)) ->
  would_start_number (p ++ y) /\ consume_numeric_token (p ++ y) = Some (t, y).
Proof.
  intros p r y n q t Ep HL E He Hey H0 Y0 C1 C2. pose proof HL as (_ & CN & _).
  assert (WP : forall z, would_start_number (p ++ z)) by (intro z; rewrite Ep, <- app_assoc; now apply css_number_starts).
  split; [apply WP |].
  assert (SG : is_sign (peek_nth (p ++ r) 0) = is_sign (peek_nth (p ++ y) 0)).
  { pose proof (css_number_nonempty _ CN). destruct n as [| c n]; [congruence |]. rewrite Ep. reflexivity. }
  destruct (numeric_exact _ _ _ HL (proj2 (number_start_spec _) (WP r))) as (fl & Hfl & E1). rewrite E1 in E. clear E1.
  destruct q as [| c q].
  - destruct (C1 eq_refl) as (SY & Y37 & YI). rewrite app_nil_r in Ep. subst n. cbn [app] in HL.
    pose proof (css_longest p y CN SY) as HL2. destruct (numeric_exact _ _ _ HL2 (proj2 (number_start_spec _) (WP y))) as (fl2 & Hfl2 & ->).
    rewrite (bool_iff _ _ _ Hfl2 Hfl), <- SG. unfold numeric_result in E |- *. cbn [app] in E.
    replace (peek_nth y 0 =? 37) with false.
    2:{ symmetry. destruct (peek_nth y 0 =? 37) eqn:Q; [| reflexivity]. exfalso. apply Y37. apply peek_eq_starts in Q; [| discriminate]. destruct Q as (z & ->). exists 37, z. auto. }
    replace (is_ident_start_sequence (peek_nth y 0) (peek_nth y 1) (peek_nth y 2)) with false.
    2:{ symmetry. destruct (is_ident_start_sequence (peek_nth y 0) (peek_nth y 1) (peek_nth y 2)) eqn:Q; [| reflexivity]. exfalso. now apply YI, start_sequence_sound. }
    destruct (peek_nth r 0 =? 37) eqn:Q37.
    { exfalso. inversion E as [[Q1 Q2]]. apply peek_eq_starts in Q37; [| discriminate]. destruct Q37 as (z & ->). cbn [tl] in *. apply (f_equal (@length N)) in Q2. cbn in Q2. lia. }
    destruct (is_ident_start_sequence (peek_nth r 0) (peek_nth r 1) (peek_nth r 2)) eqn:QI.
    { exfalso. pose proof (start_sequence_sound _ QI) as W. unfold consume_ident_sequence_finding_known_dimension in E.
      destruct (known_dimension_spec r) as (u & m & ps & r' & E2 & A & _). unfold consume_ident_sequence_finding_known_dimension in E2. rewrite E2 in E. inversion E. subst r'.
      pose proof (ident_pieces_nonempty _ _ _ W A) as Hps. apply (pieces_nonempty _ _ _ A) in Hps. apply ident_pieces_app in A. apply (f_equal (@length N)) in A. rewrite app_length in A.
      destruct (pieces_text ps); [congruence | cbn in A; lia]. }
    inversion E. reflexivity.
  - destruct (C2 ltac:(discriminate)) as (Y1 & Y2 & Y3). clear C1 C2.
    assert (LR : p ++ r = n ++ (c :: q) ++ r) by (rewrite Ep; now rewrite <- app_assoc). assert (LY : p ++ y = n ++ (c :: q) ++ y) by (rewrite Ep; now rewrite <- app_assoc).
    assert (HC : ~ digit c /\ c <> 46).
    { unfold numeric_result in E. cbn [app] in E. rewrite peek0 in E. destruct (c =? 37) eqn:Q37; [unfold digit; lia |].
      destruct (is_ident_start_sequence c (peek_nth (c :: q ++ r) 1) (peek_nth (c :: q ++ r) 2)) eqn:QI.
      - assert (QI' : is_ident_start_sequence (peek_nth (c :: q ++ r) 0) (peek_nth (c :: q ++ r) 1) (peek_nth (c :: q ++ r) 2) = true) by exact QI.
        apply start_sequence_sound in QI'. destruct QI' as [W | [W | (x & W & _)]].
        + rewrite starts_cons in W. unfold ident_start_cp, letter, upper, lower, non_ascii_ident in W. unfold digit. lia.
        + apply starts_escape_92 in W. unfold digit. lia.
        + inversion W. unfold digit. lia.
      - exfalso. inversion E as [[Q1 Q2]]. apply (f_equal (@length N)) in Q2. cbn in Q2. rewrite app_length in Q2. lia. }
    assert (HL2 : longest_number (p ++ y) n ((c :: q) ++ y)).
    { rewrite LY. apply (dimension_longest n (c :: q) r y); [rewrite <- LR; exact HL | exists c, q; auto | exact Y1 | exact Y3]. }
    destruct (numeric_exact _ _ _ HL2 (proj2 (number_start_spec _) (WP y))) as (fl2 & Hfl2 & ->).
    rewrite (bool_iff _ _ _ Hfl2 Hfl), <- SG. unfold numeric_result in E |- *. cbn [app] in E |- *. rewrite peek0 in E |- *. 
    destruct (c =? 37) eqn:Q37.
    + cbn [tl] in *. inversion E as [[Q1 Q2]]. assert (q = []) by (apply (f_equal (@length N)) in Q2; rewrite app_length in Q2; destruct q; [reflexivity | cbn in Q2; lia]). subst q. cbn [app]. reflexivity.
    + destruct Y2 as [Y2 | (NO & Y4 & Y5)]; [inversion Y2; lia |].
      destruct (is_ident_start_sequence c (peek_nth (c :: q ++ r) 1) (peek_nth (c :: q ++ r) 2)) eqn:QI.
      2:{ exfalso. inversion E as [[Q1 Q2]]. apply (f_equal (@length N)) in Q2. cbn in Q2. rewrite app_length in Q2. lia. }
      assert (QI' : is_ident_start_sequence (peek_nth (c :: q ++ r) 0) (peek_nth (c :: q ++ r) 1) (peek_nth (c :: q ++ r) 2) = true) by exact QI.
      pose proof (start_sequence_sound _ QI') as W.
      destruct (consume_ident_sequence_finding_known_dimension (c :: q ++ r)) as ((u, m), r') eqn:EK. inversion E. subst r'. 
      destruct (known_dimension_spec (c :: q ++ r)) as (u' & m' & ps & r' & E2 & A & _). rewrite EK in E2. inversion E2. subst u' m' r'. clear E2.
      pose proof (ident_pieces_app _ _ _ A) as EA. change (c :: q ++ r) with ((c :: q) ++ r) in EA, W, A, EK. apply split_prefix in EA.
      assert (NO' : ~ open_escape (c :: q)). { intro Q. apply NO. rewrite Ep. now apply open_escape_app. }
      assert (AY : ident_pieces ((c :: q) ++ y) ps y). { rewrite EA in NO' |- *. apply (pieces_any _ _ _ A); auto. }
      pose proof (wsi_swap ps (c :: q) r y EA W A (or_introl NO')) as WY.
      assert (QY : is_ident_start_sequence (peek_nth (c :: q ++ y) 0) (peek_nth (c :: q ++ y) 1) (peek_nth (c :: q ++ y) 2) = true).
      { apply (start_sequence_complete ((c :: q) ++ y)); [| exact WY]. intro I. apply Y0. rewrite LY. apply in_or_app. now right. }
      rewrite peek0 in QY. rewrite QY. change (c :: q ++ y) with ((c :: q) ++ y). rewrite EA in A, AY, EK |- *.
      destruct (known_swap ps r y u m r A AY) as (_ & ->); [ | | exact EK | reflexivity].
      * rewrite <- EA. apply (esc_ok_suffix n). rewrite <- LR. exact He.
      * rewrite <- EA. apply (esc_ok_suffix n). rewrite <- LY. exact Hey.
Qed.

(* ---- the token that starts the second text ---- *)
Section Second.
  Context (f : feature) (pre : list N) (y : list N) (t2 : token).
  Hypothesis Hwb : well_behaved (single_line_comments f) y.
  Hypothesis H0 : ~ In 0 y.
  Hypothesis HT : token_at f pre y t2.

  Lemma second_ident : would_start_ident y -> In (tkind t2) [K_Ident; K_Function; K_Url; K_BadUrl] \/ is_cdc t2 = true.
  Proof.
    intro W. assert (Hn : y <> []) by (intros ->; destruct W as [(c & r & E & _) | [[E | (c & r & E & _)] | (r & E & _)]]; discriminate).
    assert (D : (exists r, y = 45 :: 45 :: 62 :: r) \/ forall r, y <> 45 :: 45 :: 62 :: r).
    { destruct y as [| a [| b [| c r]]]; try (right; intros ?; discriminate).
      destruct (N.eq_dec a 45) as [-> |]; [| right; congruence]. destruct (N.eq_dec b 45) as [-> |]; [| right; congruence]. destruct (N.eq_dec c 62) as [-> |]; [left; eauto | right; congruence]. }
    destruct D as [(r & E) | D].
    - right. pose proof HT as T. apply token_at_scan in T; [| exact Hn]. rewrite E in T. unfold scan_token in T. cbn in T. inversion T. reflexivity.
    - left. destruct Hwb as (He & _). destruct (ident_token f pre y t2 H0 He W D HT) as (ps & r & Hp & A & B).
      assert (DS : starts (eq 40) r \/ ~ starts (eq 40) r).
      { destruct r as [| c r]; [right; intros (? & ? & E & _); discriminate |]. rewrite starts_cons. destruct (N.eq_dec 40 c); auto. }
      destruct DS as [S | S]; [destruct (B S) as [(K & _) | [K | K]] | destruct (A S) as (K & _)]; rewrite K; cbn; auto 6.
  Qed.
  Lemma second_number : would_start_number y -> (tkind t2 = K_Number \/ tkind t2 = K_Dimension) /\ (has_sign t2 = true <-> starts sign y).
  Proof.
    intro W. destruct Hwb as (He & WL & _). destruct (number_token f pre y t2 W WL He HT) as (p & r & _ & _ & K & S & _). auto.
  Qed.
  Lemma second_punct : forall c t, starts (eq c) y -> In (c, t) punctuation_constants -> ~ In c [35; 43; 45; 46; 47; 60; 64; 92; 95] -> t2 = t.
  Proof.
    intros c t (d & r & E & <-) I N. pose proof HT as T. apply token_at_scan in T; [| rewrite E; discriminate]. rewrite E, (scan_punct f c t r I N) in T. congruence.
  Qed.
  Lemma second_dash : starts (eq 45) y -> In (tkind t2) [K_Ident; K_Function; K_Url; K_BadUrl; K_Number; K_Dimension] \/ is_cdc t2 = true \/ t2 = T_DASH.
  Proof.
    intros (d & r & E & <-). pose proof HT as T. apply token_at_scan in T; [| rewrite E; discriminate].
    destruct (is_ident_start_sequence (peek_nth y 0) (peek_nth y 1) (peek_nth y 2)) eqn:Q1.
    { apply start_sequence_sound in Q1. destruct (second_ident Q1) as [I | I]; [left; cbn in *; intuition | auto]. }
    destruct (is_number_start y) eqn:Q2.
    { apply number_start_spec in Q2. destruct (second_number Q2) as ([K | K] & _); rewrite K; left; cbn; auto 8. }
    rewrite E in T, Q1, Q2. unfold scan_token in T. rewrite peek1, peek2, peek0 in *. right.
    rewrite Q1, Q2 in T. destruct ((peek_nth r 0 =? 45) && (peek_nth r 1 =? 62)); cbn in T; inversion T; auto.
  Qed.

  Lemma in_kind : forall k l, kind_in k l = true <-> In k l.
  Proof.
    intros k l. unfold kind_in. rewrite existsb_exists. split.
    - intros (x & I & E). destruct k, x; try discriminate; exact I.
    - intro I. exists k. split; [exact I |]. destruct k; reflexivity.
  Qed.
  Lemma not_in_kind : forall k l, kind_in k l = false <-> ~ In k l.
  Proof. intros k l. rewrite <- in_kind. destruct (kind_in k l); split; intro; congruence. Qed.

  (* the rules of needs_separator_for, read as facts about the second text *)
  Lemma rule_name : forall t1, In (tkind t1) [K_Ident; K_AtKeyword; K_Hash; K_Dimension] -> needs_separator_for t1 t2 = false ->
    ~ starts digit y /\ ~ would_start_ident y /\ (tkind t1 = K_Ident -> ~ starts (eq 40) y).
  Proof.
    intros t1 K NS.
    assert (R : (kind_in (tkind t2) [K_Number; K_Dimension] && (negb (has_sign t2) || f32_lt_zero (tvalue t2)) = false /\
      kind_in (tkind t2) [K_Ident; K_Function; K_Url; K_BadUrl] = false /\ is_cdc t2 = false) /\ (tkind t1 = K_Ident -> char_is t2 40 = false)).
    { unfold needs_separator_for in NS. cbn [In] in K. destruct K as [K | [K | [K | [K | []]]]]; rewrite <- K in NS; rewrite <- K;
        rewrite !orb_false_iff in NS; repeat match goal with Q : _ /\ _ |- _ => destruct Q end; repeat split; auto; discriminate. }
    destruct R as ((R1 & R2 & R3) & R4). split; [| split].
    - intros (c & r & E & D). assert (W : would_start_number y) by (exists []; split; [now left |]; exists y; split; [reflexivity |]; left; exists c, r; auto).
      destruct (second_number W) as (KK & S). apply andb_false_iff in R1. destruct R1 as [R1 | R1].
      + apply not_in_kind in R1. apply R1. destruct KK as [-> | ->]; cbn; auto.
      + destruct (has_sign t2); [| discriminate]. destruct (proj1 S eq_refl) as (c' & r' & E' & Q). rewrite E in E'. inversion E'; subst. unfold digit, sign in *. lia.
    - intro W. destruct (second_ident W) as [I | I]; [apply not_in_kind in R2; contradiction | congruence].
    - intros KI S. specialize (R4 KI). rewrite (second_punct 40 T_LEFT_PAREN S) in R4; [discriminate | cbn; tauto | cbn; intuition discriminate].
  Qed.
  Lemma name_tail : ~ starts digit y -> ~ would_start_ident y -> ~ starts (eq 45) y -> ~ starts ident_cp y /\ ~ starts_escape y.
  Proof.
    intros A B C. split; [| intro S; apply B; right; now left]. intros (c & r & E & [H | [H | H]]).
    - apply B. left. exists c, r. auto.
    - apply A. exists c, r. auto.
    - apply C. exists c, r. auto.
  Qed.
  Lemma rule_number : forall t1, tkind t1 = K_Number -> needs_separator_for t1 t2 = false -> stops y /\ ~ starts (eq 37) y /\ ~ would_start_ident y.
  Proof.
    intros t1 K NS. unfold needs_separator_for in NS. rewrite K in NS. rewrite !orb_false_iff in NS. destruct NS as ((R1 & R2) & R3). apply not_in_kind in R1.
    assert (WI : ~ would_start_ident y) by (intro W; destruct (second_ident W) as [I | I]; [apply R1; cbn in *; intuition | congruence]).
    assert (WN : ~ would_start_number y) by (intro W; destruct (second_number W) as ([I | I] & _); apply R1; rewrite I; cbn; auto 8).
    split; [split; [| split] | split].
    - intro S. apply WN. exists []. split; [now left |]. exists y. split; [reflexivity | now left].
    - intros (d & r & E & D). apply WN. exists []. split; [now left |]. exists y. split; [reflexivity |]. right. exists (d :: r). split; [exact E | exists d, r; auto].
    - intros (x & r & E & X). apply exponent_head in X. destruct X as (e & z & -> & He). apply WI. left. exists e, (z ++ r). split; [exact E |]. left. unfold letter, upper, lower. lia.
    - intro S. rewrite (second_punct 37 T_PERCENT S) in R2; [discriminate | cbn; tauto | cbn; intuition discriminate].
    - exact WI.
  Qed.
  Lemma rule_dash_like : forall t1, t1 = T_HASH \/ t1 = T_DASH -> needs_separator_for t1 t2 = false ->
    ~ would_start_ident y /\ ~ would_start_number y /\ ~ starts (eq 45) y.
  Proof.
    intros t1 K NS.
    assert (R : kind_in (tkind t2) [K_Ident; K_Function; K_Url; K_BadUrl; K_Number; K_Dimension] = false /\ char_is t2 45 = false /\ is_cdc t2 = false).
    { destruct K as [-> | ->]; unfold needs_separator_for in NS; cbn [tkind tchar] in NS.
      - change (tkind T_HASH) with K_Delim in NS. change (tchar T_HASH) with (Some 35) in NS. cbv iota beta in NS. rewrite !orb_false_iff in NS. tauto.
      - change (tkind T_DASH) with K_Delim in NS. change (tchar T_DASH) with (Some 45) in NS. cbv iota beta in NS. rewrite !orb_false_iff in NS. tauto. }
    destruct R as (R1 & R2 & R3). apply not_in_kind in R1. split; [| split].
    - intro W. destruct (second_ident W) as [I | I]; [apply R1; cbn in *; intuition | congruence].
    - intro W. destruct (second_number W) as ([I | I] & _); apply R1; rewrite I; cbn; auto 8.
    - intro S. destruct (second_dash S) as [I | [I | I]]; [contradiction | congruence |]. rewrite I in R2. discriminate.
  Qed.
  Lemma rule_at : needs_separator_for T_AT t2 = false -> ~ would_start_ident y.
  Proof.
    intros NS W. unfold needs_separator_for in NS. change (tkind T_AT) with K_Delim in NS. change (tchar T_AT) with (Some 64) in NS. cbv iota beta in NS.
    rewrite !orb_false_iff in NS. destruct NS as ((R1 & _) & R3). apply not_in_kind in R1. destruct (second_ident W) as [I | I]; [contradiction | congruence].
  Qed.
  Lemma rule_point : forall c, c = 46 \/ c = 43 -> needs_separator_for (new_delim c) t2 = false -> ~ would_start_number y.
  Proof.
    intros c K NS W.
    assert (R : kind_in (tkind t2) [K_Number; K_Dimension] = false).
    { destruct K as [-> | ->]; unfold needs_separator_for in NS.
      - change (tkind (new_delim 46)) with K_Delim in NS. change (tchar (new_delim 46)) with (Some 46) in NS. exact NS.
      - change (tkind (new_delim 43)) with K_Delim in NS. change (tchar (new_delim 43)) with (Some 43) in NS. exact NS. }
    apply not_in_kind in R. destruct (second_number W) as ([I | I] & _); apply R; rewrite I; cbn; auto.
  Qed.
  Lemma rule_slash : needs_separator_for T_SLASH t2 = false -> ~ starts (eq 42) y.
  Proof.
    intros NS S. unfold needs_separator_for in NS. change (tkind T_SLASH) with K_Delim in NS. change (tchar T_SLASH) with (Some 47) in NS. cbv iota beta in NS.
    rewrite (second_punct 42 T_ASTERISK S) in NS; [discriminate | cbn; tauto | cbn; intuition discriminate].
  Qed.
  Lemma second_white : starts white y -> tkind t2 = K_Whitespace.
  Proof.
    intro S. destruct (separate_whitespace f) eqn:Q.
    - now destruct (separate_token f pre y t2 Q S HT).
    - destruct (whitespace_token f pre y t2 Q S HT) as (p & r & _ & K & _). exact K.
  Qed.
End Second.
