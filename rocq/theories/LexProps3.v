(* Proofs behind PropLex: identifiers, numbers, dimensions, punctuation. *)
From Coq Require Import String ZifyBool ZifyNat ZifyN.
From Verif Require Import Lexer SpecToken SpecLex SpecTrace LexBase TokenProofs KindProofs ScanProofs ScanProofs2 ScanProofs3 NumProofs DimProofs LexProofs LexFacts LexTrace LexKinds LexProps LexProps2.
Open Scope N_scope.
Open Scope list_scope.
Ltac Zify.zify_post_hook ::= Z.div_mod_to_equations.

(* ---- flags ---- *)
Lemma uflags_esc : forall ps i nl d e u nl' d' e' u', uflags i nl d e u ps = (nl', d', e', u') -> e' = e || existsb b_escaped ps.
Proof.
  assert (G : forall n ps i nl d e u nl' d' e' u', (List.length ps <= n)%nat -> uflags i nl d e u ps = (nl', d', e', u') -> e' = e || existsb b_escaped ps).
  { induction n as [| n IH]; intros ps i nl d e u nl' d' e' u' L H.
    - destruct ps; [| cbn in L; lia]. cbn in H. inversion H; subst. now rewrite orb_false_r.
    - destruct ps as [| [c | x] ps]; cbn [uflags] in H; cbn [List.length] in L.
      + inversion H; subst. now rewrite orb_false_r.
      + destruct ((i =? 0) && (c =? 45)) eqn:E.
        * cbn [existsb b_escaped]. replace (c =? 0) with false by lia. cbn [orb].
          destruct ps as [| [c2 | x] ps].
          -- apply IH in H; [exact H | cbn; lia].
          -- destruct (c2 =? 45) eqn:E2.
             ++ apply IH in H; [| cbn in L; lia]. cbn [existsb b_escaped]. replace (c2 =? 0) with false by lia. exact H.
             ++ apply IH in H; [exact H | cbn in *; lia].
          -- apply IH in H; [exact H | cbn in *; lia].
        * cbn [existsb b_escaped]. destruct (c =? 0); apply IH in H; try lia; rewrite H; [cbn; now rewrite orb_true_r | reflexivity].
      + apply IH in H; [| lia]. rewrite H. cbn. now rewrite orb_true_r. }
  intros. eapply G; eauto.
Qed.
Lemma uflags_dash_pos : forall ps i nl d e u nl' d' e' u', 0 < i -> uflags i nl d e u ps = (nl', d', e', u') -> d' = d.
Proof.
  induction ps as [| [c | x] ps IH]; intros i nl d e u nl' d' e' u' Hi H; cbn [uflags] in H.
  - inversion H; now subst.
  - replace (i =? 0) with false in H by lia. cbn [andb] in H. destruct (c =? 0); apply IH in H; try lia; exact H.
  - apply IH in H; [exact H | lia].
Qed.
Lemma uflags_dashed : forall ps nl d e u, ~ In (Plain 0) ps -> uflags 0 false false false true ps = (nl, d, e, u) -> d = b_dashed ps.
Proof.
  intros ps nl d e u H0 H. destruct ps as [| [c | x] ps]; cbn [uflags] in H.
  - inversion H; now subst.
  - cbn [N.eqb andb] in H. destruct (c =? 45) eqn:E.
    + destruct ps as [| [c2 | x] ps].
      * apply uflags_dash_pos in H; [exact H | lia].
      * cbn [b_dashed]. rewrite E. destruct (c2 =? 45) eqn:E2; apply uflags_dash_pos in H; try lia; exact H.
      * apply uflags_dash_pos in H; [exact H | lia].
    + destruct (c =? 0) eqn:E0; [exfalso; apply H0; left; f_equal; lia |].
      apply uflags_dash_pos in H; [| lia]. cbn [b_dashed]. rewrite E. destruct ps as [| [c2 | x] ps]; exact H.
  - apply uflags_dash_pos in H; [exact H | lia].
Qed.
Lemma uflags_lower : forall ps i nl d e u nl' d' e' u', uflags i nl d e u ps = (nl', d', e', u') ->
  (nl' = false -> nl = false /\ forall c, In c (plain_chars ps) -> lower c \/ c = 45 \/ c = 0) /\
  (nl = false -> (forall c, In c (plain_chars ps) -> lower c) -> nl' = false).
Proof.
  assert (G : forall n ps i nl d e u nl' d' e' u', (List.length ps <= n)%nat -> uflags i nl d e u ps = (nl', d', e', u') ->
    (nl' = false -> nl = false /\ forall c, In c (plain_chars ps) -> lower c \/ c = 45 \/ c = 0) /\
    (nl = false -> (forall c, In c (plain_chars ps) -> lower c) -> nl' = false)).
  { induction n as [| n IH]; intros ps i nl d e u nl' d' e' u' L H.
    - destruct ps; [| cbn in L; lia]. cbn in H. inversion H; subst. split; [intros ->; split; [reflexivity | intros c []] | auto].
    - destruct ps as [| [c | x] ps]; cbn [uflags] in H; cbn [List.length] in L.
      + inversion H; subst. split; [intros ->; split; [reflexivity | intros c []] | auto].
      + cbn [plain_chars flat_map app]. fold (plain_chars ps).
        destruct ((i =? 0) && (c =? 45)) eqn:E.
        * assert (c = 45) by lia. subst c.
          assert (NL : ~ lower 45) by (unfold lower; lia).
          destruct ps as [| [c2 | x] ps].
          -- apply IH in H; [| cbn; lia]. destruct H as (A & B). split; [intro Q; destruct (A Q) as (A1 & A2); split; [exact A1 |]; intros c [<- | []]; auto |].
             intros _ Q. exfalso. apply NL. apply Q. now left.
          -- destruct (c2 =? 45) eqn:E2.
             ++ apply IH in H; [| cbn in L; lia]. destruct H as (A & B). split; [| intros _ Q; exfalso; apply NL, Q; now left].
                intro Q. destruct (A Q) as (A1 & A2). split; [exact A1 |]. cbn [plain_chars flat_map app]. fold (plain_chars ps). intros c [<- | [<- | I]]; auto. right. left. lia.
             ++ apply IH in H; [| cbn in *; lia]. destruct H as (A & B). split; [| intros _ Q; exfalso; apply NL, Q; now left].
                intro Q. destruct (A Q) as (A1 & A2). split; [exact A1 |]. intros c [<- | I]; auto.
          -- apply IH in H; [| cbn in *; lia]. destruct H as (A & B). split; [| intros _ Q; exfalso; apply NL, Q; now left].
             intro Q. destruct (A Q) as (A1 & A2). split; [exact A1 |]. intros c [<- | I]; auto.
        * destruct (c =? 0) eqn:E0; apply IH in H; try lia; destruct H as (A & B).
          -- split; [intro Q; destruct (A Q) as (A1 & A2); split; [exact A1 |]; intros c' [<- | I]; auto; right; right; lia |].
             intros Q Q2. apply B; auto. intros c' I. apply Q2. now right.
          -- split.
             ++ intro Q. destruct (A Q) as (A1 & A2). apply orb_false_iff in A1. destruct A1 as (A0 & A1). split; [exact A0 |].
                intros c' [<- | I]; [| now apply A2]. left. apply negb_false_iff in A1. now apply is_lower_spec.
             ++ intros -> Q2. apply B; [| intros c' I; apply Q2; now right]. cbn [orb]. apply negb_false_iff. apply is_lower_spec. apply Q2. now left.
      + apply IH in H; [| lia]. destruct H as (A & B). split; [intro Q; apply A; exact Q | intros Q Q2; apply B; auto]. }
  intros. eapply G; eauto.
Qed.

Lemma b_escaped_spec : forall ps, ~ In 0 (pieces_text ps) -> (existsb b_escaped ps = true <-> has_escape ps).
Proof.
  intros ps H0. rewrite existsb_exists. unfold has_escape. split.
  - intros (x & I & B). destruct x as [c | e]; [| exists e; exact I]. cbn in B. assert (c = 0) by lia. subst c. exfalso. apply H0.
    unfold pieces_text. apply in_flat_map. exists (Plain 0). split; [exact I | now left].
  - intros (e & I). exists (Esc e). split; [exact I | reflexivity].
Qed.
Lemma b_dashed_spec : forall ps, b_dashed ps = true <-> starts_dashed ps.
Proof.
  intro ps. unfold starts_dashed. destruct ps as [| [a | a] [| [b | b] ps]]; cbn [b_dashed]; split; try discriminate; try (intros (r & E); discriminate E).
  - intro H. exists ps. assert (a = 45) by lia. assert (b = 45) by lia. now subst.
  - intros (r & E). inversion E; subst. reflexivity.
Qed.
Lemma no_plain_0 : forall ps, ~ In 0 (pieces_text ps) -> ~ In (Plain 0) ps.
Proof. intros ps H I. apply H. apply in_flat_map. exists (Plain 0). split; [exact I | now left]. Qed.
Lemma b_nonlower_spec : forall ps, ~ In 0 (pieces_text ps) ->
  (existsb b_nonlower ps = false <-> forall c, In c (plain_chars ps) -> lower c \/ digit c \/ c = 45).
Proof.
  intros ps H0. apply no_plain_0 in H0. induction ps as [| [c | e] ps IH].
  - cbn. split; [intros _ c [] | reflexivity].
  - cbn [existsb plain_chars flat_map app]. fold (plain_chars ps).
    assert (H1 : ~ In (Plain 0) ps) by (intro I; apply H0; now right). specialize (IH H1).
    assert (C0 : c <> 0) by (intros ->; apply H0; now left).
    rewrite orb_false_iff, IH. cbn [b_nonlower]. rewrite negb_false_iff, !orb_true_iff, is_lower_spec, is_digit_spec.
    rewrite ?N.eqb_eq.
    split.
    + intros (A & B) c' [<- | I]; [tauto | now apply B].
    + intro A. split; [specialize (A c (or_introl eq_refl)); tauto | intros c' I; apply A; now right].
  - cbn [existsb plain_chars flat_map app b_nonlower orb]. fold (plain_chars ps). apply IH. intro I. apply H0. now right.
Qed.

(* ---- identifiers ---- *)
Lemma not_digit_ident_start : forall c, is_ident_start c = true -> is_ascii_digit c = false /\ is_whitespace c = false /\ is_quote c = false /\ c <> 0 /\
  ~ In c [45; 46; 43; 60; 35; 64; 92; 47].
Proof.
  intros c H. rewrite is_ident_start_spec in H. destruct H as (H & H0).
  assert (D : ~ digit c /\ ~ white c /\ ~ quote c /\ ~ In c [45; 46; 43; 60; 35; 64; 92; 47]).
  { unfold ident_start_cp, letter, upper, lower, non_ascii_ident in H. unfold digit, white, newline, quote. cbn. lia. }
  destruct D as (D1 & D2 & D3 & D4). repeat split; auto.
  - destruct (is_ascii_digit c) eqn:E; [apply is_digit_spec in E; contradiction | reflexivity].
  - destruct (is_whitespace c) eqn:E; [apply is_whitespace_spec in E; contradiction | reflexivity].
  - destruct (is_quote c) eqn:E; [apply is_quote_spec in E; contradiction | reflexivity].
Qed.
Lemma scan_ident_like : forall f l, l <> [] -> is_ident_start_sequence (peek_nth l 0) (peek_nth l 1) (peek_nth l 2) = true ->
  (forall r, l <> 45 :: 45 :: 62 :: r) -> scan_token f l = ofst (consume_ident_like_token l).
Proof.
  intros f l Hn H HC. destruct l as [| c l]; [congruence |]. unfold scan_token. rewrite peek0, peek1, peek2 in *.
  unfold is_ident_start_sequence in H. destruct (c =? 45) eqn:E45.
  { assert (c = 45) by lia. subst c.
    replace ((peek_nth l 0 =? 45) && (peek_nth l 1 =? 62)) with false.
    2:{ symmetry. apply andb_false_iff. destruct (peek_nth l 0 =? 45) eqn:A; [right | now left]. destruct (peek_nth l 1 =? 62) eqn:B; [| reflexivity].
        exfalso. destruct (peek_eq_starts 45 l ltac:(discriminate) A) as (r & ->). rewrite peek1 in B. destruct (peek_eq_starts 62 r ltac:(discriminate) B) as (r' & ->). now apply (HC r'). }
    replace (is_ident_start_sequence 45 (peek_nth l 0) (peek_nth l 1)) with true by (symmetry; exact H). reflexivity. }
  apply orb_true_iff in H. destruct H as [H | H].
  - destruct (not_digit_ident_start c H) as (A & B & C & D & F). unfold is_ident_start, is_ascii in H.
    destruct (c <? 128) eqn:E.
    + cbn zeta.
      assert (T : token_eqb (nth (N.to_nat c) SINGLE_CHAR_TOKENS T_EOF) T_EOF = true).
      { assert (S : negb (is_ident_ascii_start c) || token_eqb (nth (N.to_nat c) SINGLE_CHAR_TOKENS T_EOF) T_EOF = true).
        { apply (ascii_sweep (fun c => negb (is_ident_ascii_start c) || token_eqb (nth (N.to_nat c) SINGLE_CHAR_TOKENS T_EOF) T_EOF) eq_refl c). lia. }
        rewrite H in S. exact S. }
      rewrite T, H. reflexivity.
    + assert (H' : is_ident_start c = true) by (unfold is_ident_start, is_ascii; rewrite E; exact H).
      replace (c =? 0) with false by lia. rewrite B. cbn [andb].
      unfold is_whitespace in B. apply orb_false_iff in B. destruct B as (B & B3). apply orb_false_iff in B. destruct B as (B1 & B2).
      rewrite B1, B2, B3, C, A. cbn [In] in F.
      replace (c =? 46) with false by lia. replace (c =? 43) with false by lia. replace (c =? 60) with false by lia.
      replace (c =? 35) with false by lia. replace (c =? 64) with false by lia. replace (c =? 92) with false by lia. replace (c =? 47) with false by lia.
      cbn [orb]. rewrite H'. reflexivity.
  - assert (c = 92) by (unfold is_escape_sequence in H; lia). subst c. rewrite H. reflexivity.
Qed.
Lemma pieces_no0 : forall l ps r, ident_pieces l ps r -> ~ In 0 l -> ~ In 0 (pieces_text ps).
Proof. intros l ps r H N I. apply N. apply ident_pieces_app in H. rewrite H. apply in_or_app. now left. Qed.

Lemma ident_token : forall f pre l t, ~ In 0 l -> esc_ok l -> would_start_ident l -> (forall r, l <> 45 :: 45 :: 62 :: r) ->
  token_at f pre l t -> exists ps r, ident_pieces l ps r /\
   (~ starts (eq 40) r -> tkind t = K_Ident /\ tlen t = blen (pieces_text ps) /\ ident_facts t ps) /\
   (starts (eq 40) r -> (tkind t = K_Function /\ tlen t = blen (pieces_text ps) + 1 /\ ident_facts t ps) \/ tkind t = K_Url \/ tkind t = K_BadUrl).
Proof.
  intros f pre l t H0 He W HC T.
  assert (Hn : l <> []). { intros ->. destruct W as [(c & r & E & _) | [[E | (c & r & E & _)] | (r & E & _)]]; discriminate. }
  apply token_at_scan in T; [| exact Hn].
  rewrite (scan_ident_like f l Hn (start_sequence_complete l H0 W) HC) in T.
  destruct (ident_like_scan l He) as (t' & r & E & V). rewrite E in T. cbn [ofst] in T. inversion T; subst t'. clear T.
  assert (FL : forall ps r nl d e u, ident_pieces l ps r -> uflags 0 false false false true ps = (nl, d, e, u) ->
    (d = true <-> starts_dashed ps) /\ (e = true <-> has_escape ps) /\
    (negb nl = true -> forall c, In c (plain_chars ps) -> lower c \/ c = 45) /\ ((forall c, In c (plain_chars ps) -> lower c) -> negb nl = true)).
  { intros ps r0 nl d e u Hp Hu. pose proof (pieces_no0 _ _ _ Hp H0) as N0.
    pose proof (uflags_esc _ _ _ _ _ _ _ _ _ _ Hu) as Ee. cbn [orb] in Ee. pose proof (uflags_dashed _ _ _ _ _ (no_plain_0 _ N0) Hu) as Ed.
    destruct (uflags_lower _ _ _ _ _ _ _ _ _ _ Hu) as (A & B). subst d e. split; [apply b_dashed_spec |]. split; [now apply b_escaped_spec |]. split.
    - intros Q c I. apply negb_true_iff in Q. destruct (proj2 (A Q) c I) as [L | [L | L]]; auto. subst c. exfalso. apply N0.
      unfold plain_chars in I. apply in_flat_map in I. destruct I as (x & Ix & Hx). destruct x as [c | e]; [| destruct Hx]. destruct Hx as [-> | []]. apply in_flat_map. exists (Plain 0). split; [exact Ix | now left].
    - intro Q. apply negb_true_iff. apply B; auto. }
  destruct V as [ps r nl d e u Hp Hu Hs | ps r nl d e u Hp Hu Hs | ps r1 nl d e w c t r paren Hp Hu Hq Hw Hb | ps r1 nl d e w c t p r Hp Hu Hq Hw Hbr Hb].
  - exists ps, r. split; [exact Hp |]. destruct (FL _ _ _ _ _ _ Hp Hu) as (F1 & F2 & F3 & F4).
    destruct (ident_read nl d e (blen (pieces_text ps))) as (K & L & Lo & Da & Es). split; [| tauto].
    intros _. unfold ident_facts. rewrite K, L, Da, Es, Lo. auto 10.
  - exists ps, (40 :: r). split; [exact Hp |]. destruct (FL _ _ _ _ _ _ Hp Hu) as (F1 & F2 & F3 & F4).
    destruct (function_read nl d e (blen (pieces_text ps) + 1)) as (K & L & Lo & Da & Es). split; [intro Q; exfalso; apply Q; exists 40, r; auto |].
    intros _. left. unfold ident_facts. rewrite K, L, Da, Es, Lo. auto 10.
  - exists ps, (40 :: r1). split; [exact Hp |]. split; [intro Q; exfalso; apply Q; exists 40, r1; auto |]. intros _. right. left. apply url_read_gen.
  - exists ps, (40 :: r1). split; [exact Hp |]. split; [intro Q; exfalso; apply Q; exists 40, r1; auto |]. intros _. right. right. reflexivity.
Qed.

Lemma at_token : forall f pre l t, ~ In 0 l -> esc_ok l -> would_start_ident l -> token_at f pre (64 :: l) t -> exists ps r, ident_pieces l ps r /\
  tkind t = K_AtKeyword /\ tlen t = 1 + blen (pieces_text ps) /\ (is_dashed_ident t = true <-> starts_dashed ps) /\ (contains_escape_chars t = true <-> has_escape ps) /\
  (is_lower_case t = true <-> forall c, In c (plain_chars ps) -> lower c \/ digit c \/ c = 45).
Proof.
  intros f pre l t H0 He W T. apply token_at_scan in T; [| discriminate].
  destruct (consume_ident_spec l) as (n & ps & r & E & Hp & Hb & _). specialize (Hb He).
  unfold scan_token in T. cbn [tl] in T. rewrite (start_sequence_complete l H0 W), E in T.
  assert (Et : t = new_atkeyword (existsb b_nonlower ps) (b_dashed ps) (existsb b_escaped ps) (n + 1)).
  { symmetry. change (Some (new_atkeyword (existsb b_nonlower ps) (b_dashed ps) (existsb b_escaped ps) (n + 1)) = Some t) in T. congruence. }
  subst t n. exists ps, r. split; [exact Hp |]. pose proof (pieces_no0 _ _ _ Hp H0) as N0.
  destruct (atkeyword_read (existsb b_nonlower ps) (b_dashed ps) (existsb b_escaped ps) (blen (pieces_text ps) + 1)) as (K & L & Lo & Da & Es).
  rewrite K, L, Lo, Da, Es. split; [reflexivity |]. split; [lia |]. split; [apply b_dashed_spec |]. split; [now apply b_escaped_spec |].
  rewrite negb_true_iff. now apply b_nonlower_spec.
Qed.
Lemma hash_token : forall f pre l t, ~ In 0 l -> esc_ok l -> starts ident_cp l \/ starts_escape l -> token_at f pre (35 :: l) t -> exists ps r, ident_pieces l ps r /\
  tkind t = K_Hash /\ tlen t = 1 + blen (pieces_text ps) /\ (contains_escape_chars t = true <-> has_escape ps) /\
  (is_lower_case t = true <-> forall c, In c (plain_chars ps) -> lower c \/ digit c \/ c = 45).
Proof.
  intros f pre l t H0 He W T. apply token_at_scan in T; [| discriminate].
  assert (G : is_ident (peek_nth l 0) || is_escape_sequence (peek_nth l 0) (peek_nth l 1) = true).
  { apply orb_true_iff. destruct W as [(c & r & -> & Hc) | W].
    - left. rewrite peek0. apply is_ident_spec. split; [exact Hc |]. intros ->. apply H0. now left.
    - right. now apply starts_escape_peek in W. }
  destruct (consume_ident_spec l) as (n & ps & r & E & Hp & Hb & _). specialize (Hb He).
  unfold scan_token in T. rewrite peek1, peek2, G in T. unfold consume_hash_token in T. cbn [tl] in T. rewrite E in T.
  set (id := is_ident (peek_nth l 0)) in *.
  assert (Et : t = new_hash (existsb b_nonlower ps) id (existsb b_escaped ps) (n + 1)).
  { symmetry. change (Some (new_hash (existsb b_nonlower ps) id (existsb b_escaped ps) (n + 1)) = Some t) in T. congruence. }
  subst t n. exists ps, r. split; [exact Hp |]. pose proof (pieces_no0 _ _ _ Hp H0) as N0.
  destruct (hash_read (existsb b_nonlower ps) id (existsb b_escaped ps) (blen (pieces_text ps) + 1)) as (K & L & Lo & Da & Es).
  rewrite K, L, Lo, Es. split; [reflexivity |]. split; [lia |]. split; [now apply b_escaped_spec |].
  rewrite negb_true_iff. now apply b_nonlower_spec.
Qed.
Lemma ident_like_only : forall f pre l t, well_behaved (single_line_comments f) l -> l <> [] -> token_at f pre l t ->
  (In (tkind t) [K_Ident; K_Function; K_Url; K_BadUrl] -> would_start_ident l) /\
  (tkind t = K_AtKeyword -> exists l', l = 64 :: l' /\ would_start_ident l') /\
  (tkind t = K_Hash -> exists l', l = 35 :: l' /\ (starts ident_cp l' \/ starts_escape l')).
Proof.
  intros f pre l t WB Hn T. destruct (kind_shape f pre l t WB Hn T) as (r & S & _). unfold shape in S. repeat split.
  - intros [K | [K | [K | [K | []]]]]; rewrite <- K in S; apply S.
  - intro K. rewrite K in S. destruct S as (l' & ps & -> & Q & _). exists l'. split; [reflexivity |]. now apply start_sequence_sound.
  - intro K. rewrite K in S. destruct S as (l' & ps & -> & Q & _). exists l'. split; [reflexivity |]. apply orb_true_iff in Q.
    destruct l' as [| c l']; [cbn in Q; destruct Q; discriminate |]. destruct Q as [Q | Q].
    + left. exists c, l'. split; [reflexivity |]. now apply is_ident_spec in Q.
    + right. apply starts_escape_peek. split; [discriminate | exact Q].
Qed.

(* ---- numbers ---- *)
Lemma number_not_ident : forall l, would_start_number l -> ~ would_start_ident l.
Proof.
  intros l (s & Hs & r & -> & Hr) W.
  assert (HD : forall P, starts P r -> (forall c, P c -> ~ digit c /\ c <> 46) -> False).
  { intros P (c & x & -> & Hc) HP. apply HP in Hc. destruct Hr as [(d & y & E & Hd) | (r' & E & _)]; inversion E; subst; tauto. }
  assert (I0 : forall c, ident_start_cp c -> ~ digit c /\ c <> 46).
  { intros c H. unfold ident_start_cp, letter, upper, lower, non_ascii_ident in H. unfold digit. lia. }
  assert (E0 : starts_escape r -> False).
  { intro S. destruct r as [| c r]; [destruct S as [S | (? & ? & S & _)]; discriminate |]. apply starts_escape_92 in S. subst c.
    destruct Hr as [(d & y & E & Hd) | (r' & E & _)]; inversion E; subst. unfold digit in Hd. lia. }
  destruct Hs as [-> | [-> | ->]]; cbn [app] in W.
  - destruct W as [W | [W | (x & E & W)]]; [exact (HD _ W I0) | exact (E0 W) |]. subst r.
    destruct Hr as [(d & y & E & Hd) | (r' & E & _)]; inversion E; subst. unfold digit in Hd. lia.
  - destruct W as [W | [W | (x & E & W)]].
    + rewrite starts_cons in W. unfold ident_start_cp, letter, upper, lower, non_ascii_ident in W. lia.
    + apply starts_escape_92 in W. discriminate.
    + discriminate.
  - destruct W as [W | [W | (x & E & W)]].
    + rewrite starts_cons in W. unfold ident_start_cp, letter, upper, lower, non_ascii_ident in W. lia.
    + apply starts_escape_92 in W. discriminate.
    + inversion E; subst x. destruct W as [W | [W | W]]; [exact (HD _ W I0) | apply (HD _ W); intros c <-; unfold digit; lia | exact (E0 W)].
Qed.
Lemma number_scan : forall f pre l t, would_start_number l -> token_at f pre l t -> exists r, numeric_view l t r.
Proof.
  intros f pre l t W T.
  assert (Hn : l <> []). { destruct W as (s & Hs & r & -> & Hr). destruct Hr as [(c & x & -> & _) | (x & -> & _)]; destruct s; discriminate. }
  apply token_at_scan in T; [| exact Hn].
  destruct (scan_number f l W) as (t' & r & E & V).
  { destruct (is_ident_start_sequence (peek_nth l 0) (peek_nth l 1) (peek_nth l 2)) eqn:Q; [| reflexivity].
    exfalso. apply start_sequence_sound in Q. now apply number_not_ident in W. }
  rewrite E in T. inversion T; subst. exists r. exact V.
Qed.
Lemma sign_start : forall l, (is_sign (peek_nth l 0) = true <-> starts sign l).
Proof. intro l. rewrite is_sign_spec. apply peek_starts. unfold sign. lia. Qed.

Lemma number_token : forall f pre l t, would_start_number l -> within_limits l -> esc_ok l -> token_at f pre l t ->
  exists p r, longest_number l p r /\ numeric_len t = blen p /\ (tkind t = K_Number \/ tkind t = K_Dimension) /\
    (has_sign t = true <-> starts sign l) /\ (is_float t = true <-> float_text p) /\ is_int t = negb (is_float t) /\ tvalue t = parse_f32 p.
Proof.
  intros f pre l t W WL He T. destruct (number_scan f pre l t W T) as (r & V). assert (SL : suffix_of l l) by (exists []; reflexivity).
  setoid_rewrite <- sign_start.
  destruct V as [p r fl v Hl Hf Hv Hs Hi | p r fl v Hl Hf Hv | p r1 fl v u n ps r Hl Hf Hv Hi Hp Hq Hu Hu'].
  - exists p, r. split; [exact Hl |]. destruct (number_read fl (is_sign (peek_nth l 0)) (blen p) v) as (K & L & N & F & I & S & X); [apply (WL _ _ _ SL Hl) |].
    rewrite K, N, F, I, S, X. repeat split; auto; now apply Hf.
  - exists p, (37 :: r). split; [exact Hl |].
    destruct (dimension_read fl (is_sign (peek_nth l 0)) (blen p) 1 v U_Percent) as (K & N & F & I & S & X & _); [apply (WL _ _ _ SL Hl); exists 37, r; auto | discriminate |].
    rewrite K, N, F, I, S, X. repeat split; auto; now apply Hf.
  - exists p, r1. split; [exact Hl |]. pose proof (start_sequence_sound _ Hi) as W'. destruct (WL _ _ _ SL Hl) as (_ & _ & A). specialize (A ps r W' Hp).
    assert (Hen : n = blen (pieces_text ps)). { apply Hq. destruct Hl as (E & _). rewrite E in He. now apply esc_ok_suffix in He. }
    destruct (dimension_read fl (is_sign (peek_nth l 0)) (blen p) n v u) as (K & N & F & I & S & X & _); [tauto | intros _; lia |].
    rewrite K, N, F, I, S, X. repeat split; auto; now apply Hf.
Qed.
Lemma number_only : forall f pre l t, well_behaved (single_line_comments f) l -> l <> [] -> token_at f pre l t ->
  tkind t = K_Number \/ tkind t = K_Dimension -> would_start_number l.
Proof.
  intros f pre l t WB Hn T K. destruct (kind_shape f pre l t WB Hn T) as (r & S & _). unfold shape in S. destruct K as [K | K]; rewrite K in S; apply S.
Qed.

(* ---- what follows the number ---- *)
Lemma dimension_token : forall f pre l t p r, would_start_number l -> within_limits l -> esc_ok l -> no_sv_unit l -> ~ In 0 l -> token_at f pre l t ->
  longest_number l p r ->
  (starts (eq 37) r -> tkind t = K_Dimension /\ dimension_unit t = U_Percent /\ tlen t = blen p + 1) /\
  (would_start_ident r -> tkind t = K_Dimension /\ exists ps r', ident_pieces r ps r' /\ tlen t = blen p + blen (pieces_text ps) /\
     (dimension_unit t <> U_Unknown -> exists n q, In (dimension_unit t, n) css_unit_names /\ ps = map Plain q /\ lower_text q = chars n) /\
     (forall u n q, In (u, n) css_unit_names -> u <> U_Percent -> ps = map Plain q -> lower_text q = chars n -> hd 0 q <> 68 -> dimension_unit t = u)) /\
  (~ starts (eq 37) r -> ~ would_start_ident r -> tkind t = K_Number /\ tlen t = blen p).
Proof.
  intros f pre l t p r W WL He SV H0 T HL. destruct (number_scan f pre l t W T) as (r0 & V). assert (SL : suffix_of l l) by (exists []; reflexivity).
  assert (N37 : ~ would_start_ident (37 :: r0)).
  { intros [Q | [Q | (x & E & _)]].
    - rewrite starts_cons in Q. unfold ident_start_cp, letter, upper, lower, non_ascii_ident in Q. lia.
    - apply starts_escape_92 in Q. discriminate.
    - discriminate. }
  destruct V as [p' r' fl v Hl Hf Hv Hs Hi | p' r' fl v Hl Hf Hv | p' r1 fl v u n ps r' Hl Hf Hv Hi Hp Hq Hu Hu'];
    destruct (longest_det _ _ _ _ _ HL Hl) as (<- & Er); subst.
  - destruct (number_read fl (is_sign (peek_nth l 0)) (blen p) (parse_f32 p)) as (K & L & _); [apply (WL _ _ _ SL Hl) |].
    split; [intro Q; contradiction |]. split; [| intros _ _; auto].
    intro Q. exfalso. rewrite start_sequence_complete in Hi; [discriminate | | exact Q]. intro I. apply H0. destruct Hl as (-> & _). apply in_or_app. now right.
  - destruct (dimension_read fl (is_sign (peek_nth l 0)) (blen p) 1 (parse_f32 p) U_Percent) as (K & _ & _ & _ & _ & _ & U & _ & L); [apply (WL _ _ _ SL Hl); exists 37, r'; auto | discriminate |].
    split; [intros _; rewrite K, U, L; auto |]. split; [intro Q; now apply N37 in Q |]. intro Q. exfalso. apply Q. exists 37, r'. auto.
  - pose proof (start_sequence_sound _ Hi) as W'. destruct (WL _ _ _ SL Hl) as (_ & _ & A). specialize (A ps r' W' Hp).
    assert (Hen : n = blen (pieces_text ps)). { apply Hq. destruct Hl as (E & _). rewrite E in He. now apply esc_ok_suffix in He. }
    destruct (dimension_read fl (is_sign (peek_nth l 0)) (blen p) n (parse_f32 p) u) as (K & _ & _ & _ & _ & _ & U & _ & L); [tauto | intros _; lia |].
    split.
    { intros (c & x & -> & <-). exfalso. destruct W' as [Q | [Q | (y & E & _)]].
      - rewrite starts_cons in Q. unfold ident_start_cp, letter, upper, lower, non_ascii_ident in Q. lia.
      - apply starts_escape_92 in Q. discriminate.
      - discriminate. }
    split; [| intros _ Q; contradiction]. intros _. split; [exact K |]. exists ps, r'. split; [exact Hp |].
    assert (HU : u <> U_Unknown -> exists q, ps = map Plain q /\ Forall letter q /\ lower_text q = name_of u).
    { intro NU. destruct (Hu NU) as (q & Eq & Fq & [Q | (_ & Q2)]); [exists q; auto |]. exfalso. subst ps. exact (SV _ _ _ q _ SL Hl Hp Q2). }
    split; [| rewrite U; split].
    + rewrite L. destruct (unit_eqb u U_Unknown) eqn:Eu; [lia |].
      assert (NU : u <> U_Unknown) by (intro Q; subst; discriminate). destruct (HU NU) as (q & -> & Fq & Q).
      f_equal. rewrite pieces_text_plain. rewrite <- name_len, <- Q, (blen_ascii q) by now apply letters_ascii.
      rewrite blen_ascii, lower_text_len; [reflexivity |]. rewrite Q. apply name_ascii.
    + intro NU. destruct (HU NU) as (q & Eq & Fq & Q). destruct (unit_names_total u NU) as (m & Im). exists m, q. split; [exact Im |]. split; [exact Eq |].
      rewrite Q. now apply name_of_in.
    + intros w m q Im NP Eq Q Hd. apply (Hu' q w); auto.
      * intros ->. clear - Im. cbn [css_unit_names In] in Im. repeat (destruct Im as [Im | Im]; [discriminate Im |]). destruct Im.
      * rewrite Q. symmetry. now apply name_of_in.
Qed.

(* ---- punctuation ---- *)
Lemma punct_token : forall f pre c k l t, In (c, k) punctuation_constants -> ~ In c [35; 43; 45; 46; 47; 60; 64; 92; 95] ->
  token_at f pre (c :: l) t -> t = k.
Proof. intros f pre c k l t I N T. apply token_at_scan in T; [| discriminate]. rewrite (scan_punct f c k l I N) in T. congruence. Qed.
Lemma delim_kind : forall k, In k doc_delim_like -> forall f l t r, tkind t = k -> shape f l t r -> delim_shape f l t r.
Proof. intros k I f l t r K S. unfold shape in S. rewrite K in S. cbn [In doc_delim_like] in I. repeat (destruct I as [<- | I]; [exact S |]). destruct I. Qed.
Lemma delim_token : forall f pre l t, well_behaved (single_line_comments f) l -> l <> [] -> Forall (fun c => valid_char c = true) l -> token_at f pre l t ->
  In (tkind t) doc_delim_like -> exists c r, l = c :: r /\ tchar t = Some c /\ tlen t = len_utf8 c.
Proof.
  intros f pre l t WB Hn HV T K. destruct (kind_shape f pre l t WB Hn T) as (r & S & _). apply (delim_kind _ K) in S; [| reflexivity].
  destruct S as (c & -> & [I | (-> & _)]); exists c, r; split; try reflexivity.
  - destruct (constants_read _ _ I) as (A & B & C & _). rewrite B, C. auto.
  - inversion HV; subst. destruct (delim_read c ltac:(assumption)) as (_ & A & B). auto.
Qed.
