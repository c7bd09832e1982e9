(* Proofs behind PropLex: whitespace, comments, strings, identifiers, numbers, dimensions, urls, punctuation. *)
From Coq Require Import ZifyBool ZifyNat ZifyN.
From Verif Require Import Lexer SpecToken SpecLex SpecTrace LexBase TokenProofs KindProofs ScanProofs ScanProofs2 ScanProofs3 NumProofs DimProofs LexProofs LexFacts LexTrace LexKinds.
Open Scope N_scope.
Open Scope list_scope.
Ltac Zify.zify_post_hook ::= Z.div_mod_to_equations.

Lemma token_at_starts : forall f pre l t P, starts P l -> token_at f pre l t -> scan_token f l = Some t.
Proof. intros f pre l t P (c & r & -> & _) H. apply token_at_scan in H; [exact H | discriminate]. Qed.

(* ---- whitespace ---- *)
Lemma fold_style_bit : forall p s n, N.testbit (fold_left (fun s c => N.lor s (ws_bit c)) p s) n = N.testbit s n || existsb (fun c => N.testbit (ws_bit c) n) p.
Proof.
  induction p as [| c p IH]; intros s n; cbn [fold_left existsb]; [now rewrite orb_false_r |].
  rewrite IH, N.lor_spec, orb_assoc. reflexivity.
Qed.
Lemma style_has_bit : forall s n, style_has s (2 ^ n) <-> N.testbit s n = true.
Proof.
  intros s n. unfold style_has. rewrite <- N.shiftl_1_l. rewrite <- land_pow2.
  rewrite negb_true_iff, N.eqb_neq. tauto.
Qed.
Lemma ws_style_bits : forall p, Forall white p ->
  (style_has (ws_style p) WS_Space <-> In 32 p) /\ (style_has (ws_style p) WS_Tab <-> In 9 p) /\
  (style_has (ws_style p) WS_Newline <-> exists c, newline c /\ In c p).
Proof.
  intros p F. rewrite Forall_forall in F. unfold ws_style.
  change WS_Space with (2 ^ 0). change WS_Tab with (2 ^ 1). change WS_Newline with (2 ^ 2).
  rewrite !style_has_bit, !fold_style_bit, !N.bits_0. cbn [orb]. rewrite !existsb_exists.
  assert (B : forall c, (N.testbit (ws_bit c) 0 = true <-> c = 32) /\ (N.testbit (ws_bit c) 1 = true <-> c = 9) /\ (N.testbit (ws_bit c) 2 = true <-> c <> 32 /\ c <> 9)).
  { intro c. unfold ws_bit. destruct (c =? 32) eqn:E1; [assert (c = 32) by lia; subst; cbn; repeat split; intros; try discriminate; try reflexivity; lia |].
    destruct (c =? 9) eqn:E2; [assert (c = 9) by lia; subst; cbn; repeat split; intros; try discriminate; try reflexivity; lia |].
    cbn. repeat split; intros; try discriminate; try lia. }
  repeat split.
  - intros (c & I & H). apply B in H. now subst.
  - intro I. exists 32. split; [exact I | reflexivity].
  - intros (c & I & H). apply B in H. now subst.
  - intro I. exists 9. split; [exact I | reflexivity].
  - intros (c & I & H). exists c. split; [| exact I]. apply B in H. apply F in I. unfold white in I. tauto.
  - intros (c & Hn & I). exists c. split; [exact I |]. apply B. unfold newline in Hn. lia.
Qed.
Lemma whitespace_token : forall f pre l t, separate_whitespace f = false -> starts white l -> token_at f pre l t ->
  exists p r, run white l p r /\ tkind t = K_Whitespace /\ tlen t = blen p /\
    (style_has (whitespace_style t) WS_Space <-> In 32 p) /\ (style_has (whitespace_style t) WS_Tab <-> In 9 p) /\
    (style_has (whitespace_style t) WS_Newline <-> exists c, newline c /\ In c p).
Proof.
  intros f pre l t Hf W T. pose proof (token_at_starts _ _ _ _ _ W T) as S.
  destruct (scan_whitespace f l W Hf) as (p & r & R & Hp & E). rewrite E in S. inversion S; subst t. exists p, r. split; [exact R |].
  destruct (whitespace_read (ws_style p) (blen p) (ws_style_lt p)) as (K & L & St). split; [exact K |]. split; [exact L |]. rewrite St. apply ws_style_bits. apply R.
Qed.
Lemma kind_shape : forall f pre l t, well_behaved (single_line_comments f) l -> l <> [] -> token_at f pre l t -> exists r, shape f l t r /\ scan_view f l t r.
Proof.
  intros f pre l t WB Hn T. apply token_at_scan in T; [| exact Hn]. destruct (scan_spec f l Hn (proj1 WB)) as (t' & r & S & V).
  rewrite S in T. inversion T; subst t'. exists r. split; [now apply view_shape | exact V].
Qed.
Lemma shape_white : forall f l t r, shape f l t r -> tkind t = K_Whitespace -> starts white l.
Proof.
  intros f l t r S K. unfold shape in S. rewrite K in S.
  assert (G : forall (P : N -> Prop) p, (forall c, P c -> white c) -> p <> [] -> run P l p r -> starts white l).
  { intros P p HP Hp (E & F & _). destruct p as [| c p]; [congruence |]. exists c, (p ++ r). split; [exact E |]. apply HP. now inversion F. }
  destruct S as [(_ & p & R & Hp & _) | (_ & p & b & Hp & _ & [(_ & R) | [(_ & R) | (_ & R)]])].
  - apply (G white p); auto.
  - apply (G (eq 32) p); auto. intros c <-. unfold white. auto.
  - apply (G (eq 9) p); auto. intros c <-. unfold white. auto.
  - apply (G newline p); auto. intros c H. unfold white. auto.
Qed.
Lemma whitespace_only : forall f pre l t, well_behaved (single_line_comments f) l -> l <> [] -> token_at f pre l t -> tkind t = K_Whitespace -> starts white l.
Proof. intros f pre l t WB Hn T K. destruct (kind_shape f pre l t WB Hn T) as (r & S & _). exact (shape_white f l t r S K). Qed.

Lemma whitespace_not_adjacent : forall f src cs1 c1 c2 cs2, separate_whitespace f = false -> well_behaved (single_line_comments f) src ->
  lex src f = Some (cs1 ++ c1 :: c2 :: cs2) -> tkind (ctok c1) = K_Whitespace -> tkind (ctok c2) <> K_Whitespace.
Proof.
  intros f src cs1 c1 c2 cs2 Hf WB E K1 K2. destruct (lex_trace src f WB) as (cs & E' & T). rewrite E in E'. inversion E'; subst cs. clear E'.
  apply trace_app in T. destruct T as (a & b & -> & T). apply well_behaved_suffix in WB.
  apply trace_cons_inv in T. destruct T as (p & r & -> & _ & _ & _ & _ & _ & V1 & T).
  apply trace_cons_inv in T. destruct T as (p2 & r2 & -> & _ & _ & _ & _ & _ & V2 & T).
  pose proof (view_shape _ _ _ _ V1 WB) as S1. unfold shape in S1. rewrite K1 in S1.
  destruct S1 as [(_ & q & (_ & _ & R) & _ & _) | (Hs & _)]; [| congruence].
  apply R. apply well_behaved_suffix in WB. pose proof (view_shape _ _ _ _ V2 WB) as S2. exact (shape_white _ _ _ _ S2 K2).
Qed.

Lemma separate_token : forall f pre l t, separate_whitespace f = true -> starts white l -> token_at f pre l t ->
  tkind t = K_Whitespace /\ exists p r, p <> [] /\ tlen t = blen p /\
   ((whitespace_style t = WS_Space /\ run (eq 32) l p r) \/ (whitespace_style t = WS_Tab /\ run (eq 9) l p r) \/
    (whitespace_style t = WS_Newline /\ run newline l p r)).
Proof.
  intros f pre l t Hf W T. pose proof (token_at_starts _ _ _ _ _ W T) as S.
  destruct (scan_whitespace_sep f l W Hf) as (p & r & b & Hp & E & R). rewrite E in S. inversion S; subst t.
  assert (B : b < 8) by (destruct R as [(-> & _) | [(-> & _) | (-> & _)]]; reflexivity).
  destruct (whitespace_read b (blen p) B) as (K & L & St). split; [exact K |]. exists p, r. split; [exact Hp |]. split; [exact L |]. rewrite St. exact R.
Qed.

(* ---- comments ---- *)
Lemma block_style_doc : forall l, documented_block_style l (block_comment_style l).
Proof.
  intro l. unfold block_comment_style. destruct l as [| c l].
  - rewrite peek_nil. cbn. apply bs_block; [apply starts_nil | intros (l' & E & _); discriminate].
  - rewrite peek0, peek1. destruct ((c =? 42) && negb (peek_nth l 0 =? 47)) eqn:E1.
    + apply andb_true_iff in E1. destruct E1 as (A & B). assert (c = 42) by lia. subst c. apply bs_star. apply peek_neq_starts. now apply negb_true_iff in B.
    + destruct (c =? 35) eqn:E2; [assert (c = 35) by lia; subst; apply bs_pound |].
      destruct (c =? 33) eqn:E3; [assert (c = 33) by lia; subst; apply bs_bang |].
      destruct ((c =? 45) || (c =? 61)) eqn:E4; [apply bs_heading; lia |].
      apply bs_block.
      * rewrite starts_cons. lia.
      * intros (l' & E & H). inversion E; subst. cbn [N.eqb Pos.eqb andb] in E1. apply negb_false_iff in E1.
        destruct (peek_eq_starts 47 l' ltac:(discriminate) E1) as (x & ->). apply H. exists 47, x. auto.
Qed.
Lemma line_style_doc : forall l, documented_line_style l (single_comment_style l).
Proof.
  intro l. unfold single_comment_style. destruct l as [| c l].
  - rewrite peek_nil. cbn. apply ls_single. apply starts_nil.
  - rewrite peek0. destruct (c =? 42) eqn:E1; [assert (c = 42) by lia; subst; apply ls_star |].
    destruct (c =? 33) eqn:E2; [assert (c = 33) by lia; subst; apply ls_bang |]. apply ls_single. rewrite starts_cons. lia.
Qed.
Lemma block_comment_token : forall f pre l t, token_at f pre (47 :: 42 :: l) t -> exists p r s,
  block_comment (47 :: 42 :: l) p r /\ tkind t = K_Comment /\ tlen t = blen p /\ comment_style_of t = Some s /\ documented_block_style l s.
Proof.
  intros f pre l t T. apply token_at_scan in T; [| discriminate]. destruct (scan_block_comment f l) as (p & r & B & E). rewrite E in T. inversion T; subst t.
  exists p, r, (block_comment_style l). destruct (comment_read (block_comment_style l) (blen p)) as (K & L & S). repeat split; auto. apply block_style_doc.
Qed.
Lemma slash_token : forall f pre l t, single_line_comments f = false -> ~ starts (eq 42) l -> token_at f pre (47 :: l) t -> t = T_SLASH.
Proof.
  intros f pre l t Hf Hs T. apply token_at_scan in T; [| discriminate]. rewrite (scan_slashes f l Hf Hs) in T. now inversion T.
Qed.
Lemma line_comment_token : forall f pre l t, single_line_comments f = true -> plain_line_comments (47 :: 47 :: l) -> token_at f pre (47 :: 47 :: l) t ->
  exists p r s, line_comment (47 :: 47 :: l) p r /\ tkind t = K_Comment /\ tlen t = blen p /\ comment_style_of t = Some s /\ documented_line_style l s.
Proof.
  intros f pre l t Hf HP T. apply token_at_scan in T; [| discriminate]. destruct (scan_line_comment f l Hf) as (p & r & El & F & Hr & E). rewrite E in T.
  assert (Et : t = new_comment (single_comment_style l) (2 + N.of_nat (length p))) by congruence. clear T. subst t.
  destruct (comment_read (single_comment_style l) (2 + N.of_nat (length p))) as (K & L & S).
  assert (Hn : ~ starts (fun c => ~ newline c) r).
  { intros (c & r' & -> & Hc). apply Hr. exists c, r'. split; [reflexivity |]. split; [exact Hc |]. intros ->.
    assert (Q : Forall (fun c => 0 < c < 128) (p ++ [0])).
    { apply (HP [] (p ++ [0]) r'); [cbn; rewrite El, <- app_assoc; reflexivity |]. apply Forall_app. split; [eapply Forall_impl; [| exact F]; cbn; tauto |]. constructor; [exact Hc | constructor]. }
    apply Forall_app in Q. destruct Q as (_ & Q). inversion Q; subst. lia. }
  assert (A : Forall (fun c => c < 128) p).
  { eapply Forall_impl; [| apply (HP [] p r); [cbn; now rewrite El |]; eapply Forall_impl; [| exact F]; cbn; tauto]. cbn; lia. }
  exists (47 :: 47 :: p), r, (single_comment_style l). repeat split; auto.
  - exists p. split; [reflexivity |]. rewrite El. split; [reflexivity |]. split; [reflexivity |]. split; [eapply Forall_impl; [| exact F]; cbn; tauto | exact Hn].
  - rewrite L, blen_2 by lia. now rewrite (blen_ascii p A).
  - apply line_style_doc.
Qed.
Lemma comment_only : forall f pre l t, well_behaved (single_line_comments f) l -> l <> [] -> token_at f pre l t -> tkind t = K_Comment ->
  (exists l', l = 47 :: 42 :: l') \/ (single_line_comments f = true /\ exists l', l = 47 :: 47 :: l').
Proof.
  intros f pre l t WB Hn T K. destruct (kind_shape f pre l t WB Hn T) as (r & S & _). unfold shape in S. rewrite K in S.
  destruct S as [(l' & p & -> & _) | (p & Hf & -> & _)]; [left; eauto | right; eauto].
Qed.

(* ---- strings ---- *)
Lemma has_esc_spec : forall p, ~ In 0 p -> (has_esc p = true <-> In 92 p).
Proof.
  intros p H. unfold has_esc. rewrite existsb_exists. split.
  - intros (c & I & E). assert (C : c = 92 \/ c = 0) by lia. destruct C as [-> | ->]; [exact I | contradiction].
  - intro I. exists 92. split; [exact I | reflexivity].
Qed.
Lemma string_token : forall f pre q l t, quote q -> esc_ok (q :: l) -> ~ In 0 l -> token_at f pre (q :: l) t -> exists p e r,
  string_body q l p e r /\ tlen t = 1 + blen p /\
  match e with
  | Closed => tkind t = K_String /\ has_close_quote t = true /\ tquote_style t = (if q =? 34 then QS_Double else QS_Single)
  | AtEnd => tkind t = K_String /\ has_close_quote t = false /\ r = []
  | AtNewline => tkind t = K_BadString /\ starts newline r
  end /\ (e <> AtNewline -> (contains_escape_chars t = true <-> In 92 p)).
Proof.
  intros f pre q l t Hq He H0 T. apply token_at_scan in T; [| discriminate].
  destruct (scan_string f q l Hq He) as (p & e & r & E & El & Hb). rewrite E in T.
  assert (Et : t = string_tok (if q =? 34 then QS_Double else QS_Single) (has_esc p) (1 + blen p) e) by congruence. clear T. subst t. specialize (Hb H0).
  assert (N0 : ~ In 0 p) by (intro I; apply H0; rewrite El; apply in_or_app; now left).
  exists p, e, r. split; [exact Hb |].
  assert (Hend : (e = AtEnd -> r = []) /\ (e = AtNewline -> starts newline r)).
  { clear - Hb. induction Hb; split; intro Q; try discriminate; try (now apply IHHb); [reflexivity | exists c, r; auto]. }
  destruct e; unfold string_tok.
  - destruct (string_read (if q =? 34 then QS_Double else QS_Single) true (has_esc p) (1 + blen p)) as (K & L & C & X & Q1 & Q2).
    split; [exact L |]. split; [repeat split; auto; destruct (q =? 34); auto |]. intros _. rewrite X. now apply has_esc_spec.
  - destruct (string_read (if q =? 34 then QS_Double else QS_Single) false (has_esc p) (1 + blen p)) as (K & L & C & X & Q1 & Q2).
    split; [exact L |]. split; [repeat split; auto; now apply Hend |]. intros _. rewrite X. now apply has_esc_spec.
  - destruct (bad_string_read (1 + blen p)) as (K & L). split; [exact L |]. split; [split; [exact K | now apply Hend] |]. congruence.
Qed.
Lemma string_only : forall f pre l t, well_behaved (single_line_comments f) l -> l <> [] -> token_at f pre l t ->
  tkind t = K_String \/ tkind t = K_BadString -> starts quote l.
Proof.
  intros f pre l t WB Hn T K. destruct (kind_shape f pre l t WB Hn T) as (r & S & _). unfold shape in S.
  destruct K as [K | K]; rewrite K in S; destruct S as (c & l' & p & e & -> & Hq & _); exists c, l'; auto.
Qed.
