(* Lengths and kinds of scanned tokens; the lexer's trace. *)
From Coq Require Import ZifyBool ZifyNat ZifyN.
From Verif Require Import Lexer SpecToken SpecLex LexBase TokenProofs KindProofs ScanProofs ScanProofs2 ScanProofs3 NumProofs DimProofs LexProofs.
Open Scope N_scope.
Open Scope list_scope.
Ltac Zify.zify_post_hook ::= Z.div_mod_to_equations.

Lemma well_behaved_suffix : forall f a l, well_behaved f (a ++ l) -> well_behaved f l.
Proof.
  intros f a l (H1 & H2 & H3 & H4). repeat split.
  - now apply esc_ok_suffix in H1.
  - apply (H2 l0 p r); auto. destruct H as (x & ->). exists (a ++ x). now rewrite app_assoc.
  - apply (H2 l0 p r); auto. destruct H as (x & ->). exists (a ++ x). now rewrite app_assoc.
  - apply (H2 l0 p r) with (ps := ps) (r' := r'); auto. destruct H as (x & ->). exists (a ++ x). now rewrite app_assoc.
  - apply (H2 l0 p r) with (ps := ps) (r' := r'); auto. destruct H as (x & ->). exists (a ++ x). now rewrite app_assoc.
  - intros l0 p r q r' S. apply H3. destruct S as (x & ->). exists (a ++ x). now rewrite app_assoc.
  - intros F pre p r E. apply (H4 F (a ++ pre) p r). now rewrite E, app_assoc.
Qed.

Lemma ident_pieces_nonempty : forall l ps r, would_start_ident l -> ident_pieces l ps r -> ps <> [].
Proof.
  intros l ps r W H ->. pose proof (ident_pieces_app _ _ _ H) as E. cbn in E. subst r.
  apply ident_pieces_stop in H. destruct H as (A & B).
  destruct W as [W | [W | (r & -> & W)]].
  - apply A. destruct W as (c & r & -> & Hc). exists c, r. split; [reflexivity |]. unfold ident_cp. auto.
  - tauto.
  - apply A. exists 45, r. split; [reflexivity | apply ident_cp_45].
Qed.
Lemma escape_nonempty : forall l e r, escape_at l e r -> e <> [].
Proof. intros l e r H. apply escape_at_app in H. destruct H as (_ & e' & ->). discriminate. Qed.
Lemma pieces_nonempty : forall l ps r, ident_pieces l ps r -> ps <> [] -> pieces_text ps <> [].
Proof.
  intros l ps r H Hn. inversion H; subst; [congruence | discriminate |].
  cbn. apply escape_nonempty in H0. destruct e; [congruence | discriminate].
Qed.

Lemma wf_of_kind : forall t, tkind t <> K_Eof -> well_formed t.
Proof.
  intros t H. unfold well_formed. unfold tkind in H.
  assert (L : kind_bits t < 32). { unfold kind_bits. rewrite land_31. lia. }
  remember (kind_bits t) as b. clear Heqb.
  assert (S : forallb (fun b => kind_eqb (kind_from_bits b) K_Eof || existsb (N.eqb b) (map kind_code all_kinds)) (map N.of_nat (seq 0 32)) = true) by (vm_compute; reflexivity).
  rewrite forallb_forall in S. specialize (S b).
  assert (I : In b (map N.of_nat (seq 0 32))). { apply in_map_iff. exists (N.to_nat b). split; [lia | apply in_seq; lia]. }
  apply S in I. apply orb_true_iff in I. destruct I as [I | I]; [apply kind_eqb_eq in I; congruence |].
  apply existsb_exists in I. destruct I as (x & Ix & Ex). apply N.eqb_eq in Ex. now subst.
Qed.

Lemma ws_bit_lt : forall c, ws_bit c = 1 \/ ws_bit c = 2 \/ ws_bit c = 4.
Proof. intro c. unfold ws_bit. destruct (c =? 32); [auto |]. destruct (c =? 9); auto. Qed.
Lemma ws_style_lt : forall p, ws_style p < 8.
Proof.
  intro p. unfold ws_style. assert (H : 0 < 8) by lia. revert H. generalize 0 as s.
  induction p as [| c p IH]; intros s H; cbn [fold_left]; [exact H |]. apply IH.
  assert (C : s = 0 \/ s = 1 \/ s = 2 \/ s = 3 \/ s = 4 \/ s = 5 \/ s = 6 \/ s = 7) by lia.
  destruct (ws_bit_lt c) as [-> | [-> | ->]]; repeat (destruct C as [-> | C]; [reflexivity |]); rewrite C; reflexivity.
Qed.

Ltac kk := let H := fresh in intro H; congruence.

Lemma ident_like_extent : forall l t r, would_start_ident l -> ident_like_view l t r ->
  exists p, l = p ++ r /\ p <> [] /\ tlen t = blen p /\ tkind t <> K_Eof.
Proof.
  intros l t r W V. destruct V as [ps r nl d e u Hp Hu Hs | ps r nl d e u Hp Hu Hs | ps r1 nl d e w c t r paren Hp Hu Hq Hw Hb | ps r1 nl d e w c t p r Hp Hu Hq Hw Hbr Hb];
    pose proof (ident_pieces_nonempty _ _ _ W Hp) as Hn; pose proof (pieces_nonempty _ _ _ Hp Hn) as Hn2; pose proof (ident_pieces_app _ _ _ Hp) as E.
  - exists (pieces_text ps). destruct (ident_read nl d e (blen (pieces_text ps))) as (K & L & _). repeat split; auto. rewrite K; discriminate.
  - exists (pieces_text ps ++ [40]). destruct (function_read nl d e (blen (pieces_text ps) + 1)) as (K & L & _). repeat split.
    + rewrite E, <- app_assoc. reflexivity.
    + destruct (pieces_text ps); discriminate.
    + rewrite L, blen_app. reflexivity.
    + rewrite K; discriminate.
  - destruct Hw as (Ew & Fw & _). exists (pieces_text ps ++ 40 :: w ++ c ++ t).
    destruct (url_read_gen paren (0 <? blen w) (e || has_esc c || b_space t) (blen (pieces_text ps) + 1 + blen w) (blen t) (blen (pieces_text ps) + 1 + blen w + blen c + blen t)) as (K & L & _).
    repeat split.
    + rewrite E, Ew, <- !app_assoc. cbn [app]. rewrite <- !app_assoc. reflexivity.
    + destruct (pieces_text ps); discriminate.
    + rewrite L, blen_app. cbn [blen]. rewrite !blen_app. rewrite len_utf8_ascii by lia. lia.
    + rewrite K; discriminate.
  - destruct Hw as (Ew & Fw & _). exists (pieces_text ps ++ 40 :: w ++ c ++ t ++ p).
    repeat split.
    + rewrite E, Ew, <- !app_assoc. cbn [app]. rewrite <- !app_assoc. reflexivity.
    + destruct (pieces_text ps); discriminate.
    + rewrite (proj2 (bad_url_read _)), blen_app. cbn [blen]. rewrite !blen_app. rewrite len_utf8_ascii by lia. lia.
    + discriminate.
Qed.

Lemma table_token : forall c, c < 128 -> nth (N.to_nat c) SINGLE_CHAR_TOKENS T_EOF <> T_EOF ->
  In (c, nth (N.to_nat c) SINGLE_CHAR_TOKENS T_EOF) punctuation_constants.
Proof.
  intros c H Hn. pose proof (table_chars c H Hn) as I. clear H Hn.
  assert (S : forallb (fun c => existsb (fun x => (fst x =? c) && token_eqb (snd x) (nth (N.to_nat c) SINGLE_CHAR_TOKENS T_EOF)) punctuation_constants)
     [33;36;37;38;40;41;42;44;58;59;61;62;63;91;93;94;96;123;124;125;126] = true) by (vm_compute; reflexivity).
  rewrite forallb_forall in S. apply S in I. apply existsb_exists in I. destruct I as ((a, b) & Ix & Ex). cbn [fst snd] in Ex.
  apply andb_true_iff in Ex. destruct Ex as (E1 & E2). apply N.eqb_eq in E1. apply token_eqb_eq in E2. now subst.
Qed.
Lemma delim_const_in : forall c t, In (c, t) [(45, T_DASH); (60, T_LESS_THAN); (35, T_HASH); (64, T_AT); (92, T_BACKSLASH); (47, T_SLASH)] ->
  In (c, t) punctuation_constants.
Proof. intros c t H. cbn in H. cbn. tauto. Qed.

Lemma numeric_extent : forall f l t r, well_behaved f l -> numeric_view l t r ->
  exists p, l = p ++ r /\ p <> [] /\ tlen t = blen p /\ tkind t <> K_Eof.
Proof.
  intros f l t r (H1 & H2 & H3 & _) V. assert (SL : suffix_of l l) by (exists []; reflexivity).
  destruct V as [p r fl v Hl Hf Hv Hs Hi | p r fl v Hl Hf Hv | p r1 fl v u n ps r Hl Hf Hv Hi Hp Hn Hu Hu'].
  - destruct (H2 _ _ _ SL Hl) as (A & _ & _). destruct Hl as (E & Hc & _). exists p.
    destruct (number_read fl (is_sign (peek_nth l 0)) (blen p) v A) as (K & L & _).
    repeat split; auto; [now apply css_number_nonempty | rewrite K; discriminate].
  - destruct (H2 _ _ _ SL Hl) as (_ & A & _). specialize (A (ex_intro _ 37 (ex_intro _ r (conj eq_refl eq_refl)))).
    destruct Hl as (E & Hc & _). exists (p ++ [37]).
    destruct (dimension_read fl (is_sign (peek_nth l 0)) (blen p) 1 v U_Percent A) as (K & _ & _ & _ & _ & _ & _ & _ & L); [discriminate |].
    repeat split; [rewrite E, <- app_assoc; reflexivity | destruct p; discriminate | rewrite L, blen_app; reflexivity | rewrite K; discriminate].
  - pose proof (start_sequence_sound _ Hi) as W. destruct (H2 _ _ _ SL Hl) as (_ & _ & A). specialize (A ps r W Hp). destruct A as (A & B).
    pose proof (ident_pieces_app _ _ _ Hp) as E1. pose proof Hl as Hl'. destruct Hl as (E & Hc & _).
    assert (He : esc_ok r1) by (rewrite E in H1; now apply esc_ok_suffix in H1). specialize (Hn He).
    exists (p ++ pieces_text ps).
    destruct (dimension_read fl (is_sign (peek_nth l 0)) (blen p) n v u A) as (K & _ & _ & _ & _ & _ & _ & _ & L); [intros _; lia |].
    repeat split.
    + rewrite E, E1, <- app_assoc. reflexivity.
    + apply css_number_nonempty in Hc. destruct p; [congruence | discriminate].
    + rewrite L, blen_app. destruct (unit_eqb u U_Unknown) eqn:Eu; [lia |].
      assert (NU : u <> U_Unknown) by (intro Q; subst; discriminate). destruct (Hu NU) as (q & -> & Fq & [Q | (Q1 & Q2)]).
      * f_equal. rewrite pieces_text_plain. rewrite <- name_len, <- Q, (blen_ascii q) by now apply letters_ascii.
        rewrite blen_ascii, lower_text_len; [reflexivity |]. rewrite Q. apply name_ascii.
      * exfalso. exact (H3 _ _ _ q _ SL Hl' Hp Q2).
    + rewrite K; discriminate.
Qed.

Lemma view_extent : forall f l t r, scan_view f l t r -> well_behaved (single_line_comments f) l ->
  exists p, l = p ++ r /\ p <> [] /\ tlen t = blen p /\ tkind t <> K_Eof.
Proof.
  intros f l t r V WB. destruct V as [c r t Hc Ht Hn | l t r W Hn V | l p r Hs Hr Hp | l p r b Hs Hp Hr | c l p e r Hq El Hb | l t r W Hn V | r | r
    | c r t Hi H1 H2 H3 H4 H5 H6 | c r H0 H1 H2 H3 H4 H5 H6 | l ps r Hi Hp | l ps r Hi Hp | l p r Hb | p r Hf Hp Hr].
  - subst t. exists [c]. pose proof (table_token c Hc Hn) as I. destruct (constants_read _ _ I) as (A & B & D & _ & F). cbn [app blen]. rewrite B, D.
    repeat split; try discriminate. intro Q. rewrite Q in F. cbn in F. intuition discriminate.
  - now apply ident_like_extent.
  - exists p. destruct (whitespace_read (ws_style p) (blen p) (ws_style_lt p)) as (K & L & _). destruct Hr as (E & _). repeat split; auto. rewrite K; discriminate.
  - exists p. assert (B : b < 8) by (destruct Hr as [(-> & _) | [(-> & _) | (-> & _)]]; reflexivity).
    destruct (whitespace_read b (blen p) B) as (K & L & _). repeat split; auto; [destruct Hr as [(_ & E & _) | [(_ & E & _) | (_ & E & _)]]; exact E | rewrite K; discriminate].
  - exists (c :: p). subst l. repeat split; try discriminate.
    + cbn [blen]. replace (len_utf8 c) with 1 by (rewrite len_utf8_ascii; unfold quote in Hq; lia).
      destruct e; unfold string_tok; [apply string_read | apply string_read | apply bad_string_read].
    + destruct e; unfold string_tok; [rewrite (proj1 (string_read _ _ _ _)) | rewrite (proj1 (string_read _ _ _ _)) | ]; discriminate.
  - exact (numeric_extent _ _ _ _ WB V).
  - exists [45; 45; 62]. repeat split; discriminate.
  - exists [60; 33; 45; 45]. repeat split; discriminate.
  - exists [c]. pose proof (delim_const_in _ _ Hi) as I. destruct (constants_read _ _ I) as (A & B & D & _ & F). cbn [app blen]. rewrite B, D.
    repeat split; try discriminate. intro Q. rewrite Q in F. cbn in F. intuition discriminate.
  - exists [c]. destruct (delim_len c) as (L & K). cbn [app blen]. rewrite L, K. repeat split; try discriminate. lia.
  - exists (35 :: pieces_text ps). destruct (hash_read (existsb b_nonlower ps) (is_ident (peek_nth l 0)) (existsb b_escaped ps) (blen (pieces_text ps) + 1)) as (K & L & _).
    pose proof (ident_pieces_app _ _ _ Hp) as E. subst l. repeat split; try discriminate; [rewrite L; cbn [blen]; rewrite len_utf8_ascii by lia; lia | rewrite K; discriminate].
  - exists (64 :: pieces_text ps). destruct (atkeyword_read (existsb b_nonlower ps) (b_dashed ps) (existsb b_escaped ps) (blen (pieces_text ps) + 1)) as (K & L & _).
    pose proof (ident_pieces_app _ _ _ Hp) as E. subst l. repeat split; try discriminate; [rewrite L; cbn [blen]; rewrite len_utf8_ascii by lia; lia | rewrite K; discriminate].
  - exists p. destruct (comment_read (block_comment_style l) (blen p)) as (K & L & _).
    repeat split; [inversion Hb; subst; [cbn [app]; rewrite <- app_assoc; reflexivity | now rewrite app_nil_r] | inversion Hb; discriminate | exact L | rewrite K; discriminate].
  - exists (47 :: 47 :: p). destruct (comment_read (single_comment_style (p ++ r)) (2 + N.of_nat (length p))) as (K & L & _).
    destruct WB as (_ & _ & _ & W). specialize (W Hf [] p r eq_refl).
    assert (A : Forall (fun c => c < 128) p).
    { eapply Forall_impl; [| apply W; eapply Forall_impl; [| exact Hp]; cbn; tauto]. cbn; lia. }
    repeat split; try discriminate; [rewrite L; cbn [blen]; rewrite (blen_ascii p A), !len_utf8_ascii by lia; lia | rewrite K; discriminate].
Qed.
