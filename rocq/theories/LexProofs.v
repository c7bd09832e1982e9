(* The shape of one call of the lexer, branch by branch. *)
From Coq Require Import ZifyBool ZifyNat ZifyN.
From Verif Require Import Lexer SpecToken SpecLex LexBase TokenProofs KindProofs ScanProofs ScanProofs2 ScanProofs3 NumProofs DimProofs.
Open Scope N_scope.
Open Scope list_scope.
Ltac Zify.zify_post_hook ::= Z.div_mod_to_equations.

(* the url keyword decision looks at no more than four whitespace characters *)
Definition quote_ahead (r : list N) : bool := is_quote (peek_nth (skip_ws_upto 4 r) 0).

Inductive ident_like_view (l : list N) : token -> list N -> Prop :=
  | iv_ident : forall ps r nl d e u, ident_pieces l ps r -> uflags 0 false false false true ps = (nl, d, e, u) ->
      ~ starts (eq 40) r -> ident_like_view l (new_ident nl d e (blen (pieces_text ps))) r
  | iv_function : forall ps r nl d e u, ident_pieces l ps (40 :: r) -> uflags 0 false false false true ps = (nl, d, e, u) ->
      u = false \/ quote_ahead r = true -> ident_like_view l (new_function nl d e (blen (pieces_text ps) + 1)) r
  | iv_url : forall ps r1 nl d e w c t r (paren : bool), ident_pieces l ps (40 :: r1) -> uflags 0 false false false true ps = (nl, d, e, true) ->
      quote_ahead r1 = false -> run white r1 w (c ++ t ++ r) ->
      (~ In 0 r1 -> url_body (c ++ t ++ r) c t (if paren then UClosed else UAtEnd) r) ->
      ident_like_view l (new_url paren (0 <? blen w) (e || has_esc c || b_space t) (blen (pieces_text ps) + 1 + blen w) (blen t)
                           (blen (pieces_text ps) + 1 + blen w + blen c + blen t)) r
  | iv_bad_url : forall ps r1 nl d e w c t p r, ident_pieces l ps (40 :: r1) -> uflags 0 false false false true ps = (nl, d, e, true) ->
      quote_ahead r1 = false -> run white r1 w (c ++ t ++ p ++ r) -> bad_url_remnants (p ++ r) p r ->
      (~ In 0 r1 -> url_body (c ++ t ++ p ++ r) c t UMalformed (p ++ r)) ->
      ident_like_view l (new_bad_url (blen (pieces_text ps) + 1 + blen w + blen c + blen t + blen p)) r.

Lemma peek_eq_starts : forall c l, c <> 0 -> (peek_nth l 0 =? c) = true -> exists r, l = c :: r.
Proof. intros c [| d l] H E. rewrite peek_nil in E. lia. rewrite peek0 in E. exists l. f_equal. lia. Qed.
Lemma peek_neq_starts : forall c l, (peek_nth l 0 =? c) = false -> ~ starts (eq c) l.
Proof. intros c l E (d & r & -> & ->). rewrite peek0 in E. lia. Qed.

Lemma ident_like_scan : forall l, esc_ok l -> exists t r, consume_ident_like_token l = Some (t, r) /\ ident_like_view l t r.
Proof.
  intros l He. unfold consume_ident_like_token.
  destruct (finding_url_spec l He) as (ps & r & nl & d & e & u & -> & Hp & Hu).
  destruct (peek_nth r 0 =? 40) eqn:E.
  - destruct (peek_eq_starts 40 r ltac:(discriminate) E) as (r1 & ->). cbn [tl].
    fold (quote_ahead r1).
    destruct (u && negb (quote_ahead r1)) eqn:Eu.
    + apply andb_true_iff in Eu. destruct Eu as (-> & Eq). apply negb_true_iff in Eq.
      assert (He1 : esc_ok r1).
      { apply ident_pieces_app in Hp. rewrite Hp in He. apply esc_ok_suffix in He. exact (esc_ok_tl 40 _ He). }
      destruct (consume_url_spec r1 (blen (pieces_text ps) + 1) e He1) as (w & c & t & r2 & Hw & [(paren & -> & Hb) | (p & r' & -> & -> & Hr & Hb)]).
      * do 2 eexists. split; [reflexivity |]. eapply iv_url; eauto.
      * do 2 eexists. split; [reflexivity |]. eapply iv_bad_url; eauto.
    + do 2 eexists. split; [reflexivity |]. eapply iv_function; eauto.
      destruct u; [right | left; reflexivity]. destruct (quote_ahead r1); [reflexivity | discriminate].
  - do 2 eexists. split; [reflexivity |]. eapply iv_ident; eauto. now apply peek_neq_starts.
Qed.

Inductive scan_view (f : feature) : list N -> token -> list N -> Prop :=
  | sv_punct : forall c r t, c < 128 -> t = nth (N.to_nat c) SINGLE_CHAR_TOKENS T_EOF -> t <> T_EOF -> scan_view f (c :: r) t r
  | sv_ident_like : forall l t r, would_start_ident l -> l <> [] -> ident_like_view l t r -> scan_view f l t r
  | sv_white : forall l p r, separate_whitespace f = false -> run white l p r -> p <> [] -> scan_view f l (new_whitespace (ws_style p) (blen p)) r
  | sv_white_sep : forall l p r b, separate_whitespace f = true -> p <> [] ->
      (b = WS_Space /\ run (eq 32) l p r) \/ (b = WS_Tab /\ run (eq 9) l p r) \/ (b = WS_Newline /\ run newline l p r) ->
      scan_view f l (new_whitespace b (blen p)) r
  | sv_string : forall c l p e r, quote c -> l = p ++ r -> (~ In 0 l -> string_body c l p e r) ->
      scan_view f (c :: l) (string_tok (if c =? 34 then QS_Double else QS_Single) (has_esc p) (1 + blen p) e) r
  | sv_numeric : forall l t r, would_start_number l -> ~ (would_start_ident l /\ is_ident_start_sequence (peek_nth l 0) (peek_nth l 1) (peek_nth l 2) = true) -> numeric_view l t r -> scan_view f l t r
  | sv_cdc : forall r, scan_view f (45 :: 45 :: 62 :: r) T_CDC r
  | sv_cdo : forall r, scan_view f (60 :: 33 :: 45 :: 45 :: r) T_CDO r
  | sv_delim_const : forall c r t, In (c, t) [(45, T_DASH); (60, T_LESS_THAN); (35, T_HASH); (64, T_AT); (92, T_BACKSLASH); (47, T_SLASH)] ->
      (c = 45 -> ~ would_start_number (c :: r) /\ is_ident_start_sequence (peek_nth (c :: r) 0) (peek_nth (c :: r) 1) (peek_nth (c :: r) 2) = false) ->
      (c = 60 -> forall r', r <> 33 :: 45 :: 45 :: r') ->
      (c = 35 -> is_ident (peek_nth r 0) || is_escape_sequence (peek_nth r 0) (peek_nth r 1) = false) ->
      (c = 64 -> is_ident_start_sequence (peek_nth r 0) (peek_nth r 1) (peek_nth r 2) = false) ->
      (c = 92 -> ~ starts_escape (c :: r)) ->
      (c = 47 -> ~ starts (eq 42) r /\ (single_line_comments f = true -> ~ starts (eq 47) r)) ->
      scan_view f (c :: r) t r
  | sv_delim : forall c r, c <> 0 -> ~ would_start_ident (c :: r) -> ~ would_start_number (c :: r) -> ~ white c -> ~ quote c ->
      (c < 128 -> nth (N.to_nat c) SINGLE_CHAR_TOKENS T_EOF = T_EOF) ->
      ~ In c [45; 60; 35; 64; 92; 47] ->
      scan_view f (c :: r) (new_delim c) r
  | sv_hash : forall l ps r, is_ident (peek_nth l 0) || is_escape_sequence (peek_nth l 0) (peek_nth l 1) = true ->
      ident_pieces l ps r ->
      scan_view f (35 :: l) (new_hash (existsb b_nonlower ps) (is_ident (peek_nth l 0)) (existsb b_escaped ps) (blen (pieces_text ps) + 1)) r
  | sv_at : forall l ps r, is_ident_start_sequence (peek_nth l 0) (peek_nth l 1) (peek_nth l 2) = true -> ident_pieces l ps r ->
      scan_view f (64 :: l) (new_atkeyword (existsb b_nonlower ps) (b_dashed ps) (existsb b_escaped ps) (blen (pieces_text ps) + 1)) r
  | sv_block_comment : forall l p r, block_comment (47 :: 42 :: l) p r -> scan_view f (47 :: 42 :: l) (new_comment (block_comment_style l) (blen p)) r
  | sv_line_comment : forall p r, single_line_comments f = true -> Forall (fun c => ~ newline c /\ c <> 0) p -> ~ starts (fun c => ~ newline c /\ c <> 0) r ->
      scan_view f (47 :: 47 :: p ++ r) (new_comment (single_comment_style (p ++ r)) (2 + N.of_nat (List.length p))) r.

Lemma run_nonempty : forall (P : N -> Prop) c l p r, run P (c :: l) p r -> P c -> p <> [].
Proof. intros P c l p r (E & _ & H) Hc ->. cbn in E. subst r. apply H. exists c, l. auto. Qed.

Lemma would_start_ident_cp : forall c l, ident_start_cp c -> would_start_ident (c :: l).
Proof. intros. left. exists c, l. auto. Qed.

Lemma table_zero : nth (N.to_nat 0) SINGLE_CHAR_TOKENS T_EOF = T_EOF. Proof. reflexivity. Qed.
Lemma token_eqb_eq : forall a b, token_eqb a b = true <-> a = b.
Proof. intros [a0 a1] [b0 b1]. unfold token_eqb. cbn. split; [intro; f_equal; lia | intro E; inversion E; lia]. Qed.

(* which ASCII characters are in the single character table *)
Lemma table_chars : forall c, c < 128 -> nth (N.to_nat c) SINGLE_CHAR_TOKENS T_EOF <> T_EOF ->
  In c [33;36;37;38;40;41;42;44;58;59;61;62;63;91;93;94;96;123;124;125;126].
Proof.
  intros c H Hn.
  assert (S : token_eqb (nth (N.to_nat c) SINGLE_CHAR_TOKENS T_EOF) T_EOF || existsb (N.eqb c) [33;36;37;38;40;41;42;44;58;59;61;62;63;91;93;94;96;123;124;125;126] = true).
  { exact (ascii_sweep (fun c => token_eqb (nth (N.to_nat c) SINGLE_CHAR_TOKENS T_EOF) T_EOF || existsb (N.eqb c) [33;36;37;38;40;41;42;44;58;59;61;62;63;91;93;94;96;123;124;125;126]) eq_refl c H). }
  apply orb_true_iff in S. destruct S as [S | S]; [apply token_eqb_eq in S; congruence |].
  apply existsb_exists in S. destruct S as (x & Ix & Ex). apply N.eqb_eq in Ex. now subst.
Qed.

Lemma not_start_number_digit : forall c l, is_ascii_digit c = true -> would_start_number (c :: l).
Proof. intros c l H. apply number_start_spec. unfold is_number_start. rewrite peek0, H. reflexivity. Qed.

Ltac take_t := do 2 eexists; split; [reflexivity |].

Lemma scan_spec : forall f l, l <> [] -> esc_ok l -> exists t r, scan_token f l = Some t /\ scan_view f l t r.
Proof.
  intros f l Hn He. destruct l as [| c l]; [congruence |]. unfold scan_token. rewrite peek0.
  destruct (ident_like_scan (c :: l) He) as (ti & ri & Hi & Vi).
  set (fast := if c <? 128 then _ else _).
  assert (F : (exists t, fast = Some (Some t) /\ exists r, scan_view f (c :: l) t r) \/
              (fast = None /\ (c < 128 -> nth (N.to_nat c) SINGLE_CHAR_TOKENS T_EOF = T_EOF) /\ (c < 128 -> is_ident_ascii_start c = false))).
  { unfold fast. destruct (c <? 128) eqn:E1; [| right; split; [reflexivity | split; lia]].
    cbn zeta. destruct (token_eqb (nth (N.to_nat c) SINGLE_CHAR_TOKENS T_EOF) T_EOF) eqn:E2; cbn [negb].
    - destruct (is_ident_ascii_start c) eqn:E3.
      + left. exists ti. rewrite Hi. split; [reflexivity |]. exists ri. apply sv_ident_like; [| discriminate | exact Vi].
        apply would_start_ident_cp. apply is_ident_start_spec. unfold is_ident_start, is_ascii. now rewrite E1.
      + right. split; [reflexivity |]. apply token_eqb_eq in E2. split; [now intros _ | reflexivity].
    - left. exists (nth (N.to_nat c) SINGLE_CHAR_TOKENS T_EOF). split; [reflexivity |]. exists l. apply sv_punct; [lia | reflexivity |].
      intro Q. rewrite Q in E2. discriminate. }
  clearbody fast. destruct F as [(t & -> & r & V) | (-> & Htab & Hst)]; [exists t, r; auto |].
  cbn [non_empty andb].
  destruct (c =? 0) eqn:E0.
  { assert (c = 0) by lia. subst c. replace (is_ident_start_sequence REPLACEMENT _ _) with true by reflexivity. rewrite Hi.
    exists ti, ri. split; [reflexivity |]. apply sv_ident_like; [| discriminate | exact Vi].
    apply would_start_ident_cp. unfold ident_start_cp. auto. }
  destruct (is_whitespace c && negb (separate_whitespace f)) eqn:E1.
  { apply andb_true_iff in E1. destruct E1 as (E1 & E1'). apply negb_true_iff in E1'. apply is_whitespace_spec in E1.
    destruct (consume_whitespace_spec (c :: l)) as (p & r & -> & Hr). exists (new_whitespace (ws_style p) (blen p)), r. split; [reflexivity |].
    apply sv_white; auto. exact (run_nonempty white _ _ _ _ Hr E1). }
  assert (Hsep : white c -> separate_whitespace f = true).
  { intro W. apply is_whitespace_spec in W. rewrite W in E1. destruct (separate_whitespace f); [reflexivity | discriminate]. }
  destruct (c =? TAB) eqn:E2.
  { assert (c = 9) by (unfold TAB in E2; lia). subst c.
    destruct (consume_same_spec 9 (9 :: l) ltac:(lia)) as (p & r & Q & Hr). change TAB with 9. rewrite Q. cbn [fst].
    exists (new_whitespace WS_Tab (blen p)), r. split; [reflexivity |].
    apply sv_white_sep; [apply Hsep; unfold white; auto | exact (run_nonempty (eq 9) _ _ _ _ Hr eq_refl) | auto]. }
  destruct (c =? SPACE) eqn:E3.
  { assert (c = 32) by (unfold SPACE in E3; lia). subst c.
    destruct (consume_same_spec 32 (32 :: l) ltac:(lia)) as (p & r & Q & Hr). change SPACE with 32. rewrite Q. cbn [fst].
    exists (new_whitespace WS_Space (blen p)), r. split; [reflexivity |].
    apply sv_white_sep; [apply Hsep; unfold white; auto | exact (run_nonempty (eq 32) _ _ _ _ Hr eq_refl) | auto]. }
  destruct (is_newline c) eqn:E4.
  { apply is_newline_spec in E4. destruct (consume_newline_run_spec (c :: l)) as (p & r & -> & Hr). cbn [fst].
    exists (new_whitespace WS_Newline (blen p)), r. split; [reflexivity |].
    apply sv_white_sep; [apply Hsep; unfold white; auto | exact (run_nonempty newline _ _ _ _ Hr E4) | auto]. }
  assert (NW : ~ white c).
  { rewrite <- is_whitespace_spec. unfold is_whitespace. rewrite E2, E3, E4. discriminate. }
  destruct (is_quote c) eqn:E5.
  { apply is_quote_spec in E5. destruct (consume_string_spec c l E5 He) as (p & e & r & -> & El & Hb). cbn [fst].
    do 2 eexists. split; [reflexivity |]. eapply sv_string; eauto. }
  assert (NQ : ~ quote c). { rewrite <- is_quote_spec. congruence. }
  destruct (is_ascii_digit c) eqn:E6.
  { destruct (consume_numeric_spec (c :: l)) as (t & r & -> & V).
    { unfold is_number_start. rewrite peek0, E6. reflexivity. }
    exists t, r. split; [reflexivity |]. apply sv_numeric; [now apply not_start_number_digit | | exact V].
    intros (_ & Q). rewrite peek0 in Q. unfold is_ident_start_sequence in Q.
    replace (c =? 45) with false in Q by (unfold is_ascii_digit in E6; lia).
    apply orb_true_iff in Q. destruct Q as [Q | Q].
    - rewrite is_ident_start_spec in Q. unfold is_ascii_digit in E6. unfold ident_start_cp, letter, upper, lower, non_ascii_ident in Q. lia.
    - unfold is_escape_sequence in Q. unfold is_ascii_digit in E6. lia. }
  destruct (c =? 45) eqn:E7.
  { assert (c = 45) by lia. subst c. rewrite peek1, peek2.
    destruct ((peek_nth l 0 =? 45) && (peek_nth l 1 =? 62)) eqn:E8.
    { apply andb_true_iff in E8. destruct E8 as (A & B). destruct l as [| a l]; [discriminate |]. rewrite peek0 in A. rewrite peek1 in B.
      destruct l as [| b l]; [discriminate |]. rewrite peek0 in B.
      assert (a = 45) by lia. assert (b = 62) by lia. subst. exists T_CDC, l. split; [reflexivity |]. apply sv_cdc. }
    destruct (is_ident_start_sequence 45 (peek_nth l 0) (peek_nth l 1)) eqn:E9.
    { rewrite Hi. exists ti, ri. split; [reflexivity |]. apply sv_ident_like; [| discriminate | exact Vi].
      apply start_sequence_sound. rewrite peek0, peek1, peek2. exact E9. }
    destruct (is_number_start (45 :: l)) eqn:E10.
    { destruct (consume_numeric_spec (45 :: l) E10) as (t & r & -> & V). exists t, r. split; [reflexivity |].
      apply sv_numeric; [now apply number_start_spec | | exact V]. intros (_ & Q). rewrite peek0, peek1, peek2, E9 in Q. discriminate. }
    exists T_DASH, l. split; [reflexivity |]. apply sv_delim_const; try (intro Q; discriminate Q).
    - cbn; tauto.
    - intros _. rewrite peek0, peek1, peek2. split; [| exact E9]. rewrite <- number_start_spec, E10. discriminate. }
  assert (NI : c <> 92 -> is_ident_start c = false -> ~ would_start_ident (c :: l)).
  { intros N92 Q [S | [S | (r & S & _)]].
    - rewrite starts_cons in S. assert (Z : is_ident_start c = true) by (apply is_ident_start_spec; split; [exact S | lia]). congruence.
    - apply starts_escape_92 in S. congruence.
    - inversion S; subst. discriminate. }
  destruct ((c =? 46) || (c =? 43)) eqn:E8.
  { destruct (is_number_start (c :: l)) eqn:E10.
    { destruct (consume_numeric_spec (c :: l) E10) as (t & r & -> & V). exists t, r. split; [reflexivity |].
      apply sv_numeric; [now apply number_start_spec | | exact V]. intros (W & _). revert W. apply NI; [lia |].
      unfold is_ident_start, is_ascii. replace (c <? 128) with true by lia. apply Hst. lia. }
    exists (new_delim c), l. split; [reflexivity |]. apply sv_delim; auto.
    - lia.
    - apply NI; [lia |]. unfold is_ident_start, is_ascii. replace (c <? 128) with true by lia. apply Hst. lia.
    - rewrite <- number_start_spec, E10. discriminate.
    - cbn. lia. }
  destruct (c =? 60) eqn:E9.
  { assert (c = 60) by lia. subst c. cbn [tl].
    destruct ((peek_nth l 0 =? 33) && (peek_nth l 1 =? 45) && (peek_nth l 2 =? 45)) eqn:E10.
    { destruct l as [| a l]; [discriminate |]. rewrite peek0, peek1, peek2 in E10.
      destruct l as [| b l]; [rewrite peek_nil in E10; lia |]. rewrite peek0, peek1 in E10.
      destruct l as [| d l]; [rewrite peek_nil in E10; lia |]. rewrite peek0 in E10.
      assert (a = 33) by lia. assert (b = 45) by lia. assert (d = 45) by lia. subst. exists T_CDO, l. split; [reflexivity |]. apply sv_cdo. }
    exists T_LESS_THAN, l. split; [reflexivity |]. apply sv_delim_const; try (intro Q; discriminate Q).
    - cbn; tauto.
    - intros _ r' ->. cbn in E10. discriminate. }
  destruct (c =? 35) eqn:E10.
  { assert (c = 35) by lia. subst c. rewrite peek1, peek2.
    destruct (is_ident (peek_nth l 0) || is_escape_sequence (peek_nth l 0) (peek_nth l 1)) eqn:E11.
    { unfold consume_hash_token. cbn [tl]. destruct (consume_ident_spec l) as (n & ps & r & -> & Hp & Hb & _). cbn [fst].
      rewrite (Hb (esc_ok_tl _ _ He)). do 2 eexists. split; [reflexivity |]. eapply sv_hash; eauto. }
    exists T_HASH, l. split; [reflexivity |]. apply sv_delim_const; try (intro Q; discriminate Q); [cbn; tauto | now intros _]. }
  destruct (c =? 64) eqn:E11.
  { assert (c = 64) by lia. subst c. cbn [tl].
    destruct (is_ident_start_sequence (peek_nth l 0) (peek_nth l 1) (peek_nth l 2)) eqn:E12.
    { destruct (consume_ident_spec l) as (n & ps & r & -> & Hp & Hb & _).
      rewrite (Hb (esc_ok_tl _ _ He)). do 2 eexists. split; [reflexivity |]. eapply sv_at; eauto. }
    exists T_AT, l. split; [reflexivity |]. apply sv_delim_const; try (intro Q; discriminate Q); [cbn; tauto | now intros _]. }
  destruct (c =? 92) eqn:E12.
  { assert (c = 92) by lia. subst c. rewrite peek1.
    destruct (is_escape_sequence 92 (peek_nth l 0)) eqn:E13.
    { rewrite Hi. exists ti, ri. split; [reflexivity |]. apply sv_ident_like; [| discriminate | exact Vi].
      right. left. apply starts_escape_peek. split; [discriminate |]. now rewrite peek0, peek1. }
    exists T_BACKSLASH, l. split; [reflexivity |]. apply sv_delim_const; try (intro Q; discriminate Q); [cbn; tauto |].
    intros _. rewrite starts_escape_peek, peek0, peek1. intros (_ & Q). congruence. }
  destruct (c =? 47) eqn:E13.
  { assert (c = 47) by lia. subst c. rewrite peek1. cbn [tl].
    destruct (peek_nth l 0 =? 42) eqn:E14.
    { destruct (peek_eq_starts 42 l ltac:(discriminate) E14) as (l2 & ->). cbn [tl].
      destruct (block_comment_body_spec l2) as (n & r & -> & [(b & -> & -> & Hc) | (-> & -> & Hc)]); cbn [fst].
      - exists (new_comment (block_comment_style (b ++ 42 :: 47 :: r)) (blen (47 :: 42 :: b ++ [42; 47]))), r. split.
        + do 2 f_equal. cbn [blen]. rewrite !len_utf8_ascii by lia. lia.
        + apply sv_block_comment. now constructor.
      - exists (new_comment (block_comment_style l2) (blen (47 :: 42 :: l2))), []. split; [do 2 f_equal; cbn [blen]; rewrite !len_utf8_ascii by lia; lia |].
        apply sv_block_comment. now constructor. }
    destruct ((peek_nth l 0 =? 47) && single_line_comments f) eqn:E15.
    { apply andb_true_iff in E15. destruct E15 as (A & B).
      destruct (peek_eq_starts 47 l ltac:(discriminate) A) as (l2 & ->). cbn [tl].
      destruct (single_comment_body_spec l2) as (p & r & -> & -> & Hf & Hs). cbn [fst].
      do 2 eexists. split; [reflexivity |]. eapply sv_line_comment; eauto. }
    exists T_SLASH, l. split; [reflexivity |]. apply sv_delim_const; try (intro Q; discriminate Q); [cbn; tauto |].
    intros _. split; [now apply peek_neq_starts |]. intro S. apply andb_false_iff in E15.
    destruct E15 as [E15 | E15]; [now apply peek_neq_starts | congruence]. }
  destruct (is_ident_start c) eqn:E14.
  { rewrite Hi. exists ti, ri. split; [reflexivity |]. apply sv_ident_like; [| discriminate | exact Vi].
    apply would_start_ident_cp. now apply is_ident_start_spec. }
  exists (new_delim c), l. split; [reflexivity |]. apply sv_delim; auto.
  - lia.
  - apply NI; auto. lia.
  - rewrite <- number_start_spec. unfold is_number_start. rewrite peek0, E6. unfold is_sign. apply orb_false_iff in E8. destruct E8 as (A & B).
    rewrite A, B, E7. discriminate.
  - cbn. lia.
Qed.
