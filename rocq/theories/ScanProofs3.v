(* Strings and urls. *)
From Coq Require Import ZifyBool ZifyNat ZifyN.
From Verif Require Import Lexer SpecLex LexBase ScanProofs ScanProofs2.
Open Scope N_scope.
Open Scope list_scope.
Ltac Zify.zify_post_hook ::= Z.div_mod_to_equations.

Definition has_esc (p : list N) : bool := existsb (fun c => (c =? 92) || (c =? 0)) p.
Lemma has_esc_app : forall a b, has_esc (a ++ b) = has_esc a || has_esc b.
Proof. intros. unfold has_esc. apply existsb_app. Qed.
Lemma has_esc_escape : forall l e r, escape_at l e r -> has_esc e = true.
Proof. intros l e r H. apply escape_at_app in H. destruct H as (_ & (e' & ->)). reflexivity. Qed.
Lemma not_in_app : forall (a b : list N), ~ In 0 (a ++ b) -> ~ In 0 a /\ ~ In 0 b.
Proof. intros a b H. rewrite in_app_iff in H. tauto. Qed.
Lemma not_in_cons : forall (c : N) b, ~ In 0 (c :: b) -> c <> 0 /\ ~ In 0 b.
Proof. intros c b H. cbn in H. split; [intros -> |]; tauto. Qed.

Definition string_tok (q : quote_style) (esc : bool) (len : N) (e : string_end) : token :=
  match e with Closed => new_string q true esc len | AtEnd => new_string q false esc len | AtNewline => new_bad_string len end.

Lemma string_loop_spec : forall fuel q qs l len esc, quote q -> (Datatypes.length l < fuel)%nat -> esc_ok l ->
  exists p e r, string_loop fuel q qs l len esc = (string_tok qs (esc || has_esc p) (len + blen p) e, r) /\
    l = p ++ r /\ (~ In 0 l -> string_body q l p e r).
Proof.
  induction fuel as [| fuel IH]; intros q qs l len esc Q Hf K; [lia |].
  cbn [string_loop].
  destruct (is_newline (peek_nth l 0)) eqn:E0.
  { destruct l as [| c l]; [discriminate |]. rewrite peek0 in *. apply is_newline_spec in E0.
    exists [], AtNewline, (c :: l). cbn. rewrite N.add_0_r. repeat split. intros _. now constructor. }
  destruct (peek_nth l 0 =? EOFc) eqn:E1.
  { unfold EOFc in E1. destruct l as [| c l].
    - exists [], AtEnd, []. cbn. rewrite N.add_0_r, orb_false_r. repeat split. intros _. constructor.
    - rewrite peek0 in *. assert (c = 0) by lia. subst c. cbn [non_empty tl Datatypes.length] in *.
      destruct (IH q qs l (len + 1) true) as (p & e & r & -> & -> & H); [assumption | lia | now apply esc_ok_tl in K |].
      exists (0 :: p), e, r. split; [| split; [reflexivity | intro X; cbn in X; tauto]].
      f_equal. cbn [blen has_esc existsb]. rewrite len_utf8_ascii by lia. cbn [orb N.eqb Pos.eqb]. rewrite ?orb_true_r. f_equal. lia. }
  unfold EOFc in E1. destruct l as [| c l]; [rewrite peek_nil in E1; discriminate |]. rewrite peek0 in *. cbn [tl Datatypes.length] in *.
  destruct ((c =? 34) || (c =? 39)) eqn:E2.
  { assert (L1 : len_utf8 c = 1) by (apply len_utf8_ascii; lia).
    assert (NE : (c =? 92) || (c =? 0) = false) by lia.
    destruct (c =? q) eqn:E3.
    - assert (c = q) by lia. subst q. exists [c], Closed, l. cbn [blen has_esc existsb string_tok]. rewrite L1, NE, orb_false_r, N.add_0_r.
      repeat split. intros _. constructor.
    - destruct (IH q qs l (len + 1) esc) as (p & e & r & -> & -> & H); [assumption | lia | now apply esc_ok_tl in K |].
      exists (c :: p), e, r. split; [| split; [reflexivity |]].
      + f_equal. cbn [blen has_esc existsb]. rewrite L1, NE. cbn [orb]. fold (has_esc p). f_equal. lia.
      + intro X. apply not_in_cons in X. constructor; [lia | lia | rewrite <- is_newline_spec; congruence | tauto]. }
  destruct (c =? 92) eqn:E3.
  { assert (c = 92) by lia. subst c.
    destruct (peek_nth l 0 =? EOFc) eqn:E4.
    - unfold EOFc in E4. exists [92], AtEnd, l. cbn [blen has_esc existsb string_tok]. rewrite len_utf8_ascii by lia.
      cbn [orb N.eqb Pos.eqb]. rewrite ?orb_true_r. repeat split. intro X. destruct l as [| d l].
      + change [92] with ([92] ++ []). econstructor; constructor.
      + rewrite peek0 in E4. apply not_in_cons in X. cbn in X. exfalso. assert (d = 0) by lia. tauto.
    - destruct (is_newline (peek_nth l 0)) eqn:E5.
      + destruct l as [| d l]; [discriminate |]. rewrite peek0 in *. cbn [consume_newline].
        apply is_newline_spec in E5. assert (L1 : len_utf8 d = 1) by (apply len_utf8_ascii; unfold newline in E5; lia).
        destruct ((d =? CR) && (peek_nth l 0 =? LF)) eqn:CRLF.
        * unfold CR, LF in CRLF. destruct l as [| z l]; [rewrite peek_nil in CRLF; lia |]. rewrite peek0 in CRLF.
          assert (d = 13 /\ z = 10) as (-> & ->) by lia. cbn [tl Datatypes.length] in *.
          destruct (IH q qs l (len + (2 + 1)) true) as (p & e & r & -> & -> & H); [assumption | lia | now do 3 apply esc_ok_tl in K |].
          exists (92 :: [13; 10] ++ p), e, r. split; [| split; [reflexivity |]].
          -- f_equal. cbn [app blen has_esc existsb]. rewrite !len_utf8_ascii by lia. cbn [orb N.eqb Pos.eqb]. rewrite ?orb_true_r. f_equal. lia.
          -- intro X. do 3 (apply not_in_cons in X; destruct X as (_ & X)). eapply sb_esc_newline; [constructor | auto].
        * cbn [Datatypes.length] in *.
          destruct (IH q qs l (len + (1 + 1)) true) as (p & e & r & -> & -> & H); [assumption | lia | now do 2 apply esc_ok_tl in K |].
          exists (92 :: [d] ++ p), e, r. split; [| split; [reflexivity |]].
          -- f_equal. cbn [app blen has_esc existsb]. rewrite L1, !len_utf8_ascii by lia. cbn [orb N.eqb Pos.eqb]. rewrite ?orb_true_r. f_equal. lia.
          -- intro X. do 2 (apply not_in_cons in X; destruct X as (_ & X)). eapply sb_esc_newline; [| auto].
             apply nl_one; [assumption |]. intros (-> & Hs). destruct Hs as (z & r' & Hz & <-). rewrite Hz in CRLF. cbn in CRLF. discriminate.
      + assert (SE : starts_escape (92 :: l)).
        { destruct l as [| d l]; [now left |]. right. exists d, l. split; [reflexivity |]. rewrite <- is_newline_spec. rewrite peek0 in E5. congruence. }
        destruct (starts_escape_peek (92 :: l)) as (SP & _). specialize (SP SE). destruct SP as (_ & SP). rewrite peek0, peek1 in SP. rewrite SP.
        destruct (consume_escape_spec l SE) as (n & ee & r1 & -> & A & B & C).
        pose proof (escape_at_app _ _ _ A) as (Ea & (e' & Ee)).
        assert (Hlen : (Datatypes.length r1 <= Datatypes.length l)%nat) by (subst ee; inversion Ea; rewrite app_length; lia).
        destruct (IH q qs r1 (len + n) true) as (p & e & r & -> & E' & H); [assumption | lia | apply (esc_ok_suffix ee); now rewrite <- Ea |].
        exists (ee ++ p), e, r. split; [| split; [rewrite Ea, E', <- app_assoc; reflexivity |]].
        * f_equal. rewrite has_esc_app, (has_esc_escape _ _ _ A), blen_app, <- (B K). cbn [orb]. rewrite orb_true_r. f_equal. lia.
        * intro X. rewrite Ea in X. apply not_in_app in X. eapply sb_escape; [eassumption | tauto]. }
  destruct (IH q qs l (len + len_utf8 c) esc) as (p & e & r & -> & -> & H); [assumption | lia | now apply esc_ok_tl in K |].
  exists (c :: p), e, r. split; [| split; [reflexivity |]].
  - f_equal. cbn [blen has_esc existsb]. rewrite E3, E1. cbn [orb]. fold (has_esc p). f_equal. lia.
  - intro X. apply not_in_cons in X. constructor; [unfold quote in Q; lia | lia | rewrite <- is_newline_spec; congruence | tauto].
Qed.

Lemma consume_string_spec : forall c l, quote c -> esc_ok (c :: l) -> exists p e r,
  consume_string_token (c :: l) = (string_tok (if c =? 34 then QS_Double else QS_Single) (has_esc p) (1 + blen p) e, r) /\
  l = p ++ r /\ (~ In 0 l -> string_body c l p e r).
Proof.
  intros c l Q K. unfold consume_string_token. rewrite peek0. cbn [tl].
  destruct (string_loop_spec (S (Datatypes.length (c :: l))) c (if c =? 34 then QS_Double else QS_Single) l 1 false Q) as (p & e & r & E & H);
    [cbn; lia | now apply esc_ok_tl in K |].
  exists p, e, r. now rewrite E.
Qed.

(* ---- urls ---- *)
Lemma bad_url_loop_spec : forall fuel l len, (Datatypes.length l < fuel)%nat -> esc_ok l ->
  exists p r, bad_url_loop fuel l len = (len + blen p, r) /\ l = p ++ r /\ bad_url_remnants l p r.
Proof.
  induction fuel as [| fuel IH]; intros l len Hf K; [lia |].
  cbn [bad_url_loop]. destruct l as [| c l].
  { exists [], []. cbn. rewrite N.add_0_r. repeat split. constructor. }
  cbn [Datatypes.length] in Hf.
  destruct (c =? 41) eqn:E0.
  { assert (c = 41) by lia. subst. exists [41], l. cbn [blen]. rewrite len_utf8_ascii by lia. repeat split. constructor. }
  destruct (c =? 92) eqn:E1.
  - assert (c = 92) by lia. subst c.
    destruct (is_escape_sequence 92 (peek_nth l 0)) eqn:E2.
    + assert (SE : starts_escape (92 :: l)) by (apply starts_escape_peek; split; [discriminate | exact E2]).
      destruct (consume_escape_spec l SE) as (n & ee & r1 & -> & A & B & C).
      pose proof (escape_at_app _ _ _ A) as (Ea & (e' & Ee)).
      assert (Hlen : (Datatypes.length r1 <= Datatypes.length l)%nat) by (subst ee; inversion Ea; rewrite app_length; lia).
      destruct (IH r1 (len + n)) as (p & r & -> & E' & H); [lia | apply (esc_ok_suffix ee); now rewrite <- Ea |].
      exists (ee ++ p), r. split; [rewrite blen_app, <- (B K); f_equal; lia |].
      split; [rewrite Ea, E', <- app_assoc; reflexivity | econstructor; eassumption].
    + destruct l as [| d l]; [discriminate |]. cbn [Datatypes.length] in Hf. rewrite peek0 in E2.
      unfold is_escape_sequence in E2. assert (ND : is_newline d = true) by (destruct (is_newline d); [reflexivity | discriminate]).
      apply is_newline_spec in ND.
      destruct (IH l (len + (len_utf8 d + 1))) as (p & r & -> & -> & H); [lia | now do 2 apply esc_ok_tl in K |].
      exists (92 :: d :: p), r. split; [cbn [blen]; rewrite (len_utf8_ascii 92) by lia; f_equal; lia |].
      split; [reflexivity |]. apply br_char; [lia | | apply br_char; [unfold newline in ND; lia | | assumption]].
      * intros [X | (x & y & X & NX)]; inversion X; subst; contradiction.
      * intro X. apply starts_escape_92 in X. unfold newline in ND. lia.
  - destruct (IH l (len + len_utf8 c)) as (p & r & -> & -> & H); [lia | now apply esc_ok_tl in K |].
    exists (c :: p), r. split; [cbn [blen]; f_equal; lia |]. split; [reflexivity |].
    apply br_char; [lia | | assumption]. intro X. apply starts_escape_92 in X. lia.
Qed.

Lemma run_white_blen : forall l p r, run white l p r -> has_esc p = false.
Proof.
  intros l p r (_ & F & _). induction F as [| c p H F IH]; [reflexivity |]. cbn [has_esc existsb].
  unfold white, newline in H. fold (has_esc p). rewrite IH. lia.
Qed.

Definition b_space (t : list N) : bool := existsb is_whitespace t.

Lemma url_loop_spec : forall fuel l len esc, (Datatypes.length l < fuel)%nat -> esc_ok l ->
  exists c t r, l = c ++ t ++ r /\
   ((exists paren, url_loop fuel l len esc = UrlDone (len + blen c + blen t) (blen t) (esc || has_esc c || b_space t) paren r /\
       (~ In 0 l -> url_body l c t (if paren then UClosed else UAtEnd) r)) \/
    (url_loop fuel l len esc = UrlBad (len + blen c + blen t) r /\ (~ In 0 l -> url_body l c t UMalformed r))).
Proof.
  induction fuel as [| fuel IH]; intros l len esc Hf K; [lia |].
  cbn [url_loop].
  destruct (peek_nth l 0 =? 41) eqn:E0.
  { destruct l as [| c l]; [rewrite peek_nil in E0; discriminate |]. rewrite peek0 in *. assert (c = 41) by lia. subst c.
    exists [], [41], l. split; [reflexivity |]. left. exists true. split.
    - cbn. rewrite !orb_false_r. f_equal; lia.
    - intros _. exact (ub_close [] l (Forall_nil _)). }
  destruct (peek_nth l 0 =? EOFc) eqn:E1.
  { unfold EOFc in E1. exists [], [], l. split; [reflexivity |]. left. exists false. split.
    - cbn. rewrite !orb_false_r. f_equal; lia.
    - intro X. destruct l as [| c l]; [exact (ub_end [] (Forall_nil _)) |]. rewrite peek0 in E1. cbn in X. exfalso. assert (c = 0) by lia. tauto. }
  unfold EOFc in E1. destruct l as [| c l]; [rewrite peek_nil in E1; discriminate |]. rewrite peek0 in *. cbn [tl Datatypes.length] in *.
  destruct (is_whitespace c) eqn:E2.
  { destruct (consume_whitespace_spec (c :: l)) as (w & r & -> & H1 & H2 & H3).
    assert (NW : w <> []).
    { intros ->. cbn in H1. subst r. apply H3. apply starts_cons. now apply is_whitespace_spec. }
    assert (BS : b_space w = true).
    { destruct w as [| x w]; [congruence |]. cbn. inversion H2; subst. apply is_whitespace_spec in H4. now rewrite H4. }
    rewrite H1. destruct (peek_nth r 0 =? 41) eqn:E3.
    - destruct r as [| x r]; [rewrite peek_nil in E3; discriminate |]. rewrite peek0 in E3. assert (x = 41) by lia. subst x.
      exists [], (w ++ [41]), r. split; [cbn; now rewrite <- app_assoc |]. left. exists true. split.
      + cbn [tl blen has_esc existsb]. unfold b_space. rewrite existsb_app. fold (b_space w). rewrite BS. cbn [orb].
        rewrite orb_true_r. rewrite blen_app. cbn. f_equal; lia.
      + intros _. now constructor.
    - destruct (peek_nth r 0 =? EOFc) eqn:E4.
      + unfold EOFc in E4. exists [], w, r. split; [reflexivity |]. left. exists false. split.
        * cbn [blen has_esc existsb]. rewrite BS, !orb_true_r. f_equal. lia.
        * intro X. apply not_in_app in X. destruct r as [| x r]; [rewrite app_nil_r; now constructor |].
          rewrite peek0 in E4. cbn in X. exfalso. assert (x = 0) by lia. tauto.
      + unfold EOFc in E4. exists [], w, r. split; [reflexivity |]. right. split.
        * cbn [blen]. f_equal. lia.
        * intros _. apply ub_bad_space; [assumption | repeat split; auto | intros ->; rewrite peek_nil in E4; discriminate |].
          intros (x & y & -> & <-). rewrite peek0 in E3. discriminate. }
  destruct ((c =? 39) || (c =? 34) || (c =? 40)) eqn:E3.
  { exists [], [], (c :: l). split; [reflexivity |]. right. split; [cbn; f_equal; lia |].
    intros _. constructor. unfold quote. lia. }
  destruct (is_non_printable c) eqn:E4.
  { exists [], [], (c :: l). split; [reflexivity |]. right. split; [cbn; f_equal; lia |].
    intros _. constructor. apply is_non_printable_spec in E4. right. right. destruct E4; [lia | assumption]. }
  destruct (c =? 92) eqn:E5.
  { assert (c = 92) by lia. subst c. rewrite peek1.
    destruct (is_escape_sequence 92 (peek_nth l 0)) eqn:E6.
    - assert (SE : starts_escape (92 :: l)) by (apply starts_escape_peek; split; [discriminate | exact E6]).
      destruct (consume_escape_spec l SE) as (n & ee & r1 & -> & A & B & C).
      pose proof (escape_at_app _ _ _ A) as (Ea & (e' & Ee)).
      assert (Hlen : (Datatypes.length r1 <= Datatypes.length l)%nat) by (subst ee; inversion Ea; rewrite app_length; lia).
      destruct (IH r1 (len + n) true) as (p & t & r & E' & H); [lia | apply (esc_ok_suffix ee); now rewrite <- Ea |].
      exists (ee ++ p), t, r. split; [rewrite Ea, E', <- app_assoc; reflexivity |].
      destruct H as [(paren & -> & H) | (-> & H)].
      + left. exists paren. split.
        * rewrite has_esc_app, (has_esc_escape _ _ _ A), blen_app, <- (B K). rewrite !orb_true_r. cbn [orb]. f_equal. lia.
        * intro X. rewrite Ea in X. apply not_in_app in X. econstructor; [eassumption | tauto].
      + right. split.
        * rewrite blen_app, <- (B K). f_equal. lia.
        * intro X. rewrite Ea in X. apply not_in_app in X. econstructor; [eassumption | tauto].
    - exists [], [], (92 :: l). split; [reflexivity |]. right. split; [cbn; f_equal; lia |].
      intros _. destruct l as [| d l]; [discriminate |]. apply ub_bad_escape. rewrite peek0 in E6. unfold is_escape_sequence in E6.
      apply is_newline_spec. destruct (is_newline d); [reflexivity | discriminate]. }
  destruct (IH l (len + len_utf8 c) esc) as (p & t & r & -> & H); [lia | now apply esc_ok_tl in K |].
  exists (c :: p), t, r. split; [reflexivity |].
  assert (UC : ~ In 0 (c :: p ++ t ++ r) -> forall e, url_body (p ++ t ++ r) p t e r -> url_body (c :: p ++ t ++ r) (c :: p) t e r).
  { intros X e Y. constructor; try assumption; try lia.
    - rewrite <- is_whitespace_spec. congruence.
    - unfold quote. lia.
    - intro Z. assert (is_non_printable c = true) by (apply is_non_printable_spec; now right). congruence. }
  assert (NE : has_esc (c :: p) = has_esc p) by (cbn [has_esc existsb]; rewrite E5, E1; reflexivity).
  destruct H as [(paren & -> & H) | (-> & H)].
  - left. exists paren. split; [rewrite NE; cbn [blen]; f_equal; lia |]. intro X. apply UC; [assumption |]. apply H. apply not_in_cons in X. tauto.
  - right. split; [cbn [blen]; f_equal; lia |]. intro X. apply UC; [assumption |]. apply H. apply not_in_cons in X. tauto.
Qed.

Lemma consume_url_spec : forall l lead ie, esc_ok l -> exists w c t r,
  run white l w (c ++ t ++ r) /\
  ((exists paren, consume_url_sequence l lead ie =
      (new_url paren (0 <? blen w) (ie || has_esc c || b_space t) (lead + blen w) (blen t) (lead + blen w + blen c + blen t), r) /\
      (~ In 0 l -> url_body (c ++ t ++ r) c t (if paren then UClosed else UAtEnd) r)) \/
   (exists p r', r = p ++ r' /\ consume_url_sequence l lead ie = (new_bad_url (lead + blen w + blen c + blen t + blen p), r') /\
      bad_url_remnants r p r' /\ (~ In 0 l -> url_body (c ++ t ++ r) c t UMalformed r))).
Proof.
  intros l lead ie K. unfold consume_url_sequence.
  destruct (consume_whitespace_spec l) as (w & l1 & -> & H1 & H2 & H3).
  assert (K1 : esc_ok l1) by (apply (esc_ok_suffix w); now rewrite <- H1).
  destruct (url_loop_spec (S (Datatypes.length l1)) l1 (lead + blen w) ie) as (c & t & r & E & H); [lia | assumption |].
  exists w, c, t, r. rewrite <- E. split; [repeat split; auto |].
  destruct H as [(paren & -> & H) | (-> & H)].
  - left. exists paren. split; [reflexivity |]. intro X. apply H. rewrite H1 in X. apply not_in_app in X. tauto.
  - right. unfold consume_remnants_of_bad_url.
    assert (K2 : esc_ok r) by (apply (esc_ok_suffix (c ++ t)); rewrite <- app_assoc, <- E; assumption).
    destruct (bad_url_loop_spec (S (Datatypes.length r)) r (lead + blen w + blen c + blen t)) as (p & r' & -> & E' & H'); [lia | assumption |].
    exists p, r'. split; [assumption |]. split; [reflexivity |]. split; [assumption |]. intro X. apply H. rewrite H1 in X. apply not_in_app in X. tauto.
Qed.
