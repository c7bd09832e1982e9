(* Each scanner consumes exactly the text its specification relation describes. *)
From Coq Require Import ZifyBool ZifyNat ZifyN.
From Verif Require Import Lexer SpecLex LexBase.
Open Scope N_scope.
Ltac Zify.zify_post_hook ::= Z.div_mod_to_equations.

Ltac splitdecide x := let E := fresh "E" in destruct x eqn:E.

(* ---- escapes ---- *)
Lemma escape_at_app : forall l e r, escape_at l e r -> l = e ++ r /\ exists e', e = 92 :: e'.
Proof.
  intros l e r H. destruct H; (split; [| eexists; reflexivity]); cbn; try reflexivity.
  now rewrite <- app_assoc.
Qed.
Lemma escape_at_starts : forall l e r, escape_at l e r -> starts_escape l.
Proof.
  intros l e r H. destruct H.
  - now left.
  - right. exists c, r. auto.
  - right. destruct hs as [| h hs]; [cbn in *; lia |]. exists h, (hs ++ ws ++ r). split; [reflexivity |].
    inversion H0; subst. unfold newline, hex, digit in *. lia.
Qed.

Lemma consume_hex_spec : forall n l, exists hs r, consume_hex n l = (N.of_nat (length hs), r) /\ l = hs ++ r /\
  Forall hex hs /\ (length hs <= n)%nat /\ (length hs = n \/ ~ starts hex r).
Proof.
  induction n as [| n IH]; intro l.
  - exists [], l. repeat split; auto.
  - destruct l as [| c l].
    + exists [], []. repeat split; auto; [cbn; lia | right; apply starts_nil].
    + cbn [consume_hex]. destruct (is_ascii_hexdigit c) eqn:E.
      * destruct (IH l) as (hs & r & -> & -> & F & L & D). exists (c :: hs), r.
        repeat split; [f_equal; cbn [length]; lia | constructor; [now apply is_hex_spec | assumption] | cbn; lia |].
        destruct D; [left; cbn; lia | now right].
      * exists [], (c :: l). repeat split; auto; [cbn; lia |]. right. rewrite starts_cons, <- is_hex_spec. congruence.
Qed.

Lemma hex_ascii : forall c, hex c -> c < 128. Proof. unfold hex, digit. lia. Qed.
Lemma white_ascii : forall c, white c -> c < 128. Proof. unfold white, newline. lia. Qed.
Lemma hex_not_white : forall c, hex c -> ~ white c. Proof. unfold hex, digit, white, newline. lia. Qed.

Lemma escape_at_hex : forall c hs ws r, Forall hex (c :: hs) -> (length hs <= 5)%nat ->
  length hs = 5%nat \/ ~ starts hex (ws ++ r) -> opt_space ws r ->
  escape_at (92 :: c :: hs ++ ws ++ r) (92 :: c :: hs ++ ws) r /\
  blen (92 :: c :: hs ++ ws) = 2 + N.of_nat (length hs) + N.of_nat (length ws).
Proof.
  intros c hs ws r F L D O. split.
  - apply (esc_hex (c :: hs) ws r); auto; [cbn; lia |]. destruct D; [left; cbn; lia | now right].
  - assert (A : Forall (fun c => c < 128) (c :: hs ++ ws)).
    { inversion F; subst. constructor; [now apply hex_ascii |]. apply Forall_app. split.
      - eapply Forall_impl; [| eassumption]. apply hex_ascii.
      - inversion O; subst; repeat constructor. now apply white_ascii. }
    rewrite blen_ascii; [cbn [length]; rewrite app_length; lia |]. constructor; [lia | assumption].
Qed.

Lemma consume_escape_spec : forall l, starts_escape (92 :: l) -> exists n e r,
  consume_escape_sequence l = (n, r) /\ escape_at (92 :: l) e r /\ (esc_ok (92 :: l) -> n = blen e) /\ 1 <= n.
Proof.
  intros l H. destruct l as [| c l].
  - exists 1, [92], []. split; [reflexivity |]. split; [constructor |]. split; [reflexivity | lia].
  - unfold consume_escape_sequence. destruct (is_ascii_hexdigit c) eqn:E.
    + destruct (consume_hex_spec 5 l) as (hs & r & -> & -> & F & L & D).
      assert (FC : Forall hex (c :: hs)) by (constructor; [now apply is_hex_spec | assumption]).
      destruct r as [| w r].
      { assert (O : opt_space [] []) by (constructor; apply starts_nil).
        destruct (escape_at_hex c hs [] [] FC L) as (A & B); auto.
        exists (2 + N.of_nat (length hs)), (92 :: c :: hs ++ []), [].
        (split; [reflexivity |]; split; [exact A |]; split; [intros _; (eapply eq_trans; [| symmetry; exact B]); cbn [length]; lia | lia]). }
      destruct (is_whitespace w) eqn:W.
      * apply is_whitespace_spec in W.
        assert (NH : ~ starts hex (w :: r)) by (rewrite starts_cons; intro X; now apply hex_not_white in X).
        destruct ((w =? CR) && (peek_nth r 0 =? LF)) eqn:CRLF.
        -- unfold CR, LF in CRLF. destruct r as [| z r]; [rewrite peek_nil in CRLF; lia |]. rewrite peek0 in CRLF.
           assert (w = 13 /\ z = 10) as (-> & ->) by lia.
           destruct (escape_at_hex c hs [13; 10] r FC L) as (A & B); [auto | constructor |].
           exists (2 + N.of_nat (length hs) + 2), (92 :: c :: hs ++ [13; 10]), r. (split; [reflexivity |]; split; [exact A |]; split; [intros _; (eapply eq_trans; [| symmetry; exact B]); cbn [length]; lia | lia]).
        -- destruct (escape_at_hex c hs [w] r FC L) as (A & B); [auto | |].
           { constructor; [assumption |]. intros (-> & Hs). destruct Hs as (z & r' & -> & <-). cbn in CRLF. discriminate. }
           exists (2 + N.of_nat (length hs) + 1), (92 :: c :: hs ++ [w]), r. (split; [reflexivity |]; split; [exact A |]; split; [intros _; (eapply eq_trans; [| symmetry; exact B]); cbn [length]; lia | lia]).
      * destruct (escape_at_hex c hs [] (w :: r) FC L) as (A & B); [auto | |].
        { constructor. rewrite starts_cons, <- is_whitespace_spec. congruence. }
        exists (2 + N.of_nat (length hs)), (92 :: c :: hs ++ []), (w :: r). (split; [reflexivity |]; split; [exact A |]; split; [intros _; (eapply eq_trans; [| symmetry; exact B]); cbn [length]; lia | lia]).
    + exists 2, [92; c], l. split; [reflexivity |]. split; [| split; [| lia]].
      * constructor; [rewrite <- is_hex_spec; congruence |].
        destruct H as [H | (d & r & H & N1)]; [discriminate |]. inversion H; now subst.
      * intro K. assert (c < 128) by (apply (K [] c l); reflexivity). cbn [blen]. rewrite !len_utf8_ascii by lia. reflexivity.
Qed.

(* ---- ident sequences ---- *)
Lemma ident_pieces_app : forall l ps r, ident_pieces l ps r -> l = pieces_text ps ++ r.
Proof.
  intros l ps r H. induction H; cbn; [reflexivity | now f_equal |].
  apply escape_at_app in H. destruct H as (-> & _). rewrite IHident_pieces, <- app_assoc. reflexivity.
Qed.
Lemma ident_pieces_stop : forall l ps r, ident_pieces l ps r -> ~ starts ident_cp r /\ ~ starts_escape r.
Proof. intros l ps r H. induction H; auto. Qed.

Definition b_nonlower (x : piece) : bool :=
  match x with Plain c => negb (is_ident_ascii_lower c || (c =? 45) || is_ascii_digit c || (c =? 0)) | Esc _ => false end.
Definition b_escaped (x : piece) : bool := match x with Plain c => c =? 0 | Esc _ => true end.
Definition b_dashed (ps : list piece) : bool :=
  match ps with Plain a :: Plain b :: _ => (a =? 45) && (b =? 45) | _ => false end.

Lemma ident_cp_45 : ident_cp 45. Proof. unfold ident_cp. auto. Qed.
Lemma ident_cp_0 : ident_cp 0. Proof. unfold ident_cp, ident_start_cp. auto. Qed.

(* how a loop iteration reads its first character *)
Inductive head_view : text -> Prop :=
  | hv_cp : forall c l, ident_cp c -> head_view (c :: l)
  | hv_esc : forall l, starts_escape (92 :: l) -> head_view (92 :: l)
  | hv_stop : forall l, ~ starts ident_cp l -> ~ starts_escape l -> head_view l.
Lemma not_ident_92 : ~ ident_cp 92.
Proof. unfold ident_cp, ident_start_cp, letter, upper, lower, non_ascii_ident, digit. lia. Qed.
Lemma starts_escape_92 : forall c l, starts_escape (c :: l) -> c = 92.
Proof. intros c l [H | (d & r & H & _)]; now inversion H. Qed.

Lemma lower_ident : forall c, is_ident_ascii_lower c || (c =? 45) || is_ascii_digit c = true -> is_ident c = true.
Proof.
  intros c H. apply is_ident_spec. rewrite !orb_true_iff, is_lower_spec, is_digit_spec, N.eqb_eq in H.
  unfold ident_cp, ident_start_cp, letter, lower, digit in *. lia.
Qed.
Lemma ident_cp_cases : forall c, ident_cp c -> is_ident c = true \/ c = 0.
Proof. intros c H. destruct (N.eq_dec c 0); [now right |]. left. now apply is_ident_spec. Qed.

Lemma lower_ascii : forall c, is_ident_ascii_lower c || (c =? 45) || is_ascii_digit c = true -> c < 128.
Proof. intros c H. rewrite !orb_true_iff, is_lower_spec, is_digit_spec, N.eqb_eq in H. unfold lower, digit in H. lia. Qed.
Lemma esc_92_facts : forall l, is_ident_ascii_lower 92 || (92 =? 45) || is_ascii_digit 92 = false /\ is_ident 92 = false
  /\ (starts_escape (92 :: l) -> is_escape_sequence 92 (peek_nth l 0) = true).
Proof.
  intro l. repeat split. intro H. apply starts_escape_peek in H. destruct H as (_ & H). exact H.
Qed.

Lemma ident_loop_spec : forall fuel l len nl d e, (length l < fuel)%nat ->
  exists len' d' ps r,
    ident_loop fuel l len nl d e = (len', nl || existsb b_nonlower ps, d', e || existsb b_escaped ps, r) /\
    ident_pieces l ps r /\ (esc_ok l -> len' = len + blen (pieces_text ps)) /\
    (len <> 0 -> d' = d) /\ (len = 0 -> d' = d || b_dashed ps) /\ len <= len' /\ (ps <> [] -> len < len') /\ (ps = [] -> len' = len).
Proof.
  induction fuel as [| fuel IH]; intros l len nl d e Hf; [lia |].
  cbn [ident_loop].
  destruct ((len =? 0) && (peek_nth l 0 =? 45)) eqn:E0.
  - (* leading dash *)
    destruct l as [| c l]; [rewrite peek_nil in E0; lia |]. rewrite peek0 in *.
    assert (len = 0 /\ c = 45) as (-> & ->) by lia. cbn [tl].
    destruct (peek_nth l 0 =? 45) eqn:E1.
    + destruct l as [| c l]; [rewrite peek_nil in E1; lia |]. rewrite peek0 in *.
      assert (c = 45) as -> by lia. cbn [tl length] in *.
      destruct (IH l (0 + 1 + 1) nl true e) as (len' & d' & ps & r & -> & H2 & H3 & H4 & H5 & H6 & H7 & H8); [lia |].
      exists len', d', (Plain 45 :: Plain 45 :: ps), r.
      split; [reflexivity |]. split; [apply ip_char; [apply ident_cp_45 |]; apply ip_char; [apply ident_cp_45 | exact H2] |].
      split; [intro K; rewrite H3; [cbn [pieces_text flat_map piece_text app blen]; rewrite !len_utf8_ascii by lia; fold (pieces_text ps); lia |]; do 2 apply esc_ok_tl in K; exact K |].
      repeat split; [lia | intros _; rewrite H4 by lia; now rewrite orb_true_r | lia | intros; lia | discriminate].
    + cbn [length] in *. destruct (IH l (0 + 1) nl d e) as (len' & d' & ps & r & -> & H2 & H3 & H4 & H5 & H6 & H7 & H8); [lia |].
      exists len', d', (Plain 45 :: ps), r.
      split; [reflexivity |]. split; [apply ip_char; [apply ident_cp_45 | exact H2] |].
      split; [intro K; rewrite H3; [cbn [pieces_text flat_map piece_text app blen]; rewrite !len_utf8_ascii by lia; fold (pieces_text ps); lia |]; apply esc_ok_tl in K; exact K |].
      repeat split; [lia | | lia | intros; lia | discriminate].
      intros _. rewrite H4 by lia. destruct ps as [| [c2 |] ps]; cbn; try now rewrite orb_false_r.
      inversion H2; subst. rewrite peek0 in E1. rewrite E1. cbn. now rewrite orb_false_r.
  - destruct (is_ident_ascii_lower (peek_nth l 0) || (peek_nth l 0 =? 45) || is_ascii_digit (peek_nth l 0)) eqn:E1.
    + destruct l as [| c l]; [rewrite peek_nil in E1; discriminate |]. rewrite peek0 in *. cbn [tl length] in *.
      destruct (IH l (len + 1) nl d e) as (len' & d' & ps & r & -> & H2 & H3 & H4 & H5 & H6 & H7 & H8); [lia |].
      pose proof (lower_ident c E1) as IC. apply is_ident_spec in IC.
      exists len', d', (Plain c :: ps), r.
      assert (c <> 0) by tauto.
      split. { cbn [existsb b_nonlower b_escaped]. rewrite E1. replace (c =? 0) with false by lia. reflexivity. }
      split; [apply ip_char; [tauto | exact H2] |].
      split; [intro K; rewrite H3; [cbn [pieces_text flat_map piece_text app blen]; rewrite !len_utf8_ascii by (now apply lower_ascii); fold (pieces_text ps); lia |]; apply esc_ok_tl in K; exact K |].
      repeat split; [intro; apply H4; lia | | lia | intros; lia | discriminate].
      intros ->. rewrite H4 by lia. destruct ps as [| [c2 |] ps]; cbn; try now rewrite orb_false_r.
      replace (c =? 45) with false by lia. now rewrite orb_false_r.
    + destruct (is_ident (peek_nth l 0)) eqn:E2.
      * destruct l as [| c l]; [rewrite peek_nil in E2; discriminate |]. rewrite peek0 in *. cbn [tl length] in *.
        destruct (IH l (len + len_utf8 c) true d e) as (len' & d' & ps & r & -> & H2 & H3 & H4 & H5 & H6 & H7 & H8); [lia |].
        apply is_ident_spec in E2. exists len', d', (Plain c :: ps), r. assert (c <> 0) by tauto.
        pose proof (len_utf8_pos c).
        split. { cbn [existsb b_nonlower b_escaped]. rewrite E1. replace (c =? 0) with false by lia. cbn. now rewrite !orb_true_r. }
        split; [apply ip_char; [tauto | exact H2] |].
        split; [intro K; rewrite H3; [cbn [pieces_text flat_map piece_text app blen]; fold (pieces_text ps); lia |]; apply esc_ok_tl in K; exact K |].
        repeat split; [intro; apply H4; lia | | lia | intros; lia | discriminate].
        intros ->. rewrite H4 by lia. destruct ps as [| [c2 |] ps]; cbn; try now rewrite orb_false_r.
        replace (c =? 45) with false by lia. now rewrite orb_false_r.
      * destruct (is_escape_sequence (peek_nth l 0) (peek_nth l 1)) eqn:E3.
        -- assert (NE : l <> []) by (intros ->; discriminate).
           pose proof (proj2 (starts_escape_peek l) (conj NE E3)) as SE.
           destruct l as [| c l]; [congruence |]. pose proof (starts_escape_92 _ _ SE); subst c. cbn [tl length] in *.
           destruct (consume_escape_spec l SE) as (n & ee & r1 & -> & A & B & C).
           pose proof (escape_at_app _ _ _ A) as (Ea & (e' & Ee)).
           assert (Hlen : (length r1 <= length l)%nat) by (subst ee; inversion Ea; rewrite app_length; lia).
           destruct (IH r1 (len + n) nl d true) as (len' & d' & ps & r & -> & H2 & H3 & H4 & H5 & H6 & H7 & H8); [lia |].
           exists len', d', (Esc ee :: ps), r.
           split; [cbn [existsb b_nonlower b_escaped]; cbn; now rewrite orb_true_r |].
           split; [econstructor; eassumption |].
           split.
           { intro K. rewrite H3; [| rewrite Ea in K; now apply esc_ok_suffix in K].
             rewrite B by assumption. cbn [pieces_text flat_map piece_text]. rewrite blen_app. fold (pieces_text ps). lia. }
           repeat split; [intro; apply H4; lia | | lia | intros; lia | discriminate].
           intros ->. rewrite H4 by lia. cbn. now rewrite orb_false_r.
        -- destruct ((peek_nth l 0 =? EOFc) && non_empty l) eqn:E4.
           ++ destruct l as [| c l]; [cbn in E4; discriminate |]. rewrite peek0 in *. cbn [tl length] in *.
              unfold EOFc in E4. assert (c = 0) by lia. subst c.
              destruct (IH l (len + 1) nl d true) as (len' & d' & ps & r & -> & H2 & H3 & H4 & H5 & H6 & H7 & H8); [lia |].
              exists len', d', (Plain 0 :: ps), r.
              split. { cbn [existsb b_nonlower b_escaped]. cbn. now rewrite orb_true_r. }
              split; [apply ip_char; [apply ident_cp_0 | exact H2] |].
              split; [intro K; rewrite H3; [cbn [pieces_text flat_map piece_text app blen]; rewrite !len_utf8_ascii by lia; fold (pieces_text ps); lia |]; apply esc_ok_tl in K; exact K |].
              repeat split; [intro; apply H4; lia | | lia | intros; lia | discriminate].
              intros ->. rewrite H4 by lia. destruct ps as [| [c2 |] ps]; cbn; now rewrite orb_false_r.
           ++ exists len, d, [], l. cbn. rewrite !orb_false_r. split; [reflexivity |].
              split.
              { constructor.
                - intros (c & r & -> & Hc). rewrite peek0 in *. destruct (ident_cp_cases c Hc); [congruence |]. subst. cbn in E4. discriminate.
                - rewrite starts_escape_peek. intros (_ & X). congruence. }
              repeat split; try lia; try (intros; lia); try congruence.
Qed.

Lemma consume_ident_spec : forall l, exists len ps r,
  consume_ident_sequence l = (len, existsb b_nonlower ps, b_dashed ps, existsb b_escaped ps, r) /\
  ident_pieces l ps r /\ (esc_ok l -> len = blen (pieces_text ps)) /\ (ps <> [] -> 0 < len) /\ (ps = [] -> len = 0).
Proof.
  intro l. unfold consume_ident_sequence.
  destruct (ident_loop_spec (S (length l)) l 0 false false false) as (len' & d' & ps & r & E & H2 & H3 & H4 & H5 & H6 & H7 & H8); [lia |].
  exists len', ps, r. rewrite E, H5 by reflexivity. repeat split; auto.
Qed.
