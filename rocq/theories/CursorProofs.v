(* Escapes and the text of tokens. *)
From Coq Require Import ZifyBool ZifyNat ZifyN.
From Verif Require Import Lexer Span Cursor SpecToken SpecLex SpecTrace SpecCursor LexBase TokenProofs KindProofs ScanProofs ScanProofs2 ScanProofs3 NumProofs DimProofs LexProofs LexFacts LexTrace LexKinds LexProps LexProps2 LexProps3.
Open Scope N_scope.
Open Scope list_scope.
Ltac Zify.zify_post_hook ::= Z.div_mod_to_equations.

(* ---- hex digits ---- *)
Lemma to_digit16_some : forall c, hex c -> exists v, to_digit16 c = Some v /\ hex_value_of c v /\ v < 16.
Proof.
  intros c H. unfold to_digit16, is_ascii_digit. unfold hex, digit in H.
  destruct ((48 <=? c) && (c <=? 57)) eqn:E1; [exists (c - 48); split; [reflexivity |]; split; [constructor; unfold digit; lia | lia] |].
  destruct ((97 <=? c) && (c <=? 102)) eqn:E2.
  { exists (c - 87). split; [reflexivity |]. split; [| lia]. replace (c - 87) with (10 + (c - 97)) by lia. constructor. lia. }
  destruct ((65 <=? c) && (c <=? 70)) eqn:E3; [| lia].
  exists (c - 55). split; [reflexivity |]. split; [| lia]. replace (c - 55) with (10 + (c - 65)) by lia. constructor. lia.
Qed.
Lemma to_digit16_none : forall c, ~ hex c -> to_digit16 c = None.
Proof.
  intros c H. unfold to_digit16, is_ascii_digit. unfold hex, digit in H.
  destruct ((48 <=? c) && (c <=? 57)) eqn:E1; [lia |]. destruct ((97 <=? c) && (c <=? 102)) eqn:E2; [lia |]. destruct ((65 <=? c) && (c <=? 70)) eqn:E3; [lia | reflexivity].
Qed.
Lemma shl4 : forall a v, v < 16 -> N.lor (N.shiftl a 4) v = 16 * a + v.
Proof. intros a v H. rewrite N.shiftl_mul_pow2. rewrite lor_disjoint_add by exact H. change (2 ^ 4) with 16. lia. Qed.

(* the loop reads the hex digits: pending character and iterator are what follows them *)
Lemma hex_loop_spec : forall hs k hs0 n i x, hex_number hs0 n -> Forall hex hs -> hs <> [] -> (length hs <= k)%nat ->
  (length hs = k \/ ~ starts hex x) ->
  exists n', hex_number (hs0 ++ hs) n' /\
    hex_loop k (hd 0 hs) (tl hs ++ x) n i = (n', i + N.of_nat (length hs), match x with c :: _ => c | [] => REPLACEMENT end, tl x).
Proof.
  induction hs as [| h hs IH]; intros k hs0 n i x Hn F Hne Hl Hd; [congruence |]. cbn [hd tl].
  inversion F as [| ? ? Hh F']; subst. destruct k as [| k]; [cbn in Hl; lia |]. cbn [hex_loop].
  destruct (to_digit16_some h Hh) as (v & -> & Hv & Lt). cbn zeta. rewrite shl4 by exact Lt.
  assert (Hn' : hex_number (hs0 ++ [h]) (16 * n + v)) by (constructor; assumption).
  destruct hs as [| h' hs'].
  - cbn [app]. exists (16 * n + v). split; [exact Hn' |]. replace (i + N.of_nat (length [h])) with (i + 1) by (cbn [length]; lia).
    destruct x as [| c x'].
    + cbn [tl]. destruct k as [| k]; [reflexivity |]. cbn [hex_loop]. rewrite to_digit16_none; [reflexivity |]. unfold hex, digit, REPLACEMENT. lia.
    + cbn [tl]. destruct k as [| k]; [reflexivity |]. cbn [hex_loop]. rewrite to_digit16_none; [reflexivity |].
      destruct Hd as [Hd | Hd]; [cbn in Hd; lia |]. now rewrite starts_cons in Hd.
  - cbn [app]. destruct (IH k (hs0 ++ [h]) (16 * n + v) (i + 1) x Hn' F' ltac:(discriminate)) as (n' & A & B).
    + cbn [length] in *. lia.
    + destruct Hd as [Hd | Hd]; [left; cbn [length] in *; lia | now right].
    + exists n'. rewrite <- app_assoc in A. split; [exact A |]. cbn [hd tl] in B. rewrite B.
      replace (i + 1 + N.of_nat (length (h' :: hs'))) with (i + N.of_nat (length (h :: h' :: hs'))) by (cbn [length]; lia). reflexivity.
Qed.

Lemma code_point_model : forall n, exists c, code_point_of n c /\
  (if (n =? 0) || in_range 55296 57343 n then REPLACEMENT else match char_from_u32 n with Some x => x | None => REPLACEMENT end) = c.
Proof.
  intro n. unfold in_range, char_from_u32, valid_char, REPLACEMENT.
  destruct ((n =? 0) || (55296 <=? n) && (n <=? 57343)) eqn:E1; [exists 65533; split; [constructor; unfold surrogate; lia | reflexivity] |].
  destruct ((n <? 55296) || (57344 <=? n) && (n <=? 1114111)) eqn:E2.
  - exists n. split; [apply cp_good; unfold surrogate; lia | reflexivity].
  - exists 65533. split; [constructor; lia | reflexivity].
Qed.
Lemma if_pair : forall (A B : Type) (b : bool) (x y : A) (z : B), (if b then (x, z) else (y, z)) = (if b then x else y, z).
Proof. intros. now destruct b. Qed.

Definition decoded (ch : N) : N := if ch =? 0 then REPLACEMENT else ch.
Lemma decoded_valid : forall n c, code_point_of n c -> c <> 0.
Proof. intros n c [m H | m H1 H2 H3]; lia. Qed.

(* parse_escape_sequence decodes the escape that the grammar finds, and counts its bytes (all but the backslash) *)
Lemma parse_escape_spec : forall l e r, escape_at l e r -> exists ch,
  parse_escape_sequence (tl l) = (ch, blen e - 1) /\ escape_value e (decoded ch).
Proof.
  intros l e r H. destruct H as [| c r Hh Hn | hs ws r Hl F Hd O].
  - exists REPLACEMENT. split; [reflexivity | constructor].
  - exists c. cbn [tl parse_escape_sequence]. destruct (is_ascii_hexdigit c) eqn:E; [apply is_hex_spec in E; contradiction |].
    cbn [negb blen]. split; [f_equal; rewrite (len_utf8_ascii 92) by lia; lia |]. unfold decoded. exact (ev_char c Hh).
  - cbn [tl]. destruct hs as [| h hs]; [cbn in Hl; lia |]. cbn [app parse_escape_sequence].
    assert (Hh : hex h) by now inversion F. assert (Eh : is_ascii_hexdigit h = true) by now apply is_hex_spec. rewrite Eh. cbn [negb].
    destruct (hex_loop_spec (h :: hs) 6 [] 0 0 (ws ++ r) hn_nil F ltac:(discriminate)) as (n & Hn & E); [lia | tauto |].
    cbn [hd tl app] in E. rewrite E. cbn zeta. rewrite if_pair. destruct (code_point_model n) as (cp & Hcp & ->).
    exists cp. assert (Fw : Forall white ws).
    { destruct O as [r' Hs | r' | w r' Hw Hs]; [apply Forall_nil | repeat (apply Forall_cons; [unfold white, newline; auto |]); apply Forall_nil | apply Forall_cons; [exact Hw | apply Forall_nil]]. }
    assert (Fa : Forall (fun c => c < 128) (92 :: (h :: hs) ++ ws)).
    { constructor; [lia |]. apply Forall_app. split; [eapply Forall_impl; [apply hex_ascii | exact F] | eapply Forall_impl; [apply white_ascii | exact Fw]]. }
    split.
    + f_equal. change (blen (92 :: h :: hs ++ ws)) with (blen (92 :: (h :: hs) ++ ws)). rewrite (blen_ascii _ Fa). cbn [length]. rewrite app_length. cbn [length].
      destruct O as [r Hs | r | w r Hw Hs]; cbn [app length tl] in *.
      * destruct r as [| c r]; [change (is_whitespace REPLACEMENT) with false; cbv iota; lia |]. destruct (is_whitespace c) eqn:W; [apply is_whitespace_spec in W; exfalso; apply Hs; exists c, r; auto | lia].
      * change (is_whitespace 13) with true. change ((13 =? CR) && (10 =? LF)) with true. cbv iota. lia.
      * assert (W : is_whitespace w = true) by now apply is_whitespace_spec. rewrite W.
        assert (X : (w =? CR) && match r with x :: _ => x =? LF | [] => false end = false).
        { unfold CR, LF. destruct (w =? 13) eqn:A; [| reflexivity]. cbn. destruct r as [| z r]; [reflexivity |]. destruct (z =? 10) eqn:B; [| reflexivity].
          exfalso. apply Hs. split; [lia |]. exists z, r. split; [reflexivity | lia]. }
        rewrite X. lia.
    + assert (D : decoded cp = cp). { unfold decoded. destruct (cp =? 0) eqn:Z; [| reflexivity]. exfalso. apply (decoded_valid _ _ Hcp). lia. }
      rewrite D. change (92 :: h :: hs ++ ws) with (92 :: (h :: hs) ++ ws). eapply ev_hex; eauto. discriminate.
Qed.

(* ---- the reading loops ---- *)
Lemma slice_mid : forall A B p post en, en = blen A + blen B + blen p -> slice (A ++ B ++ p ++ post) (blen A + blen B) en = Some p.
Proof. intros A B p post en ->. rewrite app_assoc, <- blen_app. apply slice_app. Qed.
Lemma slice_pre : forall A B x, slice (A ++ B ++ x) (blen A) (blen A + blen B) = Some B.
Proof. intros. apply slice_app. Qed.
Lemma one_newline_chars : forall l n r, one_newline l n r -> (n = [13; 10] \/ exists c, n = [c] /\ newline c /\ ~ (c = 13 /\ starts (eq 10) r)) /\ l = n ++ r.
Proof. intros l n r [r' | c r' H1 H2]; (split; [| reflexivity]); [now left | right; exists c; auto]. Qed.
Lemma escape_at_blen : forall l e r, escape_at l e r -> 1 <= blen e.
Proof. intros l e r H. apply escape_at_app in H. destruct H as (_ & e' & ->). cbn [blen]. rewrite len_utf8_ascii by lia. lia. Qed.
(* a string value never starts with a newline character *)
Lemma css_value_no_newline : forall p r v, css_value true p r v -> ~ starts newline p.
Proof.
  intros p r v H (c & p' & -> & Hc). inversion H as [| c0 p0 r0 v0 H1 H2 H3 | n p0 r0 v0 H1 H2 H3 | | e p0 r0 c0 v0 H1 H2 H3 H4]; subst.
  - now apply H2.
  - unfold newline in Hc. lia.
  - unfold newline in Hc. lia.
  - apply escape_at_app in H2. destruct H2 as (_ & e' & ->). match goal with Q : _ ++ _ = _ :: _ |- _ => cbn in Q; injection Q; intros; subst end. unfold newline in Hc. lia.
Qed.

Lemma escape_second : forall l e r, escape_at l e r -> forall x e', e = 92 :: x :: e' -> ~ newline x.
Proof.
  intros l e r [| c r' Hh Hn | hs ws r' Hl F Hd O] x e' E N.
  - discriminate.
  - assert (c = x) by congruence. now subst.
  - destruct hs as [| h hs]; [cbn in Hl; lia |]. cbn [app] in E. assert (h = x) by congruence. subst h.
    pose proof (Forall_inv F) as Hx. cbv beta in Hx. unfold hex, digit in Hx. unfold newline in N. lia.
Qed.
(* one backslash: [B] is what was read before it *)
Lemma step_escape : forall is_string A B e p post c,
  (is_string = true -> e <> [92]) -> escape_at (e ++ p ++ post) e (p ++ post) -> escape_value e c -> (is_string = true -> p <> [] \/ e <> [92]) ->
  exists ch, escape_step is_string (A ++ B ++ (e ++ p) ++ post) (blen A) (blen A + blen B + blen (e ++ p)) (blen B) (tl (e ++ p)) =
    Some (EsChar ch (blen (B ++ e)) p) /\ escape_value e (decoded ch).
Proof.
  intros is_string A B e p post c Hs He Hv _. destruct (parse_escape_spec _ _ _ He) as (ch & Hp & Hd). exists ch. split; [| exact Hd].
  pose proof (escape_at_blen _ _ _ He) as Lb. pose proof (escape_at_app _ _ _ He) as (_ & e' & Ee).
  assert (D : (match drop_bytes (blen A + (blen B + 1)) (A ++ B ++ (e ++ p) ++ post) with
     | None => None
     | Some tail => let (ch, n) := parse_escape_sequence tail in
         match slice (A ++ B ++ (e ++ p) ++ post) (blen A + (blen B + 1 + n)) (blen A + blen B + blen (e ++ p)) with None => None | Some l => Some (EsChar ch (blen B + 1 + n) l) end
     end) = Some (EsChar ch (blen (B ++ e)) p)).
  { replace (blen A + (blen B + 1)) with (blen (A ++ B ++ [92])) by (rewrite !blen_app; cbn; lia).
    replace (A ++ B ++ (e ++ p) ++ post) with ((A ++ B ++ [92]) ++ tl (e ++ p ++ post)) at 1 by (rewrite Ee; cbn [app tl]; rewrite <- !app_assoc; reflexivity).
    rewrite drop_bytes_app, Hp. replace (blen B + 1 + (blen e - 1)) with (blen (B ++ e)) by (rewrite blen_app; lia).
    replace (A ++ B ++ (e ++ p) ++ post) with (A ++ (B ++ e) ++ p ++ post) by (rewrite <- !app_assoc; reflexivity).
    rewrite slice_mid; [reflexivity | rewrite !blen_app; lia]. }
  unfold escape_step. cbn zeta. destruct is_string; [| exact D].
  rewrite Ee in *. cbn [app tl]. destruct (e' ++ p) as [| d rest] eqn:Er.
  - apply app_eq_nil in Er. destruct Er as (-> & ->). exfalso. now apply Hs.
  - assert (Nd : is_newline d = false).
    { destruct (is_newline d) eqn:Q; [| reflexivity]. apply is_newline_spec in Q. exfalso. destruct e' as [| x e'].
      - now apply Hs.
      - injection Er; intros; subst x. exact (escape_second _ _ _ He _ _ eq_refl Q). }
    rewrite Nd. cbn [app] in D |- *. rewrite Er in D. exact D.
Qed.
Lemma step_newline : forall A B n p post v, one_newline (n ++ p ++ post) n (p ++ post) -> css_value true p post v ->
  escape_step true (A ++ B ++ (92 :: n ++ p) ++ post) (blen A) (blen A + blen B + blen (92 :: n ++ p)) (blen B) (n ++ p) =
    Some (EsNewline (blen (B ++ 92 :: n)) p).
Proof.
  intros A B n p post v Hn Hv. destruct (one_newline_chars _ _ _ Hn) as (Hc & _). unfold escape_step.
  destruct Hc as [-> | (c & -> & Hc & Hnl)]; cbn [app].
  - change (is_newline 13) with true. cbv iota. change (10 =? LF) with true. cbv iota zeta.
    replace (A ++ B ++ 92 :: 13 :: 10 :: p ++ post) with (A ++ (B ++ [92; 13; 10]) ++ p ++ post) by (rewrite <- !app_assoc; reflexivity).
    replace (blen B + 1 + 2) with (blen (B ++ [92; 13; 10])) by (rewrite blen_app; cbn; lia).
    rewrite slice_mid; [reflexivity | rewrite !blen_app; cbn [blen app]; rewrite !len_utf8_ascii by lia; lia].
  - assert (Nc : is_newline c = true) by now apply is_newline_spec. rewrite Nc.
    assert (X : match p with x :: _ => x =? LF | [] => false end = false).
    { destruct p as [| x p]; [reflexivity |]. destruct (x =? LF) eqn:Q; [| reflexivity]. exfalso. apply (css_value_no_newline _ _ _ Hv). exists x, p. split; [reflexivity |]. unfold newline, LF in *. lia. }
    rewrite X. cbv zeta. assert (Lc : len_utf8 c = 1) by (apply len_utf8_ascii; unfold newline in Hc; lia).
    replace (A ++ B ++ 92 :: c :: p ++ post) with (A ++ (B ++ [92; c]) ++ p ++ post) by (rewrite <- !app_assoc; reflexivity).
    replace (blen B + 2) with (blen (B ++ [92; c])) by (rewrite blen_app; cbn [blen]; rewrite Lc, len_utf8_ascii by lia; lia).
    rewrite slice_mid; [reflexivity | rewrite !blen_app; cbn [blen app]; rewrite Lc, !len_utf8_ascii by lia; lia].
Qed.

Definition acc_of (str : option (list N)) (B : list N) : list N := match str with Some s => s | None => B end.
Lemma hex_value_det : forall c v v', hex_value_of c v -> hex_value_of c v' -> v = v'.
Proof. intros c v v' H H'. destruct H, H'; unfold digit in *; lia. Qed.
Lemma hex_number_det : forall hs n, hex_number hs n -> forall n', hex_number hs n' -> n = n'.
Proof.
  intros hs n H. induction H as [| hs c n v H IH Hv]; intros n' H'; inversion H' as [E | hs' c' m v' H1 H2 E]; subst.
  - reflexivity.
  - destruct hs'; discriminate.
  - destruct hs; discriminate.
  - apply app_inj_tail in E. destruct E as (-> & ->). rewrite (IH _ H1), (hex_value_det _ _ _ Hv H2). reflexivity.
Qed.
Lemma code_point_det : forall n c c', code_point_of n c -> code_point_of n c' -> c = c'.
Proof. intros n c c' H H'. destruct H, H'; unfold surrogate in *; try reflexivity; lia. Qed.
Lemma escape_value_shape : forall e c, escape_value e c -> exists x, e = 92 :: x /\
  ((x = [] /\ c = 65533) \/ (exists d, x = [d] /\ ~ hex d /\ c = nul_fixed d) \/
   exists hs ws n, x = hs ++ ws /\ Forall hex hs /\ hs <> [] /\ Forall white ws /\ hex_number hs n /\ code_point_of n c).
Proof.
  intros e c [| d Hd | hs ws n c0 F Hn Fw H1 H2]; eexists; (split; [reflexivity |]).
  - now left.
  - right. left. exists d. auto.
  - right. right. exists hs, ws, n. auto 10.
Qed.
Lemma escape_value_det : forall e c c', escape_value e c -> escape_value e c' -> c = c'.
Proof.
  intros e c c' H H'. apply escape_value_shape in H, H'. destruct H as (x & -> & H), H' as (x' & E & H'). assert (x' = x) by congruence. subst x'. clear E.
  assert (HH : forall hs ws, x = hs ++ ws -> Forall hex hs -> hs <> [] -> exists h y, x = h :: y /\ hex h).
  { intros [| h hs] ws -> F Hne; [congruence |]. exists h, (hs ++ ws). split; [reflexivity | now inversion F]. }
  destruct H as [(Ex & ->) | [(d & Ex & Hd & ->) | (hs & ws & n & Ex & F & Hne & Fw & H1 & H2)]], H' as [(Ex' & ->) | [(d' & Ex' & Hd' & ->) | (hs' & ws' & n' & Ex' & F' & Hne' & Fw' & H1' & H2')]].
  - reflexivity.
  - subst; discriminate.
  - exfalso. destruct (HH _ _ Ex' F' Hne') as (h & y & E & _). subst; discriminate.
  - subst; discriminate.
  - assert (d = d') by congruence. now subst.
  - exfalso. destruct (HH _ _ Ex' F' Hne') as (h & y & E & Hh). apply Hd. assert (d = h) by congruence. now subst.
  - exfalso. destruct (HH _ _ Ex F Hne) as (h & y & E & _). subst; congruence.
  - exfalso. destruct (HH _ _ Ex F Hne) as (h & y & E & Hh). apply Hd'. assert (d' = h) by congruence. now subst.
  - destruct (app_class_unique hex hs ws hs' ws') as (-> & ->); auto; [| | congruence |].
    + intros (w & r & -> & Hw). inversion Fw; subst. exact (hex_not_white _ Hw H3).
    + intros (w & r & -> & Hw). inversion Fw'; subst. exact (hex_not_white _ Hw H3).
    + rewrite (hex_number_det _ _ H1 _ H1') in H2. exact (code_point_det _ _ _ H2 H2').
Qed.
Lemma app_cons_assoc : forall (s : list N) c v, s ++ c :: v = (s ++ [c]) ++ v.
Proof. intros. now rewrite <- app_assoc. Qed.

Lemma parse_str_loop_spec : forall is_string p post v, css_value is_string p post v -> forall fuel A B str, (length p < fuel)%nat ->
  parse_str_loop fuel is_string (A ++ B ++ p ++ post) (blen A) (blen A + blen B + blen p) (blen B) p str = Some (acc_of str B ++ v).
Proof.
  intros is_string p post v H. induction H as [r | c p r v Hc Hnl H IH | n p r v Hs Hn H IH | Hs | e p r c v Hs He Hv H IH]; intros fuel A B str Hf;
    (destruct fuel as [| fuel]; [lia |]); cbn [parse_str_loop].
  - rewrite app_nil_r. destruct str as [s |]; cbn [acc_of]; [reflexivity |]. cbn [app]. apply slice_pre.
  - cbn [length] in Hf. replace (c =? 92) with false by lia. unfold nul_fixed.
    assert (EnsB : (if blen B =? 0 then Some [] else slice (A ++ B ++ (c :: p) ++ r) (blen A) (blen A + blen B)) = Some B).
    { destruct (blen B =? 0) eqn:Q; [f_equal; symmetry; apply blen_zero; lia | apply slice_pre]. }
    assert (E : A ++ B ++ (c :: p) ++ r = A ++ (B ++ [c]) ++ p ++ r) by (rewrite <- !app_assoc; reflexivity).
    assert (Eb : blen B + len_utf8 c = blen (B ++ [c])) by (rewrite blen_app; cbn [blen]; lia).
    assert (Ee : blen A + blen B + blen (c :: p) = blen A + blen (B ++ [c]) + blen p) by (rewrite blen_app; cbn [blen]; lia).
    destruct (c =? 0) eqn:Z.
    + assert (c = 0) by lia. subst c. replace (match str with Some s => Some s | None => if blen B =? 0 then Some [] else slice (A ++ B ++ (0 :: p) ++ r) (blen A) (blen A + blen B) end) with (Some (acc_of str B)).
      2:{ destruct str; [reflexivity | symmetry; exact EnsB]. }
      change (len_utf8 0) with 1 in Eb. rewrite E, Eb, Ee, IH by lia. cbn [acc_of]. rewrite <- app_cons_assoc. reflexivity.
    + rewrite E, Eb, Ee, IH by lia. f_equal. destruct str as [s |]; cbn [acc_of]; now rewrite <- app_cons_assoc.
  - subst is_string. change (92 =? 0) with false. change (92 =? 92) with true. cbv iota.
    replace (match str with Some s => Some s | None => if blen B =? 0 then Some [] else slice (A ++ B ++ (92 :: n ++ p) ++ r) (blen A) (blen A + blen B) end) with (Some (acc_of str B)).
    2:{ destruct str; cbn [acc_of]; [reflexivity |]. destruct (blen B =? 0) eqn:Q; [f_equal; apply blen_zero; lia | symmetry; apply slice_pre]. }
    rewrite (step_newline A B n p r v Hn H).
    replace (A ++ B ++ (92 :: n ++ p) ++ r) with (A ++ (B ++ 92 :: n) ++ p ++ r) by (rewrite <- ?app_assoc; cbn [app]; rewrite <- ?app_assoc; reflexivity).
    replace (blen A + blen B + blen (92 :: n ++ p)) with (blen A + blen (B ++ 92 :: n) + blen p) by (rewrite !blen_app; cbn [blen]; rewrite blen_app; lia).
    rewrite IH; [reflexivity |]. cbn [length] in Hf. rewrite app_length in Hf. lia.
  - subst is_string. change (92 =? 0) with false. change (92 =? 92) with true. cbv iota. cbn [escape_step].
    rewrite (app_nil_r (acc_of str B)). destruct str; cbn [acc_of]; [reflexivity |]. destruct (blen B =? 0) eqn:Q; [f_equal; symmetry; apply blen_zero; lia |]. cbn [app]. now rewrite slice_pre.
  - pose proof (escape_at_app _ _ _ He) as (_ & e' & Ee).
    destruct (step_escape is_string A B e p r c Hs He Hv ltac:(tauto)) as (ch & St & Hd). rewrite (escape_value_det _ _ _ Hv Hd).
    rewrite Ee in St |- *. cbn [app tl] in St. cbn [app]. change (92 =? 0) with false. change (92 =? 92) with true. cbv iota.
    replace (match str with Some s => Some s | None => if blen B =? 0 then Some [] else slice (A ++ B ++ 92 :: (e' ++ p) ++ r) (blen A) (blen A + blen B) end) with (Some (acc_of str B)).
    2:{ destruct str; cbn [acc_of]; [reflexivity |]. destruct (blen B =? 0) eqn:Q; [f_equal; apply blen_zero; lia | symmetry; apply slice_pre]. }
    rewrite St. fold (decoded ch).
    replace (A ++ B ++ 92 :: (e' ++ p) ++ r) with (A ++ (B ++ 92 :: e') ++ p ++ r) by (rewrite <- ?app_assoc; cbn [app]; rewrite <- ?app_assoc; reflexivity).
    replace (blen A + blen B + blen (92 :: e' ++ p)) with (blen A + blen (B ++ 92 :: e') + blen p) by (rewrite !blen_app; cbn [blen]; rewrite blen_app; lia).
    rewrite IH; [cbn [acc_of]; now rewrite <- app_cons_assoc |]. rewrite Ee in Hf. cbn [app length] in Hf. rewrite app_length in Hf. lia.
Qed.

Lemma lower_repl : to_ascii_lowercase REPLACEMENT = REPLACEMENT. Proof. reflexivity. Qed.
Lemma lower_decoded : forall ch, (if ch =? 0 then REPLACEMENT else to_ascii_lowercase ch) = to_ascii_lowercase (decoded ch).
Proof. intro ch. unfold decoded. destruct (ch =? 0); reflexivity. Qed.

Lemma parse_str_lower_loop_spec : forall is_string p post v, css_value is_string p post v -> forall fuel A B str, (length p < fuel)%nat ->
  parse_str_lower_loop fuel is_string (A ++ B ++ p ++ post) (blen A) (blen A + blen B + blen p) (blen B) p str = Some (str ++ lower_text v).
Proof.
  unfold lower_text.
  intros is_string p post v H. induction H as [r | c p r v Hc Hnl H IH | n p r v Hs Hn H IH | Hs | e p r c v Hs He Hv H IH]; intros fuel A B str Hf;
    (destruct fuel as [| fuel]; [lia |]); cbn [parse_str_lower_loop map].
  - now rewrite app_nil_r.
  - cbn [length] in Hf. replace (c =? 92) with false by lia. unfold nul_fixed.
    assert (E : A ++ B ++ (c :: p) ++ r = A ++ (B ++ [c]) ++ p ++ r) by (rewrite <- !app_assoc; reflexivity).
    assert (Eb : blen B + len_utf8 c = blen (B ++ [c])) by (rewrite blen_app; cbn [blen]; lia).
    assert (Ee : blen A + blen B + blen (c :: p) = blen A + blen (B ++ [c]) + blen p) by (rewrite blen_app; cbn [blen]; lia).
    destruct (c =? 0) eqn:Z.
    + assert (c = 0) by lia. subst c. change (len_utf8 0) with 1 in Eb. rewrite E, Eb, Ee, IH by lia. rewrite <- app_cons_assoc. reflexivity.
    + rewrite E, Eb, Ee, IH by lia. now rewrite <- app_cons_assoc.
  - subst is_string. change (92 =? 0) with false. change (92 =? 92) with true. cbv iota.
    rewrite (step_newline A B n p r v Hn H).
    replace (A ++ B ++ (92 :: n ++ p) ++ r) with (A ++ (B ++ 92 :: n) ++ p ++ r) by (rewrite <- ?app_assoc; cbn [app]; rewrite <- ?app_assoc; reflexivity).
    replace (blen A + blen B + blen (92 :: n ++ p)) with (blen A + blen (B ++ 92 :: n) + blen p) by (rewrite !blen_app; cbn [blen]; rewrite blen_app; lia).
    rewrite IH; [reflexivity |]. cbn [length] in Hf. rewrite app_length in Hf. lia.
  - subst is_string. change (92 =? 0) with false. change (92 =? 92) with true. cbv iota. cbn [escape_step]. now rewrite app_nil_r.
  - pose proof (escape_at_app _ _ _ He) as (_ & e' & Ee).
    destruct (step_escape is_string A B e p r c Hs He Hv ltac:(tauto)) as (ch & St & Hd). rewrite (escape_value_det _ _ _ Hv Hd).
    rewrite Ee in St |- *. cbn [app tl] in St. cbn [app]. change (92 =? 0) with false. change (92 =? 92) with true. cbv iota.
    rewrite St, lower_decoded.
    replace (A ++ B ++ 92 :: (e' ++ p) ++ r) with (A ++ (B ++ 92 :: e') ++ p ++ r) by (rewrite <- ?app_assoc; cbn [app]; rewrite <- ?app_assoc; reflexivity).
    replace (blen A + blen B + blen (92 :: e' ++ p)) with (blen A + blen (B ++ 92 :: e') + blen p) by (rewrite !blen_app; cbn [blen]; rewrite blen_app; lia).
    rewrite IH; [now rewrite <- app_cons_assoc |]. rewrite Ee in Hf. cbn [app length] in Hf. rewrite app_length in Hf. lia.
Qed.

Lemma text_eqb_spec : forall a b, text_eqb a b = true <-> a = b.
Proof. intros a b. unfold text_eqb. destruct (list_eq_dec N.eq_dec a b); split; congruence. Qed.
Lemma text_eqb_refl : forall a, text_eqb a a = true. Proof. intro. now apply text_eqb_spec. Qed.
Lemma text_eqb_cons : forall c d a b, text_eqb (c :: a) (d :: b) = (c =? d) && text_eqb a b.
Proof.
  intros. apply Bool.eq_iff_eq_true. rewrite andb_true_iff, N.eqb_eq, !text_eqb_spec. split; [intro E; now inversion E | intros (-> & ->); reflexivity].
Qed.

Lemma eq_loop_spec : forall p post v, css_value false p post v -> ~ In 0 p -> forall fuel A B other, (length p < fuel)%nat ->
  eq_loop fuel false (A ++ B ++ p ++ post) (blen A) (blen A + blen B + blen p) (blen B) p other = Some (text_eqb v other).
Proof.
  intros p post v H. remember false as is_string eqn:Es.
  induction H as [r | c p r v Hc Hnl H IH | n p r v Hs Hn H IH | Hs | e p r c v Hs He Hv H IH]; intros H0 fuel A B other Hf;
    try congruence; (destruct fuel as [| fuel]; [lia |]); cbn [eq_loop].
  - destruct other as [| o other]; reflexivity.
  - cbn [length] in Hf. destruct other as [| o other]; [unfold text_eqb; destruct (list_eq_dec N.eq_dec _ []); [discriminate | reflexivity] |].
    apply not_in_cons in H0. destruct H0 as (Hc0 & H0). replace (c =? 0) with false by lia. replace (c =? 92) with false by lia.
    rewrite text_eqb_cons. unfold nul_fixed. replace (c =? 0) with false by lia.
    destruct (c =? o) eqn:Eo; cbn [negb andb]; [| reflexivity].
    replace (A ++ B ++ (c :: p) ++ r) with (A ++ (B ++ [c]) ++ p ++ r) by (rewrite <- !app_assoc; reflexivity).
    replace (blen B + len_utf8 c) with (blen (B ++ [c])) by (rewrite blen_app; cbn [blen]; lia).
    replace (blen A + blen B + blen (c :: p)) with (blen A + blen (B ++ [c]) + blen p) by (rewrite blen_app; cbn [blen]; lia).
    apply IH; auto. lia.
  - pose proof (escape_at_app _ _ _ He) as (_ & e' & Ee).
    destruct (step_escape is_string A B e p r c Hs He Hv ltac:(subst; discriminate)) as (ch & St & Hd). rewrite (escape_value_det _ _ _ Hv Hd).
    assert (Hch : ch <> 0).
    { intros ->. destruct (parse_escape_spec _ _ _ He) as (ch' & P1 & P2).
      apply escape_value_shape in Hd. destruct Hd as (x & Ex & Hd).
      assert (N0 : ~ In 0 e) by (intro I; apply H0; apply in_or_app; now left).
      assert (Eq0 : ch' = 0).
      { pose proof St as St'. unfold escape_step in St'. destruct is_string; [discriminate |].
        replace (blen A + (blen B + 1)) with (blen (A ++ B ++ [92])) in St' by (rewrite !blen_app; cbn; lia).
        replace (A ++ B ++ (e ++ p) ++ r) with ((A ++ B ++ [92]) ++ tl (e ++ p ++ r)) in St' at 1 by (rewrite Ee; cbn [app tl]; rewrite <- !app_assoc; reflexivity).
        rewrite drop_bytes_app, P1 in St'. destruct (slice _ _ _) in St'; [congruence | discriminate]. }
      subst ch'. rewrite Ee in P1. cbn [app tl] in P1.
      destruct (e' ++ p ++ r) as [| d y] eqn:Ey; [discriminate |]. cbn [parse_escape_sequence] in P1.
      destruct (is_ascii_hexdigit d) eqn:Eh; cbn [negb] in P1.
      - destruct (hex_loop 6 d y 0 0) as [[[value i] c'] r']. destruct ((value =? 0) || in_range 55296 57343 value) eqn:Ev; [discriminate |].
        unfold char_from_u32 in P1. destruct (valid_char value); [| discriminate]. assert (value = 0) by congruence. lia.
      - assert (d = 0) by congruence. subst d. destruct e' as [| d e'].
        + rewrite Ee in He. cbn [app] in He, Ey. rewrite Ey in He. remember (92 :: 0 :: y) as L. remember [92] as E1. remember (0 :: y) as R. destruct He; try congruence.
          destruct hs as [| h hs]; [cbn in H1; lia | discriminate].
        + cbn [app] in Ey. assert (d = 0) by congruence. subst d. apply N0. rewrite Ee. right. now left. }
    rewrite Ee in St |- *. cbn [app tl] in St. cbn [app]. change (92 =? 0) with false. change (92 =? 92) with true. cbv iota.
    destruct other as [| o other]; [unfold text_eqb; destruct (list_eq_dec N.eq_dec _ []); [discriminate | reflexivity] |].
    rewrite St, text_eqb_cons. unfold decoded. replace (ch =? 0) with false by lia. cbn [andb orb].
    destruct (ch =? o) eqn:Eo; cbn [negb andb]; [| reflexivity].
    replace (A ++ B ++ 92 :: (e' ++ p) ++ r) with (A ++ (B ++ 92 :: e') ++ p ++ r) by (rewrite <- ?app_assoc; cbn [app]; rewrite <- ?app_assoc; reflexivity).
    replace (blen A + blen B + blen (92 :: e' ++ p)) with (blen A + blen (B ++ 92 :: e') + blen p) by (rewrite !blen_app; cbn [blen]; rewrite blen_app; lia).
    apply IH; auto; [intro I; apply H0; apply in_or_app; now right |]. rewrite Ee in Hf. cbn [app length] in Hf. rewrite app_length in Hf. lia.
Qed.
