(* Writing tokens back: proofs for PropWrite.v (C32). *)
From Coq Require Import ZifyBool ZifyNat ZifyN.
From Verif Require Import Write SpecToken SpecLex SpecTrace SpecF32 SpecWrite LexBase TokenProofs KindProofs NumProofs DimProofs F32Proofs DisplayProofs LexProofs LexFacts LexTrace LexKinds LexProps LexProps2 LexProps3 CursorLex.
Open Scope N_scope.
Open Scope list_scope.
Ltac Zify.zify_post_hook ::= Z.div_mod_to_equations.

(* ---- displayed floats ---- *)
Definition sign_text (plus : bool) (bits : N) : list N := if N.testbit bits 31 then [45] else if plus then [43] else [].
Lemma land31 : forall x, N.land x 2147483647 = x mod 2147483648.
Proof. intro x. exact (land_mask 31 x). Qed.
Lemma testbit31 : forall x, x < 4294967296 -> N.testbit x 31 = (2147483648 <=? x).
Proof.
  intros x H. destruct (2147483648 <=? x) eqn:E.
  - rewrite N.testbit_true. change (2 ^ 31) with 2147483648. lia.
  - rewrite N.testbit_false. change (2 ^ 31) with 2147483648. lia.
Qed.
Lemma sign_text_opt : forall plus b, opt_sign (sign_text plus b).
Proof. intros plus b. unfold sign_text, opt_sign. destruct (N.testbit b 31), plus; auto. Qed.
Lemma display_spec : forall plus bits, finite_f32 bits -> exists w, display_f32 plus bits = sign_text plus bits ++ w /\ plain_magnitude w /\
  (length w <= 1000)%nat /\ parse_f32 (display_f32 plus bits) = bits.
Proof.
  intros plus bits (Hb & Hf). unfold display_f32. rewrite land31.
  destruct (magnitude_spec (Z.of_N (bits mod 2147483648))) as (A & L & P).
  { change f32_infinity with 2139095040%Z. change (2 ^ 31) with 2147483648 in Hf. change (255 * 2 ^ 23) with 2139095040 in Hf. lia. }
  change F32_INF with 2139095040%Z. change (2 ^ 31) with 2147483648 in Hf. change (255 * 2 ^ 23) with 2139095040 in Hf.
  replace (2139095040 <? Z.of_N (bits mod 2147483648))%Z with false by lia.
  exists (display_magnitude (Z.of_N (bits mod 2147483648))). split; [reflexivity |]. split; [exact A |]. split; [lia |].
  change (2 ^ 32) with 4294967296 in Hb.
  change (if N.testbit bits 31 then [45] else if plus then [43] else []) with (sign_text plus bits).
  rewrite P by apply sign_text_opt. unfold signed, sign_text. rewrite testbit31 by exact Hb. destruct (2147483648 <=? bits) eqn:E.
  - change (2 ^ 31)%Z with 2147483648%Z. destruct (list_eq_dec N.eq_dec [45] [45]); [lia | congruence].
  - destruct plus; [destruct (list_eq_dec N.eq_dec [43] [45]); [discriminate |] | destruct (list_eq_dec N.eq_dec [] [45]); [discriminate |]]; lia.
Qed.

(* ---- a displayed number is the longest number at its place ---- *)
Definition stops_number (r : list N) : Prop := ~ starts digit r /\ ~ dot_digit r /\ ~ starts_exp r.
Lemma displayed_longest : forall s w r, opt_sign s -> plain_magnitude w -> stops_number r -> longest_number ((s ++ w) ++ r) (s ++ w) r.
Proof.
  intros s w r Hs Hw (N1 & N2 & N3).
  assert (NX : ~ starts digit r) by exact N1.
  destruct Hw as [(Hn & Hd) | (i & f & -> & (Hi & Di) & (Hf & Df))].
  - assert (NP : num_parts ((s ++ w) ++ r) s w [] [] r).
    { constructor; cbn [app]; auto. now rewrite app_assoc. }
    apply parts_longest in NP. cbn [app] in NP. rewrite app_nil_r in NP. exact NP.
  - assert (NP : num_parts ((s ++ i ++ 46 :: f) ++ r) s i (46 :: f) [] r).
    { constructor; cbn [app]; auto.
      - rewrite <- !app_assoc. reflexivity.
      - rewrite starts_cons. unfold digit. lia.
      - right. exists f. repeat split; auto. }
    apply parts_longest in NP. rewrite app_nil_r in NP. exact NP.
Qed.
Lemma displayed_starts : forall s w r, opt_sign s -> plain_magnitude w -> would_start_number ((s ++ w) ++ r).
Proof.
  intros s w r Hs Hw. exists s. split; [exact Hs |]. exists (w ++ r). split; [now rewrite app_assoc |]. left.
  destruct Hw as [(Hn & Hd) | (i & f & -> & (Hi & Di) & _)].
  - destruct w as [| c w]; [congruence |]. inversion Hd; subst. exists c, (w ++ r). auto.
  - destruct i as [| c i]; [congruence |]. inversion Di; subst. exists c, ((i ++ 46 :: f) ++ r). auto.
Qed.
Lemma magnitude_ascii : forall w, plain_magnitude w -> Forall (fun c => c < 128) w.
Proof.
  intros w [(Hn & Hd) | (i & f & -> & (Hi & Di) & (Hf & Df))]; [now apply run_digit_ascii |].
  apply Forall_app. split; [now apply run_digit_ascii |]. constructor; [lia | now apply run_digit_ascii].
Qed.
Lemma sign_len : forall s, opt_sign s -> (length s <= 1)%nat.
Proof. intros s [-> | [-> | ->]]; cbn; lia. Qed.
Lemma displayed_blen : forall s w, opt_sign s -> plain_magnitude w -> (length w <= 1000)%nat -> blen (s ++ w) < 4096.
Proof.
  intros s w Hs Hw L. pose proof (sign_len s Hs). rewrite blen_ascii.
  - rewrite app_length. lia.
  - apply Forall_app. split; [now apply opt_sign_ascii | now apply magnitude_ascii].
Qed.
Lemma displayed_sign : forall s w r, opt_sign s -> plain_magnitude w -> is_sign (peek_nth ((s ++ w) ++ r) 0) = negb (match s with [] => true | _ => false end).
Proof.
  intros s w r Hs Hw. destruct Hs as [-> | [-> | ->]]; [| reflexivity | reflexivity]. cbn [app negb].
  assert (H : starts digit (w ++ r)).
  { destruct Hw as [(Hn & Hd) | (i & f & -> & (Hi & Di) & _)].
    - destruct w as [| c w]; [congruence |]. inversion Hd; subst. exists c, (w ++ r). auto.
    - destruct i as [| c i]; [congruence |]. inversion Di; subst. exists c, ((i ++ 46 :: f) ++ r). auto. }
  destruct H as (c & x & -> & D). rewrite peek0. unfold is_sign. unfold digit in D. lia.
Qed.

Lemma stops_stops : forall r, ~ starts number_continues r -> stops_number r /\ ~ starts (eq 37) r /\
  is_ident_start_sequence (peek_nth r 0) (peek_nth r 1) (peek_nth r 2) = false.
Proof.
  intros r H. repeat split.
  - intros (c & x & -> & D). apply H. exists c, x. split; [reflexivity |]. left. right. left. exact D.
  - intros (d & x & -> & D). apply H. exists 46, (d :: x). split; [reflexivity |]. unfold number_continues. tauto.
  - intros (x & y & -> & Hx). apply exponent_head in Hx. destruct Hx as (e & z & -> & Hx). apply H. exists e, (z ++ y). split; [reflexivity |].
    left. left. left. unfold letter, upper, lower. lia.
  - intros (c & x & -> & <-). apply H. exists 37, x. split; [reflexivity |]. unfold number_continues. tauto.
  - destruct (is_ident_start_sequence (peek_nth r 0) (peek_nth r 1) (peek_nth r 2)) eqn:E; [| reflexivity]. exfalso. apply H.
    apply start_sequence_sound in E. destruct E as [(c & x & -> & D) | [E | (x & -> & _)]].
    + exists c, x. split; [reflexivity |]. left. left. exact D.
    + destruct E as [-> | (c & x & -> & _)]; eexists _, _; (split; [reflexivity |]); unfold number_continues; tauto.
    + exists 45, x. split; [reflexivity |]. left. right. right. reflexivity.
Qed.

Lemma rewrite_number : forall f pre t r, tkind t = K_Number -> finite_f32 (tvalue t) -> ~ starts number_continues r ->
  forall o src, exists p t', write_str (Cursor o t) src = Some p /\ token_at f pre (p ++ r) t' /\
    tkind t' = K_Number /\ tvalue t' = tvalue t /\ tlen t' = blen p /\ has_sign t' = has_sign t || N.testbit (tvalue t) 31.
Proof.
  intros f pre t r K Fin NR o src. unfold write_str, write_pieces. cbn [ctok]. rewrite K. cbn [List.concat]. rewrite app_nil_r.
  destruct (display_spec (has_sign t) (tvalue t) Fin) as (w & E & Hw & Lw & Pv).
  destruct (stops_stops r NR) as (ST & N37 & NI).
  exists (display_f32 (has_sign t) (tvalue t)). rewrite E in *. pose proof (sign_text_opt (has_sign t) (tvalue t)) as Hs.
  pose proof (displayed_longest _ _ r Hs Hw ST) as HL. pose proof (displayed_starts _ _ r Hs Hw) as WS.
  destruct (scan_number f _ WS) as (t' & r' & Sc & V).
  { destruct (is_ident_start_sequence _ _ _) eqn:Q in |- *; [| reflexivity]. apply start_sequence_sound in Q. now apply number_not_ident in WS. }
  assert (Hne : (sign_text (has_sign t) (tvalue t) ++ w) ++ r <> []).
  { destruct WS as (s0 & Hs0 & r0 & E0 & H0). rewrite E0. destruct H0 as [(c & x & -> & _) | (x & -> & _)]; destruct s0; discriminate. }
  exists t'. split; [reflexivity |]. split; [now apply token_at_scan |].
  pose proof (displayed_blen _ _ Hs Hw Lw) as BL.
  destruct V as [p r0 fl v Hl Hf Hv Hq Hi | p r0 fl v Hl Hf Hv | p r1 fl v u n ps r0 Hl Hf Hv Hi Hp Hq Hu Hu'];
    destruct (longest_det _ _ _ _ _ HL Hl) as (<- & Er).
  - destruct (number_read fl (is_sign (peek_nth ((sign_text (has_sign t) (tvalue t) ++ w) ++ r) 0)) (blen (sign_text (has_sign t) (tvalue t) ++ w)) v) as (K' & L' & _ & _ & _ & S' & V'); [lia |].
    rewrite K', L', S', V', Hv. repeat split; [exact Pv |]. rewrite displayed_sign by assumption. unfold sign_text. destruct (N.testbit (tvalue t) 31), (has_sign t); reflexivity.
  - exfalso. apply N37. rewrite Er. exists 37, r0. auto.
  - exfalso. rewrite <- Er in Hi. congruence.
Qed.

(* ---- dimensions ---- *)
Lemma unit_text_spec : forall u, u <> U_Unknown -> u <> U_Svmin -> u <> U_Svmax -> unit_str u = name_of u /\ lower_text (unit_str u) = name_of u /\
  (u = U_Percent \/ (u <> U_Percent /\ Forall lower (unit_str u) /\ unit_str u <> [] /\ hd 0 (unit_str u) <> 68 /\ blen (unit_str u) < 4096 /\
     (hd 0 (unit_str u) = 101 -> exists x, nth_error (unit_str u) 1 = Some x /\ lower x))).
Proof.
  intros u N1 N2 N3.
  assert (F : forall l : list N, forallb (fun c => (97 <=? c) && (c <=? 122)) l = true -> Forall lower l).
  { intros l H. rewrite forallb_forall in H. apply Forall_forall. intros x I. specialize (H x I). unfold lower. lia. }
  destruct u; try congruence; (split; [reflexivity |]; split; [reflexivity |]);
    try (left; reflexivity); right; (split; [discriminate |]); (split; [apply F; reflexivity |]); (split; [discriminate |]); (split; [discriminate |]); (split; [reflexivity |]);
    try (intro Q; discriminate Q); intros _; cbn; eexists; (split; [reflexivity | unfold lower; lia]).
Qed.
Lemma plain_run_pieces : forall q r, Forall ident_cp q -> ~ starts ident_cp r -> ~ starts_escape r -> ident_pieces (q ++ r) (map Plain q) r.
Proof. induction q as [| c q IH]; intros r H N1 N2; cbn; [now constructor |]. inversion H; subst. constructor; auto. Qed.

Lemma rewrite_dimension : forall f pre t r, tkind t = K_Dimension -> dimension_unit t <> U_Unknown -> dimension_unit t <> U_Svmin -> dimension_unit t <> U_Svmax ->
  finite_f32 (tvalue t) -> ~ starts ident_cp r -> ~ starts_escape r ->
  forall o src, exists p t', write_str (Cursor o t) src = Some p /\ token_at f pre (p ++ r) t' /\
    tkind t' = K_Dimension /\ tvalue t' = tvalue t /\ dimension_unit t' = dimension_unit t /\ tlen t' = blen p /\ has_sign t' = N.testbit (tvalue t) 31.
Proof.
  intros f pre t r K N1 N2 N3 Fin NR1 NR2 o src.
  assert (EW : write_str (Cursor o t) src = Some (display_f32 false (tvalue t) ++ unit_str (dimension_unit t))).
  { unfold write_str, write_pieces. cbn [ctok]. rewrite K. destruct (dimension_unit t); try congruence; cbn [List.concat]; now rewrite app_nil_r. }
  rewrite EW. clear EW. remember (dimension_unit t) as u eqn:Eu. clear Eu.
  destruct (display_spec false (tvalue t) Fin) as (w & E & Hw & Lw & Pv).
  destruct (unit_text_spec u N1 N2 N3) as (EN & ELow & HU).
  assert (ST : stops_number (unit_str u ++ r)).
  { destruct HU as [-> | (NP & FL & Hne & _ & _ & HE)].
    - cbn. repeat split.
      + rewrite starts_cons. unfold digit. lia.
      + intros (d & x & Q & _). discriminate.
      + intros (x & y & Q & Hx). apply exponent_head in Hx. destruct Hx as (e & z & -> & Hx). inversion Q. lia.
    - destruct (unit_str u) as [| c q]; [congruence |]. cbn [hd nth_error] in HE. inversion FL; subst. cbn [app]. repeat split.
      + rewrite starts_cons. unfold digit. unfold lower in *. lia.
      + intros (d & x & Q & _). inversion Q. subst c. unfold lower in *. lia.
      + intros (x & y & Q & (e & s & d & -> & Hx & Hs & (Hd & Dd))). cbn [app] in Q. inversion Q; subst c.
        assert (He : e = 101) by (unfold lower in *; lia). subst e. destruct (HE eq_refl) as (b & Eb & Lb).
        destruct q as [| b' q]; [discriminate |]. cbn in Eb. inversion Eb; subst b'. cbn [app] in *.
        match goal with Q2 : b :: _ = _ |- _ => rename Q2 into QQ end.
        destruct Hs as [-> | [-> | ->]]; cbn in QQ; [| inversion QQ; subst; unfold lower in *; lia | inversion QQ; subst; unfold lower in *; lia].
        destruct d as [| d0 d]; [congruence |]. inversion Dd; subst. inversion QQ; subst. unfold lower, digit in *. lia. }
  pose proof (sign_text_opt false (tvalue t)) as Hs. rewrite E in *.
  set (sw := sign_text false (tvalue t) ++ w) in *. assert (Esw : sw = sign_text false (tvalue t) ++ w) by reflexivity.
  pose proof (displayed_longest _ _ _ Hs Hw ST) as HL. pose proof (displayed_starts _ _ (unit_str u ++ r) Hs Hw) as WS.
  pose proof (displayed_sign _ _ (unit_str u ++ r) Hs Hw) as SG. pose proof (displayed_blen _ _ Hs Hw Lw) as BL. fold sw in HL, WS, SG, BL.
  exists (sw ++ unit_str u). rewrite <- app_assoc.
  destruct (scan_number f _ WS) as (t' & r' & Sc & V).
  { destruct (is_ident_start_sequence _ _ _) eqn:Q in |- *; [| reflexivity]. apply start_sequence_sound in Q. now apply number_not_ident in WS. }
  assert (Hne : sw ++ unit_str u ++ r <> []).
  { destruct WS as (s0 & Hs0 & r0 & E0 & H0). rewrite E0. destruct H0 as [(c & x & -> & _) | (x & -> & _)]; destruct s0; discriminate. }
  exists t'. split; [reflexivity |]. split; [now apply token_at_scan |].
  assert (SGN : is_sign (peek_nth (sw ++ unit_str u ++ r) 0) = N.testbit (tvalue t) 31).
  { rewrite SG. unfold sign_text. destruct (N.testbit (tvalue t) 31); reflexivity. }
  destruct V as [p r0 fl v Hl Hf Hv Hq Hi | p r0 fl v Hl Hf Hv | p r1 fl v u' n ps r0 Hl Hf Hv Hi Hp Hq Hu Hu'];
    destruct (longest_det _ _ _ _ _ HL Hl) as (<- & Er).
  - exfalso. destruct HU as [-> | (NP & FL & Hun & _)].
    + apply Hq. rewrite <- Er. exists 37, r. auto.
    + destruct (unit_str u) as [| c q]; [congruence |]. rewrite <- Er in Hi. cbn [app] in Hi. inversion FL; subst. unfold is_ident_start_sequence in Hi. rewrite peek0 in Hi.
      replace (c =? 45) with false in Hi by (unfold lower in *; lia). apply orb_false_iff in Hi. destruct Hi as (Hi & _).
      assert (is_ident_start c = true); [| congruence]. apply is_ident_start_spec. split; [left; right; assumption | unfold lower in *; lia].
  - destruct (dimension_read fl (is_sign (peek_nth (sw ++ unit_str u ++ r) 0)) (blen sw) 1 v U_Percent) as (K' & _ & _ & _ & S' & V' & U' & _ & L'); [lia | discriminate |].
    destruct HU as [-> | (NP & FL & Hun & _)].
    + rewrite K', L', S', V', U', Hv, SGN, blen_app. repeat split. exact Pv.
    + exfalso. destruct (unit_str u) as [| c q]; [congruence |]. cbn [app] in Er. inversion Er; subst. inversion FL; subst. unfold lower in *. lia.
  - destruct HU as [-> | (NP & FL & Hun & Hhd & Hbl & _)].
    + exfalso. rewrite <- Er in Hi. cbn [app unit_str chars] in Hi. discriminate Hi.
    + assert (PP : ident_pieces (unit_str u ++ r) (map Plain (unit_str u)) r).
      { apply plain_run_pieces; auto. eapply Forall_impl; [| exact FL]. intros c Hc. left. left. right. exact Hc. }
      rewrite <- Er in Hp. destruct (ident_pieces_det _ _ _ Hp _ _ PP) as (-> & ->).
      rewrite (Hu' (unit_str u) u eq_refl N1 NP ELow Hhd) in *.
      destruct (dimension_read fl (is_sign (peek_nth (sw ++ unit_str u ++ r) 0)) (blen sw) n v u) as (K' & _ & _ & _ & S' & V' & U' & _ & L'); [lia | congruence |].
      rewrite K', L', S', V', U', Hv, SGN, blen_app. repeat split; [exact Pv |].
      destruct (unit_eqb u U_Unknown) eqn:Q; [apply unit_unknown in Q; congruence |]. now rewrite EN, name_len.
Qed.

(* ---- tokens written as spelled ---- *)
Lemma cursor_slice : forall pre p r t, tlen t = blen p -> blen pre <> DUMMY_OFFSET -> str_slice (Cursor (blen pre) t) (pre ++ p ++ r) = Some p.
Proof.
  intros pre p r t L D. unfold str_slice, span_contents, cspan, span_new, cend. cbn [coff ctok sstart send].
  replace (blen pre =? DUMMY_OFFSET) with false by lia. rewrite L. apply slice_app.
Qed.
Lemma delim_shape_char : forall f l t r, Forall (fun c => valid_char c = true) l -> delim_shape f l t r -> exists c, l = c :: r /\ tchar t = Some c.
Proof.
  intros f l t r V (c & -> & [I | (-> & _)]); exists c; (split; [reflexivity |]).
  - now apply constants_read.
  - inversion V; subst. now apply delim_read.
Qed.
Lemma view_write : forall f pre l t r, well_behaved (single_line_comments f) l -> Forall (fun c => valid_char c = true) l -> blen pre <> DUMMY_OFFSET ->
  scan_view f l t r -> verbatim t -> exists p, l = p ++ r /\ tlen t = blen p /\ write_str (Cursor (blen pre) t) (pre ++ l) = Some p.
Proof.
  intros f pre l t r WB VC D V (N1 & N2). destruct (view_extent f l t r V WB) as (p & E & Hp & L & K). pose proof (view_shape f l t r V WB) as S.
  exists p. split; [exact E |]. split; [exact L |]. pose proof (cursor_slice pre p r t L D) as SL. rewrite <- E in SL.
  assert (DL : delim_shape f l t r -> (match tchar t with Some ch => Some [[ch]] | None => None end) = Some [p]).
  { intro DS. destruct (delim_shape_char f l t r VC DS) as (c & El & ->). rewrite El in E. change (c :: r) with ([c] ++ r) in E. apply app_inv_tail in E. subst p. reflexivity. }
  unfold write_str, write_pieces. cbn [ctok]. unfold shape in S. destruct (tkind t) eqn:KT; try congruence; try (rewrite SL; cbn [List.concat]; now rewrite app_nil_r); try (rewrite DL by exact S; cbn [List.concat]; now rewrite app_nil_r).
  - destruct S as [(El & ->) | (El & ->)].
    + replace (is_cdc T_CDC) with true by reflexivity. rewrite El in E. change (45 :: 45 :: 62 :: r) with ([45; 45; 62] ++ r) in E. apply app_inv_tail in E. subst p. reflexivity.
    + replace (is_cdc T_CDO) with false by reflexivity. rewrite El in E. change (60 :: 33 :: 45 :: 45 :: r) with ([60; 33; 45; 45] ++ r) in E. apply app_inv_tail in E. subst p. reflexivity.
  - destruct (dimension_unit t) eqn:U; try (specialize (N2 eq_refl); congruence). rewrite SL. cbn [List.concat]. now rewrite app_nil_r.
Qed.
Lemma view_write_total : forall f pre l t r, well_behaved (single_line_comments f) l -> Forall (fun c => valid_char c = true) l -> blen pre <> DUMMY_OFFSET ->
  scan_view f l t r -> exists s, write_str (Cursor (blen pre) t) (pre ++ l) = Some s.
Proof.
  intros f pre l t r WB VC D V.
  destruct (view_extent f l t r V WB) as (p & E & Hp & L & K). pose proof (cursor_slice pre p r t L D) as SL. rewrite <- E in SL.
  assert (C : verbatim t \/ tkind t = K_Number \/ (tkind t = K_Dimension /\ dimension_unit t <> U_Unknown)).
  { unfold verbatim. destruct (tkind t) eqn:Q; try (left; split; congruence); [right; left; reflexivity |].
    destruct (dimension_unit t) eqn:QU; try (right; right; split; congruence). left; split; congruence. }
  destruct C as [C | [C | (C1 & C2)]].
  - destruct (view_write f pre l t r WB VC D V C) as (s & _ & _ & Hs). eauto.
  - unfold write_str, write_pieces. cbn [ctok]. rewrite C. eauto.
  - unfold write_str, write_pieces. cbn [ctok]. rewrite C1. destruct (dimension_unit t); try congruence; eauto.
Qed.
Lemma token_at_view : forall f pre l t, esc_ok l -> l <> [] -> token_at f pre l t -> exists r, scan_view f l t r.
Proof.
  intros f pre l t He Hn T. apply token_at_scan in T; [| exact Hn]. destruct (scan_spec f l Hn He) as (t' & r & E & V). rewrite E in T. inversion T; subst. eauto.
Qed.
Lemma token_at_nil : forall f pre t, token_at f pre [] t -> t = T_EOF.
Proof.
  intros f pre t T. destruct (T T_EOF) as (x' & E). unfold lexer_advance in E. cbn [lsrc loff lfeat] in E. rewrite read_at in E. now inversion E.
Qed.

Lemma verbatim_text : forall f pre l t, well_behaved (single_line_comments f) l -> Forall (fun c => valid_char c = true) l -> blen (pre ++ l) < 4294967295 ->
  token_at f pre l t -> verbatim t -> exists p r, l = p ++ r /\ tlen t = blen p /\ write_str (Cursor (blen pre) t) (pre ++ l) = Some p.
Proof.
  intros f pre l t WB VC B T VB. assert (D : blen pre <> DUMMY_OFFSET) by (rewrite blen_app in B; unfold DUMMY_OFFSET; lia).
  destruct l as [| c l].
  - apply token_at_nil in T. subst t. exists [], []. repeat split.
  - destruct (token_at_view f pre (c :: l) t (proj1 WB) ltac:(discriminate) T) as (r & V).
    destruct (view_write f pre _ t r WB VC D V VB) as (p & E & L & W). exists p, r. auto.
Qed.

Lemma trace_write : forall f o l cs, trace f o l cs -> forall pre, o = blen pre -> well_behaved (single_line_comments f) l -> Forall (fun c => valid_char c = true) l ->
  blen (pre ++ l) < 4294967295 ->
  exists texts, Forall2 (fun c p => slice (pre ++ l) (coff c) (coff c + tlen (ctok c)) = Some p /\
      (exists s, write_str c (pre ++ l) = Some s) /\ (verbatim (ctok c) -> write_str c (pre ++ l) = Some p)) cs texts /\ concat texts = l.
Proof.
  intros f o l cs T. induction T as [o | o p r t cs Hp Lt K S V T IH]; intros pre E WB VC B.
  - exists []. split; constructor.
  - pose proof WB as WB'. apply well_behaved_suffix in WB'. pose proof VC as VC'. apply Forall_app in VC'. destruct VC' as (_ & VC').
    destruct (IH (pre ++ p)) as (texts & F & C); auto.
    { rewrite E, blen_app. reflexivity. }
    { now rewrite <- app_assoc. }
    exists (p :: texts). split; [| cbn; now rewrite C]. rewrite <- app_assoc in F. constructor; [| exact F]. cbn [coff ctok].
    assert (D : blen pre <> DUMMY_OFFSET) by (rewrite blen_app in B; unfold DUMMY_OFFSET; lia).
    split; [| split].
    + rewrite Lt, E. apply slice_app.
    + rewrite E. now apply (view_write_total f pre (p ++ r) t r).
    + intro VB. rewrite E. destruct (view_write f pre (p ++ r) t r WB VC D V VB) as (q & Eq & _ & W). apply app_inv_tail in Eq. now subst q.
Qed.
Lemma source_write : forall src f, well_behaved (single_line_comments f) src -> Forall (fun c => valid_char c = true) src -> blen src < 4294967295 ->
  exists cs texts, lex src f = Some cs /\ concat texts = src /\
    Forall2 (fun c p => slice src (coff c) (coff c + tlen (ctok c)) = Some p /\ (exists s, write_str c src = Some s) /\
      (verbatim (ctok c) -> write_str c src = Some p)) cs texts.
Proof.
  intros src f WB VC B. destruct (lex_trace src f WB) as (cs & E & T). destruct (trace_write f 0 src cs T [] eq_refl WB VC B) as (texts & F & C). exists cs, texts. auto.
Qed.

(* ---- the sinks ---- *)
Lemma delivered_app_err : forall fa out h more, delivered fa out = (h, true) -> delivered fa (out ++ more) = (h, true).
Proof.
  intros [n |] out h more H; unfold delivered in *; [| discriminate]. apply pair_equal_spec in H. destruct H as (H1 & H2). rewrite <- H1. f_equal.
  - rewrite firstn_app. replace (S n - length out)%nat with 0%nat by lia. cbn [firstn]. now rewrite app_nil_r.
  - rewrite app_length. lia.
Qed.
Lemma delivered_all : forall fa out h, delivered fa out = (h, false) -> h = out /\ match fa with Some n => (length out <= n)%nat | None => True end.
Proof.
  intros [n |] out h H; unfold delivered in H; apply pair_equal_spec in H; destruct H as (H1 & H2); [| auto]. split; [| lia]. rewrite <- H1. apply firstn_all2. lia.
Qed.
Lemma put_delivered : forall fa out s, match fa with Some n => (length out <= n)%nat | None => True end ->
  put (Writer out fa) s = (Writer (out ++ [s]) fa, negb (snd (delivered fa (out ++ [s])))) /\ fst (delivered fa (out ++ [s])) = out ++ [s].
Proof.
  intros [n |] out s H; unfold put; cbn [fails_at handed delivered fst snd]; [| split; reflexivity]. split.
  - f_equal. f_equal. rewrite app_length. cbn [length]. lia.
  - apply firstn_all2. rewrite app_length. cbn [length]. lia.
Qed.
Lemma put_all_delivered : forall ps fa out, match fa with Some n => (length out <= n)%nat | None => True end ->
  put_all (Writer out fa) ps = (Writer (fst (delivered fa (out ++ ps))) fa, negb (snd (delivered fa (out ++ ps)))).
Proof.
  induction ps as [| s ps IH]; intros fa out H.
  - cbn [put_all]. rewrite app_nil_r. destruct fa as [n |]; cbn [delivered fst snd]; [| reflexivity]. rewrite firstn_all2 by lia. f_equal. lia.
  - cbn [put_all]. destruct (put_delivered fa out s H) as (-> & E). replace (out ++ s :: ps) with ((out ++ [s]) ++ ps) by (now rewrite <- app_assoc).
    destruct (delivered fa (out ++ [s])) as (h, b) eqn:D. cbn [fst snd] in *. subst h. destruct b; cbn [negb].
    + now rewrite (delivered_app_err _ _ _ ps D).
    + apply IH. now apply delivered_all in D.
Qed.
Definition sink_holds (s : fmt_sink) (out : list text) (last : option token) : Prop :=
  delivered (fails_at (fs_writer s)) out = (handed (fs_writer s), fs_err s) /\ (fs_err s = false -> fs_last s = last).
Lemma append_holds : forall s out last c ps, sink_holds s out last -> write_pieces c (fs_src s) = Some ps ->
  exists s', fmt_append s c = Some s' /\ fs_src s' = fs_src s /\ fails_at (fs_writer s') = fails_at (fs_writer s) /\
    sink_holds s' (out ++ separator_before last (ctok c) ++ ps) (Some (ctok c)).
Proof.
  intros s out last c ps (D & HL) W. unfold fmt_append. destruct (fs_err s) eqn:Er.
  - exists s. repeat split; [rewrite Er; now apply delivered_app_err | congruence].
  - specialize (HL eq_refl). pose proof (delivered_all _ _ _ D) as (Eh & Hn). rewrite HL, W. destruct s as [src [h fa] la er]. cbn [fs_src fs_writer fs_last fs_err fails_at handed] in *. subst h.
    set (sep := separator_before last (ctok c)).
    assert (EP : (match last with Some la => if needs_separator_for la (ctok c) then put (Writer out fa) [32] else (Writer out fa, true) | None => (Writer out fa, true) end)
      = put_all (Writer out fa) sep).
    { unfold sep, separator_before. destruct last as [la' |]; [| reflexivity]. destruct (needs_separator_for la' (ctok c)); [| reflexivity].
      cbn [put_all]. destruct (put (Writer out fa) [32]) as (w', b). now destruct b. }
    rewrite EP. clear EP. rewrite (put_all_delivered sep fa out Hn). destruct (delivered fa (out ++ sep)) as (h1, b1) eqn:D1. cbn [fst snd].
    replace (out ++ sep ++ ps) with ((out ++ sep) ++ ps) by (now rewrite app_assoc).
    destruct b1; cbn [negb].
    + eexists. split; [reflexivity |]. cbn [fs_src fs_writer fs_last fs_err fails_at handed]. split; [reflexivity |]. split; [reflexivity |]. split; [cbn [fs_src fs_writer fs_last fs_err fails_at handed]; now apply delivered_app_err | cbn; discriminate].
    + pose proof (delivered_all _ _ _ D1) as (E1 & Hn1). rewrite E1. rewrite (put_all_delivered ps fa _ Hn1). eexists. split; [reflexivity |].
      cbn [fs_src fs_writer fs_last fs_err fails_at handed]. repeat split. cbn. rewrite negb_involutive. now destruct (delivered fa ((out ++ sep) ++ ps)).
Qed.
Lemma append_all_holds : forall cs items s out last, sink_holds s out last ->
  Forall2 (fun c it => fst it = ctok c /\ write_pieces c (fs_src s) = Some (snd it)) cs items ->
  exists s', fmt_append_all s cs = Some s' /\ fs_src s' = fs_src s /\ fails_at (fs_writer s') = fails_at (fs_writer s) /\ exists last',
    sink_holds s' (out ++ joined last items) last'.
Proof.
  induction cs as [| c cs IH]; intros items s out last H F; inversion F; subst; cbn [fmt_append_all joined].
  - exists s. rewrite app_nil_r. repeat split; auto. exists last. exact H.
  - match goal with Q : fst ?y = _ /\ _ |- _ => destruct Q as (E1 & E2); destruct y as (t, ps); cbn in E1, E2; subst t end.
    destruct (append_holds s out last c ps H E2) as (s1 & -> & Es & Ef & H1).
    destruct (IH l' s1 (out ++ separator_before last (ctok c) ++ ps) (Some (ctok c)) H1) as (s2 & -> & Es2 & Ef2 & last' & H2).
    { now rewrite Es. }
    exists s2. repeat split; [congruence | congruence |]. exists last'. rewrite <- !app_assoc in H2. exact H2.
Qed.
Lemma sink_output : forall src cs items fa, Forall2 (fun c it => fst it = ctok c /\ write_pieces c src = Some (snd it)) cs items ->
  exists s, fmt_append_all (fmt_sink_new src (Writer [] fa)) cs = Some s /\ (handed (fs_writer s), fs_err s) = delivered fa (joined None items).
Proof.
  intros src cs items fa F. destruct (append_all_holds cs items (fmt_sink_new src (Writer [] fa)) [] None) as (s & E & _ & Ef & last' & (H & _)).
  - split; [| reflexivity]. destruct fa; reflexivity.
  - exact F.
  - exists s. split; [exact E |]. cbn in Ef. rewrite Ef in H. now rewrite <- H.
Qed.
Lemma fmt_text_joined : forall src cs items, Forall2 (fun c it => fst it = ctok c /\ write_str c src = Some (snd it)) cs items ->
  fmt_text src cs = Some (concat (joined None (map (fun it => (fst it, [snd it])) items))).
Proof.
  intros src cs items F.
  assert (P : exists its, Forall2 (fun c it => fst it = ctok c /\ write_pieces c src = Some (snd it)) cs its /\
    forall prev, concat (joined prev its) = concat (joined prev (map (fun it => (fst it, [snd it])) items))).
  { induction F as [| c (t, s) cs items (E1 & E2) F (its & FI & J)]; [exists []; split; [constructor | reflexivity] |].
    cbn in E1, E2. unfold write_str in E2. destruct (write_pieces c src) as [ps |] eqn:W; [| discriminate]. inversion E2. subst s t.
    exists ((ctok c, ps) :: its). split; [constructor; auto |]. intro prev. cbn [joined map fst snd]. rewrite !concat_app, J. cbn [concat]. now rewrite app_nil_r. }
  destruct P as (its & FI & J). destruct (sink_output src cs its None FI) as (s & E & D). unfold fmt_text. rewrite E.
  unfold delivered in D. apply pair_equal_spec in D. destruct D as (D & _). now rewrite D, J.
Qed.

Lemma vec_append_spec : forall v c, vec_append v c = v ++ (match rev v with la :: _ => if needs_separator_for (ctok la) (ctok c) then [SEPARATOR] else [] | [] => [] end) ++ [c].
Proof. intros v c. unfold vec_append. destruct (rev v) as [| la r]; [reflexivity |]. destruct (needs_separator_for (ctok la) (ctok c)); reflexivity. Qed.
Lemma last_rev : forall (v : list cursor) c, rev (v ++ [c]) = c :: rev v. Proof. intros. now rewrite rev_app_distr. Qed.
Lemma vec_append_all_spec : forall cs v, vec_append_all v cs = v ++ vec_joined SEPARATOR (match rev v with la :: _ => Some (ctok la) | [] => None end) cs.
Proof.
  induction cs as [| c cs IH]; intro v; cbn [vec_append_all fold_left vec_joined]; [now rewrite app_nil_r |].
  change (fold_left vec_append cs (vec_append v c)) with (vec_append_all (vec_append v c) cs). rewrite IH, vec_append_spec.
  rewrite app_assoc, last_rev, <- !app_assoc. f_equal. unfold separator_before. destruct (rev v) as [| la r]; [reflexivity |].
  destruct (needs_separator_for (ctok la) (ctok c)); reflexivity.
Qed.
Lemma separator_panics : forall src, blen src < DUMMY_OFFSET -> write_str SEPARATOR src = None.
Proof.
  intros src H. unfold write_str, write_pieces. change (tkind (ctok SEPARATOR)) with K_Whitespace. cbv iota beta.
  replace (str_slice SEPARATOR src) with (@None text); [reflexivity |]. symmetry.
  unfold str_slice, span_contents, cspan, span_new, cend. cbn [coff ctok SEPARATOR sstart send]. rewrite N.eqb_refl. unfold slice. rewrite N.ltb_irrefl.
  destruct (drop_bytes DUMMY_OFFSET src) as [r |] eqn:D; [| reflexivity]. apply drop_bytes_inv in D. destruct D as (a & -> & L). rewrite blen_app in H. lia.
Qed.
