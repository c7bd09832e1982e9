(* Selectors are read: the values of functional pseudo-classes and pseudo-elements. *)
From Coq Require Import ZifyBool ZifyNat ZifyN.
From Coq Require Import String.
From Coq Require Import List.
From Verif Require Import Selectors SpecLex SpecTrace SpecParser SpecSyntax SpecTraits SpecFeatures SpecSelectors SpecSelectorText SpecCursor SpecToken LexBase TokenProofs KindProofs LexFacts LexTrace CursorProofs
  ParserProofs ParserProofs2 ParserProofs3 ParserProofs4 CompareProofs SyntaxProofs SyntaxTotal TraitsTotal RulesTotal FeatureProofs FeatureProofs2 FeatureProofs3 FeatureProofs4 FeatureProofs5 FeatureProofs6 SelectorProofs SelectorProofs2 SelectorProofs3 SelectorProofs4 SelectorProofs5 SelectorProofs6 SelectorProofs7 SelectorProofs8 SelectorProofs9 SelectorGoes SelectorGoes2 SelectorGoes3 SelectorGoes4.
Open Scope N_scope.
Open Scope list_scope.

Lemma solid_comma : solid_kind K_Comma.
Proof. repeat split; discriminate. Qed.
Lemma solid_paren : solid_kind K_RightParen.
Proof. repeat split; discriminate. Qed.
Lemma peek_kind_yes : forall k p g c rest, ready p -> ahead (plex p) (g ++ c :: rest) -> gap g -> kind_of c = k -> solid_kind k -> peek (peek_kind k) p = Some true.
Proof. intros k p g c rest R A G K Sk. rewrite (peek_at _ p g c rest R A G (solid_of c k K Sk)). unfold peek_kind. f_equal. apply tok_kind; [exact K | apply Sk]. Qed.
Lemma peek_kind_no : forall k p g c rest, ready p -> ahead (plex p) (g ++ c :: rest) -> gap g -> solid c -> kind_of c <> k -> kind_of c <> K_Eof -> peek (peek_kind k) p = Some false.
Proof. intros k p g c rest R A G Sc K Ne. rewrite (peek_at _ p g c rest R A G Sc). unfold peek_kind. f_equal. now apply tok_not. Qed.
(* ---- :lang() ---- *)
Lemma lang_value_goes : forall p g c rest o more, ready p -> ahead (plex p) (g ++ c :: rest) -> gap g -> value_kind c ->
  (forall q, ahead (plex q) rest -> ready q -> goes (if_kind K_Comma) q o more) -> goes parse_lang_value p (c, o) more.
Proof.
  intros p g c rest o more R A G K H. unfold parse_lang_value. assert (Gv : goes (or_peek (peek_kind K_Ident) (parse_kind K_Ident) (parse_kind K_String)) p c rest).
  { destruct K as [K | K].
    - eapply goes_or; [exact (peek_kind_yes K_Ident p g c rest R A G K solid_ident) |]. exact (kind_goes K_Ident p g c rest R A G K solid_ident).
    - assert (Sk : solid_kind K_String) by (repeat split; discriminate). eapply goes_or; [apply (peek_kind_no K_Ident p g c rest R A G (solid_of c _ K Sk)); congruence |]. exact (kind_goes K_String p g c rest R A G K Sk). }
  eapply goes_bind; [exact Gv |]. intros q _ Aq _ Rq. cbv beta. apply goes_map. now apply H.
Qed.
Lemma lang_head : forall l toks, lang_laid l toks -> exists g c r, toks = g ++ c :: r /\ gap g /\ value_kind c.
Proof. intros l toks [g c G K | g c g' comma l' toks' G K G' Kc L]; eauto 10. Qed.
Lemma lang_goes : forall l toks, lang_laid l toks -> forall n p g close rest, ready p -> ahead (plex p) (toks ++ g ++ close :: rest) -> gap g -> kind_of close = K_RightParen -> (length l <= n)%nat ->
  goes (lang_loop n) p l (g ++ close :: rest).
Proof.
  intros l toks L. induction L as [g0 c G0 K | g0 c g' comma l toks G0 K G' Kc L IH]; intros n p g close rest R A G Kp Hn; (destruct n as [| n]; [cbn in Hn; lia |]); cbn [lang_loop].
  - rewrite <- app_assoc in A. cbn [app] in A. eapply goes_bind.
    + apply (lang_value_goes p g0 c _ None (g ++ close :: rest) R A G0 K). intros q Aq Rq. apply goes_if_not; [| exact Rq | exact Aq].
      apply (peek_kind_no K_Comma q g close rest Rq Aq G (solid_of close _ Kp solid_paren)); congruence.
    + intros q _ Aq _ Rq. cbv beta. eapply goes_or; [exact (peek_kind_yes K_RightParen q g close rest Rq Aq G Kp solid_paren) |]. now apply goes_ret.
  - rewrite <- app_assoc in A. cbn [app] in A. rewrite <- app_assoc in A. cbn [app] in A. eapply goes_bind.
    + apply (lang_value_goes p g0 c _ (Some comma) (toks ++ g ++ close :: rest) R A G0 K). intros q Aq Rq. exact (if_kind_goes K_Comma q g' comma _ Rq Aq G' Kc solid_comma).
    + intros q _ Aq _ Rq. cbv beta. destruct (lang_head l toks L) as (g1 & c1 & r1 & E1 & G1 & K1).
      assert (Pk : peek (peek_kind K_RightParen) q = Some false).
      { rewrite E1, <- app_assoc in Aq. cbn [app] in Aq. apply (peek_kind_no K_RightParen q g1 c1 _ Rq Aq G1 (value_solid c1 K1)); destruct K1; congruence. }
      eapply goes_or; [exact Pk |]. apply goes_map. apply (IH n q g close rest Rq Aq G Kp). cbn in Hn. lia.
Qed.
Lemma lang_length : forall l toks, lang_laid l toks -> (length l <= length toks)%nat.
Proof. intros l toks L. induction L; cbn [length]; rewrite ?app_length; cbn [length]; rewrite ?app_length; cbn [length]; lia. Qed.
(* ---- ::part() ---- *)
Lemma part_goes : forall l toks, idents_laid l toks -> forall n p g close rest, ready p -> ahead (plex p) (toks ++ g ++ close :: rest) -> gap g -> kind_of close = K_RightParen -> (length l < n)%nat ->
  goes (part_loop n) p l (g ++ close :: rest).
Proof.
  intros l toks L. induction L as [| g0 c l toks G0 K L IH]; intros n p g close rest R A G Kp Hn; (destruct n as [| n]; [cbn in Hn; lia |]); cbn [part_loop].
  - cbn [app] in A. eapply goes_or; [exact (peek_kind_yes K_RightParen p g close rest R A G Kp solid_paren) |]. now apply goes_ret.
  - rewrite <- app_assoc in A. cbn [app] in A. eapply goes_or; [apply (peek_kind_no K_RightParen p g0 c _ R A G0 (solid_of c _ K solid_ident)); congruence |].
    eapply goes_bind; [exact (kind_goes K_Ident p g0 c _ R A G0 K solid_ident) |]. intros q _ Aq _ Rq. cbv beta. apply goes_map. apply (IH n q g close rest Rq Aq G Kp). cbn in Hn. lia.
Qed.
Lemma idents_length : forall l toks, idents_laid l toks -> (length l <= length toks)%nat.
Proof. intros l toks L. induction L; cbn [length]; rewrite ?app_length; cbn [length]; lia. Qed.
(* ---- :nth-child() and the like ---- *)
Lemma str_lower_goes : forall p c w rest, ready p -> ahead (plex p) rest -> parse_str_lower c (lsrc (plex p)) = Some w -> goes (p_str_lower c) p w rest.
Proof. intros p c w rest R A E. exists p. unfold p_str_lower. rewrite E. split; [reflexivity |]. split; [exact A |]. split; [apply mode_refl | exact R]. Qed.
Lemma solid_number : solid_kind K_Number.
Proof. repeat split; discriminate. Qed.
Lemma nth_word_goes : forall p g c rest x w, ready p -> ahead (plex p) (g ++ c :: rest) -> gap g -> kind_of c = K_Ident -> parse_str_lower c (lsrc (plex p)) = Some w ->
  (w = chars "even" /\ x = NthEven c \/ w = chars "odd" /\ x = NthOdd c) -> goes parse_nth p x rest.
Proof.
  intros p g c rest x w R A G K Ew H. unfold goes, parse_nth. rewrite (peek_kind_no K_Number p g c rest R A G (solid_of c _ K solid_ident)) by congruence. rewrite (peek_kind_yes K_Ident p g c rest R A G K solid_ident).
  match goal with |- exists q, ?m p = _ /\ _ => change (goes m p x rest) end.
  eapply goes_bind; [exact (kind_goes K_Ident p g c rest R A G K solid_ident) |]. intros q _ Aq Sq Rq. cbv beta.
  eapply goes_bind; [apply (str_lower_goes q c w rest Rq Aq); rewrite (ahead_src _ _ Sq); exact Ew |]. intros q2 _ A2 _ R2. cbv beta.
  destruct H as [(-> & ->) | (-> & ->)]; [change (text_eqb (chars "even") (chars "even")) with true | change (text_eqb (chars "odd") (chars "even")) with false; change (text_eqb (chars "odd") (chars "odd")) with true]; now apply goes_ret.
Qed.
Lemma nth_integer_goes : forall p g c rest, ready p -> ahead (plex p) (g ++ c :: rest) -> gap g -> kind_of c = K_Number -> is_int (ctok c) = true -> goes parse_nth p (NthInteger c) rest.
Proof.
  intros p g c rest R A G K Hi. unfold goes, parse_nth. rewrite (peek_kind_yes K_Number p g c rest R A G K solid_number). change (goes (pmap NthInteger parse_css_int) p (NthInteger c) rest). apply goes_map.
  apply (single_goes _ _ (fun c => c) p g c rest R A G (solid_of c _ K solid_number)). unfold peek_css_int. rewrite (tok_kind K_Number c K ltac:(discriminate)), Hi. reflexivity.
Qed.
