(* Selectors are read: the choice between the components. *)
From Coq Require Import ZifyBool ZifyNat ZifyN.
From Coq Require Import String.
From Coq Require Import List.
From Verif Require Import Selectors SpecLex SpecTrace SpecParser SpecSyntax SpecTraits SpecFeatures SpecSelectors SpecSelectorText SpecCursor SpecToken LexBase TokenProofs KindProofs LexFacts LexTrace CursorProofs
  ParserProofs ParserProofs2 ParserProofs3 ParserProofs4 CompareProofs SyntaxProofs SyntaxTotal TraitsTotal RulesTotal FeatureProofs FeatureProofs2 FeatureProofs3 FeatureProofs4 FeatureProofs5 FeatureProofs6 SelectorProofs SelectorProofs2 SelectorProofs3 SelectorProofs4 SelectorProofs5 SelectorProofs6 SelectorProofs7 SelectorProofs8 SelectorProofs9 SelectorGoes SelectorGoes2 SelectorGoes3 SelectorGoes4 SelectorGoes5.
Open Scope N_scope.
Open Scope list_scope.

Lemma not_comment : forall c, kind_of c <> K_Comment -> ~ in_kinds KS_COMMENTS c.
Proof. intros c K H. apply in_comments in H. contradiction. Qed.
Lemma vis1 : forall p c rest, ahead (plex p) (c :: rest) -> kind_of c <> K_Comment -> peek_n (set_skip p KS_COMMENTS) 1 = Some c.
Proof. intros p c rest A K. rewrite (peek_n_spec (set_skip p KS_COMMENTS) (c :: rest) 1 A) by lia. cbn [pskip set_skip]. rewrite kept_cons by now apply not_comment. reflexivity. Qed.
Lemma vis2 : forall p c d rest, ahead (plex p) (c :: d :: rest) -> kind_of c <> K_Comment -> kind_of d <> K_Comment -> peek_n (set_skip p KS_COMMENTS) 2 = Some d.
Proof. intros p c d rest A K K'. rewrite (peek_n_spec (set_skip p KS_COMMENTS) _ 2 A) by lia. cbn [pskip set_skip]. rewrite !kept_cons by now apply not_comment. reflexivity. Qed.
Lemma vis3 : forall p c d e rest, ahead (plex p) (c :: d :: e :: rest) -> kind_of c <> K_Comment -> kind_of d <> K_Comment -> kind_of e <> K_Comment -> peek_n (set_skip p KS_COMMENTS) 3 = Some e.
Proof. intros p c d e rest A K K' K''. rewrite (peek_n_spec (set_skip p KS_COMMENTS) _ 3 A) by lia. cbn [pskip set_skip]. rewrite !kept_cons by now apply not_comment. reflexivity. Qed.
(* no '|' follows *)
Lemma vis_no_pipe : forall p c rest, ahead (plex p) (c :: rest) -> kind_of c <> K_Comment -> no_pipe rest -> exists d, peek_n (set_skip p KS_COMMENTS) 2 = Some d /\ tok_is_char (ctok d) 124 = false.
Proof.
  intros p c rest A K NP. rewrite (peek_n_spec (set_skip p KS_COMMENTS) _ 2 A) by lia. cbn [pskip set_skip]. rewrite kept_cons by now apply not_comment. change (N.to_nat 2 - 1)%nat with 1%nat. cbn [nth]. eexists. split; [reflexivity |].
  destruct (skip_split KS_COMMENTS rest) as (sk & r & -> & F & St). rewrite kept_skipped by exact F. destruct r as [| d r]; [reflexivity |]. rewrite kept_cons by exact St. cbn [nth].
  destruct (tok_is_char (ctok d) 124) eqn:B; [| reflexivity]. apply tok_is_char_spec in B. exfalso. apply (NP sk d r eq_refl); [| | exact B].
  - eapply Forall_impl; [| exact F]. intros x H. now apply in_comments.
  - intro Kd. apply St. now apply in_comments.
Qed.
Lemma back_from : forall s p q used rest, ready p -> ahead (plex p) (used ++ rest) -> ahead (plex q) rest -> same_mode (set_skip p s) q -> same_mode p (set_skip q (pskip p)) /\ ready (set_skip q (pskip p)).
Proof.
  intros s p q used rest R A A' S. assert (S' : same_mode p (set_skip q (pskip p))) by (destruct S as (a & b & c & d & e); repeat split; assumption). split; [exact S' |].
  exact (ready_moved 0 p _ R (moved_of p (set_skip q (pskip p)) used rest A A' S')).
Qed.
Lemma take_goes : forall C (pk : peeker) (build : parser -> cursor -> option C) code p c rest x, ready p -> ahead (plex p) (c :: rest) -> kind_of c <> K_Comment ->
  (forall q, lsrc (plex q) = lsrc (plex p) -> pk q c = Some true /\ build q c = Some x) -> goes (fun p => take_component (pskip p) pk build code (set_skip p KS_COMMENTS)) p x rest.
Proof.
  intros C pk build code p c rest x R A K H. destruct (next_token (set_skip p KS_COMMENTS) [] c rest A (Forall_nil _) (not_comment c K)) as (q & N & T & A'). unfold goes, take_component. rewrite N.
  destruct (back_from KS_COMMENTS p q [c] rest R A A' (took_mode _ _ _ T)) as (S & Rq). destruct (H (set_skip q (pskip p)) (ahead_src _ _ S)) as (-> & ->). eexists. split; [reflexivity |]. auto.
Qed.
Section Steps.
  Context (sub : P component_ast).
  Let s := css_parts sub.
  Lemma id_step : forall p c rest, ready p -> ahead (plex p) (c :: rest) -> kind_of c = K_Hash -> hash_is_id_like (ctok c) = true -> goes (component_t s) p (SId c) rest.
  Proof.
    intros p c rest R A K Hh. assert (G := take_goes _ (sp_id_peek s) (sp_id s) E_UNEXPECTED_ID p c rest (SId c) R A ltac:(congruence)). unfold goes, component_t in *. cbv zeta. rewrite (vis1 p c rest A) by congruence. unfold kind_of in K. rewrite K, Hh. apply G.
    intros q _. split; [| reflexivity]. unfold s. cbn [css_parts sp_id_peek]. unfold peek_kind. f_equal. apply tok_kind; [exact K | discriminate].
  Qed.
  Lemma tag_step : forall p t rest, ready p -> ahead (plex p) (tag_cursor t :: rest) -> tag_phrase (lsrc (plex p)) t -> no_pipe rest -> goes (component_t s) p (STag t) rest.
  Proof.
    intros p t rest R A Pt NP. pose proof Pt as (K & _). assert (G := take_goes _ (sp_type_peek s) (sp_type s) E_UNEXPECTED_TAG p (tag_cursor t) rest (STag t) R A ltac:(congruence)).
    destruct (vis_no_pipe p _ rest A ltac:(congruence) NP) as (d & Ed & Bd). unfold goes, component_t in *. cbv zeta. rewrite (vis1 p _ rest A) by congruence. unfold kind_of in K. rewrite K, Ed, Bd. apply G.
    intros q Sq. unfold s. cbn [css_parts sp_type_peek sp_type]. split; [unfold peek_tag, peek_kind; f_equal; apply tok_kind; [exact K | discriminate] |]. rewrite build_tag_goes by (rewrite Sq; exact Pt). reflexivity.
  Qed.
  Lemma class_step : forall p dot name rest, ready p -> ahead (plex p) (dot :: name :: rest) -> is_delim 46 dot -> kind_of name = K_Ident -> goes (component_t s) p (SClass dot name) rest.
  Proof.
    intros p dot name rest R A D K. assert (Kd : kind_of dot = K_Delim) by apply D. assert (G := goes_map _ _ (fun x => SClass (fst x) (snd x)) _ p _ rest (class_goes p dot name rest R A D K)). cbn [fst snd] in G.
    unfold goes, component_t. cbv zeta. rewrite (vis1 p _ _ A) by congruence. rewrite (vis2 p _ _ _ A) by congruence. unfold kind_of in Kd, K. rewrite Kd, (proj2 D), K. cbn [N.eqb Pos.eqb]. exact G.
  Qed.
  Lemma wildcard_step : forall p c rest, ready p -> ahead (plex p) (c :: rest) -> is_delim 42 c -> no_pipe rest -> goes (component_t s) p (SWildcard c) rest.
  Proof.
    intros p c rest R A D NP. assert (Kd : kind_of c = K_Delim) by apply D. destruct (vis_no_pipe p _ rest A ltac:(congruence) NP) as (d & Ed & Bd).
    destruct (next_token p [] c rest A (Forall_nil _) (solid_kinds p c R (delim_solid _ _ D))) as (q & N & T & A').
    unfold goes, component_t. cbv zeta. rewrite (vis1 p _ _ A) by congruence. rewrite Ed. unfold kind_of in Kd. rewrite Kd, (proj2 D), Bd. cbn [N.eqb Pos.eqb]. rewrite N. exists q. split; [reflexivity |]. split; [exact A' |].
    split; [exact (took_mode _ _ _ T) | exact (ready_spent _ _ _ R (took_spent _ _ _ T))].
  Qed.
  Lemma combinator_step : forall p x rest, ready p -> ahead (plex p) (combinator_cursors x ++ rest) -> combinator_phrase x -> (forall w, x <> CDescendant w) -> goes (component_t s) p (SCombinator x) rest.
  Proof.
    intros p x rest R A Px Nd. assert (G := goes_map _ _ SCombinator _ p _ rest (combinator_goes p x rest R A Px Nd)).
    assert (H : exists c r ch, combinator_cursors x ++ rest = c :: r /\ is_delim ch c /\ (ch =? 46) = false /\ (ch =? 42) = false).
    { destruct x as [c | c | c | a b | c | c]; cbn [combinator_cursors combinator_phrase app] in *; [eauto 10 .. | |]; [| eauto 10 | elim (Nd c eq_refl)]. destruct Px as (Da & _). eauto 10. }
    destruct H as (c & r & ch & E & D & N1 & N2). rewrite E in A. assert (Kd : kind_of c = K_Delim) by apply D.
    unfold goes, component_t. cbv zeta. rewrite (vis1 p _ _ A) by congruence. unfold kind_of in Kd. rewrite Kd, (proj2 D), N1, N2. exact G.
  Qed.
  Lemma attribute_step : forall p a toks rest, ready p -> ahead (plex p) (toks ++ rest) -> attribute_laid (lsrc (plex p)) a toks -> goes (component_t s) p (SAttribute a) rest.
  Proof.
    intros p a toks rest R A La. assert (G := goes_map _ _ SAttribute _ p _ rest (attribute_goes a p toks rest R A La)).
    destruct La as ((Ko & _) & _ & g1 & g2 & g3 & g4 & g5 & close & _ & _ & _ & _ & _ & _ & ->). cbn [app] in A. unfold goes, component_t. cbv zeta. rewrite (vis1 p _ _ A) by congruence. unfold kind_of in Ko. rewrite Ko. exact G.
  Qed.
  Lemma namespace_step : forall p x rest, ready p -> ahead (plex p) (namespace_cursors x ++ rest) -> fst x <> None -> (forall pipe, fst x <> Some (PNone pipe)) -> namespace_phrase (lsrc (plex p)) x ->
    goes (component_t s) p (SNamespace x) rest.
  Proof.
    intros p x rest R A N1 N2 Px. assert (G := goes_map _ _ SNamespace _ p _ rest (namespace_goes p x rest R A N1 N2 Px)). destruct x as (pre & tag). unfold namespace_cursors in A. cbn [fst snd] in *.
    destruct Px as (Pp & _). cbn [fst snd] in Pp. destruct pre as [[pipe | i pipe | st pipe] |]; [elim (N2 pipe eq_refl) | | | congruence]; cbn [prefix_cursors app] in A.
    - destruct Pp as (Ki & Dp & _). assert (Kp : kind_of pipe = K_Delim) by apply Dp. unfold goes, component_t. cbv zeta. rewrite (vis1 p _ _ A) by congruence. rewrite (vis2 p _ _ _ A) by congruence. unfold kind_of in Ki. rewrite Ki, (char_of 124 pipe 124 Dp). cbn [N.eqb Pos.eqb]. exact G.
    - destruct Pp as (Ds & Dp & _). assert (Ks : kind_of st = K_Delim) by apply Ds. assert (Kp : kind_of pipe = K_Delim) by apply Dp. unfold goes, component_t. cbv zeta. rewrite (vis1 p _ _ A) by congruence. rewrite (vis2 p _ _ _ A) by congruence.
      unfold kind_of in Ks. rewrite Ks, (proj2 Ds), (char_of 124 pipe 124 Dp). cbn [N.eqb Pos.eqb]. exact G.
  Qed.
  Lemma second_at : forall p c d rest, ready p -> ahead (plex p) (c :: d :: rest) -> solid c -> solid d -> peek_n p 2 = Some d.
  Proof. intros p c d rest R A Sc Sd. rewrite (peek_n_spec p _ 2 A) by lia. rewrite !kept_cons by (apply (solid_kinds p _ R); assumption). reflexivity. Qed.
  Lemma pseudo_step : forall p colon ident rest w, ready p -> ahead (plex p) (colon :: ident :: rest) -> kind_of colon = K_Colon -> kind_of ident = K_Ident -> parse_str_lower ident (lsrc (plex p)) = Some w ->
    (In w LEGACY_PSEUDO_ELEMENTS -> goes (component_t s) p (SLegacy (w, (colon, ident))) rest) /\
    (~ In w LEGACY_PSEUDO_ELEMENTS -> forall v, In w (vendor_classes v) -> goes (component_t s) p (SPseudoClass (v, (w, (colon, ident)))) rest).
  Proof.
    intros p colon ident rest w R A Kc Ki Ew.
    assert (E : component_t s p = if existsb (text_eqb w) LEGACY_PSEUDO_ELEMENTS then sp_legacy s p else sp_pseudo_class s p).
    { unfold component_t. cbv zeta. rewrite (vis1 p _ _ A) by congruence. rewrite (vis2 p _ _ _ A) by congruence. unfold kind_of in Kc, Ki. rewrite Kc, Ki. unfold s at 1. cbn [css_parts sp_legacy_peek]. unfold peek_pseudo_class.
      rewrite (second_at p colon ident rest R A (solid_of _ _ Kc solid_colon) (solid_of _ _ Ki solid_ident)), (tok_kind K_Colon colon Kc ltac:(discriminate)). unfold peek_set, look_up. rewrite (tok_kind K_Ident ident Ki ltac:(discriminate)), Ew.
      pose proof (words_get LEGACY_PSEUDO_ELEMENTS w) as G. destruct (map_get (words LEGACY_PSEUDO_ELEMENTS) w) as [x |].
      - destruct G as (_ & I). apply existsb_text in I. rewrite I. reflexivity.
      - destruct (existsb (text_eqb w) LEGACY_PSEUDO_ELEMENTS) eqn:B; [apply existsb_text in B; contradiction | reflexivity]. }
    unfold goes. rewrite E. split; intro I.
    - apply existsb_text in I. rewrite I. apply existsb_text in I. exact (goes_map _ _ SLegacy _ p _ rest (proj1 (pseudo_goes LEGACY_PSEUDO_ELEMENTS p colon ident rest w R A Kc Ki Ew) I)).
    - intros v Iv. destruct (existsb (text_eqb w) LEGACY_PSEUDO_ELEMENTS) eqn:B; [apply existsb_text in B; contradiction |]. exact (goes_map _ _ SPseudoClass _ p _ rest (pseudo_class_goes colon ident rest w Kc Ki v p (conj R (conj A Ew)) Iv)).
  Qed.
  Lemma element_step : forall p c1 c2 ident rest w v, ready p -> ahead (plex p) (c1 :: c2 :: ident :: rest) -> kind_of c1 = K_Colon -> kind_of c2 = K_Colon -> kind_of ident = K_Ident -> parse_str_lower ident (lsrc (plex p)) = Some w ->
    In w (vendor_elements v) -> goes (component_t s) p (SPseudoElement (v, (w, ((c1, c2), ident)))) rest.
  Proof.
    intros p c1 c2 ident rest w v R A K1 K2 Ki Ew I. assert (G := goes_map _ _ SPseudoElement _ p _ rest (pseudo_element_goes c1 c2 ident rest w K1 K2 Ki v p (conj R (conj A Ew)) I)).
    unfold goes, component_t. cbv zeta. rewrite (vis1 p _ _ A) by congruence. rewrite (vis2 p _ _ _ A) by congruence. rewrite (vis3 p _ _ _ _ A) by congruence. unfold kind_of in K1, K2, Ki. rewrite K1, K2, Ki. exact G.
  Qed.
  Lemma functional_class_step : forall p colon function rest x rest', ready p -> ahead (plex p) (colon :: function :: rest) -> kind_of colon = K_Colon -> kind_of function = K_Function ->
    goes (parse_functional_class (selector_list_t (compound_t sub))) p x rest' -> goes (component_t s) p x rest'.
  Proof.
    intros p colon function rest x rest' R A Kc Kf G. unfold goes, component_t. cbv zeta. rewrite (vis1 p _ _ A) by congruence. rewrite (vis2 p _ _ _ A) by congruence. unfold kind_of in Kc, Kf. rewrite Kc, Kf. exact G.
  Qed.
  Lemma functional_element_step : forall p c1 c2 function rest x rest', ready p -> ahead (plex p) (c1 :: c2 :: function :: rest) -> kind_of c1 = K_Colon -> kind_of c2 = K_Colon -> kind_of function = K_Function ->
    goes (parse_functional_element (compound_t sub)) p x rest' -> goes (component_t s) p x rest'.
  Proof.
    intros p c1 c2 function rest x rest' R A K1 K2 Kf G. unfold goes, component_t. cbv zeta. rewrite (vis1 p _ _ A) by congruence. rewrite (vis2 p _ _ _ A) by congruence. rewrite (vis3 p _ _ _ _ A) by congruence. unfold kind_of in K1, K2, Kf. rewrite K1, K2, Kf. exact G.
  Qed.
  (* whitespace *)
  Lemma descendant_step : forall p w more c rest, ready p -> ahead (plex p) (w :: more ++ c :: rest) -> white_token w -> Forall white_token more -> solid c -> goes (component_t s) p (SCombinator (CDescendant w)) (c :: rest).
  Proof.
    intros p w more c rest R A Kw Fm Sc. unfold white_token in Kw. set (p1 := set_skip p KS_COMMENTS).
    assert (St : ~ in_kinds (pskip p1) w) by (apply not_comment; congruence).
    assert (Pk : forall k, peek k p1 = k p1 w) by (intro k; unfold peek; now rewrite (peek_next_spec p1 [] (w :: more ++ c :: rest) A (Forall_nil _) St)).
    assert (Nd : forall ch, peek (peek_delim ch) p1 = Some false) by (intro ch; rewrite Pk; unfold peek_delim; now rewrite (tok_not K_Delim w) by congruence).
    assert (Np : peek (peek_double 124 124) p1 = Some false).
    { rewrite Pk. unfold peek_double. rewrite (sign_char p _ w 124 R A); [reflexivity | now left | congruence | cbn; intuition discriminate]. }
    destruct (next_token (set_skip p1 KS_COMMENTS) [] w (more ++ c :: rest) A (Forall_nil _) St) as (q1 & E1 & T1 & A1).
    assert (Ew : parse_combinator p1 = Some (Ok (CDescendant w), set_skip q1 KS_COMMENTS)).
    { unfold parse_combinator, or_peek. rewrite !Nd, Np. unfold pmap, bind, parse_whitespace, ret. rewrite E1, (tok_kind K_Whitespace w Kw ltac:(discriminate)). reflexivity. }
    assert (A1' : ahead (plex (set_skip (set_skip q1 KS_COMMENTS) KS_WHITESPACE)) (more ++ c :: rest)) by exact A1.
    destruct (consume_trivia_spec (set_skip (set_skip q1 KS_COMMENTS) KS_WHITESPACE) more (c :: rest) A1') as (q2 & E2 & _ & A2 & S2).
    - eapply Forall_impl; [| exact Fm]. intros x Kx. now apply in_whitespace.
    - cbn [stops_skip pskip set_skip]. intro H. apply in_whitespace in H. apply Sc. now left.
    - unfold goes, component_t. cbv zeta. rewrite (vis1 p _ _ A) by congruence. unfold kind_of in Kw. rewrite Kw. unfold s. cbn [css_parts sp_combinator]. unfold pmap, bind, ret. fold p1. rewrite Ew, E2.
      eexists. split; [reflexivity |]. split; [exact A2 |]. assert (Sm : same_mode (set_skip p KS_WHITESPACE) q2).
      { destruct S2 as (_ & x2 & x3 & x4 & x5 & x6). pose proof (took_mode _ _ _ T1) as (y1 & y2 & y3 & y4 & y5). unfold p1 in *. cbn [set_skip pskip pstate pstop plex] in *. unfold same_mode. cbn [set_skip pskip pstate pstop plex]. rewrite x2, x3, x4, x5, x6. auto. }
      apply (back_from KS_WHITESPACE p q2 (w :: more) (c :: rest) R); [exact A | exact A2 | exact Sm].
  Qed.
End Steps.
