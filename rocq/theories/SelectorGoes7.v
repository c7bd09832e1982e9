(* Selectors are read: lists of selectors, by induction on their layout. *)
From Coq Require Import ZifyBool ZifyNat ZifyN.
From Coq Require Import String.
From Coq Require Import List.
From Verif Require Import Selectors SpecLex SpecTrace SpecParser SpecSyntax SpecTraits SpecFeatures SpecSelectors SpecSelectorText SpecCursor SpecToken LexBase TokenProofs KindProofs LexFacts LexTrace CursorProofs
  ParserProofs ParserProofs2 ParserProofs3 ParserProofs4 CompareProofs SyntaxProofs SyntaxTotal TraitsTotal RulesTotal FeatureProofs FeatureProofs2 FeatureProofs3 FeatureProofs4 FeatureProofs5 FeatureProofs6 SelectorProofs SelectorProofs2 SelectorProofs3 SelectorProofs4 SelectorProofs5 SelectorProofs6 SelectorProofs7 SelectorProofs8 SelectorProofs9 SelectorGoes SelectorGoes2 SelectorGoes3 SelectorGoes4 SelectorGoes5 SelectorGoes6 SelectorGoesNth.
Open Scope N_scope.
Open Scope list_scope.

Definition head_kind (c : cursor) : Prop := In (kind_of c) [K_Hash; K_Delim; K_Ident; K_LeftSquare; K_Colon].
Lemma head_solid : forall c, head_kind c -> solid c.
Proof. intros c H [K | K]; unfold head_kind in H; rewrite K in H; cbn in H; intuition discriminate. Qed.
Lemma laid_head : forall src x toks, laid src x toks -> ~ descends x -> exists c r, toks = c :: r /\ head_kind c.
Proof.
  intros src x toks L Nd. unfold head_kind.
  destruct L as [c K _ | dot name D _ | t (K & _) | c D | y Py Nw | w more Kw Fm | a ts La | v (w & (colon & ident)) Px _ | v (w & ((c1 & c2) & ident)) Px | (w & (colon & ident)) Px | (pre & tag) N1 N2 (Pp & _) | name ty colon function value close ts g Kc Kf _ _ _ _ _ | c1 c2 function name value close ts g K1 K2 _ _ _ _ _].
  - exists c, []. rewrite K. cbn; auto.
  - exists dot, [name]. destruct D as (K & _). unfold kind_of. rewrite K. cbn; auto.
  - exists (tag_cursor t), []. rewrite K. cbn; auto.
  - exists c, []. destruct D as (K & _). unfold kind_of. rewrite K. cbn; auto.
  - destruct y as [c | c | c | a b | c | c]; cbn [combinator_cursors combinator_phrase] in *; [| | | destruct Py as (Py & _) | | elim (Nw c eq_refl)]; eexists _, _; (split; [reflexivity |]); destruct Py as (K & _); unfold kind_of; rewrite K; cbn; tauto.
  - elim Nd. now exists w.
  - destruct La as ((Ko & _) & _ & g1 & g2 & g3 & g4 & g5 & close & _ & _ & _ & _ & _ & _ & ->). eexists _, _. split; [reflexivity |]. rewrite Ko. cbn; auto.
  - destruct Px as (K & _). eexists _, _. split; [reflexivity |]. rewrite K. cbn; tauto.
  - destruct Px as (K & _). eexists _, _. split; [reflexivity |]. rewrite K. cbn; tauto.
  - destruct Px as (K & _). eexists _, _. split; [reflexivity |]. rewrite K. cbn; tauto.
  - unfold namespace_cursors. cbn [fst snd] in *. destruct pre as [[pipe | i pipe | st pipe] |]; [elim (N2 pipe eq_refl) | | | congruence]; cbn [prefix_cursors app]; eexists _, _; (split; [reflexivity |]).
    + destruct Pp as (Ki & _). rewrite Ki. cbn; tauto.
    + destruct Pp as ((Ks & _) & _). unfold kind_of. rewrite Ks. cbn; tauto.
  - eexists _, _. split; [reflexivity |]. rewrite Kc. cbn; tauto.
  - eexists _, _. split; [reflexivity |]. rewrite K1. cbn; tauto.
Qed.
Lemma chain_head : forall src l toks, chain_laid src l toks -> exists x r, l = x :: r /\ exists ws c ts, toks = ws ++ c :: ts /\ Forall white_token ws /\ head_kind c /\ (~ descends x -> ws = []).
Proof.
  intros src l toks C. induction C as [x toks L Nd | x toks l toks' L Fo C IH].
  - exists x, []. split; [reflexivity |]. destruct (laid_head src x toks L Nd) as (c & r & -> & H). exists [], c, r. repeat split; auto.
  - exists x, l. split; [reflexivity |]. assert (D : descends x \/ ~ descends x). { destruct x as [| | | | [| | | | | w] | | | | | | |]; try (right; intros (? & ?); discriminate). left. now exists w. }
    destruct D as [(w & ->) | D].
    + inversion L as [| | | | y Py Nw Ey | w0 more Kw Fm Ew | | | | | | |]; subst; [elim (Nw w eq_refl) |]. destruct IH as (y & r & -> & ws & c & ts & -> & Fw & Hc & _). exists (w :: more ++ ws), c, ts. split; [cbn [app]; now rewrite <- app_assoc |].
      split; [constructor; [exact Kw | apply Forall_app; auto] |]. split; [exact Hc |]. intro N. elim N. now exists w.
    + destruct (laid_head src x toks L D) as (c & r & -> & H). exists [], c, (r ++ toks'). repeat split; auto.
Qed.
Lemma laid_length : forall src x toks, laid src x toks -> (1 <= length toks)%nat.
Proof.
  intros src x toks L. assert (D : descends x \/ ~ descends x). { destruct x as [| | | | [| | | | | w] | | | | | | |]; try (right; intros (? & ?); discriminate). left. now exists w. }
  destruct D as [(w & ->) | D]; [inversion L; subst; cbn [length combinator_cursors]; lia |]. destruct (laid_head src x toks L D) as (c & r & -> & _). cbn. lia.
Qed.
Lemma chain_length : forall src l toks, chain_laid src l toks -> (1 <= length l <= length toks)%nat.
Proof. intros src l toks C. induction C as [x toks L Nd | x toks l toks' L Fo C IH]; pose proof (laid_length _ _ _ L); cbn [length]; rewrite ?app_length; lia. Qed.
Lemma complex_length : forall src l toks, complex_laid src l toks -> (1 <= length toks)%nat.
Proof. intros src l toks [l' toks' C _]. pose proof (chain_length _ _ _ C). lia. Qed.
Lemma list_length : forall src l toks, list_laid src l toks -> (1 <= length l <= length toks)%nat.
Proof. intros src l toks L. induction L as [g x toks G C | g x toks g' comma l toks' G C G' K L IH]; pose proof (complex_length _ _ _ C); cbn [length]; rewrite ?app_length; cbn [length]; rewrite ?app_length; cbn [length]; lia. Qed.
(* ---- stopping ---- *)
Definition compound_stop (c : cursor) : Prop := kind_of c = K_LeftCurly \/ kind_of c = K_RightParen \/ kind_of c = K_Semicolon \/ kind_of c = K_Comma.
Definition compound_ends (rest : list cursor) : Prop := rest = [] \/ exists g c r, rest = g ++ c :: r /\ gap g /\ compound_stop c.
Lemma stop_solid : forall c, compound_stop c -> solid c.
Proof. intros c [K | [K | [K | K]]] [H | H]; congruence. Qed.
Lemma list_compound_ends : forall rest, list_ends rest -> compound_ends rest.
Proof. intros rest [-> | (g & c & r & -> & G & K)]; [now left | right]. exists g, c, r. split; [reflexivity |]. split; [exact G |]. unfold compound_stop. tauto. Qed.
Lemma in_stop4 : forall c, in_kinds KS_LEFT_CURLY_RIGHT_PAREN_COMMA_OR_SEMICOLON c <-> compound_stop c.
Proof. intro c. unfold in_kinds, KS_LEFT_CURLY_RIGHT_PAREN_COMMA_OR_SEMICOLON, compound_stop, kind_of. rewrite kindset_new_spec. cbn [In]. intuition congruence. Qed.
Lemma in_stop3 : forall c, in_kinds KS_LEFT_CURLY_RIGHT_PAREN_OR_SEMICOLON c <-> kind_of c = K_LeftCurly \/ kind_of c = K_RightParen \/ kind_of c = K_Semicolon.
Proof. intro c. unfold in_kinds, KS_LEFT_CURLY_RIGHT_PAREN_OR_SEMICOLON, kind_of. rewrite kindset_new_spec. cbn [In]. intuition congruence. Qed.
Lemma kept_at : forall p g c rest, ready p -> gap g -> solid c -> kept (pskip p) (g ++ c :: rest) = c :: kept (pskip p) rest.
Proof. intros p g c rest R G Hc. rewrite (kept_skipped _ _ _ (gap_kinds p g R G)), kept_cons by exact (solid_kinds p c R Hc). reflexivity. Qed.
Lemma at_stop_at : forall s p g c rest, stop_set s -> ready p -> ahead (plex p) (g ++ c :: rest) -> gap g -> solid c -> exists b, at_stop s p = Some b /\ (b = true <-> in_kinds s c).
Proof.
  intros s p g c rest Hs R A G Hc. destruct (at_stop_spec s p _ Hs A) as (b & E & H). exists b. split; [exact E |]. rewrite H, (kept_at p g c rest R G Hc). split.
  - intros [N | (d & r & Ed & I)]; [destruct g; discriminate |]. injection Ed as <- _. exact I.
  - intro I. right. eauto.
Qed.
Lemma at_stop_nothing : forall s p, stop_set s -> ahead (plex p) [] -> at_stop s p = Some true.
Proof. intros s p Hs A. destruct (at_stop_spec s p _ Hs A) as (b & E & H). rewrite E. f_equal. apply H. now left. Qed.
Lemma stop4 : stop_set KS_LEFT_CURLY_RIGHT_PAREN_COMMA_OR_SEMICOLON.
Proof. now left. Qed.
Lemma stop3 : stop_set KS_LEFT_CURLY_RIGHT_PAREN_OR_SEMICOLON.
Proof. now right. Qed.
Lemma compound_stops : forall p rest, ready p -> ahead (plex p) rest -> compound_ends rest -> at_stop KS_LEFT_CURLY_RIGHT_PAREN_COMMA_OR_SEMICOLON p = Some true.
Proof.
  intros p rest R A [-> | (g & c & r & -> & G & K)]; [exact (at_stop_nothing _ p stop4 A) |]. destruct (at_stop_at _ p g c r stop4 R A G (stop_solid c K)) as (b & E & H). rewrite E. f_equal. apply H. now apply in_stop4.
Qed.
Lemma list_stops : forall p rest, ready p -> ahead (plex p) rest -> list_ends rest -> at_stop KS_LEFT_CURLY_RIGHT_PAREN_OR_SEMICOLON p = Some true.
Proof.
  intros p rest R A [-> | (g & c & r & -> & G & K)]; [exact (at_stop_nothing _ p stop3 A) |]. assert (Sc : solid c) by (apply stop_solid; unfold compound_stop; tauto).
  destruct (at_stop_at _ p g c r stop3 R A G Sc) as (b & E & H). rewrite E. f_equal. apply H. now apply in_stop3.
Qed.
Lemma head_goes_on : forall s p g c rest, stop_set s -> ready p -> ahead (plex p) (g ++ c :: rest) -> gap g -> head_kind c -> at_stop s p = Some false.
Proof.
  intros s p g c rest Hs R A G Hc. destruct (at_stop_at s p g c rest Hs R A G (head_solid c Hc)) as (b & E & H). rewrite E. destruct b; [exfalso | reflexivity]. pose proof (proj1 H eq_refl) as I. unfold head_kind in Hc.
  destruct Hs as [-> | ->]; [apply in_stop4 in I; unfold compound_stop in I | apply in_stop3 in I]; cbn [In] in Hc; intuition congruence.
Qed.
Lemma white_gap : forall ws, Forall white_token ws -> gap ws.
Proof. intros ws F. eapply Forall_impl; [| exact F]. intros c K. now left. Qed.
(* ---- what follows ---- *)
Lemma follows_chain : forall src x l toks rest, chain_laid src l toks -> follows x toks -> follows x (toks ++ rest).
Proof.
  intros src x l toks rest C Fo. destruct (chain_head src l toks C) as (y & r & _ & ws & c & ts & E & Fw & Hc & _).
  assert (Hp : no_pipe toks -> no_pipe (toks ++ rest)).
  { intros NP comments d r' El Fc Kd. destruct comments as [| k comments].
    - destruct toks as [| d0 toks]; [destruct ws; discriminate |]. cbn [app] in El. injection El as <- _. exact (NP [] d0 toks eq_refl Fc Kd).
    - exfalso. inversion Fc as [| ? ? Kk Fk]; subst. cbn [app] in El. destruct ws as [| w ws]; cbn [app] in El; injection El as -> _.
      + unfold head_kind in Hc. rewrite Kk in Hc. cbn in Hc. intuition discriminate.
      + inversion Fw as [| ? ? Kw _]; subst. unfold white_token in Kw. congruence. }
  destruct x as [| | | | [| | | | | w] | | | | | | |]; cbn [follows] in *; auto. destruct Fo as (c0 & r0 & -> & N). cbn [app]. eauto.
Qed.
Lemma follows_end : forall p x rest toks, ready p -> ahead (plex p) (toks ++ rest) -> compound_ends rest -> ~ descends x -> follows x rest.
Proof.
  intros p x rest toks R A H Nd. assert (NP : no_pipe rest).
  { intros comments d r El Fc Kd. destruct H as [-> | (g & c & r' & -> & G & K)]; [destruct comments; discriminate |].
    assert (Hd : kind_of d <> K_Delim).
    { clear - El Fc Kd G K. revert comments El Fc. induction G as [| x g Hx G IH]; intros comments El Fc.
      - destruct comments as [| k comments]; cbn [app] in El; injection El as <- _; [destruct K as [K | [K | [K | K]]]; congruence |]. inversion Fc as [| ? ? Kk _]; subst. destruct K as [K | [K | [K | K]]]; congruence.
      - destruct comments as [| k comments]; cbn [app] in El.
        + injection El as <- _. destruct Hx as [Hx | Hx]; congruence.
        + injection El as _ El. inversion Fc; subst. exact (IH comments El ltac:(assumption)). }
    assert (I : In d (toks ++ comments ++ d :: r)) by (apply in_or_app; right; apply in_or_app; right; now left). rewrite El in A.
    intro B. apply tok_is_char_spec in B. rewrite (sign_char p _ d 124 R A I Hd) in B; [discriminate | cbn; intuition discriminate]. }
  destruct x as [| | | | [| | | | | w] | | | | | | |]; cbn [follows]; auto. elim Nd. now exists w.
Qed.
Lemma comma_not_at : forall p rest, ready p -> ahead (plex p) rest -> list_ends rest -> goes (if_kind K_Comma) p None rest.
Proof.
  intros p rest R A H. apply goes_if_not; [| exact R | exact A]. destruct H as [-> | (g & c & r & -> & G & K)].
  - unfold peek. rewrite (peek_next_spec p [] [] A (Forall_nil _) ltac:(exact Logic.I)). cbn [hd_or_eof]. reflexivity.
  - apply (peek_kind_no K_Comma p g c r R A G); [apply stop_solid; unfold compound_stop; tauto | |]; destruct K as [K | [K | K]]; congruence.
Qed.
(* consume_trivia before a selector *)
Lemma trivia_goes : forall p g c rest, ready p -> ahead (plex p) (g ++ c :: rest) -> gap g -> solid c -> exists q, consume_trivia p = Some q /\ ahead (plex q) (c :: rest) /\ same_mode p q /\ ready q.
Proof.
  intros p g c rest R A G Sc. destruct (consume_trivia_spec p g (c :: rest) A (gap_kinds p g R G) (solid_kinds p c R Sc)) as (q & E & _ & A' & S). exists q. split; [exact E |]. split; [exact A' |].
  assert (Sm : same_mode p q) by (destruct S as (_ & a & b & d & e & f); repeat split; assumption). split; [exact Sm |]. exact (ready_moved 0 p q R (moved_of p q g _ A A' Sm)).
Qed.
Scheme laid_mind := Induction for laid Sort Prop
with value_mind := Induction for value_laid Sort Prop
with element_mind := Induction for element_laid Sort Prop
with complex_mind := Induction for complex_laid Sort Prop
with chain_mind := Induction for chain_laid Sort Prop
with list_mind := Induction for list_laid Sort Prop.
Combined Scheme layout_ind from laid_mind, value_mind, element_mind, complex_mind, chain_mind, list_mind.
Definition at_tokens (src : text) (p : parser) (toks : list cursor) : Prop := lsrc (plex p) = src /\ ready p /\ ahead (plex p) toks.
Definition reads_component (src : text) (x : component_ast) (toks : list cursor) : Prop := forall n p rest, at_tokens src p (toks ++ rest) -> (length toks <= n)%nat -> follows x rest -> goes (component_n n) p x rest.
Definition reads_value (src : text) (ty : value_type) (v : class_value) (toks : list cursor) : Prop := forall n p g close rest, at_tokens src p (toks ++ g ++ close :: rest) -> gap g -> kind_of close = K_RightParen -> (length toks <= n)%nat ->
  goes (parse_class_value (selector_list_t (compound_t (component_n n))) ty) p v (g ++ close :: rest).
Definition parse_element_value (compound_p : P (list component_ast)) (name : text) (function : cursor) : P element_value :=
  if text_eqb name (chars "highlight") then pmap VHighlight (parse_kind K_Ident)
  else if text_eqb name (chars "part") then pmap VPart (fun p => part_loop (sfuel p) p)
  else if text_eqb name (chars "slotted") then pmap VSlotted compound_p
  else fail (D_Other E_UNEXPECTED_FUNCTION function).
Definition reads_element (src : text) (name : text) (v : element_value) (toks : list cursor) : Prop := forall n p g close rest function, at_tokens src p (toks ++ g ++ close :: rest) -> gap g -> kind_of close = K_RightParen -> (length toks <= n)%nat ->
  goes (parse_element_value (compound_t (component_n n)) name function) p v (g ++ close :: rest).
Definition reads_complex (src : text) (l : list component_ast) (toks : list cursor) : Prop := forall n p g rest, at_tokens src p (g ++ toks ++ rest) -> gap g -> (length toks <= n)%nat -> compound_ends rest -> goes (compound_t (component_n n)) p l rest.
Definition reads_chain (src : text) (l : list component_ast) (toks : list cursor) : Prop := forall m n p rest, at_tokens src p (toks ++ rest) -> (length toks <= n)%nat -> (length l < m)%nat -> compound_ends rest ->
  goes (compound_loop (component_n n) m) p l rest.
Definition reads_list (src : text) (l : list (list component_ast * option cursor)) (toks : list cursor) : Prop := forall m n p rest, at_tokens src p (toks ++ rest) -> (length toks <= n)%nat -> (length l < m)%nat -> list_ends rest ->
  goes (selector_loop (compound_t (component_n n)) m) p l rest.
Lemma tokens_on : forall src p q toks rest, at_tokens src p toks -> same_mode p q -> ready q -> ahead (plex q) rest -> at_tokens src q rest.
Proof. intros src p q toks rest (E & _ & _) S R A. split; [rewrite (ahead_src _ _ S); exact E | auto]. Qed.
Lemma paren_ends : forall g close rest, gap g -> kind_of close = K_RightParen -> list_ends (g ++ close :: rest).
Proof. intros g close rest G K. right. exists g, close, rest. split; [reflexivity |]. split; [exact G | auto]. Qed.
Lemma text_eqb_refl : forall t, text_eqb t t = true.
Proof. intro t. unfold text_eqb. destruct (list_eq_dec N.eq_dec t t); [reflexivity | contradiction]. Qed.
Lemma functional_goes : forall src list_p name ty colon function value close toks g p rest, at_tokens src p (colon :: function :: toks ++ g ++ close :: rest) -> kind_of colon = K_Colon -> kind_of function = K_Function ->
  parse_str_lower function src = Some name -> In (name, ty) FUNCTIONAL_CLASSES -> gap g -> kind_of close = K_RightParen ->
  (forall q, at_tokens src q (toks ++ g ++ close :: rest) -> goes (parse_class_value list_p ty) q value (g ++ close :: rest)) ->
  goes (parse_functional_class list_p) p (SFunctionalClass name colon function value (Some close)) rest.
Proof.
  intros src list_p name ty colon function value close toks g p rest (Es & R & A) Kc Kf Ew I G Kp H. unfold goes, parse_functional_class.
  destruct (raw_kind_goes K_Colon (set_skip p KS_NONE) colon _ A eq_refl Kc ltac:(discriminate)) as (p1 & E1 & A1 & S1). rewrite E1. assert (Sk1 : pskip p1 = KS_NONE) by apply S1.
  destruct (set_at _ named_classes K_Function p1 [] function _ name A1 (Forall_nil _)) as (p2 & E2 & A2 & S2); [rewrite Sk1; apply not_none | exact Kf | discriminate | rewrite (ahead_src _ _ S1); cbn [plex set_skip]; rewrite Es; exact Ew |].
  assert (M : map_get named_classes name = Some (name, ty)). { apply (map_get_spec named_classes functional_nodup). apply in_map_iff. exists (name, ty). auto. }
  rewrite E2, M. destruct (back p p2 [colon; function] _ R A A2 (mode_trans _ _ _ S1 S2)) as (Sb & Rb).
  match goal with |- exists q, ?m (set_skip p2 (pskip p)) = _ /\ _ => assert (Gx : goes m (set_skip p2 (pskip p)) (SFunctionalClass name colon function value (Some close)) rest) end.
  { eapply goes_bind; [apply H; split; [rewrite (ahead_src _ _ Sb); exact Es | split; [exact Rb | exact A2]] |]. intros q3 _ A3 _ R3. cbv beta.
    eapply goes_bind; [exact (if_kind_goes K_RightParen q3 g close rest R3 A3 G Kp solid_paren) |]. intros q4 _ A4 _ R4. now apply goes_ret. }
  destruct Gx as (r & E' & A' & S' & R'). exists r. split; [exact E' |]. split; [exact A' |]. split; [exact (mode_trans _ _ _ Sb S') | exact R'].
Qed.
Lemma functional_element_goes : forall src compound_p c1 c2 function name value close toks g p rest, at_tokens src p (c1 :: c2 :: function :: toks ++ g ++ close :: rest) -> kind_of c1 = K_Colon -> kind_of c2 = K_Colon -> kind_of function = K_Function ->
  parse_str_lower function src = Some name -> gap g -> kind_of close = K_RightParen ->
  (forall q, at_tokens src q (toks ++ g ++ close :: rest) -> goes (parse_element_value compound_p name function) q value (g ++ close :: rest)) ->
  goes (parse_functional_element compound_p) p (SFunctionalElement (c1, c2) function value (Some close)) rest.
Proof.
  intros src compound_p c1 c2 function name value close toks g p rest (Es & R & A) K1 K2 Kf Ew G Kp H. unfold parse_functional_element.
  eapply goes_bind; [exact (colons_goes p [] c1 c2 _ R A gap_nil K1 K2) |]. intros q1 _ A1 S1 R1. cbv beta. assert (Sf : solid_kind K_Function) by (repeat split; discriminate).
  eapply goes_bind; [exact (kind_goes K_Function q1 [] function _ R1 A1 gap_nil Kf Sf) |]. intros q2 _ A2 S2 R2. cbv beta. assert (E2 : lsrc (plex q2) = src) by (rewrite (ahead_src _ _ S2), (ahead_src _ _ S1); exact Es).
  eapply goes_bind; [apply (str_lower_goes q2 function name _ R2 A2); rewrite E2; exact Ew |]. intros q3 _ A3 S3 R3. cbv beta. fold (parse_element_value compound_p name function).
  eapply goes_bind; [apply H; split; [rewrite (ahead_src _ _ S3); exact E2 | auto] |]. intros q4 _ A4 _ R4. cbv beta.
  eapply goes_bind; [exact (if_kind_goes K_RightParen q4 g close rest R4 A4 G Kp solid_paren) |]. intros q5 _ A5 _ R5. now apply goes_ret.
Qed.
Lemma word_in : forall l src w c, is_word K_Ident (words l) src w c -> kind_of c = K_Ident /\ parse_str_lower c src = Some w /\ In w l.
Proof.
  intros l src w c (K & v & Ev & I). unfold words in I. apply in_map_iff in I. destruct I as (x & Ex & Ix). injection Ex as -> ->. auto.
Qed.
Lemma list_here : forall src l toks, reads_list src l toks -> list_laid src l toks -> forall n p rest, at_tokens src p (toks ++ rest) -> (length toks <= n)%nat -> list_ends rest -> goes (selector_list_t (compound_t (component_n n))) p l rest.
Proof.
  intros src l toks H L n p rest At Hn He. unfold selector_list_t, goes. apply (H (sfuel p) n p rest At Hn); [| exact He]. pose proof (sfuel_more p _ (proj2 (proj2 At))) as F. rewrite app_length in F. pose proof (list_length _ _ _ L). lia.
Qed.
Theorem layouts_read : forall src,
  (forall x toks, laid src x toks -> reads_component src x toks) /\ (forall ty v toks, value_laid src ty v toks -> reads_value src ty v toks) /\
  (forall name v toks, element_laid src name v toks -> reads_element src name v toks) /\ (forall l toks, complex_laid src l toks -> reads_complex src l toks) /\
  (forall l toks, chain_laid src l toks -> reads_chain src l toks) /\ (forall l toks, list_laid src l toks -> reads_list src l toks).
Proof.
  intro src. apply (layout_ind src (fun x toks _ => reads_component src x toks) (fun ty v toks _ => reads_value src ty v toks) (fun name v toks _ => reads_element src name v toks)
    (fun l toks _ => reads_complex src l toks) (fun l toks _ => reads_chain src l toks) (fun l toks _ => reads_list src l toks)).
  (* components *)
  - intros c K Hh n p rest (Es & R & A) Hn _. destruct n as [| n]; [cbn in Hn; lia |]. exact (id_step (component_n n) p c rest R A K Hh).
  - intros dot name D K n p rest (Es & R & A) Hn _. destruct n as [| n]; [cbn in Hn; lia |]. exact (class_step (component_n n) p dot name rest R A D K).
  - intros t Pt n p rest (Es & R & A) Hn Fo. destruct n as [| n]; [cbn in Hn; lia |]. apply (tag_step (component_n n) p t rest R A); [rewrite Es; exact Pt | exact Fo].
  - intros c D n p rest (Es & R & A) Hn Fo. destruct n as [| n]; [cbn in Hn; lia |]. exact (wildcard_step (component_n n) p c rest R A D Fo).
  - intros x Px Nd n p rest (Es & R & A) Hn _. destruct n as [| n]; [destruct x; cbn in Hn; lia |]. exact (combinator_step (component_n n) p x rest R A Px Nd).
  - intros w more Kw Fm n p rest (Es & R & A) Hn (c & r & -> & Sc). destruct n as [| n]; [cbn in Hn; lia |]. exact (descendant_step (component_n n) p w more c r R A Kw Fm Sc).
  - intros a toks La n p rest (Es & R & A) Hn _. destruct n as [| n]; [pose proof (laid_length src _ _ (laid_attribute src a toks La)); lia |]. apply (attribute_step (component_n n) p a toks rest R A). rewrite Es. exact La.
  - intros v (w & (colon & ident)) (Kc & Hw & _) Nl n p rest (Es & R & A) Hn _. destruct n as [| n]; [cbn in Hn; lia |]. cbn [fst] in Nl. destruct (word_in _ _ _ _ Hw) as (Ki & Ew & I). rewrite <- Es in Ew.
    exact (proj2 (pseudo_step (component_n n) p colon ident rest w R A Kc Ki Ew) Nl v I).
  - intros v (w & ((c1 & c2) & ident)) (K1 & K2 & Hw & _) n p rest (Es & R & A) Hn _. destruct n as [| n]; [cbn in Hn; lia |]. destruct (word_in _ _ _ _ Hw) as (Ki & Ew & I). rewrite <- Es in Ew.
    exact (element_step (component_n n) p c1 c2 ident rest w v R A K1 K2 Ki Ew I).
  - intros (w & (colon & ident)) (Kc & Hw & _) n p rest (Es & R & A) Hn _. destruct n as [| n]; [cbn in Hn; lia |]. destruct (word_in _ _ _ _ Hw) as (Ki & Ew & I). rewrite <- Es in Ew.
    exact (proj1 (pseudo_step (component_n n) p colon ident rest w R A Kc Ki Ew) I).
  - intros x N1 N2 Px n p rest (Es & R & A) Hn _. destruct n as [| n]; [pose proof (laid_length src _ _ (laid_namespace src x N1 N2 Px)); lia |]. apply (namespace_step (component_n n) p x rest R A N1 N2). rewrite Es. exact Px.
  - intros name ty colon function value close toks g Kc Kf Ew I L IH G Kp n p rest At Hn _. destruct n as [| n]; [cbn in Hn; lia |]. pose proof At as (Es & R & A). cbn [app] in At, A. rewrite <- !app_assoc in At, A. cbn [app] in At, A.
    apply (functional_class_step (component_n n) p colon function _ _ rest R A Kc Kf). apply (functional_goes src _ name ty colon function value close toks g p rest At Kc Kf Ew I G Kp).
    intros q Aq. apply (IH n q g close rest Aq G Kp). cbn [length] in Hn. rewrite !app_length in Hn. lia.
  - intros c1 c2 function name value close toks g K1 K2 Kf Ew L IH G Kp n p rest At Hn _. destruct n as [| n]; [cbn in Hn; lia |]. pose proof At as (Es & R & A). cbn [app] in At, A. rewrite <- !app_assoc in At, A. cbn [app] in At, A.
    apply (functional_element_step (component_n n) p c1 c2 function _ _ rest R A K1 K2 Kf). apply (functional_element_goes src _ c1 c2 function name value close toks g p rest At K1 K2 Kf Ew G Kp).
    intros q Aq. apply (IH n q g close rest function Aq G Kp). cbn [length] in Hn. rewrite !app_length in Hn. lia.
  (* values *)
  - intros (w & c) g0 G0 Hw n p g close rest (Es & R & A) G Kp Hn. cbn [snd] in A. rewrite <- app_assoc in A. cbn [app] in A. destruct (word_in _ _ _ _ Hw) as (Ki & Ew & I). cbn [fst snd] in *. rewrite <- Es in Ew.
    cbn [parse_class_value]. apply goes_map. exact (set_goes DIR_VALUES p g0 c _ w R A G0 Ki Ew I).
  - intros l toks L IH n p g close rest At G Kp Hn. cbn [parse_class_value]. apply goes_map. exact (list_here src l toks IH L n p _ At Hn (paren_ends g close rest G Kp)).
  - intros l toks L n p g close rest (Es & R & A) G Kp Hn. cbn [parse_class_value]. apply goes_map. unfold parse_lang_values, goes. apply (lang_goes l toks L (sfuel p) p g close rest R A G Kp).
    pose proof (sfuel_more p _ A) as F. rewrite app_length in F. pose proof (lang_length l toks L). lia.
  - intros g0 c G0 K Ew n p g close rest (Es & R & A) G Kp Hn. rewrite <- app_assoc in A. cbn [app] in A. rewrite <- Es in Ew. cbn [parse_class_value]. apply goes_map. apply (nth_word_goes p g0 c _ _ _ R A G0 K Ew). now right.
  - intros g0 c G0 K Ew n p g close rest (Es & R & A) G Kp Hn. rewrite <- app_assoc in A. cbn [app] in A. rewrite <- Es in Ew. cbn [parse_class_value]. apply goes_map. apply (nth_word_goes p g0 c _ _ _ R A G0 K Ew). now left.
  - intros g0 c G0 K Hi n p g close rest (Es & R & A) G Kp Hn. rewrite <- app_assoc in A. cbn [app] in A. cbn [parse_class_value]. apply goes_map. exact (nth_integer_goes p g0 c _ R A G0 K Hi).
  - intros g0 a b cs toks G0 H n p g close rest (Es & R & A) G Kp Hn. rewrite <- app_assoc in A. cbn [parse_class_value]. apply goes_map. exact (anb_goes close rest g G Kp src a b cs toks p g0 H Es R A G0).
  - intros g0 c G0 K n p g close rest (Es & R & A) G Kp Hn. rewrite <- app_assoc in A. cbn [app] in A. cbn [parse_class_value]. apply goes_map. exact (kind_goes K_Ident p g0 c _ R A G0 K solid_ident).
  - intros g0 c G0 K n p g close rest function (Es & R & A) G Kp Hn. rewrite <- app_assoc in A. cbn [app] in A. unfold parse_element_value. rewrite text_eqb_refl. apply goes_map. exact (kind_goes K_Ident p g0 c _ R A G0 K solid_ident).
  - intros l toks L n p g close rest function (Es & R & A) G Kp Hn. unfold parse_element_value. change (text_eqb (chars "part") (chars "highlight")) with false. rewrite text_eqb_refl. apply goes_map. unfold goes.
    apply (part_goes l toks L (sfuel p) p g close rest R A G Kp). pose proof (sfuel_more p _ A) as F. rewrite app_length in F. pose proof (idents_length l toks L). lia.
  - intros g0 l toks G0 L IH n p g close rest function At G Kp Hn. rewrite <- app_assoc in At. unfold parse_element_value. change (text_eqb (chars "slotted") (chars "highlight")) with false. change (text_eqb (chars "slotted") (chars "part")) with false.
    rewrite text_eqb_refl. apply goes_map. apply (IH n p g0 _ At G0); [rewrite app_length in Hn; lia | apply list_compound_ends; now apply paren_ends].
  (* selectors *)
  - intros l toks C IH Hd n p g rest (Es & R & A) G Hn He. destruct (chain_head src l toks C) as (x & r & -> & ws & c & ts & -> & _ & Hc & Hw). rewrite (Hw (Hd x r eq_refl)) in *. cbn [app] in *.
    destruct (trivia_goes p g c _ R A G (head_solid c Hc)) as (q & E & Aq & Sq & Rq). unfold goes, compound_t. rewrite E.
    assert (At : at_tokens src q ((c :: ts) ++ rest)) by (split; [rewrite (ahead_src _ _ Sq); exact Es | auto]).
    assert (Fu : (length (x :: r) < sfuel q)%nat). { pose proof (sfuel_more q _ Aq) as F. pose proof (chain_length _ _ _ C) as L. cbn [length] in *. rewrite app_length in F. lia. }
    destruct (IH (sfuel q) n q rest At Hn Fu He) as (q2 & E2 & A2 & S2 & R2). exists q2. split; [exact E2 |]. split; [exact A2 |]. split; [exact (mode_trans _ _ _ Sq S2) | exact R2].
  - intros x toks L IH Nd m n p rest (Es & R & A) Hn Hm He. destruct m as [| m]; [cbn in Hm; lia |]. destruct m as [| m]; [cbn in Hm; lia |]. destruct (laid_head src x toks L Nd) as (c & r & Ec & Hc).
    set (cn := component_n n) in *. cbn [compound_loop]. unfold goes. rewrite Ec in A. cbn [app] in A. rewrite (head_goes_on _ p [] c _ stop4 R A gap_nil Hc). change (c :: r ++ rest) with ((c :: r) ++ rest) in A. rewrite <- Ec in A.
    match goal with |- exists q, ?m p = _ /\ _ => change (goes m p [x] rest) end.
    eapply goes_bind; [apply (IH n p rest (conj Es (conj R A)) Hn); exact (follows_end p x rest toks R A He Nd) |]. intros q _ Aq Sq Rq. cbv beta. apply (goes_map _ _ (cons x)). exists q. rewrite (compound_stops q rest Rq Aq He). split; [reflexivity |]. split; [exact Aq |]. split; [apply mode_refl | exact Rq].
  - intros x toks l toks' L IHx Fo C IH m n p rest (Es & R & A) Hn Hm He. destruct m as [| m]; [cbn in Hm; lia |].
    destruct (chain_head src _ _ (laid_cons src x toks l toks' L Fo C)) as (y & r & Ey & ws & c & ts & Ec & Fw & Hc & _).
    set (cn := component_n n) in *. cbn [compound_loop]. unfold goes. rewrite Ec, <- app_assoc in A. cbn [app] in A. rewrite (head_goes_on _ p ws c _ stop4 R A (white_gap ws Fw) Hc). change (ws ++ c :: ts ++ rest) with (ws ++ (c :: ts) ++ rest) in A. rewrite app_assoc, <- Ec, <- app_assoc in A.
    match goal with |- exists q, ?m p = _ /\ _ => change (goes m p (x :: l) rest) end. rewrite app_length in Hn.
    eapply goes_bind; [apply (IHx n p (toks' ++ rest) (conj Es (conj R A)) ltac:(lia)); exact (follows_chain src x l toks' rest C Fo) |]. intros q _ Aq Sq Rq. cbv beta. apply goes_map.
    apply (IH m n q rest); [split; [rewrite (ahead_src _ _ Sq); exact Es | auto] | lia | cbn in Hm; lia | exact He].
  - intros g x toks G C IH m n p rest At Hn Hm He. destruct m as [| m]; [cbn in Hm; lia |]. destruct m as [| m]; [cbn in Hm; lia |]. pose proof At as (Es & R & A). rewrite <- app_assoc in At, A. rewrite app_length in Hn.
    assert (St : at_stop KS_LEFT_CURLY_RIGHT_PAREN_OR_SEMICOLON p = Some false).
    { destruct C as [l toks C Hd]. destruct (chain_head src l toks C) as (y & r & -> & ws & c & ts & -> & _ & Hc & Hw). rewrite (Hw (Hd y r eq_refl)) in *. cbn [app] in *. exact (head_goes_on _ p g c _ stop3 R A G Hc). }
    set (cp := compound_t (component_n n)) in *. cbn [selector_loop]. unfold goes. rewrite St. match goal with |- exists q, ?m p = _ /\ _ => change (goes m p [(x, None)] rest) end.
    eapply goes_bind; [apply (IH n p g rest At G ltac:(lia)); now apply list_compound_ends |]. intros q _ Aq Sq Rq. cbv beta. eapply goes_bind; [exact (comma_not_at q rest Rq Aq He) |]. intros q2 _ A2 S2 R2. cbv beta.
    apply (goes_map _ _ (cons (x, None))). exists q2. rewrite (list_stops q2 rest R2 A2 He). split; [reflexivity |]. split; [exact A2 |]. split; [apply mode_refl | exact R2].
  - intros g x toks g' comma l toks' G C IHc G' Kc L IH m n p rest At Hn Hm He. destruct m as [| m]; [cbn in Hm; lia |]. pose proof At as (Es & R & A). rewrite <- !app_assoc in At, A. cbn [app] in At, A. rewrite !app_length in Hn. cbn [length] in Hn.
    assert (St : at_stop KS_LEFT_CURLY_RIGHT_PAREN_OR_SEMICOLON p = Some false).
    { clear At. destruct C as [l' toks C Hd]. destruct (chain_head src l' toks C) as (y & r & -> & ws & c & ts & -> & _ & Hc & Hw). rewrite (Hw (Hd y r eq_refl)) in *. cbn [app] in *. exact (head_goes_on _ p g c _ stop3 R A G Hc). }
    set (cp := compound_t (component_n n)) in *. cbn [selector_loop]. unfold goes. rewrite St. match goal with |- exists q, ?m p = _ /\ _ => change (goes m p ((x, Some comma) :: l) rest) end.
    eapply goes_bind.
    { apply (IHc n p g _ At G ltac:(lia)). right. exists g', comma, (toks' ++ rest). split; [reflexivity |]. split; [exact G' |]. unfold compound_stop. tauto. }
    intros q _ Aq Sq Rq. cbv beta. eapply goes_bind; [exact (if_kind_goes K_Comma q g' comma _ Rq Aq G' Kc solid_comma) |]. intros q2 _ A2 S2 R2. cbv beta. apply goes_map.
    apply (IH m n q2 rest); [split; [rewrite (ahead_src _ _ S2), (ahead_src _ _ Sq); exact Es | auto] | lia | cbn in Hm; lia | exact He].
Qed.
Theorem selectors_read : forall src l toks p rest, list_laid src l toks -> lsrc (plex p) = src -> ready p -> ahead (plex p) (toks ++ rest) -> list_ends rest -> goes parse_selectors p l rest.
Proof.
  intros src l toks p rest L Es R A He. assert (Hn : (length toks <= sfuel p)%nat) by (pose proof (sfuel_more p _ A) as F; rewrite app_length in F; lia).
  pose proof (list_here src l toks (proj2 (proj2 (proj2 (proj2 (proj2 (layouts_read src))))) l toks L) L (sfuel p) p rest (conj Es (conj R A)) Hn He) as (q & E & H). exists q. split; [| exact H].
  unfold parse_selectors. exact E.
Qed.
