(* Theorems for C48 (parsing selectors returns), C49 (selector trees are well-formed and lose no token) and C50 (tags).
   [ready p] and [spent p q used] are in SpecSelectors.v, [component_phrase] etc. too. *)
From Coq Require Import String.
From Coq Require Import List Lia.
From Verif Require Import Selectors SpecLex SpecTrace SpecParser SpecSyntax SpecTraits SpecFeatures SpecSelectors KindProofs LexTrace ParserProofs ParserProofs3 TraitsTotal FeatureProofs
  SelectorProofs SelectorProofs2 SelectorProofs3 SelectorProofs4 SelectorProofs8 SelectorProofs9.
Open Scope N_scope.
Open Scope list_scope.

(* every state a parser reaches with its default skip set is ready *)
Theorem C48_ready_states : forall src f p, well_behaved (single_line_comments f) src -> ~ In 0 src -> Forall (fun c => valid_char c = true) src -> blen src < 4294967296 ->
  reached_parser src f p -> pskip p = KS_TRIVIA -> ready p.
Proof. exact reached_ready. Qed.
Print Assumptions C48_ready_states.

Lemma selectors_wp : forall p, ready p -> wp parse_selectors p (fun l q => list_post p l q /\ at_stop KS_LEFT_CURLY_RIGHT_PAREN_OR_SEMICOLON q = Some true).
Proof. intros p R. destruct (ready_ahead p R) as (cs & A). pose proof (list_wp (sfuel p) _ (component_good (sfuel p)) p cs R A (sfuel_more p cs A)) as W. unfold wp in *. unfold parse_selectors. exact W. Qed.
Lemma compounds_wp : forall p, ready p -> wp parse_compound p (fun l q => compound_post p l q /\ at_stop KS_LEFT_CURLY_RIGHT_PAREN_COMMA_OR_SEMICOLON q = Some true).
Proof. intros p R. destruct (ready_ahead p R) as (cs & A). pose proof (compound_wp (sfuel p) _ (component_good (sfuel p)) p cs R A (sfuel_more p cs A)) as W. apply (wp_imp _ _ _ _ (fun l q => compound_post p l q /\ at_stop KS_LEFT_CURLY_RIGHT_PAREN_COMMA_OR_SEMICOLON q = Some true)) in W; [| cbv beta; tauto]. unfold wp in *. unfold parse_compound. exact W. Qed.
Lemma components_wp : forall p, ready p -> wp parse_component p (comp_post p).
Proof. intros p R. destruct (ready_ahead p R) as (cs & A). pose proof (component_good (sfuel p) p cs R A (sfuel_more p cs A)) as W. unfold wp in *. unfold parse_component. exact W. Qed.
Lemma wp_returns : forall A (m : P A) p (Q : A -> parser -> Prop), wp m p Q -> exists r q, m p = Some (r, q) /\ forall a, r = Ok a -> Q a q.
Proof. intros A m p Q W. unfold wp in W. destruct (m p) as [[[a | e] q] |]; [| | contradiction]; eexists _, _; (split; [reflexivity |]); [intros a' [= <-]; exact W | discriminate]. Qed.

(* ---- C48 ---- *)
(* it returns; when it returns a tree, the parser's settings are the ones before *)
Definition returns {A} (m : P A) : Prop := forall p, ready p -> exists r q, m p = Some (r, q) /\ forall a, r = Ok a -> same_mode p q /\ ready q.
Lemma spent_mode : forall p q l, spent p q l -> same_mode p q.
Proof. intros p q l (cs & sk & rest & _ & _ & _ & _ & S). exact S. Qed.
Theorem C48_selector_lists_return : returns parse_selectors.
Proof. intros p R. destruct (wp_returns _ _ _ _ (selectors_wp p R)) as (r & q & E & H). exists r, q. split; [exact E |]. intros a Ea. destruct (H a Ea) as ((_ & T & Rq) & _). split; [exact (spent_mode _ _ _ T) | exact Rq]. Qed.
Print Assumptions C48_selector_lists_return.
Theorem C48_compounds_return : returns parse_compound.
Proof. intros p R. destruct (wp_returns _ _ _ _ (compounds_wp p R)) as (r & q & E & H). exists r, q. split; [exact E |]. intros a Ea. destruct (H a Ea) as ((_ & T & Rq) & _). split; [exact (spent_mode _ _ _ T) | exact Rq]. Qed.
Print Assumptions C48_compounds_return.
Theorem C48_components_return : returns parse_component.
Proof. intros p R. destruct (wp_returns _ _ _ _ (components_wp p R)) as (r & q & E & H). exists r, q. split; [exact E |]. intros a Ea. destruct (H a Ea) as (_ & T & Rq). split; [exact (spent_mode _ _ _ T) | exact Rq]. Qed.
Print Assumptions C48_components_return.
Definition sampleb (src : text) : bool := ordinary src && forallb valid_char src && forallb (fun c => negb (c =? 0)) src && (blen src <? 4294967296).
Lemma sample_ready : forall src, sampleb src = true -> ready (parser_new src no_features).
Proof.
  intros src H. unfold sampleb in H. rewrite !Bool.andb_true_iff in H. destruct H as (((H1 & H2) & H3) & H4). rewrite forallb_forall in H2, H3. apply N.ltb_lt in H4.
  apply (reached_ready src no_features); [apply ordinary_spec; exact H1 | | apply Forall_forall; exact H2 | exact H4 | apply st_refl | reflexivity].
  intro Z. specialize (H3 0 Z). discriminate.
Qed.
(* an error can leave the parser skipping other kinds of tokens: after ": b" only comments, after "a|=b" nothing *)
Theorem C48_settings_after_an_error_refuted : exists p1 p2 e1 e2 q1 q2, ready p1 /\ ready p2 /\
  parse_selectors p1 = Some (Err e1, q1) /\ pskip p1 = KS_TRIVIA /\ pskip q1 = KS_COMMENTS /\
  parse_selectors p2 = Some (Err e2, q2) /\ pskip p2 = KS_TRIVIA /\ pskip q2 = KS_NONE.
Proof.
  exists (parser_new (chars "a: b") no_features), (parser_new (chars "a|=b") no_features). eexists _, _, _, _.
  split; [apply sample_ready; reflexivity |]. split; [apply sample_ready; reflexivity |].
  split; [vm_compute; reflexivity |]. split; [reflexivity |]. split; [reflexivity |]. split; [vm_compute; reflexivity |]. split; reflexivity.
Qed.
Print Assumptions C48_settings_after_an_error_refuted.
Example C48_case : ready (parser_new (chars "a.b > c[d=e i]:is(f, g)::after {") no_features) /\
  exists l q, parse_selectors (parser_new (chars "a.b > c[d=e i]:is(f, g)::after {") no_features) = Some (Ok [(l, None)], q) /\ List.length l = 9%nat.
Proof. split; [apply sample_ready; reflexivity |]. eexists _, _. split; [vm_compute; reflexivity | reflexivity]. Qed.

(* ---- C49 ---- *)
(* the tokens read are those of the tree, in that order, with whitespace and comments between; the tree is a selector; reading
   stopped before '{', ')' or ';', or at the end *)
Definition stops_at (kinds : list kind) (q : parser) : Prop := forall cs, ahead (plex q) cs -> cs = [] \/
  exists skipped c rest, cs = skipped ++ c :: rest /\ Forall (in_kinds (pskip q)) skipped /\ In (kind_of c) kinds.
Lemma stops : forall s ks q, s = kindset_new ks -> stop_set s -> at_stop s q = Some true -> stops_at ks q.
Proof.
  intros s ks q -> Hs St cs A. destruct (at_stop_spec _ q cs Hs A) as (b & E & H). rewrite St in E. injection E as <-. destruct (proj1 H eq_refl) as [-> | (c & r & Ek & Ic)]; [now left | right].
  destruct (skip_split (pskip q) cs) as (sk & rest & -> & F & Hr). exists sk. rewrite kept_skipped in Ek by exact F. destruct rest as [| d rest]; [discriminate Ek |]. rewrite kept_cons in Ek by exact Hr. injection Ek as -> _.
  exists c, rest. split; [reflexivity |]. split; [exact F |]. unfold in_kinds in Ic. now rewrite kindset_new_spec in Ic.
Qed.
Theorem C49_selector_lists_lose_nothing : forall p l q, ready p -> parse_selectors p = Some (Ok l, q) ->
  spent p q (selectors_cursors l) /\ selectors_phrase (lsrc (plex p)) l /\ stops_at [K_LeftCurly; K_RightParen; K_Semicolon] q.
Proof.
  intros p l q R E. destruct (wp_inv _ _ _ _ _ _ (selectors_wp p R) E) as ((P1 & T & _) & St). split; [exact T |]. split; [exact P1 |]. refine (stops _ _ _ eq_refl _ St). now right.
Qed.
Print Assumptions C49_selector_lists_lose_nothing.
Theorem C49_compounds_lose_nothing : forall p l q, ready p -> parse_compound p = Some (Ok l, q) ->
  spent p q (compound_cursors l) /\ compound_phrase (lsrc (plex p)) l /\ stops_at [K_LeftCurly; K_RightParen; K_Comma; K_Semicolon] q.
Proof.
  intros p l q R E. destruct (wp_inv _ _ _ _ _ _ (compounds_wp p R) E) as ((P1 & T & _) & St). split; [exact T |]. split; [exact P1 |]. refine (stops _ _ _ eq_refl _ St). now left.
Qed.
Print Assumptions C49_compounds_lose_nothing.
Theorem C49_components_lose_nothing : forall p x q, ready p -> parse_component p = Some (Ok x, q) -> spent p q (component_cursors x) /\ component_phrase (lsrc (plex p)) x.
Proof. intros p x q R E. destruct (wp_inv _ _ _ _ _ _ (components_wp p R) E) as (P1 & T & _). split; assumption. Qed.
Print Assumptions C49_components_lose_nothing.
(* the tree is made of components; that these make up a selector of the grammar is not checked *)
Definition tree_of (s : string) : option (list (list component_ast * option cursor)) :=
  match parse_selectors (parser_new (chars s) no_features) with Some (Ok l, _) => Some l | _ => None end.
(* accepted, but not selectors: "," "a," " " (nothing where a compound should be); "> > a"; "[a" "[a .b" ":is(a" "::part(b" (unclosed); "*| a" *)
Theorem C49_only_selectors_refuted :
  (exists c, tree_of "," = Some [([], Some c)]) /\ (exists x c, tree_of "a," = Some [([x], Some c)]) /\ tree_of " " = Some [([], None)] /\
  (exists a b c d e, tree_of "> > a" = Some [([SCombinator (CChild a); SCombinator (CDescendant b); SCombinator (CChild c); SCombinator (CDescendant d); e], None)]) /\
  (exists a, tree_of "[a" = Some [([SAttribute a], None)] /\ aclose a = None) /\ (exists a w d n, tree_of "[a .b" = Some [([SAttribute a; SCombinator (CDescendant w); SClass d n], None)] /\ aclose a = None) /\
  (exists n c f v, tree_of ":is(a" = Some [([SFunctionalClass n c f v None], None)]) /\
  (exists s p t, tree_of "*| a" = Some [([SNamespace (Some (PWildcard s p), NTag t)], None)]).
Proof.
  split; [eexists; vm_compute; reflexivity |]. split; [eexists _, _; vm_compute; reflexivity |]. split; [vm_compute; reflexivity |]. split; [eexists _, _, _, _, _; vm_compute; reflexivity |].
  split; [eexists; split; [vm_compute; reflexivity | reflexivity] |]. split; [eexists _, _, _, _; split; [vm_compute; reflexivity | reflexivity] |]. split; eexists _, _, _; [eexists |]; vm_compute; reflexivity.
Qed.
Print Assumptions C49_only_selectors_refuted.
(* one component per combinator? "a > b" has a descendant combinator on both sides of its child combinator *)
Theorem C49_one_combinator_refuted : exists a w1 gt w2 b, tree_of "a > b" = Some [([STag a; SCombinator (CDescendant w1); SCombinator (CChild gt); SCombinator (CDescendant w2); STag b], None)] /\
  exists a w b, tree_of "a  " = Some [([STag a; SCombinator (CDescendant w)], None)] /\ exists w1 w2 a', tree_of "a /**/ b" = Some [([STag a'; SCombinator (CDescendant w1); SCombinator (CDescendant w2); STag b], None)].
Proof. eexists _, _, _, _, _. split; [vm_compute; reflexivity |]. eexists _, _, _. split; [vm_compute; reflexivity |]. eexists _, _, _. vm_compute. reflexivity. Qed.
Print Assumptions C49_one_combinator_refuted.
Example C49_case : exists l q, parse_selectors (parser_new (chars "a.b, *|c /*x*/ :is(#d) {") no_features) = Some (Ok l, q) /\ List.length l = 2%nat /\ List.length (selectors_cursors l) = 13%nat /\ stops_at [K_LeftCurly; K_RightParen; K_Semicolon] q.
Proof.
  assert (R : ready (parser_new (chars "a.b, *|c /*x*/ :is(#d) {") no_features)) by (apply sample_ready; reflexivity).
  destruct (parse_selectors (parser_new (chars "a.b, *|c /*x*/ :is(#d) {") no_features)) as [[[l | e] q] |] eqn:E; [| exfalso; vm_compute in E; discriminate | exfalso; vm_compute in E; discriminate].
  exists l, q. split; [reflexivity |]. destruct (C49_selector_lists_lose_nothing _ l q R E) as (_ & _ & S).
  assert (El : Some l = tree_of "a.b, *|c /*x*/ :is(#d) {") by (unfold tree_of; now rewrite E).
  assert (L : option_map (fun l => (List.length l, List.length (selectors_cursors l))) (Some l) = Some (2%nat, 13%nat)) by (rewrite El; vm_compute; reflexivity).
  injection L as L1 L2. auto.
Qed.

(* ---- C50 ---- *)
(* an identifier becomes exactly one kind of tag: the first of HTML, SVG, MathML, custom, non-conforming, non-standard that has its name *)
Theorem C50_tags : forall p c w, kind_of c = K_Ident -> parse_str_lower c (lsrc (plex p)) = Some w ->
  exists t, build_tag p c = Some t /\ tag_cursor t = c /\ tag_phrase (lsrc (plex p)) t /\ forall t', tag_cursor t' = c -> tag_phrase (lsrc (plex p)) t' -> t' = t.
Proof.
  intros p c w K E. destruct (build_tag_spec p c w K E) as (t & Bt & Ct & Pt). exists t. split; [exact Bt |]. split; [exact Ct |]. split; [exact Pt |]. intros t' Ct' Pt'.
  destruct Pt as (_ & v & Ev & H). destruct Pt' as (_ & v' & Ev' & H'). rewrite Ct, E in Ev. injection Ev as <-. rewrite Ct', E in Ev'. injection Ev' as <-.
  destruct t as [(a & b) | (a & b) | (a & b) | (a & b) | (a & b) | b | b], t' as [(a' & b') | (a' & b') | (a' & b') | (a' & b') | (a' & b') | b' | b']; cbn [tag_cursor fst snd] in *;
    try tauto; f_equal; try congruence; destruct H, H'; congruence.
Qed.
Print Assumptions C50_tags.
(* the tag selectors of a parsed selector are classified this way *)
Theorem C50_parsed_tags : forall p t q, ready p -> parse_component p = Some (Ok (STag t), q) -> tag_phrase (lsrc (plex p)) t.
Proof. intros p t q R E. destruct (C49_components_lose_nothing p _ q R E) as (_ & H). now inversion H. Qed.
Print Assumptions C50_parsed_tags.
Theorem C50_custom_elements : forall p c w, kind_of c = K_Ident -> parse_str_lower c (lsrc (plex p)) = Some w -> ~ In w HTML_TAGS -> ~ In w SVG_TAGS -> ~ In w MATHML_TAGS ->
  (build_tag p c = Some (TCustomElement c) <-> custom_name w).
Proof.
  intros p c w K E N1 N2 N3. destruct (build_tag_spec p c w K E) as (t & Bt & Ct & (_ & v & Ev & H)). rewrite Ct, E in Ev. injection Ev as <-. rewrite Bt. split.
  - intros [= ->]. apply H.
  - intro Hc. destruct t as [x | x | x | x | x | b | b]; cbn [tag_cursor] in Ct; try tauto. now subst b.
Qed.
Print Assumptions C50_custom_elements.
Example C50_case : exists t q, parse_component (parser_new (chars "My-Tag.x") no_features) = Some (Ok (STag (TCustomElement t)), q) /\ ready (parser_new (chars "My-Tag.x") no_features) /\
  (exists u q, parse_component (parser_new (chars "font-face") no_features) = Some (Ok (STag (TUnknown u)), q)) /\ exists u q, parse_component (parser_new (chars "blink") no_features) = Some (Ok (STag (THtmlNonConforming u)), q).
Proof. eexists _, _. split; [vm_compute; reflexivity |]. split; [apply sample_ready; reflexivity |]. split; eexists _, _; vm_compute; reflexivity. Qed.
