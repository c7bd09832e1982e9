(* The logic of Tells.v: the rules and the stylesheet. *)
From Coq Require Import ZifyBool ZifyNat ZifyN Permutation.
From Coq Require Import String.
From Coq Require Import List.
From Verif Require Import AstSheet SpecSheet SpecWritten SpecLex SpecTrace SpecParser SpecSyntax SpecTraits SpecRules SpecFeatures SpecCursor SpecToken LexBase TokenProofs KindProofs LexFacts LexTrace CursorProofs CursorLex
  ParserProofs ParserProofs2 ParserProofs3 ParserProofs4 CompareProofs SyntaxProofs SyntaxTotal TraitsTotal RulesTotal FeatureProofs FaithProofs FaithTraits FaithRules Goes Tells Tells2 Tells3 Tells4 Tells5 Tells6 Tells7 Tells8 SpecWritten.
Open Scope N_scope.
Open Scope list_scope.

Section Rules.
Variable src : text.
Variable f : feature.
Notation tells := (tells src f).
Notation onto := (onto src f).
Notation tv := (tv src f).
Notation plainly := (wri (fun _ => true) (fun _ => false)).
Variables loose lossy : text -> bool.
Variable props : properties.
Variable Hp : told_values src f loose lossy props.
Notation whole := (SpecWritten.whole lossy).
Notation mixed := (SpecWritten.mixed loose).
Notation rules := (wri whole mixed css_rule_cursors).

Lemma w_no_prelude : tells no_prelude_allowed (plainly (fun _ => [])).
Proof.
  intros p cs O. unfold no_prelude_allowed, unexpected_peek. apply tv_or_peek; intro; [apply tv_ok; [exact O | exact wr_nil] |]. apply tv_or_peek; intro; [apply tv_ok; [exact O | exact wr_nil] |].
  destruct (peek_next p); [apply tv_err; exact O | apply tv_none].
Qed.
(* an at-rule that must have a prelude *)
Lemma w_with_prelude : forall Pr B A (build : cursor -> Pr -> B -> A) name (prelude_p : P Pr) (block_p : P B) cp mp ep KB (K : A -> list cursor -> Prop),
  tells prelude_p (wri cp mp ep) -> tells block_p KB -> (forall a v b u1 u2, wr (cp v) (mp v) u1 (a :: ep v) -> KB b u2 -> K (build a v b) (u1 ++ u2)) ->
  tells (with_prelude build (at_rule_t name prelude_p block_p)) K.
Proof.
  intros Pr B A build name prelude_p block_p cp mp ep KB K HP HB H p cs O. unfold with_prelude. eapply tv_bind; [exact O | exact (w_at_rule src f _ _ name _ _ _ _ _ _ HP HB) |].
  intros [[a pr] b] u q r E Oq (u1 & u2 & -> & K1 & K2). destruct pr as [v |]; [| apply tv_err; exact Oq]. apply tv_ok; [exact Oq |]. rewrite app_nil_r. exact (H a v b u1 u2 K1 K2).
Qed.
Lemma w_list_rule : forall Pr name (prelude_p : P Pr) (rule_p : P css_rule) cp mp ep (build : cursor -> Pr -> cursor -> list css_rule -> option cursor -> css_rule),
  tells prelude_p (wri cp mp ep) -> tells rule_p rules ->
  (forall a v o rs c, whole (build a v o rs c) = cp v && forallb whole rs) -> (forall a v o rs c, mixed (build a v o rs c) = mp v || existsb mixed rs) ->
  (forall a v o rs c, css_rule_cursors (build a v o rs c) = a :: ep v ++ o :: flat_map css_rule_cursors rs ++ opt_cursor c) ->
  tells (with_prelude (fun at_ v b => let '(o, rs, c) := b in build at_ v o rs c) (at_rule_t name prelude_p (rule_list_t rule_p))) rules.
Proof.
  intros Pr name prelude_p rule_p cp mp ep build HP HR H1 H2 H3. eapply w_with_prelude; [exact HP | exact (w_rule_list src f _ _ _ _ HR) |].
  intros a v [[o rs] c] u1 u2 K1 K2. unfold wri. rewrite H1, H2, H3. cbv beta iota in K2. em.
Qed.
Lemma w_charset : tells parse_charset rules.
Proof.
  intros p cs O. unfold parse_charset. eapply tv_bind; [exact O | apply k_kind; discriminate |]. intros a u q r E Oq K. cbv beta in K. eapply tv_bind; [exact Oq | instantiate (1 := fun _ u => u = []) |].
  { intros p' cs' O'. destruct (eq_ignore_ascii_case _ _ _) as [[] |]; [apply tv_ok; [exact O' | reflexivity] | apply tells_fail_text; exact O' | apply tv_none]. }
  intros x u2 q2 r2 E2 O2 K2. cbv beta in K2. subst u2. eapply tv_bind; [exact O2 | apply k_white |]. intros w u3 q3 r3 E3 O3 K3. eapply tv_bind; [exact O3 | apply k_kind; discriminate |]. intros s u4 q4 r4 E4 O4 K4. cbv beta in *.
  eapply tv_bind; [exact O4 | instantiate (1 := fun o u => match o with Some c => emits false u [c] | None => True end) |].
  { intros p' cs' O'. unfold opt_ok. eapply tv_call; [exact O' | apply (k_kind src f K_Semicolon); discriminate | |].
    - intros c v q5 r5 E5 O5 K5. apply tv_ok; [exact O5 |]. rewrite app_nil_r. exact K5.
    - intros e v q5 r5 E5 O5. apply tv_ok; [exact O5 | exact Logic.I]. }
  intros [c |] u5 q5 r5 E5 O5 K5; cbv beta iota in K5; apply tv_ok; try exact O5; unfold wri; cbn [SpecWritten.whole SpecWritten.mixed css_rule_cursors opt_cursor].
  - em.
  - intro D. discriminate D.
Qed.
Lemma w_container : forall rule_p, tells rule_p rules -> tells (parse_container rule_p) rules.
Proof.
  intros rule_p HR. unfold parse_container. eapply w_list_rule; [exact (w_container_conditions src f) | exact HR | reflexivity | reflexivity | reflexivity].
Qed.
Lemma w_document_matchers : tells parse_document_matchers (plainly (comma_cursors document_matcher_cursors)).
Proof. exact (w_commas src f _ _ _ _ (w_document_matcher src f)). Qed.
Lemma w_document : forall rule_p, tells rule_p rules -> tells (parse_document rule_p) rules.
Proof.
  intros rule_p HR. unfold parse_document. eapply w_list_rule; [exact w_document_matchers | exact HR | reflexivity | reflexivity | reflexivity].
Qed.
Lemma w_moz_document : forall rule_p, tells rule_p rules -> tells (parse_moz_document rule_p) rules.
Proof.
  intros rule_p HR. unfold parse_moz_document. eapply w_list_rule; [exact w_document_matchers | exact HR | reflexivity | reflexivity | reflexivity].
Qed.
Lemma w_supports : forall rule_p, tells rule_p rules -> tells (parse_supports props rule_p) rules.
Proof.
  intros rule_p HR. unfold parse_supports. eapply w_list_rule; [exact (w_supports_condition src f loose lossy props Hp) | exact HR | reflexivity | reflexivity | reflexivity].
Qed.
Lemma w_font_face : tells (parse_font_face props) rules.
Proof.
  intros p cs O. unfold parse_font_face. apply tv_pmap. eapply tv_use; [exact O | exact (w_at_rule src f _ _ _ _ _ _ _ _ _ w_no_prelude (w_rule_list src f _ _ _ _ (w_property_of src f loose lossy props Hp _))) |].
  intros [[a pr] [[o ds] c]] u (u1 & u2 & -> & K1 & K2). cbv beta iota in *. unfold wri. cbn [SpecWritten.whole SpecWritten.mixed css_rule_cursors].
  replace (opt_cl _ pr) with true in K1 by (destruct pr; reflexivity). replace (opt_mx _ pr) with false in K1 by (destruct pr; reflexivity). replace (opt_emit _ pr) with (@nil cursor) in K1 by (destruct pr; reflexivity). em.
Qed.
Lemma w_keyframes : tells (parse_keyframes props) rules.
Proof.
  intros p cs O. unfold parse_keyframes. apply tv_pmap. eapply tv_use; [exact O | exact (w_at_rule src f _ _ _ _ _ _ _ _ _ (w_keyframes_name src f) (w_rule_list src f _ _ _ _ (w_keyframe src f loose lossy props Hp))) |].
  intros [[a pr] [[o ds] c]] u (u1 & u2 & -> & K1 & K2). cbv beta iota in *. unfold wri. cbn [SpecWritten.whole SpecWritten.mixed css_rule_cursors].
  replace (opt_cl _ pr) with true in K1 by (destruct pr; reflexivity). replace (opt_mx _ pr) with false in K1 by (destruct pr; reflexivity). change (opt_emit (fun c0 : cursor => [c0]) pr) with (opt_cursor pr) in K1. em.
Qed.
Lemma w_webkit_keyframes : tells (parse_webkit_keyframes props) rules.
Proof.
  unfold parse_webkit_keyframes. eapply w_with_prelude; [exact (w_keyframes_name src f) | exact (w_rule_list src f _ _ _ _ (w_keyframe src f loose lossy props Hp)) |].
  intros a v [[o rs] c] u1 u2 K1 K2. unfold wri. cbv beta iota in K2. cbn [SpecWritten.whole SpecWritten.mixed css_rule_cursors]. em.
Qed.
Lemma w_layer_names : tells parse_layer_names (plainly (comma_cursors layer_name_cursors)).
Proof. exact (w_commas src f _ _ _ _ (w_layer_name src f)). Qed.
Lemma w_layer : forall rule_p, tells rule_p rules -> tells (parse_layer rule_p) rules.
Proof.
  intros rule_p HR.
  assert (Ob : tells (optional_layer_block rule_p) (fun x u => match x with inl c => emits false u [c] | inr (o, rs, c) => wr (forallb whole rs) (existsb mixed rs) u (o :: flat_map css_rule_cursors rs ++ opt_cursor c) end)).
  { intros p cs O. unfold optional_layer_block. eapply tv_bind; [exact O | apply k_if; discriminate |]. intros [c |] u q r E Oq K; cbv beta in K; cbn [opt_list] in K.
    - apply tv_ok; [exact Oq |]. rewrite app_nil_r. exact K.
    - apply tv_pmap. eapply tv_use; [exact Oq | exact (w_rule_list src f _ _ _ _ HR) |]. intros [[o rs] c] v Kv. cbv beta iota in Kv. em. }
  intros p cs O. unfold parse_layer. eapply tv_bind; [exact O | exact (w_at_rule src f _ _ _ _ _ _ _ _ _ w_layer_names Ob) |].
  intros [[a pr] b] u q r E Oq (u1 & u2 & -> & K1 & K2). cbv beta iota in *.
  replace (opt_cl _ pr) with true in K1 by (destruct pr; reflexivity). replace (opt_mx _ pr) with false in K1 by (destruct pr; reflexivity). change (opt_emit (comma_cursors layer_name_cursors) pr) with (names_cursors pr) in K1.
  destruct b as [c | [[o rs] c]].
  - apply tv_ok; [exact Oq |]. unfold wri. cbn [SpecWritten.whole SpecWritten.mixed css_rule_cursors]. em.
  - assert (Y : tv r (fun b v => rules b ((u1 ++ u2) ++ v)) (Some (Ok (RLayer a pr o rs c), q))).
    { apply tv_ok; [exact Oq |]. unfold wri. cbn [SpecWritten.whole SpecWritten.mixed css_rule_cursors]. em. }
    destruct pr as [[| n [| n2 l]] |]; [exact Y | exact Y | apply tv_err; exact Oq | exact Y].
Qed.
Lemma w_pile : forall rule_p, tells rule_p rules -> tells (block_t peek_declaration (parse_property props) rule_p)
  (fun x u => let '(o, ds, rs, c) := x in wr (whole_decls lossy ds && forallb whole rs) (both ds rs || (mixed_decls loose ds || existsb mixed rs)) u (o :: properties_cursors ds ++ flat_map css_rule_cursors rs ++ opt_cursor c)).
Proof.
  intros rule_p HR. eapply tells_imp; [exact (w_block src f peek_declaration _ _ _ _ _ _ _ _ (w_property src f loose lossy props Hp) HR) |]. intros [[[o ds] rs] c] u (_ & K). exact K.
Qed.
Lemma w_media : forall rule_p, tells rule_p rules -> tells (parse_media props rule_p) rules.
Proof.
  intros rule_p HR. unfold parse_media. eapply w_with_prelude; [exact (w_media_queries src f) | exact (w_pile _ HR) |].
  intros a v [[[o ds] rs] c] u1 u2 K1 K2. unfold wri. cbv beta iota in K2. cbn [SpecWritten.whole SpecWritten.mixed css_rule_cursors]. em.
Qed.
Lemma w_margin : tells (parse_margin_rule props) (wri (fun m => whole_block lossy (mg_block m)) (fun m => mixed_properties loose (mg_block m)) margin_cursors).
Proof.
  intros p cs O. unfold parse_margin_rule. eapply tv_bind; [exact O | exact (w_at_rule src f _ _ _ _ _ _ _ _ _ w_no_prelude (w_properties_block src f loose lossy props Hp)) |].
  intros [[a pr] b] u q r E Oq (u1 & u2 & -> & K1 & K2). cbv beta iota in *. unfold wri in K2. destruct (peek_set _ _ _ _) as [[] |]; [| apply tells_fail_text; exact Oq | apply tv_none]. apply tv_ok; [exact Oq |]. unfold wri, margin_cursors. cbn [mg_at mg_block].
  replace (opt_cl _ pr) with true in K1 by (destruct pr; reflexivity). replace (opt_mx _ pr) with false in K1 by (destruct pr; reflexivity). replace (opt_emit _ pr) with (@nil cursor) in K1 by (destruct pr; reflexivity). em.
Qed.
Lemma w_page_selectors : tells parse_page_selectors (plainly (comma_cursors page_selector_cursors)).
Proof. exact (w_commas src f _ _ _ _ (w_page_selector src f)). Qed.
Lemma w_page : tells (parse_page props) rules.
Proof.
  intros p cs O. unfold parse_page. apply tv_pmap. eapply tv_use; [exact O | exact (w_at_rule src f _ _ _ _ _ _ _ _ _ w_page_selectors (w_declaration_rule_list src f _ _ _ _ _ _ _ _ (w_property src f loose lossy props Hp) w_margin)) |].
  intros [[a pr] [[[o ds] rs] c]] u (u1 & u2 & -> & K1 & K2). cbv beta iota in *. unfold wri. cbn [SpecWritten.whole SpecWritten.mixed css_rule_cursors]. unfold pile_cl, pile_mx in K2.
  change (decls_cl (fun d => whole_value lossy (pr_value d)) ds) with (whole_decls lossy ds) in K2. change (decls_mx (fun d => mixed_value loose (pr_value d)) ds) with (mixed_decls loose ds) in K2.
  replace (opt_cl _ pr) with true in K1 by (destruct pr; reflexivity). replace (opt_mx _ pr) with false in K1 by (destruct pr; reflexivity). change (decls_out property_cursors ds) with (properties_cursors ds) in K2.
  change (opt_emit (comma_cursors page_selector_cursors) pr) with (match pr with Some l => comma_cursors page_selector_cursors l | None => [] end) in K1. em.
Qed.
Definition value_cursors (v : registered_value) : list cursor := match v with PvInitial l | PvUnknown l => cvs_cursors l | PvSyntax c => [c] | PvInherits w => [snd w] end.
Lemma w_registered_value : forall name, tells (parse_registered_value name) (plainly value_cursors).
Proof.
  intros name p cs O. unfold parse_registered_value. destruct (peek_set K_Ident REGISTERED_NAMES p name) as [[] |]; [| | apply tv_none].
  - destruct (build_set REGISTERED_NAMES p name) as [[[] c] |]; [| | | apply tv_none]; apply tv_pmap.
    + eapply tv_use; [exact O | exact (w_values src f) |]. intros v u K. exact K.
    + eapply tv_use; [exact O | apply k_set; discriminate |]. intros v u K _. exact K.
    + eapply tv_use; [exact O | apply k_kind; discriminate |]. intros v u K _. exact K.
  - apply tv_pmap. eapply tv_use; [exact O | exact (w_values src f) |]. intros v u K. exact K.
Qed.
Lemma w_registered : tells parse_registered (plainly registered_cursors).
Proof.
  intros p cs O. unfold parse_registered. eapply tv_bind; [exact O | apply (w_declaration src f _ _ _ (fun _ => true) (fun _ => false) value_cursors); exact w_registered_value |].
  intros [[[n c] v] i] u q r E Oq K. destruct i as [[b i] |]; [apply tv_err; exact Oq |]. apply tv_ok; [exact Oq |]. unfold wri, registered_cursors. cbn [rg_name rg_colon rg_value].
  change (match v with PvInitial l | PvUnknown l => cvs_cursors l | PvSyntax c => [c] | PvInherits w => [snd w] end) with (value_cursors v). cbv beta iota in K. cbn [pair_cursors] in K. em.
Qed.
Lemma w_dashed : tells parse_dashed_ident (plainly (fun c => [c])).
Proof. eapply tells_imp; [apply tells_dashed |]. intros c u (K & _) _. exact K. Qed.
Lemma w_property_rule : tells parse_property_rule rules.
Proof.
  unfold parse_property_rule. eapply w_with_prelude; [exact w_dashed | exact (w_declaration_list src f _ _ _ _ w_registered) |].
  intros a v [[o ds] c] u1 u2 K1 K2. unfold wri. cbv beta iota in K2. unfold decls_cl, decls_mx in K2. rewrite forallb_true, existsb_false in K2. change (decls_out registered_cursors ds) with (comma_cursors registered_cursors ds) in K2. cbn [SpecWritten.whole SpecWritten.mixed css_rule_cursors]. em.
Qed.
Lemma w_style_rule : forall nested_p, tells nested_p rules -> tells (parse_style_rule props nested_p) rules.
Proof.
  intros nested_p HN p cs O. unfold parse_style_rule. apply tv_pmap. eapply tv_use; [exact O | exact (w_qualified_rule src f _ _ _ _ _ _ _ _ _ _ _ (w_selectors src f) (w_pile _ HN) (w_bad src f)) |].
  intros [sel [[[o ds] rs] c]] u (u1 & u2 & -> & K1 & K2). cbn [fst snd] in *. unfold wri. cbn [SpecWritten.whole SpecWritten.mixed css_rule_cursors]. em.
Qed.
Lemma w_unknown_at : tells parse_unknown_at rules.
Proof.
  assert (T : forall n, tells (pmap RUnknownAt (at_rule_of (block_of (rule_fuel n)))) rules).
  { intros n p cs O. apply tv_pmap. eapply tv_imp; [exact (w_at_rule_of src f _ (w_block_of src f _ (w_rule_fuel src f n)) p cs O) |]. intros r u K. exact K. }
  intros p cs O. specialize (T (sfuel p) p cs O). unfold parse_unknown_at, pmap, bind in *. cbv beta in *. exact T.
Qed.
Lemma w_unknown_qualified : tells parse_unknown_qualified rules.
Proof.
  assert (T : forall n, tells (pmap RUnknown (qualified_rule_of (block_of (rule_fuel n)))) rules).
  { intros n p cs O. apply tv_pmap. eapply tv_imp; [exact (w_qualified_rule_of src f _ (w_block_of src f _ (w_rule_fuel src f n)) p cs O) |]. intros r u K. exact K. }
  intros p cs O. specialize (T (sfuel p) p cs O). unfold parse_unknown_qualified, pmap, bind in *. cbv beta in *. exact T.
Qed.
Lemma w_by_name : forall table, (forall w m, In (w, m) table -> tells m rules) -> tells (at_rule_by_name table) rules.
Proof.
  intros table H p cs O. unfold at_rule_by_name. destruct (peek_n p 1) as [c |]; [| apply tv_none]. unfold look_up. destruct (parse_str_lower c (lsrc (plex p))) as [w |]; [| apply tv_none].
  destruct (map_get table w) as [m |] eqn:G; [| exact (w_unknown_at p cs O)]. apply map_get_in in G. eapply tv_retry; [exact O | exact (H w m G) | |].
  - intros r u q rest E Oq K. apply tv_ok; [exact Oq |]. rewrite app_nil_r. exact K.
  - intros e u q rest E Oq. exact (w_unknown_at _ _ (onto_back src f _ _ _ _ O Oq)).
Qed.
Lemma w_by_selector : forall style_p, tells style_p rules -> tells (rule_by_selector style_p) rules.
Proof.
  intros style_p H p cs O. unfold rule_by_selector. eapply tv_retry; [exact O | exact H | |].
  - intros r u q rest E Oq K. apply tv_ok; [exact Oq |]. rewrite app_nil_r. exact K.
  - intros e u q rest E Oq. exact (w_unknown_qualified _ _ (onto_back src f _ _ _ _ O Oq)).
Qed.
(* the remnants of a bad declaration in a block: a closing brace ends them and is not read *)
Definition keeps {A} (m : P A) : Prop := forall p r q, m p = Some (r, q) -> pstate q = pstate p.
Lemma keep_next : forall p c q, next p = Some (c, q) -> pstate q = pstate p.
Proof. intros p c q E. unfold next in E. destruct (next_loop _ _ _ _) as [[[c' x] t] |]; [| discriminate]. injection E as _ <-. reflexivity. Qed.
Lemma keep_single : forall A k (g : cursor -> A), keeps (parse_single k g).
Proof. intros A k g p r q E. unfold parse_single in E. destruct (peek k p) as [[] |]; [| | discriminate]; destruct (next p) as [[c q'] |] eqn:N; try discriminate; injection E as <- <-; exact (keep_next _ _ _ N). Qed.
Lemma keep_bind : forall A B (m : P A) (g : A -> P B), keeps m -> (forall a, keeps (g a)) -> keeps (bind m g).
Proof.
  intros A B m g Hm Hg p r q E. unfold bind in E. destruct (m p) as [[[a | e] q1] |] eqn:E1; [| | discriminate]; pose proof (Hm _ _ _ E1) as K; [rewrite (Hg a _ _ _ E); exact K | injection E as <- <-; exact K].
Qed.
Lemma keep_ret : forall A (a : A), keeps (ret a).
Proof. intros A a p r q E. injection E as <- <-. reflexivity. Qed.
Lemma keep_pmap : forall A B (h : A -> B) (m : P A), keeps m -> keeps (pmap h m).
Proof. intros A B h m H. unfold pmap. apply keep_bind; [exact H | intro; apply keep_ret]. Qed.
Lemma keep_or_peek : forall A k (m e : P A), keeps m -> keeps e -> keeps (or_peek k m e).
Proof. intros A k m e Hm He p r q E. unfold or_peek in E. destruct (peek k p) as [[] |]; [exact (Hm _ _ _ E) | exact (He _ _ _ E) | discriminate]. Qed.
Lemma keep_opt_ok : forall A (m : P A), keeps m -> keeps (opt_ok m).
Proof. intros A m H p r q E. unfold opt_ok in E. destruct (m p) as [[[a | e] q1] |] eqn:E1; [| | discriminate]; injection E as <- <-; exact (H _ _ _ E1). Qed.
Lemma keep_in_state : forall A s (m : P A), keeps (in_state s m).
Proof. intros A s m p r q E. unfold in_state in E. destruct (m _) as [[r1 q1] |]; [| discriminate]. injection E as <- <-. reflexivity. Qed.
Lemma keep_in_stop : forall A s (m : P A), keeps m -> keeps (in_stop s m).
Proof. intros A s m H p r q E. unfold in_stop in E. destruct (m _) as [[r1 q1] |] eqn:E1; [| discriminate]. injection E as <- <-. exact (H _ _ _ E1). Qed.
Lemma keep_tokens : keeps cv_tokens.
Proof.
  unfold cv_tokens. generalize CV_KINDS as l. induction l as [| k l IH]; cbn [fold_right].
  - intros p r q E. unfold unexpected_next in E. destruct (next p) as [[c q'] |] eqn:N; [| discriminate]. injection E as <- <-. exact (keep_next _ _ _ N).
  - apply keep_or_peek; [apply keep_pmap, keep_single | exact IH].
Qed.
Lemma keep_values : forall n, keeps (cv_fuel n) /\ keeps (values_fuel n) /\ keeps (args_fuel n).
Proof.
  induction n as [| n (IH1 & IH2 & IH3)]; [split; [| split]; intros p r q E; discriminate |]. cbn [cv_fuel values_fuel args_fuel]. split; [| split].
  - apply keep_or_peek; [apply keep_pmap | apply keep_or_peek; [apply keep_in_state | apply keep_or_peek; [| exact keep_tokens]]].
    + intros p r q E. unfold parse_whitespace in E. destruct (next _) as [[c q'] |] eqn:N; [| discriminate]. apply keep_next in N. cbv zeta in E. destruct (negb _); injection E as <- <-; exact N.
    + unfold function_with. apply keep_bind; [apply keep_single | intro]. apply keep_bind; [exact IH3 | intro]. apply keep_bind; [apply keep_opt_ok, keep_single | intro; apply keep_ret].
  - intros p r q E. destruct (p_at_end p); [injection E as <- <-; reflexivity |]. destruct (next_is_stop p) as [[] |]; [injection E as <- <-; reflexivity | | discriminate].
    revert E. apply keep_or_peek; [apply keep_bind; [exact IH1 | intro; apply keep_pmap; exact IH2] | apply keep_ret].
  - intros p r q E. destruct (p_at_end p); [injection E as <- <-; reflexivity |]. revert E. apply keep_or_peek; [apply keep_ret | apply keep_bind; [exact IH1 | intro; apply keep_pmap; exact IH3]].
Qed.
Lemma w_remnants : tells (in_state ST_NESTED parse_bad_declaration) (plainly cvs_cursors).
Proof.
  assert (G : forall n p cs, onto p cs -> is_nested p = true -> tv cs (plainly cvs_cursors) (bad_fuel n p)).
  { induction n as [| n IH]; intros p cs O Ne; [apply tv_none |]. cbn [bad_fuel]. destruct (p_at_end p); [apply tv_ok; [exact O | exact wr_nil] |].
    assert (M : tv cs (plainly cvs_cursors) (bind parse_component_value (fun v => pmap (cons v) (bad_fuel n)) p)).
    { unfold bind at 1. destruct (parse_component_value p) as [[[v | e] q] |] eqn:E; [| | apply tv_none]; destruct (w_value src f p cs O _ _ E) as (u & r & Ec & Oq & K).
      - apply (tv_shift _ _ _ _ u r _ _ Ec). specialize (K v eq_refl). apply tv_pmap. eapply tv_imp; [apply (IH q r Oq) |].
        + unfold is_nested in *. unfold parse_component_value in E. rewrite (proj1 (keep_values (sfuel p)) _ _ _ E). exact Ne.
        + intros l w Kl. unfold w_cv, wri, cvs_cursors in *. cbn [flat_map]. em.
      - apply (tv_fails _ _ _ _ _ _ _ r Oq). eauto. }
    apply tv_or_peek; intro Pk.
    - eapply tv_bind; [exact O | exact (w_value src f) |]. intros v u q r E Oq K. apply tv_ok; [exact Oq |]. unfold w_cv, wri, cvs_cursors in *. cbn [flat_map]. em.
    - apply tv_or_peek; intro Pk2; [| exact M]. rewrite Ne. apply tv_ok; [exact O | exact wr_nil]. }
  intros p cs O r q E. unfold in_state in E. destruct (parse_bad_declaration (set_state p ST_NESTED)) as [[r1 q1] |] eqn:Em; [| discriminate]. injection E as <- <-.
  destruct (G _ (set_state p ST_NESTED) cs O eq_refl _ _ Em) as (u & rest & E0 & O' & Ka). exists u, rest. split; [exact E0 |]. split; [exact O' | exact Ka].
Qed.
Lemma w_nested_by_selector : forall style_p, tells style_p rules -> tells (nested_by_selector style_p) rules.
Proof.
  intros style_p H p cs O. unfold nested_by_selector. eapply tv_retry; [exact O | exact (w_by_selector _ H) | |].
  - intros r u q rest E Oq K. apply tv_ok; [exact Oq |]. rewrite app_nil_r. exact K.
  - intros e u q rest E Oq. apply tv_pmap. eapply tv_use; [exact (onto_back src f _ _ _ _ O Oq) | exact w_remnants |]. intros l v K. exact K.
Qed.
Lemma w_todo : tells (@parse_todo css_rule) rules.
Proof. intros p cs O. apply tv_err. exact O. Qed.
Lemma w_css_rule_n : forall n nested, tells (css_rule_n props n nested) rules.
Proof.
  induction n as [| n IH]; intros nested p cs O; [apply tv_none |]. cbn [css_rule_n]. pose proof (IH false) as HR. pose proof (w_style_rule _ (IH true)) as HS. apply tv_or_peek; intro Pk.
  - assert (A : forall w m, In (w, m) (AT_RULES props (css_rule_n props n false)) -> tells m rules).
    { intros w m I. unfold AT_RULES in I. apply in_map_iff in I. destruct I as ([s m'] & E & I). cbn [fst snd] in E. injection E as _ <-. cbn [In] in I.
      repeat (destruct I as [E | I]; [injection E as _ <-; first [exact w_todo | exact w_charset | exact (w_container _ HR) | exact w_font_face | exact w_keyframes | exact (w_layer _ HR) | exact (w_media _ HR) | exact w_page | exact w_property_rule | exact (w_supports _ HR) | exact (w_document _ HR) | exact w_webkit_keyframes | exact (w_moz_document _ HR)] |]). contradiction. }
    assert (B : forall w m, In (w, m) (NESTED_AT_RULES props (css_rule_n props n false)) -> tells m rules).
    { intros w m I. unfold NESTED_AT_RULES in I. apply in_map_iff in I. destruct I as ([s m'] & E & I). cbn [fst snd] in E. injection E as _ <-. cbn [In] in I.
      repeat (destruct I as [E | I]; [injection E as _ <-; first [exact w_todo | exact (w_container _ HR) | exact (w_layer _ HR) | exact (w_media _ HR) | exact (w_supports _ HR)] |]). contradiction. }
    destruct nested; [exact (w_by_name _ B p cs O) | exact (w_by_name _ A p cs O)].
  - destruct nested; [exact (w_nested_by_selector _ HS p cs O) | exact (w_by_selector _ HS p cs O)].
Qed.
Lemma w_css_rule : tells (parse_css_rule props) rules.
Proof. unfold parse_css_rule. apply (tells_fun src f _ (fun p0 => css_rule_n props (sfuel p0) false)). intro. apply w_css_rule_n. Qed.
Lemma w_parse_sheet : tells (parse_sheet props) (wri (forallb whole) (existsb mixed) sheet_cursors).
Proof. exact (w_sheet src f _ _ _ _ w_css_rule). Qed.
(* a stylesheet is read to the end *)
Lemma sheet_ends : forall R (rule_p : P R) K, tells rule_p K -> forall p cs l q, onto p cs -> sheet_t rule_p p = Some (Ok l, q) -> exists rest, ahead (plex q) rest /\ Forall droppable rest.
Proof.
  intros R rule_p K HR. enough (G : forall n p cs l q, onto p cs -> sheet_loop rule_p n p = Some (Ok l, q) -> exists rest, ahead (plex q) rest /\ Forall droppable rest) by (intros p cs l q O E; exact (G _ _ _ _ _ O E)).
  induction n as [| n IH]; intros p cs l q O E; [discriminate |]. cbn [sheet_loop] in E. destruct (bind_inv _ _ _ _ _ _ _ E) as (w & p1 & E1 & E2).
  destruct (w_drop_whitespace src f p cs O _ _ E1) as (u1 & r1 & _ & O1 & _). destruct w; [exact (IH _ _ _ _ O1 E2) |].
  destruct (bind_inv _ _ _ _ _ _ _ E2) as (s & p2 & E3 & E4). destruct (w_drop_kind src f K_CdcOrCdo ltac:(discriminate) ltac:(cbn; tauto) p1 r1 O1 _ _ E3) as (u2 & r2 & _ & O2 & _). destruct s; [exact (IH _ _ _ _ O2 E4) |]. clear E E1 E2 E3. destruct (p_at_end p2) eqn:Pe.
  - injection E4 as <- <-. destruct O2 as (_ & _ & A & _). destruct (at_end_stuck p2 r2 A Pe) as (_ & ->). exists []. auto.
  - destruct (peek_next p2) as [c |] eqn:Pn; [| discriminate]. destruct (tok_is (ctok c) K_Eof) eqn:Te.
    + injection E4 as <- <-. destruct O2 as (_ & _ & A & T). exists r2. split; [exact A |]. destruct (skip_split (pskip p2) r2) as (sk & rest & -> & F & St).
      rewrite (peek_next_spec p2 sk rest A F St) in Pn. injection Pn as <-. destruct rest as [| d rest].
      * rewrite app_nil_r. exact (trivia_dropped _ _ T F).
      * exfalso. cbn [hd_or_eof] in Te. assert (I' : In d (sk ++ d :: rest)) by (apply in_or_app; right; now left). pose proof (ahead_kind _ _ A d I') as Kd. apply tok_is_kind in Te; [| now apply wf_of_kind]. contradiction.
    + destruct (bind_inv _ _ _ _ _ _ _ E4) as (x & p3 & E5 & E6). destruct (pmap_inv _ _ _ _ _ _ _ E6) as (l' & E7 & ->). destruct (HR p2 r2 O2 _ _ E5) as (u3 & r3 & _ & O3 & _). exact (IH _ _ _ _ O3 E7).
Qed.
End Rules.
