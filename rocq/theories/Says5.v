(* The logic of Says.v: component values and rules. *)
From Coq Require Import ZifyBool ZifyNat ZifyN.
From Coq Require Import String.
From Coq Require Import List.
From Verif Require Import AstSheet Values SpecSheet SpecLex SpecTrace SpecParser SpecSyntax SpecTraits SpecRules SpecFeatures SpecSelectors SpecCursor SpecToken LexBase TokenProofs KindProofs LexFacts LexTrace CursorProofs CursorLex
  ParserProofs ParserProofs2 ParserProofs3 ParserProofs4 CompareProofs SyntaxProofs SyntaxTotal TraitsTotal RulesTotal FeatureProofs FaithProofs FaithTraits FaithRules SelectorProofs3 SelectorProofs4 SelectorProofs8 SelectorProofs9 Goes
  Tells Tells2 Tells3 Tells4 Tells5 Tells6 Tells7 Shows Shows3 Says Says2 Says3 Says4.
From Verif Require Import SpecConforms SpecDecl SpecTree.
Open Scope N_scope.
Open Scope list_scope.

Section Rules.
Variable src : text.
Variable f : feature.
Variable all : list cursor.
Notation says := (says src f all).
Notation sv := (sv src f all).
Notation here := (here src f all).
Notation sq := (sq src f all).

(* ---- component values ---- *)
Lemma y_pair_start : says parse_pair_start (fun t => is_opener (tkind t)).
Proof. eapply says_of; [exact (w_pair_start src f) |]. intros t u (c & -> & _ & K). exact K. Qed.
Lemma y_pair_end : says parse_pair_end (fun t => is_closer (tkind t)).
Proof. eapply says_of; [exact (w_pair_end src f) |]. intros t u (c & -> & _ & K). exact K. Qed.
Lemma y_block_with : forall vp, says vp values_fit -> says (block_with vp) value_fits.
Proof.
  intros vp H. unfold block_with. intros p0. generalize (poffset p0) as o. intro o. revert p0. eapply says_bind; [exact y_pair_start |]. cbv beta. intros t Kt. eapply says_bind; [apply says_in_stop; exact H |]. intros vs Kv. apply says_or_peek.
  - eapply says_bind; [apply says_opt_ok; exact y_pair_end |]. cbv beta. intros cl Kc. apply says_ret. constructor; [exact Kt | exact Kv |]. intros t' ->. exact Kc.
  - apply says_ret. constructor; [exact Kt | exact Kv |]. intros t' E. discriminate E.
Qed.
Lemma y_function_with : forall args, says args values_fit -> says (function_with args) value_fits.
Proof.
  intros args H. unfold function_with. eapply says_bind; [apply y_kind; discriminate |]. cbv beta. intros n Kn. eapply says_bind; [exact H |]. intros vs Kv. eapply says_bind; [apply says_opt_ok, y_kind; discriminate |]. cbv beta. intros cl Kc. apply says_ret. constructor; [exact Kn | exact Kv |]. destruct cl; exact Kc.
Qed.
Lemma y_cv_tokens : says cv_tokens value_fits.
Proof.
  unfold cv_tokens. assert (X : forall ks, incl ks CV_KINDS -> says (fold_right (fun k e => or_peek (peek_kind k) (pmap (CvToken k) (parse_kind k)) e) unexpected_next ks) value_fits).
  { induction ks as [| k ks IH]; intro Hk; cbn [fold_right].
    - intros p H. unfold unexpected_next. destruct (next p) as [[c q] |] eqn:N; [apply sv_err; exact (here_next _ _ _ _ _ _ H N) | apply sv_none].
    - assert (Ik : In k CV_KINDS) by (apply Hk; now left). apply says_or_peek; [| apply IH; intros x Ix; apply Hk; now right]. apply says_pmap. eapply says_imp; [apply y_kind; intros ->; cbn [CV_KINDS In] in Ik; repeat (destruct Ik as [Ik | Ik]; [discriminate Ik |]); exact Ik |].
      cbv beta. intros c Kc. constructor; [exact Kc |]. right. exact Ik. }
  apply X. intros x Ix. exact Ix.
Qed.
Lemma y_values_fuel : forall n, says (cv_fuel n) value_fits /\ says (values_fuel n) values_fit /\ says (args_fuel n) values_fit.
Proof.
  induction n as [| n (IHc & IHv & IHa)]; (split; [| split]); try apply says_none.
  - cbn [cv_fuel]. apply says_or_peek; [apply says_pmap; eapply says_imp; [apply y_whitespace |]; cbv beta; intros c K; constructor; [exact K | now left] |]. apply says_or_peek; [apply says_in_state, y_block_with; exact IHv |]. apply says_or_peek; [apply y_function_with; exact IHa | exact y_cv_tokens].
  - cbn [values_fuel]. intros p H. destruct (p_at_end p); [apply sv_ok; [exact H | constructor] |]. destruct (next_is_stop p) as [[] |]; [apply sv_ok; [exact H | constructor] | | apply sv_none]. revert p H. apply says_or_peek; [| apply says_ret; constructor]. eapply says_bind; [exact IHc |]. intros v Kv. apply says_pmap. eapply says_imp; [exact IHv |]. intros l Kl. constructor; assumption.
  - cbn [args_fuel]. intros p H. destruct (p_at_end p); [apply sv_ok; [exact H | constructor] |]. revert p H. apply says_or_peek; [apply says_ret; constructor |]. eapply says_bind; [exact IHc |]. intros v Kv. apply says_pmap. eapply says_imp; [exact IHa |]. intros l Kl. constructor; assumption.
Qed.
Lemma y_values : says parse_component_values values_fit.
Proof. intros p H. exact (proj1 (proj2 (y_values_fuel (sfuel p))) p H). Qed.
Lemma y_value : says parse_component_value value_fits.
Proof. intros p H. exact (proj1 (y_values_fuel (sfuel p)) p H). Qed.
Lemma y_bad : says parse_bad_declaration values_fit.
Proof.
  intros p H. unfold parse_bad_declaration. generalize (sfuel p) as n. intro n. revert p H. change (says (bad_fuel n) values_fit). induction n as [| n IH]; cbn [bad_fuel]; [apply says_none |]. intros p H. cbv zeta. destruct (p_at_end p); [apply sv_ok; [exact H | constructor] |].
  assert (M : says (bind parse_component_value (fun v => pmap (cons v) (bad_fuel n))) values_fit). { eapply says_bind; [exact y_value |]. intros v Kv. apply says_pmap. eapply says_imp; [exact IH |]. intros l Kl. constructor; assumption. }
  revert p H. apply says_or_peek; [eapply says_bind; [exact y_value |]; intros v Kv; apply says_ret; constructor; [exact Kv | constructor] |]. apply says_or_peek; [| exact M]. intros p H. destruct (is_nested p); [apply sv_ok; [exact H | constructor] |]. revert p H. eapply says_bind; [apply y_kind; discriminate |]. intros _ _. exact M.
Qed.

(* ---- rules that hdx does not know ---- *)
Lemma y_important_pair : says (parse_if_peek peek_important parse_important) (fun o => forall b w, o = Some (b, w) -> important src b w).
Proof.
  eapply says_imp; [apply says_if_peek; instantiate (1 := fun x => important src (fst x) (snd x)) |].
  - unfold parse_important. eapply says_bind; [apply y_delim |]. intros b Kb. eapply says_bind; [apply y_kind; discriminate |]. cbv beta. intros i Ki p H. rewrite (here_src _ _ _ _ H).
    destruct (eq_ignore_ascii_case i src IMPORTANT) as [[] |] eqn:E; [apply sv_ok; [exact H |] | apply sv_err; exact H | apply sv_none]. split; [exact Kb |]. split; [exact Ki | exact E].
  - intros [[b w] |] K b' w' E; [| discriminate E]. injection E as <- <-. exact K.
Qed.
Lemma y_generic_declaration : says parse_declaration (declaration_fits src).
Proof.
  unfold parse_declaration. apply says_pmap. unfold declaration_t. eapply says_bind; [apply y_kind; discriminate |]. cbv beta. intros n Kn. cbv beta iota. eapply says_bind; [apply y_kind; discriminate |]. cbv beta. intros c Kc. eapply says_bind; [exact y_values |]. intros v Kv. eapply says_bind; [exact y_important_pair |]. intros i Ki. apply says_ret. unfold declaration_fits. cbn [dname dcolon dvalue dimportant]. auto.
Qed.
Lemma y_block_of : forall rule_p, says rule_p (generic_fits src) -> says (block_of rule_p) (generic_block src).
Proof.
  intros rule_p HR p H. unfold block_of. apply sv_pmap. eapply sv_imp; [exact (y_block src f all peek_declaration _ _ _ _ y_generic_declaration HR p H) |]. intros [[[o ds] rs] c] (K1 & K2 & K3). constructor; assumption.
Qed.
Lemma y_at_rule_of : forall block_p, says block_p (generic_block src) -> says (at_rule_of block_p) (fun r => exists name prelude body, r = AtRule name prelude body /\ generic_fits src r).
Proof.
  intros block_p HB. unfold at_rule_of.
  assert (Ob : says (optional_block block_p) (generic_body src)).
  { unfold optional_block. eapply says_bind; [apply says_if_peek; exact HB |]. intros [b |] K; [apply says_ret; constructor; exact K |]. apply says_pmap. eapply says_imp; [apply y_if_kind; discriminate |]. intros s Ks. constructor. exact Ks. }
  eapply says_bind; [apply says_in_stop; exact (y_at_rule src f all _ _ None _ _ _ _ y_values Ob) |]. intros [[a pr] b] (Ka & _ & Kp & Kb). eapply says_bind; [apply y_if_kind; discriminate |]. intros _ _. apply says_ret. exists a, pr, b. split; [reflexivity |]. constructor; assumption.
Qed.
Lemma y_qualified_rule_of : forall block_p, says block_p (generic_block src) -> says (qualified_rule_of block_p) (fun r => exists prelude body, r = QualifiedRule prelude body /\ generic_fits src r).
Proof.
  intros block_p HB. unfold qualified_rule_of. apply says_pmap. eapply says_imp; [exact (y_qualified_rule src f all _ _ _ _ _ _ _ _ _ y_values HB y_bad) |]. intros [v b] (Kv & Kb). cbn [fst snd] in *. exists v, b. split; [reflexivity |]. constructor; assumption.
Qed.
Lemma y_rule_fuel : forall n, says (rule_fuel n) (generic_fits src).
Proof.
  induction n as [| n IH]; cbn [rule_fuel]; [apply says_none |]. cbv zeta. apply says_or_peek.
  - eapply says_imp; [exact (y_at_rule_of _ (y_block_of _ IH)) |]. intros r (a & b & c & _ & K). exact K.
  - eapply says_imp; [exact (y_qualified_rule_of _ (y_block_of _ IH)) |]. intros r (a & b & _ & K). exact K.
Qed.
Lemma y_unknown_at : forall nested, says parse_unknown_at (rule_fits src all nested).
Proof.
  intros nested. unfold parse_unknown_at. apply says_pmap. intros p H. eapply sv_imp; [exact (y_at_rule_of _ (y_block_of _ (y_rule_fuel _)) p H) |]. intros r (a & b & c & -> & K). constructor. exact K.
Qed.
Lemma y_unknown_qualified : forall nested, says parse_unknown_qualified (rule_fits src all nested).
Proof.
  intros nested. unfold parse_unknown_qualified. apply says_pmap. intros p H. eapply sv_imp; [exact (y_qualified_rule_of _ (y_block_of _ (y_rule_fuel _)) p H) |]. intros r (a & b & -> & K). constructor. exact K.
Qed.

(* ---- @property, margins ---- *)
Lemma registered_word_in : forall w k, In (w, k) REGISTERED_NAMES -> match k with RwInitial => w = chars "initial-value" | RwInherits => w = chars "inherits" | RwSyntax => w = chars "syntax" end.
Proof. intros w k I. unfold REGISTERED_NAMES in I. cbn [In] in I. destruct I as [E | [E | [E | []]]]; assert (A := f_equal fst E); assert (B := f_equal snd E); cbn [fst snd] in A, B; subst; reflexivity. Qed.
Definition registered_value_ok (n : cursor) (v : registered_value) : Prop :=
  exists w, parse_str_lower n src = Some w /\
  match v with
  | PvInitial l => w = chars "initial-value" /\ values_fit l
  | PvInherits v => w = chars "inherits" /\ in_words INHERITS_VALUES src v
  | PvSyntax c => w = chars "syntax" /\ kind_of c = K_String
  | PvUnknown l => values_fit l /\ ~ In w (map chars ["initial-value"; "inherits"; "syntax"]%string)
  end.
Lemma y_registered_value : forall n, kind_of n = K_Ident -> says (parse_registered_value n) (registered_value_ok n).
Proof.
  intros n Kn p H. unfold parse_registered_value. unfold peek_set. assert (T : tok_is (ctok n) K_Ident = true). { apply tok_is_kind; [apply wf_of_kind; unfold kind_of in Kn; intro X; rewrite X in Kn; discriminate Kn | exact Kn]. } rewrite T. unfold build_set, look_up. rewrite (here_src _ _ _ _ H). destruct (parse_str_lower n src) as [w |] eqn:Ew; [| apply sv_none]. cbn [option_map].
  destruct (map_get REGISTERED_NAMES w) as [k |] eqn:G.
  - apply map_get_in in G. apply registered_word_in in G. destruct k; apply sv_pmap.
    + eapply sv_imp; [exact (y_values p H) |]. intros l K. exists w. auto.
    + eapply sv_imp; [exact (y_set src f all _ K_Ident _ ltac:(discriminate) p H) |]. cbv beta. intros l K. exists w. auto.
    + eapply sv_imp; [exact (y_kind src f all K_String ltac:(discriminate) p H) |]. cbv beta. intros l K. exists w. auto.
  - apply sv_pmap. eapply sv_imp; [exact (y_values p H) |]. intros l K. exists w. split; [exact Ew |]. split; [exact K |]. intro I. cbn [map In] in I. destruct I as [I | [I | [I | []]]].
    + apply (map_get_none _ _ _ RwInitial G). left. f_equal. exact I.
    + apply (map_get_none _ _ _ RwInherits G). right; left. f_equal. exact I.
    + apply (map_get_none _ _ _ RwSyntax G). right; right; left. f_equal. exact I.
Qed.
Lemma y_registered : says parse_registered (registered_fits src).
Proof.
  unfold parse_registered. eapply says_bind; [apply (y_declaration src f all _ _ _ (fun _ => True) registered_value_ok); [intros; exact Logic.I | intros n Kn _; exact (y_registered_value n Kn)] |]. intros [[[n c] v] i] (Kn & Kc & _ & w & Ew & Kv). destruct i as [[b x] |]; [apply says_fail |]. apply says_ret.
  unfold registered_fits. cbn [rg_name rg_colon rg_value]. split; [exact Kn |]. split; [exact Kc |]. exists w. auto.
Qed.
Lemma y_properties_block : says (declaration_list_t (parse_property VALUES)) (block_of_declarations src all).
Proof. eapply says_imp; [exact (y_declaration_list src f all _ _ (y_property src f all)) |]. intros [[o l] c] K. exact K. Qed.
Lemma y_margin : says (parse_margin_rule VALUES) (margin_fits src all).
Proof.
  unfold parse_margin_rule. eapply says_bind; [exact (y_at_rule src f all _ _ None _ _ _ _ (y_no_prelude src f all) y_properties_block) |]. intros [[a pr] b] (Ka & _ & _ & Kb) p H. destruct (peek_set K_AtKeyword (words MARGIN_NAMES) p a) as [[] |] eqn:Pk; [| apply says_fail_text; exact H | apply sv_none]. apply sv_ok; [exact H |].
  split; [exact Ka |]. split; [| exact Kb]. cbn [mg_at]. unfold peek_set in Pk. destruct (tok_is (ctok a) K_AtKeyword); [| discriminate Pk]. unfold look_up in Pk. rewrite (here_src _ _ _ _ H) in Pk. destruct (parse_str_lower a src) as [w |] eqn:Ew; [| discriminate Pk]. cbn [option_map] in Pk. destruct (map_get (words MARGIN_NAMES) w) as [v |] eqn:G; [| discriminate Pk].
  exists v. split; [exact Ka |]. exists w. split; [exact Ew | exact (map_get_in _ _ _ _ G)].
Qed.

(* ---- rules ---- *)
Notation fits := (rule_fits src all).
Lemma y_charset : says parse_charset (fits false).
Proof.
  unfold parse_charset. eapply says_bind; [apply y_kind; discriminate |]. cbv beta. intros a Ka. apply says_bind with (Q1 := fun _ => at_named src "charset" a).
  - intros p H. rewrite (here_src _ _ _ _ H). destruct (eq_ignore_ascii_case a src (chars "charset")) as [[] |] eqn:E; [apply sv_ok; [exact H | split; assumption] | apply says_fail_text; exact H | apply sv_none].
  - intros _ Kn. eapply says_bind; [apply y_whitespace |]. cbv beta. intros w Kw. eapply says_bind; [apply y_kind; discriminate |]. cbv beta. intros s Ks. eapply says_bind; [apply says_opt_ok, y_kind; discriminate |]. cbv beta. intros o Ko. apply says_ret. constructor; [exact Kn | exact Kw | exact Ks |]. destruct o; exact Ko.
Qed.
Section Nested.
Variable rule_p : P css_rule.
Hypothesis HR : says rule_p (fits false).
Lemma y_container : forall nested, says (parse_container rule_p) (fits nested).
Proof.
  intros nested. unfold parse_container. eapply y_with_prelude; [exact (y_container_conditions src f all) | exact (y_rule_list src f all _ _ HR) |]. intros a v [[o rs] c] Ka (F & N) (Kc & Kr). constructor; assumption.
Qed.
Lemma y_document : says (parse_document rule_p) (fits false).
Proof.
  unfold parse_document. eapply y_with_prelude; [exact (y_document_matchers src f all) | exact (y_rule_list src f all _ _ HR) |]. intros a v [[o rs] c] Ka (F & N) (Kc & Kr). constructor; assumption.
Qed.
Lemma y_moz_document : says (parse_moz_document rule_p) (fits false).
Proof.
  unfold parse_moz_document. eapply y_with_prelude; [exact (y_document_matchers src f all) | exact (y_rule_list src f all _ _ HR) |]. intros a v [[o rs] c] Ka (F & N) (Kc & Kr). constructor; assumption.
Qed.
Lemma y_supports : forall nested, says (parse_supports VALUES rule_p) (fits nested).
Proof.
  intros nested. unfold parse_supports. eapply y_with_prelude; [exact (y_supports_condition src f all) | exact (y_rule_list src f all _ _ HR) |]. intros a v [[o rs] c] Ka F (Kc & Kr). constructor; assumption.
Qed.
Lemma y_media : forall nested, says (parse_media VALUES rule_p) (fits nested).
Proof.
  intros nested. unfold parse_media. eapply y_with_prelude; [exact (y_media_queries src f all) | exact (y_block src f all peek_declaration _ _ _ _ (y_property src f all) HR) |]. intros a v [[[o ds] rs] c] Ka (F & N) (Kc & Kd & Kr). constructor; assumption.
Qed.
Lemma y_layer : forall nested, says (parse_layer rule_p) (fits nested).
Proof.
  intros nested. unfold parse_layer.
  assert (Ob : says (optional_layer_block rule_p) (fun x => match x with inl c => kind_of c = K_Semicolon | inr (o, rs, c) => curly o c /\ Forall (fits false) rs end)).
  { unfold optional_layer_block. eapply says_bind; [apply y_if_kind; discriminate |]. intros [c |] K; [apply says_ret; exact K |]. apply says_pmap. eapply says_imp; [exact (y_rule_list src f all _ _ HR) |]. intros [[o rs] c] X. exact X. }
  eapply says_bind; [exact (y_at_rule src f all _ _ _ _ _ _ _ (y_layer_names src f all) Ob) |]. intros [[a names] b] (Ka & Kn & Kp & Kb). specialize (Kn _ eq_refl). destruct b as [c | [[o rs] c]].
  - apply says_ret. constructor; [split; assumption | exact Kp | exact Kb].
  - destruct Kb as (Kc & Kr). assert (Y : (forall l, names = Some l -> listed layer_fits l /\ List.length l = 1%nat) -> says (ret (RLayer a names o rs c)) (fits nested)) by (intro X; apply says_ret; constructor; [split; assumption | exact X | exact Kc | exact Kr]).
    destruct names as [[| n [| n2 l]] |]; [apply Y | apply Y | apply says_fail | apply Y].
    + intros l E. apply some_inj in E. subst l. destruct (Kp _ eq_refl) as (_ & Ne). elim Ne. reflexivity.
    + intros l E. apply some_inj in E. subst l. destruct (Kp _ eq_refl) as (Kl & _). split; [exact Kl | reflexivity].
    + intros l E. discriminate E.
Qed.
End Nested.
Lemma y_font_face : says (parse_font_face VALUES) (fits false).
Proof.
  unfold parse_font_face. apply says_pmap. eapply says_imp; [exact (y_at_rule src f all _ _ _ _ _ _ _ (y_no_prelude src f all) (y_rule_list src f all _ _ (y_font_face_property src f all))) |]. intros [[a pr] [[o ds] c]] (Ka & Kn & _ & Kc & Kd). specialize (Kn _ eq_refl). constructor; [split; assumption | exact Kc | exact Kd].
Qed.
Lemma y_keyframes : says (parse_keyframes VALUES) (fits false).
Proof.
  unfold parse_keyframes. apply says_pmap. eapply says_imp; [exact (y_at_rule src f all _ _ _ _ _ _ _ (y_keyframes_name src f all) (y_rule_list src f all _ _ (y_keyframe src f all))) |]. intros [[a pr] [[o ds] c]] (Ka & Kn & Kp & Kc & Kd). specialize (Kn _ eq_refl). constructor; [split; assumption | exact Kp | exact Kc | exact Kd].
Qed.
Lemma y_webkit_keyframes : says (parse_webkit_keyframes VALUES) (fits false).
Proof.
  unfold parse_webkit_keyframes. eapply y_with_prelude; [exact (y_keyframes_name src f all) | exact (y_rule_list src f all _ _ (y_keyframe src f all)) |]. intros a v [[o rs] c] Ka F (Kc & Kr). constructor; assumption.
Qed.
Lemma y_page : says (parse_page VALUES) (fits false).
Proof.
  unfold parse_page. apply says_pmap. eapply says_imp; [exact (y_at_rule src f all _ _ _ _ _ _ _ (y_page_selectors src f all) (y_declaration_rule_list src f all _ _ _ _ (y_property src f all) y_margin)) |]. intros [[a pr] [[[o ds] rs] c]] (Ka & Kn & Kp & Kc & Kd & Kr). specialize (Kn _ eq_refl). constructor; [split; assumption | exact Kp | exact Kc | exact Kd | exact Kr].
Qed.
Lemma y_property_rule : says parse_property_rule (fits false).
Proof.
  unfold parse_property_rule. eapply y_with_prelude; [exact (y_dashed src f all) | exact (y_declaration_list src f all _ _ y_registered) |]. intros a v [[o rs] c] Ka (Kv & Kd) (Kc & Kr). constructor; assumption.
Qed.
Lemma y_style_rule : forall nested nested_p, says nested_p (fits true) -> says (parse_style_rule VALUES nested_p) (fits nested).
Proof.
  intros nested nested_p HN. unfold parse_style_rule. apply says_pmap. eapply says_imp; [exact (y_qualified_rule src f all _ _ _ _ _ _ _ _ _ (y_selectors src f all) (y_block src f all peek_declaration _ _ _ _ (y_property src f all) HN) y_bad) |]. intros [sel [[[o ds] rs] c]] (Ks & Kc & Kd & Kr). constructor; assumption.
Qed.
Lemma y_by_name : forall nested table, (forall w m, In (w, m) table -> says m (fits nested)) -> says (at_rule_by_name table) (fits nested).
Proof.
  intros nested table HT p H. unfold at_rule_by_name. destruct (peek_n p 1) as [c |]; [| apply sv_none]. unfold look_up. destruct (parse_str_lower c (lsrc (plex p))) as [w |]; [| apply sv_none].
  destruct (map_get table w) as [m |] eqn:G; [| exact (y_unknown_at nested p H)]. apply map_get_in in G. pose proof (HT w m G p H) as X. destruct (m p) as [[[r | e] q] |]; [| | apply sv_none]; destruct (X _ _ eq_refl) as (Hq & Y); [apply sv_ok; [exact Hq | exact (Y r eq_refl)] |].
  exact (y_unknown_at nested _ (here_back _ _ _ _ _ H Hq)).
Qed.
Lemma y_by_selector : forall nested style_p, says style_p (fits nested) -> says (rule_by_selector style_p) (fits nested).
Proof.
  intros nested style_p HS p H. unfold rule_by_selector. pose proof (HS p H) as X. destruct (style_p p) as [[[r | e] q] |]; [| | apply sv_none]; destruct (X _ _ eq_refl) as (Hq & Y); [apply sv_ok; [exact Hq | exact (Y r eq_refl)] |]. exact (y_unknown_qualified nested _ (here_back _ _ _ _ _ H Hq)).
Qed.
Lemma y_nested_by_selector : forall style_p, says style_p (fits true) -> says (nested_by_selector style_p) (fits true).
Proof.
  intros style_p HS p H. unfold nested_by_selector. pose proof (y_by_selector true style_p HS p H) as X. destruct (rule_by_selector style_p p) as [[[r | e] q] |]; [| | apply sv_none]; destruct (X _ _ eq_refl) as (Hq & Y); [apply sv_ok; [exact Hq | exact (Y r eq_refl)] |].
  apply sv_pmap. eapply sv_imp; [exact (says_in_state src f all _ _ _ _ y_bad _ (here_back _ _ _ _ _ H Hq)) |]. intros l K. constructor. exact K.
Qed.
Lemma y_todo : forall nested, says (@parse_todo css_rule) (fits nested).
Proof. intros nested p H. apply sv_err. exact H. Qed.
Lemma y_css_rule_n : forall n nested, says (css_rule_n VALUES n nested) (fits nested).
Proof.
  induction n as [| n IH]; intros nested p H; [apply sv_none |]. cbn [css_rule_n]. pose proof (IH false) as HR. revert p H. apply says_or_peek.
  - destruct nested; apply y_by_name.
    + intros w m I. unfold NESTED_AT_RULES in I. apply in_map_iff in I. destruct I as ([s m'] & E & I). cbn [fst snd] in E. injection E as _ <-. cbn [In] in I.
      repeat (destruct I as [E | I]; [injection E as _ <-; lazymatch goal with |- Says.says _ _ _ parse_todo _ => exact (y_todo _) | |- Says.says _ _ _ (parse_container _) _ => exact (y_container _ HR _) | |- Says.says _ _ _ (parse_layer _) _ => exact (y_layer _ HR _) | |- Says.says _ _ _ (parse_media _ _) _ => exact (y_media _ HR _) | |- Says.says _ _ _ (parse_supports _ _) _ => exact (y_supports _ HR _) end |]). contradiction.
    + intros w m I. unfold AT_RULES in I. apply in_map_iff in I. destruct I as ([s m'] & E & I). cbn [fst snd] in E. injection E as _ <-. cbn [In] in I.
      repeat (destruct I as [E | I]; [injection E as _ <-; lazymatch goal with |- Says.says _ _ _ parse_todo _ => exact (y_todo _) | |- Says.says _ _ _ parse_charset _ => exact y_charset | |- Says.says _ _ _ (parse_container _) _ => exact (y_container _ HR _) | |- Says.says _ _ _ (parse_font_face _) _ => exact y_font_face | |- Says.says _ _ _ (parse_keyframes _) _ => exact y_keyframes
        | |- Says.says _ _ _ (parse_layer _) _ => exact (y_layer _ HR _) | |- Says.says _ _ _ (parse_media _ _) _ => exact (y_media _ HR _) | |- Says.says _ _ _ (parse_page _) _ => exact y_page | |- Says.says _ _ _ parse_property_rule _ => exact y_property_rule | |- Says.says _ _ _ (parse_supports _ _) _ => exact (y_supports _ HR _)
        | |- Says.says _ _ _ (parse_document _) _ => exact (y_document _ HR) | |- Says.says _ _ _ (parse_webkit_keyframes _) _ => exact y_webkit_keyframes | |- Says.says _ _ _ (parse_moz_document _) _ => exact (y_moz_document _ HR) end |]). contradiction.
  - destruct nested; [apply y_nested_by_selector | apply y_by_selector]; apply y_style_rule; exact (IH true).
Qed.
Lemma y_css_rule : says (parse_css_rule VALUES) (fits false).
Proof. intros p H. exact (y_css_rule_n _ false p H). Qed.
Lemma y_nested_rule : says (parse_nested_rule VALUES) (fits true).
Proof. intros p H. exact (y_css_rule_n _ true p H). Qed.
Lemma y_parse_sheet : says (parse_sheet VALUES) (Forall (fits false)).
Proof. exact (y_sheet src f all _ _ y_css_rule). Qed.
End Rules.
