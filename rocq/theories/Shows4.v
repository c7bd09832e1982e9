(* The logic of Shows.v: the rules and the stylesheet. *)
From Coq Require Import ZifyBool ZifyNat ZifyN Permutation.
From Coq Require Import String.
From Coq Require Import List.
From Verif Require Import AstSheet SpecSheet SpecWritten SpecLex SpecTrace SpecParser SpecSyntax SpecTraits SpecRules SpecFeatures SpecSelectors SpecCursor SpecToken LexBase TokenProofs KindProofs LexFacts LexTrace CursorProofs CursorLex
  ParserProofs ParserProofs2 ParserProofs3 ParserProofs4 CompareProofs SyntaxProofs SyntaxTotal TraitsTotal RulesTotal FeatureProofs FaithProofs FaithTraits FaithRules SelectorProofs3 SelectorProofs4 SelectorProofs9 Goes
  Tells Tells2 Tells3 Tells4 Tells5 Tells6 Tells7 Tells8 Tells9 SpecHighlight Shows Shows2 Shows3.
Open Scope N_scope.
Open Scope list_scope.

Definition property_marks (d : property) : list mark := [MName (pr_name d) (unknown_value (pr_value d)); MPunctuation (pr_colon d)].
Definition properties_marks : list (property * option cursor) -> list mark := decls_marks property_marks.
Definition registered_marks (d : registered) : list mark := [MName (rg_name d) (unknown_registered (rg_value d)); MPunctuation (rg_colon d)].
Definition support_marks (x : supports_feature) : list mark := match x with SfSelector _ _ l _ _ => selectors_marks l | SfProperty _ d _ => property_marks d end.
Definition block_marks (b : properties_block) : list mark := properties_marks (block_properties b).
Fixpoint rule_marks (r : css_rule) : list mark :=
  match r with
  | RContainer _ _ _ l _ | RDocument _ _ _ l _ | RLayer _ _ _ l _ => flat_map rule_marks l
  | RKeyframes _ _ _ frames _ => flat_map (fun k => block_marks (kf_block k)) frames
  | RPage _ _ _ decls rules _ => properties_marks decls ++ flat_map (fun m => block_marks (mg_block m)) rules
  | RProperty _ name _ decls _ => MRegistered name :: decls_marks registered_marks decls
  | RSupports _ query _ l _ => flat_map support_marks (features query) ++ flat_map rule_marks l
  | RStyle selectors open decls l close => selectors_marks selectors ++ (MPunctuation open :: curly close) ++ properties_marks decls ++ flat_map rule_marks l
  | _ => []
  end.

Section Rules.
Variable src : text.
Variable f : feature.
Notation tells := (tells src f).
Notation onto := (onto src f).
Notation tv := (tv src f).
Notation shows g := (fun a u => sh src (g a) u).
Variables loose lossy : text -> bool.
Variable props : properties.
Variable Hp : told_values src f loose lossy props.
Notation rules := (shows rule_marks).

Lemma s_property_of : forall valid, tells (pmap property_of (declaration_t valid (parse_style_value props))) (shows property_marks).
Proof.
  intros valid p cs O. apply tv_pmap. eapply tv_use; [exact O | apply s_declaration; intro n; exact (tells_any_out _ _ _ _ _ (w_style_value src f loose lossy props Hp n)) |]. intros [[[n c] v] i] u K. exact (K _).
Qed.
Lemma s_property : tells (parse_property props) (shows property_marks).
Proof. exact (s_property_of _). Qed.
Lemma s_registered : tells parse_registered (shows registered_marks).
Proof.
  intros p cs O. unfold parse_registered. eapply tv_bind; [exact O | apply s_declaration; intro n; exact (tells_any_out _ _ _ _ _ (w_registered_value src f n)) |].
  intros [[[n c] v] i] u q r E Oq K. destruct i as [[b i] |]; [apply tv_err; exact Oq |]. apply tv_ok; [exact Oq |]. rewrite app_nil_r. exact (K _).
Qed.
Lemma s_properties_block : tells (declaration_list_t (parse_property props)) (shows block_marks).
Proof. eapply tells_imp; [exact (s_declaration_list src f _ _ s_property) |]. intros [[o l] c] u K. exact K. Qed.
Lemma s_support : tells (parse_supports_feature props) (shows support_marks).
Proof.
  intros p cs O. unfold parse_supports_feature. eapply tv_bind; [exact O | apply tells_if_kind; discriminate |]. intros open u q r E Oq K. clear K. apply tv_or_peek; intro Pk.
  - eapply tv_bind; [exact Oq | apply k_set; discriminate |]. intros [w fn] u2 q2 r2 E2 O2 K2. clear K2. destruct w; [apply tv_none | apply tv_none |].
    eapply tv_bind; [exact O2 | apply s_selectors |]. intros l u3 q3 r3 E3 O3 K3. eapply tv_bind; [exact O3 | apply k_kind; discriminate |]. intros c u4 q4 r4 E4 O4 K4. clear K4. apply tv_pmap. destruct open as [o |].
    + apply tv_pmap. eapply tv_use; [exact O4 | apply k_kind; discriminate |]. intros c2 v Kc. clear Kc. cbn [support_marks]. shw.
    + apply tv_ok; [exact O4 |]. cbn [support_marks]. shw.
  - destruct open as [o |].
    + eapply tv_bind; [exact Oq | exact s_property |]. intros d u2 q2 r2 E2 O2 K2. apply tv_pmap. eapply tv_use; [exact O2 | apply tells_if_kind; discriminate |]. intros c v Kc. clear Kc. cbn [support_marks]. shw.
    + destruct (peek_n q 1); [apply tv_err; exact Oq | apply tv_none].
Qed.
Lemma s_supports_condition : tells (parse_supports_condition props) (shows (fun x => flat_map support_marks (features x))).
Proof.
  intros p cs O. unfold parse_supports_condition. apply tv_or_peek; intro Pk.
  - apply tv_pmap. eapply tv_use; [exact O | exact s_support |]. intros x u K. cbn [features flat_map]. rewrite app_nil_r. exact K.
  - exact (s_condition src f _ _ _ s_support p cs O).
Qed.
Lemma s_keyframe : tells (parse_keyframe props) (fun k u => sh src (block_marks (kf_block k)) u).
Proof.
  intros p cs O. unfold parse_keyframe. apply tv_pmap. eapply tv_use; [exact O | exact (s_qualified_rule src f _ _ _ _ _ _ _ _ _ (w_commas src f _ _ _ _ (w_keyframe_selector src f)) s_properties_block (w_bad src f)) |].
  intros [l b] u (u1 & u2 & -> & K1 & K2). cbn [fst snd kf_block] in *. apply sh_left. exact K2.
Qed.
(* rules *)
Lemma s_with_prelude : forall Pr B A (build : cursor -> Pr -> B -> A) name (prelude_p : P Pr) (block_p : P B) KP KB (K : A -> list cursor -> Prop),
  tells prelude_p KP -> tells block_p KB -> (forall a v b u0 u1 u2, KP v u1 -> KB b u2 -> K (build a v b) (u0 ++ u1 ++ u2)) ->
  tells (with_prelude build (at_rule_t name prelude_p block_p)) K.
Proof.
  intros Pr B A build name prelude_p block_p KP KB K HP HB H p cs O. unfold with_prelude. eapply tv_bind; [exact O | exact (s_at_rule src f _ _ name _ _ _ _ HP HB) |].
  intros [[a pr] b] u q r E Oq (u0 & u1 & u2 & -> & K1 & K2). destruct pr as [v |]; [| apply tv_err; exact Oq]. apply tv_ok; [exact Oq |]. rewrite app_nil_r. exact (H a v b u0 u1 u2 K1 K2).
Qed.
Lemma s_list_rule : forall Pr name (prelude_p : P Pr) (rule_p : P css_rule) KP (pm : Pr -> list mark) (build : cursor -> Pr -> cursor -> list css_rule -> option cursor -> css_rule),
  tells prelude_p KP -> (forall v u, KP v u -> sh src (pm v) u) -> tells rule_p rules -> (forall a v o rs c, rule_marks (build a v o rs c) = pm v ++ flat_map rule_marks rs) ->
  tells (with_prelude (fun at_ v b => let '(o, rs, c) := b in build at_ v o rs c) (at_rule_t name prelude_p (rule_list_t rule_p))) rules.
Proof.
  intros Pr name prelude_p rule_p KP pm build HP HM HR H. eapply s_with_prelude; [exact HP | exact (s_rule_list src f _ _ HR) |].
  intros a v [[o rs] c] u0 u1 u2 K1 K2. rewrite H. apply HM in K1. apply sh_left, sh_app; [exact K1 | exact K2].
Qed.
Lemma silent_prelude : forall Pr (KP : Pr -> list cursor -> Prop), forall v u, KP v u -> sh src ((fun _ => []) v) u.
Proof. intros. apply sh_nil. Qed.
Lemma s_silent : forall m K, tells m K -> (forall p r q, m p = Some (Ok r, q) -> rule_marks r = []) -> tells m rules.
Proof.
  intros m K T H p cs O r q E. destruct (T p cs O r q E) as (u & rest & E0 & Oq & _). exists u, rest. split; [exact E0 |]. split; [exact Oq |]. intros a ->. rewrite (H _ _ _ E). apply sh_nil.
Qed.
Lemma s_charset : tells parse_charset rules.
Proof.
  eapply s_silent; [exact (w_charset src f loose lossy) |]. intros p r q E. unfold parse_charset in E. do 5 (destruct (bind_inv _ _ _ _ _ _ _ E) as (? & ? & _ & E'); clear E; rename E' into E). injection E as <- <-. reflexivity.
Qed.
Lemma s_container : forall rule_p, tells rule_p rules -> tells (parse_container rule_p) rules.
Proof. intros rule_p HR. unfold parse_container. eapply s_list_rule; [exact (w_container_conditions src f) | apply silent_prelude | exact HR | reflexivity]. Qed.
Lemma s_document : forall rule_p, tells rule_p rules -> tells (parse_document rule_p) rules.
Proof. intros rule_p HR. unfold parse_document. eapply s_list_rule; [exact (w_document_matchers src f) | apply silent_prelude | exact HR | reflexivity]. Qed.
Lemma s_moz_document : forall rule_p, tells rule_p rules -> tells (parse_moz_document rule_p) rules.
Proof.
  intros rule_p HR. unfold parse_moz_document. eapply s_with_prelude; [exact (w_document_matchers src f) | exact (s_rule_list src f _ _ HR) |]. intros a v [[o rs] c] u0 u1 u2 _ _. apply sh_nil.
Qed.
Lemma s_supports : forall rule_p, tells rule_p rules -> tells (parse_supports props rule_p) rules.
Proof. intros rule_p HR. unfold parse_supports. eapply s_list_rule; [exact s_supports_condition | intros v u K; exact K | exact HR | reflexivity]. Qed.
Lemma s_font_face : tells (parse_font_face props) rules.
Proof.
  intros p cs O. unfold parse_font_face. apply tv_pmap. eapply tv_use; [exact O | exact (s_at_rule src f _ _ _ _ _ _ _ (w_no_prelude src f) (s_rule_list src f _ _ (s_property_of _))) |].
  intros [[a pr] [[o ds] c]] u K. apply sh_nil.
Qed.
Lemma s_keyframes : tells (parse_keyframes props) rules.
Proof.
  intros p cs O. unfold parse_keyframes. apply tv_pmap. eapply tv_use; [exact O | exact (s_at_rule src f _ _ _ _ _ _ _ (w_keyframes_name src f) (s_rule_list src f _ (fun k => block_marks (kf_block k)) s_keyframe)) |].
  intros [[a pr] [[o ds] c]] u (u0 & u1 & u2 & -> & K1 & K2). cbn [rule_marks]. apply sh_left, sh_left. exact K2.
Qed.
Lemma s_webkit_keyframes : tells (parse_webkit_keyframes props) rules.
Proof.
  unfold parse_webkit_keyframes. eapply s_with_prelude; [exact (w_keyframes_name src f) | exact (s_rule_list src f _ (fun k => block_marks (kf_block k)) s_keyframe) |]. intros a v [[o rs] c] u0 u1 u2 _ _. apply sh_nil.
Qed.
Lemma s_layer : forall rule_p, tells rule_p rules -> tells (parse_layer rule_p) rules.
Proof.
  intros rule_p HR.
  assert (Ob : tells (optional_layer_block rule_p) (fun x u => match x with inl c => True | inr (o, rs, c) => sh src (flat_map rule_marks rs) u end)).
  { intros p cs O. unfold optional_layer_block. eapply tv_bind; [exact O | apply k_if; discriminate |]. intros [c |] u q r E Oq K.
    - apply tv_ok; [exact Oq |]. exact Logic.I.
    - apply tv_pmap. eapply tv_use; [exact Oq | exact (s_rule_list src f _ _ HR) |]. intros [[o rs] c] v Kv. apply sh_left. exact Kv. }
  intros p cs O. unfold parse_layer. eapply tv_bind; [exact O | exact (s_at_rule src f _ _ _ _ _ _ _ (w_layer_names src f) Ob) |].
  intros [[a pr] b] u q r E Oq (u0 & u1 & u2 & -> & K1 & K2). cbv beta iota in *. destruct b as [c | [[o rs] c]].
  - apply tv_ok; [exact Oq |]. apply sh_nil.
  - assert (Y : tv r (fun b v => sh src (rule_marks b) ((u0 ++ u1 ++ u2) ++ v)) (Some (Ok (RLayer a pr o rs c), q))).
    { apply tv_ok; [exact Oq |]. cbn [rule_marks]. rewrite app_nil_r. apply sh_left, sh_left. exact K2. }
    destruct pr as [[| n [| n2 l]] |]; [exact Y | exact Y | apply tv_err; exact Oq | exact Y].
Qed.
Lemma s_media : forall rule_p, tells rule_p rules -> tells (parse_media props rule_p) rules.
Proof.
  intros rule_p HR. unfold parse_media. eapply s_with_prelude; [exact (w_media_queries src f) | exact (s_block src f peek_declaration _ _ _ _ s_property HR) |]. intros a v [[[o ds] rs] c] u0 u1 u2 _ _. apply sh_nil.
Qed.
Lemma s_margin : tells (parse_margin_rule props) (fun m u => sh src (block_marks (mg_block m)) u).
Proof.
  intros p cs O. unfold parse_margin_rule. eapply tv_bind; [exact O | exact (s_at_rule src f _ _ _ _ _ _ _ (w_no_prelude src f) s_properties_block) |].
  intros [[a pr] b] u q r E Oq (u0 & u1 & u2 & -> & K1 & K2). cbv beta iota in *. destruct (peek_set _ _ _ _) as [[] |]; [| apply tells_fail_text; exact Oq | apply tv_none]. apply tv_ok; [exact Oq |]. cbn [mg_block]. rewrite app_nil_r. apply sh_left, sh_left. exact K2.
Qed.
Lemma s_page : tells (parse_page props) rules.
Proof.
  intros p cs O. unfold parse_page. apply tv_pmap. eapply tv_use; [exact O | exact (s_at_rule src f _ _ _ _ _ _ _ (w_page_selectors src f) (s_declaration_rule_list src f _ _ _ (fun m => block_marks (mg_block m)) s_property s_margin)) |].
  intros [[a pr] [[[o ds] rs] c]] u (u0 & u1 & u2 & -> & K1 & K2). cbv beta iota in *. cbn [rule_marks]. apply sh_left, sh_left. exact K2.
Qed.
Lemma s_registered_name : tells parse_dashed_ident (fun c u => sh src [MRegistered c] u).
Proof. eapply tells_imp; [apply s_dashed |]. intros c u (A & K). apply sh_one; [exact K | exact A]. Qed.
Lemma s_property_rule : tells parse_property_rule rules.
Proof.
  unfold parse_property_rule. eapply s_with_prelude; [exact s_registered_name | exact (s_declaration_list src f _ _ s_registered) |].
  intros a v [[o ds] c] u0 u1 u2 K1 K2. cbn [rule_marks]. apply sh_left. exact (sh_app _ _ _ _ _ K1 K2).
Qed.
Lemma s_style_rule : forall nested_p, tells nested_p rules -> tells (parse_style_rule props nested_p) rules.
Proof.
  intros nested_p HN p cs O. unfold parse_style_rule. apply tv_pmap. eapply tv_use; [exact O | exact (s_qualified_rule src f _ _ _ _ _ _ _ _ _ (s_selectors src f) (s_block src f peek_declaration _ _ _ _ s_property HN) (w_bad src f)) |].
  intros [sel [[[o ds] rs] c]] u (u1 & u2 & -> & K1 & K2). cbn [fst snd] in *. cbv beta iota in K2. cbn [rule_marks]. rewrite <- app_comm_cons. exact (sh_app _ _ _ _ _ K1 K2).
Qed.
Lemma s_unknown_at : tells parse_unknown_at rules.
Proof.
  eapply s_silent; [exact (w_unknown_at src f loose lossy) |]. intros p r q E. unfold parse_unknown_at in E. apply pmap_inv in E. destruct E as (x & _ & ->). reflexivity.
Qed.
Lemma s_unknown_qualified : tells parse_unknown_qualified rules.
Proof.
  eapply s_silent; [exact (w_unknown_qualified src f loose lossy) |]. intros p r q E. unfold parse_unknown_qualified in E. apply pmap_inv in E. destruct E as (x & _ & ->). reflexivity.
Qed.
Lemma s_by_name : forall table, (forall w m, In (w, m) table -> tells m rules) -> tells (at_rule_by_name table) rules.
Proof.
  intros table H p cs O. unfold at_rule_by_name. destruct (peek_n p 1) as [c |]; [| apply tv_none]. unfold look_up. destruct (parse_str_lower c (lsrc (plex p))) as [w |]; [| apply tv_none].
  destruct (map_get table w) as [m |] eqn:G; [| exact (s_unknown_at p cs O)]. apply map_get_in in G. eapply tv_retry; [exact O | exact (H w m G) | |].
  - intros r u q rest E Oq K. apply tv_ok; [exact Oq |]. rewrite app_nil_r. exact K.
  - intros e u q rest E Oq. exact (s_unknown_at _ _ (onto_back src f _ _ _ _ O Oq)).
Qed.
Lemma s_by_selector : forall style_p, tells style_p rules -> tells (rule_by_selector style_p) rules.
Proof.
  intros style_p H p cs O. unfold rule_by_selector. eapply tv_retry; [exact O | exact H | |].
  - intros r u q rest E Oq K. apply tv_ok; [exact Oq |]. rewrite app_nil_r. exact K.
  - intros e u q rest E Oq. exact (s_unknown_qualified _ _ (onto_back src f _ _ _ _ O Oq)).
Qed.
Lemma s_nested_by_selector : forall style_p, tells style_p rules -> tells (nested_by_selector style_p) rules.
Proof.
  intros style_p H p cs O. unfold nested_by_selector. eapply tv_retry; [exact O | exact (s_by_selector _ H) | |].
  - intros r u q rest E Oq K. apply tv_ok; [exact Oq |]. rewrite app_nil_r. exact K.
  - intros e u q rest E Oq. apply tv_pmap. eapply tv_use; [exact (onto_back src f _ _ _ _ O Oq) | exact (w_remnants src f) |]. intros l v K. apply sh_nil.
Qed.
Lemma s_todo : tells (@parse_todo css_rule) rules.
Proof. intros p cs O. apply tv_err. exact O. Qed.
Lemma s_css_rule_n : forall n nested, tells (css_rule_n props n nested) rules.
Proof.
  induction n as [| n IH]; intros nested p cs O; [apply tv_none |]. cbn [css_rule_n]. pose proof (IH false) as HR. pose proof (s_style_rule _ (IH true)) as HS. apply tv_or_peek; intro Pk.
  - assert (A : forall w m, In (w, m) (AT_RULES props (css_rule_n props n false)) -> tells m rules).
    { intros w m I. unfold AT_RULES in I. apply in_map_iff in I. destruct I as ([s m'] & E & I). cbn [fst snd] in E. injection E as _ <-. cbn [In] in I.
      repeat (destruct I as [E | I]; [injection E as _ <-; first [exact s_todo | exact s_charset | exact (s_container _ HR) | exact s_font_face | exact s_keyframes | exact (s_layer _ HR) | exact (s_media _ HR) | exact s_page | exact s_property_rule | exact (s_supports _ HR) | exact (s_document _ HR) | exact s_webkit_keyframes | exact (s_moz_document _ HR)] |]). contradiction. }
    assert (B : forall w m, In (w, m) (NESTED_AT_RULES props (css_rule_n props n false)) -> tells m rules).
    { intros w m I. unfold NESTED_AT_RULES in I. apply in_map_iff in I. destruct I as ([s m'] & E & I). cbn [fst snd] in E. injection E as _ <-. cbn [In] in I.
      repeat (destruct I as [E | I]; [injection E as _ <-; first [exact s_todo | exact (s_container _ HR) | exact (s_layer _ HR) | exact (s_media _ HR) | exact (s_supports _ HR)] |]). contradiction. }
    destruct nested; [exact (s_by_name _ B p cs O) | exact (s_by_name _ A p cs O)].
  - destruct nested; [exact (s_nested_by_selector _ HS p cs O) | exact (s_by_selector _ HS p cs O)].
Qed.
Lemma s_css_rule : tells (parse_css_rule props) rules.
Proof. unfold parse_css_rule. apply (tells_fun src f _ (fun p0 => css_rule_n props (sfuel p0) false)). intro. apply s_css_rule_n. Qed.
Lemma s_parse_sheet : tells (parse_sheet props) (shows (flat_map rule_marks)).
Proof. exact (s_sheet src f _ _ s_css_rule). Qed.
End Rules.
