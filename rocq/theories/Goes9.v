(* The logic of Goes.v where every token may be read: preludes and rules. *)
From Coq Require Import ZifyBool ZifyNat ZifyN.
From Coq Require Import String.
From Coq Require Import List.
From Verif Require Import AstSheet SpecSheet SpecLex SpecTrace SpecParser SpecSyntax SpecTraits SpecFeatures SpecCursor SpecToken LexBase TokenProofs KindProofs LexFacts LexTrace CursorProofs CursorLex
  ParserProofs ParserProofs2 ParserProofs3 ParserProofs4 CompareProofs SyntaxProofs SyntaxTotal TraitsTotal RulesTotal FeatureProofs Goes Goes2 Goes3 Goes4 Goes5 Goes6 Goes7 Goes8 GoesPage.
Open Scope N_scope.
Open Scope list_scope.
Notation length := List.length.

Section Preludes.
Variable src : text.
Context {mod_ : mode}.
Hypothesis on : strict = true.
Variable f : feature.
Variable G : cursor -> Prop.
Variable H : cursor -> Prop.
Hypothesis G_ok : forall c, kind_of c <> K_LeftCurly -> G c.
Hypothesis G_all : forall c, G c.
Hypothesis H_all : forall c, H c.
Notation goes := (goes src f G H).
Notation st := (st src f G H).
Notation rv := (rv src f G H).
Notation lost := (lost src f).
Notation seen := (seen src).
Notation whole := (whole src f).
Notation top := (fun _ => True).
Variable props : properties.
Hypothesis props_ok : Forall (fun x => sensible (snd x)) props.
Let p_prop : forall n, goes n 2 (parse_property props) top := p_property src f G H G_ok G_all H_all props props_ok.
Let p_sels : forall n, goes n 0 parse_selectors top := p_selectors src f G H G_ok G_all H_all.
Lemma p_supports_feature : forall n, goes n 1 (parse_supports_feature props) top.
Proof.
  intro n. begin. unfold parse_supports_feature. pose proof p_prop as Pp. pose proof p_sels as Ps. go1. go1.
  - go1. destruct a0 as (w & c). destruct Qa as (Sc & Kc & v & Lv & Iv). cbn [fst snd] in *.
    assert (Ew : w = SwSelector).
    { destruct w; [exfalso | exfalso | reflexivity]; apply (proj2 Sc on); (split; [exact Kc |]); rewrite Lv; cbn in Iv; destruct Iv as [Iv | [Iv | [Iv | []]]]; injection Iv as <-; auto; discriminate. }
    rewrite Ew. go1. go1. go1. destruct a; go.
  - destruct a; go.
Qed.
Lemma p_supports_condition : forall n, goes n 1 (parse_supports_condition props) top.
Proof.
  intro n. begin. unfold parse_supports_condition. pose proof p_supports_feature. go1; [go |]. eapply do_goes; [st_ | apply g_condition; [assumption | intros; auto] | lia | auto].
Qed.
Lemma p_layer_loop : forall m n, (n < m)%nat -> goes n 0 (layer_loop m) top.
Proof. induction m as [| m IH]; intros n L; [lia |]. cbn [layer_loop]. begin. go1; [| go]. go1. go1. go1. pose proof (st_len _ _ _ _ _ _ _ Sq0). eapply do_goes; [st_ | apply IH; lia | lia | auto]. Qed.
Lemma p_layer_name : forall n, goes n 1 parse_layer_name top.
Proof. intro n. begin. unfold parse_layer_name. go1. go1. eapply (do_fuel src f G H _ _ _ _ _ 0 (fun m => layer_loop m)); [st_ | intros i m Li Lm; apply p_layer_loop; lia | lia | auto]. Qed.
Lemma p_layer_names : forall n, goes n 1 parse_layer_names top.
Proof. intro n. apply p_comma_list; auto. intros. apply p_layer_name. Qed.
Lemma p_keyframes_name : forall n, goes n 1 parse_keyframes_name top.
Proof. intro n. begin. unfold parse_keyframes_name. go. Qed.
Lemma p_keyframe_selector : forall n, goes n 1 parse_keyframe_selector top.
Proof.
  intro n. begin. unfold parse_keyframe_selector. eapply do_bind_if; [eassumption | st_ | whole_ | known | |].
  - intros a q _ Sq. destruct a as ([] & c); go.
  - intros d _ _ _. unfold peek_percent. go1. go1. go1. go1.
Qed.
Lemma p_keyframe_selectors : forall n, goes n 1 parse_keyframe_selectors top.
Proof. intro n. apply p_comma_list; auto. intros. apply p_keyframe_selector. Qed.
Lemma p_property1 : forall n, goes n 1 (parse_property props) top.
Proof. intro n. eapply goes_imp; [apply p_prop | lia | auto]. Qed.
Lemma p_keyframe : forall n, goes n 1 (parse_keyframe props) top.
Proof.
  intro n. unfold parse_keyframe. eapply g_pmap_known. apply p_qualified_rule_t; auto; [eapply goes_imp; [apply p_keyframe_selectors | lia | auto] | apply p_declaration_list_t; auto; intros; apply p_property1 | apply p_bad_declaration; auto].
Qed.
Lemma p_document_matcher : forall n, goes n 1 parse_document_matcher top.
Proof. intro n. begin. unfold parse_document_matcher. go. Qed.
Lemma p_document_matchers : forall n, goes n 1 parse_document_matchers top.
Proof. intro n. apply p_comma_list; auto. intros. apply p_document_matcher. Qed.
Lemma p_registered_value : forall n c, seen c -> goes n 0 (parse_registered_value c) top.
Proof. intros n c Sc. begin. unfold parse_registered_value. go1; [go1; destruct v; go | go]. Qed.
Lemma p_registered : forall n, goes n 2 parse_registered top.
Proof.
  intro n. begin. unfold parse_registered. eapply do_bind; [st_ | apply (p_declaration_t src f G H G_ok G_all H_all _ _ _ _ top); [whole_ | intros i c Li Sc _; apply p_registered_value; exact Sc] |].
  intros [[[name colon] value] important] q _ Sq. destruct important as [(bang & ?) |]; go.
Qed.
Lemma p_charset : forall n, goes n 1 parse_charset top.
Proof.
  intro n. begin. unfold parse_charset. go1. eapply do_bind with (i := 0%nat) (Q1 := top); [st_ | begin; go |]. intros _ q1 _ S1. go1. go1.
  eapply do_bind; [st_ | eapply p_opt_ok; auto; known |]. intros. go.
Qed.
Lemma p_font_face_property : forall n, goes n 1 (parse_font_face_property props) top.
Proof.
  intro n. unfold parse_font_face_property. eapply goes_imp; [eapply g_pmap_known; apply (p_declaration_t src f G H G_ok G_all H_all _ n _ _ top); [whole_ | intros i c Li Sc _; apply p_style_value; auto] | lia | auto].
Qed.
(* a rule whose prelude can be any tokens *)
Lemma p_at_rule_plain : forall Pr B name (prelude_p : P Pr) (block_p : P B) n k, (forall i, goes i 0 prelude_p top) -> (forall i, (i < n)%nat -> goes i k block_p top) ->
  goes n (1 + k) (at_rule_t name prelude_p block_p) top.
Proof.
  intros Pr B name prelude_p block_p n k Hp Hb. eapply goes_imp; [apply p_at_rule_t; auto | lia | auto]. intros at_ q rest L S _ _ _. apply (Hp (length rest)); [exact S | intros pre c r _ _; apply H_all | lia].
Qed.
Lemma p_with_prelude : forall Pr B A (build : cursor -> Pr -> B -> A) m n k (Q : cursor * option Pr * B -> Prop), goes n k m Q -> goes n k (with_prelude build m) top.
Proof. intros Pr B A build m n k Q Hm. begin. unfold with_prelude. eapply do_bind; [st_ | eapply goes_less; [exact Hm | lia] |]. intros [[at_ [v |]] b] q _ Sq; go. Qed.
Lemma w0 : forall A n k (m : P A) (Q : A -> Prop), goes n k m Q -> goes n 0 m top.
Proof. intros A n k m Q Hm. eapply goes_imp; [exact Hm | lia | auto]. Qed.
(* the generic rules of css_parse *)
Lemma p_declaration : forall n, goes n 1 parse_declaration top.
Proof.
  intro n. unfold parse_declaration. eapply goes_imp; [eapply g_pmap_known; apply (p_declaration_t src f G H G_ok G_all H_all _ n _ _ top); [whole_ | intros i c Li Sc _; apply p_component_values; auto] | lia | auto].
Qed.
Lemma p_block_of : forall n (rule_p : P rule), (forall i, (i < n)%nat -> goes i 1 rule_p top) -> goes n 1 (block_of rule_p) top.
Proof.
  intros n rule_p Hr. begin. unfold block_of. go1. eapply do_goes; [st_ | apply p_block_t; auto; [whole_ |] | lia | auto]. intros i Li. split; [apply p_declaration | eapply goes_steps; apply Hr; lia].
Qed.
Lemma p_optional_block : forall n (block_p : P block), goes n 1 block_p top -> goes n 0 (optional_block block_p) top.
Proof.
  intros n block_p Hb. begin. unfold optional_block. eapply do_bind_if; [eassumption | st_ | whole_ | eapply goes_less; [exact Hb | lia] | |]; intros; go.
Qed.
Lemma p_at_rule_of : forall n (block_p : P block), (forall i, (i < n)%nat -> goes i 1 block_p top) -> goes n 1 (at_rule_of block_p) top.
Proof.
  intros n block_p Hb. begin. unfold at_rule_of. eapply do_bind; [st_ | apply goes_in_stop; apply (p_at_rule_plain _ _ None _ _ _ 0); [intro i; apply p_component_values; auto | intros i Li; apply p_optional_block; apply Hb; lia] |].
  intros [[name prelude] body] q _ Sq. go1. go.
Qed.
Lemma p_qualified_rule_of : forall n (block_p : P block), goes n 1 block_p top -> goes n 1 (qualified_rule_of block_p) top.
Proof.
  intros n block_p Hb. unfold qualified_rule_of. eapply g_pmap_known. apply p_qualified_rule_t; auto; [apply p_component_values; auto | apply p_bad_declaration; auto].
Qed.
Lemma p_rule_fuel : forall m n, (n < m)%nat -> goes n 1 (rule_fuel m) top.
Proof.
  induction m as [| m IH]; intros n L; [lia |]. cbn [rule_fuel]. cbv zeta.
  assert (Hb : forall i, (i <= n)%nat -> goes i 1 (block_of (rule_fuel m)) top) by (intros i Li; apply p_block_of; intros i0 Li0; apply IH; lia).
  begin. go1.
  - eapply do_goes; [st_ | apply p_at_rule_of; intros i Li; apply Hb; lia | lia | auto].
  - eapply do_goes; [st_ | apply p_qualified_rule_of; apply Hb; lia | lia | auto].
Qed.
Lemma p_unknown_at : forall n, goes n 1 parse_unknown_at top.
Proof.
  intro n. unfold parse_unknown_at. eapply g_pmap_known. apply (goes_fuel src f G H _ n 1 (fun m => at_rule_of (block_of (rule_fuel m)))). intros i m Li Lm. apply p_at_rule_of. intros i0 Li0. apply p_block_of. intros i1 Li1. apply p_rule_fuel. lia.
Qed.
Lemma p_unknown_qualified : forall n, goes n 1 parse_unknown_qualified top.
Proof.
  intro n. unfold parse_unknown_qualified. eapply g_pmap_known. apply (goes_fuel src f G H _ n 1 (fun m => qualified_rule_of (block_of (rule_fuel m)))). intros i m Li Lm. apply p_qualified_rule_of. apply p_block_of. intros i1 Li1. apply p_rule_fuel. lia.
Qed.

(* the rules that hdx knows *)
Section Rules.
Variable rule_p : P css_rule.
Variable N : nat.
Hypothesis rule_goes : forall i, (i < N)%nat -> goes i 1 rule_p top.
Let list_goes : forall n, (n <= N)%nat -> goes n 1 (rule_list_t rule_p) top.
Proof. intros n L. apply p_rule_list_t; auto. intros i Li. apply rule_goes. lia. Qed.
Lemma p_document : forall n, (n <= N)%nat -> goes n 1 (parse_document rule_p) top.
Proof. intros n L. unfold parse_document. apply p_with_prelude with (Q := top). eapply goes_imp; [apply (p_at_rule_plain _ _ _ _ _ n 1); [intro i; eapply w0; apply p_document_matchers | intros i Li; apply list_goes; lia] | lia | auto]. Qed.
Lemma p_moz_document : forall n, (n <= N)%nat -> goes n 1 (parse_moz_document rule_p) top.
Proof. intros n L. unfold parse_moz_document. apply p_with_prelude with (Q := top). eapply goes_imp; [apply (p_at_rule_plain _ _ _ _ _ n 1); [intro i; eapply w0; apply p_document_matchers | intros i Li; apply list_goes; lia] | lia | auto]. Qed.
Lemma p_supports : forall n, (n <= N)%nat -> goes n 1 (parse_supports props rule_p) top.
Proof. intros n L. unfold parse_supports. apply p_with_prelude with (Q := top). eapply goes_imp; [apply (p_at_rule_plain _ _ _ _ _ n 1); [intro i; eapply w0; apply p_supports_condition | intros i Li; apply list_goes; lia] | lia | auto]. Qed.
Lemma p_media : forall n, (n <= N)%nat -> goes n 1 (parse_media props rule_p) top.
Proof.
  intros n L. unfold parse_media. apply p_with_prelude with (Q := top). eapply goes_imp; [apply (p_at_rule_plain _ _ _ _ _ n 1); [intro i; eapply w0; apply p_media_queries; auto | intros i Li; apply p_block_t; auto; [whole_ |]] | lia | auto].
  intros i0 Li0. split; [apply p_property1 | eapply goes_steps; apply rule_goes; lia].
Qed.
Lemma p_layer : forall n, (n <= N)%nat -> goes n 1 (parse_layer rule_p) top.
Proof.
  intros n L. unfold parse_layer. begin. eapply do_bind; [st_ | apply (p_at_rule_plain _ _ _ _ _ _ 0); [intro i; eapply w0; apply p_layer_names | intros i Li] |].
  - begin. unfold optional_layer_block. go1. destruct a; [go |]. go1. eapply do_goes; [st_ | apply list_goes; lia | lia | auto].
  - intros [[at_ names] [semi | [[open rules] close]]] q _ Sq; [go |]. destruct names as [[| x [| y l]] |]; go.
Qed.
Lemma p_font_face : forall n, goes n 1 (parse_font_face props) top.
Proof. intros n. unfold parse_font_face. apply g_pmap_known with (Q := top). eapply goes_imp; [apply (p_at_rule_plain _ _ _ _ _ n 1); [intro i; apply p_no_prelude; auto | intros i Li; apply p_rule_list_t; auto; intros; apply p_font_face_property] | lia | intros; exact Logic.I]. Qed.
Lemma p_keyframes : forall n, goes n 1 (parse_keyframes props) top.
Proof. intros n. unfold parse_keyframes. apply g_pmap_known with (Q := top). eapply goes_imp; [apply (p_at_rule_plain _ _ _ _ _ n 1); [intro i; eapply w0; apply p_keyframes_name | intros i Li; apply p_rule_list_t; auto; intros; apply p_keyframe] | lia | intros; exact Logic.I]. Qed.
Lemma p_webkit_keyframes : forall n, goes n 1 (parse_webkit_keyframes props) top.
Proof. intros n. unfold parse_webkit_keyframes. apply p_with_prelude with (Q := top). eapply goes_imp; [apply (p_at_rule_plain _ _ _ _ _ n 1); [intro i; eapply w0; apply p_keyframes_name | intros i Li; apply p_rule_list_t; auto; intros; apply p_keyframe] | lia | auto]. Qed.
Lemma p_property_rule : forall n, goes n 1 parse_property_rule top.
Proof. intros n. unfold parse_property_rule. apply p_with_prelude with (Q := top). eapply goes_imp; [apply (p_at_rule_plain _ _ _ _ _ n 1); [intro i; eapply w0; apply g_dashed; auto | intros i Li; apply p_declaration_list_t; auto; intros i0 Li0; eapply goes_imp; [apply p_registered | lia | auto]] | lia | auto]. Qed.
(* the prelude of "@container" may not hold a function *)
Lemma p_container : forall n, (n <= N)%nat -> goes n 1 (parse_container rule_p) top.
Proof.
  intros n L. unfold parse_container. apply p_with_prelude with (Q := top). eapply goes_imp; [apply (p_at_rule_t src f G H G_ok G_all H_all _ _ _ _ _ n 1); [| intros i Li; apply list_goes; lia] | lia | auto].
  intros at_ q rest Lr S Sup Kat Nm. specialize (Nm _ eq_refl).
  destruct (g_container_conditions src f (fun c => kind_of c <> K_LeftCurly) (fun c => kind_of c <> K_Function) (fun c X => X) (fun c X => X) (length rest) q rest S) as (r & q2 & E & X); [| lia |].
  - intros pre c r Ec F. destruct Sup as (_ & Pc). apply (proj1 (Pc on) [] at_ pre c r); [cbn [app]; rewrite Ec; reflexivity | exact Kat | exact Nm | exact F].
  - exists r, q2. split; [exact E |]. destruct r as [a | e]; [| exact X]. destruct X as (X & _). split; [| exact Logic.I]. apply plain_st; auto. eapply lost_le; [| eapply st_lost; exact X]. lia.
Qed.
Lemma p_decl_rules_loop : forall D R (decl_p : P D) (rule_p0 : P R) m n, (n < m)%nat -> goes n 1 decl_p top -> goes n 1 rule_p0 top -> goes n 0 (decl_rules_loop decl_p rule_p0 m) top.
Proof.
  intros D R decl_p rule_p0 m. induction m as [| m IH]; intros n L Hd Hr; [lia |]. cbn [decl_rules_loop]. begin. cbv zeta. go1; [go |]. go1; [go |].
  assert (X : forall (i : item D R) q, st cs 1 q -> rv cs 0 top (pmap (fun l => (i :: fst l, snd l)) (decl_rules_loop decl_p rule_p0 m) q)).
  { intros i q Sq. pose proof (st_len _ _ _ _ _ _ _ Sq). go1. eapply do_goes; [st_ | apply (IH (length cs - 1)%nat); [lia | eapply goes_less; [exact Hd | lia] | eapply goes_less; [exact Hr | lia]] | lia | auto]. }
  go1; [eapply do_bind; [st_ | eapply goes_less; [exact Hr | lia] |]; intros r q _ Sq; apply X; st_ |]. go1; [| go].
  eapply do_bind; [st_ | eapply goes_less; [exact Hd | lia] |]. intros r q _ Sq. go1. apply X. st_.
Qed.
Lemma p_declaration_rule_list_t : forall D R (decl_p : P D) (rule_p0 : P R) n, (forall i, (i < n)%nat -> goes i 1 decl_p top /\ goes i 1 rule_p0 top) -> goes n 1 (declaration_rule_list_t decl_p rule_p0) top.
Proof.
  intros D R decl_p rule_p0 n Hr. begin. unfold declaration_rule_list_t. go1. go1. pose proof (st_len _ _ _ _ _ _ _ Sq). eapply (do_fuel src f G H _ _ _ _ _ 0 (fun m => decl_rules_loop decl_p rule_p0 m)); [st_ | | lia | auto]. intros i m Li M. apply p_decl_rules_loop; [lia | apply Hr; lia | apply Hr; lia].
Qed.
Lemma p_margin_rule : forall n, goes n 1 (parse_margin_rule props) top.
Proof.
  intro n. begin. unfold parse_margin_rule. eapply do_bind; [st_ | apply (p_at_rule_t src f G H G_ok G_all H_all _ _ None _ _ _ 0); [| intros i Li; eapply w0; apply p_declaration_list_t; auto; intros; apply p_property1] |].
  - intros at_ q rest L S _ _ _. apply (p_no_prelude src f G H G_ok G_all H_all (length rest)); [exact S | intros pre c r _ _; apply H_all | lia].
  - intros [[at_ pre] b] q (K & Sa) Sq. cbn [fst] in K, Sa. go1; [go |]. eapply do_fail_text; [st_ | exact Sa].
Qed.
(* between "@page" and '{' there are no spaces *)
Lemma p_page : forall n, goes n 1 (parse_page props) top.
Proof.
  intro n. unfold parse_page. apply g_pmap_known with (Q := top). eapply goes_imp; [apply (p_at_rule_t src f G H G_ok G_all H_all _ _ _ _ _ n 1) | lia | auto].
  - intros at_ q rest Lr S Sup Kat Nm. specialize (Nm _ eq_refl). destruct Sup as (_ & Pc). destruct (proj2 (Pc on) [] at_ rest eq_refl Kat Nm) as (between & open & r & -> & Ko & Fb).
    destruct (page_selectors_go src f between q open r S Ko Fb) as (x & q2 & E & X). exists x, q2. split; [exact E |]. destruct x as [a | e]; [| exact X]. destruct X as (X & _). split; [| exact Logic.I].
    apply plain_st; auto. eapply lost_le; [| eapply st_lost; exact X]. lia.
  - intros i Li. apply p_declaration_rule_list_t. intros j Lj. split; [apply p_property1 | apply p_margin_rule].
Qed.
Lemma p_todo : forall A n, goes n 1 (@parse_todo A) top.
Proof. intros A n. apply goes_fail. Qed.
Definition known_rules (n : nat) (rules : list (text * P css_rule)) : Prop := forall w m, In (w, m) rules -> goes n 1 m top.
Lemma p_at_rule_by_name : forall n rules cs p d, st cs 0 p -> (length cs <= n)%nat -> known_rules n rules -> peek_next p = Some d -> peek_kind K_AtKeyword p d = Some true -> rv cs 1 top (at_rule_by_name rules p).
Proof.
  intros n rules cs p d S0 L0 Kr Pd Kd. unfold at_rule_by_name. pose proof p_unknown_at as Pu. go1. pose proof (peek_one src f G H G_ok G_all H_all _ _ _ _ S0 Pn) as Pc. rewrite Pd in Pc. apply some_inj in Pc. subst d.
  assert (Kc : kind_of c = K_AtKeyword). { unfold peek_kind in Kd. apply some_inj in Kd. apply (tok_is_not_eof c _ Kd); [apply (peeked_eof src f G H G_ok _ _ _ _ S0 Pd) | discriminate]. }
  destruct (lower_seen _ c Sc ltac:(rewrite Kc; constructor)) as (w & Ew). unfold look_up. rewrite (st_src _ _ _ _ _ _ _ S0), Ew. destruct (map_get rules w) as [m |] eqn:Em; [| go].
  assert (Hm : goes n 1 m top). { apply (Kr w). apply map_get_in. exact Em. }
  destruct (call _ _ _ _ _ _ _ _ _ _ _ _ S0 Hm ltac:(lia)) as ([r | e] & q & -> & X); [destruct X; go | go].
Qed.
Lemma known_at_rules : forall n, (n <= N)%nat -> known_rules n (AT_RULES props rule_p).
Proof.
  intros n L w m I. unfold AT_RULES in I. cbn [map fst snd] in I.
  repeat (destruct I as [I | I]; [injection I as <- <-; first [apply p_page | apply p_todo | apply p_charset | apply p_container; exact L | apply p_font_face | apply p_keyframes | apply p_layer; exact L | apply p_media; exact L
    | apply p_property_rule | apply p_supports; exact L | apply p_document; exact L | apply p_webkit_keyframes | apply p_moz_document; exact L] |]). destruct I.
Qed.
Lemma known_nested_at_rules : forall n, (n <= N)%nat -> known_rules n (NESTED_AT_RULES props rule_p).
Proof.
  intros n L w m I. unfold NESTED_AT_RULES in I. cbn [map fst snd] in I.
  repeat (destruct I as [I | I]; [injection I as <- <-; first [apply p_todo | apply p_container; exact L | apply p_layer; exact L | apply p_media; exact L | apply p_supports; exact L] |]). destruct I.
Qed.
End Rules.
Lemma p_style_rule : forall n (nested_p : P css_rule), (forall i, (i < n)%nat -> steps src f G H i nested_p) -> goes n 1 (parse_style_rule props nested_p) top.
Proof.
  intros n nested_p Hn. unfold parse_style_rule. apply g_pmap_known with (Q := top). apply (p_qualified_rule_t src f G H G_ok G_all H_all); [apply p_sels | | apply p_bad_declaration; auto].
  apply (p_block_t src f G H G_ok G_all H_all); [whole_ |]. intros i Li. split; [apply p_property1 | apply Hn; exact Li].
Qed.
Lemma p_rule_by_selector : forall n (style_p : P css_rule), goes n 1 style_p top -> goes n 1 (rule_by_selector style_p) top.
Proof.
  intros n style_p Hs. begin. unfold rule_by_selector. pose proof p_unknown_qualified as Pu. destruct (call _ _ _ _ _ _ _ _ _ _ _ _ S0 Hs ltac:(lia)) as ([r | e] & q & -> & X); [destruct X; go | go].
Qed.
Lemma rv_steps : forall A cs (o : option (res A * parser)), rv cs 1 top o -> exists r q, o = Some (r, q) /\ match r with Ok _ => st cs 1 q \/ st cs 0 q /\ ended q | Err _ => lost cs 0 q end.
Proof. intros A cs o (r & q & E & X). exists r, q. split; [exact E |]. destruct r; [left; apply X | exact X]. Qed.
Lemma bad_fuel_steps : forall m n, (n < m)%nat -> steps src f G H n (bad_fuel m).
Proof.
  intros [| m] n L p cs S0 L0; [lia |]. cbn [bad_fuel]. destruct (p_at_end p) eqn:Ae; [exists (Ok []), p; split; [reflexivity |]; right; split; [exact S0 | left; exact Ae] |].
  assert (X : forall q j, st cs j q -> rv cs 1 top (bind parse_component_value (fun v => pmap (cons v) (bad_fuel m)) q)).
  { intros q j Sq. go1. pose proof (st_len _ _ _ _ _ _ _ Sq0). go1. eapply do_goes; [st_ | apply (p_bad_fuel src f G H G_ok G_all H_all m (length cs - (j + 1))); lia | lia | auto]. }
  unfold or_peek. destruct (peek_st _ _ _ _ (G_triv _ G_ok) _ _ _ (peek_kind K_Semicolon) S0 ltac:(whole_)) as ([] & d & -> & _); [apply rv_steps; go |].
  destruct (peek_st _ _ _ _ (G_triv _ G_ok) _ _ _ (peek_kind K_RightCurly) S0 ltac:(whole_)) as ([] & d2 & Ep & _); rewrite Ep; [| apply rv_steps; eapply X; st_].
  destruct (is_nested p); [exists (Ok []), p; split; [reflexivity |]; right; split; [exact S0 | right; exact Ep] |]. apply rv_steps. go1. eapply X; st_.
Qed.
Lemma bad_declaration_steps : forall n, steps src f G H n parse_bad_declaration.
Proof.
  intros n p cs S0 L0. unfold parse_bad_declaration. pose proof S0 as (u & cs' & E & L & Fu & Sp & Z). pose proof (sfuel_enough p cs' (stands_ahead _ _ _ _ Sp)) as Y.
  destruct (bad_fuel_steps (sfuel p) (length cs') ltac:(lia) p cs' (st_start _ _ _ _ _ _ Sp Z) (le_n _)) as (r & q & Er & X). exists r, q. split; [exact Er |]. rewrite E. clear -X Fu H_all G_all. destruct r as [a | e].
  - destruct X as [X | (X & Eq)]; [left | right; split; [| exact Eq]]; apply plain_st; auto; apply st_lost in X; destruct X as (u2 & c2 & -> & L2 & S2); exists (u ++ u2), c2; rewrite <- app_assoc, app_length; (split; [reflexivity |]); (split; [lia | exact S2]).
  - destruct X as (u2 & c2 & -> & L2 & S2). exists (u ++ u2), c2. rewrite <- app_assoc. split; [reflexivity |]. split; [lia | exact S2].
Qed.
Lemma p_nested_by_selector : forall n (style_p : P css_rule), goes n 1 style_p top -> steps src f G H n (nested_by_selector style_p).
Proof.
  intros n style_p Hs p cs S0 L0. unfold nested_by_selector. destruct (call _ _ _ _ _ _ _ _ _ _ _ _ S0 (p_rule_by_selector _ _ Hs) ltac:(lia)) as ([r | e] & q & -> & X).
  - exists (Ok r), q. split; [reflexivity |]. left. apply X.
  - assert (Sr : st cs 0 (set_state (rewind q (checkpoint p)) ST_NESTED)) by st_. destruct (bad_declaration_steps n _ cs Sr L0) as ([r | e2] & q2 & E & Y); unfold pmap, bind, in_state; rewrite E; eexists _, _; (split; [reflexivity | exact Y]).
Qed.
Lemma p_css_rule_n : forall m n (nested : bool), (n < m)%nat -> if nested then steps src f G H n (css_rule_n props m true) else goes n 1 (css_rule_n props m false) top.
Proof.
  induction m as [| m IH]; intros n nested L; [lia |]. assert (Hr : forall i, (i < n)%nat -> goes i 1 (css_rule_n props m false) top) by (intros i Li; apply (IH i false); lia).
  assert (Hs : goes n 1 (parse_style_rule props (css_rule_n props m true)) top) by (apply p_style_rule; intros i Li; apply (IH i true); lia).
  destruct nested; cbn [css_rule_n]; cbv zeta.
  - intros p cs S0 L0. unfold or_peek. destruct (peek_st _ _ _ _ (G_triv _ G_ok) _ _ _ (peek_kind K_AtKeyword) S0 ltac:(whole_)) as ([] & d & -> & Pn & Kd & _).
    + apply rv_steps. eapply p_at_rule_by_name; [exact Hr | st_ | exact L0 | apply known_nested_at_rules with (N := n); auto | exact Pn | exact Kd].
    + exact (p_nested_by_selector n _ Hs p cs S0 L0).
  - begin. go1.
    + eapply p_at_rule_by_name; [exact Hr | st_ | exact L0 | apply known_at_rules with (N := n); auto | exact Pn | exact Kd].
    + eapply do_goes; [st_ | eapply goes_less; [apply p_rule_by_selector; exact Hs | lia] | lia | auto].
Qed.
Lemma p_css_rule : forall n, goes n 1 (parse_css_rule props) top.
Proof. intro n. unfold parse_css_rule. apply (goes_fuel src f G H _ n 1 (fun m => css_rule_n props m false)). intros i m Li Lm. apply (p_css_rule_n m i false). lia. Qed.
Lemma p_sheet : forall n, goes n 0 (parse_sheet props) top.
Proof. intro n. unfold parse_sheet. apply p_sheet_t; auto. apply p_css_rule. Qed.
End Preludes.
