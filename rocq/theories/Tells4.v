(* The logic of Tells.v: rules that are not known, properties, media features, condition lists. *)
From Coq Require Import ZifyBool ZifyNat ZifyN Permutation.
From Coq Require Import List.
From Verif Require Import AstSheet SpecSheet SpecWritten SpecLex SpecTrace SpecParser SpecSyntax SpecTraits SpecRules SpecFeatures SpecCursor SpecToken LexBase TokenProofs KindProofs LexFacts LexTrace CursorProofs CursorLex
  ParserProofs ParserProofs2 ParserProofs3 ParserProofs4 CompareProofs SyntaxProofs SyntaxTotal TraitsTotal RulesTotal FeatureProofs FaithProofs FaithTraits FaithRules Goes Tells Tells2 Tells3.
Open Scope N_scope.
Open Scope list_scope.

Definition always {A} (_ : A) : bool := true.
Definition never {A} (_ : A) : bool := false.
Section Unknown.
Variable src : text.
Variable f : feature.
Notation tells := (tells src f).
Notation onto := (onto src f).
Notation tv := (tv src f).
Lemma w_at_rule_of : forall block_p, tells block_p (wri (fun _ => true) mixed_block block_cursors) -> tells (at_rule_of block_p) (wri (fun _ => true) mixed_rule rule_cursors).
Proof.
  intros block_p H p cs O. unfold at_rule_of.
  assert (Ob : tells (optional_block block_p) (wri (fun _ => true) (fun x => match x with inl b => mixed_block b | inr _ => false end) (fun x => match x with inl b => block_cursors b | inr s => opt_cursor s end))).
  { intros p' cs' O'. unfold optional_block. eapply tv_bind; [exact O' | apply tells_if_peek; exact H |]. intros [b |] u q r E Oq K.
    - apply tv_ok; [exact Oq |]. unfold wri in *. em.
    - cbv beta iota in K. subst u. apply tv_pmap. eapply tv_use; [exact Oq | apply tells_if_kind; discriminate |]. intros s v (Ks & _). unfold wri. cbn [app]. em. }
  eapply tv_bind; [exact O | apply tells_in_stop; apply (w_at_rule src f _ _ None _ _ (fun _ => true) (fun _ => false) cvs_cursors _ (w_values src f) Ob) |].
  intros [[name pr] body] u q r E Oq K. cbv beta iota in K. destruct K as (u1 & u2 & -> & K1 & K2). eapply tv_bind; [exact Oq | apply w_drop_kind; [discriminate | cbn; tauto] |]. intros s u3 q3 r3 E3 O3 K3. apply tv_ok; [exact O3 |].
  unfold wri in *. destruct body as [b | s']; cbn [mixed_rule rule_cursors]; cbv beta iota in K2; replace (opt_cl (fun _ : list cval => true) pr) with true in K1 by (destruct pr; reflexivity);
    replace (opt_mx (fun _ : list cval => false) pr) with false in K1 by (destruct pr; reflexivity); rewrite <- ?app_assoc; em.
Qed.
Lemma w_qualified_rule_of : forall block_p, tells block_p (wri (fun _ => true) mixed_block block_cursors) -> tells (qualified_rule_of block_p) (wri (fun _ => true) mixed_rule rule_cursors).
Proof.
  intros block_p H p cs O. unfold qualified_rule_of. apply tv_pmap. eapply tv_use; [exact O | apply (w_qualified_rule src f _ _ _ _ _ _ (fun _ => true) (fun _ => false) cvs_cursors _ _ (w_values src f) H (w_bad src f)) |].
  intros [pr b] u K. cbv beta in K. cbn [fst snd] in *. destruct K as (u1 & u2 & -> & K1 & K2). unfold wri in *. cbn [mixed_rule rule_cursors]. em.
Qed.
Lemma w_rule_fuel : forall n, tells (rule_fuel n) (wri (fun _ => true) mixed_rule rule_cursors).
Proof.
  induction n as [| n IH]; intros p cs O; [apply tv_none |]. cbn [rule_fuel]. apply tv_or_peek; intro Pk; [exact (w_at_rule_of _ (w_block_of src f _ IH) p cs O) | exact (w_qualified_rule_of _ (w_block_of src f _ IH) p cs O)].
Qed.
End Unknown.

Section Properties.
Variable src : text.
Variable f : feature.
Notation tells := (tells src f).
Notation onto := (onto src f).
Notation tv := (tv src f).
(* the values the grammar accepts are the tokens it read *)
Definition told_values (loose lossy : text -> bool) (props : properties) : Prop := forall w m, In (w, m) props -> tells m (wri (fun _ => negb (lossy w)) (fun _ => loose w) (fun cs => cs)).
Variables loose lossy : text -> bool.
Variable props : properties.
Variable Hp : told_values loose lossy props.
Lemma w_free : tells parse_free_value (wri (fun _ => true) (fun _ => false) cvs_cursors).
Proof. unfold parse_free_value. apply tells_in_state, tells_in_stop. exact (w_values src f). Qed.
Lemma w_style_value : forall name, tells (parse_style_value props name) (wri (whole_value lossy) (mixed_value loose) style_value_cursors).
Proof.
  intros name p cs O. unfold parse_style_value. destruct (is_dashed_ident (ctok name)).
  { apply tv_pmap. eapply tv_use; [exact O | exact w_free |]. intros v u K. exact K. }
  eapply tv_bind; [exact O | apply tells_if_peek, tells_set; discriminate |]. intros [w |] u q r E Oq K; cbv beta iota in K.
  - apply tv_ok; [exact Oq |]. unfold wri. cbn [style_value_cursors whole_value mixed_value]. em.
  - subst u. cbn [app]. apply tv_or_peek; intro Pk; [apply tv_pmap; eapply tv_use; [exact Oq | exact w_free |]; intros v u K; exact K |].
    assert (Fb' : forall q2 r2, onto q2 r2 -> tv r (wri (whole_value lossy) (mixed_value loose) style_value_cursors) (fallback_value (checkpoint q) q2)).
    { intros q2 r2 O2. pose proof (onto_back src f _ _ _ _ Oq O2) as O3. unfold fallback_value. destruct (peek peek_computed q2) as [[] |]; [| | apply tv_none]; apply tv_pmap; (eapply tv_use; [exact O3 | exact w_free |]; intros v u K; exact K). }
    destruct (tok_is (ctok name) K_Ident); [| exact (Fb' q r Oq)]. unfold look_up. destruct (parse_str_lower name (lsrc (plex q))) as [w |] eqn:Ew; [| apply tv_none]. destruct (map_get props w) as [m |] eqn:Mg; [| exact (Fb' q r Oq)].
    apply map_get_in in Mg. destruct (m q) as [[[l | e] q2] |] eqn:Em; [| | apply tv_none]; destruct (Hp w m Mg q r Oq _ _ Em) as (u2 & r2 & E2 & O2 & K2); [| exact (Fb' q2 r2 O2)]. specialize (K2 l eq_refl).
    destruct (value_ends q2) as [[] |]; [| exact (Fb' q2 r2 O2) | apply tv_none]. pose proof (proj1 O2) as S2. pose proof (proj1 Oq) as S1. replace (parse_str_lower name (lsrc (plex q2))) with (Some w) by (rewrite S2, <- S1, Ew; reflexivity). apply (tv_shift _ _ _ _ u2 r2 _ _ E2). apply tv_ok; [exact O2 |]. unfold wri in *. cbn [style_value_cursors whole_value mixed_value]. em.
Qed.
Lemma w_property_of : forall valid, tells (pmap property_of (declaration_t valid (parse_style_value props))) (wri (fun d => whole_value lossy (pr_value d)) (fun d => mixed_value loose (pr_value d)) property_cursors).
Proof.
  intros valid p cs O. apply tv_pmap. eapply tv_use; [exact O | apply (w_declaration src f _ _ _ (whole_value lossy) (mixed_value loose) style_value_cursors); exact w_style_value |].
  intros [[[n c] v] i] u K. exact K.
Qed.
Lemma w_property : tells (parse_property props) (wri (fun d => whole_value lossy (pr_value d)) (fun d => mixed_value loose (pr_value d)) property_cursors).
Proof. exact (w_property_of _). Qed.
End Properties.

Section Features.
Variable src : text.
Variable f : feature.
Notation tells := (tells src f).
Notation onto := (onto src f).
Notation tv := (tv src f).
Lemma w_double : forall a b, tells (parse_double a b) (fun x u => emits false u [fst x; snd x]).
Proof.
  intros a b p cs O. unfold parse_double. eapply tv_bind; [exact O | apply tells_kind; discriminate |]. intros c u q r E Oq (K & _). destruct (negb _); [apply tv_err; exact Oq |].
  assert (X : tells (fun p0 => parse_kind K_Delim (set_skip p0 KS_NONE)) (fun c u => emits false u [c])).
  { intros p' cs' O'. eapply tv_use; [exact (onto_skip src f _ _ _ none_trivia O') | apply tells_kind; discriminate |]. intros c' u' (K' & _). exact K'. }
  destruct (parse_kind K_Delim (set_skip q KS_NONE)) as [[[c2 | e] q2] |] eqn:E2; [| | apply tv_none]; destruct (X q r Oq _ _ E2) as (u2 & r2 & Er & O2 & K2); pose proof (onto_skip src f _ _ _ (onto_own src f _ _ Oq) O2) as O3.
  - apply (tv_shift _ _ _ _ u2 r2 _ _ Er). specialize (K2 c2 eq_refl). cbv beta in K2. destruct (negb _); [apply tv_err; exact O3 |]. apply tv_ok; [exact O3 |]. cbn [fst snd]. rewrite app_nil_r. exact (emits_then false u [c] u2 [c2] K K2).
  - apply (tv_fails _ _ _ _ _ _ _ r2 O3). eauto.
Qed.
Lemma w_colon_colon : tells parse_colon_colon (fun x u => emits false u [fst x; snd x]).
Proof.
  intros p cs O. unfold parse_colon_colon. eapply tv_bind; [exact O | apply tells_kind; discriminate |]. intros c u q r E Oq (K & _).
  destruct (parse_kind K_Colon (set_skip q KS_NONE)) as [[[c2 | e] q2] |] eqn:E2; [| | apply tv_none];
    destruct (tells_kind src f K_Colon ltac:(discriminate) (set_skip q KS_NONE) r (onto_skip src f _ _ _ none_trivia Oq) _ _ E2) as (u2 & r2 & Er & O2 & K2); pose proof (onto_skip src f _ _ _ (onto_own src f _ _ Oq) O2) as O3.
  - apply (tv_shift _ _ _ _ u2 r2 _ _ Er). destruct (K2 c2 eq_refl) as (K3 & _). apply tv_ok; [exact O3 |]. cbn [fst snd]. rewrite app_nil_r. exact (emits_then false u [c] u2 [c2] K K3).
  - apply (tv_fails _ _ _ _ _ _ _ r2 O3). eauto.
Qed.
Lemma w_comparison : tells parse_comparison (fun x u => emits false u (comparison_cursors x)).
Proof.
  intros p cs O. unfold parse_comparison. destruct (peek_next p) as [c |]; [| apply tv_none]. destruct (tchar (ctok c)) as [ch |]; [| apply tv_err; exact O].
  assert (X1 : forall k g, (forall c, comparison_cursors (g c) = [c]) -> tells (pmap g (parse_delim k)) (fun x u => emits false u (comparison_cursors x))).
  { intros k g Eg p' cs' O'. apply tv_pmap. eapply tv_use; [exact O' | apply tells_delim |]. intros d u (K & _). rewrite Eg. exact K. }
  assert (X2 : forall a b (g : cursor * cursor -> comparison_t), (forall x, comparison_cursors (g x) = [fst x; snd x]) -> tells (pmap g (parse_double a b)) (fun x u => emits false u (comparison_cursors x))).
  { intros a b g Eg p' cs' O'. apply tv_pmap. eapply tv_use; [exact O' | apply w_double |]. intros d u K. rewrite Eg. exact K. }
  destruct (ch =? 61); [apply X1; [reflexivity | exact O] |]. destruct (ch =? 62).
  - destruct (peek (peek_double 62 61) p) as [[] |]; [apply X2; [reflexivity | exact O] | apply X1; [reflexivity | exact O] | apply tv_none].
  - destruct (ch =? 60); [| apply tv_err; exact O].
    destruct (peek (peek_double 60 61) p) as [[] |]; [apply X2; [reflexivity | exact O] | apply X1; [reflexivity | exact O] | apply tv_none].
Qed.
Lemma w_check : forall c name, tells (check_name c name) (fun _ u => u = []).
Proof.
  intros c name p cs O. unfold check_name. destruct (eq_ignore_ascii_case _ _ _) as [[] |]; [apply tv_ok; [exact O | reflexivity] | apply tells_fail_text; exact O | apply tv_none].
Qed.
Lemma w_discrete : forall V name (value_p : P V) em, tells value_p (wri (fun _ => true) (fun _ => false) em) -> tells (discrete_feature_t name value_p) (wri (fun _ => true) (fun _ => false) (plain_cursors em)).
Proof.
  intros V name value_p em H p cs O. unfold discrete_feature_t. eapply tv_bind; [exact O | apply tells_kind; discriminate |]. intros o u q r E Oq (K & _). eapply tv_bind; [exact Oq | apply tells_kind; discriminate |]. intros n u2 q2 r2 E2 O2 (K2 & _).
  eapply tv_bind; [exact O2 | apply w_check |]. intros x u3 q3 r3 E3 O3 K3. cbv beta in K3. subst u3. apply tv_or_peek; intro Pk.
  - eapply tv_bind; [exact O3 | apply tells_kind; discriminate |]. intros c u4 q4 r4 E4 O4 (K4 & _). eapply tv_bind; [exact O4 | exact H |]. intros v u5 q5 r5 E5 O5 K5. unfold wri in K5. eapply tv_bind; [exact O5 | apply tells_kind; discriminate |]. intros d u6 q6 r6 E6 O6 (K6 & _).
    apply tv_ok; [exact O6 |]. unfold wri, plain_cursors. cbn [fopen fname fvalue fclose app]. em.
  - eapply tv_bind; [exact O3 | apply tells_kind; discriminate |]. intros d u6 q6 r6 E6 O6 (K6 & _).
    apply tv_ok; [exact O6 |]. unfold wri, plain_cursors. cbn [fopen fname fvalue fclose app]. em.
Qed.
End Features.
