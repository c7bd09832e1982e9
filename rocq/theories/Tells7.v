(* The logic of Tells.v: compound selectors and selector lists. *)
From Coq Require Import ZifyBool ZifyNat ZifyN Permutation.
From Coq Require Import String.
From Coq Require Import List.
From Verif Require Import AstSheet SpecSheet SpecLex SpecTrace SpecParser SpecSyntax SpecTraits SpecRules SpecFeatures SpecCursor SpecToken LexBase TokenProofs KindProofs LexFacts LexTrace CursorProofs CursorLex
  ParserProofs ParserProofs2 ParserProofs3 ParserProofs4 CompareProofs SyntaxProofs SyntaxTotal TraitsTotal RulesTotal FeatureProofs FaithProofs FaithTraits FaithRules SelectorProofs4 SelectorProofs9 Goes Tells Tells2 Tells3 Tells4 Tells5 Tells6.
Open Scope N_scope.
Open Scope list_scope.

Section Components.
Variable src : text.
Variable f : feature.
Notation tells := (tells src f).
Notation onto := (onto src f).
Notation tv := (tv src f).
Notation out e := (fun x u => emits false u (e x)).

Section Lists.
Variable component_p : P component_ast.
Hypothesis HC : tells component_p (out component_cursors).
Lemma w_compound_loop : forall n, tells (compound_loop component_p n) (out compound_cursors).
Proof.
  induction n as [| n IH]; intros p cs O; [apply tv_none |]. cbn [compound_loop]. destruct (at_stop _ p) as [[] |]; [apply tv_ok; [exact O | apply emits_nil] | | apply tv_none].
  eapply tv_bind; [exact O | exact HC |]. intros x u q r E Oq K. cbv beta in *. apply tv_pmap. eapply tv_use; [exact Oq | exact IH |]. intros l v Kl. unfold compound_cursors in *. cbn [flat_map]. emi.
Qed.
Lemma w_compound_t : tells (compound_t component_p) (out compound_cursors).
Proof.
  intros p cs O. unfold compound_t. destruct (consume_trivia p) as [q |] eqn:E; [| apply tv_none]. destruct (trivia_onto src f p cs q O E) as (u & r & -> & Oq & _ & F). apply (tv_shift _ _ _ _ u r _ _ eq_refl).
  eapply tv_use; [exact Oq | apply w_compound_loop |]. intros l v Kl. cbv beta in *. pose proof (emits_dropped u F). emi.
Qed.
Lemma w_selector_list_t : tells (selector_list_t (compound_t component_p)) (out selectors_cursors).
Proof.
  intros p cs O. unfold selector_list_t. generalize (sfuel p). intro n. revert p cs O. induction n as [| n IH]; intros p cs O; [apply tv_none |]. cbn [selector_loop]. destruct (at_stop _ p) as [[] |]; [apply tv_ok; [exact O | apply emits_nil] | | apply tv_none].
  eapply tv_bind; [exact O | exact w_compound_t |]. intros x u q r E Oq K. eapply tv_bind; [exact Oq | apply k_if; discriminate |]. intros c u2 q2 r2 E2 O2 K2. cbv beta in *. apply tv_pmap. eapply tv_imp; [exact (IH q2 r2 O2) |]. intros l v Kl. cbv beta in *. unfold selectors_cursors in *. cbn [flat_map fst snd].
  unfold with_comma at 1. emi.
Qed.
Lemma w_functional_class : tells (parse_functional_class (selector_list_t (compound_t component_p))) (out component_cursors).
Proof.
  assert (V : forall ty, tells (parse_class_value (selector_list_t (compound_t component_p)) ty) (out class_value_cursors)).
  { intros ty p cs O. destruct ty; cbn [parse_class_value]; apply tv_pmap.
    - eapply tv_use; [exact O | apply k_set; discriminate |]. intros x u K. exact K.
    - eapply tv_use; [exact O | apply w_selector_list_t |]. intros x u K. exact K.
    - unfold parse_lang_values. eapply tv_use; [exact O | apply w_lang |]. intros x u K. exact K.
    - eapply tv_use; [exact O | apply w_nth |]. intros x u K. exact K.
    - eapply tv_use; [exact O | apply k_kind; discriminate |]. intros x u K. exact K. }
  intros p cs O. unfold parse_functional_class. destruct (parse_kind K_Colon (set_skip p KS_NONE)) as [[cr p1] |] eqn:E1; [| apply tv_none]. destruct (k_kind src f K_Colon ltac:(discriminate) _ cs (onto_skip src f p cs _ none_trivia O) _ _ E1) as (u & r & Er & Oq & K).
  destruct (parse_set K_Function named_classes p1) as [[kr p2] |] eqn:E2; [| apply tv_none]. destruct (k_set src f _ K_Function named_classes ltac:(discriminate) p1 r Oq _ _ E2) as (u2 & r2 & Er2 & O2 & K2). cbv zeta.
  pose proof (onto_skip src f p2 r2 (pskip p) (onto_own src f _ _ O) O2) as O3. subst cs r. assert (X : exists v, u ++ u2 ++ r2 = v ++ r2) by (exists (u ++ u2); now rewrite <- app_assoc).
  destruct cr as [c | e]; [| apply (tv_fails _ _ _ _ _ _ _ r2 O3 X)]. destruct kr as [[[name ty] fn] | e]; [| apply (tv_fails _ _ _ _ _ _ _ r2 O3 X)].
  specialize (K c eq_refl). specialize (K2 _ eq_refl). cbv beta in *. cbn [snd] in K2. apply (tv_shift _ _ _ _ u _ _ _ eq_refl), (tv_shift _ _ _ _ u2 _ _ _ eq_refl).
  eapply tv_bind; [exact O3 | apply V |]. intros v u3 q3 r3 E3 O4 K3. eapply tv_bind; [exact O4 | apply k_if; discriminate |]. intros cl u4 q4 r4 E4 O5 K4. cbv beta in *. apply tv_ok; [exact O5 |]. cbn [component_cursors]. fold class_value_cursors. emi.
Qed.
Lemma w_functional_element : tells (parse_functional_element (compound_t component_p)) (out component_cursors).
Proof.
  intros p cs O. unfold parse_functional_element. eapply tv_bind; [exact O | apply w_colon_colon |]. intros [c1 c2] u q r E Oq K. eapply tv_bind; [exact Oq | apply k_kind; discriminate |]. intros fn u2 q2 r2 E2 O2 K2.
  eapply tv_bind; [exact O2 | instantiate (1 := fun _ u => u = []) |].
  { intros p1 cs1 O1. unfold p_str_lower. destruct (parse_str_lower _ _); [apply tv_ok; [exact O1 | reflexivity] | apply tv_none]. }
  intros name u3 q3 r3 E3 O3 K3. cbv beta in *. subst u3. eapply tv_bind; [exact O3 | instantiate (1 := out element_value_cursors) |].
  { intros p1 cs1 O1. destruct (text_eqb _ _); [| destruct (text_eqb _ _); [| destruct (text_eqb _ _); [| apply tv_err; exact O1]]]; apply tv_pmap.
    - eapply tv_use; [exact O1 | apply k_kind; discriminate |]. intros x v Kx. exact Kx.
    - cbv beta. eapply tv_use; [exact O1 | apply w_part |]. intros x v Kx. exact Kx.
    - eapply tv_use; [exact O1 | exact w_compound_t |]. intros x v Kx. exact Kx. }
  intros v u4 q4 r4 E4 O4 K4. eapply tv_bind; [exact O4 | apply k_if; discriminate |]. intros cl u5 q5 r5 E5 O5 K5. cbv beta in *. cbn [fst snd] in K. apply tv_ok; [exact O5 |]. cbn [component_cursors]. fold element_value_cursors. emi.
Qed.
Lemma not_bare : forall p cs c c2, onto p cs -> peek_n (set_skip p KS_COMMENTS) 1 = Some c -> kind_of c <> K_Eof -> kind_of c <> K_Whitespace -> peek_n (set_skip p KS_COMMENTS) 2 = Some c2 -> tok_is_char (ctok c2) 124 = true -> ~ bare_pair p cs.
Proof.
  intros p cs c c2 (_ & _ & A & D) P1 K1 K2 P2 T (sk & i & t & rest & -> & F & Ki & Kt). assert (A' : ahead (plex (set_skip p KS_COMMENTS)) (sk ++ i :: t :: rest)) by exact A.
  rewrite (peek_n_spec _ _ 1 A') in P1 by lia. rewrite (peek_n_spec _ _ 2 A') in P2 by lia. apply some_inj in P1, P2. cbn [pskip set_skip] in P1, P2. change (N.to_nat 1 - 1)%nat with 0%nat in P1. change (N.to_nat 2 - 1)%nat with 1%nat in P2.
  destruct (kept KS_COMMENTS (sk ++ i :: t :: rest)) as [| c' r] eqn:Ek; [cbn [nth] in P1; subst c; elim K1; reflexivity |]. cbn [nth] in P1, P2. subst c'.
  assert (F' : Forall (in_kinds KS_TRIVIA) sk) by (eapply Forall_impl; [| exact F]; intros x Ix; apply in_trivia; destruct (D _ Ix) as [X | X]; unfold kind_of; auto).
  rewrite (second_visible sk i t rest c r _ F' Ek K2 Ki) in P2 by (destruct Kt as [Kt | (Kt & _)]; [rewrite Kt; discriminate | unfold kind_of; rewrite Kt; discriminate]). subst c2. apply tok_is_char_spec in T.
  destruct Kt as [Kt | (_ & Kt)]; [rewrite (ident_char t Kt) in T; discriminate | rewrite T in Kt; discriminate].
Qed.
Lemma w_take : forall pk (build : parser -> cursor -> option component_ast) code skip, Tells.solid pk -> only_trivia skip -> (forall q c x, build q c = Some x -> component_cursors x = [c]) -> tells (take_component skip pk build code) (out component_cursors).
Proof.
  intros pk build code skip So T Hb p cs O. unfold take_component. destruct (next p) as [[c q] |] eqn:N; [| apply tv_none]. destruct (next_onto src f p cs c q O N) as (u & r & E & Oq & _ & _ & X). cbv zeta. pose proof (onto_skip src f q r _ T Oq) as O2.
  destruct (pk (set_skip q skip) c) as [[] |] eqn:Pk; [| | apply tv_none].
  - destruct X as [(X & _) | (_ & Em)]; [elim (So (set_skip q skip) (coff c)); rewrite <- Pk; destruct c; simpl in X; subst; reflexivity |]. destruct (build (set_skip q skip) c) as [x |] eqn:B; [| apply tv_none].
    apply (tv_shift _ _ _ _ u r _ _ E). apply tv_ok; [exact O2 |]. rewrite (Hb _ _ _ B). now rewrite app_nil_r.
  - unfold fail_lower. destruct (parse_str_lower _ _); [| apply tv_none]. apply (tv_fails _ _ _ _ _ _ _ r O2). eauto.
Qed.
Lemma w_component : tells (component_t (css_parts component_p)) (out component_cursors).
Proof.
  intros p cs O. unfold component_t. cbn [sp_type_peek sp_type sp_id_peek sp_id sp_wildcard sp_class sp_ns_type sp_combinator sp_attribute sp_legacy_peek sp_legacy sp_pseudo_class sp_pseudo_element sp_functional_class sp_functional_element css_parts].
  cbv zeta. pose proof (onto_skip src f p cs _ comments_trivia O) as O1. set (p1 := set_skip p KS_COMMENTS) in *. destruct (peek_n p1 1) as [c |] eqn:P1; [| apply tv_none].
  assert (Cb : tells (pmap SCombinator parse_combinator) (out component_cursors)). { intros p' cs' O'. apply tv_pmap. eapply tv_use; [exact O' | apply w_combinator |]. intros x u K. exact K. }
  assert (Ns : kind_of c <> K_Eof -> kind_of c <> K_Whitespace -> forall c2, peek_n p1 2 = Some c2 -> tok_is_char (ctok c2) 124 = true -> tv cs (out component_cursors) (pmap SNamespace parse_namespace p)).
  { intros K1 K2 c2 P2 T. apply tv_pmap. apply w_namespace; [exact O |]. exact (not_bare p cs c c2 O P1 K1 K2 P2 T). }
  assert (Ot : tv cs (out component_cursors) (match pmap SCombinator parse_combinator p1 with None => None | Some (r, q) => match consume_trivia (set_skip q KS_WHITESPACE) with None => None | Some q => Some (r, set_skip q (pskip p)) end end)).
  { eapply tv_call; [exact O1 | exact Cb | |].
    - intros x u q r E Oq K. cbv beta iota in *. destruct (consume_trivia (set_skip q KS_WHITESPACE)) as [q2 |] eqn:Et; [| apply tv_none]. destruct (trivia_onto src f _ r q2 (onto_skip src f _ _ _ whitespace_trivia Oq) Et) as (v & r2 & -> & O2 & _ & F).
      apply (tv_shift _ _ _ _ v r2 _ _ eq_refl). apply tv_ok; [onto_ |]. pose proof (emits_dropped v F). emi.
    - intros e u q r E Oq. cbv beta iota in *. destruct (consume_trivia (set_skip q KS_WHITESPACE)) as [q2 |] eqn:Et; [| apply tv_none]. destruct (trivia_onto src f _ r q2 (onto_skip src f _ _ _ whitespace_trivia Oq) Et) as (v & r2 & -> & O2 & _ & F).
      apply (tv_fails _ _ _ _ _ _ _ r2); [onto_ | eauto]. }
  unfold kind_of in Ns. destruct (tkind (ctok c)) eqn:Kc; try exact Ot.
  - (* an identifier *)
    destruct (peek_n p1 2) as [c2 |] eqn:P2; [| apply tv_none]. destruct (tok_is_char (ctok c2) 124) eqn:T; [exact (Ns ltac:(discriminate) ltac:(discriminate) c2 eq_refl T) |].
    eapply tv_use; [exact O1 | apply w_take; [apply solid_kind; discriminate | exact (onto_own src f _ _ O) |] | intros x u K; exact K].
    intros q d x B. destruct (build_tag q d) as [t |] eqn:Bt; [| discriminate]. injection B as <-. cbn [component_cursors]. now rewrite (tag_built _ _ _ Bt).
  - destruct (hash_is_id_like (ctok c)); [| exact Ot]. eapply tv_use; [exact O1 | apply w_take; [apply solid_kind; discriminate | exact (onto_own src f _ _ O) |] | intros x u K; exact K]. intros q d x B. injection B as <-. reflexivity.
  - destruct (tchar (ctok c)) as [ch |]; [| apply tv_none]. destruct (ch =? 46).
    { destruct (peek_n p1 2) as [c2 |]; [| apply tv_none]. destruct (tkind (ctok c2)); try (apply tv_err; exact O). apply tv_pmap. eapply tv_use; [exact O | apply w_class |]. intros x u K. exact K. }
    destruct (ch =? 42); [| exact (Cb p cs O)]. destruct (peek_n p1 2) as [c2 |] eqn:P2; [| apply tv_none]. destruct (tok_is_char (ctok c2) 124) eqn:T; [exact (Ns ltac:(discriminate) ltac:(discriminate) c2 eq_refl T) |].
    destruct (next p) as [[d q] |] eqn:N; [| apply tv_none]. destruct (next_onto src f p cs d q O N) as (u & r & E & Oq & _ & _ & X). destruct X as [(_ & F & ->) | (_ & Em)].
    + exfalso. rewrite app_nil_r in E. subst cs. destruct O1 as (_ & _ & A & _). rewrite (peek_n_spec _ _ 1 A) in P1 by lia. apply some_inj in P1. change (N.to_nat 1 - 1)%nat with 0%nat in P1.
      destruct (nth_in_or_default 0 (kept (pskip p1) u) (eof_cursor p1)) as [In_ | D]; [| rewrite D in P1; subst c; discriminate Kc]. rewrite P1 in In_. apply kept_in in In_. rewrite Forall_forall in F. specialize (F c In_). unfold droppable, kind_of in F. rewrite Kc in F. cbn [In] in F. intuition discriminate.
    + apply (tv_shift _ _ _ _ u r _ _ E). apply tv_ok; [exact Oq |]. cbn [component_cursors]. emi.
  - destruct (peek_n p1 2) as [c2 |]; [| apply tv_none]. destruct (tkind (ctok c2)); try (apply tv_err; exact O1).
    + destruct (peek_pseudo_class _ p c) as [[] |]; [| | apply tv_none]; apply tv_pmap.
      * eapply tv_use; [exact O | apply w_pseudo_class_of |]. intros [w [a b]] u K. exact K.
      * eapply tv_use; [exact O | apply w_pseudo_class |]. intros x u K. exact K.
    + exact (w_functional_class p cs O).
    + destruct (peek_n p1 3) as [c3 |]; [| apply tv_none]. destruct (tkind (ctok c3)); try (apply tv_err; exact O).
      * apply tv_pmap. eapply tv_use; [exact O | apply w_pseudo_element |]. intros x u K. exact K.
      * exact (w_functional_element p cs O).
  - apply tv_pmap. eapply tv_use; [exact O | exact (w_attribute src f) | intros x u K; exact K].
Qed.
End Lists.
Lemma w_component_n : forall n, tells (component_n n) (out component_cursors).
Proof. induction n as [| n IH]; [intros p cs O; apply tv_none |]. cbn [component_n]. exact (w_component _ IH). Qed.
Lemma w_compound : tells parse_compound (out compound_cursors).
Proof. intros p cs O. unfold parse_compound. exact (w_compound_t _ (w_component_n _) p cs O). Qed.
Lemma w_selectors : tells parse_selectors (wri (fun _ => true) (fun _ => false) selectors_cursors).
Proof. intros p cs O. unfold parse_selectors. eapply tv_imp; [exact (w_selector_list_t _ (w_component_n _) p cs O) |]. intros l u K _. exact K. Qed.
End Components.
