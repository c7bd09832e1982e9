(* The logic of Shows.v: selectors. *)
From Coq Require Import ZifyBool ZifyNat ZifyN Permutation.
From Coq Require Import String.
From Coq Require Import List.
From Verif Require Import AstSheet SpecSheet SpecLex SpecTrace SpecParser SpecSyntax SpecTraits SpecRules SpecFeatures SpecSelectors SpecCursor SpecToken LexBase TokenProofs KindProofs LexFacts LexTrace CursorProofs CursorLex
  ParserProofs ParserProofs2 ParserProofs3 ParserProofs4 CompareProofs SyntaxProofs SyntaxTotal TraitsTotal RulesTotal FeatureProofs FaithProofs FaithTraits FaithRules SelectorProofs3 SelectorProofs4 SelectorProofs9 Goes
  Tells Tells2 Tells3 Tells4 Tells5 Tells6 Tells7 Tells8 Tells9 SpecHighlight Shows Shows2.
Open Scope N_scope.
Open Scope list_scope.

Definition component_marks (x : component_ast) : list mark := match x with STag t => [MTag t] | SPseudoClass c => [MClass c] | _ => [] end.
Definition compound_marks (l : list component_ast) : list mark := flat_map component_marks l.
Definition selectors_marks (l : supports_selectors) : list mark := flat_map (fun s => compound_marks (fst s)) l.

Section Components.
Variable src : text.
Variable f : feature.
Notation tells := (tells src f).
Notation onto := (onto src f).
Notation tv := (tv src f).
Notation out e := (fun x u => emits false u (e x)).
Notation shows g := (fun a u => sh src (g a) u).

Lemma s_pseudo_class_of : forall l, tells (parse_pseudo_class (words l)) (fun x u => among [fst (snd x); snd (snd x)] u /\ class_phrase (words l) src x).
Proof.
  intros l p cs O. pose proof O as (_ & _ & Ah & _). unfold parse_pseudo_class. eapply tv_bind; [exact O | apply s_kind_last; discriminate |]. intros c u q r E Oq ((sk & Eu) & Kc).
  eapply tv_bind; [exact Oq | apply s_bare_kind; discriminate |]. intros i u2 q2 r2 E2 O2 (Eu2 & Ki). pose proof (proj1 O2) as S2. unfold look_up. destruct (parse_str_lower i (lsrc (plex q2))) as [w |] eqn:Ew; [| apply tv_none].
  destruct (map_get (words l) w) as [v |] eqn:G; [| apply tells_fail_text; exact O2]. apply tv_ok; [exact O2 |]. subst u u2 r cs. cbn [fst snd]. rewrite app_nil_r. split.
  - intro d. rewrite !count_app. change [c; i] with ([c] ++ [i]). rewrite count_app. lia.
  - unfold class_phrase, is_word. split; [exact Kc |]. split.
    + split; [exact Ki |]. exists w. rewrite <- S2. split; [exact Ew |]. exact (map_get_in _ _ _ _ G).
    + rewrite <- app_assoc in Ah. cbn [app] in Ah. exact (adjacent_in _ _ _ _ _ Ah).
Qed.
Lemma s_pseudo_class : tells parse_pseudo_class_ast (fun x u => sh src [MClass x] u).
Proof.
  assert (I : forall v (a : text * (cursor * cursor)) u, among [fst (snd a); snd (snd a)] u /\ class_phrase (words (vendor_classes v)) src a -> sh src [MClass (v, a)] u) by (intros v [w [a b]] u (K1 & K2); apply sh_one; [exact K2 | exact K1]).
  intros p cs O. unfold parse_pseudo_class_ast. eapply tv_retry; [exact O | apply s_pseudo_class_of | |].
  - intros x u q r E Oq K. apply tv_ok; [exact Oq |]. rewrite app_nil_r. apply (I VStandard). exact K.
  - intros e u q r E Oq. cbv beta iota zeta. destruct (peek_n _ 2) as [c |]; [| apply tv_none]. match goal with |- Tells.tv _ _ _ ?K (?m _) => cut (tells m K); [intro T; apply T; exact (onto_back src f _ _ _ _ O Oq) |] end.
    eapply w_or_try; [apply s_pseudo_class_of | intros a v; apply (I VWebkit) |]. eapply w_or_try; [apply s_pseudo_class_of | intros a v; apply (I VMoz) |]. eapply w_or_try; [apply s_pseudo_class_of | intros a v; apply (I VMs) |].
    eapply w_or_try; [apply s_pseudo_class_of | intros a v; apply (I VO) |]. apply tells_fail_text.
Qed.
Lemma built_word : forall q c t, tok_is (ctok c) K_Ident = true -> build_tag q c = Some t -> exists w, parse_str_lower c (lsrc (plex q)) = Some w.
Proof.
  intros q c t T B. unfold build_tag, or_build at 1, peek_set, look_up in B. rewrite T in B. destruct (parse_str_lower c (lsrc (plex q))) as [w |]; [eauto | discriminate].
Qed.
Lemma s_take_tag : forall code skip, only_trivia skip -> tells (take_component skip peek_tag (fun q c => option_map STag (build_tag q c)) code) (shows component_marks).
Proof.
  intros code skip T p cs O. unfold take_component. destruct (next p) as [[c q] |] eqn:N; [| apply tv_none]. destruct (next_last src f p cs c q O N) as (u & r & E & Oq & X). cbv zeta. pose proof (onto_skip src f q r _ T Oq) as O2.
  destruct (peek_tag (set_skip q skip) c) as [[] |] eqn:Pk; [| | apply tv_none].
  - destruct X as [X | (Kc & sk & Eu & _)]; [elim (solid_kind K_Ident ltac:(discriminate) (set_skip q skip) (coff c)); rewrite <- Pk; destruct c; simpl in X; subst; reflexivity |].
    unfold peek_tag, peek_kind in Pk. apply some_inj in Pk. pose proof (kind_is c _ Kc Pk) as Ki. destruct (build_tag (set_skip q skip) c) as [t |] eqn:B; cbn [option_map]; [| apply tv_none].
    apply (tv_shift _ _ _ _ u r _ _ E). apply tv_ok; [exact O2 |]. rewrite app_nil_r. cbn [component_marks]. destruct (built_word _ _ _ Pk B) as (w & Ew). destruct (build_tag_spec _ _ _ Ki Ew) as (t' & B' & Ec & Ph).
    rewrite B in B'. apply some_inj in B'. subst t'. apply sh_one; [cbn [true_mark]; pose proof (proj1 O2) as S2; rewrite S2 in Ph; exact Ph |]. cbn [mark_cursors]. rewrite Ec, Eu. apply among_last.
  - unfold fail_lower. destruct (parse_str_lower _ _); [| apply tv_none]. apply (tv_fails _ _ _ _ _ _ _ r O2). eauto.
Qed.
(* a component with nothing to show *)
Lemma tv_silent : forall cs K o, tv cs K o -> (forall a q, o = Some (Ok a, q) -> component_marks a = []) -> tv cs (shows component_marks) o.
Proof.
  intros cs K o T H r q E. destruct (T r q E) as (u & rest & E0 & O & _). exists u, rest. split; [exact E0 |]. split; [exact O |]. intros a ->. rewrite (H a q E). apply sh_nil.
Qed.
Lemma functional_class_silent : forall l p a q, parse_functional_class l p = Some (Ok a, q) -> component_marks a = [].
Proof.
  intros l p a q E. unfold parse_functional_class in E. destruct (parse_kind K_Colon _) as [[[c | e] p1] |]; [| | discriminate]; destruct (parse_set K_Function named_classes p1) as [[[[[n ty] fn] | e'] p2] |]; try discriminate. cbv zeta in E.
  destruct (bind_inv _ _ _ _ _ _ _ E) as (v & q1 & _ & E2). destruct (bind_inv _ _ _ _ _ _ _ E2) as (cl & q2 & _ & E3). injection E3 as <- <-. reflexivity.
Qed.
Lemma functional_element_silent : forall m p a q, parse_functional_element m p = Some (Ok a, q) -> component_marks a = [].
Proof.
  intros m p a q E. unfold parse_functional_element in E. do 5 (destruct (bind_inv _ _ _ _ _ _ _ E) as (? & ? & _ & E'); clear E; rename E' into E). injection E as <- <-. reflexivity.
Qed.
Lemma take_id_silent : forall skip code p a q, take_component skip (peek_kind K_Hash) (fun _ c => Some (SId c)) code p = Some (Ok a, q) -> component_marks a = [].
Proof.
  intros skip code p a q E. unfold take_component in E. destruct (next p) as [[c q1] |]; [| discriminate]. cbv zeta in E. destruct (peek_kind K_Hash _ c) as [[] |]; [injection E as <- <-; reflexivity | | discriminate].
  unfold fail_lower in E. destruct (parse_str_lower _ _); discriminate.
Qed.
Section Lists.
Variable component_p : P component_ast.
Hypothesis HC : tells component_p (out component_cursors).
Hypothesis HS : tells component_p (shows component_marks).
Lemma s_compound_loop : forall n, tells (compound_loop component_p n) (shows compound_marks).
Proof.
  induction n as [| n IH]; intros p cs O; [apply tv_none |]. cbn [compound_loop]. destruct (at_stop _ p) as [[] |]; [apply tv_ok; [exact O | apply sh_nil] | | apply tv_none].
  eapply tv_bind; [exact O | exact HS |]. intros x u q r E Oq K. apply tv_pmap. eapply tv_use; [exact Oq | exact IH |]. intros l v Kl. unfold compound_marks in *. cbn [flat_map]. shw.
Qed.
Lemma s_compound_t : tells (compound_t component_p) (shows compound_marks).
Proof.
  intros p cs O. unfold compound_t. destruct (consume_trivia p) as [q |] eqn:E; [| apply tv_none]. destruct (trivia_onto src f p cs q O E) as (u & r & -> & Oq & _ & F). apply (tv_shift _ _ _ _ u r _ _ eq_refl).
  eapply tv_use; [exact Oq | apply s_compound_loop |]. intros l v Kl. apply sh_left. exact Kl.
Qed.
Lemma s_selector_list_t : tells (selector_list_t (compound_t component_p)) (shows selectors_marks).
Proof.
  intros p cs O. unfold selector_list_t. generalize (sfuel p). intro n. revert p cs O. induction n as [| n IH]; intros p cs O; [apply tv_none |]. cbn [selector_loop]. destruct (at_stop _ p) as [[] |]; [apply tv_ok; [exact O | apply sh_nil] | | apply tv_none].
  eapply tv_bind; [exact O | exact s_compound_t |]. intros x u q r E Oq K. eapply tv_bind; [exact Oq | apply k_if; discriminate |]. intros c u2 q2 r2 E2 O2 K2. clear K2. apply tv_pmap. eapply tv_imp; [exact (IH q2 r2 O2) |]. intros l v Kl. unfold selectors_marks in *. cbn [flat_map fst snd]. shw.
Qed.
Lemma s_component : tells (component_t (css_parts component_p)) (shows component_marks).
Proof.
  intros p cs O. unfold component_t. cbn [sp_type_peek sp_type sp_id_peek sp_id sp_wildcard sp_class sp_ns_type sp_combinator sp_attribute sp_legacy_peek sp_legacy sp_pseudo_class sp_pseudo_element sp_functional_class sp_functional_element css_parts].
  cbv zeta. pose proof (onto_skip src f p cs _ comments_trivia O) as O1. set (p1 := set_skip p KS_COMMENTS) in *. destruct (peek_n p1 1) as [c |] eqn:P1; [| apply tv_none].
  assert (Cb : tells (pmap SCombinator parse_combinator) (shows component_marks)). { intros p' cs' O'. apply tv_pmap. eapply tv_use; [exact O' | apply w_combinator |]. intros x u K. apply sh_nil. }
  assert (Ns : kind_of c <> K_Eof -> kind_of c <> K_Whitespace -> forall c2, peek_n p1 2 = Some c2 -> tok_is_char (ctok c2) 124 = true -> tv cs (shows component_marks) (pmap SNamespace parse_namespace p)).
  { intros K1 K2 c2 P2 T. apply tv_pmap. eapply tv_imp; [apply w_namespace; [exact O | exact (not_bare src f p cs c c2 O P1 K1 K2 P2 T)] |]. intros x u K. apply sh_nil. }
  assert (Ot : tv cs (shows component_marks) (match pmap SCombinator parse_combinator p1 with None => None | Some (r, q) => match consume_trivia (set_skip q KS_WHITESPACE) with None => None | Some q => Some (r, set_skip q (pskip p)) end end)).
  { eapply tv_call; [exact O1 | exact Cb | |].
    - intros x u q r E Oq K. cbv beta iota in *. destruct (consume_trivia (set_skip q KS_WHITESPACE)) as [q2 |] eqn:Et; [| apply tv_none]. destruct (trivia_onto src f _ r q2 (onto_skip src f _ _ _ whitespace_trivia Oq) Et) as (v & r2 & -> & O2 & _ & F).
      apply (tv_shift _ _ _ _ v r2 _ _ eq_refl). apply tv_ok; [onto_ |]. apply sh_right. exact K.
    - intros e u q r E Oq. cbv beta iota in *. destruct (consume_trivia (set_skip q KS_WHITESPACE)) as [q2 |] eqn:Et; [| apply tv_none]. destruct (trivia_onto src f _ r q2 (onto_skip src f _ _ _ whitespace_trivia Oq) Et) as (v & r2 & -> & O2 & _ & F).
      apply (tv_fails _ _ _ _ _ _ _ r2); [onto_ | eauto]. }
  unfold kind_of in Ns. destruct (tkind (ctok c)) eqn:Kc; try exact Ot.
  - (* an identifier *)
    destruct (peek_n p1 2) as [c2 |] eqn:P2; [| apply tv_none]. destruct (tok_is_char (ctok c2) 124) eqn:T; [exact (Ns ltac:(discriminate) ltac:(discriminate) c2 eq_refl T) |].
    exact (s_take_tag _ _ (onto_own src f _ _ O) p1 cs O1).
  - destruct (hash_is_id_like (ctok c)); [| exact Ot]. eapply tv_silent; [| intros a q E; exact (take_id_silent _ _ _ _ _ E)]. eapply w_take; [apply solid_kind; discriminate | exact (onto_own src f _ _ O) | | exact O1]. intros q d x B. injection B as <-. reflexivity.
  - destruct (tchar (ctok c)) as [ch |]; [| apply tv_none]. destruct (ch =? 46).
    { destruct (peek_n p1 2) as [c2 |]; [| apply tv_none]. destruct (tkind (ctok c2)); try (apply tv_err; exact O). apply tv_pmap. eapply tv_use; [exact O | apply w_class |]. intros x u K. apply sh_nil. }
    destruct (ch =? 42); [| exact (Cb p cs O)]. destruct (peek_n p1 2) as [c2 |] eqn:P2; [| apply tv_none]. destruct (tok_is_char (ctok c2) 124) eqn:T; [exact (Ns ltac:(discriminate) ltac:(discriminate) c2 eq_refl T) |].
    destruct (next p) as [[d q] |] eqn:N; [| apply tv_none]. destruct (next_onto src f p cs d q O N) as (u & r & E & Oq & _ & _ & X). apply (tv_shift _ _ _ _ u r _ _ E). apply tv_ok; [exact Oq |]. apply sh_nil.
  - destruct (peek_n p1 2) as [c2 |]; [| apply tv_none]. destruct (tkind (ctok c2)); try (apply tv_err; exact O1).
    + destruct (peek_pseudo_class _ p c) as [[] |]; [| | apply tv_none]; apply tv_pmap.
      * eapply tv_use; [exact O | apply w_pseudo_class_of |]. intros [w [a b]] u K. apply sh_nil.
      * exact (s_pseudo_class p cs O).
    + eapply tv_silent; [exact (w_functional_class src f _ HC p cs O) |]. intros a q E. exact (functional_class_silent _ _ _ _ E).
    + destruct (peek_n p1 3) as [c3 |]; [| apply tv_none]. destruct (tkind (ctok c3)); try (apply tv_err; exact O).
      * apply tv_pmap. eapply tv_use; [exact O | apply w_pseudo_element |]. intros x u K. apply sh_nil.
      * eapply tv_silent; [exact (w_functional_element src f _ HC p cs O) |]. intros a q E. exact (functional_element_silent _ _ _ _ E).
  - apply tv_pmap. eapply tv_use; [exact O | exact (w_attribute src f) | intros x u K; apply sh_nil].
Qed.
End Lists.
Lemma s_component_n : forall n, tells (component_n n) (shows component_marks).
Proof. induction n as [| n IH]; [intros p cs O; apply tv_none |]. cbn [component_n]. exact (s_component _ (w_component_n src f n)). Qed.
Lemma s_selectors : tells parse_selectors (shows selectors_marks).
Proof. intros p cs O. unfold parse_selectors. exact (s_selector_list_t _ (s_component_n _) p cs O). Qed.
End Components.
