(* The logic of Tells.v: component values, declarations, the traits of css_parse. *)
From Coq Require Import ZifyBool ZifyNat ZifyN Permutation.
From Coq Require Import List.
From Verif Require Import AstSheet SpecSheet SpecLex SpecTrace SpecParser SpecSyntax SpecTraits SpecRules SpecFeatures SpecCursor SpecToken LexBase TokenProofs KindProofs LexFacts LexTrace CursorProofs CursorLex
  ParserProofs ParserProofs2 ParserProofs3 ParserProofs4 CompareProofs SyntaxProofs SyntaxTotal TraitsTotal RulesTotal FeatureProofs FaithProofs FaithTraits FaithRules Goes Tells.
Open Scope N_scope.
Open Scope list_scope.

Section Basics.
Variable src : text.
Variable f : feature.
Notation tells := (tells src f).
Notation onto := (onto src f).
Notation tv := (tv src f).
Lemma w_kind : forall k, k <> K_Eof -> tells (parse_kind k) (fun c u => emits false u [c] /\ kind_of c = k).
Proof. exact (tells_kind src f). Qed.
Lemma w_drop_kind : forall k, k <> K_Eof -> In k [K_Whitespace; K_Comment; K_Semicolon; K_CdcOrCdo] -> tells (if_kind k) (fun o u => emits false u []).
Proof.
  intros k N I. unfold if_kind. eapply tells_imp; [apply tells_if_peek; apply (tells_drop _ _ _ _ (fun c => c)); eapply tells_imp; [apply tells_kind; exact N |] |].
  - intros c u (Em & Kc). split; [exact Em |]. unfold droppable. rewrite Kc. exact I.
  - intros [c |] u Ku; cbv beta in Ku; [exact Ku | subst u; apply emits_nil].
Qed.
Lemma w_drop_whitespace : tells if_whitespace (fun o u => emits false u []).
Proof.
  unfold if_whitespace. eapply tells_imp; [apply tells_if_peek; apply (tells_drop _ _ _ _ (fun c => c)); eapply tells_imp; [apply tells_whitespace |] |].
  - intros c u (Em & Kc). split; [exact Em |]. unfold droppable. rewrite Kc. now left.
  - intros [c |] u Ku; cbv beta in Ku; [exact Ku | subst u; apply emits_nil].
Qed.
Lemma if_kind_ok : forall k p e q, if_kind k p <> Some (Err e, q).
Proof.
  intros k p e q E. unfold if_kind, parse_if_peek in E. destruct (peek (peek_kind k) p) as [[] |] eqn:Pk; [| discriminate | discriminate].
  unfold pmap, bind in E. destruct (parse_kind k p) as [[[c | e'] q'] |] eqn:E2; [discriminate | | discriminate]. exact (peek_then_parse _ _ _ _ _ _ Pk E2).
Qed.
Lemma w_opt_semicolon : tells (opt_ok (if_kind K_Semicolon)) (fun o u => emits false u []).
Proof.
  intros p cs O r q E. unfold opt_ok in E. destruct (if_kind K_Semicolon p) as [[[o | e] q1] |] eqn:E1; [| | discriminate]; [| exfalso; exact (if_kind_ok _ _ _ _ E1)]. injection E as <- <-.
  destruct (w_drop_kind K_Semicolon ltac:(discriminate) ltac:(cbn; tauto) p cs O _ _ E1) as (u & rest & E & Oq & Ku). exists u, rest. split; [exact E |]. split; [exact Oq |]. intros a _. exact (Ku o eq_refl).
Qed.
Lemma w_important : tells (parse_if_peek peek_important parse_important) (fun i u => emits false u (pair_cursors i)).
Proof.
  eapply tells_imp; [apply tells_if_peek; instantiate (1 := fun x u => emits false u [fst x; snd x]) |].
  - intros p cs O. unfold parse_important. eapply tv_bind; [exact O | apply tells_delim |]. intros bang u q rest -> Oq (Em & _). eapply tv_bind; [exact Oq | apply tells_kind; discriminate |].
    intros id v q2 rest2 -> Oq2 (Em2 & _). tl. apply (emits_then false u [bang]); [exact Em |]. now apply emits_last.
  - intros [[a b] |] u Ku; [exact Ku | cbv beta iota in Ku; subst u; apply emits_nil].
Qed.
Lemma w_declaration : forall V (valid : parser -> cursor -> option bool) (value_p : cursor -> P V) c m em, (forall n, tells (value_p n) (fun v u => wr (c v) (m v) u (em v))) ->
  tells (declaration_t valid value_p) (fun x u => let '(name, colon, v, i) := x in wr (c v) (m v) u (name :: colon :: em v ++ pair_cursors i)).
Proof.
  intros V valid value_p c m em H p cs O. unfold declaration_t. eapply tv_bind; [exact O | apply tells_kind; discriminate |]. intros name u q r E Oq K. destruct (valid q name) as [[] |]; [| apply tv_err; exact Oq | apply tv_none].
  eapply tv_bind; [exact Oq | apply tells_kind; discriminate |]. intros colon u2 q2 r2 E2 O2 K2. eapply tv_bind; [exact O2 | apply H |]. intros v u3 q3 r3 E3 O3 K3. cbv beta in K3.
  eapply tv_bind; [exact O3 | apply w_important |]. intros i u4 q4 r4 E4 O4 K4. cbv beta in K4. tl. em.
Qed.
End Basics.
#[export] Hint Resolve tells_kind tells_delim tells_dashed tells_set tells_whitespace tells_any tells_if_kind tells_if_peek tells_in_state tells_in_stop tells_unskipped w_important : tells.
#[export] Hint Extern 1 (_ <> K_Eof) => discriminate : tells.

Section Values.
Variable src : text.
Variable f : feature.
Notation tells := (tells src f).
Notation onto := (onto src f).
Notation tv := (tv src f).
Lemma emits_re : forall u c e, emits false u [c] -> re_emitted c e -> emits false u [e].
Proof.
  intros u c e (k & d & o & M & F & R & ->) X. exists k, d, [e]. split; [exact M |]. split; [exact F |]. split; [| reflexivity]. inversion R as [| a b k0 o0 Rc R0]; subst. inversion R0; subst. constructor; [| constructor].
  destruct Rc as [-> | (E & K)]; [exact X |]. destruct X as [-> | (E' & K')]; right; [auto |]. split; [congruence | exact K].
Qed.
Lemma set_is : forall c s, kind_of c <> K_Eof -> tok_in (ctok c) s = true -> kindset_contains s (kind_of c) = true.
Proof. intros c s N T. destruct (kindset_contains s (kind_of c)) eqn:E; [reflexivity |]. rewrite tok_in_false in T; [discriminate | exact N |]. unfold in_kinds. unfold kind_of in E. congruence. Qed.
Lemma w_pair_start : tells parse_pair_start (fun t u => exists c, t = ctok c /\ emits false u [c] /\ is_opener (kind_of c)).
Proof.
  eapply tells_imp; [apply tells_single; exact pair_start_eof |]. intros t u (c & p & -> & Em & Kc & Pk & _). exists c. split; [reflexivity |]. split; [exact Em |]. unfold peek_kindset in Pk. apply some_inj in Pk.
  apply pair_start_kinds. exact (set_is c _ Kc Pk).
Qed.
Lemma w_pair_end : tells parse_pair_end (fun t u => exists c, t = ctok c /\ emits false u [c] /\ is_closer (kind_of c)).
Proof.
  eapply tells_imp; [apply tells_single; exact pair_end_eof |]. intros t u (c & p & -> & Em & Kc & Pk & _). exists c. split; [reflexivity |]. split; [exact Em |]. unfold peek_kindset in Pk. apply some_inj in Pk.
  apply pair_end_kinds. exact (set_is c _ Kc Pk).
Qed.
Definition w_cv : cval -> list cursor -> Prop := fun v u => wr true false u (cv_cursors v).
Definition w_cvs : list cval -> list cursor -> Prop := fun v u => wr true false u (cvs_cursors v).
Lemma w_cv_tokens : tells cv_tokens w_cv.
Proof.
  assert (X : forall l, Forall (fun k => k <> K_Eof) l -> tells (fold_right (fun k e => or_peek (peek_kind k) (pmap (CvToken k) (parse_kind k)) e) unexpected_next l) w_cv).
  { induction l as [| k l IH]; intros F p cs O; cbn [fold_right].
    - unfold unexpected_next. destruct (next p) as [[c q] |] eqn:N; [| apply tv_none]. destruct (next_onto src f p cs c q O N) as (u & rest & E & Oq & _). apply (tv_fails _ _ _ _ _ _ _ rest Oq). eauto.
    - inversion F; subst. apply tv_or_peek; intro Pk; [| exact (IH ltac:(assumption) p cs O)]. apply tv_pmap. eapply tv_use; [exact O | apply tells_kind; assumption |]. intros c u (Em & _). intros _. exact Em. }
  apply X. unfold CV_KINDS. repeat (constructor; [discriminate |]). constructor.
Qed.
Lemma w_block_with : forall vp, tells vp w_cvs -> tells (block_with vp) w_cv.
Proof.
  intros vp H p cs O. unfold block_with. eapply tv_bind; [exact O | apply w_pair_start |]. intros t u q r E Oq (c & -> & Em & Op). eapply tv_bind; [exact Oq | apply tells_in_stop; exact H |]. intros vs u2 q2 r2 E2 O2 K2.
  assert (Em' : emits false u [Cursor (poffset p) (ctok c)]) by (apply (emits_re u c); [exact Em | right; split; [reflexivity | now left]]).
  apply tv_or_peek; intro Pk.
  - assert (Y : tells (fun p => if match peek (peek_kindset KS_PAIR_END) p with Some b => b | None => false end then opt_ok parse_pair_end p else None) (fun o v => exists t, o = Some t /\ emits false v [dummy_cursor t])).
    { intros p' cs' O'. destruct (peek (peek_kindset KS_PAIR_END) p') as [[] |] eqn:Pk'; [| apply tv_none | apply tv_none]. unfold opt_ok. destruct (parse_pair_end p') as [[[t | e] q'] |] eqn:Ep; [| | apply tv_none].
      - destruct (w_pair_end p' cs' O' _ _ Ep) as (v & rest & Ev & Ov & Kv). destruct (Kv t eq_refl) as (c' & -> & Em2 & Cl). intros r' q'' E'. injection E' as <- <-. exists v, rest. split; [exact Ev |]. split; [exact Ov |].
        intros a Ea. injection Ea as <-. exists (ctok c'). split; [reflexivity |]. apply (emits_re v c'); [exact Em2 |]. right. split; [reflexivity | now right].
      - exfalso. exact (peek_then_parse _ _ _ _ _ _ Pk' Ep). }
    intros r' q' E'. unfold bind in E'. pose proof (Y q2 r2 O2) as Z. cbv beta in Z. rewrite Pk in Z. destruct (opt_ok parse_pair_end q2) as [[[o | e] q3] |] eqn:Eo; [| | discriminate].
    + injection E' as <- <-. destruct (Z _ _ eq_refl) as (v & rest & Ev & Ov & Kv). destruct (Kv o eq_refl) as (t & -> & Em2). exists v, rest. split; [exact Ev |]. split; [exact Ov |]. intros a Ea. injection Ea as <-. unfold w_cv, w_cvs in *. cbn [cv_cursors].
      rewrite app_comm_cons. intros _. apply (emits_then false u [_]); [exact Em' |]. apply emits_then; [exact (K2 eq_refl) | exact Em2].
    + injection E' as <- <-. destruct (Z _ _ eq_refl) as (v & rest & Ev & Ov & Kv). exists v, rest. split; [exact Ev |]. split; [exact Ov |]. discriminate.
  - tl. unfold w_cv, w_cvs, cvs_cursors in *. cbn [cv_cursors]. em.
Qed.
Lemma args_end : forall n p vs q, args_fuel n p = Some (Ok vs, q) -> p_at_end q = true \/ peek (peek_kind K_RightParen) q = Some true.
Proof.
  induction n as [| n IH]; intros p vs q E; [discriminate |]. cbn [args_fuel] in E. destruct (p_at_end p) eqn:A; [injection E as <- <-; auto |]. destruct (or_peek_inv _ _ _ _ _ _ E) as [(Pk & E') | (Pk & E')].
  - injection E' as <- <-. auto.
  - destruct (bind_inv _ _ _ _ _ _ _ E') as (v & p1 & E1 & E2). destruct (pmap_inv _ _ _ _ _ _ _ E2) as (l & E3 & _). exact (IH _ _ _ E3).
Qed.
Lemma w_function_with : forall ap, tells ap w_cvs -> (forall p vs q, ap p = Some (Ok vs, q) -> p_at_end q = true \/ peek (peek_kind K_RightParen) q = Some true) -> tells (function_with ap) w_cv.
Proof.
  intros ap H He p cs O. unfold function_with. eapply tv_bind; [exact O | apply tells_kind; discriminate |]. intros c u q r E Oq (Em & _).
  intros r' q' E'. unfold bind at 1 in E'. destruct (ap q) as [[[vs | e] q2] |] eqn:Ea; [| | discriminate].
  2:{ injection E' as <- <-. destruct (H q r Oq _ _ Ea) as (v & rest & Ev & Ov & _). exists v, rest. split; [exact Ev |]. split; [exact Ov | discriminate]. }
  destruct (H q r Oq _ _ Ea) as (v & rest & Ev & Ov & Kv). specialize (Kv vs eq_refl). unfold bind in E'. unfold opt_ok in E'. destruct (parse_kind K_RightParen q2) as [[[c2 | e] q3] |] eqn:Ep; [| | discriminate]; cbn [ret] in E'; injection E' as <- <-;
    destruct (tells_kind src f K_RightParen ltac:(discriminate) q2 rest Ov _ _ Ep) as (w & rest2 & Ew & Ow & Kw).
  - exists (v ++ w), rest2. rewrite <- app_assoc, Ew in *. split; [rewrite Ev; reflexivity |]. split; [exact Ow |]. intros a Ea'. injection Ea' as <-. destruct (Kw c2 eq_refl) as (Em2 & _). unfold w_cv, w_cvs, cvs_cursors in *. cbn [cv_cursors]. em.
  - destruct (He _ _ _ Ea) as [Ae | Pk]; [| exfalso; exact (peek_then_parse _ _ _ _ _ _ Pk Ep)].
    destruct Ov as (_ & _ & Ah & _). destruct (at_end_stuck q2 rest Ah Ae) as (_ & ->). symmetry in Ew. apply app_eq_nil in Ew. destruct Ew as (-> & ->). rewrite app_nil_r in Ev. exists v, []. rewrite app_nil_r. split; [exact Ev |]. split; [exact Ow |].
    intros a Ea'. injection Ea' as <-. unfold w_cv, w_cvs, cvs_cursors in *. cbn [cv_cursors]. em.
Qed.
Lemma w_fuel : forall n, tells (cv_fuel n) w_cv /\ tells (values_fuel n) w_cvs /\ tells (args_fuel n) w_cvs.
Proof.
  induction n as [| n (IH1 & IH2 & IH3)]; [split; [| split]; intros p cs O; apply tv_none |]. split; [| split]; intros p cs O.
  - cbn [cv_fuel]. apply tv_or_peek; intro Pk; [apply tv_pmap; eapply tv_use; [exact O | apply tells_whitespace |]; intros c u (Em & _) _; exact Em |]. apply tv_or_peek; intro Pk2; [exact (tells_in_state _ _ _ _ _ _ (w_block_with _ IH2) p cs O) |].
    apply tv_or_peek; intro Pk3; [exact (w_function_with _ IH3 (args_end n) p cs O) | exact (w_cv_tokens p cs O)].
  - cbn [values_fuel]. destruct (p_at_end p); [apply tv_ok; [exact O | exact wr_nil] |]. destruct (next_is_stop p) as [[] |]; [apply tv_ok; [exact O | exact wr_nil] | | apply tv_none].
    apply tv_or_peek; intro Pk; [| apply tv_ok; [exact O | exact wr_nil]]. eapply tv_bind; [exact O | exact IH1 |]. intros v u q r E Oq K. apply tv_pmap. eapply tv_use; [exact Oq | exact IH2 |]. intros vs u2 K2. unfold w_cv, w_cvs, cvs_cursors in *. cbn [flat_map]. em.
  - cbn [args_fuel]. destruct (p_at_end p); [apply tv_ok; [exact O | exact wr_nil] |].
    apply tv_or_peek; intro Pk; [apply tv_ok; [exact O | exact wr_nil] |]. eapply tv_bind; [exact O | exact IH1 |]. intros v u q r E Oq K. apply tv_pmap. eapply tv_use; [exact Oq | exact IH3 |]. intros vs u2 K2. unfold w_cv, w_cvs, cvs_cursors in *. cbn [flat_map]. em.
Qed.
Lemma w_value : tells parse_component_value w_cv.
Proof. intros p cs O. exact (proj1 (w_fuel (sfuel p)) p cs O). Qed.
Lemma w_values : tells parse_component_values w_cvs.
Proof. intros p cs O. exact (proj1 (proj2 (w_fuel (sfuel p))) p cs O). Qed.
Lemma w_bad : tells parse_bad_declaration any_out.
Proof.
  intros p cs O. unfold parse_bad_declaration. generalize (sfuel p) as n. intro n. revert p cs O. induction n as [| n IH]; intros p cs O; [apply tv_none |]. cbn [bad_fuel]. destruct (p_at_end p); [apply tv_ok; [exact O | exact Logic.I] |].
  assert (M : tells (bind parse_component_value (fun v => pmap (cons v) (bad_fuel n))) any_out).
  { intros p' cs' O'. eapply tv_bind; [exact O' | exact w_value |]. intros v u q r E Oq K. apply tv_pmap. eapply tv_use; [exact Oq | exact IH |]. intros; exact Logic.I. }
  apply tv_or_peek; intro Pk; [eapply tv_bind; [exact O | exact w_value |]; intros; apply tv_ok; [assumption | exact Logic.I] |]. apply tv_or_peek; intro Pk2; [| exact (M p cs O)].
  destruct (is_nested p); [apply tv_ok; [exact O | exact Logic.I] |]. eapply tv_bind; [exact O | apply tells_kind; discriminate |]. intros c u q r E Oq K. eapply tv_use; [exact Oq | exact M |]. intros; exact Logic.I.
Qed.
End Values.
