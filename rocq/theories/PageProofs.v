(* Page selectors are read, and compared. *)
From Coq Require Import ZifyBool ZifyNat ZifyN.
From Coq Require Import String.
From Coq Require Import List.
From Verif Require Import SpecPage PageOrder SpecSyntax SpecParser SpecSelectors SpecSelectorText LexTrace KindProofs TraitsTotal ParserProofs CompareProofs FeatureProofs SelectorProofs2 SelectorGoes SelectorGoes2 SelectorGoes3 SelectorGoes4 SelectorGoes5 SelectorGoes6 SelectorGoes7 Ast.
From Verif Require Reads3 Reads4.
Open Scope N_scope.
Open Scope list_scope.

Lemma page_pseudo_goes : forall p x g colon name rest, ready p -> ahead (plex p) (g ++ colon :: name :: rest) -> gap g -> kind_of colon = K_Colon -> kind_of name = K_Ident -> parse_str_lower name (lsrc (plex p)) = Some (page_word x) ->
  goes parse_page_pseudo p (x, (colon, name)) rest.
Proof.
  intros p x g colon name rest R A G Kc Kn E. unfold parse_page_pseudo. eapply goes_bind; [exact (kind_goes K_Colon p g colon _ R A G Kc solid_colon) |]. intros q _ Aq Sq Rq. cbv beta.
  apply (goes_map _ _ (fun w : page_pseudo * cursor => (fst w, (colon, snd w))) _ q (x, name)).
  destruct (set_at _ PAGE_PSEUDOS K_Ident (set_skip q KS_NONE) [] name rest (page_word x) Aq (Forall_nil _)) as (q2 & E2 & A2 & S2); [apply not_none | exact Kn | discriminate | cbn [plex set_skip]; rewrite (ahead_src _ _ Sq); exact E |].
  assert (M : map_get PAGE_PSEUDOS (page_word x) = Some x) by (destruct x; vm_compute; reflexivity). rewrite M in E2.
  destruct (back q q2 [name] rest Rq Aq A2 S2) as (Sb & Rb). exists (set_skip q2 (pskip q)). unfold unskipped. rewrite E2. split; [reflexivity |]. split; [exact A2 |]. split; [exact Sb | exact Rb].
Qed.
Definition page_stop (c : cursor) : Prop := kind_of c = K_Comma \/ kind_of c = K_LeftCurly \/ kind_of c = K_Semicolon.
Lemma page_stop_solid : forall c, page_stop c -> solid c.
Proof. intros c [K | [K | K]]; [exact (solid_of c _ K solid_comma) | | ]; (eapply solid_of; [exact K | repeat split; discriminate]). Qed.
Lemma page_pseudos_goes : forall l toks p g0 g c rest n, page_pseudos_written (lsrc (plex p)) l toks -> ready p -> ahead (plex p) (g0 ++ toks ++ g ++ c :: rest) -> gap g0 -> gap g -> page_stop c -> (length l < n)%nat -> g0 = [] \/ l <> [] -> goes (page_pseudo_loop n) p l (g ++ c :: rest).
Proof.
  intros l toks p g0 g c rest n W. revert n. remember (lsrc (plex p)) as src eqn:Es. revert p Es g0. induction W as [| x colon name l toks Kc Kn E W IH]; intros p Es g0 n R A G0 G Hc Hn Hg; (destruct n as [| n]; [lia |]); cbn [page_pseudo_loop].
  - destruct Hg as [-> | Hg]; [| congruence]. cbn [app] in A. eapply goes_or; [apply (peek_kind_no K_Colon p g c rest R A G (page_stop_solid c Hc)); destruct Hc as [K | [K | K]]; congruence |]. now apply goes_ret.
  - cbn [app] in A. eapply goes_or; [exact (peek_kind_yes K_Colon p g0 colon _ R A G0 Kc solid_colon) |].
    eapply goes_bind; [apply (page_pseudo_goes p x g0 colon name _ R A G0 Kc Kn); rewrite <- Es; exact E |]. intros q _ Aq Sq Rq. cbv beta. apply (goes_map _ _ (cons (x, (colon, name)))).
    apply (IH q) with (g0 := []); [rewrite (ahead_src _ _ Sq); exact Es | exact Rq | exact Aq | constructor | exact G | exact Hc | cbn [length] in Hn; lia | now left].
Qed.
Lemma pseudos_length : forall src l toks, page_pseudos_written src l toks -> length toks = (2 * length l)%nat.
Proof. intros src l toks W. induction W; cbn [length]; lia. Qed.
Lemma page_goes : forall x toks p g0 g c rest, page_written (lsrc (plex p)) x toks -> ready p -> ahead (plex p) (g0 ++ toks ++ g ++ c :: rest) -> gap g0 -> gap g -> page_stop c -> goes parse_page_selector p x (g ++ c :: rest).
Proof.
  intros x toks p g0 g c rest W R A G0 G Hc. unfold parse_page_selector. destruct W as [t l toks K W | y l toks W].
  - cbn [app] in A. eapply goes_bind; [exact (if_kind_goes K_Ident p g0 t _ R A G0 K solid_ident) |]. intros q _ Aq Sq Rq. cbv beta. apply (goes_map _ _ (PageSelector (Some t))).
    assert (L : (length l < sfuel q)%nat). { pose proof (sfuel_more q _ Aq) as X. rewrite app_length in X. pose proof (pseudos_length _ _ _ W). lia. }
    exact (page_pseudos_goes l toks q [] g c rest (sfuel q) ltac:(rewrite (ahead_src _ _ Sq); exact W) Rq Aq (Forall_nil _) G Hc L (or_introl eq_refl)).
  - pose proof W as W0. inversion W0 as [| y' colon name l' toks' Kc Kn E W' E1 E2]; subst. assert (A' := A). cbn [app] in A'.
    eapply goes_bind; [apply goes_if_not; [| exact R | exact A]; apply (peek_kind_no K_Ident p g0 colon _ R A' G0 (solid_of colon _ Kc solid_colon)); congruence |]. intros q _ Aq Sq Rq. cbv beta. apply (goes_map _ _ (PageSelector None)).
    assert (L : (length ((y', (colon, name)) :: l) < sfuel q)%nat). { pose proof (sfuel_more q _ Aq) as X. rewrite !app_length in X. pose proof (pseudos_length _ _ _ W) as Y. unfold page_pseudo_class in *. cbn [length app] in *. lia. }
    assert (Wq : page_pseudos_written (lsrc (plex q)) ((y', (colon, name)) :: l) (colon :: name :: toks')) by (rewrite (ahead_src _ _ Sq); exact W).
    assert (Nl : (y', (colon, name)) :: l <> []) by discriminate.
    pose proof (page_pseudos_goes _ _ q g0 g c rest (sfuel q) Wq Rq Aq G0 G Hc L (or_intror Nl)) as (q2 & E2 & H2). exists q2. split; [exact E2 | exact H2].
Qed.
Lemma page_head : forall src x toks, page_written src x toks -> exists c r, toks = c :: r /\ solid c /\ tok_in (ctok c) KS_LEFT_CURLY_OR_SEMICOLON = false.
Proof.
  intros src x toks W. destruct W as [t l toks K W | y l toks W].
  - exists t, toks. split; [reflexivity |]. split; [exact (solid_of t _ K solid_ident) |]. apply Reads4.prelude_more; [congruence |]. intros [X | X]; congruence.
  - inversion W as [| y' colon name l' toks' Kc Kn E W' E1 E2]; subst. exists colon, (name :: toks'). split; [reflexivity |]. split; [exact (solid_of colon _ Kc solid_colon) |]. apply Reads4.prelude_more; [congruence |]. intros [X | X]; congruence.
Qed.
Lemma pages_head : forall src l toks, pages_written src l toks -> exists g c r, toks = g ++ c :: r /\ gap g /\ solid c /\ tok_in (ctok c) KS_LEFT_CURLY_OR_SEMICOLON = false.
Proof. intros src l toks W. destruct W as [g x toks G W | g x toks g' comma l toks' G W G' K W']; destruct (page_head _ _ _ W) as (c & r & -> & Hs & Ht); [exists g, c, r | exists g, c, (r ++ g' ++ comma :: toks')]; auto. Qed.
Lemma next_at : forall p g c rest, ready p -> ahead (plex p) (g ++ c :: rest) -> gap g -> solid c -> peek_next p = Some c.
Proof. intros p g c rest R A G Hc. rewrite (peek_next_spec p g (c :: rest) A (gap_kinds p g R G) (solid_kinds p c R Hc)). reflexivity. Qed.
Definition page_end (c : cursor) : Prop := kind_of c = K_LeftCurly \/ kind_of c = K_Semicolon.
Lemma pages_loop_goes : forall l toks p g c rest n, pages_written (lsrc (plex p)) l toks -> ready p -> ahead (plex p) (toks ++ g ++ c :: rest) -> gap g -> page_end c -> (length l <= n)%nat -> goes (comma_loop KS_LEFT_CURLY_OR_SEMICOLON parse_page_selector n) p l (g ++ c :: rest).
Proof.
  intros l toks p g c rest n W. revert n. remember (lsrc (plex p)) as src eqn:Es. revert p Es. induction W as [g0 x toks G0 W | g0 x toks g' comma l toks' G0 W G' Kc Ws IH]; intros p Es n R A G Hc Hn; (destruct n as [| n]; [cbn in Hn; lia |]); cbn [comma_loop].
  - rewrite <- app_assoc in A. assert (Hp : page_stop c) by (destruct Hc; unfold page_stop; auto).
    eapply goes_bind; [apply (page_goes x toks p g0 g c rest ltac:(rewrite <- Es; exact W) R A G0 G Hp) |]. intros q _ Aq Sq Rq. cbv beta.
    eapply goes_bind; [apply goes_if_not; [| exact Rq | exact Aq]; apply (peek_kind_no K_Comma q g c rest Rq Aq G (page_stop_solid c Hp)); destruct Hc as [K | K]; congruence |]. intros q2 _ A2 S2 R2. cbv beta.
    unfold goes. rewrite (next_at q2 g c rest R2 A2 G (page_stop_solid c Hp)). assert (T : tok_in (ctok c) KS_LEFT_CURLY_OR_SEMICOLON = true) by (apply Reads4.prelude_stop; exact Hc). rewrite T.
    exists q2. split; [reflexivity |]. split; [exact A2 |]. split; [apply mode_refl | exact R2].
  - rewrite <- !app_assoc in A. cbn [app] in A. eapply goes_bind; [apply (page_goes x toks p g0 g' comma _ ltac:(rewrite <- Es; exact W) R A G0 G' (or_introl Kc)) |]. intros q _ Aq Sq Rq. cbv beta.
    eapply goes_bind; [exact (if_kind_goes K_Comma q g' comma _ Rq Aq G' Kc solid_comma) |]. intros q2 _ A2 S2 R2. cbv beta.
    destruct (pages_head _ _ _ Ws) as (g2 & c2 & r2 & E2 & G2 & Hs2 & T2). unfold goes. assert (A2' := A2). rewrite E2, <- app_assoc in A2'. cbn [app] in A2'. rewrite (next_at q2 g2 c2 _ R2 A2' G2 Hs2), T2.
    apply (goes_map _ _ (cons (x, Some comma))). apply (IH q2); [rewrite (ahead_src _ _ S2), (ahead_src _ _ Sq); exact Es | exact R2 | exact A2 | exact G | exact Hc | cbn [length] in Hn; lia].
Qed.
Lemma pages_length : forall src l toks, pages_written src l toks -> (length l <= length toks)%nat.
Proof.
  intros src l toks W. induction W as [g0 x toks G0 W | g0 x toks g' comma l toks' G0 W G' Kc Ws IH]; destruct (page_head _ _ _ W) as (c & r & -> & _); rewrite !app_length; cbn [length]; rewrite ?app_length; cbn [length]; lia.
Qed.
Lemma pages_read : forall l toks p g c rest, pages_written (lsrc (plex p)) l toks -> ready p -> ahead (plex p) (toks ++ g ++ c :: rest) -> gap g -> page_end c -> goes parse_page_selectors p l (g ++ c :: rest).
Proof.
  intros l toks p g c rest W R A G Hc. unfold parse_page_selectors, comma_list_t, goes. apply (pages_loop_goes l toks p g c rest (sfuel p) W R A G Hc).
  pose proof (sfuel_more p _ A) as X. rewrite app_length in X. pose proof (pages_length _ _ _ W). lia.
Qed.
(* ---- specificity ---- *)
Definition least1 (n : nat) : N := match n with 0%nat => 0 | _ => 1 end.
Lemma specificity_sum : forall l s, fold_left (fun s (y : page_pseudo_class) => spec_add s (pseudo_specificity (fst y))) l s =
  spec_add s (Specificity 0 (least1 (List.length (filter (fun y => match fst y with PpFirst | PpBlank => true | _ => false end) l))) (least1 (List.length (filter (fun y => match fst y with PpLeft | PpRight => true | _ => false end) l)))).
Proof.
  induction l as [| y l IH]; intros s; cbn [fold_left filter].
  - unfold spec_add. cbn [spec_a spec_b spec_c List.length least1]. rewrite !N.lor_0_r. now destruct s.
  - rewrite IH. unfold spec_add. destruct y as ([| | |] & cs); cbn [fst pseudo_specificity spec_a spec_b spec_c List.length least1];
      repeat match goal with |- context [least1 ?n] => destruct n; cbn [least1] end; rewrite <- ?N.lor_assoc; reflexivity.
Qed.
Lemma specificity_is : forall x, page_specificity x = Specificity (N.of_nat (f_of x)) (least1 (firsts x)) (least1 (sides x)).
Proof.
  intros (ty & l). unfold page_specificity, f_of, firsts, sides. cbn [ps_type ps_pseudos]. rewrite specificity_sum. destruct ty; unfold spec_add; cbn [spec_a spec_b spec_c]; rewrite ?N.lor_0_l, ?N.lor_0_r; reflexivity.
Qed.
