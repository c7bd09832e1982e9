(* Selectors: functional pseudo-classes and pseudo-elements, compounds and lists, given the components. *)
From Coq Require Import ZifyBool ZifyNat ZifyN.
From Coq Require Import List.
From Verif Require Import Selectors SpecLex SpecTrace SpecParser SpecSyntax SpecTraits SpecFeatures SpecSelectors SpecCursor SpecToken LexBase TokenProofs KindProofs LexFacts LexTrace CursorProofs
  ParserProofs ParserProofs2 ParserProofs3 ParserProofs4 CompareProofs SyntaxProofs SyntaxTotal TraitsTotal RulesTotal FeatureProofs FeatureProofs2 FeatureProofs3 FeatureProofs4 FeatureProofs5 FeatureProofs6 SelectorProofs SelectorProofs2 SelectorProofs3 SelectorProofs4 SelectorProofs5 SelectorProofs6 SelectorProofs7.
Open Scope N_scope.
Open Scope list_scope.

Definition comp_post (p : parser) (x : component_ast) (q : parser) : Prop := component_phrase (lsrc (plex p)) x /\ spent p q (component_cursors x) /\ ready q.
Definition compound_post (p : parser) (l : list component_ast) (q : parser) : Prop := compound_phrase (lsrc (plex p)) l /\ spent p q (compound_cursors l) /\ ready q.
Definition list_post (p : parser) (l : list (list component_ast * option cursor)) (q : parser) : Prop := selectors_phrase (lsrc (plex p)) l /\ spent p q (selectors_cursors l) /\ ready q.
(* [m] meets [post] wherever fewer than n tokens are ahead *)
Definition good {A} (n : nat) (m : P A) (post : parser -> A -> parser -> Prop) : Prop := forall p cs, ready p -> ahead (plex p) cs -> (length cs < n)%nat -> wp m p (post p).

Lemma phrase_nonempty : forall src x, component_phrase src x -> (1 <= length (component_cursors x))%nat.
Proof.
  intros src x H. destruct H as [c | d c | t | c | x H | a H | v x H | v x H | x H | x H | name ty colon f v cl | c1 c2 f name v cl]; cbn [component_cursors length]; try lia.
  - destruct x; cbn; lia.
  - unfold attribute_cursors. cbn [length]. lia.
  - destruct x as (w & (c & i)). cbn. lia.
  - destruct x as (w & ((c & d) & i)). cbn. lia.
  - destruct x as (w & (c & i)). cbn. lia.
  - unfold namespace_cursors. rewrite app_length. cbn [length]. lia.
Qed.

(* ---- the values ---- *)
Lemma class_value_wp : forall n list_p ty p cs, good n list_p list_post -> ready p -> ahead (plex p) cs -> (length cs < n)%nat ->
  wp (parse_class_value list_p ty) p (fun v q => class_value_phrase (lsrc (plex p)) ty v /\ spent p q (class_value_cursors v) /\ ready q).
Proof.
  intros n list_p ty p cs Hl R A L. destruct ty; cbn [parse_class_value]; apply wp_pmap.
  - apply set_wp; [exact dir_nodup | exact ident_name | exact R |]. intros x q W T Rq. split; [now constructor | auto].
  - eapply wp_imp; [exact (Hl p cs R A L) |]. intros l q ((P1 & P2) & T & Rq). split; [now constructor | auto].
  - eapply wp_imp; [exact (lang_loop_wp (sfuel p) p cs R A (sfuel_more p cs A)) |]. cbv beta. intros l q (H1 & H2 & H3 & H4). split; [now constructor | auto].
  - apply nth_wp; [exact R |]. intros x q W T Rq. split; [now constructor | auto].
  - apply kind_wp; [discriminate | exact R |]. intros c q K T Rq. split; [now constructor | auto].
Qed.
Lemma ready_names_raw : forall p s, ready p -> names_readable (set_skip p s).
Proof. intros p s R. exact (ready_names p R). Qed.
Lemma functional_class_wp : forall n list_p p cs, good n list_p list_post -> ready p -> ahead (plex p) cs -> (length cs < S n)%nat -> wp (parse_functional_class list_p) p (comp_post p).
Proof.
  intros n list_p p cs Hl R A L. unfold wp, parse_functional_class. destruct (raw_kind K_Colon p cs ltac:(discriminate) A) as (r1 & p1 & E1 & M1 & O1). rewrite E1.
  destruct (moved_right _ _ _ M1) as (cs1 & A1). assert (N1 : names_readable p1) by (apply (names_moved _ _ _ M1); exact (ready_names p R)).
  destruct (set_run _ named_classes K_Function p1 cs1 functional_nodup ltac:(unfold is_name; cbn; auto) N1 A1) as (r2 & p2 & E2 & M2 & O2). rewrite E2.
  destruct r1 as [colon | e]; [| exact I]. destruct r2 as [((name & ty) & function) | e]; [| exact I].
  destruct (O1 colon eq_refl) as (Kc & T1 & rest & -> & A1'). destruct (O2 _ eq_refl) as ((Kf & w & Ew & Iw) & T2). cbn [fst snd] in *. assert (S1 : pskip p1 = KS_NONE) by apply (moved_mode _ _ _ M1).
  destruct (took_raw _ _ _ _ T2 S1 A1') as (rest2 & -> & A2). assert (Src : lsrc (plex p1) = lsrc (plex p)) by apply (moved_mode _ _ _ M1). rewrite Src in Ew.
  unfold named_classes in Iw. apply in_map_iff in Iw. destruct Iw as ((w' & ty') & Eq & Iw). cbn [fst] in Eq. injection Eq as -> -> ->.
  pose proof (took_trans _ _ _ _ _ T1 T2) as T. cbn [app] in T. apply raw_spent in T. set (q := set_skip p2 (pskip p)) in *. pose proof (ready_spent _ _ _ R T) as Rq.
  apply wp_bind. eapply wp_imp; [apply (class_value_wp n list_p ty q rest2 Hl Rq A2); cbn [length] in L; lia |]. cbv beta. intros v q2 (Pv & Tv & R2). rewrite (spent_src _ _ _ T) in Pv.
  apply wp_bind. apply if_kind_wp; [discriminate | exact R2 |]. intros close q3 Ko T3 R3 _. apply wp_ret. split; [| split; [| exact R3]].
  - eapply ph_functional_class; eauto. exact (ahead_adjacent _ _ _ _ A).
  - cbn [component_cursors]. exact (spent_trans _ _ _ _ _ T (spent_trans _ _ _ _ _ Tv T3)).
Qed.
Lemma functional_element_wp : forall n compound_p p cs, good n compound_p compound_post -> ready p -> ahead (plex p) cs -> (length cs < S n)%nat -> wp (parse_functional_element compound_p) p (comp_post p).
Proof.
  intros n compound_p p cs Hl R A L. unfold parse_functional_element. apply wp_bind. unfold wp at 1. rewrite colon_colon_eq.
  refine (_ : wp (bind (parse_kind K_Colon) (fun a => bind (unskipped (parse_kind K_Colon)) (fun b => ret (a, b)))) p _).
  apply wp_bind. eapply kind_wp_at; [discriminate | exact R | exact A |]. intros c1 q1 sk rest K1 T1 R1 -> F A1 _. apply wp_bind.
  eapply wp_run; [exact (unskipped_runs K_Colon q1 rest ltac:(discriminate) A1) |]. intros c2 q2 E2 _. destruct (unskipped_ok K_Colon q1 rest c2 q2 ltac:(discriminate) A1 E2) as ((rest2 & ->) & K2 & T2).
  apply took_spent in T2. pose proof (ready_spent _ _ _ R1 T2) as R2. pose proof (spent_cons _ _ _ _ _ T1 T2) as T12. apply wp_ret. destruct (ready_ahead q2 R2) as (cs2 & A2).
  apply wp_bind. eapply kind_wp_at; [discriminate | exact R2 | exact A2 |]. intros f q3 sk3 rest3 Kf T3 R3 -> F3 A3 _. pose proof (spent_trans _ _ _ _ _ T12 T3) as T123. cbn [app] in T123.
  destruct (ready_names q2 R2 _ f A2 (mid_in _ _ _ _)) as (_ & _ & name & En); [rewrite Kf; unfold is_name; cbn; auto |]. rewrite (spent_src _ _ _ T12) in En.
  apply wp_bind. unfold wp at 1, p_str_lower. rewrite (spent_src _ _ _ T123), En.
  assert (L3 : (length rest3 < n)%nat). { destruct (spent_len _ _ _ _ T123 A) as (cs' & A' & L'). rewrite (ahead_det _ _ A3 _ A') in L'. cbn [length] in L'. lia. }
  apply wp_bind.
  assert (Fin : forall v q4, element_value_phrase (lsrc (plex p)) name v -> spent q3 q4 (element_value_cursors v) -> ready q4 ->
    wp (bind (if_kind K_RightParen) (fun close => ret (SFunctionalElement (c1, c2) f v close))) q4 (comp_post p)).
  { intros v q4 Pv T4 R4. apply wp_bind. apply if_kind_wp; [discriminate | exact R4 |]. intros close q5 Ko T5 R5 _. apply wp_ret. split; [| split; [| exact R5]].
    - eapply ph_functional_element; eauto. exact (adjacent_in _ _ _ _ _ A).
    - cbn [component_cursors]. exact (spent_trans _ _ _ _ _ T123 (spent_trans _ _ _ _ _ T4 T5)). }
  destruct (text_eqb name _) eqn:E1.
  { apply text_eqb_spec in E1. subst name. apply wp_pmap. apply kind_wp; [discriminate | exact R3 |]. intros c q4 K T4 R4. apply Fin; [now constructor | exact T4 | exact R4]. }
  clear E1. destruct (text_eqb name _) eqn:E1.
  { apply text_eqb_spec in E1. subst name. apply wp_pmap. eapply wp_imp; [exact (part_loop_wp (sfuel q3) q3 rest3 R3 A3 (sfuel_more q3 rest3 A3)) |]. cbv beta. intros l q4 (K & T4 & R4). apply Fin; [now constructor | exact T4 | exact R4]. }
  clear E1. destruct (text_eqb name _) eqn:E1; [| exact I].
  apply text_eqb_spec in E1. subst name. apply wp_pmap. eapply wp_imp; [exact (Hl q3 rest3 R3 A3 L3) |]. intros l q4 (K & T4 & R4). rewrite (spent_src _ _ _ T123) in K. apply Fin; [now constructor | exact T4 | exact R4].
Qed.

(* ---- compounds and lists ---- *)
Lemma trivia_again : forall p cs, ready p -> ahead (plex p) cs -> exists q rest, consume_trivia p = Some q /\ spent p q [] /\ ready q /\ ahead (plex q) rest /\ (length rest <= length cs)%nat /\
  kept (pskip p) cs = kept (pskip p) rest /\ stops_skip (pskip p) rest /\ (length rest = length cs -> cs = rest).
Proof.
  intros p cs R A. destruct (trivia_total p cs A) as (q & sk & rest & E & -> & F & St & _ & A' & S). exists q, rest. split; [exact E |].
  assert (T : spent p q []). { exists sk, sk, rest. split; [exact A |]. split; [exact A' |]. split; [apply merged_right |]. split; [exact F | exact (same_settings_mode _ _ S)]. }
  split; [exact T |]. split; [exact (ready_spent _ _ _ R T) |]. split; [exact A' |]. rewrite app_length. split; [lia |]. split; [exact (kept_skipped _ _ _ F) |]. split; [exact St |].
  intro L. destruct sk; [reflexivity | cbn in L; lia].
Qed.
Definition stop_set (s : kindset) : Prop := s = KS_LEFT_CURLY_RIGHT_PAREN_COMMA_OR_SEMICOLON \/ s = KS_LEFT_CURLY_RIGHT_PAREN_OR_SEMICOLON.
Lemma at_stop_spec : forall s p cs, stop_set s -> ahead (plex p) cs -> exists b, at_stop s p = Some b /\ (b = true <-> cs = [] \/ exists c r, kept (pskip p) cs = c :: r /\ in_kinds s c).
Proof.
  intros s p cs Hs A. unfold at_stop, p_at_end. destruct cs as [| d cs].
  - rewrite (ahead_end _ A). exists true. split; [reflexivity | tauto].
  - rewrite (ahead_not_end _ _ _ A). rewrite (peek_n_spec p _ 1 A ltac:(lia)). replace (N.to_nat 1 - 1)%nat with 0%nat by reflexivity. eexists. split; [reflexivity |].
    destruct (kept (pskip p) (d :: cs)) as [| c r] eqn:E; cbn [nth].
    + split; [intro H; exfalso; destruct Hs as [-> | ->]; vm_compute in H; discriminate |]. intros [H | (c & r & H & _)]; discriminate.
    + assert (I : In c (d :: cs)) by (apply (kept_in (pskip p)); rewrite E; now left). rewrite (in_kinds_tok s c (ahead_kind _ _ A c I)). split; [eauto |]. intros [H | (c' & r' & [= <- <-] & H)]; [discriminate | exact H].
Qed.
Lemma compound_loop_wp : forall N m, good N m comp_post -> forall n p cs, ready p -> ahead (plex p) cs -> (length cs < n)%nat -> (length cs < N)%nat ->
  wp (compound_loop m n) p (fun l q => compound_post p l q /\ at_stop KS_LEFT_CURLY_RIGHT_PAREN_COMMA_OR_SEMICOLON q = Some true /\ (l = [] -> q = p)).
Proof.
  intros N m Hm. induction n as [| n IH]; intros p cs R A L LN; [lia |]. unfold wp. cbn [compound_loop].
  destruct (at_stop_spec KS_LEFT_CURLY_RIGHT_PAREN_COMMA_OR_SEMICOLON p cs (or_introl eq_refl) A) as (b & E & _). rewrite E. destruct b.
  - split; [| auto]. split; [constructor |]. split; [exact (spent_refl p cs A) | exact R].
  - apply wp_bind. eapply wp_imp; [exact (Hm p cs R A LN) |]. intros x q (Px & Tx & Rq). destruct (spent_shorter _ _ _ cs Tx (phrase_nonempty _ _ Px) A) as (cs2 & A2 & L2).
    apply wp_pmap. eapply wp_imp; [apply (IH q cs2 Rq A2); lia |]. cbv beta. intros l q2 ((Pl & Tl & R2) & St & _). rewrite (spent_src _ _ _ Tx) in Pl. split; [| split; [exact St | discriminate]].
    split; [now constructor |]. split; [exact (spent_trans _ _ _ _ _ Tx Tl) | exact R2].
Qed.
Lemma compound_wp : forall N m, good N m comp_post -> forall p cs, ready p -> ahead (plex p) cs -> (length cs < N)%nat ->
  wp (compound_t m) p (fun l q => compound_post p l q /\ at_stop KS_LEFT_CURLY_RIGHT_PAREN_COMMA_OR_SEMICOLON q = Some true /\ (l = [] -> consume_trivia p = Some q)).
Proof.
  intros N m Hm p cs R A L. unfold wp, compound_t. destruct (trivia_again p cs R A) as (q & rest & E & T & Rq & A' & L' & _). rewrite E.
  eapply wp_imp; [apply (compound_loop_wp N m Hm (sfuel q) q rest Rq A' (sfuel_more q rest A')); lia |]. cbv beta. intros l q2 ((Pl & Tl & R2) & St & El). rewrite (spent_src _ _ _ T) in Pl.
  split; [| split; [exact St |]].
  - split; [exact Pl |]. split; [exact (spent_trans _ _ _ _ _ T Tl) | exact R2].
  - intro H. now rewrite (El H).
Qed.
Lemma stop_comma : forall c, in_kinds KS_LEFT_CURLY_RIGHT_PAREN_COMMA_OR_SEMICOLON c <-> in_kinds KS_LEFT_CURLY_RIGHT_PAREN_OR_SEMICOLON c \/ kind_of c = K_Comma.
Proof. intro c. unfold in_kinds, kind_of, KS_LEFT_CURLY_RIGHT_PAREN_COMMA_OR_SEMICOLON, KS_LEFT_CURLY_RIGHT_PAREN_OR_SEMICOLON. rewrite !kindset_new_spec. cbn [In]. intuition congruence. Qed.
Lemma compound_nonempty : forall src l, compound_phrase src l -> l <> [] -> (1 <= length (compound_cursors l))%nat.
Proof. intros src [| x l] H N; [congruence |]. inversion H; subst. unfold compound_cursors. cbn [flat_map]. rewrite app_length. pose proof (phrase_nonempty src x ltac:(assumption)). lia. Qed.
Lemma not_comma : forall q cs c r, ahead (plex q) cs -> kept (pskip q) cs = c :: r -> kind_of c = K_Comma -> peek (peek_kind K_Comma) q = Some false -> False.
Proof.
  intros q cs c r A Ek K Pk. assert (S : sees q (c :: r)) by (exists cs; split; [exact A | now symmetry]). rewrite (peek_kind_sees _ _ _ _ S) in Pk. apply some_inj in Pk.
  apply (tok_is_sees q (c :: r) c K_Comma S (or_introl eq_refl)) in K. congruence.
Qed.
Lemma selector_loop_wp : forall N m, good N m comp_post -> forall n p cs, ready p -> ahead (plex p) cs -> (length cs < n)%nat -> (length cs < N)%nat ->
  wp (selector_loop (compound_t m) n) p (fun l q => list_post p l q /\ at_stop KS_LEFT_CURLY_RIGHT_PAREN_OR_SEMICOLON q = Some true /\ (at_stop KS_LEFT_CURLY_RIGHT_PAREN_OR_SEMICOLON p = Some true -> l = [])).
Proof.
  intros N m Hm. induction n as [| n IH]; intros p cs R A L LN; [lia |]. unfold wp. cbn [selector_loop].
  destruct (at_stop_spec KS_LEFT_CURLY_RIGHT_PAREN_OR_SEMICOLON p cs (or_intror eq_refl) A) as (b & E & Hb). rewrite E. destruct b.
  { split; [| auto]. split; [split; constructor |]. split; [exact (spent_refl p cs A) | exact R]. }
  assert (Nb : cs <> [] /\ forall c r, kept (pskip p) cs = c :: r -> ~ in_kinds KS_LEFT_CURLY_RIGHT_PAREN_OR_SEMICOLON c).
  { split; [intros ->; assert (X : false = true) by (apply Hb; now left); discriminate |]. intros c r Ek Ic. assert (X : false = true) by (apply Hb; right; eauto). discriminate. }
  destruct Nb as (N1 & N2). apply wp_bind. eapply wp_imp; [exact (compound_wp N m Hm p cs R A LN) |]. cbv beta. intros x q ((Px & Tx & Rq) & St & El). apply wp_bind.
  apply if_kind_wp; [discriminate | exact Rq |]. intros o q2 Ko T2 R2 No. pose proof (spent_trans _ _ _ _ _ Tx T2) as T12. destruct (ready_ahead q Rq) as (csq & Aq). destruct (ready_ahead q2 R2) as (cs2 & A2).
  destruct (at_stop_spec KS_LEFT_CURLY_RIGHT_PAREN_COMMA_OR_SEMICOLON q csq (or_introl eq_refl) Aq) as (b & E' & Hq). rewrite St in E'. injection E' as <-. destruct Hq as (Hq & _). specialize (Hq eq_refl).
  pose proof (spent_skip _ _ _ Tx) as Sq.
  (* progress *)
  assert (L2 : (length cs2 < length cs)%nat).
  { destruct (spent_len _ _ _ _ T12 A) as (c2' & A2' & L2). rewrite (ahead_det _ _ A2 _ A2') in L2. rewrite app_length in L2.
    destruct x as [| y x]; [| assert (1 <= length (compound_cursors (y :: x)))%nat by (apply (compound_nonempty (lsrc (plex p))); [exact Px | discriminate]); lia].
    destruct o as [comma |]; [cbn [opt_list length] in L2; lia |]. destruct (No eq_refl) as (-> & Pk). destruct (trivia_again p cs R A) as (q' & rest & E' & _ & _ & A' & L' & Kp & Stp & Eq). rewrite (El eq_refl) in E'. injection E' as <-.
    rewrite (ahead_det _ _ A2 _ A') in *. assert (csq = cs2) by exact (ahead_det _ _ A2 _ Aq). subst csq. destruct (Nat.eq_dec (length cs2) (length cs)) as [Le | Ne]; [exfalso | lia]. specialize (Eq Le). subst cs2.
    destruct Hq as [-> | (c & r & Ek & Ic)]; [congruence |]. apply stop_comma in Ic. destruct Ic as [Ic | Ic]; [rewrite Sq in Ek; exact (N2 c r Ek Ic) | exact (not_comma q _ c r Aq Ek Ic Pk)]. }
  apply wp_pmap. eapply wp_imp; [apply (IH q2 cs2 R2 A2); lia |]. cbv beta. intros l q3 ((Pl & Tl & R3) & St3 & El3). rewrite (spent_src _ _ _ T12) in Pl. split; [| split; [exact St3 | congruence]].
  split; [| split; [| exact R3]].
  - destruct Pl as (P1 & P2). split; [constructor; [exact Px | exact P1] |]. destruct l as [| y l]; [exact Ko |]. split; [exact Ko |]. split; [| exact P2]. intros ->. destruct (No eq_refl) as (-> & Pk). assert (X : y :: l = []); [| discriminate].
    apply El3. destruct (at_stop_spec KS_LEFT_CURLY_RIGHT_PAREN_OR_SEMICOLON q csq (or_intror eq_refl) Aq) as (b & E' & Hb'). rewrite E'. f_equal. apply Hb'. destruct Hq as [Hq | (c & r & Ek & Ic)]; [now left | right].
    exists c, r. split; [exact Ek |]. apply stop_comma in Ic. destruct Ic as [Ic | Ic]; [exact Ic | elim (not_comma q csq c r Aq Ek Ic Pk)].
  - unfold selectors_cursors. cbn [flat_map fst snd]. exact (spent_trans _ _ _ _ _ T12 Tl).
Qed.
Lemma list_wp : forall N m, good N m comp_post -> forall p cs, ready p -> ahead (plex p) cs -> (length cs < N)%nat ->
  wp (selector_list_t (compound_t m)) p (fun l q => list_post p l q /\ at_stop KS_LEFT_CURLY_RIGHT_PAREN_OR_SEMICOLON q = Some true).
Proof.
  intros N m Hm p cs R A L. unfold selector_list_t. eapply wp_imp; [exact (selector_loop_wp N m Hm (sfuel p) p cs R A (sfuel_more p cs A) L) |]. cbv beta. intros l q (H1 & H2 & _). auto.
Qed.
Lemma list_good : forall N m, good N m comp_post -> good N (selector_list_t (compound_t m)) list_post.
Proof. intros N m Hm p cs R A L. eapply wp_imp; [exact (list_wp N m Hm p cs R A L) |]. cbv beta. tauto. Qed.
Lemma compound_good : forall N m, good N m comp_post -> good N (compound_t m) compound_post.
Proof. intros N m Hm p cs R A L. eapply wp_imp; [exact (compound_wp N m Hm p cs R A L) |]. cbv beta. tauto. Qed.
