(* Selectors: attributes, pseudo-classes and pseudo-elements. *)
From Coq Require Import ZifyBool ZifyNat ZifyN.
From Coq Require Import List.
From Verif Require Import Selectors SpecLex SpecTrace SpecParser SpecSyntax SpecTraits SpecFeatures SpecSelectors SpecCursor SpecToken LexBase TokenProofs KindProofs LexFacts LexTrace CursorProofs
  ParserProofs ParserProofs2 ParserProofs3 ParserProofs4 CompareProofs SyntaxProofs SyntaxTotal TraitsTotal RulesTotal FeatureProofs FeatureProofs2 FeatureProofs3 FeatureProofs4 FeatureProofs5 FeatureProofs6 SelectorProofs SelectorProofs2 SelectorProofs3 SelectorProofs4.
Open Scope N_scope.
Open Scope list_scope.

Lemma ready_usable : forall p, ready p -> usable p.
Proof. intros p R. apply R. Qed.
Lemma double_wp : forall a b p (Q : cursor * cursor -> parser -> Prop), ready p -> (forall x q, two a b (fst x) (snd x) -> spent p q [fst x; snd x] -> ready q -> Q x q) -> wp (parse_double a b) p Q.
Proof.
  intros a b p Q R H. destruct (ready_ahead p R) as (cs & A). eapply wp_run; [exact (runs_double a b (length cs) p cs (ready_usable p R) A (le_n _)) |]. intros x q E _.
  destruct (parse_double_inv _ _ p cs x q A E) as (K1 & K2 & K3 & T). apply took_spent in T. apply H; [exact (conj K1 (conj K2 K3)) | exact T | exact (ready_spent _ _ _ R T)].
Qed.
Lemma double_total : forall a b p cs c, ahead (plex p) cs -> peek_double a b p c <> None.
Proof. intros a b p cs c A. unfold peek_double. destruct (tok_is_char _ a); [| discriminate]. destruct (peek_n_total p cs 2 ltac:(lia) A) as (d & ->). discriminate. Qed.
Lemma wp_try : forall A (k : peeker) c (m e : P A) p (Q : A -> parser -> Prop), k p c <> None -> wp m p Q -> wp e p Q -> wp (fun p => match k p c with None => None | Some true => m p | Some false => e p end) p Q.
Proof. intros A k c m e p Q N H1 H2. unfold wp. destruct (k p c) as [[] |]; [exact H1 | exact H2 | congruence]. Qed.
Lemma operator_wp : forall p (Q : attr_operator -> parser -> Prop), ready p -> (forall x q, operator_phrase x -> spent p q (operator_cursors x) -> ready q -> Q x q) -> wp parse_operator p Q.
Proof.
  intros p Q R H. destruct (ready_ahead p R) as (cs & A). destruct (peek_n_total p cs 1 ltac:(lia) A) as (c & E). unfold wp, parse_operator. rewrite E.
  set (x6 := pmap _ (parse_double 42 61)). set (x5 := pmap _ (parse_double 36 61)). set (x4 := pmap _ (parse_double 94 61)). set (x3 := pmap _ (parse_double 124 61)). set (x2 := pmap _ (parse_double 126 61)).
  set (x1 := pmap AExact _). pose (alt := fun (k : peeker) (m e : P attr_operator) p => match k p c with None => None | Some true => m p | Some false => e p end).
  change (wp (alt (peek_delim 61) x1 (alt (peek_double 126 61) x2 (alt (peek_double 124 61) x3 (alt (peek_double 94 61) x4 (alt (peek_double 36 61) x5 x6))))) p Q). unfold alt.
  apply wp_try; [discriminate | apply wp_pmap, delim_wp; [exact R |]; intros d q D T Rq; now apply H |].
  assert (G : forall a b (f : cursor -> cursor -> attr_operator), (forall x y, two a b x y -> operator_phrase (f x y) /\ operator_cursors (f x y) = [x; y]) -> wp (pmap (fun x => f (fst x) (snd x)) (parse_double a b)) p Q).
  { intros a b f Hf. apply wp_pmap, double_wp; [exact R |]. intros x q D T Rq. destruct (Hf _ _ D) as (F1 & F2). apply H; [exact F1 | now rewrite F2 | exact Rq]. }
  do 4 (apply wp_try; [exact (double_total _ _ p cs c A) | apply G; intros x y D; split; [exact D | reflexivity] |]). apply G. intros x y D. split; [exact D | reflexivity].
Qed.
Lemma attr_value_wp : forall p (Q : cursor -> parser -> Prop), ready p -> (forall c q, kind_of c = K_Ident \/ kind_of c = K_String -> spent p q [c] -> ready q -> Q c q) -> wp parse_attr_value p Q.
Proof.
  intros p Q R H. destruct (ready_ahead p R) as (cs & A). destruct (single_run (any_peek [peek_kind K_Ident; peek_kind K_String]) p cs A) as (r & q & E & M & O).
  - intros p0 c. cbn [any_peek]. unfold peek_kind. destruct (tok_is _ K_Ident); [discriminate |]. now destruct (tok_is _ K_String).
  - intros p0 o. cbn [any_peek]. unfold peek_kind. cbn [ctok]. discriminate.
  - unfold wp, parse_attr_value. rewrite E. destruct r as [c | e]; [| exact I]. destruct (O c eq_refl) as (T & _ & K & Ic). apply took_spent in T.
    apply H; [| exact T | exact (ready_spent _ _ _ R T)]. cbn [any_peek] in K. unfold peek_kind in K. destruct (tok_is (ctok c) K_Ident) eqn:K1.
    + left. exact (proj2 (tok_is_in p cs c K_Ident A (or_intror Ic) ltac:(discriminate) K1)).
    + destruct (tok_is (ctok c) K_String) eqn:K2; [| discriminate]. right. exact (proj2 (tok_is_in p cs c K_String A (or_intror Ic) ltac:(discriminate) K2)).
Qed.
Lemma peek_total_in : forall k p cs, ahead (plex p) cs -> (forall c, c = eof_cursor p \/ In c cs -> k p c <> None) -> peek k p <> None.
Proof.
  intros k p cs A H. destruct (peeked p cs A) as (c & sk & rest & -> & _ & _ & -> & Pn & _). unfold peek. rewrite Pn. apply H. destruct rest; [now left | right; apply mid_in].
Qed.
Definition modifier_phrase (src : text) (x : attr_modifier) : Prop :=
  match x with
  | MInsensitive c => kind_of c = K_Ident /\ exists ch, parse_str c src = Some [ch] /\ (ch = 105 \/ ch = 73)
  | MSensitive c => kind_of c = K_Ident /\ exists ch, parse_str c src = Some [ch] /\ (ch = 115 \/ ch = 83)
  end.
Lemma peek_modifier_total : forall p cs c, names_readable p -> ahead (plex p) cs -> c = eof_cursor p \/ In c cs -> peek_modifier p c <> None.
Proof.
  intros p cs c NR A I. unfold peek_modifier. destruct (tok_is (ctok c) K_Ident) eqn:K; [| discriminate]. destruct (tok_is_in p cs c K_Ident A I ltac:(discriminate) K) as (I' & K').
  destruct (NR cs c A I') as (_ & (v & ->) & _); [rewrite K'; now left | discriminate].
Qed.
Lemma modifier_wp : forall p (Q : attr_modifier -> parser -> Prop), ready p -> (forall x q, modifier_phrase (lsrc (plex p)) x -> spent p q [modifier_cursor x] -> ready q -> Q x q) ->
  wp (parse_built peek_modifier build_modifier) p Q.
Proof.
  intros p Q R H. destruct (ready_ahead p R) as (cs & A). pose proof (ready_names p R) as NR. destruct (built_run attr_modifier peek_modifier build_modifier p cs A) as (r & q & E & M & O).
  - intros c I. exact (peek_modifier_total p cs c NR A I).
  - intros c q K I S. unfold peek_modifier, build_modifier in *. destruct (tok_is (ctok c) K_Ident) eqn:Kc; [| discriminate]. split; [exact (proj1 (tok_is_in p cs c K_Ident A I ltac:(discriminate) Kc)) |].
    rewrite S. destruct (parse_str c (lsrc (plex p))); discriminate.
  - unfold wp. rewrite E. destruct r as [x | e]; [| exact I]. destruct (O x eq_refl) as (c & T & _ & K & Ic & B). apply took_spent in T.
    unfold peek_modifier, build_modifier in *. destruct (tok_is (ctok c) K_Ident) eqn:Kc; [| discriminate]. pose proof (proj2 (tok_is_in p cs c K_Ident A (or_intror Ic) ltac:(discriminate) Kc)) as K'.
    rewrite (spent_src _ _ _ T) in B. destruct (parse_str c (lsrc (plex p))) as [w |] eqn:Ew; [| discriminate]. apply some_inj in K, B. apply existsb_text in K.
    assert (Ph : modifier_phrase (lsrc (plex p)) x /\ modifier_cursor x = c).
    { destruct K as [<- | [<- | [<- | [<- | []]]]]; vm_compute in B; subst x; (split; [| reflexivity]); (split; [exact K' |]); (eexists; split; [exact Ew | auto]). }
    destruct Ph as (Ph & Ec). apply H; [exact Ph | now rewrite Ec | exact (ready_spent _ _ _ R T)].
Qed.
Lemma any_total : forall l p c, Forall (fun k : peeker => k p c <> None) l -> any_peek l p c <> None.
Proof. induction l as [| k l IH]; intros p c F; cbn [any_peek]; [discriminate |]. inversion F; subst. destruct (k p c) as [[] |]; [discriminate | now apply IH | congruence]. Qed.
Definition rest_phrase (src : text) (a : attribute_t) : Prop :=
  (match aoperator a, avalue a with None, None => amodifier a = None | Some o, Some v => operator_phrase o /\ (kind_of v = K_Ident \/ kind_of v = K_String) | _, _ => False end) /\
  (match amodifier a with None => True | Some m => modifier_phrase src m end) /\ opt_kind K_RightSquare (aclose a).
Definition rest_cursors (a : attribute_t) : list cursor :=
  (match aoperator a with Some x => operator_cursors x | None => [] end) ++ opt_list (avalue a) ++ (match amodifier a with Some x => [modifier_cursor x] | None => [] end) ++ opt_list (aclose a).
Lemma rest_wp : forall open prefix name p (Q : attribute_t -> parser -> Prop), ready p ->
  (forall a q, aopen a = open -> aprefix a = prefix -> aname a = name -> rest_phrase (lsrc (plex p)) a -> spent p q (rest_cursors a) -> ready q -> Q a q) ->
  wp (parse_attribute_rest open prefix name) p Q.
Proof.
  intros open prefix name p Q R H. destruct (ready_ahead p R) as (cs & A). unfold parse_attribute_rest.
  assert (Close : forall o v m q l, ready q -> spent p q l ->
    (match o, v with None, None => m = None | Some o, Some v => operator_phrase o /\ (kind_of v = K_Ident \/ kind_of v = K_String) | _, _ => False end) ->
    (match m with None => True | Some m => modifier_phrase (lsrc (plex p)) m end) ->
    l = (match o with Some x => operator_cursors x | None => [] end) ++ opt_list v ++ (match m with Some x => [modifier_cursor x] | None => [] end) ->
    wp (bind (if_kind K_RightSquare) (fun close => ret (Attribute open prefix name o v m close))) q Q).
  { intros o v m q l Rq T Ho Hm El. apply wp_bind. apply if_kind_wp; [discriminate | exact Rq |]. intros cl q2 Kc T2 R2 _. apply wp_ret. apply H; try reflexivity.
    - split; [exact Ho |]. split; [exact Hm | exact Kc].
    - unfold rest_cursors. cbn [aoperator avalue amodifier aclose]. pose proof (spent_trans _ _ _ _ _ T T2) as T3. rewrite El, <- !app_assoc in T3. exact T3.
    - exact R2. }
  apply wp_bind. apply wp_if; [apply (peek_total_of _ p cs A); intro c; apply any_total; repeat constructor; try discriminate; exact (double_total _ _ p cs c A) | |]; intros _.
  - apply operator_wp; [exact R |]. intros o q Po T Rq. apply wp_bind, wp_pmap. apply attr_value_wp; [exact Rq |]. intros v q2 Kv T2 R2. apply wp_bind. destruct (ready_ahead q2 R2) as (cs2 & A2).
    pose proof (spent_trans _ _ _ _ _ T T2) as T12. apply wp_if.
    + apply (peek_total_in _ q2 cs2 A2). intros c I. exact (peek_modifier_total q2 cs2 c (ready_names q2 R2) A2 I).
    + intros _. apply modifier_wp; [exact R2 |]. intros m q3 Pm T3 R3. rewrite (spent_src _ _ _ T12) in Pm. eapply Close; [exact R3 | exact (spent_trans _ _ _ _ _ T12 T3) | auto | exact Pm |].
      now rewrite <- app_assoc.
    + intros _. eapply Close; [exact R2 | exact T12 | auto | exact I |]. cbn [opt_list]. now rewrite app_nil_r.
  - apply wp_bind, wp_ret, wp_bind, wp_ret. eapply Close; [exact R | exact (spent_refl p cs A) | reflexivity | exact I | reflexivity].
Qed.
Lemma attribute_wp : forall p (Q : attribute_t -> parser -> Prop), ready p ->
  (forall a q, attribute_phrase (lsrc (plex p)) a -> spent p q (attribute_cursors a) -> ready q -> Q a q) -> wp parse_attribute p Q.
Proof.
  intros p Q R H. unfold parse_attribute. apply wp_bind. apply kind_wp; [discriminate | exact R |]. intros open q0 Ko T0 R0. apply wp_bind. destruct (ready_ahead q0 R0) as (cs0 & A0).
  assert (Rest : forall prefix name q l, ready q -> spent q0 q l -> l = (match prefix with Some x => prefix_cursors x | None => [] end) ++ [name] -> (match prefix with Some x => prefix_phrase x name | None => True end) -> kind_of name = K_Ident ->
    wp (parse_attribute_rest open prefix name) q Q).
  { intros prefix name q l Rq T El Pp Kn. apply rest_wp; [exact Rq |]. intros a q2 E1 E2 E3 (P1 & P2 & P3) T2 R2. pose proof (spent_trans _ _ _ _ _ T0 T) as T3. rewrite (spent_src _ _ _ T3) in P2.
    pose proof (spent_trans _ _ _ _ _ T3 T2) as T4. apply H; [| | exact R2].
    - unfold attribute_phrase. rewrite E1, E2, E3. split; [exact Ko |]. split; [exact Pp |]. split; [exact Kn |]. split; [exact P1 |]. split; [| exact P3]. destruct (amodifier a) as [[c | c] |]; exact P2.
    - unfold attribute_cursors. rewrite E1, E2, E3. rewrite El in T4. cbn [app] in T4. rewrite <- app_assoc in T4. exact T4. }
  apply wp_if; [exact (peeks_double 42 124 q0 cs0 A0) | |]; intro P1.
  - apply prefix_wp; [exact R0 |]. intros x q T Rq Px. apply wp_bind. apply kind_wp; [discriminate | exact Rq |]. intros name q2 Kn T2 R2. unfold wp. cbv beta zeta.
    eapply Rest; [exact R2 | exact (spent_trans _ _ _ _ _ T T2) | reflexivity | | exact Kn]. destruct x; cbn [prefix_phrase]; auto. exfalso. destruct Px as (K & _ & _ & Pk).
    unfold peek in P1. rewrite Pk in P1. unfold peek_double, tok_is_char in P1. rewrite (ident_char _ K) in P1. discriminate.
  - apply wp_bind. eapply kind_wp_at; [discriminate | exact R0 | exact A0 |]. intros name q sk rest K T Rq -> F A' Pk. unfold wp.
    destruct (raw_delim 124 q rest A') as (r1 & q1 & E1 & M1 & O1).
    assert (Last : wp (parse_attribute_rest open None name) q Q) by (eapply Rest; [exact Rq | exact T | reflexivity | exact I | exact K]).
    destruct (peek (peek_delim 124) (set_skip q KS_NONE)) as [[] |] eqn:D1; [| destruct (peek (peek_double 124 61) (set_skip q KS_NONE)) as [[] |]; exact Last | elim (peek_delim_total 124 (set_skip q KS_NONE) rest A' D1)].
    destruct (peek (peek_double 124 61) (set_skip q KS_NONE)) as [[] |] eqn:D2; [exact Last | | elim (peeks_double 124 61 (set_skip q KS_NONE) rest A' D2)].
    rewrite E1. destruct (moved_right _ _ _ M1) as (cs1 & A1). assert (S1 : pskip q1 = KS_NONE) by apply (moved_mode _ _ _ M1).
    destruct (raw_kind K_Ident q1 cs1 ltac:(discriminate) A1) as (r3 & q3 & E3 & M3 & O3). rewrite <- S1, (set_skip_self q1) in E3, M3, O3. rewrite E3.
    destruct r1 as [pipe | e1]; [| exact I]. destruct r3 as [ident | e3]; [| exact I].
    destruct (O1 pipe eq_refl) as (Dp & T1 & rest1 & -> & A1'). destruct (O3 ident eq_refl) as (K3 & T3 & rest3 & -> & _). pose proof (took_trans _ _ _ _ _ T1 T3) as T13. cbn [app] in T13. apply raw_spent in T13.
    rewrite (ahead_det _ _ A1 _ A1') in *. eapply Rest; [exact (ready_spent _ _ _ Rq T13) | exact (spent_cons _ _ _ _ _ T T13) | reflexivity | | exact K3]. cbn [prefix_phrase].
    split; [exact K |]. split; [exact Dp |]. split; [exact (adjacent_in _ _ _ _ _ A0) | exact (ahead_adjacent _ _ _ _ A')].
Qed.
