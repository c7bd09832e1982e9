(* Selectors are read: An+B. *)
From Coq Require Import ZifyBool ZifyNat ZifyN.
From Coq Require Import String.
From Coq Require Import List.
From Verif Require Import Selectors SpecLex SpecF32 SpecTrace SpecParser SpecSyntax SpecTraits SpecFeatures SpecSelectors SpecSelectorText SpecCursor SpecToken LexBase TokenProofs KindProofs LexFacts LexTrace CursorProofs
  ParserProofs ParserProofs2 ParserProofs3 ParserProofs4 CompareProofs SyntaxProofs SyntaxTotal TraitsTotal RulesTotal FeatureProofs FeatureProofs2 FeatureProofs3 FeatureProofs4 FeatureProofs5 FeatureProofs6 SelectorProofs SelectorProofs2 SelectorProofs3 SelectorProofs4 SelectorProofs5 SelectorProofs6 SelectorProofs7 SelectorProofs8 SelectorProofs9 SelectorGoes SelectorGoes2 SelectorGoes3 SelectorGoes4 SelectorGoes5 Nth.
From Verif Require NthLex NthProofs.
Open Scope N_scope.
Open Scope list_scope.

Lemma ident_not_numeric : forall c, kind_of c = K_Ident -> is_int (ctok c) = false /\ is_float (ctok c) = false.
Proof. intros c K. unfold is_int, is_float, is_numeric_kind. rewrite (NthLex.kind_bits_of _ _ K) by discriminate. split; reflexivity. Qed.
Lemma int_not_float : forall t, is_int t = true -> is_float t = false.
Proof. intros t. unfold is_int, is_float. destruct (is_numeric_kind t), (third_bit t); cbn; congruence. Qed.
Lemma not_delim : forall ch p c, kind_of c <> K_Delim -> kind_of c <> K_Eof -> peek_delim ch p c = Some false.
Proof. intros ch p c K N. unfold peek_delim. rewrite (tok_not K_Delim c K N). reflexivity. Qed.
Lemma signless_magnitude : forall c, signless c -> integer_token c.
Proof. intros c H. apply H. Qed.


Section B.
Variables (close : cursor) (rest g0 : list cursor).
Hypotheses (Gc : gap g0) (Kc : kind_of close = K_RightParen).
Let after := g0 ++ close :: rest.
Lemma number_yes : forall a bs cs p g m, ready p -> ahead (plex p) (g ++ m :: after) -> gap g -> integer_token m -> has_sign (ctok m) = false \/ bs = 0%Z ->
  goes (nth_b_number a bs cs) p (NthAnb a (magnitude m * (if (bs =? 0)%Z then 1 else bs))%Z (cs ++ [m])) after.
Proof.
  intros a bs cs p g m R A G (K & Hi) Hs. unfold nth_b_number, goes. rewrite (peek_kind_yes K_Number p g m after R A G K solid_number).
  match goal with |- exists q, ?m p = Some (Ok ?x, _) /\ _ => change (goes m p x after) end.
  eapply goes_bind; [exact (kind_goes K_Number p g m after R A G K solid_number) |]. intros q _ Aq _ Rq. cbv beta. rewrite (int_not_float _ Hi).
  assert (E : has_sign (ctok m) && negb (bs =? 0)%Z = false) by (destruct Hs as [-> | ->]; [reflexivity | apply andb_false_r]). rewrite E. cbv zeta. now apply goes_ret.
Qed.
Lemma number_no : forall a bs cs p, ready p -> ahead (plex p) after -> goes (nth_b_number a bs cs) p (NthAnb a 0 cs) after.
Proof.
  intros a bs cs p R A. unfold nth_b_number, goes, after in *. rewrite (peek_kind_no K_Number p g0 close rest R A Gc (solid_of close _ Kc solid_paren)) by congruence.
  exists p. split; [reflexivity |]. split; [exact A |]. split; [apply mode_refl | exact R].
Qed.
(* after the n *)
Lemma sign_none : forall a cs p, ready p -> ahead (plex p) after -> goes (nth_b_sign a 0 cs) p (NthAnb a 0 cs) after.
Proof.
  intros a cs p R A. unfold nth_b_sign, goes. change (0 =? 0)%Z with true. cbv iota. unfold after in A.
  rewrite !(peek_at _ p g0 close rest R A Gc (solid_of close _ Kc solid_paren)), !(not_delim _ p close) by congruence. exact (number_no a 0 cs p R A).
Qed.
Lemma sign_number : forall a cs p g m, ready p -> ahead (plex p) (g ++ m :: after) -> gap g -> integer_token m -> goes (nth_b_sign a 0 cs) p (NthAnb a (magnitude m) (cs ++ [m])) after.
Proof.
  intros a cs p g m R A G Hm. pose proof (proj1 Hm) as K. unfold nth_b_sign, goes. change (0 =? 0)%Z with true. cbv iota.
  rewrite !(peek_at _ p g m after R A G (solid_of m _ K solid_number)), !(not_delim _ p m) by congruence. pose proof (number_yes a 0 cs p g m R A G Hm (or_intror eq_refl)) as H. change (0 =? 0)%Z with true in H. cbv iota in H. rewrite Z.mul_1_r in H. exact H.
Qed.
Lemma sign_apart : forall a cs p g sign z g' m, ready p -> ahead (plex p) (g ++ sign :: g' ++ m :: after) -> gap g -> is_delim 43 sign /\ z = 1%Z \/ is_delim 45 sign /\ z = (-1)%Z -> gap g' -> signless m ->
  goes (nth_b_sign a 0 cs) p (NthAnb a (z * magnitude m) (cs ++ [sign; m])) after.
Proof.
  intros a cs p g sign z g' m R A G H G' (Hm & Hs). unfold nth_b_sign, goes. change (0 =? 0)%Z with true. cbv iota. rewrite Z.mul_comm. change ([sign; m]) with ([sign] ++ [m]). rewrite app_assoc.
  destruct H as [(D & ->) | (D & ->)].
  - rewrite (delim_peek_at 43 p g sign _ 43 R A G D). change (43 =? 43) with true. cbv iota.
    match goal with |- exists q, ?m p = Some (Ok ?x, _) /\ _ => change (goes m p x after) end. eapply goes_bind; [exact (delim_goes 43 p g sign _ R A G D) |]. intros q _ Aq _ Rq. cbv beta.
    exact (number_yes a 1 (cs ++ [sign]) q g' m Rq Aq G' Hm (or_introl Hs)).
  - rewrite (delim_peek_at 43 p g sign _ 45 R A G D), (delim_peek_at 45 p g sign _ 45 R A G D). change (43 =? 45) with false. change (45 =? 45) with true. cbv iota.
    match goal with |- exists q, ?m p = Some (Ok ?x, _) /\ _ => change (goes m p x after) end. eapply goes_bind; [exact (delim_goes 45 p g sign _ R A G D) |]. intros q _ Aq _ Rq. cbv beta.
    exact (number_yes a (-1) (cs ++ [sign]) q g' m Rq Aq G' Hm (or_introl Hs)).
Qed.
Lemma dash_number : forall a cs p g m, ready p -> ahead (plex p) (g ++ m :: after) -> gap g -> signless m -> goes (nth_b_sign a (-1) cs) p (NthAnb a (- magnitude m) (cs ++ [m])) after.
Proof.
  intros a cs p g m R A G (Hm & Hs). pose proof (number_yes a (-1) cs p g m R A G Hm (or_introl Hs)) as H. change (-1 =? 0)%Z with false in H. cbv iota in H. replace (- magnitude m)%Z with (magnitude m * -1)%Z by lia. exact H.
Qed.
(* the token with the n: what it says is told by [a] and [tail] *)
Definition head_token (src : text) (c : cursor) (a : Z) (tail : text) : Prop :=
  kind_of c = K_Dimension /\ is_int (ctok c) = true /\ parse_str_lower c src = Some (110 :: tail) /\ a = f32_as_i32 (tvalue (ctok c)) \/
  kind_of c = K_Ident /\ parse_str_lower c src = Some (110 :: tail) /\ a = 1%Z \/ kind_of c = K_Ident /\ parse_str_lower c src = Some (45 :: 110 :: tail) /\ a = (-1)%Z.
Lemma a_goes : forall src c a tail cs p mid x, lsrc (plex p) = src -> ready p -> ahead (plex p) mid -> head_token src c a tail ->
  (tail = [] -> forall q, ready q -> ahead (plex q) mid -> same_mode p q -> goes (nth_b_sign a 0 cs) q x after) ->
  (tail = [45] -> (parse_str_lower c src <> Some [45; 110; 45]) /\ forall q, ready q -> ahead (plex q) mid -> same_mode p q -> goes (nth_b_sign a (-1) cs) q x after) ->
  (tail <> [] -> tail <> [45] -> exists ds, tail = 45 :: ds /\ digits1 ds /\ (int_of ds <= 2 ^ 31)%Z /\ x = NthAnb a (- int_of ds) cs /\ mid = after) ->
  goes (nth_a c cs) p x after.
Proof.
  intros src c a tail cs p mid x Es R A Ht H1 H2 H3. unfold nth_a.
  assert (Ki : kind_in (tkind (ctok c)) [K_Number; K_Dimension; K_Ident] = true). { destruct Ht as [(K & _) | [(K & _) | (K & _)]]; fold (kind_of c); rewrite K; reflexivity. }
  assert (Fl : is_float (ctok c) = false). { destruct Ht as [(_ & Hi & _) | [(K & _) | (K & _)]]; [exact (int_not_float _ Hi) | | ]; apply (ident_not_numeric c K). }
  rewrite Ki, Fl. cbn [negb].
  assert (W : exists w, parse_str_lower c src = Some w) by (destruct Ht as [(_ & _ & E & _) | [(_ & E & _) | (_ & E & _)]]; eauto). destruct W as (w & Ew).
  eapply goes_bind; [apply (str_lower_goes p c w mid R A); rewrite Es; exact Ew |]. intros q _ Aq Sq Rq. cbv beta.
  assert (Cases : tail = [] \/ tail = [45] \/ tail <> [] /\ tail <> [45]). { destruct tail as [| t [| ]]; [auto | | right; right; split; congruence]. destruct (N.eq_dec t 45) as [-> |]; [auto | right; right; split; congruence]. }
  assert (Rest : forall ch, ch = 110 -> goes (if negb ((ch =? 110) || (ch =? 78)) then fail (D_Unexpected c) else match parse_i32 tail with Some b => ret (NthAnb a b cs) | None => match tail with [] => nth_b_sign a 0 cs | _ => fail (D_Unexpected c) end end) q x after \/ tail = [45]).
  { intros ch ->. change (negb ((110 =? 110) || (110 =? 78))) with false. cbv iota. destruct Cases as [-> | [-> | (N1 & N2)]]; [left | now right | left].
    - change (parse_i32 []) with (@None Z). cbv iota. exact (H1 eq_refl q Rq Aq Sq).
    - destruct (H3 N1 N2) as (ds & -> & Hd & Hm & -> & ->). rewrite (NthProofs.parse_i32_minus ds Hd Hm). now apply goes_ret. }
  destruct (Rest 110 eq_refl) as [Hr | Hr].
  - assert (Nd : tail <> [45]). { intro; subst tail. destruct Hr as (q' & E & _). revert E. cbn [negb N.eqb Pos.eqb orb]. change (parse_i32 [45]) with (@None Z). cbv iota. unfold fail. discriminate. }
    destruct Ht as [(K & Hi & E & Ea) | [(K & E & Ea) | (K & E & Ea)]]; rewrite E in Ew; injection Ew as <-.
    + assert (T : text_eqb (110 :: tail) (chars "n-") = false). { destruct (text_eqb (110 :: tail) (chars "n-")) eqn:T; [| reflexivity]. apply text_eqb_spec in T. injection T as T. congruence. }
      rewrite T, Hi, <- Ea. cbv iota beta. exact Hr.
    + assert (T : text_eqb (110 :: tail) (chars "n-") = false). { destruct (text_eqb (110 :: tail) (chars "n-")) eqn:T; [| reflexivity]. apply text_eqb_spec in T. injection T as T. congruence. }
      rewrite T, (proj1 (ident_not_numeric c K)), <- Ea. cbv iota beta. exact Hr.
    + assert (T : text_eqb (45 :: 110 :: tail) (chars "n-") = false). { destruct (text_eqb (45 :: 110 :: tail) (chars "n-")) eqn:T; [| reflexivity]. apply text_eqb_spec in T. discriminate T. }
      rewrite T, (proj1 (ident_not_numeric c K)), <- Ea. cbv iota beta. exact Hr.
  - subst tail. destruct (H2 eq_refl) as (Nn & Hg). specialize (Hg q Rq Aq Sq).
    destruct Ht as [(K & Hi & E & Ea) | [(K & E & Ea) | (K & E & Ea)]]; [| | contradiction]; rewrite E in Ew; injection Ew as <-; change (text_eqb [110; 45] (chars "n-")) with true; cbv iota.
    + rewrite Hi, <- Ea. exact Hg.
    + rewrite (proj1 (ident_not_numeric c K)), <- Ea. exact Hg.
Qed.

Lemma solid_dimension : solid_kind K_Dimension.
Proof. repeat split; discriminate. Qed.
Lemma any_goes : forall p g c mid, ready p -> ahead (plex p) (g ++ c :: mid) -> gap g -> solid c -> goes Nth.parse_any p c mid.
Proof. intros p g c mid R A G Hs. exact (single_goes _ (fun _ _ => Some true) (fun c => c) p g c mid R A G Hs eq_refl). Qed.
Lemma dimension_char : forall ch c, kind_of c = K_Dimension -> tok_is_char (ctok c) ch = false.
Proof.
  intros ch c K. destruct (tok_is_char (ctok c) ch) eqn:B; [| reflexivity]. apply tok_is_char_spec in B. rewrite (ident_no_char c _ K) in B; [discriminate | | discriminate].
  intro H. repeat (destruct H as [H | H]; [discriminate |]). destruct H.
Qed.
(* the tokens up to the n *)
Lemma head_read : forall src cs a tail p g mid x, anb_head src cs a tail -> lsrc (plex p) = src -> ready p -> ahead (plex p) (g ++ cs ++ mid) -> gap g ->
  (forall c q, (exists before, cs = before ++ [c]) -> same_mode p q -> ready q -> ahead (plex q) mid -> head_token src c a tail -> goes (nth_a c cs) q x after) -> goes parse_nth p x after.
Proof.
  intros src cs a tail p g mid x H Es R A G Hg. unfold goes, parse_nth.
  assert (Word : forall c w, cs = [c] -> kind_of c = K_Ident -> parse_str_lower c src = Some w -> w <> chars "even" -> w <> chars "odd" -> head_token src c a tail ->
    exists q, match peek (peek_kind K_Number) p with None => None | Some true => pmap NthInteger parse_css_int p | Some false => match peek (peek_kind K_Ident) p with None => None
      | Some true => bind (parse_kind K_Ident) (fun ident => bind (p_str_lower ident) (fun s => if text_eqb s (chars "even") then ret (NthEven ident) else if text_eqb s (chars "odd") then ret (NthOdd ident) else nth_anb ident)) p
      | Some false => bind Nth.parse_any nth_anb p end end = Some (Ok x, q) /\ ahead (plex q) after /\ same_mode p q /\ ready q).
  { intros c w Ec K Ew N1 N2 Ht. rewrite Ec in A. cbn [app] in A. rewrite (peek_kind_no K_Number p g c mid R A G (solid_of c _ K solid_ident)) by congruence. rewrite (peek_kind_yes K_Ident p g c mid R A G K solid_ident).
    match goal with |- exists q, ?m p = _ /\ _ => change (goes m p x after) end.
    eapply goes_bind; [exact (kind_goes K_Ident p g c mid R A G K solid_ident) |]. intros q _ Aq Sq Rq. cbv beta.
    eapply goes_bind; [apply (str_lower_goes q c w mid Rq Aq); rewrite (ahead_src _ _ Sq), Es; exact Ew |]. intros q2 _ A2 S2 R2. cbv beta.
    assert (T1 : text_eqb w (chars "even") = false) by (destruct (text_eqb w (chars "even")) eqn:T; [apply text_eqb_spec in T; contradiction | reflexivity]).
    assert (T2 : text_eqb w (chars "odd") = false) by (destruct (text_eqb w (chars "odd")) eqn:T; [apply text_eqb_spec in T; contradiction | reflexivity]).
    rewrite T1, T2. unfold nth_anb, goes. rewrite (ident_is_char 43 c K), <- Ec. apply (Hg c q2); [exists []; exact Ec | exact (mode_trans _ _ _ Sq S2) | exact R2 | exact A2 | exact Ht]. }
  destruct H as [c tail K Hi E | c tail K E | plus c tail D K E | c tail K E].
  - cbn [app] in A. rewrite (peek_kind_no K_Number p g c mid R A G (solid_of c _ K solid_dimension)) by congruence. rewrite (peek_kind_no K_Ident p g c mid R A G (solid_of c _ K solid_dimension)) by congruence.
    match goal with |- exists q, ?m p = Some (Ok ?x, _) /\ _ => change (goes m p x after) end. eapply goes_bind; [exact (any_goes p g c mid R A G (solid_of c _ K solid_dimension)) |]. intros q _ Aq Sq Rq.
    unfold nth_anb, goes. rewrite (dimension_char 43 c K). apply (Hg c q); [now exists [] | exact Sq | exact Rq | exact Aq | left; auto].
  - apply (Word c (110 :: tail) eq_refl K E); [discriminate | discriminate | right; left; auto].
  - cbn [app] in A. pose proof (proj1 D) as Kd. assert (Kp : kind_of plus = K_Delim) by exact Kd. rewrite (peek_kind_no K_Number p g plus _ R A G (delim_solid _ _ D)) by congruence. rewrite (peek_kind_no K_Ident p g plus _ R A G (delim_solid _ _ D)) by congruence.
    match goal with |- exists q, ?m p = Some (Ok ?x, _) /\ _ => change (goes m p x after) end. eapply goes_bind; [exact (any_goes p g plus _ R A G (delim_solid _ _ D)) |]. intros q _ Aq Sq Rq.
    unfold nth_anb, goes. rewrite (char_of 43 plus 43 D). change (43 =? 43) with true. cbv iota.
    destruct (parse_single_ok _ (fun _ _ => Some true) (fun c => c) (set_skip q KS_NONE) [] c mid Aq (Forall_nil _)) as (q2 & E2 & T2 & A2); [apply not_none | reflexivity |]. unfold Nth.parse_any. rewrite E2. cbv zeta iota.
    destruct (back q q2 [c] mid Rq Aq A2 (took_mode _ _ _ T2)) as (Sb & Rb).
    match goal with |- exists q', ?m ?u = Some (Ok ?x, _) /\ _ => assert (Gx : goes m u x after) end.
    { apply (Hg c); [now exists [plus] | exact (mode_trans _ _ _ Sq Sb) | exact Rb | exact A2 | right; left; auto]. }
    destruct Gx as (r & E' & A' & S' & R'). exists r. split; [exact E' |]. split; [exact A' |]. split; [exact (mode_trans _ _ _ Sb S') | exact R'].
  - apply (Word c (45 :: 110 :: tail) eq_refl K E); [discriminate | discriminate | right; right; auto].
Qed.
Lemma anb_goes : forall src a b cs toks p g, anb_laid src a b cs toks -> lsrc (plex p) = src -> ready p -> ahead (plex p) (g ++ toks ++ after) -> gap g -> goes parse_nth p (NthAnb a b cs) after.
Proof.
  intros src a b cs toks p g H Es R A G. destruct H as [a cs H | a cs ds H Hd Hm | a cs g1 m H Nn G1 Hs | a cs g1 m H G1 Hs | a cs g1 sign z g2 m H G1 Hz G2 Hs].
  - apply (head_read src cs a [] p g after _ H Es R A G). intros c q _ Sq Rq Aq Ht. apply (a_goes src c a [] cs q after _ ltac:(now rewrite (ahead_src _ _ Sq)) Rq Aq Ht); [| discriminate | contradiction].
    intros _ q2 R2 A2 _. now apply sign_none.
  - apply (head_read src cs a _ p g after _ H Es R A G). intros c q _ Sq Rq Aq Ht. apply (a_goes src c a _ cs q after _ ltac:(now rewrite (ahead_src _ _ Sq)) Rq Aq Ht); [discriminate | |].
    + intro E. injection E as ->. destruct Hd as (Hd & _). contradiction.
    + intros _ _. exists ds. auto.
  - rewrite <- !app_assoc in A. cbn [app] in A. apply (head_read src cs a _ p g (g1 ++ m :: after) _ H Es R A G). intros c q (before & Ec) Sq Rq Aq Ht. apply (a_goes src c a _ cs q _ _ ltac:(now rewrite (ahead_src _ _ Sq)) Rq Aq Ht); [discriminate | | intros _ N; contradiction].
    intros _. split.
    + destruct before as [| b0 before]; [exact (Nn c Ec) |]. intro E. destruct H as [c' ? K ? E' | c' ? K E' | plus c' ? D K E' | c' ? K E'].
      * destruct before; discriminate Ec.
      * destruct before; discriminate Ec.
      * destruct before as [| ? [|]]; try discriminate Ec. injection Ec as <- <-. rewrite E in E'. discriminate E'.
      * destruct before; discriminate Ec.
    + intros q2 R2 A2 _. exact (dash_number a cs q2 g1 m R2 A2 G1 Hs).
  - rewrite <- !app_assoc in A. cbn [app] in A. apply (head_read src cs a _ p g (g1 ++ m :: after) _ H Es R A G). intros c q _ Sq Rq Aq Ht. apply (a_goes src c a _ cs q _ _ ltac:(now rewrite (ahead_src _ _ Sq)) Rq Aq Ht); [| discriminate | contradiction].
    intros _ q2 R2 A2 _. exact (sign_number a cs q2 g1 m R2 A2 G1 (proj1 Hs)).
  - rewrite <- !app_assoc in A. cbn [app] in A. rewrite <- !app_assoc in A. cbn [app] in A. apply (head_read src cs a _ p g _ _ H Es R A G). intros c q _ Sq Rq Aq Ht. apply (a_goes src c a _ cs q _ _ ltac:(now rewrite (ahead_src _ _ Sq)) Rq Aq Ht); [| discriminate | contradiction].
    intros _ q2 R2 A2 _. exact (sign_apart a cs q2 g1 sign z g2 m R2 A2 G1 Hz G2 Hs).
Qed.
End B.
