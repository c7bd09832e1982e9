(* The logic of Tells.v: media features and condition lists. *)
From Coq Require Import ZifyBool ZifyNat ZifyN Permutation.
From Coq Require Import List.
From Verif Require Import AstSheet SpecSheet SpecWritten SpecLex SpecTrace SpecParser SpecSyntax SpecTraits SpecRules SpecFeatures SpecCursor SpecToken LexBase TokenProofs KindProofs LexFacts LexTrace CursorProofs CursorLex
  ParserProofs ParserProofs2 ParserProofs3 ParserProofs4 CompareProofs SyntaxProofs SyntaxTotal TraitsTotal RulesTotal FeatureProofs FaithProofs FaithTraits FaithRules Goes Tells Tells2 Tells3 Tells4.
Open Scope N_scope.
Open Scope list_scope.

Section Conditions.
Variable src : text.
Variable f : feature.
Notation tells := (tells src f).
Notation onto := (onto src f).
Notation tv := (tv src f).
Notation plainly := (wri (fun _ => true) (fun _ => false)).
Lemma none_emitted : forall m c, ~ emits m [] [c].
Proof.
  intros m c (k & d & o & M & F & R & E). inversion M; subst. inversion R; subst. destruct m; [apply Permutation_nil in E; discriminate | discriminate].
Qed.
Lemma w_boolean : forall name, tells (boolean_feature_t name) (plainly (plain_cursors (fun c => [c]))).
Proof.
  intros name p cs O. unfold boolean_feature_t, discrete_feature_t. eapply tv_bind; [exact O | apply tells_kind; discriminate |]. intros o u q r E Oq (K & _). eapply tv_bind; [exact Oq | apply tells_kind; discriminate |]. intros n u2 q2 r2 E2 O2 (K2 & _).
  eapply tv_bind; [exact O2 | apply w_check |]. intros x u3 q3 r3 E3 O3 K3. cbv beta in K3. subst u3. apply tv_or_peek; intro Pk.
  - eapply tv_bind; [exact O3 | apply tells_kind; discriminate |]. intros c u4 q4 r4 E4 O4 (K4 & _).
    unfold bind at 1. destruct (Features.parse_any q4) as [[[v | e] q5] |] eqn:Ea; [| | apply tv_none].
    2:{ destruct (tells_any src f q4 r4 O4 _ _ Ea) as (u5 & r5 & E5 & O5 & _). apply (tv_fails _ _ _ _ _ _ _ r5 O5). eauto. }
    unfold Features.parse_any, parse_single, peek in Ea. destruct (peek_next q4); [| discriminate]. destruct (next q4) as [[v' q5'] |] eqn:N; [| discriminate]. injection Ea as -> ->.
    destruct (next_onto src f q4 r4 v q5 O4 N) as (u5 & r5 & E5 & O5 & _ & _ & X). apply (tv_shift _ _ _ _ u5 r5 _ _ E5). eapply tv_bind; [exact O5 | apply tells_kind; discriminate |]. intros d u6 q6 r6 E6 O6 (K6 & _).
    destruct X as [(_ & _ & ->) | (_ & K5)].
    + exfalso. symmetry in E6. apply app_eq_nil in E6. destruct E6 as (-> & _). exact (none_emitted _ _ K6).
    + apply tv_ok; [exact O6 |]. unfold wri, plain_cursors. cbn [fopen fname fvalue fclose app]. em.
  - eapply tv_bind; [exact O3 | apply tells_kind; discriminate |]. intros d u6 q6 r6 E6 O6 (K6 & _).
    apply tv_ok; [exact O6 |]. unfold wri, plain_cursors. cbn [fopen fname fvalue fclose app]. em.
Qed.
Lemma w_ranged : forall F V peek_name (name_p : P F) legacy (value_p : P V) ef ev, tells name_p (plainly ef) -> tells value_p (plainly ev) -> tells (ranged_feature_t peek_name name_p legacy value_p) (plainly (ranged_cursors ef ev)).
Proof.
  intros F V peek_name name_p legacy value_p ef ev Hn Hv p cs O. unfold ranged_feature_t. eapply tv_bind; [exact O | apply tells_kind; discriminate |]. intros o u q r E Oq (K & _). destruct (peek_next q) as [c |]; [| apply tv_none].
  eapply tv_bind; [exact Oq | apply tells_if_peek; exact Hn |]. intros [name |] u2 q2 r2 E2 O2 K2; cbv beta iota in K2.
  - unfold wri in K2. apply tv_or_peek; intro Pk.
    + eapply tv_bind; [exact O2 | apply tells_kind; discriminate |]. intros col u3 q3 r3 E3 O3 (K3 & _). eapply tv_bind; [exact O3 | exact Hv |]. intros v u4 q4 r4 E4 O4 K4. unfold wri in K4. eapply tv_bind; [exact O4 | apply tells_kind; discriminate |]. intros d u6 q6 r6 E6 O6 (K6 & _).
      apply tv_ok; [exact O6 |]. unfold wri. cbn [ranged_cursors]. em.
    + destruct (legacy name); [apply tells_fail_text; exact O2 |]. eapply tv_bind; [exact O2 | apply w_comparison |]. intros cmp u3 q3 r3 E3 O3 K3. cbv beta in K3. eapply tv_bind; [exact O3 | exact Hv |]. intros v u4 q4 r4 E4 O4 K4. unfold wri in K4.
      eapply tv_bind; [exact O4 | apply tells_kind; discriminate |]. intros d u6 q6 r6 E6 O6 (K6 & _). apply tv_ok; [exact O6 |]. unfold wri. cbn [ranged_cursors]. em.
  - subst u2. eapply tv_bind; [exact O2 | exact Hv |]. intros v u4 q4 r4 E4 O4 K4. unfold wri in K4. eapply tv_bind; [exact O4 | apply w_comparison |]. intros cmp u3 q3 r3 E3 O3 K3. cbv beta in K3. destruct (peek_next q3); [| apply tv_none].
    eapply tv_bind; [exact O3 | exact Hn |]. intros name u5 q5 r5 E5 O5 K5. unfold wri in K5. destruct (legacy name); [apply tv_err; exact O5 |]. apply tv_or_peek; intro Pk.
    + eapply tv_bind; [exact O5 | apply w_comparison |]. intros cmp2 u6 q6 r6 E6 O6 K6. cbv beta in K6. eapply tv_bind; [exact O6 | exact Hv |]. intros v2 u7 q7 r7 E7 O7 K7. unfold wri in K7.
      eapply tv_bind; [exact O7 | apply tells_kind; discriminate |]. intros d u8 q8 r8 E8 O8 (K8 & _). apply tv_ok; [exact O8 |]. unfold wri. cbn [ranged_cursors]. em.
    + eapply tv_bind; [exact O5 | apply tells_kind; discriminate |]. intros d u8 q8 r8 E8 O8 (K8 & _). apply tv_ok; [exact O8 |]. unfold wri. cbn [ranged_cursors]. em.
Qed.
Lemma solid_int : Tells.solid peek_int.
Proof. intros p o E. unfold peek_int in E. apply some_inj in E. apply andb_prop in E. destruct E as (E & _). simpl ctok in E. rewrite tok_is_eof in E by discriminate. discriminate. Qed.
Lemma solid_float : Tells.solid peek_float.
Proof. intros p o E. unfold peek_float in E. apply some_inj in E. apply andb_prop in E. destruct E as (E & _). simpl ctok in E. rewrite tok_is_eof in E by discriminate. discriminate. Qed.
Lemma solid_length : Tells.solid peek_length.
Proof.
  assert (Y : Tells.solid (any_peek (map (fun u => peek_dimension u (unit_str u)) LENGTH_UNITS))).
  { apply Tells.solid_any. apply Forall_forall. intros k Ik. apply in_map_iff in Ik. destruct Ik as (u & <- & _). apply solid_dimension. }
  intros p o E. unfold peek_length in E. destruct (tok_is (ctok (Cursor o T_EOF)) K_Number && f32_is_zero (tvalue (ctok (Cursor o T_EOF)))) eqn:B; [| exact (Y p o E)].
  apply andb_prop in B. destruct B as (B & _). simpl ctok in B. rewrite tok_is_eof in B by discriminate. discriminate.
Qed.
Lemma w_one : forall k, Tells.solid k -> tells (parse_single k (fun c => c)) (fun c u => emits false u [c]).
Proof. intros k So. eapply tells_imp; [apply tells_single; exact So |]. intros c u (d & p & -> & Em & _). exact Em. Qed.
Lemma w_number_type : forall ty, tells (parse_number_type ty) (plainly (fun l => l)).
Proof.
  assert (X : forall k, Tells.solid k -> tells (pmap (fun c => [c]) (parse_single k (fun c => c))) (plainly (fun l => l))).
  { intros k So p cs O. apply tv_pmap. eapply tv_use; [exact O | exact (w_one k So) |]. intros c u K _. exact K. }
  destruct ty; cbn [parse_number_type]; [exact (X _ solid_length) | exact (X _ solid_int) | exact (X _ solid_float) |].
  intros p cs O. unfold parse_ratio. eapply tv_bind; [exact O | exact (w_one _ solid_int) |]. intros n u q r E Oq K. cbv beta in K. eapply tv_bind; [exact Oq | apply tells_if_peek, tells_delim |]. intros [s |] u2 q2 r2 E2 O2 K2; cbv beta iota in K2.
  - apply tv_pmap. eapply tv_use; [exact O2 | exact (w_one _ solid_int) |]. intros d v Kd. unfold wri. em.
  - subst u2. apply tv_ok; [exact O2 |]. unfold wri. em.
Qed.
Lemma w_feature : forall k, tells (parse_feature k) (plainly feature_cursors).
Proof.
  intros k p cs O. destruct k as [name values | name | names legacy ty |]; cbn [parse_feature].
  - apply tv_pmap. eapply tv_use; [exact O | apply (w_discrete src f _ name _ (fun c => [c])) |].
    + intros p' cs' O'. apply tv_pmap. eapply tv_use; [exact O' | apply tells_set; discriminate |]. intros x u (K & _) _. exact K.
    + intros x u K. exact K.
  - apply tv_pmap. eapply tv_use; [exact O | apply w_boolean |]. intros x u K. exact K.
  - apply tv_pmap. eapply tv_use; [exact O | apply (w_ranged _ _ _ _ _ _ (fun w : Selectors.word => [snd w]) (fun l => l)); [| apply w_number_type] |].
    + eapply tells_imp; [apply tells_set; discriminate |]. intros x u (K & _) _. exact K.
    + intros x u K. exact K.
  - apply tv_err. exact O.
Qed.
(* a parser that fails where an identifier comes next *)
Definition rejects {A} (m : P A) : Prop := forall p cs, onto p cs -> peek (peek_kind K_Ident) p = Some true -> forall a q, m p <> Some (Ok a, q).
Lemma ident_next : forall V (m : list (text * V)) p c, peek_next p = Some c -> peek_set K_Ident m p c = Some true -> peek (peek_kind K_Ident) p = Some true.
Proof. intros V m p c N Pk. unfold peek. rewrite N. unfold peek_set in Pk. unfold peek_kind. destruct (tok_is (ctok c) K_Ident); [reflexivity | discriminate]. Qed.
Lemma w_condition : forall F (feature_p : P F) cf mf ef, tells feature_p (wri cf mf ef) -> rejects feature_p -> tells (condition_t feature_p) (wri (fun x => whole_condition x && forallb cf (condition_parts x)) (fun x => existsb mf (condition_parts x)) (condition_cursors ef)).
Proof.
  intros F feature_p cf mf ef H Rj. assert (G : forall n feature kw, tells (condition_loop feature_p n feature kw) (fun l u => exists f2, l = [(feature, Some kw); (f2, None)] /\ wr (cf f2) (mf f2) u (ef f2))).
  { induction n as [| n IH]; intros feature kw p cs O; [apply tv_none |]. cbn [condition_loop]. eapply tv_bind; [exact O | exact H |]. intros f2 u q r E Oq K. destruct (peek_next q) as [c |] eqn:N; [| apply tv_none].
    assert (Done : tv r (fun b v => (fun l u => exists f2, l = [(feature, Some kw); (f2, None)] /\ wr (cf f2) (mf f2) u (ef f2)) b (u ++ v)) (Some (Ok [(feature, Some kw); (f2, None)], q))).
    { apply tv_ok; [exact Oq |]. exists f2. rewrite app_nil_r. auto. }
    destruct (peek_set K_Ident CONDITION_KEYWORDS q c) as [[] |] eqn:Pk; [| exact Done | apply tv_none]. destruct (build_set CONDITION_KEYWORDS q c) as [[[] c2] |]; [| exact Done | exact Done | apply tv_none].
    apply tv_pmap. destruct n as [| n]; [apply tv_none |]. cbn [condition_loop]. unfold bind. destruct (feature_p q) as [[[f3 | e] q3] |] eqn:E3; [| | apply tv_none].
    - exfalso. exact (Rj q r Oq (ident_next _ _ q c N Pk) _ _ E3).
    - destruct (H q r Oq _ _ E3) as (v & r3 & Ev & O3 & _). apply (tv_fails _ _ _ _ _ _ _ r3 O3). eauto. }
  intros p cs O. unfold condition_t. destruct (peek_next p) as [c |] eqn:N; [| apply tv_none]. destruct (peek_set K_Ident CONDITION_KEYWORDS p c) as [[] |] eqn:Pk; [| | apply tv_none].
  - destruct (build_set CONDITION_KEYWORDS p c) as [[[] c2] |]; [apply tells_fail_text; exact O | | apply tells_fail_text; exact O | apply tv_none]. apply tv_pmap. destruct (feature_p p) as [[[f3 | e] q3] |] eqn:E3; [| | apply tv_none].
    + exfalso. exact (Rj p cs O (ident_next _ _ p c N Pk) _ _ E3).
    + destruct (H p cs O _ _ E3) as (v & r3 & Ev & O3 & _). apply (tv_fails _ _ _ _ _ _ _ r3 O3). eauto.
  - eapply tv_bind; [exact O | exact H |]. intros f1 u q r E Oq K. unfold wri in K. eapply tv_bind; [exact Oq | apply tells_if_peek, tells_set; discriminate |]. intros [[[] k] |] u2 q2 r2 E2 O2 K2; cbv beta iota in K2.
    + apply tv_pmap. eapply tv_use; [exact O2 | apply G |]. intros l v (f2 & -> & K3). unfold wri. cbn [whole_condition condition_parts map fst forallb existsb condition_cursors flat_map]. em.
    + apply tv_pmap. eapply tv_use; [exact O2 | exact H |]. intros l v K3 Cl. discriminate.
    + apply tv_pmap. eapply tv_use; [exact O2 | apply G |]. intros l v (f2 & -> & K3). unfold wri. cbn [whole_condition condition_parts map fst forallb existsb condition_cursors flat_map]. em.
    + subst u2. apply tv_ok; [exact O2 |]. unfold wri. cbn [whole_condition condition_parts forallb existsb condition_cursors]. em.
Qed.
(* media features *)
Lemma paren_first : forall A (g : cursor -> P A) p a q, peek (peek_kind K_Ident) p = Some true -> bind (parse_kind K_LeftParen) g p <> Some (Ok a, q).
Proof.
  intros A g p a q I E. destruct (bind_inv _ _ _ _ _ _ _ E) as (c & p1 & E1 & _). unfold parse_kind, parse_single in E1. unfold peek in *. destruct (peek_next p) as [d |]; [| discriminate].
  unfold peek_kind in *. destruct (tok_is (ctok d) K_LeftParen) eqn:T1; destruct (next p) as [[c' q'] |]; try discriminate. apply some_inj in I. unfold tok_is in *. apply N.eqb_eq in T1, I. rewrite T1 in I. discriminate I.
Qed.
Lemma paren_first_err : forall A (g : cursor -> P A) p, peek (peek_kind K_Ident) p = Some true -> forall e q, bind (parse_kind K_LeftParen) g p = Some (Err e, q) -> exists c, next p = Some (c, q).
Proof.
  intros A g p I e q E. unfold bind in E. unfold parse_kind, parse_single in E. unfold peek in *. destruct (peek_next p) as [d |]; [| discriminate]. unfold peek_kind in *. apply some_inj in I.
  destruct (tok_is (ctok d) K_LeftParen) eqn:T1; [exfalso; unfold tok_is in *; apply N.eqb_eq in T1, I; rewrite T1 in I; discriminate I |]. destruct (next p) as [[c' q'] |]; [| discriminate]. injection E as <- <-. eauto.
Qed.
Lemma feature_rejects : forall k p a q, peek (peek_kind K_Ident) p = Some true -> parse_feature k p <> Some (Ok a, q).
Proof.
  intros k p a q I E. destruct k as [name values | name | names legacy ty |]; cbn [parse_feature] in E; [| | | discriminate]; destruct (pmap_inv _ _ _ _ _ _ _ E) as (x & E' & _); exact (paren_first _ _ _ _ _ I E').
Qed.
Lemma feature_err : forall k p e q, peek (peek_kind K_Ident) p = Some true -> parse_feature k p = Some (Err e, q) -> q = p \/ exists c, next p = Some (c, q).
Proof.
  intros k p e q I E. destruct k as [name values | name | names legacy ty |]; cbn [parse_feature] in E; [| | | injection E as <- <-; auto];
    (unfold pmap in E; unfold bind at 1 in E; match type of E with match ?x with _ => _ end = _ => destruct x as [[[x1 | e1] q1] |] eqn:E1; [discriminate E | | discriminate E] end; injection E as <- <-; right; exact (paren_first_err _ _ _ I _ _ E1)).
Qed.
Lemma w_media_feature : tells parse_media_feature (plainly media_feature_cursors).
Proof.
  assert (Hn : forall x, tells (named_feature x) (plainly media_feature_cursors)).
  { intros x p cs O. unfold named_feature. apply tv_pmap. eapply tv_use; [exact O | apply w_feature |]. intros y u K. exact K. }
  assert (Hk : tells parse_hack (plainly (fun l => l))).
  { intros p cs O. unfold parse_hack. eapply tv_bind; [exact O | apply tells_kind; discriminate |]. intros o u q r E Oq (K & _). eapply tv_bind; [exact Oq | apply tells_kind; discriminate |]. intros n u2 q2 r2 E2 O2 (K2 & _).
    eapply tv_bind; [exact O2 | apply w_check |]. intros x u3 q3 r3 E3 O3 K3. cbv beta in K3. subst u3. eapply tv_bind; [exact O3 | apply tells_kind; discriminate |]. intros c u4 q4 r4 E4 O4 (K4 & _).
    eapply tv_bind; [exact O4 | apply tells_kind; discriminate |]. intros d u5 q5 r5 E5 O5 (K5 & _). eapply tv_bind; [exact O5 | instantiate (1 := fun _ u => u = []) |].
    { intros p' cs' O'. destruct (str_slice _ _); [| apply tv_none]. destruct (text_eqb _ _); [apply tv_ok; [exact O' | reflexivity] | apply tv_err; exact O']. }
    intros y u6 q6 r6 E6 O6 K6. cbv beta in K6. subst u6. eapply tv_bind; [exact O6 | apply tells_kind; discriminate |]. intros e u7 q7 r7 E7 O7 (K7 & _). apply tv_ok; [exact O7 |]. unfold wri. em. }
  intros p cs O. unfold parse_media_feature. destruct (peek_n p 2) as [c |]; [| apply tv_none]. destruct (peek_n p 4) as [c4 |]; [| apply tv_none]. destruct (peek_n p 5) as [c5 |]; [| apply tv_none]. cbv zeta.
  destruct (tok_is (ctok c) K_Ident).
  - unfold match_media. destruct (look_up MEDIA_FEATURES p c) as [[x |] |]; [| apply tv_err; exact O | apply tv_none]. eapply tv_retry; [exact O | exact (Hn x) | |].
    + intros y u q r E Oq K. apply tv_ok; [exact Oq |]. unfold wri in *. em.
    + intros e u q r E Oq. cbv beta iota. eapply tv_call; [exact (onto_back src f _ _ _ _ O Oq) | exact Hk | |].
      * intros h v q2 r2 E2 O2 K2. apply tv_ok; [exact O2 |]. unfold wri in *. cbn [media_feature_cursors]. em.
      * intros e2 v q2 r2 E2 O2. apply tv_err. exact O2.
  - destruct (tok_is (ctok (if tok_is (ctok c4) K_Ident then c4 else c5)) K_Ident).
    + unfold match_media. destruct (look_up _ _ _) as [[x |] |]; [| apply tv_err; exact O | apply tv_none]. exact (Hn x p cs O).
    + eapply tv_bind; [exact O | apply tells_any |]. intros x u q r E Oq K. apply tv_err. exact Oq.
Qed.
Lemma media_rejects : rejects parse_media_feature.
Proof.
  intros p cs O I a q E. unfold parse_media_feature in E. destruct (peek_n p 2) as [c |]; [| discriminate]. destruct (peek_n p 4) as [c4 |]; [| discriminate]. destruct (peek_n p 5) as [c5 |]; [| discriminate]. cbv zeta in E.
  assert (Hn : forall x a q, named_feature x p <> Some (Ok a, q)). { intros x a' q' E'. destruct (pmap_inv _ _ _ _ _ _ _ E') as (y & E1 & _). exact (feature_rejects _ _ _ _ I E1). }
  destruct (tok_is (ctok c) K_Ident).
  - unfold match_media in E. destruct (look_up MEDIA_FEATURES p c) as [[x |] |]; [| discriminate | discriminate]. destruct (named_feature x p) as [[[y | e] q1] |] eqn:E1; [exact (Hn x y q1 E1) | | discriminate].
    assert (X : q1 = p \/ exists d, next p = Some (d, q1)). { unfold named_feature, pmap, bind in E1. destruct (parse_feature (snd x) p) as [[[y | e1] q2] |] eqn:E2; [discriminate | | discriminate]. injection E1 as <- <-. exact (feature_err _ _ _ _ I E2). }
    destruct (parse_hack (rewind q1 (checkpoint p))) as [[[h | e1] q2] |] eqn:E2; [| discriminate | discriminate].
    assert (Pl : plex (rewind q1 (checkpoint p)) = plex p /\ pskip (rewind q1 (checkpoint p)) = pskip p).
    { destruct X as [-> | (d & N)].
      - unfold rewind, lexer_rewind; cbn. split; [now destruct (plex p) | reflexivity].
      - destruct (next_onto src f p cs d q1 O N) as (u & r & _ & (S1 & S2 & _) & Sk & _). destruct O as (T1 & T2 & _). unfold rewind, lexer_rewind; cbn. split; [| exact Sk]. rewrite S1, S2, <- T1, <- T2. now destruct (plex p). }
    destruct Pl as (P1 & P2). apply (paren_first _ _ _ h q2) in E2; [exact E2 |]. unfold peek, peek_next, peek_n, pfuel in *. rewrite P1, P2. exact I.
  - destruct (tok_is (ctok (if tok_is (ctok c4) K_Ident then c4 else c5)) K_Ident).
    + unfold match_media in E. destruct (look_up _ _ _) as [[x |] |]; [| discriminate | discriminate]. exact (Hn x a q E).
    + destruct (bind_inv _ _ _ _ _ _ _ E) as (x & p1 & _ & E1). discriminate.
Qed.
Lemma w_container_feature : tells parse_container_feature (plainly (fun x => feature_cursors (snd x))).
Proof.
  intros p cs O. unfold parse_container_feature. apply tv_or_peek; intro Pk; [apply tv_none |]. destruct (peek_n p 2) as [c2 |]; [| apply tv_none]. destruct (peek_n p 3) as [c3 |]; [| apply tv_none]. destruct (peek_n p 4) as [c4 |]; [| apply tv_none]. cbv zeta.
  destruct (peek_set K_Ident CONTAINER_FEATURES p _) as [[] |]; [| apply tells_fail_text; exact O | apply tv_none]. destruct (build_set CONTAINER_FEATURES p _) as [[[name k] d] |]; [| apply tv_none]. apply tv_pmap. eapply tv_use; [exact O | apply w_feature |]. intros y u K. exact K.
Qed.
Lemma container_rejects : rejects parse_container_feature.
Proof.
  intros p cs O I a q E. unfold parse_container_feature in E. destruct (or_peek_inv _ _ _ _ _ _ E) as [(_ & E') | (_ & E')]; [discriminate |]. destruct (peek_n p 2) as [c2 |]; [| discriminate]. destruct (peek_n p 3) as [c3 |]; [| discriminate]. destruct (peek_n p 4) as [c4 |]; [| discriminate]. cbv zeta in E'.
  destruct (peek_set K_Ident CONTAINER_FEATURES p _) as [[] |]; [| unfold fail_text in E'; destruct (parse_str _ _); discriminate | discriminate]. destruct (build_set CONTAINER_FEATURES p _) as [[[name k] d] |]; [| discriminate].
  destruct (pmap_inv _ _ _ _ _ _ _ E') as (y & E1 & _). exact (feature_rejects _ _ _ _ I E1).
Qed.
End Conditions.
