(* Selectors: classes, combinators, tags, namespaces and attributes. *)
From Coq Require Import ZifyBool ZifyNat ZifyN.
From Coq Require Import List.
From Verif Require Import Selectors SpecLex SpecTrace SpecParser SpecSyntax SpecTraits SpecFeatures SpecSelectors SpecCursor SpecToken LexBase TokenProofs KindProofs LexFacts LexTrace CursorProofs
  ParserProofs ParserProofs2 ParserProofs3 ParserProofs4 CompareProofs SyntaxProofs SyntaxTotal TraitsTotal RulesTotal FeatureProofs FeatureProofs2 FeatureProofs3 FeatureProofs4 FeatureProofs5 FeatureProofs6 SelectorProofs SelectorProofs2.
Open Scope N_scope.
Open Scope list_scope.

Lemma class_sound : sound parse_class (fun _ x => is_delim 46 (fst x) /\ kind_of (snd x) = K_Ident) (fun x => [fst x; snd x]).
Proof.
  intros p R. apply wp_bind. apply delim_wp; [exact R |]. intros d q D T Rq. apply wp_pmap. apply kind_wp; [discriminate | exact Rq |]. intros c r K T' _. cbn [fst snd].
  split; [auto | exact (spent_cons _ _ _ _ _ T T')].
Qed.

Lemma peek_delim_total : forall ch p cs, ahead (plex p) cs -> peek (peek_delim ch) p <> None.
Proof. intros ch p cs A. apply (peek_total_of _ p cs A). discriminate. Qed.
Lemma combinator_ok : forall p cs, usable p -> ahead (plex p) cs ->
  well_run 1 parse_combinator p /\ forall x q, parse_combinator p = Some (Ok x, q) -> combinator_phrase x /\ took p q (combinator_cursors x).
Proof.
  intros p cs U A.
  assert (W : okay parse_combinator p /\ forall x q, parse_combinator p = Some (Ok x, q) -> combinator_phrase x /\ took p q (combinator_cursors x)).
  { unfold parse_combinator.
    assert (D : forall ch (g : cursor -> combinator_t) (e : P combinator_t), (forall c, is_delim ch c -> combinator_phrase (g c) /\ combinator_cursors (g c) = [c]) ->
      (okay e p /\ forall x q, e p = Some (Ok x, q) -> combinator_phrase x /\ took p q (combinator_cursors x)) ->
      okay (or_peek (peek_delim ch) (pmap g (parse_delim ch)) e) p /\ forall x q, or_peek (peek_delim ch) (pmap g (parse_delim ch)) e p = Some (Ok x, q) -> combinator_phrase x /\ took p q (combinator_cursors x)).
    { intros ch g e G (He & Ho). split.
      - unfold okay, or_peek. pose proof (peek_delim_total ch p cs A) as N. destruct (peek (peek_delim ch) p) as [[] |]; [| exact He | congruence].
        apply okay_pmap. eapply okay_single; [exact A | exact (peek_delim_total ch p cs A)].
      - intros x q E. apply or_peek_ok in E. destruct E as [(_ & E) | (_ & E)]; [| exact (Ho x q E)]. apply pmap_inv in E. destruct E as (c & E & ->).
        destruct (parse_delim_inv ch p cs c q A E) as (K & T). destruct (G c K) as (G1 & G2). rewrite G2. auto. }
    apply D; [intros c K; split; [exact K | reflexivity] |]. apply D; [intros c K; split; [exact K | reflexivity] |]. apply D; [intros c K; split; [exact K | reflexivity] |].
    apply D; [intros c K; split; [exact K | reflexivity] |]. split.
    - unfold okay, or_peek. pose proof (peeks_double 124 124 p cs A) as N. destruct (peek (peek_double 124 124) p) as [[] |]; [| | congruence]; apply okay_pmap.
      + destruct (runs_double 124 124 (length cs) p cs U A (le_n _)) as (r & q & E & M). exists r, q. split; [exact E |]. destruct r; [exact (moved_le 0 2 p q ltac:(lia) M) | exact M].
      + exact (okay_whitespace p cs A).
    - intros x q E. apply or_peek_ok in E. destruct E as [(_ & E) | (_ & E)]; apply pmap_inv in E; destruct E as (c & E & ->).
      + destruct (parse_double_inv _ _ p cs c q A E) as (K1 & K2 & K3 & T). split; [exact (conj K1 (conj K2 K3)) | exact T].
      + destruct (parse_whitespace_inv p cs c q (proj1 U) A E) as (T & K & _). auto. }
  destruct W as ((r & q & E & M) & H). split; [| exact H]. exists r, q. split; [exact E |]. destruct r as [x | e]; [| exact M]. destruct (H x q E) as (_ & T).
  pose proof (moved_took _ _ _ T) as MT. destruct x; cbn [combinator_cursors length] in MT; try exact MT; exact (moved_le 1 2 p q ltac:(lia) MT).
Qed.

(* ---- tags ---- *)
Lemma words_get : forall l w, match map_get (words l) w with Some v => v = w /\ In w l | None => ~ In w l end.
Proof.
  induction l as [| k l IH]; intro w; cbn [words map map_get]; [intros [] |]. fold (words l). destruct (text_eqb k w) eqn:E.
  - apply text_eqb_spec in E. subst. split; [reflexivity | now left].
  - specialize (IH w). destruct (map_get (words l) w) as [v |]; [destruct IH; split; [auto | now right] |]. intros [-> | I]; [rewrite text_eqb_refl in E; discriminate | auto].
Qed.
Lemma or_build_eq : forall A l (f : Selectors.word -> A) e p c w, tok_is (ctok c) K_Ident = true -> parse_str_lower c (lsrc (plex p)) = Some w ->
  (In w l /\ or_build l f e p c = Some (f (w, c))) \/ (~ In w l /\ or_build l f e p c = e).
Proof.
  intros A l f e p c w T E. unfold or_build, peek_set, build_set, look_up. rewrite T, E. pose proof (words_get l w) as H. destruct (map_get (words l) w) as [v |].
  - destruct H as (-> & I). left. auto.
  - right. auto.
Qed.
Lemma custom_char_spec : forall c, (c = 45 \/ custom_char c = true) <-> pcen_char c.
Proof.
  intro c. unfold custom_char, pcen_char, in_range. rewrite !orb_true_iff, !andb_true_iff, !N.leb_le, !N.eqb_eq. lia.
Qed.
Lemma custom_loop_spec : forall l d, custom_loop l d = true <-> Forall pcen_char l /\ (d = true \/ In 45 l).
Proof.
  induction l as [| c l IH]; intro d; cbn [custom_loop].
  - split; [intro H; split; [constructor | now left] | intros (_ & [H | []]); exact H].
  - pose proof (custom_char_spec c) as C. destruct (c =? 45) eqn:E.
    + apply N.eqb_eq in E. subst c. rewrite IH. split; intros (F & H); split.
      * constructor; [apply C; now left | exact F].
      * right. now left.
      * now inversion F.
      * now left.
    + apply N.eqb_neq in E. destruct (custom_char c) eqn:K.
      * rewrite IH. split; intros (F & H); split.
        -- constructor; [apply C; now right | exact F].
        -- destruct H; [now left | right; now right].
        -- now inversion F.
        -- destruct H as [H | [H | H]]; [now left | congruence | now right].
      * split; [discriminate |]. intros (F & _). inversion F as [| ? ? H1 H2]; subst. apply C in H1. destruct H1; congruence.
Qed.
Lemma existsb_text : forall w l, existsb (text_eqb w) l = true <-> In w l.
Proof. intros w l. rewrite existsb_exists. split; [intros (x & I & E); apply text_eqb_spec in E; now subst | intro I; exists w; split; [exact I | apply text_eqb_refl]]. Qed.
Lemma peek_custom_spec : forall p c w, parse_str_lower c (lsrc (plex p)) = Some w -> exists b, peek_custom p c = Some b /\ (b = true <-> custom_name w).
Proof.
  intros p c w E. unfold peek_custom, custom_name. rewrite E. destruct (existsb (text_eqb w) CUSTOM_INVALID) eqn:X.
  - exists false. split; [reflexivity |]. apply existsb_text in X. split; [discriminate | tauto].
  - assert (NI : ~ In w CUSTOM_INVALID) by (intro I; apply existsb_text in I; congruence). destruct w as [| a r].
    + exists false. split; [reflexivity |]. split; [discriminate |]. intros (_ & a & r & H & _). discriminate.
    + unfold in_range. destruct ((97 <=? a) && (a <=? 122)) eqn:R.
      * eexists. split; [reflexivity |]. rewrite custom_loop_spec. split.
        -- intros (F & [H | H]); [discriminate |]. split; [exact NI |]. exists a, r. split; [reflexivity |]. split; [lia | auto].
        -- intros (_ & a' & r' & [= <- <-] & _ & F & H). auto.
      * exists false. split; [reflexivity |]. split; [discriminate |]. intros (_ & a' & r' & [= <- <-] & H & _). lia.
Qed.
Lemma build_tag_spec : forall p c w, kind_of c = K_Ident -> parse_str_lower c (lsrc (plex p)) = Some w -> exists t, build_tag p c = Some t /\ tag_cursor t = c /\ tag_phrase (lsrc (plex p)) t.
Proof.
  intros p c w K E. assert (T : tok_is (ctok c) K_Ident = true) by (unfold kind_of in K; apply tok_is_kind; [apply wf_of_kind; congruence | exact K]).
  assert (P0 : forall t, tag_cursor t = c -> match t with
    | THtml x => fst x = w /\ In w HTML_TAGS
    | TSvg x => fst x = w /\ ~ In w HTML_TAGS /\ In w SVG_TAGS
    | TMathml x => fst x = w /\ ~ In w HTML_TAGS /\ ~ In w SVG_TAGS /\ In w MATHML_TAGS
    | TCustomElement _ => ~ In w HTML_TAGS /\ ~ In w SVG_TAGS /\ ~ In w MATHML_TAGS /\ custom_name w
    | THtmlNonConforming x => fst x = w /\ ~ In w HTML_TAGS /\ ~ In w SVG_TAGS /\ ~ In w MATHML_TAGS /\ ~ custom_name w /\ In w HTML_NON_CONFORMING_TAGS
    | THtmlNonStandard x => fst x = w /\ ~ In w HTML_TAGS /\ ~ In w SVG_TAGS /\ ~ In w MATHML_TAGS /\ ~ custom_name w /\ ~ In w HTML_NON_CONFORMING_TAGS /\ In w HTML_NON_STANDARD_TAGS
    | TUnknown _ => ~ In w HTML_TAGS /\ ~ In w SVG_TAGS /\ ~ In w MATHML_TAGS /\ ~ custom_name w /\ ~ In w HTML_NON_CONFORMING_TAGS /\ ~ In w HTML_NON_STANDARD_TAGS
    end -> exists t', Some t = Some t' /\ tag_cursor t' = c /\ tag_phrase (lsrc (plex p)) t').
  { intros t Ec H. exists t. split; [reflexivity |]. split; [exact Ec |]. split; [rewrite Ec; exact K |]. exists w. rewrite Ec. split; [exact E | exact H]. }
  unfold build_tag. set (e3 := match peek_custom p c with None => None | Some true => _ | Some false => _ end).
  destruct (or_build_eq _ HTML_TAGS THtml (or_build SVG_TAGS TSvg (or_build MATHML_TAGS TMathml e3 p c) p c) p c w T E) as [(I & ->) | (N1 & ->)]; [apply P0; [reflexivity | cbn [fst]; auto] |].
  destruct (or_build_eq _ SVG_TAGS TSvg (or_build MATHML_TAGS TMathml e3 p c) p c w T E) as [(I & ->) | (N2 & ->)]; [apply P0; [reflexivity | cbn [fst]; auto] |].
  destruct (or_build_eq _ MATHML_TAGS TMathml e3 p c w T E) as [(I & ->) | (N3 & ->)]; [apply P0; [reflexivity | cbn [fst]; auto] |].
  unfold e3. destruct (peek_custom_spec p c w E) as (b & -> & Hb). destruct b; [apply P0; [reflexivity | tauto] |]. assert (N4 : ~ custom_name w) by (intro H; apply Hb in H; discriminate).
  destruct (or_build_eq _ HTML_NON_CONFORMING_TAGS THtmlNonConforming (or_build HTML_NON_STANDARD_TAGS THtmlNonStandard (Some (TUnknown c)) p c) p c w T E) as [(I & ->) | (N5 & ->)]; [apply P0; [reflexivity | cbn [fst]; auto 8] |].
  destruct (or_build_eq _ HTML_NON_STANDARD_TAGS THtmlNonStandard (Some (TUnknown c)) p c w T E) as [(I & ->) | (N6 & ->)]; apply P0; try reflexivity; cbn [fst]; auto 10.
Qed.
