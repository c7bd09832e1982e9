(* Stylesheets are read: preludes, at-rules, and keyframes. *)
From Coq Require Import ZifyBool ZifyNat ZifyN.
From Coq Require Import String.
From Coq Require Import List Lia.
From Verif Require Import SpecWords.
From Verif Require Import LexTrace AstSheet Values SpecSheet SpecLex SpecTrace SpecParser SpecSyntax SpecTraits SpecRules KindProofs CursorProofs LexBase LexFacts DimProofs ParserProofs ParserProofs3 CompareProofs
  ParserProofs2 FeatureProofs TraitsTotal SelectorProofs SelectorProofs2 SelectorProofs3 SelectorProofs9 SyntaxTotal SyntaxAccept Keeps RulesTotal SpecSelectors SpecConforms SpecTree SpecAccepts SpecDecl SpecRead SpecSelectorText SelectorGoes SelectorGoes2 SelectorGoes3 SelectorGoes5 SelectorGoes7 PropValues4 Reads Reads2 Reads3.
Open Scope N_scope.
Open Scope list_scope.
Notation length := List.length.

Definition ends_prelude (c : cursor) : Prop := kind_of c = K_LeftCurly \/ kind_of c = K_Semicolon.
Lemma prelude_stop : forall c, ends_prelude c -> tok_in (ctok c) KS_LEFT_CURLY_OR_SEMICOLON = true.
Proof.
  intros c H. apply in_kinds_tok; [destruct H as [K | K]; unfold kind_of in K; congruence |]. unfold in_kinds. apply kindset_new_spec. destruct H as [K | K]; unfold kind_of in K; rewrite K; [left | right; left]; reflexivity.
Qed.
Lemma prelude_more : forall c, kind_of c <> K_Eof -> ~ ends_prelude c -> tok_in (ctok c) KS_LEFT_CURLY_OR_SEMICOLON = false.
Proof.
  intros c N H. apply tok_in_false; [exact N |]. unfold in_kinds. intro I. apply kindset_new_spec in I. apply H. destruct I as [K | [K | []]]; [left | right]; symmetry; exact K.
Qed.
Lemma ends_solid : forall c, ends_prelude c -> solid c.
Proof. intros c [K | K]; [exact (solid_of c _ K solid_left) | exact (solid_of c _ K solid_semicolon)]. Qed.

Section Reads4.
Variable src : text.
Context {mod_ : mode}.
Variable f : feature.
Notation at_ := (at_ src f). Notation takes := (takes src f). Notation takesg := (takesg src f).
Arguments Reads.takes _ {mod_} _ {A}. Arguments Reads.takesg _ {mod_} _ {A}.

(* ---- lists with commas ---- *)
Definition item_reads {A} (item : A -> list cursor -> Prop) (item_p : P A) : Prop := forall x t, item x t ->
  (exists c r, t = c :: r /\ solid c /\ ~ ends_prelude c) /\
  forall p g g' c rest, at_ p (g ++ t ++ g' ++ c :: rest) -> gap g -> gap g' -> kind_of c = K_Comma \/ ends_prelude c -> takes item_p p (eq x) (g' ++ c :: rest).
Lemma commas_head : forall A (item : A -> list cursor -> Prop) item_p l ts, item_reads item item_p -> commas_written item l ts -> exists g c r, ts = g ++ c :: r /\ gap g /\ solid c /\ ~ ends_prelude c.
Proof.
  intros A item item_p l ts H W. destruct W as [g x t G I | g x t g' comma l toks G I G' Kc W].
  - destruct (H x t I) as ((c & r & -> & Sc & N) & _). exists g, c, r. auto.
  - destruct (H x t I) as ((c & r & -> & Sc & N) & _). exists g, c, (r ++ g' ++ comma :: toks). auto.
Qed.
Lemma commas_read : forall A (item : A -> list cursor -> Prop) item_p, item_reads item item_p -> forall l ts, commas_written item l ts -> forall n p g c rest, at_ p (ts ++ g ++ c :: rest) -> gap g -> ends_prelude c -> (length ts <= n)%nat ->
  takes (comma_loop KS_LEFT_CURLY_OR_SEMICOLON item_p n) p (eq l) (g ++ c :: rest).
Proof.
  intros A item item_p H l ts W. induction W as [g0 x t G0 I | g0 x t g' comma l toks G0 I G' Kc W IH]; intros n p g c rest Ap G Hc Hn; destruct (H x t I) as ((h & r & Et & Sh & Nh) & R).
  - destruct n as [| n]; [rewrite Et, app_length in Hn; cbn [length] in Hn; lia |]. cbn [comma_loop]. rewrite <- app_assoc in Ap.
    apply (takes_bind src f _ _ _ _ p (eq x) _ (g ++ c :: rest)); [exact (R p g0 g c rest Ap G0 G (or_intror Hc)) |]. intros y q <- Aq _.
    apply (takes_bind src f _ _ _ _ q (eq None) _ (g ++ c :: rest)); [apply (take_if_not_kind src f K_Comma q g c rest Aq G (ends_solid c Hc)); destruct Hc as [K | K]; rewrite K; discriminate |]. intros y q2 <- Aq2 _.
    exists [(x, None)], q2. rewrite (next_here src f q2 g c rest Aq2 G (ends_solid c Hc)), (prelude_stop c Hc). split; [reflexivity |]. split; [reflexivity |]. split; [exact Aq2 | apply mode_refl].
  - destruct n as [| n]; [rewrite Et, !app_length in Hn; cbn [length] in Hn; lia |]. cbn [comma_loop]. rewrite <- !app_assoc in Ap. cbn [app] in Ap.
    apply (takes_bind src f _ _ _ _ p (eq x) _ (g' ++ comma :: toks ++ g ++ c :: rest)); [exact (R p g0 g' comma _ Ap G0 G' (or_introl Kc)) |]. intros y q <- Aq _.
    apply (takes_bind src f _ _ _ _ q (eq (Some comma)) _ (toks ++ g ++ c :: rest)); [exact (take_if_kind src f K_Comma q g' comma _ Aq G' Kc solid_comma) |]. intros y q2 <- Aq2 _.
    destruct (commas_head _ item item_p _ _ H W) as (g2 & c2 & r2 & E2 & G2 & S2 & N2). assert (Aq2' := Aq2). rewrite E2, <- app_assoc in Aq2'. cbn [app] in Aq2'.
    unfold Reads.takes. rewrite (next_here src f q2 g2 c2 _ Aq2' G2 S2), prelude_more; [| apply (at_lasts src f q2 _ c2 Aq2'); apply in_or_app; right; left; reflexivity | exact N2].
    assert (Hl : (length toks <= n)%nat) by (rewrite Et, !app_length in Hn; cbn [length] in Hn; lia).
    apply takes_map. apply (takes_weaken src f _ _ _ (eq l)); [intros y <-; reflexivity |]. exact (IH n q2 g c rest Aq2 G Hc Hl).
Qed.
Lemma comma_list_reads : forall A (item : A -> list cursor -> Prop) item_p, item_reads item item_p -> forall l ts, commas_written item l ts -> forall p g c rest, at_ p (ts ++ g ++ c :: rest) -> gap g -> ends_prelude c ->
  takes (comma_list_t KS_LEFT_CURLY_OR_SEMICOLON item_p) p (eq l) (g ++ c :: rest).
Proof.
  intros A item item_p H l ts W p g c rest Ap G Hc. unfold comma_list_t. apply (commas_read _ item item_p H l ts W (sfuel p) p g c rest Ap G Hc). pose proof (sfuel_more p _ (at_ahead src f _ _ Ap)) as X. rewrite app_length in X. lia.
Qed.

(* ---- the items ---- *)
Lemma dimension_solid : solid_kind K_Dimension. Proof. repeat split; discriminate. Qed.
Lemma frame_selectors_read : item_reads (frame_selector_written src) parse_keyframe_selector.
Proof.
  intros x t [x' Fx]. clear x t. rename x' into x. split.
  - exists (keyframe_selector_cursor x), []. split; [reflexivity |]. destruct x as [c | c | c]; destruct Fx as (K & _); cbn [keyframe_selector_cursor].
    + split; [exact (name_solid _ K) | intros [X | X]; congruence].
    + split; [exact (name_solid _ K) | intros [X | X]; congruence].
    + split; [exact (solid_of _ _ K dimension_solid) | intros [X | X]; congruence].
  - intros p g g' c rest Ap G G' Hc. cbn [app] in Ap. unfold parse_keyframe_selector. destruct x as [d | d | d]; cbn [keyframe_selector_cursor] in Ap.
    + destruct Fx as (K & E). apply (takes_bind src f _ _ _ _ p (eq (Some (KwFrom, d))) _ (g' ++ c :: rest)).
      * apply takes_if; [rewrite (peek_set_here src f _ KEYFRAME_WORDS K_Ident p g d _ _ Ap G (name_solid _ K) K ltac:(discriminate) E); reflexivity |].
        apply (takes_weaken src f _ _ _ (eq (KwFrom, d))); [intros y <-; reflexivity |]. exact (take_set src f _ KEYFRAME_WORDS K_Ident p g d _ _ _ Ap G (name_solid _ K) K ltac:(discriminate) E eq_refl).
      * intros y q <- Aq _. apply takes_ret; [exact Aq | reflexivity].
    + destruct Fx as (K & E). apply (takes_bind src f _ _ _ _ p (eq (Some (KwTo, d))) _ (g' ++ c :: rest)).
      * apply takes_if; [rewrite (peek_set_here src f _ KEYFRAME_WORDS K_Ident p g d _ _ Ap G (name_solid _ K) K ltac:(discriminate) E); reflexivity |].
        apply (takes_weaken src f _ _ _ (eq (KwTo, d))); [intros y <-; reflexivity |]. exact (take_set src f _ KEYFRAME_WORDS K_Ident p g d _ _ _ Ap G (name_solid _ K) K ltac:(discriminate) E eq_refl).
      * intros y q <- Aq _. apply takes_ret; [exact Aq | reflexivity].
    + destruct Fx as (K & U & V). pose proof (solid_of _ _ K dimension_solid) as Sd. apply (takes_bind src f _ _ _ _ p (eq None) _ (g ++ d :: g' ++ c :: rest)).
      * apply takes_if_not; [| exact Ap | reflexivity]. apply (peek_set_other src f _ _ _ p g d _ Ap G Sd). rewrite K. discriminate.
      * intros y q <- Aq _. apply (takes_bind src f _ _ _ _ q (eq d) _ (g' ++ c :: rest)).
        -- apply (take_single src f _ peek_percent (fun c => c) q g d _ Aq G Sd). unfold peek_percent, peek_dimension. rewrite (tok_kind K_Dimension d K) by discriminate. destruct (unit_eqb (dimension_unit (ctok d)) U_Percent) eqn:Eu; [reflexivity |]. destruct U as [U | U]; [rewrite U in Eu; discriminate Eu |]. rewrite (at_src src f _ _ Aq). exact U.
        -- intros y q2 <- Aq2 _. assert (Ef : f32_upto_100 (tvalue (ctok d)) = true). { unfold f32_upto_100, f32_is_zero. destruct V as [V | V]; [apply Bool.orb_true_iff; right; apply N.leb_le; exact V | rewrite V; reflexivity]. }
           rewrite Ef. apply takes_ret; [exact Aq2 | reflexivity].
Qed.
Lemma dot_solid : forall c, is_delim 46 c -> solid c.
Proof. intros c D. exact (delim_solid _ _ D). Qed.
Lemma layer_tail_reads : forall l toks, layer_tail_written l toks -> forall n p g c rest, at_ p (toks ++ g ++ c :: rest) -> gap g -> kind_of c = K_Comma \/ ends_prelude c -> (length toks < n)%nat -> takes (layer_loop n) p (eq l) (g ++ c :: rest).
Proof.
  intros l toks W. induction W as [| g0 dot g' name l toks G0 D G' K W IH]; intros n p g c rest Ap G Hc Hn; (destruct n as [| n]; [lia |]); cbn [layer_loop].
  - cbn [app] in Ap. assert (Sc : solid c) by (destruct Hc as [Kc | Hc]; [exact (solid_of _ _ Kc solid_comma) | exact (ends_solid c Hc)]). apply (takes_or src f _ _ _ _ p false); [| apply takes_ret; [exact Ap | reflexivity]].
    rewrite (peek_here src f _ p g c rest Ap G Sc). unfold peek_delim. rewrite tok_not; [reflexivity | destruct Hc as [Kc | [Kc | Kc]]; rewrite Kc; discriminate |]. apply (at_lasts src f p _ c Ap). apply in_or_app. right. left. reflexivity.
  - rewrite <- !app_assoc in Ap. cbn [app] in Ap. rewrite <- app_assoc in Ap. cbn [app] in Ap. apply (takes_or src f _ _ _ _ p true); [rewrite (peek_here src f _ p g0 dot _ Ap G0 (dot_solid _ D)); exact (is_delim_peek 46 p dot D) |].
    apply (takes_bind src f _ _ _ _ p (eq dot) _ (g' ++ name :: toks ++ g ++ c :: rest)); [exact (take_delim src f 46 p g0 dot _ Ap G0 D) |]. intros y q <- Aq _.
    apply (takes_bind src f _ _ _ _ q (eq name) _ (toks ++ g ++ c :: rest)); [exact (take_kind src f K_Ident q g' name _ Aq G' K solid_ident) |]. intros y q2 <- Aq2 _.
    apply takes_map. apply (takes_weaken src f _ _ _ (eq l)); [intros y <-; reflexivity |]. apply (IH n q2 g c rest Aq2 G Hc). rewrite !app_length in Hn. cbn [length] in Hn. rewrite app_length in Hn. cbn [length] in Hn. lia.
Qed.
Lemma layer_names_read : item_reads layer_written parse_layer_name.
Proof.
  intros x t [first l toks K W]. split; [exists first, toks; split; [reflexivity |]; split; [exact (name_solid _ K) | intros [X | X]; congruence] |].
  intros p g g' c rest Ap G G' Hc. cbn [app] in Ap. unfold parse_layer_name. apply (takes_bind src f _ _ _ _ p (eq first) _ (toks ++ g' ++ c :: rest)); [exact (take_kind src f K_Ident p g first _ Ap G K solid_ident) |]. intros y q <- Aq _.
  apply takes_map. apply (takes_weaken src f _ _ _ (eq l)); [intros y <-; reflexivity |]. apply (layer_tail_reads l toks W (sfuel q) q g' c rest Aq G' Hc). pose proof (sfuel_more q _ (at_ahead src f _ _ Aq)) as X. rewrite app_length in X. lia.
Qed.
Lemma keyframes_name_reads : forall c p g rest, keyframes_name_fits src c -> at_ p (g ++ c :: rest) -> gap g -> takes parse_keyframes_name p (eq c) rest.
Proof.
  intros c p g rest Fc Ap G. unfold parse_keyframes_name. destruct Fc as [K | (K & w & E & N)].
  - apply (takes_or src f _ _ _ _ p true); [rewrite (peek_kind_here src f K_String p g c rest Ap G (solid_of _ _ K solid_string)), K; reflexivity |]. exact (take_kind src f K_String p g c rest Ap G K solid_string).
  - apply (takes_or src f _ _ _ _ p false); [rewrite (peek_kind_here src f K_String p g c rest Ap G (name_solid _ K)), K; reflexivity |].
    apply (takes_bind src f _ _ _ _ p (eq c) _ rest); [exact (take_kind src f K_Ident p g c rest Ap G K solid_ident) |]. intros y q <- Aq _. exists c, q. rewrite (at_src src f _ _ Aq), E.
    assert (Ex : existsb (text_eqb w) RESERVED_KEYFRAMES = false). { destruct (existsb (text_eqb w) RESERVED_KEYFRAMES) eqn:Ex; [| reflexivity]. exfalso. apply N. apply existsb_exists in Ex. destruct Ex as (v & I & Ev). apply text_eqb_spec in Ev. subst v. exact I. }
    rewrite Ex. split; [reflexivity |]. split; [reflexivity |]. split; [exact Aq | apply mode_refl].
Qed.
End Reads4.
