(* The logic of Tells.v for property values: what each parser of VALUES reads is what it writes. *)
From Coq Require Import ZifyBool ZifyNat ZifyN Permutation.
From Coq Require Import String.
From Coq Require Import List.
From Verif Require Import AstSheet Values SpecSheet SpecLex SpecTrace SpecParser SpecSyntax SpecTraits SpecRules SpecFeatures SpecCursor SpecToken LexBase TokenProofs KindProofs LexFacts LexTrace CursorProofs CursorLex
  ParserProofs ParserProofs2 ParserProofs3 ParserProofs4 CompareProofs SyntaxProofs SyntaxTotal TraitsTotal RulesTotal FeatureProofs FaithProofs FaithTraits FaithRules Goes Goes2 Goes3 SheetTotal ValuesTotal Tells Tells2 Tells3.
Open Scope N_scope.
Open Scope list_scope.
Notation length := List.length.

Section Logic.
Variable src : text.
Variable f : feature.
Notation tells := (tells src f).
Notation onto := (onto src f).
Notation tv := (tv src f).
Notation solo := (solo (mod_ := false) src f).
(* what is read is written: no token lost if [c], in the order read if not [m] *)
Definition wv (c m : bool) (q : P (list cursor)) : Prop := tells q (fun l u => wr c m u l).
Lemma wr_weak : forall c m c' m' u l, wr c m u l -> (c' = true -> c = true) -> (m = true -> m' = true) -> wr c' m' u l.
Proof.
  intros c m c' m' u l X Hc Hm E. specialize (X (Hc E)). destruct m; [rewrite (Hm eq_refl); exact X |]. destruct m'; [| exact X]. apply (emits_perm _ _ _ _ X). apply Permutation_refl.
Qed.
Lemma wr_perm : forall c m u l l', wr c m u l -> Permutation l l' -> wr c true u l'.
Proof. intros c m u l l' X Pm E. apply (emits_perm _ _ _ _ (X E)). exact Pm. Qed.
Lemma wr_cat : forall c m u o v l, wr c m u o -> wr c m v l -> wr c m (u ++ v) (o ++ l).
Proof. intros c m u o v l X Y E. pose proof (emits_app m m _ _ _ _ (X E) (Y E)) as Z. rewrite orb_diag in Z. exact Z. Qed.
Lemma wr_none : forall c m, wr c m [] [].
Proof. intros c m. apply (wr_weak true false); [exact wr_nil | reflexivity | discriminate]. Qed.
Lemma wr_is : forall c m u l, emits false u l -> wr c m u l.
Proof. intros c m u l X. apply (wr_weak true false); [apply wr_emits; exact X | reflexivity | discriminate]. Qed.
Lemma wv_weak : forall c m c' m' q, wv c m q -> (c' = true -> c = true) -> (m = true -> m' = true) -> wv c' m' q.
Proof. intros c m c' m' q X Hc Hm. eapply tells_imp; [exact X |]. intros l u K. cbv beta in *. exact (wr_weak _ _ _ _ _ _ K Hc Hm). Qed.
Lemma wv_true : forall c m q, wv true false q -> wv c m q.
Proof. intros c m q X. apply (wv_weak true false); [exact X | reflexivity | discriminate]. Qed.
Lemma wv_nil : forall c m, wv c m (ret []).
Proof. intros c m p cs O. apply tv_ok; [exact O | apply wr_none]. Qed.
Lemma wv_or : forall c m k a b, wv c m a -> wv c m b -> wv c m (or_peek k a b).
Proof. intros c m k a b Ha Hb p cs O. apply tv_or_peek; intros _; [exact (Ha p cs O) | exact (Hb p cs O)]. Qed.
Lemma solo_solid : forall k, solo k -> solid k.
Proof. intros k (_ & N) p o E. exact (N p (Cursor o T_EOF) E eq_refl). Qed.
Lemma wv_one : forall c m k, solo k -> wv c m (one k).
Proof.
  intros c m k S p cs O. unfold one. apply tv_pmap. eapply tv_use; [exact O | apply tells_single; exact (solo_solid k S) |]. intros a u (d & p' & -> & Em & _). apply wr_is. exact Em.
Qed.
Lemma wv_opt : forall c m k, solo k -> wv c m (opt k).
Proof. intros c m k S. unfold opt. apply wv_or; [apply wv_one; exact S | apply wv_nil]. Qed.
Lemma wv_words : forall c m l, wv c m (parse_words l).
Proof. intros c m l p cs O. unfold parse_words. apply tv_pmap. eapply tv_use; [exact O | apply tells_set; discriminate |]. intros a u (Em & _). apply wr_is. exact Em. Qed.
Lemma wv_opt_words : forall c m l, wv c m (opt_words l).
Proof. intros c m l. unfold opt_words. apply wv_or; [apply wv_words | apply wv_nil]. Qed.
Lemma wv_order : forall c m l, Forall (wv c m) l -> wv c m (in_order l).
Proof.
  intros c m l F. induction F as [| x l Hx F IH]; cbn [in_order]; [apply wv_nil |]. intros p cs O. eapply tv_bind; [exact O | exact Hx |]. intros a u q r E Oq K. cbv beta in K. apply tv_pmap. eapply tv_use; [exact Oq | exact IH |].
  intros b v Kb. cbv beta in *. exact (wr_cat _ _ _ _ _ _ K Kb).
Qed.
Lemma wv_close : forall c m, wv c m close_paren.
Proof. intros c m p cs O. unfold close_paren. apply tv_pmap. eapply tv_use; [exact O | apply tells_if_kind; discriminate |]. intros o u (Em & _). apply wr_is. exact Em. Qed.
Lemma t_unexpected_any : forall A (K : A -> list cursor -> Prop), tells unexpected_any K.
Proof. intros A K p cs O. unfold unexpected_any. eapply tv_bind; [exact O | apply tells_any |]. intros c u q r E Oq _. apply tells_fail. exact Oq. Qed.
Lemma t_unexpected_ident : forall A (K : A -> list cursor -> Prop), tells unexpected_ident K.
Proof. intros A K p cs O. unfold unexpected_ident. eapply tv_bind; [exact O | apply tells_any |]. intros c u q r E Oq _. apply tells_fail_text. exact Oq. Qed.
Lemma wv_cons : forall c m u x q, emits false u [x] -> wv c m q -> forall p r, onto p r -> tv r (fun l v => wr c m (u ++ v) l) (pmap (cons x) q p).
Proof. intros c m u x q Em Hq p r O. apply tv_pmap. eapply tv_use; [exact O | exact Hq |]. intros l v K. cbv beta in *. exact (wr_cat _ _ _ [x] _ _ (wr_is c m _ _ Em) K). Qed.
Lemma wv_function_named : forall c m name rest, wv c m rest -> wv c m (function_named name rest).
Proof.
  intros c m name rest Hr p cs O. unfold function_named. eapply tv_bind; [exact O | apply tells_kind; discriminate |]. intros x u q r E Oq (Em & _). cbv beta. destruct (eq_ignore_ascii_case _ _ _) as [[] |]; [| apply tells_fail_text; exact Oq | apply tv_none].
  exact (wv_cons c m u x rest Em Hr q r Oq).
Qed.
Lemma wv_then : forall c m a b, wv c m a -> wv c m b -> wv c m (bind a (fun cs => pmap (app cs) b)).
Proof.
  intros c m a b Ha Hb p cs O. eapply tv_bind; [exact O | exact Ha |]. intros x u q r E Oq K. apply tv_pmap. eapply tv_use; [exact Oq | exact Hb |]. intros y v Ky. cbv beta in *. exact (wr_cat _ _ _ _ _ _ K Ky).
Qed.
Lemma wv_function_of : forall c m name inner, wv c m inner -> wv c m (function_of name inner).
Proof. intros c m name inner Hi. unfold function_of. apply wv_function_named. apply wv_then; [exact Hi | apply wv_close]. Qed.
Lemma wv_comma_items : forall c m item, wv c m item -> forall n, wv c m (comma_items item n).
Proof.
  intros c m item Hi n. induction n as [| n IH]; intros p cs O; [apply tv_none |]. cbn [comma_items]. eapply tv_bind; [exact O | exact Hi |]. intros a u q r E Oq K. cbv beta in K.
  eapply tv_bind; [exact Oq | apply tells_if_kind; discriminate |]. intros o u2 q2 r2 E2 O2 (Em & _). destruct o as [x |]; cbn [opt_cursor] in Em.
  - apply tv_pmap. eapply tv_use; [exact O2 | exact IH |]. intros l v Kl. cbv beta in *. apply wr_cat; [exact K |]. exact (wr_cat _ _ _ [x] _ _ (wr_is c m _ _ Em) Kl).
  - apply tv_ok; [exact O2 |]. rewrite app_nil_r. pose proof (wr_cat _ _ _ _ _ _ K (wr_is c m _ _ Em)) as X. rewrite app_nil_r in X. exact X.
Qed.
Lemma wv_comma : forall c m item, wv c m item -> wv c m (comma_separated item).
Proof. intros c m item Hi p cs O. exact (wv_comma_items c m item Hi (sfuel p) p cs O). Qed.

(* ---- the named types ---- *)
Ltac solo_ := lazymatch goal with
  | |- Forall _ [] => apply Forall_nil
  | |- Forall _ (_ :: _) => apply Forall_cons; [solo_ | solo_]
  | |- solo peek_length => apply solo_length
  | |- solo peek_length_percentage => apply solo_lp
  | |- solo peek_percent => apply solo_percent
  | |- solo peek_angle => apply solo_angle
  | |- solo peek_int => apply solo_int
  | |- solo peek_float => apply solo_float
  | |- solo peek_length_or_flex => apply solo_length_or_flex
  | |- solo peek_time => apply solo_time
  | |- solo peek_opacity => apply solo_opacity
  | |- solo peek_dashed_ident => apply solo_dashed
  | |- solo (peek_words _) => apply solo_words
  | |- solo (peek_delim _) => apply solo_delim
  | |- solo (peek_dimension _ _) => apply solo_dimension
  | |- solo (peek_named _ _) => apply solo_named; [constructor | discriminate]
  | |- solo (peek_set _ _) => apply solo_set; [constructor | discriminate]
  | |- solo (peek_kind _) => apply solo_kind; discriminate
  | |- solo (any_peek _) => apply solo_any; solo_
  end.
Ltac order_ := apply wv_order; repeat first [apply Forall_nil | apply Forall_cons].
Lemma wv_opt_comma : forall c m, wv c m opt_comma.
Proof. intros c m. unfold opt_comma. apply wv_opt. solo_. Qed.
Lemma wv_color_arguments : forall c m s, wv c m (color_arguments s).
Proof.
  intros c m s. assert (C : solo peek_channel) by (unfold peek_channel; solo_). assert (Hh : solo peek_hue) by (unfold peek_hue; solo_).
  destruct s; cbn [color_arguments]; order_; first [apply wv_words | apply wv_one; assumption | apply wv_opt; assumption | apply wv_opt; solo_].
Qed.
Lemma onto_peek_one : forall p cs c, onto p cs -> peek_n p 1 = Some c -> peek_next p = Some c.
Proof.
  intros p cs c (_ & _ & A & _) E. rewrite (peek_n_spec p cs 1 A ltac:(lia)) in E. destruct (skip_split (pskip p) cs) as (sk & rest & Ec & F & St). rewrite Ec in *. rewrite (peek_next_spec p sk rest A F St), <- E. rewrite kept_skipped, kept_stop by assumption. destruct rest; reflexivity.
Qed.
Lemma words_read : forall l p cs d a q, onto p cs -> peek_next p = Some d -> parse_words l p = Some (Ok a, q) -> a = [d].
Proof.
  intros l p cs d a q O Pd E. unfold parse_words, pmap, bind, parse_set in E. destruct (peek _ p) as [[] |]; try discriminate; destruct (next p) as [[x q0] |] eqn:N; try discriminate.
  destruct (next_onto src f p cs x q0 O N) as (_ & _ & _ & _ & _ & Pn & _). rewrite Pd in Pn. apply some_inj in Pn. subst x.
  destruct (build_set _ q0 d) as [y |] eqn:B; [| discriminate]. cbn [ret] in E. injection E as <- <-. unfold build_set in B. destruct (look_up _ _ _) as [[] |]; try discriminate. injection B as <-. reflexivity.
Qed.
Lemma wv_color_ident : forall c m, wv c m parse_color_ident.
Proof.
  intros c m p cs O. unfold parse_color_ident. destruct (peek_n p 1) as [d |] eqn:Pn; [| apply tv_none]. pose proof (onto_peek_one p cs d O Pn) as Pd.
  unfold bind at 1, parse_if_peek. destruct (peek _ p) as [b |] eqn:Pk; [| apply tv_none]. destruct b.
  - unfold pmap, bind. destruct (parse_words COLOR_KEYWORDS p) as [[[l | e] q] |] eqn:E; [| | apply tv_none]; destruct (wv_words c m COLOR_KEYWORDS p cs O _ _ E) as (u & rest & -> & Oq & K).
    + specialize (K l eq_refl). cbv beta in K. rewrite (words_read _ _ _ _ _ _ O Pd E) in K. cbn [ret]. intros r q' E'. injection E' as <- <-. exists u, rest. split; [reflexivity |]. split; [exact Oq |]. intros a Ea. injection Ea as <-. exact K.
    + apply (tv_fails _ _ _ _ _ _ _ rest Oq). eauto.
  - cbn [ret]. apply wv_or; [apply wv_words | apply wv_words | exact O].
Qed.
Lemma wv_color_function : forall c m, wv c m parse_color_function.
Proof.
  intros c m p cs O. unfold parse_color_function. eapply tv_bind; [exact O | apply tells_set; discriminate |]. intros x u q r E Oq (Em & _). refine (wv_cons c m u (snd x) _ Em _ q r Oq). order_; [apply wv_color_arguments | apply wv_close].
Qed.
Lemma wv_color : forall c m, wv c m parse_color.
Proof.
  intros c m. unfold parse_color. apply wv_or; [apply wv_one; solo_ |]. apply wv_or; [apply wv_color_ident |]. apply wv_or; [apply wv_color_function |]. intros p cs O. destruct (peek_n p 1); [apply tv_err; exact O | apply tv_none].
Qed.
Lemma t_pos : tells parse_pos (fun v u => emits false u [snd v]).
Proof.
  unfold parse_pos. eapply tells_imp; [apply tells_built; exact (solo_solid _ (solo_pos src f)) |]. intros v u (d & p & q & Em & _ & _ & B & _). cbv beta. unfold build_pos in B. destruct (tok_is (ctok d) K_Ident).
  - destruct (build_set _ q d); [| discriminate]. cbn [option_map] in B. injection B as <-. exact Em.
  - destruct (peek_length_percentage q d) as [[] |]; try discriminate. injection B as <-. exact Em.
Qed.
Lemma wv_position : forall c, wv c true parse_position.
Proof.
  intro c. assert (Four : forall a b p cs u1 u2, onto p cs -> emits false u1 [snd a] -> emits false u2 [snd b] -> tv cs (fun l v => wr c true (u1 ++ u2 ++ v) l) (position_four a b p)).
  { intros a b p cs u1 u2 O E1 E2. unfold position_four. destruct (_ || _); [apply tells_fail; exact O |]. eapply tv_bind; [exact O | apply t_pos |]. intros x u3 q3 r3 _ O3 E3. cbv beta in E3.
    destruct (_ && _); [apply tells_fail_text; exact O3 |]. eapply tv_bind; [exact O3 | apply tells_single; exact (solo_solid _ (solo_lp src f)) |]. intros y u4 q4 r4 _ O4 (d & _ & -> & E4 & _).
    assert (W : wr c false (u1 ++ u2 ++ u3 ++ u4 ++ []) [snd a; snd b; snd x; d]).
    { rewrite app_nil_r. apply wr_is. apply (emits_then false u1 [_]); [exact E1 |]. apply (emits_then false u2 [_]); [exact E2 |]. apply (emits_then false u3 [_]); [exact E3 | exact E4]. }
    destruct (horizontal_keyword a).
    - destruct (vertical_keyword x); [apply tv_ok; [exact O4 |] | apply tells_fail; exact O4]. exact (wr_perm _ _ _ _ _ W (Permutation_refl _)).
    - destruct (horizontal_keyword x); [| apply tells_fail; exact O4]. destruct (vertical_keyword a); [apply tv_ok; [exact O4 |] | apply tells_fail; exact O4].
      apply (wr_perm _ _ _ _ _ W). exact (Permutation_app_comm [snd a; snd b] [snd x; d]). }
  intros p cs O. unfold parse_position. eapply tv_bind; [exact O | apply t_pos |]. intros a u1 q1 r1 _ O1 E1. cbv beta in E1. apply tv_or_peek; intros _; [| apply tv_ok; [exact O1 |]; rewrite app_nil_r; apply wr_is; exact E1].
  eapply tv_bind; [exact O1 | apply t_pos |]. intros b u2 q2 r2 _ O2 E2. cbv beta in E2.
  assert (W : wr c false (u1 ++ u2 ++ []) [snd a; snd b]) by (rewrite app_nil_r; apply wr_is; apply (emits_then false u1 [_]); [exact E1 | exact E2]).
  apply tv_or_peek; intros _; [exact (Four _ _ _ _ _ _ O2 E1 E2) |]. destruct (horizontal a).
  - destruct (vertical b); [| exact (Four _ _ _ _ _ _ O2 E1 E2)]. apply tv_ok; [exact O2 |]. exact (wr_perm _ _ _ _ _ W (Permutation_refl _)).
  - destruct (horizontal b); [| exact (Four _ _ _ _ _ _ O2 E1 E2)]. destruct (vertical a); [| apply tells_fail; exact O2]. apply tv_ok; [exact O2 |]. apply (wr_perm _ _ _ _ _ W). apply perm_swap.
Qed.
Lemma wv_stops_loop : forall c m n b, wv c m (stops_loop n b).
Proof.
  intros c m n. induction n as [| n IH]; intros b p cs O; [apply tv_none |]. cbn [stops_loop].
  assert (Hh : wv c m (if b then or_peek peek_length_percentage (in_order [one peek_length_percentage; one (peek_kind K_Comma)]) (ret []) else ret [])).
  { destruct b; [| apply wv_nil]. apply wv_or; [| apply wv_nil]. order_; apply wv_one; solo_. }
  eapply tv_bind; [exact O | exact Hh |]. intros h u1 q1 r1 _ O1 K1. eapply tv_bind; [exact O1 | apply (wv_color c m) |]. intros x u2 q2 r2 _ O2 K2. eapply tv_bind; [exact O2 | apply (wv_opt c m); solo_ |]. intros l u3 q3 r3 _ O3 K3.
  eapply tv_bind; [exact O3 | apply tells_if_kind; discriminate |]. intros o u4 q4 r4 _ O4 (Em & _). cbv beta in *. destruct o as [d |]; cbn [opt_cursor] in Em.
  - apply tv_pmap. eapply tv_use; [exact O4 | apply IH |]. intros t v Kt. cbv beta in *. apply wr_cat; [exact K1 |]. apply wr_cat; [exact K2 |]. apply wr_cat; [exact K3 |]. exact (wr_cat _ _ _ [d] _ _ (wr_is c m _ _ Em) Kt).
  - apply tv_ok; [exact O4 |]. rewrite app_nil_r. apply wr_cat; [exact K1 |]. apply wr_cat; [exact K2 |]. pose proof (wr_cat _ _ _ _ _ _ K3 (wr_is c m _ _ Em)) as X. rewrite app_nil_r in X. exact X.
Qed.
Lemma wv_stops : forall c m, wv c m parse_stops.
Proof. intros c m p cs O. exact (wv_stops_loop c m (sfuel p) false p cs O). Qed.
Lemma wv_direction : forall c m, wv c m parse_direction.
Proof.
  intros c m. unfold parse_direction. apply wv_or; [apply wv_one; solo_ |]. intros p cs O. eapply tv_bind; [exact O | apply tells_kind; discriminate |]. intros x u q r _ Oq (Em & _). cbv beta.
  destruct (eq_ignore_ascii_case _ _ _) as [[] |]; [| apply tells_fail_text; exact Oq | apply tv_none]. refine (wv_cons c m u x _ Em _ q r Oq). order_; [apply wv_words | apply wv_opt_words].
Qed.
(* the size of a radial gradient may lose a number; what is said is that it reads forwards *)
Lemma wv_radial_size : forall m, wv false m parse_radial_size.
Proof.
  intro m. unfold parse_radial_size. apply wv_or; [apply wv_words |]. apply wv_or; [| order_; apply wv_one; solo_].
  intros p cs O. eapply tv_bind; [exact O | apply (wv_one false m); solo_ |]. intros a u q r _ Oq K. apply tv_or_peek; intros _.
  - apply tv_pmap. eapply tv_use; [exact Oq | apply (wv_one false m); solo_ |]. intros; discriminate.
  - eapply tv_use; [exact Oq | apply (wv_one false m); solo_ |]. intros l v Kl. discriminate.
Qed.
Lemma wv_radial_at : forall c d, wv c true (radial_at d).
Proof.
  intros c d p cs O. assert (X : wv c true (in_order [one (peek_kind K_Ident); or_peek peek_pos parse_position (ret [])])) by (order_; [apply wv_one; solo_ | apply wv_or; [apply wv_position | apply wv_nil]]).
  unfold radial_at. destruct (if tok_is (ctok d) K_Ident then _ else _) as [[] |]; [| apply tv_ok; [exact O | apply wr_none] | apply tv_none].
  exact (X p cs O).
Qed.
Lemma wv_radial : forall at_p, wv false true at_p -> wv false true (parse_radial at_p).
Proof.
  intros at_p Ha p cs O. unfold parse_radial. eapply tv_bind; [exact O | apply tells_if_peek; exact (wv_radial_size true) |]. intros s u1 q1 r1 _ O1 _. eapply tv_bind; [exact O1 | apply (wv_opt_words false true) |]. intros h u2 q2 r2 _ O2 _.
  assert (X : wv false true (match s, h with Some s, _ => ret s | None, [] => parse_radial_size | None, _ => ret [] end)).
  { destruct s as [s |]; [intros p' cs' O'; apply tv_ok; [exact O' | discriminate] |]. destruct h; [apply wv_radial_size | apply wv_nil]. }
  eapply tv_bind; [exact O2 | exact X |]. intros s' u3 q3 r3 _ O3 _. apply tv_pmap. assert (Y : wv false true (in_order [at_p; opt_comma; parse_stops; close_paren])) by (order_; [exact Ha | apply wv_opt_comma | apply wv_stops | apply wv_close]).
  eapply tv_use; [exact O3 | exact Y | intros; discriminate].
Qed.
Lemma wv_gradient : wv false true parse_gradient.
Proof.
  intros p cs O. unfold parse_gradient. eapply tv_bind; [exact O | apply tells_set; discriminate |]. intros x u q r _ Oq (Em & _). refine (wv_cons false true u (snd x) _ Em _ q r Oq). destruct (fst x).
  - order_; [| apply wv_stops | apply wv_close]. apply wv_or; [| apply wv_nil]. order_; [apply wv_direction | apply wv_opt_comma].
  - apply wv_radial. intros p' cs' O'. destruct (peek_n p' 1) as [d |]; [exact (wv_radial_at false d p' cs' O') | apply tv_none].
  - apply wv_radial. apply wv_radial_at.
Qed.
Lemma wv_image : wv false true parse_image.
Proof. unfold parse_image. apply wv_or; [apply wv_one; solo_ |]. apply wv_or; [exact wv_gradient |]. apply wv_function_named. order_; apply wv_one; solo_. Qed.
Lemma wv_stripe : forall c, wv c true parse_stripe.
Proof.
  intros c p cs O. unfold parse_stripe. eapply tv_bind; [exact O | apply tells_if_peek; exact (wv_color c true) |]. intros o u1 q1 r1 _ O1 K1. eapply tv_bind; [exact O1 | apply (wv_opt c true); solo_ |]. intros t u2 q2 r2 _ O2 K2. cbv beta in K2.
  destruct o as [x |]; cbv beta iota in K1.
  - eapply tv_bind; [exact O2 | apply tells_ret |]. intros x' u3 q3 r3 _ O3 (-> & ->). apply tv_pmap. eapply tv_use; [exact O3 | apply (wv_opt_comma c true) |]. intros y v Ky. cbv beta in *. cbn [app]. apply wr_cat; [exact K1 |]. apply wr_cat; [exact K2 | exact Ky].
  - subst u1. eapply tv_bind; [exact O2 | exact (wv_color c true) |]. intros x u3 q3 r3 _ O3 K3. apply tv_pmap. eapply tv_use; [exact O3 | apply (wv_opt_comma c true) |]. intros y v Ky. cbv beta in *. cbn [app].
    apply (wr_perm c true _ (t ++ x ++ y)); [apply wr_cat; [exact K2 |]; apply wr_cat; [exact K3 | exact Ky] |]. rewrite !app_assoc. apply Permutation_app_tail. apply Permutation_app_comm.
Qed.
Lemma wv_stripes_loop : forall c n, wv c true (stripes_loop n).
Proof. intros c n. induction n as [| n IH]; [intros p cs O; apply tv_none |]. cbn [stripes_loop]. apply wv_or; [apply wv_one; solo_ |]. apply wv_then; [apply wv_stripe | exact IH]. Qed.
Lemma wv_image1d : forall c, wv c true (ty_parse IMAGE_1D).
Proof. intro c. cbn [ty_parse IMAGE_1D]. apply wv_function_named. intros p cs O. exact (wv_stripes_loop c (sfuel p) p cs O). Qed.
Lemma wv_area : forall c, wv c true parse_area.
Proof.
  intro c. assert (A : forall l r e, wv c true e -> wv c true (area_second l r e)) by (intros l r e He; unfold area_second; apply wv_or; [order_; [apply wv_words | apply wv_opt_words] | exact He]).
  assert (B : forall l r e, wv c true e -> wv c true (area_swapped l r e)).
  { intros l r e He. unfold area_swapped. apply wv_or; [| exact He]. intros p cs O. eapply tv_bind; [exact O | apply (wv_words c true) |]. intros a u q rr _ Oq K. apply tv_pmap. eapply tv_use; [exact Oq | apply (wv_opt_words c true) |]. intros b v Kb. cbv beta in *.
    apply (wr_perm c true _ (a ++ b)); [apply wr_cat; assumption | apply Permutation_app_comm]. }
  unfold parse_area. repeat first [apply A | apply B]. apply t_unexpected_any.
Qed.
Lemma wv_iteration : forall c m, wv c m parse_iteration_count.
Proof.
  intros c m p cs O. unfold parse_iteration_count. destruct (peek _ p) as [b |]; [| apply tv_none]. destruct (peek_n p 1) as [d |]; [| apply tv_none]. destruct (if b then _ else _) as [[] |]; [apply (wv_one c m); [solo_ | exact O] | | apply tv_none].
  eapply tv_bind; [exact O | apply tells_single; exact (solo_solid _ (solo_float src f)) |]. intros x u q r _ Oq (e & _ & -> & Em & _). destruct (f32_lt _ _); [apply tells_fail; exact Oq |]. apply tv_ok; [exact Oq |]. rewrite app_nil_r. apply wr_is. exact Em.
Qed.
Lemma wv_repeat : forall c m, wv c m parse_repeat_style.
Proof.
  intros c m p cs O. unfold parse_repeat_style. eapply tv_bind; [exact O | apply tells_kind; discriminate |]. intros x u q r _ Oq (Em & _). cbv beta. destruct (look_up _ q x) as [[w |] |]; [| | apply tv_none].
  - apply tv_ok; [exact Oq |]. rewrite app_nil_r. apply wr_is. exact Em.
  - destruct (peek_words _ q x) as [[] |]; [| apply tells_fail_text; exact Oq | apply tv_none]. exact (wv_cons c m u x _ Em (wv_opt_words c m _) q r Oq).
Qed.
Lemma wv_mix_loop : forall c m n, wv c m (mix_loop n).
Proof.
  intros c m n. induction n as [| n IH]; intros p cs O; [apply tv_none |]. cbn [mix_loop]. destruct (p_at_end p); [apply tv_ok; [exact O | apply wr_none] |]. apply tv_or_peek; intros _; [apply (wv_one c m); [solo_ | exact O] |].
  eapply tv_bind; [exact O | apply tells_kind; discriminate |]. intros x u q r _ Oq (Em & _). eapply tv_bind; [exact Oq | apply tells_single; exact (solo_solid _ (solo_percent src f)) |]. intros y u2 q2 r2 _ O2 (d & _ & -> & Em2 & _). destruct (negb _); [apply tells_fail; exact O2 |].
  eapply tv_bind; [exact O2 | apply (wv_opt_comma c m) |]. intros z u3 q3 r3 _ O3 K3. apply tv_pmap. eapply tv_use; [exact O3 | exact IH |]. intros t v Kt. cbv beta in *.
  apply (wr_cat _ _ _ [x] _ _ (wr_is c m _ _ Em)). apply (wr_cat _ _ _ [d] _ _ (wr_is c m _ _ Em2)). apply wr_cat; [exact K3 | exact Kt].
Qed.
Lemma wv_feature : forall c m, wv c m (ty_parse ANIMATEABLE_FEATURE).
Proof.
  intros c m p cs O. cbn [ty_parse ANIMATEABLE_FEATURE]. apply tv_pmap. eapply tv_use; [exact O | apply tells_built; apply solid_kind; discriminate |]. intros x u (d & p' & q' & Em & _ & _ & B & _). cbv beta. destruct (look_up _ q' d); [| discriminate]. cbn [option_map] in B. injection B as <-. apply wr_is. exact Em.
Qed.
Lemma wv_calc_size : forall c m, wv c m (ty_parse CALC_SIZE).
Proof. intros c m p cs O. cbn [ty_parse CALC_SIZE]. eapply tv_bind; [exact O | apply tells_kind; discriminate |]. intros; apply tv_none. Qed.
Lemma wv_snap : forall c m name l, wv c m (ty_parse (snap_ty name l)).
Proof. intros c m name l. cbn [ty_parse snap_ty]. apply wv_function_of. order_; [apply wv_one; solo_ | apply wv_opt_comma | apply wv_opt_words]. Qed.

(* ---- what the macro generates ---- *)
Section Generated.
Variable env : text -> option ty.
(* of each type: whether its values keep every token, whether they may be written in another order *)
Variables tc tm : dtype -> bool.
Hypothesis named_told : forall t x, type_named leaf_ty env t = Some x -> wv (tc t) (tm t) (ty_parse x).
Fixpoint def_types (d : def) : list dtype :=
  match d with
  | DType t => [t]
  | DFunction _ d | DOptional d | DGroup d _ | DMult d _ => def_types d
  | DComb l _ => flat_map def_types l
  | DIdent _ | DPunct _ => []
  end.
Definition fits (c m : bool) (t : dtype) : Prop := (c = true -> tc t = true) /\ (tm t = true -> m = true).
Lemma named_fits : forall c m t x, type_named leaf_ty env t = Some x -> fits c m t -> wv c m (ty_parse x).
Proof. intros c m t x E (F1 & F2). apply (wv_weak (tc t) (tm t)); [exact (named_told t x E) | exact F1 | exact F2]. Qed.
Lemma wv_range : forall c m r l u p cs, wr c m u l -> onto p cs -> tv cs (fun l v => wr c m (u ++ v) l) (range_check r l p).
Proof.
  intros c m r l u p cs W O. assert (X : tv cs (fun l v => wr c m (u ++ v) l) (ret l p)) by (apply tv_ok; [exact O | rewrite app_nil_r; exact W]). unfold range_check. destruct r; try exact X; destruct (f32_lt _ _); first [exact X | apply tells_fail; exact O].
Qed.
Lemma steps_told : forall c m t q, type_steps leaf_ty env t = Some q -> fits c m t -> wv c m q.
Proof.
  intros c m t q E F. unfold type_steps in E. destruct (range_compiles _); [| discriminate]. destruct (type_named leaf_ty env t) as [x |] eqn:Ex; [| discriminate]. apply some_inj in E. subst q.
  intros p cs O. eapply tv_bind; [exact O | exact (named_fits c m t x Ex F) |]. intros l u q r _ Oq K. exact (wv_range c m _ l u q r K Oq).
Qed.
Lemma alternative_told : forall c m d q, alternative_steps leaf_ty env d = Some q -> Forall (fits c m) (def_types d) -> wv c m q.
Proof.
  intros c m d q E F. destruct d as [w | w d | t | d | l s | d s | d x | ch]; cbn [alternative_steps def_types] in *; try discriminate.
  - destruct d as [| | t | | | | d x |]; try discriminate.
    + destruct (type_steps leaf_ty env t) as [x |] eqn:Ex; [| discriminate]. apply some_inj in E. subst q. apply wv_function_of. cbn [def_types] in F. exact (steps_told c m t x Ex (Forall_inv F)).
    + destruct d as [| | t | | | | |]; try discriminate. destruct x as [| | [] |]; try discriminate. destruct (type_steps leaf_ty env t) as [x |] eqn:Ex; [| discriminate]. apply some_inj in E. subst q. apply wv_function_of. apply wv_comma. exact (steps_told c m t x Ex (Forall_inv F)).
  - exact (steps_told c m t q E (Forall_inv F)).
  - destruct d as [| | t | | | | |]; try discriminate. cbn [def_types] in F. destruct x as [| | [] | []]; try discriminate; destruct (type_steps leaf_ty env t) as [x |] eqn:Ex; try discriminate; apply some_inj in E; subst q.
    + apply wv_comma. exact (steps_told c m t x Ex (Forall_inv F)).
    + apply wv_order. apply Forall_forall. intros y Iy. apply repeat_spec in Iy. subst y. exact (steps_told c m t x Ex (Forall_inv F)).
Qed.
(* stripes() after a colour: no function comes that far *)
Definition fits_after (c m : bool) (d : def) : Prop := match d with DType DImage1D => True | _ => Forall (fits c m) (def_types d) end.
Fixpoint fits_all (c m : bool) (l : list def) : Prop :=
  match l with
  | [] => True
  | d :: r => Forall (fits c m) (def_types d) /\ match d with DType DColor => Forall (fits_after c m) r | _ => fits_all c m r end
  end.
Lemma one_of_after_told : forall c m l ks ms, Forall (fits_after c m) l -> all_some (map (def_peek leaf_ty env) l) = Some ks -> all_some (map (alternative_steps leaf_ty env) l) = Some ms ->
  forall p cs, onto p cs -> (forall d, peek_next p = Some d -> tok_is (ctok d) K_Function = false) -> tv cs (fun l u => wr c m u l) (one_of (List.combine ks ms) p).
Proof.
  intros c m l. induction l as [| d l IH]; intros ks ms F Ek Em p cs O N.
  - apply some_inj in Ek, Em. subst ks ms. cbn [List.combine one_of]. apply t_unexpected_any. exact O.
  - cbn [map] in Ek, Em. destruct (all_some_cons _ _ _ _ Ek) as (k & ks' & Ek1 & Ek2 & ->). destruct (all_some_cons _ _ _ _ Em) as (q & ms' & Em1 & Em2 & ->). cbn [List.combine one_of]. pose proof (Forall_inv F) as F1. pose proof (Forall_inv_tail F) as F2.
    apply tv_or_peek; intro Pk; [| exact (IH ks' ms' F2 Ek2 Em2 p cs O N)].
    assert (X : d = DType DImage1D \/ Forall (fits c m) (def_types d)) by (unfold fits_after in F1; destruct d as [| | [] | | | | |]; auto).
    destruct X as [-> | X]; [| exact (alternative_told c m d q Em1 X p cs O)]. exfalso. cbn [def_peek type_named leaf_ty option_map] in Ek1. apply some_inj in Ek1. subst k. unfold peek in Pk. destruct (peek_next p) as [d |]; [| discriminate]. specialize (N d eq_refl).
    cbn [ty_peek IMAGE_1D] in Pk. unfold peek_named in Pk. rewrite N in Pk. discriminate.
Qed.
Lemma color_no_function : forall p, peek peek_color p = Some false -> forall d, peek_next p = Some d -> tok_is (ctok d) K_Function = false.
Proof.
  intros p Pk d E. unfold peek in Pk. rewrite E in Pk. unfold peek_color in Pk. cbn [any_peek] in Pk. unfold peek_kind in Pk. destruct (tok_is (ctok d) K_Hash); [discriminate |]. destruct (tok_is (ctok d) K_Function); [discriminate | reflexivity].
Qed.
Lemma one_of_told : forall c m l ks ms, fits_all c m l -> all_some (map (def_peek leaf_ty env) l) = Some ks -> all_some (map (alternative_steps leaf_ty env) l) = Some ms -> wv c m (one_of (List.combine ks ms)).
Proof.
  intros c m l. induction l as [| d l IH]; intros ks ms F Ek Em p cs O.
  - apply some_inj in Ek, Em. subst ks ms. cbn [List.combine one_of]. apply t_unexpected_any. exact O.
  - cbn [map] in Ek, Em. destruct (all_some_cons _ _ _ _ Ek) as (k & ks' & Ek1 & Ek2 & ->). destruct (all_some_cons _ _ _ _ Em) as (q & ms' & Em1 & Em2 & ->). cbn [List.combine one_of]. cbn [fits_all] in F. destruct F as (F1 & F2).
    apply tv_or_peek; intro Pk; [exact (alternative_told c m d q Em1 F1 p cs O) |].
    assert (X : d = DType DColor \/ fits_all c m l) by (destruct d as [| | [] | | | | |]; auto).
    destruct X as [-> | X]; [| exact (IH ks' ms' X Ek2 Em2 p cs O)]. apply (one_of_after_told c m l ks' ms' F2 Ek2 Em2 p cs O). apply color_no_function. cbn [def_peek type_named leaf_ty option_map] in Ek1. apply some_inj in Ek1. subst k. exact Pk.
Qed.
Lemma alternatives_told : forall c m l q, fits_all c m (filter (fun d => negb (is_keyword d)) l) -> alternatives leaf_ty env l = Some q -> wv c m q.
Proof.
  intros c m l q F E. unfold alternatives in E. set (others := filter (fun d => negb (is_keyword d)) l) in *.
  destruct (all_some (map (def_peek leaf_ty env) others)) as [ks |] eqn:Ek; [| discriminate]. destruct (all_some (map (alternative_steps leaf_ty env) others)) as [ms |] eqn:Em; [| discriminate].
  set (rest := if takes_custom l then one (peek_kind K_Ident) else match ms with [] => unexpected_ident | [m] => m | _ => one_of (List.combine ks ms) end) in *.
  assert (R : wv c m rest).
  { subst rest. destruct (takes_custom l); [apply wv_one; solo_ |]. destruct ms as [| m1 [| m2 ms]]; [apply t_unexpected_ident | | exact (one_of_told c m others ks _ F Ek Em)].
    destruct others as [| d [| d2 r]] eqn:Eo; [discriminate | |].
    - cbn [map all_some] in Em. destruct (alternative_steps leaf_ty env d) as [m1' |] eqn:Ed; [| discriminate]. injection Em as ->. cbn [fits_all] in F. exact (alternative_told c m d m1 Ed (proj1 F)).
    - cbn [map all_some] in Em. destruct (alternative_steps leaf_ty env d); [| discriminate]. destruct (alternative_steps leaf_ty env d2); [| discriminate]. clear - Em. destruct (all_some _); cbn [option_map] in Em; discriminate Em. }
  destruct (existsb is_keyword l); [| apply some_inj in E; subst q; exact R]. destruct (keywords_of l) as [| w ws]; [discriminate |]. apply some_inj in E. subst q.
  intros p cs O. eapply tv_bind; [exact O | apply tells_if_peek, tells_set; discriminate |]. intros [x |] u q r _ Oq K; cbv beta iota in K.
  - apply tv_ok; [exact Oq |]. rewrite app_nil_r. destruct K as (Em' & _). apply wr_is. exact Em'.
  - subst u. cbn [app]. exact (R q r Oq).
Qed.
Lemma field_told : forall c m d q, field_steps leaf_ty env d = Some q -> Forall (fits c m) (def_types d) -> wv c m q.
Proof.
  intros c m d q E F. destruct d as [w | w d | t | d | l s | d s | d x | ch]; cbn [field_steps def_types] in *; try discriminate; [exact (steps_told c m t q E (Forall_inv F)) |].
  destruct d as [| | t | | | | |]; try discriminate. destruct (type_named leaf_ty env t) as [x |] eqn:Ex; [| discriminate]. apply some_inj in E. subst q. unfold if_ty. apply wv_or; [exact (named_fits c m t x Ex (Forall_inv F)) | apply wv_nil].
Qed.
Lemma ordered_told : forall c m l t, ordered_ty leaf_ty env l = Some t -> Forall (fun d => Forall (fits c m) (def_types d)) l -> wv c m (ty_parse t).
Proof.
  intros c m l t E F. unfold ordered_ty in E. destruct l as [| d l]; [discriminate |]. destruct (all_some (map (field_steps leaf_ty env) (d :: l))) as [ms |] eqn:Em; [| discriminate]. destruct (def_peek leaf_ty env d) as [k |]; [| discriminate]. apply some_inj in E. subst t. cbn [ty_parse].
  apply wv_order. apply Forall_forall. intros q Iq. pose proof (all_some_in _ _ _ Em q Iq) as X. apply in_map_iff in X. destruct X as (e & Ee & Ie). rewrite Forall_forall in F. exact (field_told c m e q Ee (F e Ie)).
Qed.
(* each empty field whose type peeks is filled; what has been read are the fields, in another order *)
Lemma fill_told : forall c l, Forall (fun x => wv c true (ty_parse (fst x))) l ->
  tells (fill_field l) (fun o u => match o with Some l' => Forall (fun x => wv c true (ty_parse (fst x))) l' /\ exists v, wr c true u v /\ Permutation (v ++ field_cursors l) (field_cursors l') | None => u = [] end).
Proof.
  intros c l F. induction F as [| (t & o) l G F IH]; cbn [fill_field]; [intros p cs O; apply tv_ok; [exact O | reflexivity] |]. cbn [fst] in G.
  assert (N : forall x, tells (pmap (option_map (cons (t, x))) (fill_field l)) (fun o u => match o with Some l' => Forall (fun x => wv c true (ty_parse (fst x))) l' /\ exists v, wr c true u v /\ Permutation (v ++ field_cursors ((t, x) :: l)) (field_cursors l') | None => u = [] end)).
  { intros x p cs O. apply tv_pmap. eapply tv_use; [exact O | exact IH |]. intros [l' |] u K; cbn [option_map]; [| exact K]. destruct K as (F' & v & Kv & Pm). split; [apply Forall_cons; [exact G | exact F'] |]. exists v. split; [exact Kv |].
    change (field_cursors ((t, x) :: l)) with ((match x with Some cs => cs | None => [] end) ++ field_cursors l). change (field_cursors ((t, x) :: l')) with ((match x with Some cs => cs | None => [] end) ++ field_cursors l').
    rewrite app_assoc. eapply Permutation_trans; [apply Permutation_app_tail; apply Permutation_app_comm |]. rewrite <- app_assoc. apply Permutation_app_head. exact Pm. }
  destruct o as [d |]; [exact (N (Some d)) |]. intros p cs O. apply tv_or_peek; intros _; [| exact (N None p cs O)]. apply tv_pmap. eapply tv_use; [exact O | exact G |]. intros a u K. cbv beta in K. split; [apply Forall_cons; assumption |]. exists a. split; [exact K |]. apply Permutation_refl.
Qed.
Lemma options_told : forall c n l, Forall (fun x => wv c true (ty_parse (fst x))) l -> tells (options_loop n l) (fun out u => exists v, wr c true u v /\ Permutation (v ++ field_cursors l) out).
Proof.
  intros c n. induction n as [| n IH]; intros l F p cs O; [apply tv_none |]. cbn [options_loop]. eapply tv_bind; [exact O | exact (fill_told c l F) |]. intros o u q r _ Oq K. destruct o as [l' |]; cbv beta iota in K.
  - destruct K as (F' & v & Kv & Pm). eapply tv_use; [exact Oq | exact (IH l' F') |]. intros out w (x & Kx & Px). exists (v ++ x). split; [apply wr_cat; assumption |]. eapply Permutation_trans; [| exact Px].
    rewrite <- app_assoc. eapply Permutation_trans; [apply Permutation_app_swap_app |]. apply Permutation_app_head. exact Pm.
  - subst u. destruct (forallb _ l); [apply t_unexpected_any; exact Oq |]. apply tv_ok; [exact Oq |]. exists []. split; [apply wr_none | apply Permutation_refl].
Qed.
Lemma any_order_told : forall c l, Forall (fun t => wv c true (ty_parse t)) l -> wv c true (in_any_order l).
Proof.
  intros c l F. unfold in_any_order. eapply tells_imp; [apply (options_told c) |].
  - apply Forall_forall. intros x Ix. apply in_map_iff in Ix. destruct Ix as (t & <- & It). rewrite Forall_forall in F. exact (F t It).
  - intros out u (v & Kv & Pm). apply (wr_perm _ _ _ _ _ Kv). eapply Permutation_trans; [| exact Pm]. replace (field_cursors _) with (@nil cursor); [rewrite app_nil_r; apply Permutation_refl |]. unfold field_cursors. clear. induction l as [| t l IH]; [reflexivity |]. cbn [map flat_map snd app]. exact IH.
Qed.
(* when a definition's values keep every token, and keep their order *)
Definition def_fits (c m : bool) (d : def) : Prop :=
  match d with
  | DComb l SAlternatives => fits_all c m (filter (fun d => negb (is_keyword d)) l)
  | DComb l SOptions => m = true /\ Forall (fits c m) (def_types d)
  | _ => Forall (fits c m) (def_types d)
  end.
Lemma generate_told : forall c m d t, generate leaf_ty env d = Some t -> def_fits c m d -> wv c m (ty_parse t).
Proof.
  intros c m d t E F. destruct d as [w | w d | t' | d | l s | d s | d x | ch]; cbn [generate] in E; try discriminate.
  - destruct (def_peek leaf_ty env (DType t')); [| discriminate]. destruct (type_steps leaf_ty env t') as [q |] eqn:Em; [| discriminate]. apply some_inj in E. subst t. exact (steps_told c m t' q Em (Forall_inv F)).
  - destruct s; try discriminate; cbn [def_fits] in F.
    + apply (ordered_told c m l t E). apply Forall_forall. intros d Id. apply Forall_forall. intros t' It. rewrite Forall_forall in F. apply F. cbn [def_types]. apply in_flat_map. eauto.
    + destruct F as (-> & F). match type of E with match ?X with _ => _ end = _ => destruct X as [ts |] eqn:Et; [| discriminate] end. apply some_inj in E. subst t. cbn [ty_parse]. apply any_order_told. apply Forall_forall. intros x Ix.
      pose proof (all_some_in _ _ _ Et x Ix) as X. apply in_map_iff in X. destruct X as (e & Ee & Ie). destruct e; try discriminate. apply (named_fits c true t x Ee). rewrite Forall_forall in F. apply F. cbn [def_types]. apply in_flat_map. exists (DType t). split; [exact Ie | now left].
    + destruct (all_some (map (def_peek leaf_ty env) l)) as [ks |]; [| discriminate]. destruct (alternatives leaf_ty env l) as [q |] eqn:Em; [| discriminate]. apply some_inj in E. subst t. exact (alternatives_told c m l q F Em).
  - destruct d as [| | t' | | | | |]; try discriminate. cbn [def_fits def_types] in F. apply Forall_inv in F. destruct x as [| | [] | []]; try discriminate.
    + destruct (def_peek leaf_ty env (DType t')); [| discriminate]. destruct (type_steps leaf_ty env t') as [q |] eqn:Em; [| discriminate]. apply some_inj in E. subst t. apply wv_comma. exact (steps_told c m t' q Em F).
    + apply (ordered_told c m _ t E). apply Forall_forall. intros y Iy. unfold copies in Iy. apply in_app_or in Iy. destruct Iy as [Iy | Iy]; apply repeat_spec in Iy; subst y; cbn [def_types]; apply Forall_cons; [exact F | apply Forall_nil | exact F | apply Forall_nil].
    + apply (ordered_told c m _ t E). apply Forall_forall. intros y Iy. apply repeat_spec in Iy. subst y. cbn [def_types]. apply Forall_cons; [exact F | apply Forall_nil].
Qed.
End Generated.
End Logic.

(* ---- the table ---- *)
Definition POSITION_AREA_NAME : text := chars "PositionArea".
Section Classes.
Variables kept_name mixed_name : text -> bool.
Definition kept_type (t : dtype) : bool := match t with DImage => false | DCustom w => kept_name w | _ => true end.
Definition mixed_type (t : dtype) : bool := match t with DImage | DImage1D => true | DCustom w => mixed_name w | _ => false end.
Fixpoint mixed_alternatives (l : list def) : bool :=
  match l with
  | [] => false
  | d :: r =>
      existsb mixed_type (def_types d) ||
      match d with
      | DType DColor => existsb (fun d => match d with DType DImage1D => false | _ => existsb mixed_type (def_types d) end) r
      | _ => mixed_alternatives r
      end
  end.
Definition kept_def (d : def) : bool := forallb kept_type (def_types d).
Definition mixed_def (d : def) : bool :=
  match d with
  | DComb l SAlternatives => mixed_alternatives (filter (fun d => negb (is_keyword d)) l)
  | DComb _ SOptions => true
  | _ => existsb mixed_type (def_types d)
  end.
Lemma fits_of : forall c m l, (c = true -> forallb kept_type l = true) -> (existsb mixed_type l = true -> m = true) -> Forall (fits kept_type mixed_type c m) l.
Proof.
  intros c m l Hc Hm. apply Forall_forall. intros t It. split.
  - intro E. specialize (Hc E). rewrite forallb_forall in Hc. exact (Hc t It).
  - intro E. apply Hm. apply existsb_exists. eauto.
Qed.
Lemma def_fits_of : forall d, def_fits kept_type mixed_type (kept_def d) (mixed_def d) d.
Proof.
  intro d. assert (G : forall m, (existsb mixed_type (def_types d) = true -> m = true) -> Forall (fits kept_type mixed_type (kept_def d) m) (def_types d)) by (intros m Hm; apply fits_of; [intro X; exact X | exact Hm]).
  destruct d as [w | w d | t' | d | l s | d s | d x | ch]; try (apply G; intro X; exact X). destruct s; try (apply G; intro X; exact X); [split; [reflexivity | apply G; reflexivity] |].
  cbn [def_fits mixed_def]. assert (K : kept_def (DComb l SAlternatives) = true -> forallb (fun d => forallb kept_type (def_types d)) (filter (fun d => negb (is_keyword d)) l) = true).
  { intro X. apply forallb_forall. intros d Id. apply filter_In in Id. apply forallb_forall. intros t It. unfold kept_def in X. rewrite forallb_forall in X. apply X. cbn [def_types]. apply in_flat_map. exists d. split; [apply Id | exact It]. }
  generalize dependent (kept_def (DComb l SAlternatives)). intros c _ K. generalize dependent (filter (fun d => negb (is_keyword d)) l). clear. intro l. induction l as [| d l IH]; intro K; [exact Logic.I |]. cbn [fits_all mixed_alternatives]. cbn [forallb] in K.
  assert (K1 : c = true -> forallb kept_type (def_types d) = true) by (intro X; specialize (K X); apply andb_prop in K; apply K). assert (K2 : c = true -> forallb (fun d => forallb kept_type (def_types d)) l = true) by (intro X; specialize (K X); apply andb_prop in K; apply K).
  split; [apply fits_of; [exact K1 | intro X; rewrite X; reflexivity] |]. specialize (IH K2).
  assert (W : forall m l, (mixed_alternatives l = true -> m = true) -> fits_all kept_type mixed_type c (mixed_alternatives l) l -> fits_all kept_type mixed_type c m l).
  { clear. intros m l Hm. assert (G : forall m0, (m0 = true -> m = true) -> fits_all kept_type mixed_type c m0 l -> fits_all kept_type mixed_type c m l); [| apply G; exact Hm]. clear. intros m0 Hm. assert (F : forall t, fits kept_type mixed_type c m0 t -> fits kept_type mixed_type c m t) by (intros t (X & Y); split; auto).
    induction l as [| d l IH]; [auto |]. cbn [fits_all]. intros (X & Y). split; [eapply Forall_impl; [exact F | exact X] |]. destruct d as [| | [] | | | | |]; auto. eapply Forall_impl; [| exact Y]. intros e Z. unfold fits_after in *. destruct e as [| | [] | | | | |]; auto; exact (Forall_impl _ F Z). }
  assert (X : d = DType DColor \/ (match d with DType DColor => existsb (fun d => match d with DType DImage1D => false | _ => existsb mixed_type (def_types d) end) l | _ => mixed_alternatives l end = mixed_alternatives l /\ forall P Q : Prop, match d with DType DColor => P | _ => Q end = Q)) by (destruct d as [| | [] | | | | |]; auto).
  destruct X as [-> | (X1 & X2)].
  - apply Forall_forall. intros e Ie. assert (Y : e = DType DImage1D \/ Forall (fits kept_type mixed_type c (existsb mixed_type (def_types (DType DColor)) || existsb (fun d => match d with DType DImage1D => false | _ => existsb mixed_type (def_types d) end) l)) (def_types e)).
    { assert (Z : e = DType DImage1D \/ (match e with DType DImage1D => false | _ => existsb mixed_type (def_types e) end) = existsb mixed_type (def_types e)) by (destruct e as [| | [] | | | | |]; auto). destruct Z as [-> | Z]; [auto |]. right. apply fits_of.
      - intro X. specialize (K2 X). rewrite forallb_forall in K2. exact (K2 e Ie).
      - intro X. apply orb_true_iff. right. apply existsb_exists. exists e. split; [exact Ie |]. rewrite Z. exact X. }
    destruct Y as [-> | Y]; [exact Logic.I |]. unfold fits_after. destruct e as [| | [] | | | | |]; auto.
  - rewrite X2, X1. apply W; [intro Y; rewrite Y; apply orb_true_r | exact IH].
Qed.
End Classes.
(* of a type by its Rust name, definitions naming each other at most [n] deep *)
Fixpoint kept_at (n : nat) (name : text) : bool :=
  match map_get NAMED_TYPES name with
  | Some _ => true
  | None => match n with O => true | S n => match map_get VALUE_DEFS name with Some (Some d) => kept_def (kept_at n) d | _ => true end end
  end.
Fixpoint mixed_at (n : nat) (name : text) : bool :=
  match map_get NAMED_TYPES name with
  | Some _ => text_eqb name POSITION_AREA_NAME
  | None => match n with O => false | S n => match map_get VALUE_DEFS name with Some (Some d) => mixed_def (mixed_at n) d | _ => false end end
  end.
Lemma leaf_told : forall src f kn mn t, (forall w, t <> DCustom w) -> wv src f (kept_type kn t) (mixed_type mn t) (ty_parse (leaf_ty t)).
Proof.
  intros src f kn mn t N. destruct t; cbn [leaf_ty kept_type mixed_type]; try (apply wv_one).
  - apply solo_length.
  - apply solo_lp.
  - apply solo_angle.
  - apply solo_time.
  - apply solo_set; [constructor | discriminate].
  - apply solo_int.
  - apply solo_float.
  - apply solo_float.
  - apply wv_color.
  - apply solo_kind. discriminate.
  - apply wv_image.
  - apply wv_image1d.
  - apply solo_dashed.
  - apply solo_kind. discriminate.
  - elim (N name). reflexivity.
Qed.
Ltac named_told src f := lazymatch goal with
  | |- wv _ _ _ _ (ty_parse (words_ty _)) => apply wv_words
  | |- wv _ _ _ _ (ty_parse (snap_ty _ _)) => apply wv_snap
  | |- wv _ _ _ _ (ty_parse POSITION_AREA) => apply wv_area
  | |- wv _ _ _ _ (ty_parse ITERATION_COUNT) => apply wv_iteration
  | |- wv _ _ _ _ (ty_parse REPEAT_STYLE) => apply wv_repeat
  | |- wv _ _ _ _ (ty_parse RANGE_LIMIT_MIX) => apply wv_function_named; let p := fresh in let cs := fresh in let O := fresh in intros p cs O; exact (wv_mix_loop src f _ _ (sfuel p) p cs O)
  | |- wv _ _ _ _ (ty_parse ANIMATEABLE_FEATURE) => apply wv_feature
  | |- wv _ _ _ _ (ty_parse CALC_SIZE) => apply wv_calc_size
  | |- wv _ _ _ _ (ty_parse OPACITY) => apply wv_one; apply solo_opacity
  | |- wv _ _ _ _ (ty_parse (token_ty peek_dashed_ident)) => apply wv_one; apply solo_dashed
  | |- wv _ _ _ _ (ty_parse LINE_WIDTH) => apply wv_one; apply solo_any; apply Forall_cons; [apply solo_length | apply Forall_cons; [apply solo_words | apply Forall_nil]]
  end.
Lemma named_types_told : forall src f, Forall (fun x => wv src f true (text_eqb (fst x) POSITION_AREA_NAME) (ty_parse (snd x))) NAMED_TYPES.
Proof.
  intros src f. unfold NAMED_TYPES. cbn [map fst snd].
  repeat (apply Forall_cons; [cbn [fst snd]; named_told src f |]).
  apply Forall_nil.
Qed.
Lemma value_told : forall src f n name t, value_ty n name = Some t -> wv src f (kept_at n name) (mixed_at n name) (ty_parse t).
Proof.
  intros src f n. induction n as [| n IH]; intros name t E; cbn [value_ty] in E; cbn [kept_at mixed_at]; destruct (map_get NAMED_TYPES name) as [x |] eqn:En.
  - apply some_inj in E. subst x. pose proof (named_types_told src f) as X. rewrite Forall_forall in X. exact (X _ (map_get_in _ _ _ _ En)).
  - discriminate.
  - apply some_inj in E. subst x. pose proof (named_types_told src f) as X. rewrite Forall_forall in X. exact (X _ (map_get_in _ _ _ _ En)).
  - destruct (map_get VALUE_DEFS name) as [[d |] |]; try discriminate.
    apply (generate_told src f (value_ty n) (kept_type (kept_at n)) (mixed_type (mixed_at n))) with (d := d); [| exact E | apply def_fits_of].
    intros t' x Et. assert (X : (exists w, t' = DCustom w) \/ (forall w, t' <> DCustom w)) by (destruct t'; try (right; discriminate); left; eauto). destruct X as [(w & ->) | X]; [cbn [type_named kept_type mixed_type] in *; exact (IH w x Et) |].
    replace x with (leaf_ty t'); [apply leaf_told; exact X |]. destruct t'; cbn [type_named] in Et; try (apply some_inj in Et; exact Et). elim (X name0). reflexivity.
Qed.
