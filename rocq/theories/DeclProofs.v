(* Proofs about declarations (C60). *)
From Coq Require Import ZifyBool ZifyNat ZifyN Permutation.
From Coq Require Import String.
From Coq Require Import List.
From Verif Require Import AstSheet Values SpecSheet SpecLex SpecTrace SpecParser SpecSyntax SpecTraits SpecRules SpecFeatures SpecCursor SpecToken LexBase TokenProofs KindProofs LexFacts LexTrace CursorProofs CursorLex
  ParserProofs ParserProofs2 ParserProofs3 ParserProofs4 CompareProofs SyntaxProofs SyntaxTotal TraitsTotal RulesTotal FeatureProofs FaithProofs FaithTraits FaithRules Goes Goes2 Goes3 SheetTotal ValuesTotal Tells Tells2 Tells3 Tells4 ValuesTold SpecValues SpecConforms ValuesConform PropValues3 SpecDecl.
From Verif Require Import Keeps.
From Verif Require SelectorGoes.
Open Scope N_scope.
Open Scope list_scope.
Notation length := List.length.

(* ---- the next token ---- *)
Lemma peek_split : forall p cs, ahead (plex p) cs -> exists sk rest, cs = sk ++ rest /\ Forall (in_kinds (pskip p)) sk /\ stops_skip (pskip p) rest /\ peek_next p = Some (hd_or_eof (plex p) rest).
Proof.
  intros p cs A. destruct (skip_split (pskip p) cs) as (sk & rest & E & F & St). exists sk, rest. repeat (split; [assumption |]). rewrite E in A. exact (peek_next_spec p sk rest A F St).
Qed.
Lemma peek_one : forall p cs, ahead (plex p) cs -> peek_n p 1 = peek_next p.
Proof.
  intros p cs A. destruct (peek_split p cs A) as (sk & rest & -> & F & St & ->). rewrite (peek_n_spec p _ 1 A) by lia. rewrite (kept_skipped _ _ _ F), (kept_stop _ _ St). destruct rest as [| c rest]; [| reflexivity]. reflexivity.
Qed.
Lemma head_bare : forall src f p cs c, onto src f p cs -> peek_next p = Some c -> lasts c -> exists r, bare cs = c :: r.
Proof.
  intros src f p cs c (_ & _ & A & T) E (N & W & C). destruct (peek_split p cs A) as (sk & rest & -> & F & St & E'). rewrite E in E'. apply some_inj in E'. destruct rest as [| d rest]; cbn [hd_or_eof] in E'; [elim N; rewrite E'; reflexivity |]. subst d.
  rewrite bare_app, (bare_trivia _ _ T F). cbn [app]. change (c :: rest) with ([c] ++ rest). rewrite bare_app, bare_one by (split; auto). exists (bare rest). reflexivity.
Qed.
Lemma trivia_kinds : forall k, kindset_contains KS_TRIVIA k = true <-> k = K_Whitespace \/ k = K_Comment.
Proof. intro k. unfold KS_TRIVIA. rewrite kindset_new_spec. cbn [In]. intuition. Qed.
(* when whitespace and comments are skipped, it is the first one that counts *)
Lemma peek_bare : forall src f p cs, onto src f p cs -> pskip p = KS_TRIVIA -> exists c, peek_next p = Some c /\ match bare cs with [] => ctok c = T_EOF | d :: _ => c = d /\ lasts d end.
Proof.
  intros src f p cs (_ & _ & A & T) Sk. destruct (peek_split p cs A) as (sk & rest & E & F & St & Pn). subst cs. exists (hd_or_eof (plex p) rest). split; [exact Pn |]. rewrite bare_app, (bare_trivia _ _ T F). cbn [app]. destruct rest as [| c rest]; [reflexivity |]. cbn [hd_or_eof stops_skip] in *.
  assert (L : lasts c).
  { split; [apply (ahead_kind _ _ A); apply in_or_app; right; left; reflexivity |]. unfold in_kinds in St. rewrite Sk in St. split; intro K; apply St; apply trivia_kinds; unfold kind_of in K; auto. }
  change (c :: rest) with ([c] ++ rest). rewrite bare_app, bare_one by exact L. cbn [app]. split; [reflexivity | exact L].
Qed.

Section Decl.
Variable src : text.
Variable f : feature.
Notation tells := (tells src f).
Notation onto := (onto src f).
Notation tv := (tv src f).

Lemma computed_spec : forall p c, lsrc (plex p) = src -> kind_of c <> K_Eof -> peek_computed p c = Some true -> computed_function src c.
Proof.
  intros p c Sr N E. unfold peek_computed, peek_set in E. destruct (tok_is (ctok c) K_Function) eqn:T; [| discriminate]. unfold look_up in E. rewrite Sr in E. destruct (parse_str_lower c src) as [w |] eqn:W; [| discriminate]. destruct (map_get (words COMPUTED_FUNCTIONS) w) as [v |] eqn:M; [| discriminate].
  split; [exact (kind_is c _ N T) |]. exists w. split; [| exact W]. apply map_get_in in M. unfold words in M. apply in_map_iff in M. destruct M as (x & E1 & I). pose proof (f_equal fst E1) as X. cbn [fst] in X. subst x. exact I.
Qed.
Lemma computed_at : forall p cs, onto p cs -> peek peek_computed p = Some true -> exists c r, bare cs = c :: r /\ computed_function src c.
Proof.
  intros p cs O E. unfold peek in E. destruct (peek_next p) as [c |] eqn:Pn; [| discriminate]. assert (N : kind_of c <> K_Eof).
  { intro K. unfold peek_computed, peek_set in E. destruct (tok_is (ctok c) K_Function) eqn:T; [| discriminate]. destruct (peek_split p cs (proj1 (proj2 (proj2 O)))) as (sk & rest & Ec & _ & _ & E'). rewrite Pn in E'. apply some_inj in E'. destruct rest as [| d rest]; cbn [hd_or_eof] in E'; subst c; [simpl ctok in T; rewrite tok_is_eof in T by discriminate; discriminate |].
    destruct O as (_ & _ & A & _). apply (ahead_kind _ _ A d); [rewrite Ec; apply in_or_app; right; left; reflexivity | exact K]. }
  pose proof (computed_spec p c (proj1 O) N E) as X. destruct (head_bare src f p cs c O Pn) as (r & Eb); [destruct X as (X & _); unfold lasts; rewrite X; repeat split; discriminate |]. exists c, r. auto.
Qed.
Lemma ends_spec : forall p cs, onto p cs -> value_ends p = Some true -> may_end (bare cs).
Proof.
  intros p cs O E. pose proof O as (_ & _ & A & _). unfold value_ends in E. destruct (p_at_end p) eqn:Pe; [destruct (at_end_stuck p cs A Pe) as (_ & ->); exact Logic.I |].
  rewrite (peek_one p cs A) in E. destruct (peek_split p cs A) as (sk & rest & Ec & _ & _ & Pn). unfold peek in E. rewrite Pn in E. destruct rest as [| c rest]; cbn [hd_or_eof] in *.
  { simpl ctok in E. replace (tok_in T_EOF KS_RIGHT_CURLY_OR_SEMICOLON) with false in E by (vm_compute; reflexivity). unfold peek_delim in E. simpl ctok in E. rewrite tok_is_eof in E by discriminate. discriminate. }
  assert (N : kind_of c <> K_Eof) by (apply (ahead_kind _ _ A); rewrite Ec; apply in_or_app; right; left; reflexivity).
  assert (X : kind_of c = K_Semicolon \/ kind_of c = K_RightCurly \/ is_delim 33 c).
  { destruct (tok_in (ctok c) KS_RIGHT_CURLY_OR_SEMICOLON) eqn:T.
    - apply in_kinds_tok in T; [| exact N]. unfold in_kinds, KS_RIGHT_CURLY_OR_SEMICOLON in T. apply kindset_new_spec in T. cbn [In] in T. unfold kind_of. intuition.
    - unfold peek_delim in E. apply some_inj in E. right. right. exact (delim_is c 33 N E). }
  destruct (head_bare src f p cs c O Pn) as (r & ->); [destruct X as [X | [X | (X & _)]]; unfold lasts, kind_of in *; rewrite X; repeat split; discriminate |]. exact X.
Qed.

Lemma d_free : tells parse_free_value (fun _ _ => True).
Proof. eapply tells_imp; [exact (w_free src f) |]. intros a u _. exact Logic.I. Qed.
Lemma wide_spec : forall w c, is_word K_Ident (words WIDE_KEYWORDS) src w c -> wide_word src w c.
Proof. intros w c (K & x & E & I). unfold words in I. apply in_map_iff in I. destruct I as (y & E1 & I). pose proof (f_equal fst E1) as E2. pose proof (f_equal snd E1) as E3. cbn [fst snd] in E2, E3. subst y x. split; [exact I |]. split; [exact K | exact E]. Qed.
Lemma style_value_spec : forall name p cs, onto p cs -> tv cs (fun v u => forall rest, cs = u ++ rest -> value_of src name (bare u) (bare rest) v) (parse_style_value VALUES name p).
Proof.
  intros name p cs O. unfold parse_style_value. destruct (is_dashed_ident (ctok name)) eqn:Dn.
  { apply tv_pmap. eapply tv_use; [exact O | exact d_free |]. intros v u _ rest _. apply of_custom. exact Dn. }
  assert (ND : ~ custom_name name) by (unfold custom_name; rewrite Dn; discriminate).
  pose proof (c_set src f _ K_Ident (words WIDE_KEYWORDS) ltac:(discriminate) ltac:(discriminate) ltac:(discriminate)) as T1. pose proof (tells_set src f _ K_Ident (words WIDE_KEYWORDS) ltac:(discriminate)) as T2.
  assert (T3 : tells (parse_set K_Ident (words WIDE_KEYWORDS)) (fun x u => bare u = [snd x] /\ wide_word src (fst x) (snd x))).
  { intros p0 cs0 O0 r q E. destruct (T1 p0 cs0 O0 r q E) as (u & rest & E1 & Oq & X1). destruct (T2 p0 cs0 O0 r q E) as (u2 & rest2 & E2 & Oq2 & X2). exists u, rest. split; [exact E1 |]. split; [exact Oq |]. intros a Ea. split; [apply (X1 a Ea) |]. apply wide_spec, (X2 a Ea). }
  eapply tv_bind; [exact O | apply tells_if_peek; exact T3 |]. intros [w |] u q r E Oq K; cbv beta iota in K.
  { apply tv_ok; [exact Oq |]. intros rest _. rewrite app_nil_r. destruct K as (Eb & W). destruct w as (w, c). cbn [fst snd] in *. apply of_wide; assumption. }
  subst u. cbn [app]. assert (cs = r) by exact E. subst r. apply tv_or_peek; intro Pk.
  { apply tv_pmap; eapply tv_use; [exact Oq | exact d_free |]. intros v u _ rest Ec. apply of_computed; [exact ND |]. rewrite <- bare_app, <- Ec. destruct (computed_at q cs Oq Pk) as (c & r & Eb & X). rewrite Eb. apply Exists_cons_hd. exact X. }
  match goal with |- tv _ ?K _ => assert (Fb : forall q2 u2 r2, cs = u2 ++ r2 -> onto q2 r2 -> tv cs K (fallback_value (checkpoint q) q2)) end.
  { intros q2 u2 r2 E2 O2. pose proof (onto_back src f _ _ _ _ Oq O2) as O3. unfold fallback_value. destruct (peek peek_computed q2) as [[] |] eqn:Pc; [| | apply tv_none]; apply tv_pmap; (eapply tv_use; [exact O3 | exact d_free |]); intros v u _ rest Ec; [| apply of_unknown; exact ND].
    apply of_computed; [exact ND |]. rewrite <- bare_app, <- Ec, E2, bare_app. destruct (computed_at q2 r2 O2 Pc) as (c & r & Eb & X). rewrite Eb. apply Exists_app. right. apply Exists_cons_hd. exact X. }
  destruct (tok_is (ctok name) K_Ident); [| exact (Fb q [] cs eq_refl Oq)]. unfold look_up. destruct (parse_str_lower name (lsrc (plex q))) as [w |] eqn:Ew; [| apply tv_none]. destruct (map_get VALUES w) as [m |] eqn:Mg; [| exact (Fb q [] cs eq_refl Oq)].
  apply map_get_in in Mg. destruct (value_reads w m src f Mg) as (s & d & D & C & R). destruct (m q) as [[[l | e] q2] |] eqn:Em; [| | apply tv_none]; destruct (R q cs Oq _ _ Em) as (u2 & r2 & E2 & O2 & K2); [| exact (Fb q2 u2 r2 E2 O2)]. specialize (K2 l eq_refl).
  destruct (value_ends q2) as [[] |] eqn:Ve; [| exact (Fb q2 u2 r2 E2 O2) | apply tv_none]. pose proof (proj1 O2) as S2. pose proof (proj1 Oq) as S1. rewrite S1 in Ew. replace (parse_str_lower name (lsrc (plex q2))) with (Some w) by (rewrite S2, Ew; reflexivity). apply (tv_shift _ _ _ _ u2 r2 _ _ E2). apply tv_ok; [exact O2 |]. intros rest Ec. rewrite app_nil_r in *.
  rewrite E2 in Ec. apply app_inv_head in Ec. subst rest. apply (of_known src name _ _ w l s d ND Ew D C K2). exact (ends_spec q2 r2 O2 Ve).
Qed.

(* ---- the importance ---- *)
Lemma important_reads : tells parse_important (fun x u => bare u = [fst x; snd x] /\ important src (fst x) (snd x)).
Proof.
  intros p cs O. unfold parse_important. eapply tv_bind; [exact O | apply (c_single src f _ (peek_delim 33) (fun c => c) (is_delim 33)); [apply solid_delim | | intros c (K & _); unfold lasts, kind_of; rewrite K; repeat split; discriminate] |].
  { intros p0 c _ N E. unfold peek_delim in E. apply some_inj in E. exact (delim_is c 33 N E). }
  intros b u q r E Oq (b' & -> & Eb & B). eapply tv_bind; [exact Oq | apply (c_single src f _ (peek_kind K_Ident) (fun c => c) (fun c => kind_of c = K_Ident)); [apply solid_kind; discriminate | apply means_kind | intros c K; unfold lasts; rewrite K; repeat split; discriminate] |].
  intros w u2 q2 r2 E2 O2 (w' & -> & Ew & W). rewrite (proj1 O2). destruct (eq_ignore_ascii_case w' src IMPORTANT) as [[] |] eqn:X; [| apply tv_err; exact O2 | apply tv_none]. apply tv_ok; [exact O2 |]. rewrite app_nil_r, bare_app, Eb, Ew. split; [reflexivity |]. split; [exact B |]. split; [exact W |]. exact X.
Qed.
Lemma property_spec : forall p cs, onto p cs -> tv cs (fun d u => forall rest, cs = u ++ rest -> exists value imp, bare u = pr_name d :: pr_colon d :: value ++ imp /\ kind_of (pr_name d) = K_Ident /\ kind_of (pr_colon d) = K_Colon /\
    importance src (pr_important d) imp /\ value_of src (pr_name d) value (imp ++ bare rest) (pr_value d)) (parse_property VALUES p).
Proof.
  intros p cs O. unfold parse_property. apply tv_pmap. unfold declaration_t. eapply tv_bind; [exact O | apply (c_single src f _ (peek_kind K_Ident) (fun c => c) (fun c => kind_of c = K_Ident)); [apply solid_kind; discriminate | apply means_kind | intros c K; unfold lasts; rewrite K; repeat split; discriminate] |].
  intros name u q r E Oq (name' & -> & En & Kn). eapply tv_bind; [exact Oq | apply (c_single src f _ (peek_kind K_Colon) (fun c => c) (fun c => kind_of c = K_Colon)); [apply solid_kind; discriminate | apply means_kind | intros c K; unfold lasts; rewrite K; repeat split; discriminate] |].
  intros colon u2 q2 r2 E2 O2 (colon' & -> & Ec & Kc). unfold bind at 1. pose proof (style_value_spec name' q2 r2 O2) as V. destruct (parse_style_value VALUES name' q2) as [[[v | e] q3] |] eqn:Ev; [| | apply tv_none]; destruct (V _ _ eq_refl) as (u3 & r3 & E3 & O3 & K3); [| apply (tv_fails _ _ _ _ _ _ _ r3 O3); eauto].
  specialize (K3 v eq_refl r3 E3). apply (tv_shift _ _ _ _ u3 r3 _ _ E3). eapply tv_bind; [exact O3 | apply tells_if_peek; exact important_reads |]. intros imp u4 q4 r4 E4 O4 K4. apply tv_ok; [exact O4 |]. intros rest Ecs. rewrite app_nil_r in *. cbn [property_of pr_name pr_colon pr_value pr_important].
  exists (bare u3), (bare u4). rewrite !bare_app, En, Ec. split; [reflexivity |]. split; [exact Kn |]. split; [exact Kc |]. split.
  - destruct imp as [(b, w) |]; cbv beta iota in K4; [cbn [fst snd] in K4; exact K4 | rewrite K4; reflexivity].
  - assert (r4 = rest) by (rewrite E, E2, E3, E4 in Ecs; rewrite <- !app_assoc in Ecs; do 4 apply app_inv_head in Ecs; exact Ecs). subst rest. rewrite <- bare_app, <- E4. exact K3.
Qed.
End Decl.

(* ---- where whitespace and comments are skipped ---- *)
Lemma trivia_comments : forall p, pskip p = KS_TRIVIA -> skips_comments p.
Proof. intros p E. unfold skips_comments. rewrite E. split; vm_compute; reflexivity. Qed.
Lemma semicolon_stops : forall n p cs c q, skips_comments p -> ahead (plex p) cs -> cv_fuel n p = Some (Ok (CvToken K_Semicolon c), q) -> peek (peek_kind K_Semicolon) p = Some true.
Proof.
  intros n p cs c q Sk A E. destruct n as [| n]; [discriminate |]. cbn [cv_fuel] in E. destruct (or_peek_inv _ _ _ _ _ _ E) as [[_ E1] | [_ E1]]; [destruct (pmap_inv _ _ _ _ _ _ _ E1) as (x & _ & X); discriminate |].
  destruct (or_peek_inv _ _ _ _ _ _ E1) as [[_ E2] | [_ E2]].
  { unfold in_state in E2. destruct (block_with (values_fuel n) (set_state p ST_NESTED)) as [[r q'] |] eqn:EB; [| discriminate]. injection E2 as -> <-. destruct (block_with_inv _ (set_state p ST_NESTED) cs _ q' (proj1 (proj2 (fuel_good n))) Sk A EB) as (used & _ & start & o & vs & close & oc & inner & X & _). discriminate. }
  destruct (or_peek_inv _ _ _ _ _ _ E2) as [[_ E3] | [_ E3]].
  { destruct (function_with_inv _ p cs _ q (proj2 (proj2 (fuel_good n))) Sk A E3) as (used & g & vs & close & inner & _ & X & _). discriminate. }
  destruct (cv_tokens_good p cs _ q A E3) as (d & _ & _ & _ & X & Pk). injection X as Ek _. rewrite <- Ek in Pk. exact Pk.
Qed.
Lemma values_stop : forall n p cs l q, skips_comments p -> ahead (plex p) cs -> kindset_contains (pstop p) K_Semicolon = true -> values_fuel n p = Some (Ok l, q) -> no_semicolon l.
Proof.
  induction n as [| n IH]; intros p cs l q Sk A St E; [discriminate |]. cbn [values_fuel] in E. destruct (p_at_end p); [injection E as <- _; intros c []|].
  destruct (next_is_stop p) as [[] |] eqn:Ns; [injection E as <- _; intros c [] | | discriminate]. destruct (or_peek_inv _ _ _ _ _ _ E) as [[_ E1] | [_ E1]]; [| injection E1 as <- _; intros c []].
  destruct (bind_inv _ _ _ _ _ _ _ E1) as (v & p1 & E2 & E3). destruct (pmap_inv _ _ _ _ _ _ _ E3) as (l' & E4 & ->). destruct (proj1 (fuel_good n) p cs v p1 Sk A E2) as (u1 & T1 & _). destruct (took_ahead _ _ _ T1) as (_ & cs1 & _ & A1 & _). pose proof (took_skips _ _ _ T1 Sk) as Sk1.
  assert (St1 : kindset_contains (pstop p1) K_Semicolon = true) by (destruct T1 as (? & ? & ? & _ & _ & _ & _ & _ & (_ & _ & _ & X & _)); rewrite X; exact St).
  intros c [I | I]; [| exact (IH p1 cs1 l' q Sk1 A1 St1 E4 c I)]. subst v. pose proof (semicolon_stops n p cs c p1 Sk A E2) as Pk. destruct (peek_split p cs A) as (sk & rest & Ec & F & Sp & Pn). unfold peek in Pk. rewrite Pn in Pk. unfold peek_kind in Pk. apply some_inj in Pk.
  subst cs. rewrite (next_is_stop_spec p sk rest A F Sp (proj2 Sk)) in Ns. destruct rest as [| d rest]; cbn [hd_or_eof] in *; [simpl ctok in Pk; rewrite tok_is_eof in Pk by discriminate; discriminate |].
  assert (N : kind_of d <> K_Eof) by (apply (ahead_kind _ _ A); apply in_or_app; right; left; reflexivity). pose proof (kind_is d _ N Pk) as Kd. unfold kind_of in Kd. rewrite Kd in Ns. rewrite St in Ns. discriminate.
Qed.
Lemma free_spec : forall src f p cs l q, onto src f p cs -> pskip p = KS_TRIVIA -> parse_free_value p = Some (Ok l, q) ->
  exists used rest, took p q used /\ Forall2 re_emitted used (cvs_cursors l) /\ (grouped (map kind_of used) \/ left_open (map kind_of used)) /\ ahead (plex q) rest /\ onto src f q rest /\ may_stop (bare rest) /\ no_semicolon l.
Proof.
  intros src f p cs l q O Sk E. pose proof O as (Sr & Fe & A & T). unfold parse_free_value, in_state, in_stop in E.
  match type of E with match ?m with _ => _ end = _ => destruct m as [[r q'] |] eqn:E1; [| discriminate] end. injection E as -> <-. match type of E1 with match ?m with _ => _ end = _ => destruct m as [[r q2] |] eqn:E2; [| discriminate] end. injection E1 as -> <-.
  unfold parse_component_values in E2. set (p1 := set_stop (set_state p ST_NESTED) KS_RIGHT_CURLY_OR_SEMICOLON) in *. assert (Sk1 : skips_comments p1) by (apply trivia_comments; exact Sk).
  destruct (proj1 (proj2 (fuel_good _)) p1 cs l q2 Sk1 A E2) as (used & T1 & Em & Fin & En). destruct (took_ahead _ _ _ T1) as (_ & rest & _ & A2 & _).
  assert (Ns : no_semicolon l) by (apply (values_stop _ p1 cs l q2 Sk1 A ltac:(vm_compute; reflexivity) E2)). pose proof T1 as (c1 & n1 & r1 & X1 & X2 & X3 & X4 & X5 & (S1 & S2 & S3 & S4 & S5 & S6)).
  exists used, rest. split; [exists c1, n1, r1; cbn [plex set_state set_stop ptrivia pskip]; do 5 (split; [assumption |]); unfold same_settings; cbn [perrs pstate pskip pstop plex set_state set_stop]; split; [exact S1 |]; split; [reflexivity |]; split; [exact S3 |]; split; [reflexivity |]; split; [exact S5 | exact S6] |].
  split; [exact Em |]. split; [destruct Fin as [G | (G & _)]; [left | right]; exact G |]. split; [exact A2 |]. assert (O2 : onto src f q2 rest).
  { unfold p1 in S3, S5, S6. cbn [plex set_state set_stop pskip] in S3, S5, S6. split; [rewrite S5; exact Sr |]. split; [rewrite S6; exact Fe |]. split; [exact A2 |]. rewrite S3. exact T. }
  split; [exact O2 |]. split; [| exact Ns]. assert (Sk2 : pskip q2 = KS_TRIVIA) by (rewrite S3; exact Sk). destruct En as (c & Pn & En). destruct (peek_bare src f q2 rest O2 Sk2) as (c' & Pn' & M). rewrite Pn in Pn'. apply some_inj in Pn'. subst c'.
  destruct (bare rest) as [| d r]; [exact Logic.I |]. destruct M as (<- & L). cbn [may_stop]. destruct En as [En | En]; [| right; right; exact En]. rewrite S4 in En. unfold p1 in En. cbn [pstop set_state set_stop] in En. unfold KS_RIGHT_CURLY_OR_SEMICOLON in En. apply kindset_new_spec in En. cbn [In] in En. intuition.
Qed.
Lemma kind_skip : forall k p cs c q, ahead (plex p) cs -> parse_kind k p = Some (Ok c, q) -> pskip q = pskip p.
Proof.
  intros k p cs c q A E. unfold parse_kind, parse_single in E. destruct (peek (peek_kind k) p) as [[] |]; [| destruct (next p) as [[? ?] |]; discriminate | discriminate]. destruct (next p) as [[x q'] |] eqn:N; [| discriminate]. injection E as _ <-.
  destruct (next_total p cs A) as (c1 & q1 & sk & rest & N1 & _ & _ & _ & _ & _ & _ & (_ & _ & S & _)). rewrite N in N1. injection N1 as _ <-. exact S.
Qed.
Lemma if_peek_none : forall A k (m : P A) p q, parse_if_peek k m p = Some (Ok None, q) -> q = p /\ peek k p = Some false.
Proof.
  intros A k m p q E. unfold parse_if_peek in E. destruct (peek k p) as [[] |]; [destruct (pmap_inv _ _ _ _ _ _ _ E) as (x & _ & X); discriminate X | injection E as <-; auto | discriminate E].
Qed.
Lemma property_parts : forall src f p cs d q, onto src f p cs -> parse_property VALUES p = Some (Ok d, q) ->
  exists q2 r2 q3 u3 r3, onto src f q2 r2 /\ bare cs = pr_name d :: pr_colon d :: bare r2 /\ pskip q2 = pskip p /\ parse_style_value VALUES (pr_name d) q2 = Some (Ok (pr_value d), q3) /\ r2 = u3 ++ r3 /\ onto src f q3 r3 /\
    parse_if_peek peek_important parse_important q3 = Some (Ok (pr_important d), q) /\ (exists u, cs = u ++ r3).
Proof.
  intros src f p cs d q O E. unfold parse_property in E. destruct (pmap_inv _ _ _ _ _ _ _ E) as (x & E1 & ->). unfold declaration_t in E1. destruct (bind_inv _ _ _ _ _ _ _ E1) as (name & q1 & En & E2). destruct (bind_inv _ _ _ _ _ _ _ E2) as (colon & q2 & Ec & E3). destruct (bind_inv _ _ _ _ _ _ _ E3) as (v & q3 & Ev & E4). destruct (bind_inv _ _ _ _ _ _ _ E4) as (i & q4 & Ei & E5). injection E5 as <- <-. cbn [property_of pr_name pr_colon pr_value pr_important].
  assert (Tk : forall k, k <> K_Eof -> k <> K_Whitespace -> k <> K_Comment -> tells src f (parse_kind k) (fun c u => bare u = [c])).
  { intros k N1 N2 N3. eapply tells_imp; [apply (c_single src f _ (peek_kind k) (fun c => c) (fun c => kind_of c = k)); [apply solid_kind; exact N1 | apply means_kind | intros c K; unfold lasts; rewrite K; repeat split; assumption] |]. intros a u (c & -> & Eb & _). exact Eb. }
  destruct (Tk K_Ident ltac:(discriminate) ltac:(discriminate) ltac:(discriminate) p cs O _ _ En) as (u1 & r1 & C1 & O1 & K1). specialize (K1 name eq_refl). destruct (Tk K_Colon ltac:(discriminate) ltac:(discriminate) ltac:(discriminate) q1 r1 O1 _ _ Ec) as (u2 & r2 & C2 & O2 & K2). specialize (K2 colon eq_refl).
  destruct (style_value_spec src f name q2 r2 O2 _ _ Ev) as (u3 & r3 & C3 & O3 & _). exists q2, r2, q3, u3, r3. split; [exact O2 |]. split; [rewrite C1, C2, !bare_app, K1, K2; reflexivity |].
  split; [rewrite (kind_skip _ _ _ _ _ (proj1 (proj2 (proj2 O1))) Ec); exact (kind_skip _ _ _ _ _ (proj1 (proj2 (proj2 O))) En) |]. split; [exact Ev |]. split; [exact C3 |]. split; [exact O3 |]. split; [exact Ei |]. exists (u1 ++ u2 ++ u3). rewrite C1, C2, C3, <- !app_assoc. reflexivity.
Qed.
Lemma words_get : forall l w, In w l -> map_get (words l) w = Some w.
Proof.
  intros l w I. induction l as [| x l IH]; [destruct I |]. unfold words. cbn [map map_get]. destruct (text_eqb x w) eqn:E; [apply text_eqb_spec in E; subst x; reflexivity |]. destruct I as [-> | I]; [rewrite CursorProofs.text_eqb_refl in E; discriminate | exact (IH I)].
Qed.
Lemma wide_keyword : forall src f p cs name w c r, onto src f p cs -> pskip p = KS_TRIVIA -> ~ custom_name name -> bare cs = c :: r -> wide_word src w c -> forall o, parse_style_value VALUES name p = Some o -> exists q, o = (Ok (SvKeyword (w, c)), q).
Proof.
  intros src f p cs name w c r O Sk ND Eb (I & K & W) o E. unfold parse_style_value in E. destruct (is_dashed_ident (ctok name)) eqn:Dn; [elim ND; exact Dn |]. destruct (peek_bare src f p cs O Sk) as (c' & Pn & M). rewrite Eb in M. destruct M as (-> & L).
  assert (Pk : peek_set K_Ident (words WIDE_KEYWORDS) p c = Some true) by (unfold peek_set, look_up; rewrite (SelectorGoes.tok_kind K_Ident c K) by discriminate; rewrite (proj1 O), W, (words_get WIDE_KEYWORDS w I); reflexivity).
  assert (Pq : peek (peek_set K_Ident (words WIDE_KEYWORDS)) p = Some true) by (unfold peek; rewrite Pn; exact Pk). unfold bind at 1, parse_if_peek at 1 in E. rewrite Pq in E. unfold pmap at 1, bind at 1, parse_set at 1 in E. rewrite Pq in E. destruct (next p) as [[x q] |] eqn:N; [| discriminate]. destruct (next_bare src f p cs x q O N) as (u & rest & _ & Oq & Pn' & _). rewrite Pn in Pn'. apply some_inj in Pn'. subst x.
  unfold build_set, look_up in E. rewrite (proj1 Oq), W, (words_get WIDE_KEYWORDS w I) in E. cbv beta iota in E. unfold ret in E. injection E as <-. exists q. reflexivity.
Qed.
Lemma kept_bare : forall p cs, ahead (plex p) cs -> kept KS_TRIVIA cs = bare cs.
Proof.
  intros p cs A. pose proof (ahead_kind _ _ A) as K. clear A. unfold kept, bare. induction cs as [| c cs IH]; [reflexivity |]. cbn [filter]. rewrite IH by (intros x I; apply K; right; exact I).
  assert (N : kind_of c <> K_Eof) by (apply K; left; reflexivity). replace (kindset_contains KS_TRIVIA (tkind (ctok c))) with (tok_is (ctok c) K_Whitespace || tok_is (ctok c) K_Comment); [reflexivity |].
  apply Bool.eq_true_iff_eq. rewrite orb_true_iff, (trivia_kinds (tkind (ctok c))). split; (intros [X | X]; [left | right]); first [exact (kind_is c _ N X) | apply SelectorGoes.tok_kind; [exact X | discriminate]].
Qed.
Lemma free_parts : forall src f p cs name v q l, onto src f p cs -> pskip p = KS_TRIVIA -> parse_style_value VALUES name p = Some (Ok v, q) -> free_value v = Some l -> exists p0, onto src f p0 cs /\ pskip p0 = KS_TRIVIA /\ parse_free_value p0 = Some (Ok l, q).
Proof.
  intros src f p cs name v q l O Sk E Fv. unfold parse_style_value in E. destruct (is_dashed_ident (ctok name)).
  { destruct (pmap_inv _ _ _ _ _ _ _ E) as (l' & El & ->). cbn [free_value] in Fv. apply some_inj in Fv. subst l'. exists p. auto. }
  destruct (bind_inv _ _ _ _ _ _ _ E) as ([w |] & p1 & E1 & E2); [injection E2 as <- _; discriminate |]. apply if_peek_none in E1. destruct E1 as (-> & _). destruct (or_peek_inv _ _ _ _ _ _ E2) as [[_ E3] | [_ E3]]; clear E2.
  { destruct (pmap_inv _ _ _ _ _ _ _ E3) as (l' & El & ->). cbn [free_value] in Fv. apply some_inj in Fv. subst l'. exists p. auto. }
  assert (Fb : forall q2, fallback_value (checkpoint p) q2 = Some (Ok v, q) -> modes p q2 -> (exists r2, onto src f q2 r2) -> exists p0, onto src f p0 cs /\ pskip p0 = KS_TRIVIA /\ parse_free_value p0 = Some (Ok l, q)).
  { intros q2 F (M & _) (r2 & O2). unfold fallback_value in F. exists (rewind q2 (checkpoint p)). split; [exact (onto_back src f _ _ _ _ O O2) |]. 
    destruct (peek peek_computed q2) as [[] |]; [| | discriminate]; destruct (pmap_inv _ _ _ _ _ _ _ F) as (l' & El & ->); cbn [free_value] in Fv; apply some_inj in Fv; subst l'; (split; [| exact El]); cbn [rewind pskip]; rewrite M; exact Sk. }
  destruct (tok_is (ctok name) K_Ident); [| apply (Fb p E3 (modes_refl p)); eauto]. unfold look_up in E3. destruct (parse_str_lower name (lsrc (plex p))) as [w |]; [| discriminate]. destruct (map_get VALUES w) as [m |] eqn:Mg; [| apply (Fb p E3 (modes_refl p)); eauto].
  apply map_get_in in Mg. destruct (value_reads w m src f Mg) as (s & d & _ & _ & R). pose proof (values_keep w m Mg p) as Km. destruct (m p) as [[[x | e] q2] |] eqn:Em; [| | discriminate]; pose proof (Km _ _ eq_refl) as M; destruct (R p cs O _ _ Em) as (u2 & r2 & _ & O2 & _); [| apply (Fb q2 E3 M); eauto].
  destruct (value_ends q2) as [[] |]; [| apply (Fb q2 E3 M); eauto | discriminate]. destruct (parse_str_lower name (lsrc (plex q2))); [| discriminate]. injection E3 as <- _. discriminate.
Qed.
