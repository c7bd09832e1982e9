From Coq Require Import ZifyBool ZifyNat ZifyN.
From Coq Require Import List.
From Verif Require Import Features SpecLex SpecTrace SpecParser SpecSyntax SpecTraits SpecFeatures SpecCursor SpecToken LexBase TokenProofs KindProofs LexFacts LexTrace
  ParserProofs ParserProofs2 ParserProofs3 ParserProofs4 CompareProofs SyntaxProofs SyntaxTotal TraitsTotal RulesTotal CursorProofs CursorLex CursorFacts FeatureProofs FeatureProofs2 FeatureProofs3 FeatureProofs4 FeatureProofs5.
Open Scope N_scope.
Open Scope list_scope.

Lemma usual_reached : forall src f p, well_behaved (single_line_comments f) src -> ~ In 0 src -> blen src < 4294967296 -> reached_parser src f p -> pskip p = KS_TRIVIA -> usual p.
Proof.
  intros src f p W Z B R Sk. split; [exact Sk |]. destruct (reached_stream src f p W R) as (all & don & cs & _ & _ & A & _ & _). split; [| exists cs; exact A]. split; [| exact (reached_names src f p W Z B R)].
  unfold skips_comments. rewrite Sk. split; reflexivity.
Qed.
Lemma usual_new : forall src f, well_behaved (single_line_comments f) src -> ~ In 0 src -> blen src < 4294967296 -> usual (parser_new src f).
Proof. intros src f W Z B. exact (usual_reached src f _ W Z B (st_refl _ _) eq_refl). Qed.

Lemma ident_not_eof : K_Ident <> K_Eof.
Proof. discriminate. Qed.
(* conditions return *)
Lemma run_peek_kw : forall p cs, usable p -> ahead (plex p) cs -> exists c b, peek_next p = Some c /\ peek_kw p c = Some b /\ (b = true -> (exists kw, build_set CONDITION_KEYWORDS p c = Some (kw, c)) /\ exists t, parse_str c (lsrc (plex p)) = Some t).
Proof.
  intros p cs U A. destruct (peeked p cs A) as (c & sk & r & Ec & F & St & Hd & Pn & _). exists c. unfold peek_set. destruct (tok_is (ctok c) K_Ident) eqn:T; [| exists false; repeat split; [exact Pn | discriminate | discriminate]].
  destruct (tok_is_in p cs c K_Ident A) with (2 := ident_not_eof) as (I & K); [destruct r; [left; exact Hd | right; rewrite Ec, Hd; apply in_or_app; right; now left] | exact T |].
  destruct (proj2 U cs c A I) as (_ & V & w & E); [rewrite K; now left |]. unfold build_set, look_up. rewrite E. destruct (map_get CONDITION_KEYWORDS w) as [v |]; eexists; (split; [exact Pn |]); (split; [reflexivity |]); [| discriminate].
  intros _. split; [eauto | exact V].
Qed.
Lemma loop_runs : forall F (feature_p : P F) n, well_behaving 1 n feature_p -> forall m f kw p cs, usable p -> ahead (plex p) cs -> (length cs <= n)%nat -> (length cs < m)%nat -> well_run 1 (condition_loop feature_p m f kw) p.
Proof.
  intros F feature_p n Hf. induction m as [| m IH]; intros f kw p cs U A L Lm; [lia |]. cbn [condition_loop]. apply (run_bind _ _ _ _ 1); [exact (Hf p cs U A L) |]. intros f2 p1 _ M1.
  destruct (moved_usable_len _ _ _ cs M1 U A) as (U1 & cs1 & A1 & L1). change (1 - 1)%nat with 0%nat. destruct (run_peek_kw p1 cs1 U1 A1) as (c & b & Ec & Eb & H). unfold well_run. rewrite Ec, Eb.
  destruct b; [| eexists _, p1; split; [reflexivity | exact (moved_refl p1 cs1 A1)]]. destruct (H eq_refl) as ((kw2 & ->) & _). destruct kw2; [| eexists _, p1; split; [reflexivity | exact (moved_refl p1 cs1 A1)] ..].
  apply run_pmap. apply (run_weaken _ _ 0 1); [lia |]. apply (IH _ _ p1 cs1 U1 A1); lia.
Qed.
Theorem condition_runs : forall F (feature_p : P F) n, well_behaving 1 n feature_p -> well_behaving 1 n (condition_t feature_p).
Proof.
  intros F feature_p n Hf p cs U A L. unfold well_run, condition_t. destruct (run_peek_kw p cs U A) as (c & b & Ec & Eb & H). rewrite Ec, Eb. destruct b.
  - destruct (H eq_refl) as ((kw & ->) & St). destruct kw; [exact (run_fail_text _ _ _ p cs 1 U A St) | | exact (run_fail_text _ _ _ p cs 1 U A St)]. apply run_pmap. exact (Hf p cs U A L).
  - apply (run_bind _ _ _ _ 1); [exact (Hf p cs U A L) |]. intros f p1 _ M1. destruct (moved_usable_len _ _ _ cs M1 U A) as (U1 & cs1 & A1 & L1). change (1 - 1)%nat with 0%nat.
    apply (run_bind _ _ _ _ 0).
    + apply (run_if_peek _ _ _ p1 cs1 A1).
      * unfold peek. destruct (run_peek_kw p1 cs1 U1 A1) as (c1 & b1 & -> & -> & _). discriminate.
      * intros _. apply (run_weaken _ _ 0 1); [lia |]. exact (set_runs CONDITION_KEYWORDS keywords_nodup K_Ident ident_name _ p1 cs1 U1 A1 (le_n _)).
    + intros o p2 _ M2. destruct (moved_usable_len _ _ _ cs1 M2 U1 A1) as (U2 & cs2 & A2 & L2). change (0 - 0)%nat with 0%nat. destruct o as [[[] k] |].
      * apply run_pmap. apply (run_weaken _ _ 0 1); [lia |]. apply (loop_runs _ _ n Hf _ _ _ p2 cs2 U2 A2); [lia | exact (sfuel_more p2 cs2 A2)].
      * apply run_pmap. apply (run_weaken _ _ 0 1); [lia |]. apply (Hf p2 cs2 U2 A2). lia.
      * apply run_pmap. apply (run_weaken _ _ 0 1); [lia |]. apply (loop_runs _ _ n Hf _ _ _ p2 cs2 U2 A2); [lia | exact (sfuel_more p2 cs2 A2)].
      * exact (run_ret _ _ p2 cs2 A2).
Qed.

(* what the peeks of pseudo-classes and pseudo-elements say *)
Lemma sees_peek_n : forall p l k, sees p l -> peek_n p (N.of_nat (S k)) = Some (nth k l (eof_cursor p)).
Proof.
  intros p l k (cs & A & ->). rewrite (peek_n_spec p cs _ A) by lia. replace (N.to_nat (N.of_nat (S k)) - 1)%nat with k by lia. reflexivity.
Qed.
Section Peeks.
  Context {V : Type} (m : list (text * V)) (ND : NoDup (map fst m)).
  Theorem class_peek : forall p, usual p -> exists b, peek (peek_pseudo_class m) p = Some b /\
    (b = true <-> exists colon ident rest v, sees p (colon :: ident :: rest) /\ kind_of colon = K_Colon /\ is_word K_Ident m (lsrc (plex p)) v ident).
  Proof.
    intros p U. destruct (sees_exists p U) as (l & Sp). pose proof (sees_peek_n p l 1 Sp) as P2. change (N.of_nat 2) with 2 in P2.
    assert (Pn : exists c, peek_next p = Some c /\ c = nth 0 l (eof_cursor p)).
    { destruct l as [| c l]; [exists (eof_cursor p); split; [exact (proj1 (sees_nil p Sp)) | reflexivity] |]. destruct (next_sees p c l Sp) as (_ & _ & _ & E). exists c. auto. }
    destruct Pn as (c & Ec & Hc). unfold peek. rewrite Ec. unfold peek_pseudo_class. rewrite P2. destruct (tok_is (ctok c) K_Colon) eqn:T.
    - destruct l as [| d l]; [subst c; cbn [nth eof_cursor ctok] in T; rewrite (tok_is_eof K_Colon) in T; discriminate |]. cbn [nth] in Hc. subst d. pose proof (proj1 (tok_is_sees p _ c _ Sp (or_introl eq_refl)) T) as K.
      destruct l as [| d l]; cbn [nth].
      + rewrite (peek_set_eof m K_Ident ident_name). exists false. split; [reflexivity |]. split; [discriminate |]. intros (colon & ident & rest & v & S' & _). pose proof (sees_det _ _ _ Sp S'). discriminate.
      + destruct (peek_set_sees m ND K_Ident ident_name p _ d U Sp (or_intror (or_introl eq_refl))) as (b & Eb & H). exists b. split; [exact Eb |]. rewrite H. split.
        * intros (v & W). exists c, d, l, v. auto.
        * intros (colon & ident & rest & v & S' & _ & W). pose proof (sees_det _ _ _ Sp S') as E. injection E as <- <- <-. eauto.
    - exists false. split; [reflexivity |]. split; [discriminate |]. intros (colon & ident & rest & v & S' & K & _). pose proof (sees_det _ _ _ Sp S') as ->. cbn [nth] in Hc. subst c.
      apply (tok_is_sees p _ colon _ Sp (or_introl eq_refl)) in K. congruence.
  Qed.
  Theorem element_peek : forall p, usual p -> exists b, peek (peek_pseudo_element m) p = Some b /\
    (b = true <-> exists c1 c2 ident rest v, sees p (c1 :: c2 :: ident :: rest) /\ kind_of c1 = K_Colon /\ kind_of c2 = K_Colon /\ is_word K_Ident m (lsrc (plex p)) v ident).
  Proof.
    intros p U. destruct (sees_exists p U) as (l & Sp). pose proof (sees_peek_n p l 1 Sp) as P2. change (N.of_nat 2) with 2 in P2. pose proof (sees_peek_n p l 2 Sp) as P3. change (N.of_nat 3) with 3 in P3.
    assert (Pn : exists c, peek_next p = Some c /\ c = nth 0 l (eof_cursor p)).
    { destruct l as [| c l]; [exists (eof_cursor p); split; [exact (proj1 (sees_nil p Sp)) | reflexivity] |]. destruct (next_sees p c l Sp) as (_ & _ & _ & E). exists c. auto. }
    destruct Pn as (c & Ec & Hc). unfold peek. rewrite Ec. unfold peek_pseudo_element. rewrite P2, P3. destruct (tok_is (ctok c) K_Colon && tok_is (ctok (nth 1 l (eof_cursor p))) K_Colon) eqn:T.
    - apply andb_true_iff in T. destruct T as (T1 & T2).
      destruct l as [| d l]; [subst c; cbn [nth eof_cursor ctok] in T1; rewrite (tok_is_eof K_Colon) in T1; discriminate |]. cbn [nth] in Hc. subst d. pose proof (proj1 (tok_is_sees p _ c _ Sp (or_introl eq_refl)) T1) as K.
      destruct l as [| d l]; [cbn [nth eof_cursor ctok] in T2; rewrite (tok_is_eof K_Colon) in T2; discriminate |]. cbn [nth] in T2. pose proof (proj1 (tok_is_sees p _ d _ Sp (or_intror (or_introl eq_refl))) T2) as K2.
      destruct l as [| e l]; cbn [nth].
      + rewrite (peek_set_eof m K_Ident ident_name). exists false. split; [reflexivity |]. split; [discriminate |]. intros (c1 & c2 & ident & rest & v & S' & _). pose proof (sees_det _ _ _ Sp S'). discriminate.
      + destruct (peek_set_sees m ND K_Ident ident_name p _ e U Sp (or_intror (or_intror (or_introl eq_refl)))) as (b & Eb & H). exists b. split; [exact Eb |]. rewrite H. split.
        * intros (v & W). exists c, d, e, l, v. auto.
        * intros (c1 & c2 & ident & rest & v & S' & _ & _ & W). pose proof (sees_det _ _ _ Sp S') as E. injection E as <- <- <- <-. eauto.
    - exists false. split; [reflexivity |]. split; [discriminate |]. intros (c1 & c2 & ident & rest & v & S' & K & K2 & _). pose proof (sees_det _ _ _ Sp S') as ->. cbn [nth] in Hc, T. subst c.
      apply (tok_is_sees p _ c1 _ Sp (or_introl eq_refl)) in K. apply (tok_is_sees p _ c2 _ Sp (or_intror (or_introl eq_refl))) in K2. rewrite K, K2 in T. discriminate.
  Qed.
End Peeks.

(* words are recognised in any letter case *)
Theorem word_any_case : forall V (m : list (text * V)) k src f p pre l t rest v x, NoDup (map fst m) -> is_name k ->
  well_behaved (single_line_comments f) src -> ~ In 0 src -> blen src < 4294967296 -> reached_parser src f p -> pskip p = KS_TRIVIA ->
  sees p (Cursor (blen pre) t :: rest) -> src = pre ++ l -> token_at f pre l t -> stands_for l (tkind t) v -> contains_escape_chars t = false ->
  (exists q, parse_set k m p = Some (Ok (x, Cursor (blen pre) t), q)) <-> tkind t = k /\ In (lower_text v, x) m.
Proof.
  intros V m k src f p pre l t rest v x ND Kn W Z B R Sk Sp -> T Sv Ne. pose proof (usual_reached _ f p W Z B R Sk) as U.
  assert (Es : lsrc (plex p) = pre ++ l) by (destruct (reached_stream _ f p W R) as (all & don & cs & _ & _ & _ & E & _); exact E).
  assert (G : is_name (tkind t) -> parse_str_lower (Cursor (blen pre) t) (pre ++ l) = Some (lower_text v)).
  { intro K. apply (value_lower_case f pre l t); auto.
    - exact (well_behaved_suffix _ _ _ W).
    - intro Q. apply Z, in_or_app. now right.
    - intro Q. exfalso. unfold is_name in K. rewrite Q in K. cbn in K. intuition discriminate.
    - unfold is_name in K. cbn in K |- *. tauto.
    - right. split; [exact Ne |]. intro Q. unfold is_name in K. rewrite Q in K. cbn in K. intuition discriminate. }
  split.
  - intros (q & E). destruct (proj1 (set_phrases m ND k Kn p U) _ q E) as ((K & w & Ew & I) & _). unfold kind_of in K. cbn [fst snd ctok] in *. rewrite Es in Ew. split; [exact K |].
    rewrite G in Ew by (now rewrite K). injection Ew as <-. exact I.
  - intros (K & I). assert (Wd : word_phrase k m (lsrc (plex p)) (x, Cursor (blen pre) t)).
    { split; [exact K |]. exists (lower_text v). cbn [fst snd]. rewrite Es. split; [apply G; now rewrite K | exact I]. }
    destruct (proj2 (set_phrases m ND k Kn p U) _ rest Wd Logic.I Sp) as (q & E & _). eauto.
Qed.
