From Coq Require Import ZifyBool ZifyNat ZifyN.
From Coq Require Import List.
From Verif Require Import Features SpecLex SpecTrace SpecParser SpecSyntax SpecTraits SpecFeatures SpecToken LexBase TokenProofs KindProofs LexFacts LexTrace
  ParserProofs ParserProofs2 ParserProofs3 ParserProofs4 CompareProofs SyntaxProofs SyntaxTotal TraitsTotal CursorProofs FeatureProofs FeatureProofs2 FeatureProofs3 FeatureProofs4.
Open Scope N_scope.
Open Scope list_scope.

Lemma keywords_nodup : NoDup (map fst CONDITION_KEYWORDS).
Proof. repeat constructor; cbn; intuition discriminate. Qed.
Lemma ident_name : is_name K_Ident.
Proof. now left. Qed.
Notation peek_kw := (peek_set K_Ident CONDITION_KEYWORDS).
Lemma keyword_det : forall src a b c, keyword_at src a c -> keyword_at src b c -> a = b.
Proof. exact (is_word_det CONDITION_KEYWORDS keywords_nodup K_Ident). Qed.
(* the next token and whether it is a keyword *)
Lemma kw_next : forall p rest, usual p -> sees p rest -> exists c b, peek_next p = Some c /\ peek_kw p c = Some b /\ peek peek_kw p = Some b /\
  (if b then exists kw r, rest = c :: r /\ keyword_at (lsrc (plex p)) kw c /\ build_set CONDITION_KEYWORDS p c = Some (kw, c)
   else forall kw, ~ begins_with (keyword_at (lsrc (plex p)) kw) rest).
Proof.
  intros p [| c rest] U Sp.
  - destruct (sees_nil p Sp) as (E & _). exists (eof_cursor p), false. unfold peek. rewrite E, (peek_set_eof CONDITION_KEYWORDS K_Ident ident_name). repeat split. intros kw [].
  - destruct (next_sees p c rest Sp) as (_ & _ & _ & E). destruct (peek_set_sees CONDITION_KEYWORDS keywords_nodup K_Ident ident_name p _ c U Sp (or_introl eq_refl)) as (b & Eb & H). exists c, b. unfold peek. rewrite E, Eb. repeat split. destruct b.
    + destruct (proj1 H eq_refl) as (kw & W). exists kw, rest. split; [reflexivity |]. split; [exact W |]. exact (build_word CONDITION_KEYWORDS keywords_nodup K_Ident p kw c W).
    + intros kw W. assert (false = true) by (apply H; eauto). discriminate.
Qed.
Lemma solid_kept : forall p c, usual p -> kind_of c <> K_Whitespace /\ kind_of c <> K_Comment -> ~ in_kinds (pskip p) c.
Proof.
  intros p c (Sk & _) (K1 & K2) H. rewrite Sk in H. unfold in_kinds, KS_TRIVIA in H. apply kindset_new_spec in H. unfold kind_of in *. cbn in H. intuition congruence.
Qed.
Lemma begins_det : forall (ok : cursor -> Prop) c l, begins_with ok (c :: l) -> ok c.
Proof. auto. Qed.
Section Conditions.
  Context {F : Type} (feature_p : P F) (okf : text -> F -> Prop) (fc : F -> list cursor) (Hf : reads_phrases feature_p okf fc anything) (Nk : no_keyword_first okf fc) (So : solid okf fc).
  Lemma feature_took : forall p f q, usual p -> feature_p p = Some (Ok f, q) -> okf (lsrc (plex p)) f /\ took p q (fc f) /\ usual q /\ exists rest, sees p (fc f ++ rest) /\ sees q rest.
  Proof.
    intros p f q U E. destruct (phrase_ok _ _ _ _ _ _ _ _ Hf U E) as (Of & T & Uq). split; [exact Of |]. split; [exact T |]. split; [exact Uq |]. apply (took_kept p q _ T). apply Forall_forall. intros c I. apply (solid_kept p c U). exact (So _ f c Of I).
  Qed.
  Lemma not_kw_feature : forall p c r kw f q, usual p -> sees p (c :: r) -> keyword_at (lsrc (plex p)) kw c -> feature_p p <> Some (Ok f, q).
  Proof.
    intros p c r kw f q U Sp K E. destruct (feature_took p f q U E) as (Of & T & Uq & rest & S1 & _). pose proof (Nk _ _ Of) as H. destruct (fc f) as [| d l] eqn:Ef; [exact H |].
    pose proof (sees_det _ _ _ Sp S1) as Eq. injection Eq as <- _. exact (H kw K).
  Qed.
  Lemma loop_ok : forall n f kw p l q, usual p -> condition_loop feature_p n f kw p = Some (Ok l, q) ->
    exists f2 rest, l = [(f, Some kw); (f2, None)] /\ okf (lsrc (plex p)) f2 /\ took p q (fc f2) /\ sees p (fc f2 ++ rest) /\ sees q rest /\ ~ begins_with (keyword_at (lsrc (plex p)) KwAnd) rest.
  Proof.
    intros n f kw p l q U E. destruct n as [| n]; [discriminate |]. cbn [condition_loop] in E. apply bind_ok in E. destruct E as (f2 & p1 & E1 & E).
    destruct (feature_took p f2 p1 U E1) as (Of & T & U1 & rest & S0 & S1). destruct (kw_next p1 rest U1 S1) as (c & b & Ec & Eb & _ & H). rewrite Ec, Eb in E. rewrite (took_src _ _ _ T) in H. destruct b.
    - destruct H as (kw2 & r & -> & K & B). rewrite B in E. destruct kw2.
      + exfalso. apply pmap_inv in E. destruct E as (l' & E & _). destruct n as [| n]; [discriminate |]. cbn [condition_loop] in E. apply bind_ok in E. destruct E as (f3 & p2 & E2 & _).
        rewrite <- (took_src _ _ _ T) in K. exact (not_kw_feature p1 c r KwAnd f3 p2 U1 S1 K E2).
      + injection E as <- <-. exists f2, (c :: r). repeat split; auto. intro B'. pose proof (keyword_det _ _ _ _ K B'). discriminate.
      + injection E as <- <-. exists f2, (c :: r). repeat split; auto. intro B'. pose proof (keyword_det _ _ _ _ K B'). discriminate.
    - injection E as <- <-. exists f2, rest. repeat split; auto.
  Qed.
  Lemma loop_go : forall n f kw p f2 rest, usual p -> okf (lsrc (plex p)) f2 -> sees p (fc f2 ++ rest) -> ~ begins_with (keyword_at (lsrc (plex p)) KwAnd) rest ->
    exists q, condition_loop feature_p (S n) f kw p = Some (Ok [(f, Some kw); (f2, None)], q) /\ took p q (fc f2).
  Proof.
    intros n f kw p f2 rest U Of Sp Nb. destruct (phrase_go _ _ _ _ _ p f2 rest Hf U Of I Sp) as (q & E & T & Uq & Sq). exists q. split; [| exact T].
    cbn [condition_loop]. rewrite (bind_go _ _ _ _ _ _ _ E). destruct (kw_next q rest Uq Sq) as (c & b & -> & -> & _ & H). rewrite (took_src _ _ _ T) in H. destruct b; [| reflexivity].
    destruct H as (kw2 & r & -> & K & ->). destruct kw2; [| reflexivity | reflexivity]. exfalso. exact (Nb K).
  Qed.
  Lemma sfuel_pos : forall p, exists n, sfuel p = S n.
  Proof. intro p. unfold sfuel. eexists. reflexivity. Qed.
  Theorem condition_sound : forall p x q, usual p -> condition_t feature_p p = Some (Ok x, q) ->
    exists used rest, sees p (used ++ rest) /\ sees q rest /\ took p q used /\ accepted okf fc (lsrc (plex p)) x used rest.
  Proof.
    intros p x q U E. unfold condition_t in E. destruct (sees_exists p U) as (l & Sp). destruct (kw_next p l U Sp) as (c & b & Ec & Eb & _ & H). rewrite Ec, Eb in E. destruct b.
    - destruct H as (kw & r & -> & K & B). rewrite B in E. destruct kw; [unfold fail_text in E; destruct (parse_str _ _); discriminate | | unfold fail_text in E; destruct (parse_str _ _); discriminate].
      exfalso. apply pmap_inv in E. destruct E as (f & E & _). exact (not_kw_feature p c r KwNot f q U Sp K E).
    - apply bind_ok in E. destruct E as (f & p1 & E1 & E). destruct (feature_took p f p1 U E1) as (Of & T & U1 & rest & S0 & S1). apply bind_ok in E. destruct E as (o & p2 & E2 & E).
      destruct (kw_next p1 rest U1 S1) as (c1 & b1 & Ec1 & Eb1 & Pb1 & H1). rewrite (took_src _ _ _ T) in H1. unfold parse_if_peek in E2. rewrite Pb1 in E2. destruct b1.
      + destruct H1 as (kw & r & -> & K & B). apply pmap_inv in E2. destruct E2 as ([kw' k] & E2 & ->).
        destruct (phrase_ok _ _ _ _ _ _ _ _ (set_phrases CONDITION_KEYWORDS keywords_nodup K_Ident ident_name) U1 E2) as (W & T2 & U2). cbn [word_cursors snd] in T2. unfold word_phrase in W. cbn [fst snd] in W.
        assert (k = c1 /\ sees p2 r) as (-> & S2).
        { destruct (took_kept p1 p2 [k] T2) as (r' & S1' & S2').
          - constructor; [| constructor]. apply (solid_kept p1 k U1). rewrite (proj1 W). split; discriminate.
          - pose proof (sees_det _ _ _ S1 S1') as Eq. injection Eq as <- <-. auto. }
        rewrite (took_src _ _ _ T) in W. pose proof (keyword_det _ _ _ _ W K) as ->.
        assert (Hsrc : lsrc (plex p2) = lsrc (plex p)) by (rewrite (took_src _ _ _ T2); exact (took_src _ _ _ T)).
        destruct kw.
        * apply pmap_inv in E. destruct E as (l2 & E & ->). destruct (loop_ok _ _ _ _ _ _ U2 E) as (f2 & rest & -> & Of2 & T3 & S3 & Sq & Nb). rewrite Hsrc in Of2, Nb.
          pose proof (sees_det _ _ _ S2 S3) as ->. exists (fc f ++ c1 :: fc f2), rest. rewrite <- app_assoc. split; [exact S0 |]. split; [exact Sq |]. split; [exact (took_trans _ _ _ _ _ T (took_cons _ _ _ _ _ T2 T3)) |].
          exists f, c1, f2. repeat split; auto; apply K.
        * apply pmap_inv in E. destruct E as (f2 & E & ->). destruct (feature_took p2 f2 q U2 E) as (Of2 & T3 & _ & rest & S3 & Sq). rewrite Hsrc in Of2.
          pose proof (sees_det _ _ _ S2 S3) as ->. exists (fc f ++ c1 :: fc f2), rest. rewrite <- app_assoc. split; [exact S0 |]. split; [exact Sq |]. split; [exact (took_trans _ _ _ _ _ T (took_cons _ _ _ _ _ T2 T3)) |].
          split; [reflexivity |]. split; [exact K |]. split; [exact Of2 |]. exists f. auto.
        * apply pmap_inv in E. destruct E as (l2 & E & ->). destruct (loop_ok _ _ _ _ _ _ U2 E) as (f2 & rest & -> & Of2 & T3 & S3 & Sq & Nb). rewrite Hsrc in Of2, Nb.
          pose proof (sees_det _ _ _ S2 S3) as ->. exists (fc f ++ c1 :: fc f2), rest. rewrite <- app_assoc. split; [exact S0 |]. split; [exact Sq |]. split; [exact (took_trans _ _ _ _ _ T (took_cons _ _ _ _ _ T2 T3)) |].
          exists f, c1, f2. repeat split; auto; apply K.
      + injection E2 as <- <-. injection E as <- <-. exists (fc f), rest. repeat split; auto.
  Qed.
  Lemma first_not_kw : forall p f l, usual p -> okf (lsrc (plex p)) f -> sees p (fc f ++ l) -> exists c, peek_next p = Some c /\ peek_kw p c = Some false.
  Proof.
    intros p f l U Of Sp. destruct (kw_next p _ U Sp) as (c & b & Ec & Eb & _ & H). exists c. split; [exact Ec |]. destruct b; [| exact Eb]. exfalso. destruct H as (kw & r & Er & K & _).
    pose proof (Nk _ _ Of) as Nf. destruct (fc f) as [| d l']; [exact Nf |]. injection Er as -> _. exact (Nf kw K).
  Qed.
  Theorem condition_complete : forall p x used rest, usual p -> sees p (used ++ rest) -> accepted okf fc (lsrc (plex p)) x used rest ->
    exists q, condition_t feature_p p = Some (Ok x, q) /\ took p q used.
  Proof.
    intros p x used rest U Sp Ac.
    (* after the first feature and a keyword *)
    assert (Go : forall f k kw l, okf (lsrc (plex p)) f -> keyword_at (lsrc (plex p)) kw k -> sees p (fc f ++ k :: l) -> exists p2, usual p2 /\ sees p2 l /\ took p p2 (fc f ++ [k]) /\ lsrc (plex p2) = lsrc (plex p) /\
      condition_t feature_p p = match kw with KwNot => pmap (CNot (KwNot, k)) feature_p p2 | KwAnd => pmap CAnd (condition_loop feature_p (sfuel p2) f (KwAnd, k)) p2
        | KwOr => pmap COr (condition_loop feature_p (sfuel p2) f (KwOr, k)) p2 end).
    { intros f k kw l Of K S0. destruct (first_not_kw p f _ U Of S0) as (c & Ec & Eb). destruct (phrase_go _ _ _ _ _ p f _ Hf U Of I S0) as (p1 & E1 & T1 & U1 & S1).
      assert (K1 : word_phrase K_Ident CONDITION_KEYWORDS (lsrc (plex p1)) (kw, k)) by (unfold word_phrase; cbn [fst snd]; rewrite (took_src _ _ _ T1); exact K).
      destruct (phrase_go _ _ _ _ _ p1 (kw, k) l (set_phrases CONDITION_KEYWORDS keywords_nodup K_Ident ident_name) U1 K1 I S1) as (p2 & E2 & T2 & U2 & S2).
      exists p2. split; [exact U2 |]. split; [exact S2 |]. split; [exact (took_trans _ _ _ _ _ T1 T2) |]. split; [rewrite (took_src _ _ _ T2); exact (took_src _ _ _ T1) |].
      unfold condition_t. rewrite Ec, Eb, (bind_go _ _ _ _ _ _ _ E1). destruct (kw_next p1 _ U1 S1) as (c1 & b1 & Ec1 & Eb1 & Pb1 & H1). destruct b1.
      - assert (E3 : parse_if_peek peek_kw (parse_set K_Ident CONDITION_KEYWORDS) p1 = Some (Ok (Some (kw, k)), p2)) by (unfold parse_if_peek; rewrite Pb1; unfold pmap; now rewrite (bind_go _ _ _ _ _ _ _ E2)).
        rewrite (bind_go _ _ _ _ _ _ _ E3). destruct kw; reflexivity.
      - exfalso. apply (H1 kw). exact K1. }
    destruct x as [f | [kw k] f | l | l]; cbn [accepted] in Ac.
    - destruct Ac as (Of & -> & Nb). destruct (first_not_kw p f _ U Of Sp) as (c & Ec & Eb). destruct (phrase_go _ _ _ _ _ p f _ Hf U Of I Sp) as (p1 & E1 & T1 & U1 & S1). exists p1. split; [| exact T1].
      unfold condition_t. rewrite Ec, Eb, (bind_go _ _ _ _ _ _ _ E1). destruct (kw_next p1 _ U1 S1) as (c1 & b1 & Ec1 & Eb1 & Pb1 & H1). rewrite (took_src _ _ _ T1) in H1. destruct b1.
      + exfalso. destruct H1 as (kw & r & -> & K & _). exact (Nb kw K).
      + unfold bind, parse_if_peek. rewrite Pb1. reflexivity.
    - destruct Ac as (-> & K & Of & f0 & Of0 & ->). rewrite <- app_assoc in Sp. destruct (Go f0 k KwNot _ Of0 K Sp) as (p2 & U2 & S2 & T2 & Es & ->). rewrite <- Es in Of.
      destruct (phrase_go _ _ _ _ _ p2 f _ Hf U2 Of I S2) as (q & E & T & _ & _). exists q. split; [unfold pmap; now rewrite (bind_go _ _ _ _ _ _ _ E) |].
      replace (fc f0 ++ k :: fc f) with ((fc f0 ++ [k]) ++ fc f) by (now rewrite <- app_assoc). exact (took_trans _ _ _ _ _ T2 T).
    - destruct Ac as (f & k & f2 & -> & Of & K & Of2 & -> & Nb). rewrite <- app_assoc in Sp. destruct (Go f k KwAnd _ Of K Sp) as (p2 & U2 & S2 & T2 & Es & ->). rewrite <- Es in Of2, Nb.
      destruct (sfuel_pos p2) as (n & ->). destruct (loop_go n f (KwAnd, k) p2 f2 rest U2 Of2 S2 Nb) as (q & E & T). exists q. split; [unfold pmap; now rewrite (bind_go _ _ _ _ _ _ _ E) |].
      replace (fc f ++ k :: fc f2) with ((fc f ++ [k]) ++ fc f2) by (now rewrite <- app_assoc). exact (took_trans _ _ _ _ _ T2 T).
    - destruct Ac as (f & k & f2 & -> & Of & K & Of2 & -> & Nb). rewrite <- app_assoc in Sp. destruct (Go f k KwOr _ Of K Sp) as (p2 & U2 & S2 & T2 & Es & ->). rewrite <- Es in Of2, Nb.
      destruct (sfuel_pos p2) as (n & ->). destruct (loop_go n f (KwOr, k) p2 f2 rest U2 Of2 S2 Nb) as (q & E & T). exists q. split; [unfold pmap; now rewrite (bind_go _ _ _ _ _ _ _ E) |].
      replace (fc f ++ k :: fc f2) with ((fc f ++ [k]) ++ fc f2) by (now rewrite <- app_assoc). exact (took_trans _ _ _ _ _ T2 T).
  Qed.
  (* used and rest are determined by the parser and the result *)
  Theorem leading_not : forall p k l x q, usual p -> sees p (k :: l) -> keyword_at (lsrc (plex p)) KwNot k -> condition_t feature_p p <> Some (Ok x, q).
  Proof.
    intros p k l x q U Sp K E. unfold condition_t in E. destruct (kw_next p _ U Sp) as (c & b & Ec & Eb & _ & H). rewrite Ec, Eb in E. destruct b; [| exact (H KwNot K)].
    destruct H as (kw & r & Er & K' & B). injection Er as -> ->. rewrite B in E. pose proof (keyword_det _ _ _ _ K K') as <-. apply pmap_inv in E. destruct E as (f & E & _). exact (not_kw_feature p c r KwNot f q U Sp K E).
  Qed.
  Theorem chain_of_and : forall p f k f2 k2 rest x q, usual p -> okf (lsrc (plex p)) f -> keyword_at (lsrc (plex p)) KwAnd k -> okf (lsrc (plex p)) f2 -> keyword_at (lsrc (plex p)) KwAnd k2 ->
    sees p (fc f ++ k :: fc f2 ++ k2 :: rest) -> condition_t feature_p p <> Some (Ok x, q).
  Proof.
    intros p f k f2 k2 rest x q U Of K Of2 K2 Sp E. unfold condition_t in E. destruct (first_not_kw p f _ U Of Sp) as (c & Ec & Eb). rewrite Ec, Eb in E.
    destruct (phrase_go _ _ _ _ _ p f _ Hf U Of I Sp) as (p1 & E1 & T1 & U1 & S1). rewrite (bind_go _ _ _ _ _ _ _ E1) in E.
    assert (K1 : word_phrase K_Ident CONDITION_KEYWORDS (lsrc (plex p1)) (KwAnd, k)) by (unfold word_phrase; cbn [fst snd]; rewrite (took_src _ _ _ T1); exact K).
    destruct (phrase_go _ _ _ _ _ p1 (KwAnd, k) _ (set_phrases CONDITION_KEYWORDS keywords_nodup K_Ident ident_name) U1 K1 I S1) as (p2 & E2 & T2 & U2 & S2).
    destruct (kw_next p1 _ U1 S1) as (c1 & b1 & _ & _ & Pb1 & H1). destruct b1; [| exact (H1 KwAnd K1)].
    assert (E3 : parse_if_peek peek_kw (parse_set K_Ident CONDITION_KEYWORDS) p1 = Some (Ok (Some (KwAnd, k)), p2)) by (unfold parse_if_peek; rewrite Pb1; unfold pmap; now rewrite (bind_go _ _ _ _ _ _ _ E2)).
    rewrite (bind_go _ _ _ _ _ _ _ E3) in E. apply pmap_inv in E. destruct E as (l2 & E & _). destruct (loop_ok _ _ _ _ _ _ U2 E) as (f2' & rest' & -> & Of2' & T3 & S3 & Sq & Nb).
    assert (Es : lsrc (plex p2) = lsrc (plex p)) by (rewrite (took_src _ _ _ T2); exact (took_src _ _ _ T1)). rewrite Es in Of2', Nb. rewrite <- Es in Of2.
    destruct (phrase_go _ _ _ _ _ p2 f2 _ Hf U2 Of2 I S2) as (p3 & E4 & T4 & U3 & S4). destruct (sfuel_pos p2) as (n & En). rewrite En in E. cbn [condition_loop] in E. rewrite (bind_go _ _ _ _ _ _ _ E4) in E.
    destruct (kw_next p3 _ U3 S4) as (c3 & b3 & Ec3 & Eb3 & _ & H3). rewrite Ec3, Eb3 in E. rewrite (took_src _ _ _ T4), Es in H3. destruct b3; [| exact (H3 KwAnd K2)].
    destruct H3 as (kw & r & Er & K' & B). injection Er as <- <-. rewrite B in E. pose proof (keyword_det _ _ _ _ K2 K') as <-. apply pmap_inv in E. destruct E as (l' & E & _).
    destruct n as [| n]; [discriminate |]. cbn [condition_loop] in E. apply bind_ok in E. destruct E as (f3 & p4 & E5 & _). refine (not_kw_feature p3 k2 rest KwAnd f3 p4 U3 S4 _ E5). rewrite (took_src _ _ _ T4), Es. exact K2.
  Qed.
End Conditions.
