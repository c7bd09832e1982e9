From Coq Require Import ZifyBool ZifyNat ZifyN.
From Coq Require Import String.
From Coq Require Import List.
From Verif Require Import Features SpecLex SpecTrace SpecParser SpecSyntax SpecTraits SpecFeatures SpecToken LexBase TokenProofs KindProofs LexFacts LexTrace
  ParserProofs ParserProofs2 ParserProofs3 ParserProofs4 CompareProofs SyntaxProofs SyntaxTotal TraitsTotal CursorProofs FeatureProofs FeatureProofs2.
Open Scope N_scope.
Open Scope list_scope.

Lemma took_cons : forall p q r c l, took p q [c] -> took q r l -> took p r (c :: l).
Proof. intros p q r c l T T'. exact (took_trans p q r [c] l T T'). Qed.
Lemma kind_ok : forall k p c q, usual p -> parse_kind k p = Some (Ok c, q) -> k <> K_Eof -> kind_of c = k /\ took p q [c] /\ usual q.
Proof. intros k p c q U E N. destruct (proj1 (phrases_kind k N p U) c q E) as (K & T). split; [exact K |]. split; [exact T | exact (usual_took _ _ _ U T)]. Qed.
Lemma kind_go : forall k p c rest, usual p -> kind_of c = k -> sees p (c :: rest) -> k <> K_Eof -> exists q, parse_kind k p = Some (Ok c, q) /\ took p q [c] /\ usual q /\ sees q rest.
Proof.
  intros k p c rest U K Sp N. destruct (proj2 (phrases_kind k N p U) c rest K I Sp) as (q & E & T). exists q. split; [exact E |]. split; [exact T |]. split; [exact (usual_took _ _ _ U T) |].
  exact (took_sees p q [c] rest T Sp).
Qed.
Lemma check_ok : forall c name p u q, check_name c name p = Some (Ok u, q) -> q = p /\ eq_ignore_ascii_case c (lsrc (plex p)) name = Some true.
Proof.
  intros c name p u q E. unfold check_name in E. destruct (eq_ignore_ascii_case c (lsrc (plex p)) name) as [[] |]; [injection E as <- <-; auto | | discriminate].
  unfold fail_text in E. destruct (parse_str _ _); discriminate.
Qed.
Lemma check_go : forall c name p, eq_ignore_ascii_case c (lsrc (plex p)) name = Some true -> check_name c name p = Some (Ok tt, p).
Proof. intros c name p E. unfold check_name. now rewrite E. Qed.
Lemma phrase_go : forall A (m : P A) ok cur fo p a rest, reads_phrases m ok cur fo -> usual p -> ok (lsrc (plex p)) a -> fo a rest -> sees p (cur a ++ rest) ->
  exists q, m p = Some (Ok a, q) /\ took p q (cur a) /\ usual q /\ sees q rest.
Proof.
  intros A m ok cur fo p a rest H U O Fo Sp. destruct (proj2 (H p U) a rest O Fo Sp) as (q & E & T). exists q. split; [exact E |]. split; [exact T |]. split; [exact (usual_took _ _ _ U T) |]. exact (took_sees p q _ rest T Sp).
Qed.
Lemma phrase_ok : forall A (m : P A) ok cur fo p a q, reads_phrases m ok cur fo -> usual p -> m p = Some (Ok a, q) -> ok (lsrc (plex p)) a /\ took p q (cur a) /\ usual q.
Proof. intros A m ok cur fo p a q H U E. destruct (proj1 (H p U) a q E) as (O & T). split; [exact O |]. split; [exact T | exact (usual_took _ _ _ U T)]. Qed.

(* ---- plain features ---- *)
(* a value parser that reads phrases, or runs into the end of the input *)
Definition nearly {V} (m : P V) (ok : text -> V -> Prop) (cur : V -> list cursor) : Prop := forall p, usual p ->
  (forall a q, m p = Some (Ok a, q) -> ok (lsrc (plex p)) a /\ took p q (cur a) \/ (forall k c q', k <> K_Eof -> parse_kind k q <> Some (Ok c, q'))) /\
  (forall a rest, ok (lsrc (plex p)) a -> sees p (cur a ++ rest) -> exists q, m p = Some (Ok a, q) /\ took p q (cur a)).
Lemma nearly_of : forall V (m : P V) ok cur, reads_phrases m ok cur anything -> nearly m ok cur.
Proof. intros V m ok cur H p U. split; [intros a q E; left; exact (proj1 (H p U) a q E) |]. intros a rest O Sp. exact (proj2 (H p U) a rest O I Sp). Qed.
Lemma plain_phrases : forall V name (value_p : P V) okv vc, nearly value_p okv vc -> reads_phrases (discrete_feature_t name value_p) (feature_phrase name okv) (plain_cursors vc) anything.
Proof.
  intros V name value_p okv vc Hv p U. split.
  - intros f q E. unfold discrete_feature_t in E. apply bind_ok in E. destruct E as (open & p1 & E1 & E). destruct (kind_ok _ _ _ _ U E1 ltac:(discriminate)) as (K1 & T1 & U1).
    apply bind_ok in E. destruct E as (ident & p2 & E2 & E). destruct (kind_ok _ _ _ _ U1 E2 ltac:(discriminate)) as (K2 & T2 & U2).
    apply bind_ok in E. destruct E as (u & p3 & E3 & E). destruct (check_ok _ _ _ _ _ E3) as (-> & C). rewrite (took_src _ _ _ T2), (took_src _ _ _ T1) in C.
    apply or_peek_ok in E. destruct E as [(_ & E) | (_ & E)].
    + apply bind_ok in E. destruct E as (colon & p4 & E4 & E). destruct (kind_ok _ _ _ _ U2 E4 ltac:(discriminate)) as (K4 & T4 & U4).
      apply bind_ok in E. destruct E as (v & p5 & E5 & E). apply bind_ok in E. destruct E as (close & p6 & E6 & E). injection E as <- <-.
      destruct (proj1 (Hv p4 U4) v p5 E5) as [(Ov & T5) | Bad]; [| exfalso; apply (Bad K_RightParen close p6 ltac:(discriminate)); exact E6].
      destruct (kind_ok _ _ _ _ (usual_took _ _ _ U4 T5) E6 ltac:(discriminate)) as (K6 & T6 & _).
      rewrite (took_src _ _ _ T4), (took_src _ _ _ T2), (took_src _ _ _ T1) in Ov. split; [repeat split; auto |]. unfold plain_cursors. cbn [fopen fname fvalue fclose app].
      exact (took_cons _ _ _ _ _ T1 (took_cons _ _ _ _ _ T2 (took_cons _ _ _ _ _ T4 (took_trans _ _ _ _ _ T5 T6)))).
    + apply bind_ok in E. destruct E as (close & p6 & E6 & E). injection E as <- <-. destruct (kind_ok _ _ _ _ U2 E6 ltac:(discriminate)) as (K6 & T6 & _).
      split; [repeat split; auto |]. exact (took_cons _ _ _ _ _ T1 (took_cons _ _ _ _ _ T2 T6)).
  - intros [open ident value close] rest (K1 & K2 & C & Hval & K6) _ Sp. unfold plain_cursors in Sp |- *. cbn [fopen fname fvalue fclose] in *. cbn [app] in Sp.
    destruct (kind_go _ _ _ _ U K1 Sp ltac:(discriminate)) as (p1 & E1 & T1 & U1 & S1). destruct (kind_go _ _ _ _ U1 K2 S1 ltac:(discriminate)) as (p2 & E2 & T2 & U2 & S2).
    unfold discrete_feature_t. rewrite (bind_go _ _ _ _ _ _ _ E1), (bind_go _ _ _ _ _ _ _ E2). rewrite <- (took_src _ _ _ T1), <- (took_src _ _ _ T2) in C.
    rewrite (bind_go _ _ _ _ _ _ _ (check_go _ _ _ C)). unfold or_peek. destruct value as [[colon v] |].
    + destruct Hval as (K4 & Ov). cbn [app] in S2. rewrite (peek_kind_sees _ _ _ _ S2), (proj2 (tok_is_sees _ _ _ _ S2 (or_introl eq_refl)) K4).
      destruct (kind_go _ _ _ _ U2 K4 S2 ltac:(discriminate)) as (p4 & E4 & T4 & U4 & S4). rewrite (bind_go _ _ _ _ _ _ _ E4). rewrite <- app_assoc in S4. cbn [app] in S4.
      rewrite <- (took_src _ _ _ T1), <- (took_src _ _ _ T2), <- (took_src _ _ _ T4) in Ov. destruct (proj2 (Hv p4 U4) v _ Ov S4) as (p5 & E5 & T5). rewrite (bind_go _ _ _ _ _ _ _ E5).
      pose proof (usual_took _ _ _ U4 T5) as U5. pose proof (took_sees _ _ _ _ T5 S4) as S5. destruct (kind_go _ _ _ _ U5 K6 S5 ltac:(discriminate)) as (p6 & E6 & T6 & _). rewrite (bind_go _ _ _ _ _ _ _ E6).
      exists p6. split; [reflexivity |]. exact (took_cons _ _ _ _ _ T1 (took_cons _ _ _ _ _ T2 (took_cons _ _ _ _ _ T4 (took_trans _ _ _ _ _ T5 T6)))).
    + cbn [app] in S2. rewrite (peek_kind_sees _ _ _ _ S2), (tok_is_false _ _ _ K_Colon S2 (or_introl eq_refl)) by congruence.
      destruct (kind_go _ _ _ _ U2 K6 S2 ltac:(discriminate)) as (p6 & E6 & T6 & _). rewrite (bind_go _ _ _ _ _ _ _ E6). exists p6. split; [reflexivity |]. exact (took_cons _ _ _ _ _ T1 (took_cons _ _ _ _ _ T2 T6)).
Qed.
Theorem discrete_phrases : forall V name (value_p : P V) okv vc, reads_phrases value_p okv vc anything -> reads_phrases (discrete_feature_t name value_p) (feature_phrase name okv) (plain_cursors vc) anything.
Proof. intros. apply plain_phrases. now apply nearly_of. Qed.
Lemma any_nearly : nearly parse_any any_token (fun c => [c]).
Proof.
  intros p U. split.
  - intros c q E. unfold parse_any, parse_single, peek in E. destruct (sees_at p U) as [Sp | (d & rest & Sp)].
    + right. destruct (sees_nil p Sp) as (Pn & q' & Nx). rewrite Pn, Nx in E. injection E as <- <-. intros k c' q2 N E2.
      pose proof U as (Sk & Us & cs & A). destruct Sp as (cs' & A' & Ek). rewrite (ahead_det _ _ A _ A') in Ek. destruct (skip_split (pskip p) cs) as (sk & r & -> & F & St).
      change ([] = kept (pskip p) (sk ++ r)) in Ek. rewrite (kept_skipped _ _ _ F), (kept_stop _ _ St) in Ek. destruct r as [| d r]; [| discriminate].
      destruct (next_spec p sk [] A F St) as (q3 & N3 & _ & A3 & _). rewrite Nx in N3. injection N3 as <-.
      destruct (parse_single_kind _ _ (fun c => c) q' [] _ _ (fun p o => kind_eof k p o N) A3 E2) as ([| ? ?] & ? & ? & Bad & _); discriminate.
    + left. destruct (next_sees p d rest Sp) as (q' & Nx & T & Pn). rewrite Pn, Nx in E. injection E as -> <-. split; [| exact T]. exact (proj1 (sees_kinds p _ c Sp (or_introl eq_refl))).
  - intros c rest K Sp. cbn [app] in Sp. destruct (next_sees p c rest Sp) as (q & Nx & T & Pn). exists q. split; [| exact T]. unfold parse_any, parse_single, peek. now rewrite Pn, Nx.
Qed.
Theorem boolean_phrases : forall name, reads_phrases (boolean_feature_t name) (feature_phrase name any_token) (plain_cursors (fun c => [c])) anything.
Proof. intro name. apply plain_phrases. exact any_nearly. Qed.

(* ---- comparisons ---- *)
Lemma comparison_nonempty : forall x, comparison_spelled x -> exists c r, comparison_cursors x = c :: r /\ kind_of c = K_Delim.
Proof. intros [c | c | a b | a b | c] H; cbn in *; eexists _, _; (split; [reflexivity |]); unfold is_delim, kind_of in *; tauto. Qed.
Theorem comparison_phrases : reads_phrases parse_comparison (fun _ => comparison_spelled) comparison_cursors comparison_follow.
Proof.
  intros p U. pose proof U as (Sk & Us & cs & A). split.
  - intros x q E. exact (comparison_sound p cs x q A E).
  - intros x rest Ox Fo Sp.
    enough (G : exists q, parse_comparison p = Some (Ok x, q)) by (destruct G as (q & E); exists q; split; [exact E | exact (proj2 (comparison_sound p cs x q A E))]).
    assert (NK : forall c r sk cs', sees p (c :: r) -> ahead (plex p) (sk ++ c :: cs') -> Forall (in_kinds (pskip p)) sk -> ~ in_kinds (pskip p) c -> r = kept (pskip p) cs').
    { intros c r sk cs' (cs0 & A0 & E0) A1 F St. rewrite (ahead_det _ _ A1 _ A0) in E0. change (c :: r = kept (pskip p) (sk ++ c :: cs')) in E0. rewrite (kept_skipped _ _ _ F), (kept_cons _ _ _ St) in E0. congruence. }
    assert (NE : forall c cs', sees p (c :: rest) -> rest = kept (pskip p) cs' -> no_equals rest -> tchar (ctok (next_kept p cs')) <> Some 61).
    { intros c cs' _ -> Ne. unfold next_kept. destruct (kept (pskip p) cs') as [| d r]; [discriminate | exact Ne]. }
    destruct x as [c | c | a b | a b | c]; cbn [comparison_cursors app] in Sp; cbn in Ox, Fo.
    + destruct (sees_next p _ _ Sp) as (sk & cs' & A1 & F & St & Er). apply (comparison_complete p sk c cs' A1 F St); [exact Ox | exact (NE c cs' Sp Er Fo)].
    + destruct (sees_next p _ _ Sp) as (sk & cs' & A1 & F & St & Er). apply (comparison_complete p sk c cs' A1 F St); [exact Ox | exact (NE c cs' Sp Er Fo)].
    + destruct Ox as (Da & Db & Ad). destruct (sees_adjacent p _ _ _ Sp Ad) as (sk & cs' & A1 & F & St & St2). apply (comparison_complete p sk a (b :: cs') A1 F St) with (rest' := cs'); auto.
    + destruct Ox as (Da & Db & Ad). destruct (sees_adjacent p _ _ _ Sp Ad) as (sk & cs' & A1 & F & St & St2). apply (comparison_complete p sk a (b :: cs') A1 F St) with (rest' := cs'); auto.
    + destruct (sees_next p _ _ Sp) as (sk & cs' & A1 & F & St & Er). apply (comparison_complete p sk c cs' A1 F St). exact Ox.
Qed.

(* ---- ranged features ---- *)
Section Ranged.
  Context {F V : Type} (peek_name : peeker) (name_p : P F) (okn : text -> F -> Prop) (fc : F -> list cursor) (legacy : F -> bool) (value_p : P V) (okv : text -> V -> Prop) (vc : V -> list cursor).
  Context (Pn : peeks_phrases peek_name okn fc) (Hn : reads_phrases name_p okn fc anything) (Hv : reads_phrases value_p okv vc anything).
  Theorem ranged_sound : forall p f q, usual p -> ranged_feature_t peek_name name_p legacy value_p p = Some (Ok f, q) -> ranged_phrase okn legacy okv (lsrc (plex p)) f /\ took p q (ranged_cursors fc vc f).
  Proof.
    intros p f q U E. unfold ranged_feature_t in E. apply bind_ok in E. destruct E as (open & p1 & E1 & E). destruct (kind_ok _ _ _ _ U E1 ltac:(discriminate)) as (K1 & T1 & U1).
    destruct (peek_next p1) as [c |]; [| discriminate]. apply bind_ok in E. destruct E as (o & p2 & E2 & E). apply if_peek_inv in E2. destruct o as [name |].
    - destruct (phrase_ok _ _ _ _ _ _ _ _ Hn U1 E2) as (On & T2 & U2). rewrite (took_src _ _ _ T1) in On. apply or_peek_ok in E. destruct E as [(_ & E) | (_ & E)].
      + apply bind_ok in E. destruct E as (colon & p3 & E3 & E). destruct (kind_ok _ _ _ _ U2 E3 ltac:(discriminate)) as (K3 & T3 & U3).
        apply bind_ok in E. destruct E as (v & p4 & E4 & E). destruct (phrase_ok _ _ _ _ _ _ _ _ Hv U3 E4) as (Ov & T4 & U4). rewrite (took_src _ _ _ T3), (took_src _ _ _ T2), (took_src _ _ _ T1) in Ov.
        apply bind_ok in E. destruct E as (close & p5 & E5 & E). injection E as <- <-. destruct (kind_ok _ _ _ _ U4 E5 ltac:(discriminate)) as (K5 & T5 & _).
        split; [repeat split; auto |]. exact (took_cons _ _ _ _ _ T1 (took_trans _ _ _ _ _ T2 (took_cons _ _ _ _ _ T3 (took_trans _ _ _ _ _ T4 T5)))).
      + destruct (legacy name) eqn:Lg; [unfold fail_text in E; destruct (parse_str _ _); discriminate |].
        apply bind_ok in E. destruct E as (cmp & p3 & E3 & E). destruct (phrase_ok _ _ _ _ _ _ _ _ comparison_phrases U2 E3) as (Oc & T3 & U3).
        apply bind_ok in E. destruct E as (v & p4 & E4 & E). destruct (phrase_ok _ _ _ _ _ _ _ _ Hv U3 E4) as (Ov & T4 & U4). rewrite (took_src _ _ _ T3), (took_src _ _ _ T2), (took_src _ _ _ T1) in Ov.
        apply bind_ok in E. destruct E as (close & p5 & E5 & E). injection E as <- <-. destruct (kind_ok _ _ _ _ U4 E5 ltac:(discriminate)) as (K5 & T5 & _).
        split; [repeat split; auto |]. exact (took_cons _ _ _ _ _ T1 (took_trans _ _ _ _ _ T2 (took_trans _ _ _ _ _ T3 (took_trans _ _ _ _ _ T4 T5)))).
    - destruct E2 as (-> & _). apply bind_ok in E. destruct E as (lv & p2 & E2 & E). destruct (phrase_ok _ _ _ _ _ _ _ _ Hv U1 E2) as (Ol & T2 & U2). rewrite (took_src _ _ _ T1) in Ol.
      apply bind_ok in E. destruct E as (lc & p3 & E3 & E). destruct (phrase_ok _ _ _ _ _ _ _ _ comparison_phrases U2 E3) as (Oc & T3 & U3).
      destruct (peek_next p3) as [c' |]; [| discriminate]. apply bind_ok in E. destruct E as (name & p4 & E4 & E). destruct (phrase_ok _ _ _ _ _ _ _ _ Hn U3 E4) as (On & T4 & U4).
      rewrite (took_src _ _ _ T3), (took_src _ _ _ T2), (took_src _ _ _ T1) in On. destruct (legacy name) eqn:Lg; [discriminate |]. apply or_peek_ok in E. destruct E as [(_ & E) | (_ & E)].
      + apply bind_ok in E. destruct E as (rc & p5 & E5 & E). destruct (phrase_ok _ _ _ _ _ _ _ _ comparison_phrases U4 E5) as (Or & T5 & U5).
        apply bind_ok in E. destruct E as (rv & p6 & E6 & E). destruct (phrase_ok _ _ _ _ _ _ _ _ Hv U5 E6) as (Ov & T6 & U6).
        rewrite (took_src _ _ _ T5), (took_src _ _ _ T4), (took_src _ _ _ T3), (took_src _ _ _ T2), (took_src _ _ _ T1) in Ov.
        apply bind_ok in E. destruct E as (close & p7 & E7 & E). injection E as <- <-. destruct (kind_ok _ _ _ _ U6 E7 ltac:(discriminate)) as (K7 & T7 & _).
        split; [repeat split; auto |]. exact (took_cons _ _ _ _ _ T1 (took_trans _ _ _ _ _ T2 (took_trans _ _ _ _ _ T3 (took_trans _ _ _ _ _ T4 (took_trans _ _ _ _ _ T5 (took_trans _ _ _ _ _ T6 T7)))))).
      + apply bind_ok in E. destruct E as (close & p7 & E7 & E). injection E as <- <-. destruct (kind_ok _ _ _ _ U4 E7 ltac:(discriminate)) as (K7 & T7 & _).
        split; [repeat split; auto |]. exact (took_cons _ _ _ _ _ T1 (took_trans _ _ _ _ _ T2 (took_trans _ _ _ _ _ T3 (took_trans _ _ _ _ _ T4 T7)))).
  Qed.
  Context (Nv : no_equals_first okv vc) (Nn : no_equals_first okn fc) (Apart : told_apart okv vc okn fc).
  Lemma follow_of : forall cmp l, no_equals l -> comparison_follow cmp l.
  Proof. intros [] l H; cbn; auto. Qed.
  Theorem ranged_complete : forall p f rest, usual p -> ranged_phrase okn legacy okv (lsrc (plex p)) f -> sees p (ranged_cursors fc vc f ++ rest) ->
    exists q, ranged_feature_t peek_name name_p legacy value_p p = Some (Ok f, q) /\ took p q (ranged_cursors fc vc f).
  Proof.
    intros p f rest U O Sp.
    assert (PnN : forall p1 open l, took p p1 [open] -> sees p (open :: l) -> exists c, peek_next p1 = Some c).
    { intros p1 open l T _. pose proof (usual_took _ _ _ U T) as (_ & _ & cs & A). exact (peek_next_total p1 cs A). }
    assert (NameFirst : forall p1 name l, usual p1 -> okn (lsrc (plex p1)) name -> sees p1 (fc name ++ l) ->
      exists q, parse_if_peek peek_name name_p p1 = Some (Ok (Some name), q) /\ took p1 q (fc name) /\ usual q /\ sees q l).
    { intros p1 name l U1 On S1. destruct (Pn p1 U1) as (b & Eb & Hb). rewrite (proj2 Hb) in Eb by eauto. destruct (phrase_go _ _ _ _ _ p1 name l Hn U1 On I S1) as (q & E & T & Uq & Sq). exists q. split; [| auto].
      unfold parse_if_peek. rewrite Eb. unfold pmap. now rewrite (bind_go _ _ _ _ _ _ _ E). }
    assert (ValueFirst : forall p1 v l, usual p1 -> okv (lsrc (plex p1)) v -> sees p1 (vc v ++ l) -> parse_if_peek peek_name name_p p1 = Some (Ok None, p1)).
    { intros p1 v l U1 Ov S1. destruct (Pn p1 U1) as (b & Eb & Hb). unfold parse_if_peek. rewrite Eb. destruct b; [| reflexivity]. destruct (proj1 Hb eq_refl) as (a & l' & On & S2).
      exfalso. exact (Apart _ _ _ _ _ Ov On (sees_det _ _ _ S1 S2)). }
    destruct f as [open name cmp v close | open v cmp name close | open lv lcmp name rcmp rv close | open name colon v close].
    - destruct O as (K1 & On & Lg & Oc & Ov & K5). cbn [ranged_cursors] in Sp |- *. cbn [app] in Sp. rewrite <- ?app_assoc in Sp.
      destruct (kind_go _ _ _ _ U K1 Sp ltac:(discriminate)) as (p1 & E1 & T1 & U1 & S1). destruct (PnN p1 open _ T1 Sp) as (c & Ec). rewrite <- (took_src _ _ _ T1) in On, Ov.
      destruct (NameFirst p1 name _ U1 On S1) as (p2 & E2 & T2 & U2 & S2). rewrite <- (took_src _ _ _ T2) in Ov.
      destruct (phrase_go _ _ _ _ _ p2 cmp _ comparison_phrases U2 Oc (follow_of cmp _ (Nv _ _ _ Ov)) S2) as (p3 & E3 & T3 & U3 & S3). rewrite <- (took_src _ _ _ T3) in Ov.
      destruct (phrase_go _ _ _ _ _ p3 v _ Hv U3 Ov I S3) as (p4 & E4 & T4 & U4 & S4). destruct (kind_go _ _ _ _ U4 K5 S4 ltac:(discriminate)) as (p5 & E5 & T5 & _).
      exists p5. split; [| exact (took_cons _ _ _ _ _ T1 (took_trans _ _ _ _ _ T2 (took_trans _ _ _ _ _ T3 (took_trans _ _ _ _ _ T4 T5))))].
      unfold ranged_feature_t. rewrite (bind_go _ _ _ _ _ _ _ E1), Ec, (bind_go _ _ _ _ _ _ _ E2). unfold or_peek. destruct (comparison_nonempty cmp Oc) as (d & r & Ed & Kd).
      assert (S2' := S2). rewrite Ed in S2'. cbn [app] in S2'. rewrite (peek_kind_sees _ _ _ _ S2'), (tok_is_false _ _ _ K_Colon S2' (or_introl eq_refl)) by congruence.
      rewrite Lg, (bind_go _ _ _ _ _ _ _ E3), (bind_go _ _ _ _ _ _ _ E4), (bind_go _ _ _ _ _ _ _ E5). reflexivity.
    - destruct O as (K1 & Ov & Oc & On & Lg & K5). cbn [ranged_cursors] in Sp |- *. cbn [app] in Sp. rewrite <- ?app_assoc in Sp.
      destruct (kind_go _ _ _ _ U K1 Sp ltac:(discriminate)) as (p1 & E1 & T1 & U1 & S1). destruct (PnN p1 open _ T1 Sp) as (c & Ec). rewrite <- (took_src _ _ _ T1) in On, Ov.
      pose proof (ValueFirst p1 v _ U1 Ov S1) as E0. destruct (phrase_go _ _ _ _ _ p1 v _ Hv U1 Ov I S1) as (p2 & E2 & T2 & U2 & S2). rewrite <- (took_src _ _ _ T2) in On.
      destruct (phrase_go _ _ _ _ _ p2 cmp _ comparison_phrases U2 Oc (follow_of cmp _ (Nn _ _ _ On)) S2) as (p3 & E3 & T3 & U3 & S3). rewrite <- (took_src _ _ _ T3) in On.
      destruct (phrase_go _ _ _ _ _ p3 name _ Hn U3 On I S3) as (p4 & E4 & T4 & U4 & S4). destruct (kind_go _ _ _ _ U4 K5 S4 ltac:(discriminate)) as (p5 & E5 & T5 & _).
      exists p5. split; [| exact (took_cons _ _ _ _ _ T1 (took_trans _ _ _ _ _ T2 (took_trans _ _ _ _ _ T3 (took_trans _ _ _ _ _ T4 T5))))].
      unfold ranged_feature_t. rewrite (bind_go _ _ _ _ _ _ _ E1), Ec, (bind_go _ _ _ _ _ _ _ E0), (bind_go _ _ _ _ _ _ _ E2), (bind_go _ _ _ _ _ _ _ E3).
      destruct U3 as (Sk3 & Us3 & cs3 & A3). destruct (peek_next_total p3 cs3 A3) as (c3 & Ec3). rewrite Ec3, (bind_go _ _ _ _ _ _ _ E4), Lg. unfold or_peek.
      cbn [app] in S4. rewrite (peek_kind_sees _ _ _ _ S4), (tok_is_false _ _ _ K_Delim S4 (or_introl eq_refl)) by congruence. rewrite (bind_go _ _ _ _ _ _ _ E5). reflexivity.
    - destruct O as (K1 & Ol & Oc & On & Lg & Or & Ov & K7). cbn [ranged_cursors] in Sp |- *. cbn [app] in Sp. rewrite <- ?app_assoc in Sp.
      destruct (kind_go _ _ _ _ U K1 Sp ltac:(discriminate)) as (p1 & E1 & T1 & U1 & S1). destruct (PnN p1 open _ T1 Sp) as (c & Ec). rewrite <- (took_src _ _ _ T1) in On, Ov, Ol.
      pose proof (ValueFirst p1 lv _ U1 Ol S1) as E0. destruct (phrase_go _ _ _ _ _ p1 lv _ Hv U1 Ol I S1) as (p2 & E2 & T2 & U2 & S2). rewrite <- (took_src _ _ _ T2) in On, Ov.
      destruct (phrase_go _ _ _ _ _ p2 lcmp _ comparison_phrases U2 Oc (follow_of lcmp _ (Nn _ _ _ On)) S2) as (p3 & E3 & T3 & U3 & S3). rewrite <- (took_src _ _ _ T3) in On, Ov.
      destruct (phrase_go _ _ _ _ _ p3 name _ Hn U3 On I S3) as (p4 & E4 & T4 & U4 & S4). rewrite <- (took_src _ _ _ T4) in Ov.
      destruct (phrase_go _ _ _ _ _ p4 rcmp _ comparison_phrases U4 Or (follow_of rcmp _ (Nv _ _ _ Ov)) S4) as (p5 & E5 & T5 & U5 & S5). rewrite <- (took_src _ _ _ T5) in Ov.
      destruct (phrase_go _ _ _ _ _ p5 rv _ Hv U5 Ov I S5) as (p6 & E6 & T6 & U6 & S6). destruct (kind_go _ _ _ _ U6 K7 S6 ltac:(discriminate)) as (p7 & E7 & T7 & _).
      exists p7. split; [| exact (took_cons _ _ _ _ _ T1 (took_trans _ _ _ _ _ T2 (took_trans _ _ _ _ _ T3 (took_trans _ _ _ _ _ T4 (took_trans _ _ _ _ _ T5 (took_trans _ _ _ _ _ T6 T7))))))].
      unfold ranged_feature_t. rewrite (bind_go _ _ _ _ _ _ _ E1), Ec, (bind_go _ _ _ _ _ _ _ E0), (bind_go _ _ _ _ _ _ _ E2), (bind_go _ _ _ _ _ _ _ E3).
      destruct U3 as (Sk3 & Us3 & cs3 & A3). destruct (peek_next_total p3 cs3 A3) as (c3 & Ec3). rewrite Ec3, (bind_go _ _ _ _ _ _ _ E4), Lg. unfold or_peek.
      destruct (comparison_nonempty rcmp Or) as (d & r & Ed & Kd). assert (S4' := S4). rewrite Ed in S4'. cbn [app] in S4'.
      rewrite (peek_kind_sees _ _ _ _ S4'), (proj2 (tok_is_sees _ _ _ _ S4' (or_introl eq_refl)) Kd).
      rewrite (bind_go _ _ _ _ _ _ _ E5), (bind_go _ _ _ _ _ _ _ E6), (bind_go _ _ _ _ _ _ _ E7). reflexivity.
    - destruct O as (K1 & On & K3 & Ov & K5). cbn [ranged_cursors] in Sp |- *. cbn [app] in Sp. rewrite <- ?app_assoc in Sp. cbn [app] in Sp. rewrite <- ?app_assoc in Sp.
      destruct (kind_go _ _ _ _ U K1 Sp ltac:(discriminate)) as (p1 & E1 & T1 & U1 & S1). destruct (PnN p1 open _ T1 Sp) as (c & Ec). rewrite <- (took_src _ _ _ T1) in On, Ov.
      destruct (NameFirst p1 name _ U1 On S1) as (p2 & E2 & T2 & U2 & S2). rewrite <- (took_src _ _ _ T2) in Ov.
      destruct (kind_go _ _ _ _ U2 K3 S2 ltac:(discriminate)) as (p3 & E3 & T3 & U3 & S3). rewrite <- (took_src _ _ _ T3) in Ov.
      destruct (phrase_go _ _ _ _ _ p3 v _ Hv U3 Ov I S3) as (p4 & E4 & T4 & U4 & S4). destruct (kind_go _ _ _ _ U4 K5 S4 ltac:(discriminate)) as (p5 & E5 & T5 & _).
      exists p5. split; [| exact (took_cons _ _ _ _ _ T1 (took_trans _ _ _ _ _ T2 (took_cons _ _ _ _ _ T3 (took_trans _ _ _ _ _ T4 T5))))].
      unfold ranged_feature_t. rewrite (bind_go _ _ _ _ _ _ _ E1), Ec, (bind_go _ _ _ _ _ _ _ E2). unfold or_peek.
      rewrite (peek_kind_sees _ _ _ _ S2), (proj2 (tok_is_sees _ _ _ _ S2 (or_introl eq_refl)) K3).
      rewrite (bind_go _ _ _ _ _ _ _ E3), (bind_go _ _ _ _ _ _ _ E4), (bind_go _ _ _ _ _ _ _ E5). reflexivity.
  Qed.
  Theorem ranged_phrases : reads_phrases (ranged_feature_t peek_name name_p legacy value_p) (ranged_phrase okn legacy okv) (ranged_cursors fc vc) anything.
  Proof. intros p U. split; [intros f q E; exact (ranged_sound p f q U E) | intros f rest O _ Sp; exact (ranged_complete p f rest U O Sp)]. Qed.
End Ranged.
