(* Selectors are read: pseudo-elements, namespaces. *)
From Coq Require Import ZifyBool ZifyNat ZifyN.
From Coq Require Import List.
From Verif Require Import Selectors SpecLex SpecTrace SpecParser SpecSyntax SpecTraits SpecFeatures SpecSelectors SpecSelectorText SpecCursor SpecToken LexBase TokenProofs KindProofs LexFacts LexTrace CursorProofs
  ParserProofs ParserProofs2 ParserProofs3 ParserProofs4 CompareProofs SyntaxProofs SyntaxTotal TraitsTotal RulesTotal FeatureProofs FeatureProofs2 FeatureProofs3 FeatureProofs4 FeatureProofs5 FeatureProofs6 SelectorProofs SelectorProofs2 SelectorProofs3 SelectorProofs4 SelectorProofs5 SelectorProofs6 SelectorProofs7 SelectorProofs8 SelectorProofs9 SelectorGoes SelectorGoes2.
Open Scope N_scope.
Open Scope list_scope.

Lemma set_at : forall V (m : list (text * V)) k p g c rest w, ahead (plex p) (g ++ c :: rest) -> Forall (in_kinds (pskip p)) g -> ~ in_kinds (pskip p) c -> kind_of c = k -> k <> K_Eof ->
  parse_str_lower c (lsrc (plex p)) = Some w ->
  exists q, parse_set k m p = Some (match map_get m w with Some v => Ok (v, c) | None => Err (D_Unexpected c) end, q) /\ ahead (plex q) rest /\ same_mode p q.
Proof.
  intros V m k p g c rest w A F St K Ne Ew. destruct (next_token p g c rest A F St) as (q & N & T & A'). exists q. split; [| split; [exact A' | exact (took_mode _ _ _ T)]].
  unfold parse_set, peek. rewrite (peek_next_spec p g (c :: rest) A F St). cbn [hd_or_eof]. unfold peek_set, look_up. rewrite (tok_kind k c K Ne), Ew, N. unfold build_set, look_up. rewrite (took_src _ _ _ T), Ew.
  destruct (map_get m w); reflexivity.
Qed.
Lemma set_goes : forall l p g c rest w, ready p -> ahead (plex p) (g ++ c :: rest) -> gap g -> kind_of c = K_Ident -> parse_str_lower c (lsrc (plex p)) = Some w -> In w l -> goes (parse_set K_Ident (words l)) p (w, c) rest.
Proof.
  intros l p g c rest w R A G K Ew I. destruct (set_at _ (words l) K_Ident p g c rest w A (gap_kinds p g R G) (solid_kinds p c R (solid_of c _ K solid_ident)) K ltac:(discriminate) Ew) as (q & E & A' & S).
  pose proof (words_get l w) as Gw. destruct (map_get (words l) w) as [v |]; [| contradiction]. destruct Gw as (-> & _). exists q. split; [exact E |]. split; [exact A' |]. split; [exact S |].
  apply (ready_moved 0 p q R). apply (moved_of p q (g ++ [c]) rest); auto. rewrite <- app_assoc. exact A.
Qed.
(* '::' *)
Lemma colons_goes : forall p g a b rest, ready p -> ahead (plex p) (g ++ a :: b :: rest) -> gap g -> kind_of a = K_Colon -> kind_of b = K_Colon -> goes parse_colon_colon p (a, b) rest.
Proof.
  intros p g a b rest R A G Ka Kb. unfold goes. rewrite colon_colon_eq. change (goes (bind (parse_kind K_Colon) (fun a0 => bind (unskipped (parse_kind K_Colon)) (fun b0 => ret (a0, b0)))) p (a, b) rest).
  eapply goes_bind; [exact (kind_goes K_Colon p g a (b :: rest) R A G Ka solid_colon) |]. intros q _ Aq _ Rq. eapply goes_bind; [exact (unskipped_kind_goes K_Colon q b rest Rq Aq Kb) |]. intros q2 _ A2 _ R2. now apply goes_ret.
Qed.
Lemma raw_colons : forall p a b rest, ahead (plex p) (a :: b :: rest) -> pskip p = KS_NONE -> kind_of a = K_Colon -> kind_of b = K_Colon -> exists q, parse_colon_colon p = Some (Ok (a, b), q) /\ ahead (plex q) rest /\ same_mode p q.
Proof.
  intros p a b rest A Sk Ka Kb. rewrite colon_colon_eq. destruct (raw_kind_goes K_Colon p a (b :: rest) A Sk Ka ltac:(discriminate)) as (q & E & Aq & Sq). rewrite (bind_go _ _ _ _ _ _ _ E).
  assert (Sk2 : pskip q = KS_NONE) by (destruct Sq as (_ & -> & _); exact Sk). destruct (raw_kind_goes K_Colon (set_skip q KS_NONE) b rest Aq eq_refl Kb ltac:(discriminate)) as (q2 & E2 & A2 & S2).
  exists (set_skip q2 (pskip q)). unfold bind, unskipped, ret. rewrite E2. split; [reflexivity |]. split; [exact A2 |]. apply (mode_trans _ _ _ Sq). destruct S2 as (x1 & x2 & x3 & x4 & x5). repeat split; assumption.
Qed.
Section Elements.
  Context (c1 c2 ident : cursor) (rest : list cursor) (w : text) (K1 : kind_of c1 = K_Colon) (K2 : kind_of c2 = K_Colon) (Ki : kind_of ident = K_Ident).
  Let toks := c1 :: c2 :: ident :: rest.
  Definition at_element (p : parser) : Prop := ready p /\ ahead (plex p) (c1 :: c2 :: ident :: rest) /\ parse_str_lower ident (lsrc (plex p)) = Some w.
  Lemma element_goes : forall l p, at_element p ->
    (In w l -> goes (parse_pseudo_element (words l)) p (w, ((c1, c2), ident)) rest) /\ (~ In w l -> exists e q, parse_pseudo_element (words l) p = Some (Err e, q)).
  Proof.
    intros l p (R & A & Ew). destruct (colons_goes p [] c1 c2 (ident :: rest) R A gap_nil K1 K2) as (q & E & Aq & Sq & Rq).
    destruct (unskipped_kind_goes K_Ident q ident rest Rq Aq Ki) as (q2 & E2 & A2 & S2 & R2). unfold parse_pseudo_element. pose proof (mode_trans _ _ _ Sq S2) as S.
    assert (Lu : look_up (words l) q2 ident = Some (map_get (words l) w)) by (unfold look_up; now rewrite (ahead_src _ _ S), Ew).
    pose proof (words_get l w) as G. split; intro I.
    - exists q2. rewrite (bind_go _ _ _ _ _ _ _ E), (bind_go _ _ _ _ _ _ _ E2), Lu. destruct (map_get (words l) w) as [v |]; [| contradiction]. destruct G as (-> & _). auto.
    - rewrite (bind_go _ _ _ _ _ _ _ E), (bind_go _ _ _ _ _ _ _ E2), Lu. destruct (map_get (words l) w) as [v |]; [destruct G; contradiction |].
      unfold fail_text. rewrite (ahead_src _ _ S). destruct (ready_names p R _ ident A) as (_ & (t & Et) & _); [cbn; auto | rewrite Ki; now left |]. rewrite Et. eauto.
  Qed.
  Lemma or_element_goes : forall v0 v (e : P pseudo_element_t) p, at_element p -> In w (vendor_elements v) -> (v = v0 \/ (forall q, at_element q -> goes e q (v, (w, ((c1, c2), ident))) rest)) ->
    goes (or_try (parse_pseudo_element (words (vendor_elements v0))) (pair v0) e) p (v, (w, ((c1, c2), ident))) rest.
  Proof.
    intros v0 v e p W I H. pose proof W as (R & A & Ew). destruct (element_goes (vendor_elements v0) p W) as (G1 & G2). destruct (existsb (text_eqb w) (vendor_elements v0)) eqn:B.
    - apply existsb_text in B. assert (v = v0). { destruct v, v0; try reflexivity; exfalso; (eapply elements_apart; [| exact B | exact I]); discriminate. } subst v. exact (try_goes _ _ _ (pair v0) _ _ _ _ (G1 B)).
    - assert (N : ~ In w (vendor_elements v0)) by (intro I'; apply existsb_text in I'; congruence). destruct H as [-> | H]; [contradiction |]. destruct (G2 N) as (err & q0 & E).
      eapply (try_not _ _ _ _ _ p err q0 _ _ _ R A); [| exact E |].
      + apply (run_weaken _ _ 0 3); [lia |]. exact (element_runs (words (vendor_elements v0)) (length toks) p toks (ready_usable p R) A (le_n _)).
      + intros q Rq Aq Sq. apply H. split; [exact Rq |]. split; [exact Aq |]. now rewrite (ahead_src _ _ Sq).
  Qed.
  Lemma pseudo_element_goes : forall v p, at_element p -> In w (vendor_elements v) -> goes parse_pseudo_element_ast p (v, (w, ((c1, c2), ident))) rest.
  Proof.
    intros v p W I. pose proof W as (R & A & Ew). unfold goes, parse_pseudo_element_ast.
    destruct (raw_colons (set_skip p KS_NONE) c1 c2 (ident :: rest) A eq_refl K1 K2) as (p1 & E1 & A1 & S1). rewrite E1. assert (Sk1 : pskip p1 = KS_NONE) by apply S1.
    destruct (set_at _ (words PSEUDO_ELEMENTS) K_Ident p1 [] ident rest w A1 (Forall_nil _)) as (p2 & E2 & A2 & S2); [rewrite Sk1; apply not_none | exact Ki | discriminate | rewrite (ahead_src _ _ S1); exact Ew |].
    rewrite E2. pose proof (words_get PSEUDO_ELEMENTS w) as G. destruct (back p p2 [c1; c2; ident] rest R A A2 (mode_trans _ _ _ S1 S2)) as (Sb & Rb). destruct (map_get (words PSEUDO_ELEMENTS) w) as [x |].
    - destruct G as (-> & B). assert (v = VStandard). { destruct v; try reflexivity; exfalso; (eapply (elements_apart VStandard); [| exact B | exact I]); discriminate. } subst v. eexists. split; [reflexivity |]. split; [exact A2 | auto].
    - assert (M : moved 0 p (set_skip p2 (pskip p))) by (apply (moved_of p (set_skip p2 (pskip p)) [c1; c2; ident] rest); [exact A | exact A2 | exact Sb]).
      pose proof (rewound_again p _ M) as Ag. set (q := rewind (set_skip p2 (pskip p)) (checkpoint p)) in *. pose proof (moved_mode _ _ _ (spent_moved _ _ _ (proj1 Ag))) as Sm.
      assert (Wq : at_element q). { split; [exact (again_ready _ _ R Ag) |]. split; [exact (proj2 Ag _ A) | now rewrite (ahead_src _ _ Sm)]. }
      destruct (peek_n_total q _ 2 ltac:(lia) (proj1 (proj2 Wq))) as (c & ->).
      assert (Nv : v <> VStandard) by (intros ->; contradiction).
      match goal with |- exists r, ?m q = _ /\ _ => assert (Gx : goes m q (v, (w, ((c1, c2), ident))) rest) end.
      { apply (or_element_goes VWebkit v); [exact Wq | exact I |]. destruct (match v with VWebkit => true | _ => false end) eqn:B1; [left; now destruct v | right; intros q2 W2].
        apply (or_element_goes VMoz v); [exact W2 | exact I |]. destruct (match v with VMoz => true | _ => false end) eqn:B2; [left; now destruct v | right; intros q3 W3].
        apply (or_element_goes VMs v); [exact W3 | exact I |]. destruct (match v with VMs => true | _ => false end) eqn:B3; [left; now destruct v | right; intros q4 W4].
        apply (or_element_goes VO v); [exact W4 | exact I |]. left. destruct v; congruence. }
      destruct Gx as (r & E' & A' & S' & R'). exists r. split; [exact E' |]. split; [exact A' |]. split; [exact (mode_trans _ _ _ Sm S') | exact R'].
  Qed.
End Elements.
Lemma built_at : forall A (k : peeker) (build : parser -> cursor -> option A) p g c rest x, ahead (plex p) (g ++ c :: rest) -> Forall (in_kinds (pskip p)) g -> ~ in_kinds (pskip p) c -> k p c = Some true ->
  (forall q, lsrc (plex q) = lsrc (plex p) -> build q c = Some x) -> exists q, parse_built k build p = Some (Ok x, q) /\ ahead (plex q) rest /\ same_mode p q.
Proof.
  intros A k build p g c rest x Ah F St K B. destruct (next_token p g c rest Ah F St) as (q & N & T & A'). exists q. split; [| split; [exact A' | exact (took_mode _ _ _ T)]].
  unfold parse_built, peek. rewrite (peek_next_spec p g (c :: rest) Ah F St). cbn [hd_or_eof]. rewrite K, N, (B q (took_src _ _ _ T)). reflexivity.
Qed.
Lemma tag_unique : forall src t t', tag_phrase src t -> tag_phrase src t' -> tag_cursor t = tag_cursor t' -> t = t'.
Proof.
  intros src t t' (_ & v & Ev & H) (_ & v' & Ev' & H') Ec. rewrite Ec, Ev' in Ev. injection Ev as <-.
  destruct t as [(a & b) | (a & b) | (a & b) | (a & b) | (a & b) | b | b], t' as [(a' & b') | (a' & b') | (a' & b') | (a' & b') | (a' & b') | b' | b']; cbn [tag_cursor fst snd] in *;
    try tauto; f_equal; try congruence; destruct H, H'; congruence.
Qed.
Lemma build_tag_goes : forall p t, tag_phrase (lsrc (plex p)) t -> build_tag p (tag_cursor t) = Some t.
Proof.
  intros p t Pt. pose proof Pt as (K & w & Ew & _). destruct (build_tag_spec p (tag_cursor t) w K Ew) as (t' & B & Ec & Pt'). rewrite B. f_equal. exact (tag_unique _ _ _ Pt' Pt Ec).
Qed.
Definition ns_tag_phrase (src : text) (x : ns_tag) : Prop := match x with NTag t => tag_phrase src t | NWildcard c => is_delim 42 c end.
Lemma ns_tag_solid : forall src x, ns_tag_phrase src x -> solid (ns_tag_cursor x).
Proof. intros src [t | c] H; cbn [ns_tag_cursor]; [destruct H as (K & _); exact (solid_of _ _ K solid_ident) | exact (delim_solid _ _ H)]. Qed.
Lemma ns_tag_at : forall p g x rest, ahead (plex p) (g ++ ns_tag_cursor x :: rest) -> Forall (in_kinds (pskip p)) g -> ~ in_kinds (pskip p) (ns_tag_cursor x) -> ns_tag_phrase (lsrc (plex p)) x ->
  exists q, parse_ns_tag p = Some (Ok x, q) /\ ahead (plex q) rest /\ same_mode p q.
Proof.
  intros p g x rest A F St Px. apply (built_at _ _ _ p g (ns_tag_cursor x) rest x A F St).
  - unfold peek_ns_tag. destruct x as [t | c]; cbn [ns_tag_cursor] in *.
    + destruct Px as (K & _). unfold peek_delim. rewrite (tok_not K_Delim (tag_cursor t)) by congruence. cbn [andb]. unfold peek_tag, peek_kind. f_equal. apply tok_kind; [exact K | discriminate].
    + now rewrite (is_delim_peek 42 p c Px).
  - intros q Sq. unfold build_ns_tag. destruct x as [t | c]; cbn [ns_tag_cursor] in *.
    + pose proof Px as (K & _). unfold peek_delim. rewrite (tok_not K_Delim (tag_cursor t)) by congruence. cbn [andb]. rewrite build_tag_goes by now rewrite Sq. reflexivity.
    + now rewrite (is_delim_peek 42 q c Px).
Qed.
Lemma ns_tag_goes : forall p g x rest, ready p -> ahead (plex p) (g ++ ns_tag_cursor x :: rest) -> gap g -> ns_tag_phrase (lsrc (plex p)) x -> goes parse_ns_tag p x rest.
Proof.
  intros p g x rest R A G Px. destruct (ns_tag_at p g x rest A (gap_kinds p g R G) (solid_kinds p _ R (ns_tag_solid _ _ Px)) Px) as (q & E & A' & S). exists q. split; [exact E |]. split; [exact A' |]. split; [exact S |].
  apply (ready_moved 0 p q R). apply (moved_of p q (g ++ [ns_tag_cursor x]) rest); auto. rewrite <- app_assoc. exact A.
Qed.
(* the prefixes "*|" and "name|", read as a prefix *)
Lemma ident_delim : forall ch p c, kind_of c = K_Ident -> peek_delim ch p c = Some false.
Proof. intros ch p c K. unfold peek_delim. rewrite (tok_not K_Delim c) by congruence. reflexivity. Qed.
Lemma ident_is_char : forall ch c, kind_of c = K_Ident -> tok_is_char (ctok c) ch = false.
Proof. intros ch c K. destruct (tok_is_char (ctok c) ch) eqn:B; [| reflexivity]. apply tok_is_char_spec in B. rewrite (ident_char c K) in B. discriminate. Qed.
Lemma prefix_goes : forall p g s pipe rest, ready p -> ahead (plex p) (g ++ s :: pipe :: rest) -> gap g -> is_delim 42 s -> is_delim 124 pipe -> goes parse_prefix p (PWildcard s pipe) rest.
Proof.
  intros p g s pipe rest R A G Ds Dp. unfold parse_prefix. eapply goes_or; [exact (delim_peek_at 124 p g s _ 42 R A G Ds) |]. cbn [N.eqb Pos.eqb].
  eapply goes_or; [exact (delim_peek_at 42 p g s _ 42 R A G Ds) |]. cbn [N.eqb Pos.eqb]. eapply goes_bind; [exact (delim_goes 42 p g s _ R A G Ds) |]. intros q _ Aq _ Rq.
  apply goes_map. exact (unskipped_delim_goes 124 q pipe rest Rq Aq Dp).
Qed.
(* what is seen after a name when nothing is skipped *)
Lemma raw_peek : forall k p c rest, ahead (plex p) (c :: rest) -> pskip p = KS_NONE -> peek k p = k p c.
Proof. intros k p c rest A Sk. unfold peek. rewrite (peek_next_spec p [] (c :: rest) A (Forall_nil _)); [reflexivity |]. rewrite Sk. apply not_none. Qed.
Lemma raw_peek2 : forall p c d rest, ahead (plex p) (c :: d :: rest) -> pskip p = KS_NONE -> peek_n p 2 = Some d.
Proof. intros p c d rest A Sk. rewrite (peek_n_spec p _ 2 A) by lia. rewrite Sk. rewrite !kept_cons by apply not_none. reflexivity. Qed.
Lemma namespace_goes : forall p x rest, ready p -> ahead (plex p) (namespace_cursors x ++ rest) -> fst x <> None -> (forall pipe, fst x <> Some (PNone pipe)) -> namespace_phrase (lsrc (plex p)) x ->
  goes parse_namespace p x rest.
Proof.
  intros p (pre & tag) rest R A N1 N2 (Px & Pt). cbn [fst snd] in *. fold (ns_tag_phrase (lsrc (plex p)) tag) in Pt. unfold namespace_cursors in A. cbn [fst snd] in A. rewrite <- app_assoc in A. cbn [app] in A.
  destruct pre as [[pipe | i pipe | s pipe] |]; [elim (N2 pipe eq_refl) | | | congruence]; cbn [prefix_cursors app] in A; unfold parse_namespace.
  - destruct Px as (Ki & Dp & _ & _). assert (Si := solid_of i _ Ki solid_ident).
    eapply goes_or; [exact (peek_double_at 42 124 p [] i _ R A gap_nil Si) |]. rewrite (ident_is_char 42 i Ki). cbn [andb].
    eapply goes_or; [rewrite (peek_at _ p [] i _ R A gap_nil Si); exact (ident_delim 124 p i Ki) |].
    eapply goes_bind; [exact (kind_goes K_Ident p [] i _ R A gap_nil Ki solid_ident) |]. intros q _ Aq Sq Rq. unfold goes.
    rewrite (raw_peek (peek_delim 124) (set_skip q KS_NONE) pipe (ns_tag_cursor tag :: rest) Aq eq_refl), (is_delim_peek 124 _ pipe Dp).
    rewrite (raw_peek (peek_double 124 61) (set_skip q KS_NONE) pipe (ns_tag_cursor tag :: rest) Aq eq_refl). unfold peek_double. rewrite (raw_peek2 (set_skip q KS_NONE) pipe (ns_tag_cursor tag) rest Aq eq_refl).
    rewrite (char_of 124 pipe 124 Dp). cbn [N.eqb Pos.eqb].
    assert (Ne : tok_is_char (ctok (ns_tag_cursor tag)) 61 = false). { destruct tag as [t | c]; cbn [ns_tag_cursor]; [destruct Pt as (K & _); exact (ident_is_char 61 _ K) | exact (char_of 61 c 42 Pt)]. }
    rewrite Ne. destruct (raw_delim_goes 124 (set_skip q KS_NONE) pipe (ns_tag_cursor tag :: rest) Aq eq_refl Dp) as (q2 & E2 & A2 & S2). rewrite E2. assert (Sk2 : pskip q2 = KS_NONE) by apply S2.
    destruct (ns_tag_at q2 [] tag rest A2 (Forall_nil _)) as (q3 & E3 & A3 & S3); [rewrite Sk2; apply not_none | rewrite (ahead_src _ _ S2); cbn [plex set_skip]; rewrite (ahead_src _ _ Sq); exact Pt |].
    rewrite E3. eexists. split; [reflexivity |]. split; [exact A3 |]. exact (back q q3 [pipe; ns_tag_cursor tag] rest Rq Aq A3 (mode_trans _ _ _ S2 S3)).
  - destruct Px as (Ds & Dp & _). eapply goes_or; [exact (peek_double_at 42 124 p [] s _ R A gap_nil (delim_solid _ _ Ds)) |]. rewrite (char_of 42 s 42 Ds). change (pipe :: ns_tag_cursor tag :: rest) with ([] ++ pipe :: ns_tag_cursor tag :: rest).
    rewrite (after_cons p [] pipe _ gap_nil (delim_solid _ _ Dp)), (char_of 124 pipe 124 Dp). cbn [N.eqb Pos.eqb andb].
    eapply goes_bind; [exact (prefix_goes p [] s pipe _ R A gap_nil Ds Dp) |]. intros q _ Aq Sq Rq. apply goes_map. apply (ns_tag_goes q [] tag rest Rq Aq gap_nil). now rewrite (ahead_src _ _ Sq).
Qed.
