(* Selectors are read: the simple selectors. *)
From Coq Require Import ZifyBool ZifyNat ZifyN.
From Coq Require Import List.
From Verif Require Import Selectors SpecLex SpecTrace SpecParser SpecSyntax SpecTraits SpecFeatures SpecSelectors SpecSelectorText SpecCursor SpecToken LexBase TokenProofs KindProofs LexFacts LexTrace CursorProofs
  ParserProofs ParserProofs2 ParserProofs3 ParserProofs4 CompareProofs SyntaxProofs SyntaxTotal TraitsTotal RulesTotal FeatureProofs FeatureProofs2 FeatureProofs3 FeatureProofs4 FeatureProofs5 FeatureProofs6 SelectorProofs SelectorProofs2 SelectorProofs3 SelectorProofs4 SelectorProofs5 SelectorProofs6 SelectorProofs7 SelectorProofs8 SelectorProofs9 SelectorGoes.
Open Scope N_scope.
Open Scope list_scope.

Lemma gap_nil : gap [].
Proof. constructor. Qed.
Lemma solid_ident : solid_kind K_Ident.
Proof. repeat split; discriminate. Qed.
Lemma solid_colon : solid_kind K_Colon.
Proof. repeat split; discriminate. Qed.
Lemma class_goes : forall p dot name rest, ready p -> ahead (plex p) (dot :: name :: rest) -> is_delim 46 dot -> kind_of name = K_Ident -> goes parse_class p (dot, name) rest.
Proof.
  intros p dot name rest R A D K. unfold parse_class. eapply goes_bind; [exact (delim_goes 46 p [] dot (name :: rest) R A gap_nil D) |]. intros q _ Aq _ Rq.
  apply goes_map. exact (kind_goes K_Ident q [] name rest Rq Aq gap_nil K solid_ident).
Qed.
Lemma delim_peek_at : forall ch p g c rest ch', ready p -> ahead (plex p) (g ++ c :: rest) -> gap g -> is_delim ch' c -> peek (peek_delim ch) p = Some (ch =? ch').
Proof.
  intros ch p g c rest ch' R A G D. rewrite (peek_at _ p g c rest R A G (delim_solid _ _ D)). unfold peek_delim. f_equal. rewrite (tok_kind K_Delim c (proj1 D) ltac:(discriminate)). cbn [andb].
  destruct (tok_is_char (ctok c) ch) eqn:B; symmetry.
  - apply tok_is_char_spec in B. destruct D as (_ & D). apply N.eqb_eq. congruence.
  - apply N.eqb_neq. intros ->. destruct D as (_ & D). apply tok_is_char_spec in D. congruence.
Qed.
Lemma char_of : forall ch c ch', is_delim ch' c -> tok_is_char (ctok c) ch = (ch =? ch').
Proof.
  intros ch c ch' (_ & D). destruct (tok_is_char (ctok c) ch) eqn:B; symmetry.
  - apply tok_is_char_spec in B. apply N.eqb_eq. congruence.
  - apply N.eqb_neq. intros ->. apply tok_is_char_spec in D. congruence.
Qed.
Lemma combinator_goes : forall p x rest, ready p -> ahead (plex p) (combinator_cursors x ++ rest) -> combinator_phrase x -> (forall w, x <> CDescendant w) -> goes parse_combinator p x rest.
Proof.
  intros p x rest R A Px Nd. unfold parse_combinator.
  destruct x as [c | c | c | a b | c | c]; cbn [combinator_cursors combinator_phrase app] in *.
  - eapply goes_or; [exact (delim_peek_at 62 p [] c rest _ R A gap_nil Px) |]. cbn [N.eqb Pos.eqb]. apply goes_map. exact (delim_goes 62 p [] c rest R A gap_nil Px).
  - eapply goes_or; [exact (delim_peek_at 62 p [] c rest _ R A gap_nil Px) |]. cbn [N.eqb Pos.eqb].
    eapply goes_or; [exact (delim_peek_at 43 p [] c rest _ R A gap_nil Px) |]. cbn [N.eqb Pos.eqb]. apply goes_map. exact (delim_goes 43 p [] c rest R A gap_nil Px).
  - eapply goes_or; [exact (delim_peek_at 62 p [] c rest _ R A gap_nil Px) |]. cbn [N.eqb Pos.eqb]. eapply goes_or; [exact (delim_peek_at 43 p [] c rest _ R A gap_nil Px) |]. cbn [N.eqb Pos.eqb].
    eapply goes_or; [exact (delim_peek_at 126 p [] c rest _ R A gap_nil Px) |]. cbn [N.eqb Pos.eqb]. apply goes_map. exact (delim_goes 126 p [] c rest R A gap_nil Px).
  - destruct Px as (Da & Db & _).
    eapply goes_or; [exact (delim_peek_at 62 p [] a _ _ R A gap_nil Da) |]. cbn [N.eqb Pos.eqb]. eapply goes_or; [exact (delim_peek_at 43 p [] a _ _ R A gap_nil Da) |]. cbn [N.eqb Pos.eqb].
    eapply goes_or; [exact (delim_peek_at 126 p [] a _ _ R A gap_nil Da) |]. cbn [N.eqb Pos.eqb]. eapply goes_or; [exact (delim_peek_at 38 p [] a _ _ R A gap_nil Da) |]. cbn [N.eqb Pos.eqb].
    eapply goes_or; [exact (peek_double_at 124 124 p [] a (b :: rest) R A gap_nil (delim_solid _ _ Da)) |]. rewrite (char_of 124 a 124 Da). change (b :: rest) with ([] ++ b :: rest) at 1.
    rewrite (after_cons p [] b rest gap_nil (delim_solid _ _ Db)), (char_of 124 b 124 Db). cbn [N.eqb Pos.eqb andb].
    exact (goes_map _ _ (fun x => CColumn (fst x) (snd x)) _ p (a, b) rest (double_goes 124 124 p [] a b rest R A gap_nil Da Db)).
  - eapply goes_or; [exact (delim_peek_at 62 p [] c rest _ R A gap_nil Px) |]. cbn [N.eqb Pos.eqb]. eapply goes_or; [exact (delim_peek_at 43 p [] c rest _ R A gap_nil Px) |]. cbn [N.eqb Pos.eqb].
    eapply goes_or; [exact (delim_peek_at 126 p [] c rest _ R A gap_nil Px) |]. cbn [N.eqb Pos.eqb]. eapply goes_or; [exact (delim_peek_at 38 p [] c rest _ R A gap_nil Px) |]. cbn [N.eqb Pos.eqb].
    apply goes_map. exact (delim_goes 38 p [] c rest R A gap_nil Px).
  - elim (Nd c eq_refl).
Qed.
(* ---- words ---- *)
Lemma ahead_src : forall p q, same_mode p q -> lsrc (plex q) = lsrc (plex p).
Proof. intros p q (_ & _ & _ & E & _). exact E. Qed.
(* ':' and a word of the set or not *)
Lemma pseudo_goes : forall l p colon ident rest w, ready p -> ahead (plex p) (colon :: ident :: rest) -> kind_of colon = K_Colon -> kind_of ident = K_Ident -> parse_str_lower ident (lsrc (plex p)) = Some w ->
  (In w l -> goes (parse_pseudo_class (words l)) p (w, (colon, ident)) rest) /\
  (~ In w l -> exists e q, parse_pseudo_class (words l) p = Some (Err e, q)).
Proof.
  intros l p colon ident rest w R A Kc Ki Ew. destruct (kind_goes K_Colon p [] colon (ident :: rest) R A gap_nil Kc solid_colon) as (q & E & Aq & Sq & Rq).
  destruct (unskipped_kind_goes K_Ident q ident rest Rq Aq Ki) as (q2 & E2 & A2 & S2 & R2). unfold parse_pseudo_class. pose proof (mode_trans _ _ _ Sq S2) as S.
  assert (Lu : look_up (words l) q2 ident = Some (map_get (words l) w)) by (unfold look_up; now rewrite (ahead_src _ _ S), Ew).
  pose proof (words_get l w) as G. split; intro I.
  - exists q2. rewrite (bind_go _ _ _ _ _ _ _ E), (bind_go _ _ _ _ _ _ _ E2), Lu. destruct (map_get (words l) w) as [v |]; [| contradiction]. destruct G as (-> & _). auto.
  - rewrite (bind_go _ _ _ _ _ _ _ E), (bind_go _ _ _ _ _ _ _ E2), Lu. destruct (map_get (words l) w) as [v |]; [destruct G; contradiction |].
    unfold fail_text. rewrite (ahead_src _ _ S). destruct (ready_names p R _ ident A) as (_ & (t & Et) & _); [cbn; auto | rewrite Ki; now left |]. rewrite Et. eauto.
Qed.
Definition apart (l l' : list text) : bool := forallb (fun w => negb (existsb (text_eqb w) l')) l.
Lemma apart_spec : forall l l', apart l l' = true -> forall w, In w l -> ~ In w l'.
Proof. intros l l' H w I I'. unfold apart in H. rewrite forallb_forall in H. specialize (H w I). apply existsb_text in I'. now rewrite I' in H. Qed.
Lemma classes_apart : forall v v', v <> v' -> forall w, In w (vendor_classes v) -> ~ In w (vendor_classes v').
Proof. intros v v' N. apply apart_spec. destruct v, v'; try (elim N; reflexivity); vm_compute; reflexivity. Qed.
Lemma elements_apart : forall v v', v <> v' -> forall w, In w (vendor_elements v) -> ~ In w (vendor_elements v').
Proof. intros v v' N. apply apart_spec. destruct v, v'; try (elim N; reflexivity); vm_compute; reflexivity. Qed.
Lemma try_goes : forall A B (m : P A) (f : A -> B) (e : P B) p a rest, goes m p a rest -> goes (or_try m f e) p (f a) rest.
Proof. intros A B m f e p a rest (q & E & H). exists q. split; [| exact H]. unfold or_try, try_parse. now rewrite E. Qed.
Lemma try_not : forall A B (m : P A) (f : A -> B) (e : P B) p err q0 cs b rest, ready p -> ahead (plex p) cs -> well_run 0 m p -> m p = Some (Err err, q0) ->
  (forall q, ready q -> ahead (plex q) cs -> same_mode p q -> goes e q b rest) -> goes (or_try m f e) p b rest.
Proof.
  intros A B m f e p err q0 cs b rest R Ah (r & q1 & E1 & M) E H. rewrite E in E1. injection E1 as <- <-. unfold goes, or_try, try_parse. rewrite E. pose proof (rewound_again p q0 M) as Ag.
  pose proof (moved_mode _ _ _ (spent_moved _ _ _ (proj1 Ag))) as Sm. destruct (H _ (again_ready _ _ R Ag) (proj2 Ag cs Ah) Sm) as (q & E' & A' & S' & R'). exists q. split; [exact E' |]. split; [exact A' |]. split; [exact (mode_trans _ _ _ Sm S') | exact R'].
Qed.
Section Words.
  Context (colon ident : cursor) (rest : list cursor) (w : text) (Kc : kind_of colon = K_Colon) (Ki : kind_of ident = K_Ident).
  Let toks := colon :: ident :: rest.
  Definition at_word (p : parser) : Prop := ready p /\ ahead (plex p) (colon :: ident :: rest) /\ parse_str_lower ident (lsrc (plex p)) = Some w.
  Lemma or_class_goes : forall v0 v (e : P pseudo_class_t) p, at_word p -> In w (vendor_classes v) -> (v = v0 \/ (forall q, at_word q -> goes e q (v, (w, (colon, ident))) rest)) ->
    goes (or_try (parse_pseudo_class (words (vendor_classes v0))) (pair v0) e) p (v, (w, (colon, ident))) rest.
  Proof.
    intros v0 v e p (R & A & Ew) I H. destruct (pseudo_goes (vendor_classes v0) p colon ident rest w R A Kc Ki Ew) as (G1 & G2). destruct (existsb (text_eqb w) (vendor_classes v0)) eqn:B.
    - apply existsb_text in B. assert (v = v0). { destruct v, v0; try reflexivity; exfalso; (eapply classes_apart; [| exact B | exact I]); discriminate. } subst v. exact (try_goes _ _ _ (pair v0) _ _ _ _ (G1 B)).
    - assert (N : ~ In w (vendor_classes v0)) by (intro I'; apply existsb_text in I'; congruence). destruct H as [-> | H]; [contradiction |]. destruct (G2 N) as (err & q0 & E).
      eapply (try_not _ _ _ _ _ p err q0 _ _ _ R A); [| exact E |].
      + apply (run_weaken _ _ 0 2); [lia |]. exact (class_runs (words (vendor_classes v0)) (length toks) p toks (ready_usable p R) A (le_n _)).
      + intros q Rq Aq Sq. apply H. split; [exact Rq |]. split; [exact Aq |]. now rewrite (ahead_src _ _ Sq).
  Qed.
  Lemma pseudo_class_goes : forall v p, at_word p -> In w (vendor_classes v) -> goes parse_pseudo_class_ast p (v, (w, (colon, ident))) rest.
  Proof.
    intros v p W I. pose proof W as (R & A & Ew). destruct (pseudo_goes PSEUDO_CLASSES p colon ident rest w R A Kc Ki Ew) as (G1 & G2). unfold goes, parse_pseudo_class_ast.
    destruct (existsb (text_eqb w) PSEUDO_CLASSES) eqn:B.
    - apply existsb_text in B. assert (v = VStandard). { destruct v; try reflexivity; exfalso; (eapply (classes_apart VStandard); [| exact B | exact I]); discriminate. } subst v. destruct (G1 B) as (q & E & H). rewrite E. eauto.
    - assert (N : ~ In w PSEUDO_CLASSES) by (intro I'; apply existsb_text in I'; congruence). destruct (G2 N) as (err & q0 & E). rewrite E.
      destruct (class_runs (words PSEUDO_CLASSES) (length toks) p toks (ready_usable p R) A (le_n _)) as (r & q1 & E1 & M). rewrite E in E1. injection E1 as <- <-.
      pose proof (rewound_again p q0 M) as Ag. set (q := rewind q0 (checkpoint p)) in *. pose proof (moved_mode _ _ _ (spent_moved _ _ _ (proj1 Ag))) as Sm.
      assert (Wq : at_word q). { split; [exact (again_ready _ _ R Ag) |]. split; [exact (proj2 Ag _ A) | now rewrite (ahead_src _ _ Sm)]. }
      destruct (peek_n_total q _ 2 ltac:(lia) (proj1 (proj2 Wq))) as (c & ->).
      assert (Nv : v <> VStandard) by (intros ->; contradiction).
      match goal with |- exists r, ?m q = _ /\ _ => assert (G : goes m q (v, (w, (colon, ident))) rest) end.
      { apply (or_class_goes VWebkit v); [exact Wq | exact I |]. destruct (match v with VWebkit => true | _ => false end) eqn:B1; [left; now destruct v | right; intros q2 W2].
        apply (or_class_goes VMoz v); [exact W2 | exact I |]. destruct (match v with VMoz => true | _ => false end) eqn:B2; [left; now destruct v | right; intros q3 W3].
        apply (or_class_goes VMs v); [exact W3 | exact I |]. destruct (match v with VMs => true | _ => false end) eqn:B3; [left; now destruct v | right; intros q4 W4].
        apply (or_class_goes VO v); [exact W4 | exact I |]. left. destruct v; congruence. }
      destruct G as (r & E' & A' & S' & R'). exists r. split; [exact E' |]. split; [exact A' |]. split; [exact (mode_trans _ _ _ Sm S') | exact R'].
  Qed.
End Words.
