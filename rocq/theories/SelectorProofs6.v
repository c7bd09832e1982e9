(* Selectors: pseudo-classes, pseudo-elements and the values of functional ones. *)
From Coq Require Import ZifyBool ZifyNat ZifyN.
From Coq Require Import List.
From Verif Require Import Selectors SpecLex SpecTrace SpecParser SpecSyntax SpecTraits SpecFeatures SpecSelectors SpecCursor SpecToken LexBase TokenProofs KindProofs LexFacts LexTrace CursorProofs
  ParserProofs ParserProofs2 ParserProofs3 ParserProofs4 CompareProofs SyntaxProofs SyntaxTotal TraitsTotal RulesTotal FeatureProofs FeatureProofs2 FeatureProofs3 FeatureProofs4 FeatureProofs5 FeatureProofs6 SelectorProofs SelectorProofs2 SelectorProofs3 SelectorProofs4 SelectorProofs5.
Open Scope N_scope.
Open Scope list_scope.

(* ---- word lists without repetition ---- *)
Fixpoint nodupb (l : list text) : bool := match l with [] => true | w :: r => negb (existsb (text_eqb w) r) && nodupb r end.
Lemma nodupb_spec : forall l, nodupb l = true -> NoDup l.
Proof.
  induction l as [| w l IH]; cbn [nodupb]; intro H; constructor; apply andb_true_iff in H; destruct H as (H1 & H2); [| now apply IH].
  intro I. apply existsb_text in I. rewrite I in H1. discriminate.
Qed.
Lemma words_fst : forall l, map fst (words l) = l.
Proof. induction l as [| w l IH]; cbn; [reflexivity | now f_equal]. Qed.
Lemma words_nodup : forall l, nodupb l = true -> NoDup (map fst (words l)).
Proof. intros l H. rewrite words_fst. now apply nodupb_spec. Qed.
Lemma classes_nodup : forall v, NoDup (map fst (words (vendor_classes v))).
Proof. intro v. apply words_nodup. destruct v; vm_compute; reflexivity. Qed.
Lemma elements_nodup : forall v, NoDup (map fst (words (vendor_elements v))).
Proof. intro v. apply words_nodup. destruct v; vm_compute; reflexivity. Qed.
Lemma legacy_nodup : NoDup (map fst (words LEGACY_PSEUDO_ELEMENTS)).
Proof. apply words_nodup. vm_compute. reflexivity. Qed.
Lemma dir_nodup : NoDup (map fst (words DIR_VALUES)).
Proof. apply words_nodup. vm_compute. reflexivity. Qed.
Lemma functional_nodup : NoDup (map fst named_classes).
Proof. apply nodupb_spec. vm_compute. reflexivity. Qed.

(* ---- starting again ---- *)
Definition again (p q : parser) : Prop := spent p q [] /\ forall cs, ahead (plex p) cs -> ahead (plex q) cs.
Lemma rewound_again : forall p q, moved 0 p q -> again p (rewind q (checkpoint p)).
Proof. intros p q M. split; [exact (rewound_spent p q M) |]. intros cs A. exact (proj2 (moved_rewind 0 p q cs M A)). Qed.
Lemma again_trans : forall p q r, again p q -> again q r -> again p r.
Proof. intros p q r (S1 & A1) (S2 & A2). split; [exact (spent_trans _ _ _ _ _ S1 S2) | auto]. Qed.
Lemma again_ready : forall p q, ready p -> again p q -> ready q.
Proof. intros p q R (S & _). exact (ready_spent _ _ _ R S). Qed.
Lemma again_peek_n : forall p q k, ready p -> again p q -> 1 <= k -> peek_n q k = peek_n p k.
Proof.
  intros p q k R (S & A) L. destruct (ready_ahead p R) as (cs & Ah). rewrite (peek_n_spec p cs k Ah L), (peek_n_spec q cs k (A cs Ah) L), (spent_skip _ _ _ S). unfold eof_cursor. now rewrite (spent_src _ _ _ S).
Qed.
Lemma or_try_wp : forall A B (m : P A) (f : A -> B) (e : P B) p (Q : B -> parser -> Prop), well_run 0 m p -> wp m p (fun a q => Q (f a) q) -> (forall q, again p q -> wp e q Q) -> wp (or_try m f e) p Q.
Proof.
  intros A B m f e p Q (r & q & E & M) H1 H2. unfold wp, or_try, try_parse in *. rewrite E in *. destruct r as [a | err]; [exact H1 |]. apply H2. apply rewound_again. exact M.
Qed.
Lemma class_wp : forall l p (Q : text * (cursor * cursor) -> parser -> Prop), NoDup (map fst (words l)) -> ready p ->
  (forall x q, class_phrase (words l) (lsrc (plex p)) x -> spent p q (class_cursors x) -> ready q -> Q x q) -> wp (parse_pseudo_class (words l)) p Q.
Proof.
  intros l p Q ND R H. pose proof (sound_of _ _ 2 _ _ _ (class_phrases (words l) ND) (class_runs (words l)) p R) as W. eapply wp_imp; [exact W |]. intros x q (H1 & H2). apply H; auto. exact (ready_spent _ _ _ R H2).
Qed.
Lemma element_wp : forall l p (Q : text * ((cursor * cursor) * cursor) -> parser -> Prop), NoDup (map fst (words l)) -> ready p ->
  (forall x q, element_phrase (words l) (lsrc (plex p)) x -> spent p q (element_cursors x) -> ready q -> Q x q) -> wp (parse_pseudo_element (words l)) p Q.
Proof.
  intros l p Q ND R H. pose proof (sound_of _ _ 3 _ _ _ (element_phrases (words l) ND) (element_runs (words l)) p R) as W. eapply wp_imp; [exact W |]. intros x q (H1 & H2). apply H; auto. exact (ready_spent _ _ _ R H2).
Qed.
Lemma fail_text_wp : forall A code c p (Q : A -> parser -> Prop), (exists t, parse_str c (lsrc (plex p)) = Some t) -> wp (fail_text code c) p Q.
Proof. intros A code c p Q (t & E). unfold wp, fail_text. now rewrite E. Qed.
Lemma class_cursors_eq : forall v x, pseudo_class_cursors (v, x) = class_cursors x.
Proof. intros v (w & (c & i)). reflexivity. Qed.
Lemma element_cursors_eq : forall v x, pseudo_element_cursors (v, x) = element_cursors x.
Proof. intros v (w & ((c & d) & i)). reflexivity. Qed.
Lemma or_class_wp : forall v l p p0 (e : P pseudo_class_t) (Q : pseudo_class_t -> parser -> Prop), l = vendor_classes v -> ready p0 -> again p0 p ->
  (forall x q, class_phrase (words (vendor_classes (fst x))) (lsrc (plex p0)) (snd x) -> spent p0 q (pseudo_class_cursors x) -> ready q -> Q x q) ->
  (forall q, again p0 q -> wp e q Q) -> wp (or_try (parse_pseudo_class (words l)) (pair v) e) p Q.
Proof.
  intros v l p p0 e Q -> R0 Ag H He. pose proof (again_ready _ _ R0 Ag) as R. destruct (ready_ahead p R) as (cs & A). apply or_try_wp.
  - apply (run_weaken _ _ 0 2); [lia |]. exact (class_runs (words (vendor_classes v)) (length cs) p cs (ready_usable p R) A (le_n _)).
  - apply class_wp; [apply classes_nodup | exact R |]. intros x q Hx T Rq. rewrite (spent_src _ _ _ (proj1 Ag)) in Hx. apply H; [exact Hx | | exact Rq]. rewrite class_cursors_eq. exact (spent_trans _ _ _ _ _ (proj1 Ag) T).
  - intros q Aq. apply He. exact (again_trans _ _ _ Ag Aq).
Qed.
Lemma pseudo_class_wp : forall p (Q : pseudo_class_t -> parser -> Prop), ready p -> (forall c, peek_n p 2 = Some c -> exists t, parse_str c (lsrc (plex p)) = Some t) ->
  (forall x q, class_phrase (words (vendor_classes (fst x))) (lsrc (plex p)) (snd x) -> spent p q (pseudo_class_cursors x) -> ready q -> Q x q) -> wp parse_pseudo_class_ast p Q.
Proof.
  intros p Q R H2 H. destruct (ready_ahead p R) as (cs & A). unfold wp, parse_pseudo_class_ast.
  pose proof (class_wp PSEUDO_CLASSES p (fun x q => Q (VStandard, x) q) (classes_nodup VStandard) R) as W. unfold wp in W.
  destruct (class_runs (words PSEUDO_CLASSES) (length cs) p cs (ready_usable p R) A (le_n _)) as (r & q & E & M). rewrite E in *. destruct r as [x | e].
  - apply W. intros x' q' Hx T Rq. apply H; [exact Hx | now rewrite class_cursors_eq | exact Rq].
  - clear W. pose proof (rewound_again p q M) as Ag. set (q0 := rewind q (checkpoint p)) in *. destruct (peek_n_total p cs 2 ltac:(lia) A) as (c & Ec).
    rewrite (again_peek_n p q0 2 R Ag) by lia. rewrite Ec.
    refine (or_class_wp VWebkit _ q0 p _ Q eq_refl R Ag H _). intros q1 A1. refine (or_class_wp VMoz _ q1 p _ Q eq_refl R A1 H _). intros q2 A2.
    refine (or_class_wp VMs _ q2 p _ Q eq_refl R A2 H _). intros q3 A3. refine (or_class_wp VO _ q3 p _ Q eq_refl R A3 H _). intros q4 A4.
    apply fail_text_wp. rewrite (spent_src _ _ _ (proj1 A4)). exact (H2 c Ec).
Qed.
Lemma or_element_wp : forall v l p p0 (e : P pseudo_element_t) (Q : pseudo_element_t -> parser -> Prop), l = vendor_elements v -> ready p0 -> again p0 p ->
  (forall x q, element_phrase (words (vendor_elements (fst x))) (lsrc (plex p0)) (snd x) -> spent p0 q (pseudo_element_cursors x) -> ready q -> Q x q) ->
  (forall q, again p0 q -> wp e q Q) -> wp (or_try (parse_pseudo_element (words l)) (pair v) e) p Q.
Proof.
  intros v l p p0 e Q -> R0 Ag H He. pose proof (again_ready _ _ R0 Ag) as R. destruct (ready_ahead p R) as (cs & A). apply or_try_wp.
  - apply (run_weaken _ _ 0 3); [lia |]. exact (element_runs (words (vendor_elements v)) (length cs) p cs (ready_usable p R) A (le_n _)).
  - apply element_wp; [apply elements_nodup | exact R |]. intros x q Hx T Rq. rewrite (spent_src _ _ _ (proj1 Ag)) in Hx. apply H; [exact Hx | | exact Rq]. rewrite element_cursors_eq. exact (spent_trans _ _ _ _ _ (proj1 Ag) T).
  - intros q Aq. apply He. exact (again_trans _ _ _ Ag Aq).
Qed.

(* ---- words, whatever is skipped ---- *)
Lemma set_run : forall V (m : list (text * V)) k p cs, NoDup (map fst m) -> is_name k -> names_readable p -> ahead (plex p) cs -> exists r q, parse_set k m p = Some (r, q) /\ moved 0 p q /\
  forall x, r = Ok x -> is_word k m (lsrc (plex p)) (fst x) (snd x) /\ took p q [snd x].
Proof.
  intros V m k p cs ND Kn NR A. assert (Ne : k <> K_Eof) by (intros ->; unfold is_name in Kn; cbn in Kn; intuition discriminate).
  assert (Pk : forall c, c = eof_cursor p \/ In c cs -> (peek_set k m p c = Some false \/ peek_set k m p c = Some true /\ In c cs /\ exists v, is_word k m (lsrc (plex p)) v c /\ forall q, lsrc (plex q) = lsrc (plex p) -> build_set m q c = Some (v, c))).
  { intros c I. unfold peek_set. destruct (tok_is (ctok c) k) eqn:K; [| now left]. destruct (tok_is_in p cs c k A I Ne K) as (I' & K'). destruct (NR cs c A I') as (_ & _ & w & E); [now rewrite K' |].
    unfold look_up. rewrite E. destruct (map_get m w) as [v |] eqn:Em; [right | now left]. split; [reflexivity |]. split; [exact I' |]. exists v. split.
    - split; [exact K' |]. exists w. split; [exact E |]. now apply (map_get_spec m ND).
    - intros q S. unfold build_set, look_up. now rewrite S, E, Em. }
  destruct (built_run (V * cursor) (peek_set k m) (build_set m) p cs A) as (r & q & E & M & H).
  - intros c I. destruct (Pk c I) as [-> | (-> & _)]; discriminate.
  - intros c q K I S. destruct (Pk c I) as [K' | (_ & I' & v & _ & B)]; [congruence |]. split; [exact I' |]. rewrite (B q S). discriminate.
  - exists r, q. split; [exact E |]. split; [exact M |]. intros x Er. destruct (H x Er) as (c & T & _ & K & I & B). destruct (Pk c (or_intror I)) as [K' | (_ & _ & v & W & B')]; [congruence |].
    rewrite (B' q) in B by apply (moved_mode _ _ _ M). injection B as <-. auto.
Qed.
Lemma set_wp : forall V (m : list (text * V)) k p (Q : V * cursor -> parser -> Prop), NoDup (map fst m) -> is_name k -> ready p ->
  (forall x q, is_word k m (lsrc (plex p)) (fst x) (snd x) -> spent p q [snd x] -> ready q -> Q x q) -> wp (parse_set k m) p Q.
Proof.
  intros V m k p Q ND Kn R H. destruct (ready_ahead p R) as (cs & A). destruct (set_run V m k p cs ND Kn (ready_names p R) A) as (r & q & E & _ & O). unfold wp. rewrite E.
  destruct r as [x | e]; [| exact I]. destruct (O x eq_refl) as (W & T). apply took_spent in T. apply H; auto. exact (ready_spent _ _ _ R T).
Qed.
Lemma names_moved : forall k p q, moved k p q -> names_readable p -> names_readable q.
Proof.
  intros k p q (u & rest & A & A' & _ & S) NR cs c Ac I K. destruct S as (_ & _ & _ & -> & _). apply (NR (u ++ rest) c A); [| exact K]. apply in_or_app. right. now rewrite (ahead_det _ _ Ac _ A').
Qed.
Lemma pseudo_element_wp : forall p (Q : pseudo_element_t -> parser -> Prop), ready p -> (forall c, peek_n p 2 = Some c -> exists t, parse_str c (lsrc (plex p)) = Some t) ->
  (forall x q, element_phrase (words (vendor_elements (fst x))) (lsrc (plex p)) (snd x) -> spent p q (pseudo_element_cursors x) -> ready q -> Q x q) -> wp parse_pseudo_element_ast p Q.
Proof.
  intros p Q R H2 H. destruct (ready_ahead p R) as (cs & A). unfold wp, parse_pseudo_element_ast. rewrite colon_colon_eq.
  destruct (raw_kind K_Colon p cs ltac:(discriminate) A) as (r1 & p1 & E1 & M1 & O1). unfold bind at 1. rewrite E1.
  assert (N1 : names_readable p1) by (apply (names_moved _ _ _ M1); exact (ready_names p R)).
  assert (C : exists r2 p2, (match r1 with Err e => Some (Err e, p1) | Ok a => bind (unskipped (parse_kind K_Colon)) (fun b => ret (a, b)) p1 end) = Some (r2, p2) /\ moved 0 (set_skip p KS_NONE) p2 /\
    forall x, r2 = Ok x -> kind_of (fst x) = K_Colon /\ kind_of (snd x) = K_Colon /\ took (set_skip p KS_NONE) p2 [fst x; snd x] /\ exists rest, cs = fst x :: snd x :: rest /\ ahead (plex p2) rest).
  { destruct r1 as [a | e]; [| exists (Err e), p1; split; [reflexivity |]; split; [exact M1 | discriminate]]. destruct (O1 a eq_refl) as (Ka & Ta & rest & -> & Aa).
    destruct (raw_kind K_Colon p1 rest ltac:(discriminate) Aa) as (r2 & p2 & E2 & M2 & O2). unfold bind, unskipped. rewrite E2. assert (S1 : pskip p1 = KS_NONE) by apply (moved_mode _ _ _ M1).
    assert (Z : set_skip p2 (pskip p1) = p2) by (rewrite S1; assert (S2 : pskip p2 = KS_NONE) by apply (moved_mode _ _ _ M2); rewrite <- S2; apply set_skip_self). rewrite Z.
    rewrite <- S1, (set_skip_self p1) in M2. assert (M12 : moved 0 (set_skip p KS_NONE) p2) by exact (moved_trans0 _ _ _ M1 M2). destruct r2 as [b | e]; [| exists (Err e), p2; split; [reflexivity |]; split; [exact M12 | discriminate]].
    exists (Ok (a, b)), p2. split; [reflexivity |]. split; [exact M12 |]. intros x [= <-]. cbn [fst snd]. destruct (O2 b eq_refl) as (Kb & Tb & rest2 & -> & Ab). split; [exact Ka |]. split; [exact Kb |].
    rewrite <- S1, (set_skip_self p1) in Tb. split; [exact (took_trans _ _ _ _ _ Ta Tb) |]. exists rest2. auto. }
  destruct C as (r2 & p2 & E2 & M2 & O2). rewrite E2. destruct (moved_right _ _ _ M2) as (cs2 & A2). assert (N2 : names_readable p2) by (apply (names_moved _ _ _ M2); exact (ready_names p R)).
  destruct (set_run _ (words PSEUDO_ELEMENTS) K_Ident p2 cs2 (elements_nodup VStandard) ident_name N2 A2) as (r3 & p3 & E3 & M3 & O3). rewrite E3.
  pose proof (moved_trans0 _ _ _ M2 M3) as M23. assert (S3 : pskip p2 = KS_NONE) by apply (moved_mode _ _ _ M2).
  destruct r2 as [(c1 & c2) | e2]; [| exact I]. destruct (O2 _ eq_refl) as (K1 & K2 & T2 & rest & -> & A2'). cbn [fst snd] in *. destruct r3 as [(w & ident) | e3].
  - destruct (O3 _ eq_refl) as (W & T3). cbn [fst snd] in *. pose proof (took_trans _ _ _ _ _ T2 T3) as T. cbn [app] in T. apply raw_spent in T. destruct (took_raw _ _ _ _ T3 S3 A2') as (rest3 & -> & _).
    assert (Src : lsrc (plex p2) = lsrc (plex p)) by apply (moved_mode _ _ _ M2). rewrite Src in W.
    apply H; [| exact T | exact (ready_spent _ _ _ R T)]. cbn [fst snd]. split; [exact K1 |]. split; [exact K2 |]. split; [exact W |]. split; [exact (ahead_adjacent _ _ _ _ A) | exact (adjacent_in _ [c1] _ _ _ A)].
  - assert (M : moved 0 p (set_skip p3 (pskip p))) by (apply moved_in_skip with (s := KS_NONE); exact M23). pose proof (rewound_again _ _ M) as Ag. set (q0 := rewind (set_skip p3 (pskip p)) (checkpoint p)) in *.
    destruct (peek_n_total p _ 2 ltac:(lia) A) as (c & Ec). rewrite (again_peek_n p q0 2 R Ag) by lia. rewrite Ec.
    refine (or_element_wp VWebkit _ q0 p _ Q eq_refl R Ag H _). intros q1 A1. refine (or_element_wp VMoz _ q1 p _ Q eq_refl R A1 H _). intros q2 A3.
    refine (or_element_wp VMs _ q2 p _ Q eq_refl R A3 H _). intros q3 A4. refine (or_element_wp VO _ q3 p _ Q eq_refl R A4 H _). intros q4 A5.
    apply fail_text_wp. rewrite (spent_src _ _ _ (proj1 A5)). exact (H2 c Ec).
Qed.
