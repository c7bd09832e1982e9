(* Selectors: components. *)
From Coq Require Import ZifyBool ZifyNat ZifyN.
From Coq Require Import List.
From Verif Require Import Selectors SpecLex SpecTrace SpecParser SpecSyntax SpecTraits SpecFeatures SpecSelectors SpecCursor SpecToken LexBase TokenProofs KindProofs LexFacts LexTrace CursorProofs
  ParserProofs ParserProofs2 ParserProofs3 ParserProofs4 CompareProofs SyntaxProofs SyntaxTotal TraitsTotal RulesTotal FeatureProofs FeatureProofs2 FeatureProofs3 FeatureProofs4 FeatureProofs5 FeatureProofs6 SelectorProofs SelectorProofs2 SelectorProofs3 SelectorProofs4 SelectorProofs5 SelectorProofs6 SelectorProofs7 SelectorProofs8.
Open Scope N_scope.
Open Scope list_scope.

Lemma in_comments : forall c, in_kinds KS_COMMENTS c <-> kind_of c = K_Comment.
Proof. intro c. unfold in_kinds, KS_COMMENTS, kind_of. rewrite kindset_new_spec. cbn [In]. intuition congruence. Qed.
Lemma in_trivia : forall c, in_kinds KS_TRIVIA c <-> kind_of c = K_Whitespace \/ kind_of c = K_Comment.
Proof. intro c. unfold in_kinds, KS_TRIVIA, kind_of. rewrite kindset_new_spec. cbn [In]. intuition congruence. Qed.
Lemma in_whitespace : forall c, in_kinds KS_WHITESPACE c <-> kind_of c = K_Whitespace.
Proof. intro c. unfold in_kinds, KS_WHITESPACE, kind_of. rewrite kindset_new_spec. cbn [In]. intuition congruence. Qed.
Lemma kept_kept : forall cs, kept KS_TRIVIA (kept KS_COMMENTS cs) = kept KS_TRIVIA cs.
Proof.
  induction cs as [| c cs IH]; [reflexivity |]. unfold kept in *. cbn [filter]. destruct (kindset_contains KS_COMMENTS (tkind (ctok c))) eqn:B; cbn [negb filter].
  - assert (T : kindset_contains KS_TRIVIA (tkind (ctok c)) = true) by (apply in_trivia; right; now apply in_comments). rewrite T. cbn [negb]. exact IH.
  - destruct (kindset_contains KS_TRIVIA (tkind (ctok c))); cbn [negb]; [exact IH | now rewrite IH].
Qed.
Lemma second_visible : forall sk i t rest c r d, Forall (in_kinds KS_TRIVIA) sk -> kept KS_COMMENTS (sk ++ i :: t :: rest) = c :: r -> kind_of c <> K_Whitespace -> kind_of i = K_Ident -> kind_of t <> K_Comment -> nth 0 r d = t.
Proof.
  induction sk as [| w sk IH]; intros i t rest c r d F E Kc Ki Kt.
  - cbn [app] in E. rewrite !kept_cons in E by (rewrite in_comments; congruence). injection E as <- <-. reflexivity.
  - inversion F as [| ? ? Fw Fs]; subst. apply in_trivia in Fw. destruct Fw as [Kw | Kw].
    + cbn [app] in E. rewrite kept_cons in E by (rewrite in_comments; congruence). injection E as <- _. congruence.
    + rewrite <- (IH i t rest c r d Fs); auto. change ((w :: sk) ++ i :: t :: rest) with ([w] ++ (sk ++ i :: t :: rest)) in E. rewrite kept_skipped in E; [exact E |]. constructor; [now apply in_comments | constructor].
Qed.
(* the token c comes next, when comments are skipped *)
Lemma usable_comments : forall p, usable p -> usable (set_skip p KS_COMMENTS).
Proof. intros p (_ & NR). split; [split; vm_compute; reflexivity | exact NR]. Qed.
Lemma comments_spent : forall p q l, pskip p = KS_TRIVIA -> took (set_skip p KS_COMMENTS) q l -> spent p (set_skip q KS_TRIVIA) l.
Proof. intros p q l S T. rewrite <- S. apply (spent_set_skip p q KS_COMMENTS); [now apply took_spent |]. intros c H. rewrite S. apply in_trivia. right. now apply in_comments. Qed.
(* the cases of a component *)
Lemma component_cases : forall C (s : selector_parts C) p c c2 c3 (Q : option (res C * parser) -> Prop),
  peek_n (set_skip p KS_COMMENTS) 1 = Some c -> peek_n (set_skip p KS_COMMENTS) 2 = Some c2 -> peek_n (set_skip p KS_COMMENTS) 3 = Some c3 ->
  (kind_of c = K_Ident -> tok_is_char (ctok c2) 124 = true -> Q (sp_ns_type s p)) ->
  (kind_of c = K_Ident -> tok_is_char (ctok c2) 124 = false -> Q (take_component (pskip p) (sp_type_peek s) (sp_type s) E_UNEXPECTED_TAG (set_skip p KS_COMMENTS))) ->
  (kind_of c = K_Hash -> hash_is_id_like (ctok c) = true -> Q (take_component (pskip p) (sp_id_peek s) (sp_id s) E_UNEXPECTED_ID (set_skip p KS_COMMENTS))) ->
  (kind_of c = K_LeftSquare -> Q (sp_attribute s p)) ->
  (kind_of c = K_Delim -> tchar (ctok c) = None -> Q None) ->
  (kind_of c = K_Delim -> tchar (ctok c) = Some 46 -> kind_of c2 = K_Ident -> Q (sp_class s p)) ->
  (kind_of c = K_Delim -> tchar (ctok c) = Some 42 -> tok_is_char (ctok c2) 124 = true -> Q (sp_ns_type s p)) ->
  (kind_of c = K_Delim -> tchar (ctok c) = Some 42 -> Q (match next p with None => None | Some (c, q) => match sp_wildcard s q c with None => None | Some x => Some (Ok x, q) end end)) ->
  (kind_of c = K_Delim -> Q (sp_combinator s p)) ->
  (kind_of c = K_Colon -> kind_of c2 = K_Colon -> kind_of c3 = K_Ident -> Q (sp_pseudo_element s p)) ->
  (kind_of c = K_Colon -> kind_of c2 = K_Colon -> kind_of c3 = K_Function -> Q (sp_functional_element s p)) ->
  (kind_of c = K_Colon -> kind_of c2 = K_Ident -> Q (match sp_legacy_peek s p c with None => None | Some true => sp_legacy s p | Some false => sp_pseudo_class s p end)) ->
  (kind_of c = K_Colon -> kind_of c2 = K_Function -> Q (sp_functional_class s p)) ->
  Q (match sp_combinator s (set_skip p KS_COMMENTS) with
     | None => None
     | Some (r, q) => match consume_trivia (set_skip q KS_WHITESPACE) with None => None | Some q => Some (r, set_skip q (pskip p)) end
     end) ->
  (forall e q, Q (Some (Err e, q))) -> Q (component_t s p).
Proof.
  intros C s p c c2 c3 Q E1 E2 E3 H1 H2 H3 H4 H5 H6 H7 H8 H9 H10 H11 H12 H13 Ho He. unfold component_t. cbv zeta. rewrite E1, E2, E3. unfold kind_of in *.
  set (other := match sp_combinator s (set_skip p KS_COMMENTS) with None => None | Some (r, q) => _ end) in *. clearbody other.
  destruct (tkind (ctok c)); try exact Ho.
  all: idtac.
  - destruct (tok_is_char (ctok c2) 124); auto.
  - destruct (hash_is_id_like (ctok c)); auto.
  - destruct (tchar (ctok c)) as [ch |]; [| auto]. destruct (ch =? 46) eqn:B1; [apply N.eqb_eq in B1; subst ch; destruct (tkind (ctok c2)); auto |].
    destruct (ch =? 42) eqn:B2; [apply N.eqb_eq in B2; subst ch; destruct (tok_is_char (ctok c2) 124); auto | auto].
  - destruct (tkind (ctok c2)); auto. destruct (tkind (ctok c3)); auto.
  - auto.
Qed.
Lemma or_build_src : forall A l (f : Selectors.word -> A) e e' p q c, lsrc (plex q) = lsrc (plex p) -> e = e' -> or_build l f e q c = or_build l f e' p c.
Proof. intros A l f e e' p q c E ->. unfold or_build, peek_set, build_set, look_up. now rewrite E. Qed.
Lemma build_tag_src : forall p q c, lsrc (plex q) = lsrc (plex p) -> build_tag q c = build_tag p c.
Proof.
  intros p q c E. unfold build_tag. repeat (apply or_build_src; [exact E |]). unfold peek_custom. rewrite E.
  destruct (match parse_str_lower c (lsrc (plex p)) with None => None | Some str => _ end) as [[|] |]; try reflexivity. repeat (apply or_build_src; [exact E |]). reflexivity.
Qed.
Section Component.
  Context (n : nat) (sub : P component_ast) (Hs : good n sub comp_post) (p : parser) (cs : list cursor) (R : ready p) (A : ahead (plex p) cs) (L : (length cs < S n)%nat).
  Let parts := css_parts sub.
  Let vis := kept KS_COMMENTS cs.
  Let Sk : pskip p = KS_TRIVIA.
  Proof. apply R. Qed.
  Let U : usable p.
  Proof. exact (ready_usable p R). Qed.
  Lemma vis_peek : forall k, 1 <= k -> peek_n (set_skip p KS_COMMENTS) k = Some (nth (N.to_nat k - 1) vis (eof_cursor p)).
  Proof. intros k Hk. exact (peek_n_spec (set_skip p KS_COMMENTS) cs k A Hk). Qed.
  Lemma vis_in : forall c, In c vis -> In c cs /\ kind_of c <> K_Eof.
  Proof. intros c H. assert (I : In c cs) by exact (kept_in _ _ _ H). split; [exact I | exact (ahead_kind _ _ A c I)]. Qed.
  Lemma take_wp : forall c r pk (build : parser -> cursor -> option component_ast) code x, vis = c :: r -> (forall q, spent p q [c] -> pk q c = Some true /\ build q c = Some x) ->
    component_phrase (lsrc (plex p)) x -> component_cursors x = [c] -> wp (take_component (pskip p) pk build code) (set_skip p KS_COMMENTS) (comp_post p).
  Proof.
    intros c r pk build code x Ev H Ph Ec. assert (S : sees (set_skip p KS_COMMENTS) (c :: r)) by (exists cs; split; [exact A | now symmetry]).
    destruct (next_sees _ _ _ S) as (q & N & T & _). unfold wp, take_component. rewrite N. cbv zeta. rewrite Sk. apply (comments_spent p q [c] Sk) in T. destruct (H _ T) as (-> & ->).
    split; [exact Ph |]. rewrite Ec. split; [exact T | exact (ready_spent _ _ _ R T)].
  Qed.
  Lemma other_wp : forall code, wp (fun p' : parser => match sp_combinator parts (set_skip p' KS_COMMENTS) with
      | None => None
      | Some (r, q) => match consume_trivia (set_skip q KS_WHITESPACE) with None => None | Some q => Some (r, set_skip q (pskip p')) end
      end) p (comp_post p) /\ code = code :> N.
  Proof.
    intro code. split; [| reflexivity]. unfold wp, parts. cbn [sp_combinator css_parts]. destruct (combinator_ok (set_skip p KS_COMMENTS) cs (usable_comments p U) A) as ((r & q & E & M) & O).
    unfold pmap, bind, ret. rewrite E. destruct (moved_right _ _ _ M) as (cs1 & A1).
    assert (A1' : ahead (plex (set_skip q KS_WHITESPACE)) cs1) by exact A1. destruct (trivia_total _ _ A1') as (q2 & sk & rest & E2 & -> & F & St & _ & A2 & S2).
    destruct r as [x | e]; rewrite E2; [| exact I]. destruct (O x q E) as (Px & T). rewrite Sk. apply (comments_spent p q _ Sk) in T. pose proof (same_settings_mode _ _ S2) as (M1 & M2 & M3 & M4 & M5).
    assert (T2 : spent (set_skip q KS_TRIVIA) (set_skip q2 KS_TRIVIA) []).
    { exists sk, sk, rest. split; [exact A1 |]. split; [exact A2 |]. split; [apply merged_right |]. split; [| repeat split; assumption]. eapply Forall_impl; [| exact F]. intros c H. apply in_trivia. left. now apply in_whitespace. }
    pose proof (spent_nil _ _ _ _ T T2) as T3. split; [now constructor |]. split; [exact T3 | exact (ready_spent _ _ _ R T3)].
  Qed.
  Lemma combinator_wp : wp (sp_combinator parts) p (comp_post p).
  Proof.
    unfold parts. cbn [sp_combinator css_parts]. apply wp_pmap. destruct (combinator_ok p cs U A) as (W & O). eapply wp_run; [exact W |]. intros x q E _. destruct (O x q E) as (Px & T). apply took_spent in T.
    split; [now constructor |]. split; [exact T | exact (ready_spent _ _ _ R T)].
  Qed.
  Lemma ns_wp : forall c c2 r, vis = c :: r -> kind_of c <> K_Whitespace -> c2 = nth 0 r (eof_cursor p) -> tchar (ctok c2) = Some 124 -> wp (sp_ns_type parts) p (comp_post p).
  Proof.
    intros c c2 r Ev Kc E2 H2. unfold parts. cbn [sp_ns_type css_parts]. apply wp_pmap. apply namespace_wp; [exact R | |].
    - intros x q T Rq Nx Ph. split; [now constructor |]. split; [exact T | exact Rq].
    - intros x q sk i t rest _ A' F Ki Kt. exfalso. rewrite Sk in F. unfold vis in Ev. rewrite (ahead_det _ _ A' _ A) in Ev. subst c2.
      rewrite (second_visible sk i t rest c r _ F Ev Kc Ki) in H2 by (destruct Kt as [Kt | (Kt & _)]; [congruence | unfold kind_of; congruence]).
      destruct Kt as [Kt | (_ & Kt)]; [rewrite (ident_char t Kt) in H2 |]; congruence.
  Qed.
  (* the same two tokens come next when whitespace is skipped too *)
  Lemma two_visible : forall c c2 r, vis = c :: c2 :: r -> kind_of c <> K_Whitespace -> kind_of c2 <> K_Whitespace -> peek_n p 2 = Some c2.
  Proof.
    intros c c2 r Ev K1 K2. rewrite (peek_n_spec p cs 2 A) by lia. rewrite Sk, <- kept_kept. fold vis. rewrite Ev.
    assert (V : forall x, In x vis -> kind_of x <> K_Comment). { intros x Ix. unfold vis, kept in Ix. apply filter_In in Ix. destruct Ix as (_ & Ix). intro K. apply in_comments in K. unfold in_kinds in K. rewrite K in Ix. discriminate. }
    assert (V1 := V c). assert (V2 := V c2). rewrite Ev in V1, V2. cbn [In] in V1, V2. rewrite !kept_cons by (rewrite in_trivia; intuition). reflexivity.
  Qed.
  Lemma nth_vis : forall k, nth k vis (eof_cursor p) = eof_cursor p \/ In (nth k vis (eof_cursor p)) vis.
  Proof. intro k. destruct (nth_in_or_default k vis (eof_cursor p)); auto. Qed.
  Lemma kind_vis : forall k c, c = nth k vis (eof_cursor p) -> kind_of c <> K_Eof -> In c vis.
  Proof. intros k c -> K. destruct (nth_vis k) as [H | H]; [rewrite H in K; elim K; reflexivity | exact H]. Qed.
  Lemma component_wp : wp (component_t parts) p (comp_post p).
  Proof.
    assert (P1 := vis_peek 1 ltac:(lia)). assert (P2 := vis_peek 2 ltac:(lia)). assert (P3 := vis_peek 3 ltac:(lia)).
    change (N.to_nat 1 - 1)%nat with 0%nat in P1. change (N.to_nat 2 - 1)%nat with 1%nat in P2. change (N.to_nat 3 - 1)%nat with 2%nat in P3.
    assert (Dc2 : nth 1 vis (eof_cursor p) = nth 0 (tl vis) (eof_cursor p)) by now destruct vis as [| ? [| ? ?]].
    assert (V1 : kind_of (nth 0 vis (eof_cursor p)) <> K_Eof -> vis = nth 0 vis (eof_cursor p) :: tl vis). { intro K. destruct vis; [elim K; reflexivity | reflexivity]. }
    assert (V2 : kind_of (nth 1 vis (eof_cursor p)) <> K_Eof -> vis = nth 0 vis (eof_cursor p) :: nth 1 vis (eof_cursor p) :: tl (tl vis)). { intro K. destruct vis as [| a [| b v]]; [elim K; reflexivity | elim K; reflexivity | reflexivity]. }
    set (c := nth 0 vis (eof_cursor p)) in *. set (c2 := nth 1 vis (eof_cursor p)) in *. set (c3 := nth 2 vis (eof_cursor p)) in *. clearbody c c2 c3.
    assert (Vin : forall x, In x vis -> In x cs /\ kind_of x <> K_Eof) by exact vis_in.
    assert (C1 : kind_of c <> K_Eof -> In c cs) by (intro K; apply Vin; rewrite (V1 K); now left).
    assert (C2 : kind_of c2 <> K_Eof -> In c2 cs) by (intro K; apply Vin; rewrite (V2 K); right; now left).
    unfold wp. apply (component_cases _ parts p c c2 c3 (fun o => match o with Some (Ok a, q) => comp_post p a q | Some (Err _, _) => True | None => False end) P1 P2 P3).
    - intros K B. apply tok_is_char_spec in B. apply (ns_wp c c2 (tl vis)); [apply V1; congruence | congruence | exact Dc2 | exact B].
    - intros K B. assert (Ev : vis = c :: tl vis) by (apply V1; congruence).
      destruct (ready_names p R cs c A (C1 ltac:(congruence))) as (_ & _ & w & Ew); [rewrite K; now left |]. destruct (build_tag_spec p c w K Ew) as (t & Bt & Et & Pt).
      apply (take_wp c (tl vis) _ _ _ (STag t) Ev); [| now constructor | cbn [component_cursors]; now rewrite Et]. intros q T. unfold parts. cbn [sp_type sp_type_peek css_parts]. split.
      + unfold peek_tag, peek_kind. f_equal. unfold kind_of in K. apply tok_is_kind; [apply wf_of_kind; congruence | exact K].
      + rewrite (build_tag_src p q c) by exact (spent_src _ _ _ T). now rewrite Bt.
    - intros K B. assert (Ev : vis = c :: tl vis) by (apply V1; congruence).
      apply (take_wp c (tl vis) _ _ _ (SId c) Ev); [| now constructor | reflexivity]. intros q T. unfold parts. cbn [sp_id sp_id_peek css_parts]. split; [| reflexivity].
      unfold peek_kind. f_equal. unfold kind_of in K. apply tok_is_kind; [apply wf_of_kind; congruence | exact K].
    - intros K. change (wp (sp_attribute parts) p (comp_post p)). unfold parts. cbn [sp_attribute css_parts]. apply wp_pmap. apply attribute_wp; [exact R |]. intros a q Pa T Rq. split; [now constructor |]. split; assumption.
    - intros K B. assert (I := C1 ltac:(congruence)). destruct R as (_ & SR). destruct (SR cs c A I) as (_ & _ & D & _). exact (D K B).
    - intros K B K2. change (wp (sp_class parts) p (comp_post p)). unfold parts. cbn [sp_class css_parts]. apply wp_pmap. eapply wp_imp; [exact (class_sound p R) |]. intros x q ((Hd & Hi) & T). split; [now constructor |]. split; [exact T | exact (ready_spent _ _ _ R T)].
    - intros K B B2. apply tok_is_char_spec in B2. apply (ns_wp c c2 (tl vis)); [apply V1; congruence | congruence | exact Dc2 | exact B2].
    - intros K B. assert (Ev : vis = c :: tl vis) by (apply V1; congruence).
      assert (Sp : sees p (c :: kept KS_TRIVIA (tl vis))). { exists cs. split; [exact A |]. change (c :: kept KS_TRIVIA (tl vis) = kept (pskip p) cs). rewrite Sk, <- (kept_kept cs). fold vis. transitivity (kept KS_TRIVIA (c :: tl vis)); [rewrite kept_cons; [reflexivity |]; rewrite in_trivia; intros [? | ?]; congruence | now rewrite <- Ev]. }
      destruct (next_sees _ _ _ Sp) as (q & N & T & _). rewrite N. unfold parts. cbn [sp_wildcard css_parts]. apply took_spent in T. split; [constructor; split; assumption |]. split; [exact T | exact (ready_spent _ _ _ R T)].
    - intros K. exact combinator_wp.
    - intros K K2 K3. change (wp (sp_pseudo_element parts) p (comp_post p)). unfold parts. cbn [sp_pseudo_element css_parts]. apply wp_pmap. apply pseudo_element_wp; [exact R | |].
      + intros x Ex. assert (I2 := C2 ltac:(congruence)). rewrite (two_visible c c2 (tl (tl vis))) in Ex; [| apply V2; congruence | congruence | congruence]. injection Ex as <-. destruct R as (_ & SR). destruct (SR cs c2 A I2) as (_ & D & _). exact (D K2).
      + intros (v & x) q Px T Rq. split; [now constructor |]. split; assumption.
    - intros K K2 K3. change (wp (sp_functional_element parts) p (comp_post p)). unfold parts. cbn [sp_functional_element css_parts]. apply (functional_element_wp n _ p cs); [exact (compound_good n sub Hs) | exact R | exact A | exact L].
    - intros K K2. assert (I2 := C2 ltac:(congruence)). assert (Pk : peek_n p 2 = Some c2) by (apply (two_visible c c2 (tl (tl vis))); [apply V2; congruence | congruence | congruence]).
      destruct (ready_names p R cs c2 A I2) as (_ & N1 & w & Ew); [rewrite K2; now left |].
      unfold parts. cbn [sp_legacy_peek sp_legacy sp_pseudo_class css_parts]. unfold peek_pseudo_class. rewrite Pk. unfold peek_set, look_up. rewrite Ew.
      assert (Leg : wp (pmap SLegacy (parse_pseudo_class (words LEGACY_PSEUDO_ELEMENTS))) p (comp_post p)).
      { apply wp_pmap. apply class_wp; [exact legacy_nodup | exact R |]. intros x q Px T Rq. split; [now constructor |]. split; [| exact Rq]. destruct x as (v & (a & b)). exact T. }
      assert (Pse : wp (pmap SPseudoClass parse_pseudo_class_ast) p (comp_post p)).
      { apply wp_pmap. apply pseudo_class_wp; [exact R | |].
        - intros x Ex. rewrite Pk in Ex. injection Ex as <-. exact N1.
        - intros (v & x) q Px T Rq. split; [now constructor |]. split; assumption. }
      destruct (tok_is (ctok c) K_Colon); [| exact Pse]. destruct (tok_is (ctok c2) K_Ident); [| exact Pse]. destruct (map_get (words LEGACY_PSEUDO_ELEMENTS) w); [exact Leg | exact Pse].
    - intros K K2. change (wp (sp_functional_class parts) p (comp_post p)). unfold parts. cbn [sp_functional_class css_parts]. apply (functional_class_wp n _ p cs); [exact (list_good n sub Hs) | exact R | exact A | exact L].
    - exact (proj1 (other_wp 0)).
    - intros e q. exact I.
  Qed.
End Component.
Lemma component_good : forall n, good n (component_n n) comp_post.
Proof.
  induction n as [| n IH]; intros p cs R A L; [lia |]. cbn [component_n]. exact (component_wp n (component_n n) IH p cs R A L).
Qed.
