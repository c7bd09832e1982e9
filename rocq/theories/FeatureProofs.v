From Coq Require Import ZifyBool ZifyNat ZifyN.
From Coq Require Import String.
From Coq Require Import List.
From Verif Require Import Features SpecLex SpecTrace SpecParser SpecSyntax SpecTraits SpecFeatures SpecToken LexBase TokenProofs KindProofs LexFacts LexTrace
  ParserProofs ParserProofs2 ParserProofs3 ParserProofs4 CompareProofs SyntaxProofs SyntaxTotal TraitsTotal CursorProofs.
Open Scope N_scope.
Open Scope list_scope.

(* ---- sees ---- *)
Lemma sees_kept : forall p l, sees p l <-> exists cs, ahead (plex p) cs /\ l = kept (pskip p) cs.
Proof. intros p l. reflexivity. Qed.
Lemma sees_det : forall p l l', sees p l -> sees p l' -> l = l'.
Proof. intros p l l' (cs & A & ->) (cs' & A' & ->). now rewrite (ahead_det _ _ A _ A'). Qed.
Lemma sees_kinds : forall p l c, sees p l -> In c l -> kind_of c <> K_Eof /\ ~ in_kinds (pskip p) c.
Proof.
  intros p l c (cs & A & ->) I. apply filter_In in I. destruct I as [I H]. split; [exact (ahead_kind _ _ A c I) |]. unfold in_kinds, kind_of in *. destruct (kindset_contains _ _); [discriminate | congruence].
Qed.
Lemma sees_next : forall p c rest, sees p (c :: rest) -> exists sk cs, ahead (plex p) (sk ++ c :: cs) /\ Forall (in_kinds (pskip p)) sk /\ ~ in_kinds (pskip p) c /\ rest = kept (pskip p) cs.
Proof.
  intros p c rest (cs & A & E). destruct (skip_split (pskip p) cs) as (sk & r & -> & F & St). change (c :: rest = kept (pskip p) (sk ++ r)) in E.
  rewrite (kept_skipped _ _ _ F), (kept_stop _ _ St) in E. destruct r as [| d r]; [discriminate |]. injection E as -> ->. exists sk, r. auto.
Qed.
Lemma sees_exists : forall p, usual p -> exists l, sees p l.
Proof. intros p (_ & _ & cs & A). exists (kept (pskip p) cs), cs. auto. Qed.
Lemma merged_kept : forall s (a b c : list cursor), merged a b c -> Forall (in_kinds s) b -> Forall (fun x => ~ in_kinds s x) a -> kept s c = a.
Proof.
  intros s a b c M Fb Fa. destruct (merged_filter (fun x => kindset_contains s (tkind (ctok x))) a b c M) as [E _]; [| | symmetry; exact E].
  - eapply Forall_impl; [| exact Fa]. intros x H. unfold in_kinds in H. destruct (kindset_contains _ _); [congruence | reflexivity].
  - exact Fb.
Qed.
Lemma kept_app : forall s a b, kept s (a ++ b) = kept s a ++ kept s b.
Proof. intros s a b. unfold kept. apply filter_app. Qed.
Lemma took_kept : forall p q used, took p q used -> Forall (fun c => ~ in_kinds (pskip p) c) used -> exists rest, sees p (used ++ rest) /\ sees q rest.
Proof.
  intros p q used (cs & new & rest & A1 & A2 & T & M & F & S) N. exists (kept (pskip p) rest). split.
  - exists (cs ++ rest). split; [exact A1 |]. change (used ++ kept (pskip p) rest = kept (pskip p) (cs ++ rest)). now rewrite kept_app, (merged_kept _ _ _ _ M F N).
  - exists rest. split; [exact A2 |]. destruct S as (_ & _ & -> & _). reflexivity.
Qed.
Lemma took_sees : forall p q used rest, took p q used -> sees p (used ++ rest) -> sees q rest.
Proof.
  intros p q used rest T Sp. assert (N : Forall (fun c => ~ in_kinds (pskip p) c) used) by (apply Forall_forall; intros c I; apply (sees_kinds p _ c Sp); apply in_or_app; now left).
  destruct (took_kept p q used T N) as (r & S1 & S2). pose proof (sees_det _ _ _ Sp S1) as E. apply app_inv_head in E. now subst.
Qed.
Lemma took_src : forall p q used, took p q used -> lsrc (plex q) = lsrc (plex p).
Proof. intros p q used (_ & _ & _ & _ & _ & _ & _ & _ & (_ & _ & _ & _ & E & _)). exact E. Qed.
Lemma usual_took : forall p q used, usual p -> took p q used -> usual q.
Proof.
  intros p q used (Sk & U & cs & A) T. pose proof (moved_took _ _ _ T) as M. split; [| split; [exact (usable_moved _ _ _ M U) | exact (moved_right _ _ _ M)]].
  destruct T as (_ & _ & _ & _ & _ & _ & _ & _ & (_ & _ & E & _)). congruence.
Qed.
Lemma usual_skips : forall p, usual p -> skips_comments p.
Proof. intros p (E & _). unfold skips_comments. rewrite E. split; reflexivity. Qed.
Lemma bind_ok : forall A B (m : P A) (f : A -> P B) p b q, bind m f p = Some (Ok b, q) -> exists a p1, m p = Some (Ok a, p1) /\ f a p1 = Some (Ok b, q).
Proof. intros A B m f p b q E. unfold bind in E. destruct (m p) as [[[a | e] p1] |]; [| discriminate | discriminate]. eauto. Qed.
Lemma bind_go : forall A B (m : P A) (f : A -> P B) p a p1, m p = Some (Ok a, p1) -> bind m f p = f a p1.
Proof. intros A B m f p a p1 E. unfold bind. now rewrite E. Qed.
Lemma or_peek_ok : forall A k (m e : P A) p a q, or_peek k m e p = Some (Ok a, q) -> peek k p = Some true /\ m p = Some (Ok a, q) \/ peek k p = Some false /\ e p = Some (Ok a, q).
Proof. intros A k m e p a q E. unfold or_peek in E. destruct (peek k p) as [[] |]; [left | right | discriminate]; auto. Qed.

(* ---- single tokens ---- *)
Lemma peek_sees : forall k p c rest, sees p (c :: rest) -> peek k p = k p c.
Proof. intros k p c rest Sp. destruct (sees_next p c rest Sp) as (sk & cs & A & F & St & _). unfold peek. now rewrite (peek_next_spec p sk (c :: cs) A F St). Qed.
Lemma next_sees : forall p c rest, sees p (c :: rest) -> exists q, next p = Some (c, q) /\ took p q [c] /\ peek_next p = Some c.
Proof.
  intros p c rest Sp. destruct (sees_next p c rest Sp) as (sk & cs & A & F & St & _). destruct (next_token p sk c cs A F St) as (q & E & T & _). exists q. split; [exact E |]. split; [exact T |].
  exact (peek_next_spec p sk (c :: cs) A F St).
Qed.
Lemma sees_nil : forall p, sees p [] -> peek_next p = Some (eof_cursor p) /\ exists q, next p = Some (eof_cursor p, q).
Proof.
  intros p (cs & A & E). destruct (skip_split (pskip p) cs) as (sk & r & -> & F & St). change ([] = kept (pskip p) (sk ++ r)) in E. rewrite (kept_skipped _ _ _ F), (kept_stop _ _ St) in E.
  destruct r as [| d r]; [| discriminate]. split; [exact (peek_next_spec p sk [] A F St) |]. destruct (next_spec p sk [] A F St) as (q & N & _). exists q. exact N.
Qed.
Lemma sees_at : forall p, usual p -> sees p [] \/ exists c rest, sees p (c :: rest).
Proof. intros p U. destruct (sees_exists p U) as ([| c rest] & H); [now left | right; eauto]. Qed.
Lemma tok_is_sees : forall p l c k, sees p l -> In c l -> (tok_is (ctok c) k = true <-> kind_of c = k).
Proof. intros p l c k Sp I. apply tok_is_kind. apply wf_of_kind. exact (proj1 (sees_kinds p l c Sp I)). Qed.
Lemma tok_is_false : forall p l c k, sees p l -> In c l -> kind_of c <> k -> tok_is (ctok c) k = false.
Proof. intros p l c k Sp I N. destruct (tok_is (ctok c) k) eqn:T; [| reflexivity]. apply (tok_is_sees p l c k Sp I) in T. contradiction. Qed.
Lemma tok_is_eof : forall k, k <> K_Eof -> tok_is T_EOF k = false.
Proof. intros k N. destruct (tok_is T_EOF k) eqn:T; [| reflexivity]. apply (tok_is_kind T_EOF k) in T; [| now left]. exfalso. apply N. symmetry. exact T. Qed.
Lemma phrases_kind : forall k, k <> K_Eof -> reads_phrases (parse_kind k) (fun _ c => kind_of c = k) (fun c => [c]) anything.
Proof.
  intros k N p U. pose proof U as (Sk & _ & cs & A). split.
  - intros c q E. destruct (parse_kind_inv k p cs c q N A E) as (T & K). auto.
  - intros c rest K _ Sp. cbn [app] in Sp. destruct (next_sees p c rest Sp) as (q & E & T & Pn). exists q. split; [| exact T]. unfold parse_kind, parse_single, peek. rewrite Pn. unfold peek_kind.
    rewrite (proj2 (tok_is_sees p _ c k Sp (or_introl eq_refl)) K), E. reflexivity.
Qed.
Lemma peeks_kind : forall k p, k <> K_Eof -> usual p -> exists b, peek (peek_kind k) p = Some b /\ (b = true <-> exists c rest, kind_of c = k /\ sees p (c :: rest)).
Proof.
  intros k p N U. destruct (sees_at p U) as [Sp | (c & rest & Sp)].
  - exists false. unfold peek. rewrite (proj1 (sees_nil p Sp)). unfold peek_kind. cbn [eof_cursor ctok]. rewrite (tok_is_eof k N). split; [reflexivity |]. split; [discriminate |].
    intros (c & rest & _ & S'). pose proof (sees_det _ _ _ Sp S'). discriminate.
  - exists (tok_is (ctok c) k). rewrite (peek_sees _ _ _ _ Sp). split; [reflexivity |]. rewrite (tok_is_sees p _ c k Sp (or_introl eq_refl)). split; [eauto |].
    intros (c' & rest' & K & S'). pose proof (sees_det _ _ _ Sp S') as E. injection E as -> ->. exact K.
Qed.
Lemma peek_kind_sees : forall k p c rest, sees p (c :: rest) -> peek (peek_kind k) p = Some (tok_is (ctok c) k).
Proof. intros k p c rest Sp. exact (peek_sees _ _ _ _ Sp). Qed.

(* ---- words ---- *)
Section Words.
  Context {V : Type} (m : list (text * V)) (ND : NoDup (map fst m)).
  Lemma map_get_spec : forall w v, map_get m w = Some v <-> In (w, v) m.
  Proof.
    revert ND. induction m as [| [k x] r IH]; intros N w v; cbn [map_get]; [split; [discriminate | intros []] |]. cbn [map fst] in N. inversion N as [| ? ? Nk Nr]; subst.
    destruct (text_eqb k w) eqn:E.
    - apply text_eqb_spec in E. subst w. split; [intros [= ->]; now left |]. intros [H | H]; [congruence |]. exfalso. apply Nk. change k with (fst (k, v)). now apply in_map.
    - rewrite (IH Nr). split; [now right |]. intros [H | H]; [| exact H]. injection H as -> ->. exfalso. assert (Z : text_eqb w w = true) by now apply text_eqb_spec. congruence.
  Qed.
  Context (k : kind) (Kn : is_name k).
  Lemma name_not_eof : k <> K_Eof.
  Proof. intros ->. unfold is_name in Kn. cbn in Kn. intuition discriminate. Qed.
  Lemma word_readable : forall p l c, usual p -> sees p l -> In c l -> kind_of c = k -> exists w, parse_str_lower c (lsrc (plex p)) = Some w.
  Proof.
    intros p l c (_ & (_ & Nr) & _) (cs & A & ->) I K. apply filter_In in I. apply (Nr cs c A (proj1 I)). now rewrite K.
  Qed.
  Lemma peek_set_sees : forall p l c, usual p -> sees p l -> In c l -> exists b, peek_set k m p c = Some b /\ (b = true <-> exists v, is_word k m (lsrc (plex p)) v c).
  Proof.
    intros p l c U Sp I. unfold peek_set. destruct (tok_is (ctok c) k) eqn:T.
    - apply (tok_is_sees p l c k Sp I) in T. destruct (word_readable p l c U Sp I T) as (w & E). unfold look_up. rewrite E. destruct (map_get m w) as [v |] eqn:G; eexists; (split; [reflexivity |]).
      + split; [intros _ | reflexivity]. exists v. split; [exact T |]. exists w. split; [exact E | now apply map_get_spec].
      + split; [discriminate |]. intros (v & _ & w' & E' & I'). rewrite E in E'. injection E' as <-. apply map_get_spec in I'. congruence.
    - exists false. split; [reflexivity |]. split; [discriminate |]. intros (v & K & _). apply (tok_is_sees p l c k Sp I) in K. congruence.
  Qed.
  Lemma peek_set_eof : forall p, peek_set k m p (eof_cursor p) = Some false.
  Proof. intros p. unfold peek_set. cbn [eof_cursor ctok]. now rewrite (tok_is_eof k name_not_eof). Qed.
  Lemma is_word_det : forall src v v' c, is_word k m src v c -> is_word k m src v' c -> v = v'.
  Proof. intros src v v' c (_ & w & E & I) (_ & w' & E' & I'). rewrite E in E'. injection E' as <-. apply map_get_spec in I, I'. congruence. Qed.
  Lemma build_word : forall p v c, is_word k m (lsrc (plex p)) v c -> build_set m p c = Some (v, c).
  Proof. intros p v c (_ & w & E & I). unfold build_set, look_up. rewrite E. apply map_get_spec in I. now rewrite I. Qed.
  Theorem set_peeks : peeks_phrases (peek_set k m) (word_phrase k m) word_cursors.
  Proof.
    intros p U. destruct (sees_at p U) as [Sp | (c & rest & Sp)].
    - exists false. unfold peek. rewrite (proj1 (sees_nil p Sp)), peek_set_eof. split; [reflexivity |]. split; [discriminate |]. intros ((v & c) & rest & _ & S'). pose proof (sees_det _ _ _ Sp S'). discriminate.
    - rewrite (peek_sees _ _ _ _ Sp). destruct (peek_set_sees p _ c U Sp (or_introl eq_refl)) as (b & E & H). exists b. split; [exact E |]. rewrite H. split.
      + intros (v & W). exists (v, c), rest. split; [exact W | exact Sp].
      + intros ((v & c') & rest' & W & S'). pose proof (sees_det _ _ _ Sp S') as E'. injection E' as -> ->. exists v. exact W.
  Qed.
  Theorem set_phrases : reads_phrases (parse_set k m) (word_phrase k m) word_cursors anything.
  Proof.
    intros p U. split.
    - intros [v c] q E. unfold parse_set in E. destruct (sees_at p U) as [Sp | (d & rest & Sp)].
      + unfold peek in E. rewrite (proj1 (sees_nil p Sp)), peek_set_eof in E. destruct (proj2 (sees_nil p Sp)) as (q' & Nx). rewrite Nx in E. discriminate.
      + rewrite (peek_sees _ _ _ _ Sp) in E. destruct (peek_set_sees p _ d U Sp (or_introl eq_refl)) as (b & Eb & H). rewrite Eb in E. destruct (next_sees p d rest Sp) as (q' & Nx & T & _). rewrite Nx in E.
        destruct b; [| discriminate]. destruct (proj1 H eq_refl) as (v' & W). rewrite <- (took_src _ _ _ T) in W. rewrite (build_word q' v' d W) in E. injection E as <- <- <-.
        split; [rewrite <- (took_src _ _ _ T); exact W | exact T].
    - intros [v c] rest W _ Sp. cbn [word_cursors snd app] in Sp |- *. destruct (next_sees p c rest Sp) as (q & Nx & T & _). exists q. split; [| exact T]. unfold parse_set. rewrite (peek_sees _ _ _ _ Sp).
      destruct (peek_set_sees p _ c U Sp (or_introl eq_refl)) as (b & Eb & H). rewrite Eb, Nx. rewrite (proj2 H (ex_intro _ v W)). cbn [word_phrase fst snd] in W. rewrite <- (took_src _ _ _ T) in W.
      rewrite (build_word q v c W). reflexivity.
  Qed.
  Theorem set_runs : forall n, well_behaving 1 n (parse_set k m).
  Proof.
    intros n p cs U A L. unfold well_run, parse_set. destruct (peeked p cs A) as (c & sk & r & Ec & F & St & Hd & Pn & _).
    assert (PB : exists b, peek (peek_set k m) p = Some b /\ (b = true -> In c cs /\ exists v, is_word k m (lsrc (plex p)) v c)).
    { unfold peek. rewrite Pn. unfold peek_set. destruct (tok_is (ctok c) k) eqn:T; [| exists false; split; [reflexivity | discriminate]].
      destruct (tok_is_in p cs c k A) with (2 := name_not_eof) as (I & K); [destruct r; [left; exact Hd | right; rewrite Ec, Hd; apply in_or_app; right; now left] | exact T |].
      destruct (proj2 U cs c A I) as (_ & _ & w & E); [now rewrite K |]. unfold look_up. rewrite E. destruct (map_get m w) as [v |] eqn:G; eexists; (split; [reflexivity |]); [| discriminate].
      intros _. split; [exact I |]. exists v. split; [exact K |]. exists w. split; [exact E | now apply map_get_spec]. }
    destruct PB as (b & -> & H). destruct (next_total p cs A) as (c' & q & sk' & rest' & Nx & Ec' & F' & St' & Hc & Tr & A' & S). rewrite Nx.
    assert (M0 : moved 0 p q).
    { exists (sk' ++ firstn 1 rest'), (tl rest'). split; [rewrite <- app_assoc; replace (firstn 1 rest' ++ tl rest') with rest' by (destruct rest'; reflexivity); now rewrite <- Ec' |]. split; [exact A' |]. split; [lia |].
      destruct S as (S1 & S2 & S3 & S4 & S5 & S6). repeat split; auto. }
    destruct b; [| eexists _, q; split; [reflexivity | exact M0]].
    destruct (H eq_refl) as (I & v & W).
    assert (Ecc : c' = c).
    { assert (Z : peek_next p = Some c') by (rewrite Hc; apply (peek_next_spec p sk'); [now rewrite <- Ec' | exact F' | exact St']). congruence. }
    rewrite Ecc. rewrite (build_word q v c) by (replace (lsrc (plex q)) with (lsrc (plex p)) by (destruct S as (_ & _ & _ & _ & E & _); congruence); exact W).
    eexists _, q. split; [reflexivity |]. destruct rest' as [| d rest'].
    - exfalso. rewrite <- Ecc, Hc in W. destruct W as (K & _). cbn in K. unfold kind_of in K. apply name_not_eof. rewrite <- K. reflexivity.
    - exists (sk' ++ [d]), rest'. split; [rewrite <- app_assoc; cbn [app]; now rewrite <- Ec' |]. split; [exact A' |]. split; [rewrite app_length; cbn; lia |].
      destruct S as (S1 & S2 & S3 & S4 & S5 & S6). repeat split; auto.
  Qed.
End Words.
