(* Selectors: namespaces and attributes. *)
From Coq Require Import ZifyBool ZifyNat ZifyN.
From Coq Require Import List.
From Verif Require Import Selectors SpecLex SpecTrace SpecParser SpecSyntax SpecTraits SpecFeatures SpecSelectors SpecCursor SpecToken LexBase TokenProofs KindProofs LexFacts LexTrace CursorProofs
  ParserProofs ParserProofs2 ParserProofs3 ParserProofs4 CompareProofs SyntaxProofs SyntaxTotal TraitsTotal RulesTotal FeatureProofs FeatureProofs2 FeatureProofs3 FeatureProofs4 FeatureProofs5 FeatureProofs6 SelectorProofs SelectorProofs2 SelectorProofs3.
Open Scope N_scope.
Open Scope list_scope.

(* ---- one token, whatever is skipped ---- *)
Lemma built_run : forall A k (build : parser -> cursor -> option A) p cs, ahead (plex p) cs -> (forall c, c = eof_cursor p \/ In c cs -> k p c <> None) ->
  (forall c q, k p c = Some true -> c = eof_cursor p \/ In c cs -> lsrc (plex q) = lsrc (plex p) -> In c cs /\ build q c <> None) ->
  exists r q, parse_built k build p = Some (r, q) /\ moved 0 p q /\ forall x, r = Ok x -> exists c, took p q [c] /\ peek_next p = Some c /\ k p c = Some true /\ In c cs /\ build q c = Some x.
Proof.
  intros A k build p cs Ah Ht Hb. destruct (skip_split (pskip p) cs) as (sk & rest & Ec & F & St). subst cs. unfold parse_built, peek.
  rewrite (peek_next_spec p sk rest Ah F St). destruct (next_spec p sk rest Ah F St) as (q & N & _). rewrite N. pose proof (moved_next p _ _ q Ah N) as M.
  set (c := hd_or_eof (plex p) rest) in *. assert (Ic : c = eof_cursor p \/ In c (sk ++ rest)) by (unfold c; destruct rest; [now left | right; apply in_or_app; right; now left]).
  pose proof (Ht c Ic) as K. destruct (k p c) as [[] |] eqn:Ek; [| | congruence].
  - destruct (Hb c q Ek Ic) as (I & B); [apply (moved_mode _ _ _ M) |]. destruct (build q c) as [x |] eqn:Eb; [| congruence]. exists (Ok x), q. split; [reflexivity |]. split; [exact M |]. intros y [= <-].
    exists c. split; [| auto 6]. unfold c in *. destruct rest as [| d rest]; [exfalso; exact (ahead_kind _ _ Ah _ I eq_refl) |]. cbn [hd_or_eof] in *.
    destruct (next_token p sk d rest Ah F) as (q' & N' & T & _); [exact St |]. rewrite N in N'. injection N' as <-. exact T.
  - exists (Err (D_Unexpected c)), q. split; [reflexivity |]. split; [exact M |]. discriminate.
Qed.
Lemma single_run : forall k p cs, ahead (plex p) cs -> (forall p c, k p c <> None) -> (forall p o, k p (Cursor o T_EOF) <> Some true) ->
  exists r q, parse_single k (fun c => c) p = Some (r, q) /\ moved 0 p q /\ forall c, r = Ok c -> took p q [c] /\ peek_next p = Some c /\ k p c = Some true /\ In c cs.
Proof.
  intros k p cs Ah Ht He. destruct (built_run cursor k (fun _ c => Some c) p cs Ah) as (r & q & E & M & H); [intros c _; apply Ht | |].
  - intros c q K [-> | I] _; [elim (He p _ K) |]. split; [exact I | discriminate].
  - exists r, q. split; [exact E |]. split; [exact M |]. intros c Er. destruct (H c Er) as (d & H1 & H2 & H3 & H4 & H5). injection H5 as ->. auto.
Qed.
Lemma mid_in : forall A (a : list A) c b, In c (a ++ c :: b).
Proof. intros A a c b. apply in_or_app. right. now left. Qed.
Lemma merged_nil : forall A (a c : list A), merged a [] c -> c = a.
Proof. intros A a. induction a as [| x a IH]; intros c M; inversion M; subst; [reflexivity |]. f_equal. now apply IH. Qed.
Lemma took_raw : forall p q c cs, took p q [c] -> pskip p = KS_NONE -> ahead (plex p) cs -> exists rest, cs = c :: rest /\ ahead (plex q) rest.
Proof.
  intros p q c cs (u & new & rest & A & A' & _ & M & F & _) S Ah. exists rest. split; [| exact A']. rewrite (ahead_det _ _ A _ Ah). destruct new as [| d new].
  - now rewrite (merged_nil _ _ _ M).
  - inversion F as [| ? ? H _]; subst. rewrite S in H. elim (not_none d H).
Qed.
Lemma raw_kind : forall k p cs, k <> K_Eof -> ahead (plex p) cs -> exists r q, parse_kind k (set_skip p KS_NONE) = Some (r, q) /\ moved 0 (set_skip p KS_NONE) q /\
  forall c, r = Ok c -> kind_of c = k /\ took (set_skip p KS_NONE) q [c] /\ exists rest, cs = c :: rest /\ ahead (plex q) rest.
Proof.
  intros k p cs Ne A. destruct (single_run (peek_kind k) (set_skip p KS_NONE) cs A) as (r & q & E & M & H); [discriminate | intros ? ?; now apply kind_eof |]. exists r, q. split; [exact E |]. split; [exact M |].
  intros c Er. destruct (H c Er) as (T & _ & K & I). apply some_inj in K. destruct (tok_is_in (set_skip p KS_NONE) cs c k A (or_intror I) Ne K) as (_ & K'). split; [exact K' |]. split; [exact T |].
  exact (took_raw _ _ _ _ T eq_refl A).
Qed.
Lemma delim_of_peek : forall ch p cs c, ahead (plex p) cs -> In c cs -> peek_delim ch p c = Some true -> is_delim ch c.
Proof.
  intros ch p cs c A I K. apply some_inj in K. apply andb_true_iff in K. destruct K as (K1 & K2). split; [| now apply tok_is_char_spec].
  exact (proj2 (tok_is_in p cs c K_Delim A (or_intror I) ltac:(discriminate) K1)).
Qed.
Lemma raw_delim : forall ch p cs, ahead (plex p) cs -> exists r q, parse_delim ch (set_skip p KS_NONE) = Some (r, q) /\ moved 0 (set_skip p KS_NONE) q /\
  forall c, r = Ok c -> is_delim ch c /\ took (set_skip p KS_NONE) q [c] /\ exists rest, cs = c :: rest /\ ahead (plex q) rest.
Proof.
  intros ch p cs A. destruct (single_run (peek_delim ch) (set_skip p KS_NONE) cs A) as (r & q & E & M & H); [discriminate | intros ? ?; now apply delim_eof |]. exists r, q. split; [exact E |]. split; [exact M |].
  intros c Er. destruct (H c Er) as (T & _ & K & I). split; [exact (delim_of_peek _ _ _ _ A I K) |]. split; [exact T |]. exact (took_raw _ _ _ _ T eq_refl A).
Qed.
Lemma raw_spent : forall p q l, took (set_skip p KS_NONE) q l -> spent p (set_skip q (pskip p)) l.
Proof. intros p q l T. apply (spent_set_skip p q KS_NONE); [now apply took_spent |]. intros c H. elim (not_none c H). Qed.
Lemma unskipped_delim_wp : forall ch p cs (Q : cursor -> parser -> Prop), ready p -> ahead (plex p) cs ->
  (forall c q rest, is_delim ch c -> cs = c :: rest -> ahead (plex q) rest -> spent p q [c] -> ready q -> Q c q) -> wp (unskipped (parse_delim ch)) p Q.
Proof.
  intros ch p cs Q R A H. destruct (raw_delim ch p cs A) as (r & q & E & M & O). unfold wp, unskipped. rewrite E. destruct r as [c | e]; [| exact I].
  destruct (O c eq_refl) as (D & T & rest & Ec & A'). apply raw_spent in T. eapply H; eauto. exact (ready_spent _ _ _ R T).
Qed.
Lemma kind_wp_at : forall k p cs (Q : cursor -> parser -> Prop), k <> K_Eof -> ready p -> ahead (plex p) cs ->
  (forall c q sk rest, kind_of c = k -> spent p q [c] -> ready q -> cs = sk ++ c :: rest -> Forall (in_kinds (pskip p)) sk -> ahead (plex q) rest -> peek_next p = Some c -> Q c q) -> wp (parse_kind k) p Q.
Proof.
  intros k p cs Q Ne R Ah H. eapply wp_run; [exact (run_kind k p cs Ne Ah) |]. intros c q E _.
  destruct (parse_single_kind _ _ _ _ _ _ _ (fun p o => kind_eof k p o Ne) Ah E) as (sk & c' & rest & Ec & F & St & K & -> & T & A'). subst cs. apply some_inj in K.
  destruct (tok_is_in p _ c' k Ah (or_intror (mid_in _ _ _ _)) Ne K) as (_ & K'). apply took_spent in T.
  eapply H; eauto; [exact (ready_spent p q [c'] R T) |]. exact (peek_next_spec p sk (c' :: rest) Ah F St).
Qed.
Lemma adjacent_in : forall x sk a b rest, ahead x (sk ++ a :: b :: rest) -> adjacent a b.
Proof. intros x sk a b rest A. destruct (ahead_app _ _ _ A) as (y & A' & _). exact (ahead_adjacent _ _ _ _ A'). Qed.
Lemma ident_no_char : forall c k, kind_of c = k -> ~ In k doc_delim_like -> k <> K_Eof -> tchar (ctok c) = None.
Proof.
  intros c k K N Ne. unfold tchar. destruct (is_delim_like (ctok c)) eqn:D; [| reflexivity]. apply delim_like_spec in D; [| apply wf_of_kind; unfold kind_of in K; congruence].
  unfold kind_of in K. rewrite K in D. contradiction.
Qed.
Lemma ident_char : forall c, kind_of c = K_Ident -> tchar (ctok c) = None.
Proof. intros c K. apply (ident_no_char c K_Ident K); [| discriminate]. unfold doc_delim_like. cbn [In]. intuition discriminate. Qed.

(* ---- prefixes and namespaces ---- *)
Lemma prefix_wp : forall p (Q : ns_prefix -> parser -> Prop), ready p ->
  (forall x q, spent p q (prefix_cursors x) -> ready q ->
    match x with PNone c => is_delim 124 c | PName i c => kind_of i = K_Ident /\ is_delim 124 c /\ adjacent i c /\ peek_next p = Some i | PWildcard s c => two 42 124 s c end -> Q x q) ->
  wp parse_prefix p Q.
Proof.
  intros p Q R H. destruct (ready_ahead p R) as (cs & A). unfold parse_prefix. apply wp_or; [exact (peek_delim_total 124 p cs A) | |]; intros _.
  { apply wp_pmap. apply delim_wp; [exact R |]. intros c q D T Rq. now apply H. }
  apply wp_or; [exact (peek_delim_total 42 p cs A) | |]; intros _; apply wp_bind.
  - eapply wp_run; [exact (runs_delim 42 (length cs) p cs (proj1 (proj2 (proj1 R))) A (le_n _)) |]. intros s q E _.
    destruct (parse_single_kind _ _ _ _ _ _ _ (fun p o => delim_eof p o 42) A E) as (sk & c & rest & Ec & F & St & K & -> & T & A'). subst cs.
    apply (delim_of_peek 42 p _ c A (mid_in _ _ _ _)) in K. apply took_spent in T. pose proof (ready_spent _ _ _ R T) as Rq. apply wp_pmap.
    eapply unskipped_delim_wp; [exact Rq | exact A' |]. intros d q2 rest2 D -> _ T2 R2. apply H; [exact (spent_cons _ _ _ _ _ T T2) | exact R2 |]. split; [exact K |]. split; [exact D |].
    exact (adjacent_in _ _ _ _ _ A).
  - eapply kind_wp_at; [discriminate | exact R | exact A |]. intros i q sk rest K T Rq -> F A' Pk. apply wp_pmap.
    eapply unskipped_delim_wp; [exact Rq | exact A' |]. intros d q2 rest2 D -> _ T2 R2. apply H; [exact (spent_cons _ _ _ _ _ T T2) | exact R2 |]. split; [exact K |]. split; [exact D |].
    split; [exact (adjacent_in _ _ _ _ _ A) | exact Pk].
Qed.
Lemma build_ns_tag_ok : forall p cs c q, names_readable p -> ahead (plex p) cs -> In c cs -> peek_ns_tag p c = Some true -> lsrc (plex q) = lsrc (plex p) ->
  exists x, build_ns_tag q c = Some x /\ ns_tag_cursor x = c /\ match x with NTag t => tag_phrase (lsrc (plex p)) t | NWildcard c => is_delim 42 c end.
Proof.
  intros p cs c q NR A I K S. unfold peek_ns_tag, build_ns_tag, peek_delim, peek_tag, peek_kind in *. destruct (tok_is (ctok c) K_Delim && tok_is_char (ctok c) 42) eqn:D.
  - exists (NWildcard c). split; [reflexivity |]. split; [reflexivity |]. apply (delim_of_peek 42 p cs c A I). unfold peek_delim. now rewrite D.
  - apply some_inj in K. destruct (tok_is_in p cs c K_Ident A (or_intror I) ltac:(discriminate) K) as (_ & K'). destruct (NR cs c A I) as (_ & _ & w & E); [rewrite K'; now left |].
    rewrite <- S in E. destruct (build_tag_spec q c w K' E) as (t & -> & Ec & Ph). exists (NTag t). rewrite <- S. auto.
Qed.
Lemma ns_tag_run : forall p cs, names_readable p -> ahead (plex p) cs -> exists r q, parse_ns_tag p = Some (r, q) /\ moved 0 p q /\
  forall x, r = Ok x -> took p q [ns_tag_cursor x] /\ match x with NTag t => tag_phrase (lsrc (plex p)) t | NWildcard c => is_delim 42 c end.
Proof.
  intros p cs NR A. destruct (built_run ns_tag peek_ns_tag build_ns_tag p cs A) as (r & q & E & M & H).
  - intros c _. unfold peek_ns_tag, peek_delim. now destruct (_ && _).
  - intros c q K [-> | I] S.
    + unfold peek_ns_tag in K. discriminate.
    + split; [exact I |]. destruct (build_ns_tag_ok p cs c q NR A I K S) as (x & -> & _). discriminate.
  - exists r, q. split; [exact E |]. split; [exact M |]. intros x Er. destruct (H x Er) as (c & T & _ & K & I & B).
    destruct (build_ns_tag_ok p cs c q NR A I K) as (x' & B' & Ec & Ph); [apply (moved_mode _ _ _ M) |]. rewrite B in B'. injection B' as <-. now rewrite Ec.
Qed.
Lemma ready_names : forall p, ready p -> names_readable p.
Proof. intros p R. apply R. Qed.
Lemma ns_tag_wp : forall p (Q : ns_tag -> parser -> Prop), ready p ->
  (forall x q, spent p q [ns_tag_cursor x] -> ready q -> match x with NTag t => tag_phrase (lsrc (plex p)) t | NWildcard c => is_delim 42 c end -> Q x q) -> wp parse_ns_tag p Q.
Proof.
  intros p Q R H. destruct (ready_ahead p R) as (cs & A). destruct (ns_tag_run p cs (ready_names p R) A) as (r & q & E & M & O). unfold wp. rewrite E. destruct r as [x | e]; [| exact I].
  destruct (O x eq_refl) as (T & Ph). apply took_spent in T. apply H; auto. exact (ready_spent _ _ _ R T).
Qed.
Lemma prefixed_wp : forall p (Q : namespace_t -> parser -> Prop), ready p -> (forall i, peek_next p = Some i -> kind_of i <> K_Ident) ->
  (forall x q, spent p q (namespace_cursors x) -> ready q -> fst x <> None -> namespace_phrase (lsrc (plex p)) x -> Q x q) ->
  wp (bind parse_prefix (fun x => pmap (pair (Some x)) parse_ns_tag)) p Q.
Proof.
  intros p Q R Hn H. apply wp_bind. apply prefix_wp; [exact R |]. intros y q T Rq Py. apply wp_pmap. apply ns_tag_wp; [exact Rq |]. intros x q2 T2 R2 Px.
  rewrite (spent_src _ _ _ T) in Px. apply H; [exact (spent_trans _ _ _ _ _ T T2) | exact R2 | discriminate |]. split; [| exact Px]. cbn [fst]. destruct y; cbn [prefix_phrase]; auto.
  destruct Py as (K & _ & _ & Pk). elim (Hn _ Pk K).
Qed.
Lemma namespace_wp : forall p (Q : namespace_t -> parser -> Prop), ready p ->
  (forall x q, spent p q (namespace_cursors x) -> ready q -> fst x <> None -> namespace_phrase (lsrc (plex p)) x -> Q x q) ->
  (forall x q sk i t rest, fst x = None -> ahead (plex p) (sk ++ i :: t :: rest) -> Forall (in_kinds (pskip p)) sk -> kind_of i = K_Ident -> kind_of t = K_Ident \/ is_delim 42 t -> Q x q) ->
  wp parse_namespace p Q.
Proof.
  intros p Q R H H'. destruct (ready_ahead p R) as (cs & A). unfold parse_namespace.
  apply wp_or; [exact (peeks_double 42 124 p cs A) | |]; intro P1.
  { apply prefixed_wp; [exact R | | exact H]. intros i Pk K. unfold peek in P1. rewrite Pk in P1. unfold peek_double in P1. unfold tok_is_char in P1. rewrite (ident_char i K) in P1. discriminate. }
  apply wp_or; [exact (peek_delim_total 124 p cs A) | |]; intro P2.
  { apply prefixed_wp; [exact R | | exact H]. intros i Pk K. unfold peek in P2. rewrite Pk in P2. unfold peek_delim in P2. unfold tok_is_char in P2. rewrite (ident_char i K), andb_false_r in P2. discriminate. }
  apply wp_bind. eapply kind_wp_at; [discriminate | exact R | exact A |]. intros i q sk rest K T Rq -> F A' Pk. unfold wp.
  destruct (raw_delim 124 q rest A') as (r1 & q1 & E1 & M1 & O1).
  assert (N1 : names_readable (set_skip q KS_NONE)) by exact (ready_names q Rq).
  assert (Last : match pmap (pair None) parse_ns_tag (set_skip q KS_NONE) with Some (Ok x, q0) => Q x q0 | Some (Err _, _) => True | None => False end).
  { destruct (ns_tag_run (set_skip q KS_NONE) rest N1 A') as (r & q2 & E & M & O). unfold pmap, bind, ret. rewrite E. destruct r as [x | e]; [| exact I].
    destruct (O x eq_refl) as (T2 & Ph). destruct (took_raw _ _ _ _ T2 eq_refl A') as (rest2 & -> & _). eapply H'; eauto.
    destruct x as [t | c]; cbn [ns_tag_cursor]; [left; apply Ph | right; exact Ph]. }
  destruct (peek (peek_delim 124) (set_skip q KS_NONE)) as [[] |] eqn:D1; [| destruct (peek (peek_double 124 61) (set_skip q KS_NONE)) as [[] |]; exact Last |].
  2:{ elim (peek_delim_total 124 (set_skip q KS_NONE) rest A' D1). }
  destruct (peek (peek_double 124 61) (set_skip q KS_NONE)) as [[] |] eqn:D2; [exact Last | | elim (peeks_double 124 61 (set_skip q KS_NONE) rest A' D2)].
  rewrite E1. destruct (moved_right _ _ _ M1) as (cs1 & A1).
  assert (N2 : names_readable q1). { intros c0 c A0 Ic Kc. destruct (moved_len _ _ _ _ M1 A') as (c1 & Ac1 & _). destruct M1 as (u & v & B & B' & _ & SM). destruct SM as (_ & _ & _ & S & _). rewrite S. cbn [set_skip plex] in *.
    apply (N1 rest c); [exact A' | | exact Kc]. rewrite (ahead_det _ _ B _ A'). apply in_or_app. right. now rewrite (ahead_det _ _ A0 _ B'). }
  destruct (ns_tag_run q1 cs1 N2 A1) as (r3 & q3 & E3 & M3 & O3). rewrite E3. destruct r1 as [pipe | e1]; [| exact I]. destruct r3 as [x | e3]; [| exact I].
  destruct (O1 pipe eq_refl) as (Dp & T1 & rest1 & -> & A1'). destruct (O3 x eq_refl) as (T3 & Ph). pose proof (took_trans _ _ _ _ _ T1 T3) as T13. cbn [app] in T13.
  assert (S1 : pskip q1 = KS_NONE) by apply (moved_mode _ _ _ M1). destruct (took_raw _ _ _ _ T3 S1 A1') as (rest3 & -> & _).
  apply raw_spent in T13. apply H.
  - exact (spent_cons _ _ _ _ _ T T13).
  - exact (ready_spent _ _ _ Rq T13).
  - discriminate.
  - split; cbn [fst snd prefix_phrase].
    + split; [exact K |]. split; [exact Dp |]. split; [exact (adjacent_in _ _ _ _ _ A) |]. exact (ahead_adjacent _ _ _ _ A').
    + destruct M1 as (? & ? & _ & _ & _ & SM). destruct SM as (_ & _ & _ & S & _). rewrite S in Ph. cbn [set_skip plex] in Ph. now rewrite (spent_src _ _ _ T) in Ph.
Qed.
