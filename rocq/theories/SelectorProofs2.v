(* Selectors: results of parsers on their success, and the leaves of the grammar. *)
From Coq Require Import ZifyBool ZifyNat ZifyN.
From Coq Require Import List.
From Verif Require Import Selectors SpecLex SpecTrace SpecParser SpecSyntax SpecTraits SpecFeatures SpecSelectors SpecCursor SpecToken LexBase TokenProofs KindProofs LexFacts LexTrace CursorProofs
  ParserProofs ParserProofs2 ParserProofs3 ParserProofs4 CompareProofs SyntaxProofs SyntaxTotal TraitsTotal RulesTotal FeatureProofs FeatureProofs2 FeatureProofs3 FeatureProofs4 FeatureProofs5 FeatureProofs6 SelectorProofs.
Open Scope N_scope.
Open Scope list_scope.

(* ---- spent ---- *)
Lemma took_spent : forall p q l, took p q l -> spent p q l.
Proof.
  intros p q l (cs & new & rest & A & A' & _ & M & F & S). exists cs, new, rest. repeat split; auto; destruct S as (_ & S1 & S2 & S3 & S4 & S5); auto.
Qed.
Lemma spent_refl : forall p cs, ahead (plex p) cs -> spent p p [].
Proof. intros p cs A. exact (took_spent _ _ _ (took_refl p cs A)). Qed.
Lemma spent_trans : forall p q r a b, spent p q a -> spent q r b -> spent p r (a ++ b).
Proof.
  intros p q r a b (cs & new & rest & A & A' & M & F & S) (cs' & new' & rest' & B & B' & M' & F' & S').
  exists (cs ++ cs'), (new ++ new'), rest'. rewrite (ahead_det _ _ B _ A') in A. rewrite <- app_assoc. split; [exact A |]. split; [exact B' |].
  split; [now apply merged_app |]. split; [| exact (same_mode_trans p q r S S')].
  apply Forall_app. split; [exact F |]. destruct S as (_ & S & _). now rewrite <- S.
Qed.
Lemma spent_cons : forall p q r c l, spent p q [c] -> spent q r l -> spent p r (c :: l).
Proof. intros p q r c l T U. exact (spent_trans p q r [c] l T U). Qed.
Lemma spent_nil : forall p q r l, spent p q l -> spent q r [] -> spent p r l.
Proof. intros p q r l T U. rewrite <- (app_nil_r l). exact (spent_trans p q r l [] T U). Qed.
Lemma merged_len : forall A (a b c : list A), merged a b c -> length c = (length a + length b)%nat.
Proof. intros A a b c M. induction M; cbn [length]; lia. Qed.
Lemma spent_len : forall p q l cs, spent p q l -> ahead (plex p) cs -> exists cs', ahead (plex q) cs' /\ (length cs' + length l <= length cs)%nat.
Proof.
  intros p q l cs (used & new & rest & A & A' & M & _) B. exists rest. split; [exact A' |]. rewrite (ahead_det _ _ A _ B), app_length, (merged_len _ _ _ _ M). lia.
Qed.
Lemma spent_src : forall p q l, spent p q l -> lsrc (plex q) = lsrc (plex p).
Proof. intros p q l (cs & new & rest & _ & _ & _ & _ & S). apply S. Qed.
Lemma spent_skip : forall p q l, spent p q l -> pskip q = pskip p.
Proof. intros p q l (cs & new & rest & _ & _ & _ & _ & S). apply S. Qed.
Lemma spent_moved : forall p q l, spent p q l -> moved 0 p q.
Proof. intros p q l (cs & new & rest & A & A' & _ & _ & S). exists cs, rest. repeat split; auto; try apply S. lia. Qed.
Lemma spent_set_skip : forall p q s used, spent (set_skip p s) q used -> (forall c, in_kinds s c -> in_kinds (pskip p) c) -> spent p (set_skip q (pskip p)) used.
Proof.
  intros p q s used (cs & new & rest & A & A' & M & F & S) H. exists cs, new, rest. repeat split; auto; try (apply S).
  eapply Forall_impl; [| exact F]. exact H.
Qed.
Lemma ready_spent : forall p q l, ready p -> spent p q l -> ready q.
Proof.
  intros p q l ((Sk & U & cs & A) & R) T. split.
  - split; [rewrite (spent_skip _ _ _ T); exact Sk |]. split; [exact (usable_moved 0 p q (spent_moved _ _ _ T) U) |]. destruct (spent_len _ _ _ cs T A) as (cs' & A' & _). exists cs'. exact A'.
  - intros cs' c A' I. rewrite (spent_src _ _ _ T). destruct T as (used & new & rest & B & B' & _). apply (R _ c B). apply in_or_app. right.
    rewrite (ahead_det _ _ A' _ B'). exact I.
Qed.
Lemma ready_ahead : forall p, ready p -> exists cs, ahead (plex p) cs.
Proof. intros p ((_ & _ & H) & _). exact H. Qed.
Lemma rewound_spent : forall p q, moved 0 p q -> spent p (rewind q (checkpoint p)) [].
Proof.
  intros p q M. destruct (moved_left _ _ _ M) as (cs & A). destruct (moved_rewind 0 p q cs M A) as (M' & A'). exists [], [], cs. cbn [app]. repeat split; auto; try constructor; destruct M' as (? & ? & _ & _ & _ & S); apply S.
Qed.

(* ---- success ---- *)
Definition wp {A} (m : P A) (p : parser) (Q : A -> parser -> Prop) : Prop :=
  match m p with Some (Ok a, q) => Q a q | Some (Err _, _) => True | None => False end.
Lemma wp_imp : forall A (m : P A) p (Q R : A -> parser -> Prop), wp m p Q -> (forall a q, Q a q -> R a q) -> wp m p R.
Proof. intros A m p Q R W H. unfold wp in *. destruct (m p) as [[[a | e] q] |]; auto. Qed.
Lemma wp_ret : forall A (a : A) p (Q : A -> parser -> Prop), Q a p -> wp (ret a) p Q.
Proof. intros A a p Q H. exact H. Qed.
Lemma wp_fail : forall A e p (Q : A -> parser -> Prop), wp (fail e) p Q.
Proof. intros A e p Q. exact I. Qed.
Lemma wp_bind : forall A B (m : P A) (f : A -> P B) p Q, wp m p (fun a q => wp (f a) q Q) -> wp (bind m f) p Q.
Proof. intros A B m f p Q H. unfold wp, bind in *. destruct (m p) as [[[a | e] q] |]; auto. Qed.
Lemma wp_pmap : forall A B (g : A -> B) (m : P A) p Q, wp m p (fun a q => Q (g a) q) -> wp (pmap g m) p Q.
Proof. intros A B g m p Q H. unfold wp, pmap, bind, ret in *. destruct (m p) as [[[a | e] q] |]; auto. Qed.
Lemma wp_run : forall A (m : P A) k p (Q : A -> parser -> Prop), well_run k m p -> (forall a q, m p = Some (Ok a, q) -> moved k p q -> Q a q) -> wp m p Q.
Proof. intros A m k p Q (r & q & E & M) H. unfold wp. rewrite E. destruct r as [a | e]; [apply H; auto | exact I]. Qed.
Lemma wp_or : forall A c (m e : P A) p Q, peek c p <> None -> (peek c p = Some true -> wp m p Q) -> (peek c p = Some false -> wp e p Q) -> wp (or_peek c m e) p Q.
Proof. intros A c m e p Q N H1 H2. unfold wp, or_peek in *. destruct (peek c p) as [[] |]; [exact (H1 eq_refl) | exact (H2 eq_refl) | now elim N]. Qed.
Lemma wp_if : forall A c (m : P A) p (Q : option A -> parser -> Prop), peek c p <> None -> (peek c p = Some true -> wp m p (fun a q => Q (Some a) q)) -> (peek c p = Some false -> Q None p) -> wp (parse_if_peek c m) p Q.
Proof. intros A c m p Q N H1 H2. destruct (peek c p) as [[] |] eqn:E; [| | now elim N].
  - specialize (H1 eq_refl). apply (wp_pmap _ _ Some) in H1. unfold wp, parse_if_peek in *. now rewrite E.
  - unfold wp, parse_if_peek. rewrite E. exact (H2 eq_refl). Qed.
Lemma wp_inv : forall A (m : P A) p (Q : A -> parser -> Prop) a q, wp m p Q -> m p = Some (Ok a, q) -> Q a q.
Proof. intros A m p Q a q W E. unfold wp in W. now rewrite E in W. Qed.

Definition sound {A} (m : P A) (ok : text -> A -> Prop) (cur : A -> list cursor) : Prop :=
  forall p, ready p -> wp m p (fun a q => ok (lsrc (plex p)) a /\ spent p q (cur a)).
Lemma sound_of : forall A (m : P A) k ok cur fo, reads_phrases m ok cur fo -> (forall n, well_behaving k n m) -> sound m ok cur.
Proof.
  intros A m k ok cur fo R W p (U & _). pose proof U as (_ & Us & cs & Ah). eapply wp_run; [exact (W (length cs) p cs Us Ah (le_n _)) |].
  intros a q E _. destruct (R p U) as (R1 & _). destruct (R1 a q E) as (H1 & H2). split; [exact H1 | exact (took_spent _ _ _ H2)].
Qed.
Lemma sound_map : forall A B (g : A -> B) (m : P A) ok cur ok' cur', sound m ok cur -> (forall src a, ok src a -> ok' src (g a) /\ cur' (g a) = cur a) -> sound (pmap g m) ok' cur'.
Proof.
  intros A B g m ok cur ok' cur' H G p R. apply wp_pmap. eapply wp_imp; [exact (H p R) |]. intros a q (O1 & O2). destruct (G _ _ O1) as (G1 & G2). split; [exact G1 | now rewrite G2].
Qed.
Lemma kind_wp : forall k p (Q : cursor -> parser -> Prop), k <> K_Eof -> ready p -> (forall c q, kind_of c = k -> spent p q [c] -> ready q -> Q c q) -> wp (parse_kind k) p Q.
Proof.
  intros k p Q Ne R H. pose proof R as ((_ & Us & cs & Ah) & _). eapply wp_run; [exact (run_kind k p cs Ne Ah) |]. intros c q E _. destruct (parse_kind_inv k p cs c q Ne Ah E) as (T & K).
  apply took_spent in T. apply H; auto. exact (ready_spent p q [c] R T).
Qed.
Lemma delim_wp : forall ch p (Q : cursor -> parser -> Prop), ready p -> (forall c q, is_delim ch c -> spent p q [c] -> ready q -> Q c q) -> wp (parse_delim ch) p Q.
Proof.
  intros ch p Q R H. pose proof R as ((_ & Us & cs & Ah) & _). eapply wp_run; [exact (runs_delim ch (length cs) p cs Us Ah (le_n _)) |]. intros c q E _.
  destruct (parse_delim_inv ch p cs c q Ah E) as (K & T). apply took_spent in T. apply H; auto. exact (ready_spent p q [c] R T).
Qed.
Lemma if_kind_wp : forall k p (Q : option cursor -> parser -> Prop), k <> K_Eof -> ready p -> (forall o q, opt_kind k o -> spent p q (opt_list o) -> ready q -> (o = None -> q = p /\ peek (peek_kind k) p = Some false) -> Q o q) -> wp (if_kind k) p Q.
Proof.
  intros k p Q Ne R H. pose proof R as ((_ & Us & cs & Ah) & _). eapply wp_run; [exact (run_if_kind k p cs Ah) |]. intros o q E _. pose proof (if_kind_inv k p cs o q Ne Ah E) as X.
  destruct o as [c |].
  - destruct X as (T & K). apply took_spent in T. apply H; [exact K | exact T | exact (ready_spent p q [c] R T) | discriminate].
  - destruct X as (-> & Pk). apply H; [exact I | exact (spent_refl p cs Ah) | exact R | auto].
Qed.
