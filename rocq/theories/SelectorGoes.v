(* Selectors are read: steps on the raw tokens. *)
From Coq Require Import ZifyBool ZifyNat ZifyN.
From Coq Require Import List.
From Verif Require Import Selectors SpecLex SpecTrace SpecParser SpecSyntax SpecTraits SpecFeatures SpecSelectors SpecSelectorText SpecCursor SpecToken LexBase TokenProofs KindProofs LexFacts LexTrace CursorProofs
  ParserProofs ParserProofs2 ParserProofs3 ParserProofs4 CompareProofs SyntaxProofs SyntaxTotal TraitsTotal RulesTotal FeatureProofs FeatureProofs2 FeatureProofs3 FeatureProofs4 FeatureProofs5 FeatureProofs6 SelectorProofs SelectorProofs2 SelectorProofs3 SelectorProofs4 SelectorProofs5 SelectorProofs6 SelectorProofs7 SelectorProofs8 SelectorProofs9.
Open Scope N_scope.
Open Scope list_scope.

(* [m] returns x, leaving the tokens [rest] *)
Definition goes {A} (m : P A) (p : parser) (x : A) (rest : list cursor) : Prop := exists q, m p = Some (Ok x, q) /\ ahead (plex q) rest /\ same_mode p q /\ ready q.
Lemma gap_trivia : forall g, gap g <-> Forall (in_kinds KS_TRIVIA) g.
Proof. intro g. unfold gap. split; apply Forall_impl; intro c; unfold trivia_token; now rewrite in_trivia. Qed.
Lemma ready_skip : forall p, ready p -> pskip p = KS_TRIVIA.
Proof. intros p R. apply R. Qed.
Lemma ready_moved : forall k p q, ready p -> moved k p q -> ready q.
Proof.
  intros k p q R M. destruct M as (used & rest & A & A' & _ & S). assert (T : spent p q used \/ True) by now right. clear T.
  destruct R as ((Sk & U & _) & R). destruct S as (S1 & S2 & S3 & S4 & S5). split.
  - split; [congruence |]. split; [| exists rest; exact A']. apply (usable_moved 0 p q); [| exact U]. exists used, rest. repeat split; auto. lia.
  - intros cs' c Ac I. rewrite S4. apply (R _ c A). apply in_or_app. right. now rewrite (ahead_det _ _ Ac _ A').
Qed.
Lemma moved_of : forall p q used rest, ahead (plex p) (used ++ rest) -> ahead (plex q) rest -> same_mode p q -> moved 0 p q.
Proof. intros p q used rest A A' S. exists used, rest. repeat split; auto; try apply S. lia. Qed.
Lemma mode_trans : forall p q r, same_mode p q -> same_mode q r -> same_mode p r.
Proof. intros p q r (a & b & c & d & e) (a' & b' & c' & d' & e'). repeat split; congruence. Qed.
Lemma mode_refl : forall p, same_mode p p.
Proof. intro p. repeat split. Qed.
Lemma took_mode : forall p q l, took p q l -> same_mode p q.
Proof. intros p q l T. exact (moved_mode _ _ _ (spent_moved _ _ _ (took_spent _ _ _ T))). Qed.
Lemma goes_bind : forall A B (m : P A) (f : A -> P B) p a b mid rest, goes m p a mid -> (forall q, m p = Some (Ok a, q) -> ahead (plex q) mid -> same_mode p q -> ready q -> goes (f a) q b rest) -> goes (bind m f) p b rest.
Proof.
  intros A B m f p a b mid rest (q & E & A1 & S & R) H. destruct (H q E A1 S R) as (r & E' & A2 & S' & R'). exists r. split; [unfold bind; now rewrite E |]. split; [exact A2 |]. split; [exact (mode_trans _ _ _ S S') | exact R'].
Qed.
Lemma goes_map : forall A B (g : A -> B) (m : P A) p a rest, goes m p a rest -> goes (pmap g m) p (g a) rest.
Proof. intros A B g m p a rest (q & E & A1 & S & R). exists q. split; [unfold pmap, bind, ret; now rewrite E | auto]. Qed.
Lemma goes_ret : forall A (a : A) p rest, ready p -> ahead (plex p) rest -> goes (ret a) p a rest.
Proof. intros A a p rest R A1. exists p. split; [reflexivity |]. split; [exact A1 |]. split; [apply mode_refl | exact R]. Qed.
Lemma goes_or : forall A k (m e : P A) p a rest b, peek k p = Some b -> goes (if b then m else e) p a rest -> goes (or_peek k m e) p a rest.
Proof. intros A k m e p a rest b Pk G. unfold goes, or_peek. rewrite Pk. destruct b; exact G. Qed.
Lemma goes_if : forall A k (m : P A) p a rest, peek k p = Some true -> goes m p a rest -> goes (parse_if_peek k m) p (Some a) rest.
Proof. intros A k m p a rest Pk (q & E & A1 & S & R). exists q. split; [unfold parse_if_peek; rewrite Pk; unfold pmap, bind, ret; now rewrite E | auto]. Qed.
Lemma goes_if_not : forall A k (m : P A) p rest, peek k p = Some false -> ready p -> ahead (plex p) rest -> goes (parse_if_peek k m) p None rest.
Proof. intros A k m p rest Pk R A1. exists p. split; [unfold parse_if_peek; now rewrite Pk |]. split; [exact A1 |]. split; [apply mode_refl | exact R]. Qed.
(* ---- the next token ---- *)
Definition solid (c : cursor) : Prop := ~ trivia_token c.
Lemma solid_kinds : forall p c, ready p -> solid c -> ~ in_kinds (pskip p) c.
Proof. intros p c R Hc. rewrite (ready_skip p R), in_trivia. exact Hc. Qed.
Lemma gap_kinds : forall p g, ready p -> gap g -> Forall (in_kinds (pskip p)) g.
Proof. intros p g R Hg. rewrite (ready_skip p R). now apply gap_trivia. Qed.
Lemma peek_at : forall k p g c rest, ready p -> ahead (plex p) (g ++ c :: rest) -> gap g -> solid c -> peek k p = k p c.
Proof. intros k p g c rest R A G Hc. unfold peek. now rewrite (peek_next_spec p g (c :: rest) A (gap_kinds p g R G) (solid_kinds p c R Hc)). Qed.
Lemma single_goes : forall A (k : peeker) (b : cursor -> A) p g c rest, ready p -> ahead (plex p) (g ++ c :: rest) -> gap g -> solid c -> k p c = Some true -> goes (parse_single k b) p (b c) rest.
Proof.
  intros A k b p g c rest R Ah G Hc K. destruct (parse_single_ok A k b p g c rest Ah (gap_kinds p g R G) (solid_kinds p c R Hc) K) as (q & E & T & A'). exists q. split; [exact E |]. split; [exact A' |].
  split; [exact (took_mode _ _ _ T) | exact (ready_spent _ _ _ R (took_spent _ _ _ T))].
Qed.
Lemma tok_kind : forall k c, kind_of c = k -> k <> K_Eof -> tok_is (ctok c) k = true.
Proof. intros k c K N. unfold kind_of in K. apply tok_is_kind; [apply wf_of_kind; congruence | exact K]. Qed.
Lemma tok_not : forall k c, kind_of c <> k -> kind_of c <> K_Eof -> tok_is (ctok c) k = false.
Proof. intros k c K N. unfold kind_of in *. destruct (tok_is (ctok c) k) eqn:T; [| reflexivity]. apply tok_is_kind in T; [congruence | now apply wf_of_kind]. Qed.
Definition solid_kind (k : kind) : Prop := k <> K_Eof /\ k <> K_Whitespace /\ k <> K_Comment.
Lemma solid_of : forall c k, kind_of c = k -> solid_kind k -> solid c.
Proof. intros c k K (_ & N1 & N2) [H | H]; congruence. Qed.
Lemma kind_goes : forall k p g c rest, ready p -> ahead (plex p) (g ++ c :: rest) -> gap g -> kind_of c = k -> solid_kind k -> goes (parse_kind k) p c rest.
Proof.
  intros k p g c rest R A G K N. apply (single_goes _ _ (fun c => c) p g c rest R A G (solid_of c k K N)). unfold peek_kind. f_equal. apply tok_kind; [exact K | apply N].
Qed.
Lemma delim_solid : forall ch c, is_delim ch c -> solid c.
Proof. intros ch c (K & _) [H | H]; unfold kind_of in *; congruence. Qed.
Lemma delim_goes : forall ch p g c rest, ready p -> ahead (plex p) (g ++ c :: rest) -> gap g -> is_delim ch c -> goes (parse_delim ch) p c rest.
Proof. intros ch p g c rest R A G D. apply (single_goes _ _ (fun c => c) p g c rest R A G (delim_solid _ _ D)). now apply is_delim_peek. Qed.
Lemma if_kind_goes : forall k p g c rest, ready p -> ahead (plex p) (g ++ c :: rest) -> gap g -> kind_of c = k -> solid_kind k -> goes (if_kind k) p (Some c) rest.
Proof.
  intros k p g c rest R A G K N. apply goes_if; [| exact (kind_goes k p g c rest R A G K N)]. rewrite (peek_at _ p g c rest R A G (solid_of c k K N)). unfold peek_kind. f_equal. apply tok_kind; [exact K | apply N].
Qed.
Lemma peek_kind_at : forall k p g c rest, ready p -> ahead (plex p) (g ++ c :: rest) -> gap g -> solid c -> kind_of c <> K_Eof -> peek (peek_kind k) p = Some (tok_is (ctok c) k).
Proof. intros k p g c rest R A G Hc N. now rewrite (peek_at _ p g c rest R A G Hc). Qed.
(* with nothing skipped *)
Lemma unskipped_kind_goes : forall k p c rest, ready p -> ahead (plex p) (c :: rest) -> kind_of c = k -> goes (unskipped (parse_kind k)) p c rest.
Proof.
  intros k p c rest R A K. destruct (unskipped_go k p c rest A K) as (q & E & T & A'). exists q. split; [exact E |]. split; [exact A' |]. split; [exact (took_mode _ _ _ T) | exact (ready_spent _ _ _ R (took_spent _ _ _ T))].
Qed.
Lemma raw_kind_goes : forall k p c rest, ahead (plex p) (c :: rest) -> pskip p = KS_NONE -> kind_of c = k -> k <> K_Eof -> exists q, parse_kind k p = Some (Ok c, q) /\ ahead (plex q) rest /\ same_mode p q.
Proof.
  intros k p c rest A Sk K N. destruct (parse_single_ok _ (peek_kind k) (fun c => c) p [] c rest A (Forall_nil _)) as (q & E & T & A').
  - rewrite Sk. apply not_none.
  - unfold peek_kind. f_equal. now apply tok_kind.
  - exists q. split; [exact E |]. split; [exact A' | exact (took_mode _ _ _ T)].
Qed.
Lemma raw_delim_goes : forall ch p c rest, ahead (plex p) (c :: rest) -> pskip p = KS_NONE -> is_delim ch c -> exists q, parse_delim ch p = Some (Ok c, q) /\ ahead (plex q) rest /\ same_mode p q.
Proof.
  intros ch p c rest A Sk D. destruct (parse_single_ok _ (peek_delim ch) (fun c => c) p [] c rest A (Forall_nil _)) as (q & E & T & A').
  - rewrite Sk. apply not_none.
  - now apply is_delim_peek.
  - exists q. split; [exact E |]. split; [exact A' | exact (took_mode _ _ _ T)].
Qed.
(* back from a stretch where nothing is skipped *)
Lemma back : forall p q used rest, ready p -> ahead (plex p) (used ++ rest) -> ahead (plex q) rest -> same_mode (set_skip p KS_NONE) q -> same_mode p (set_skip q (pskip p)) /\ ready (set_skip q (pskip p)).
Proof.
  intros p q used rest R A A' S. assert (S' : same_mode p (set_skip q (pskip p))) by (destruct S as (a & b & c & d & e); repeat split; assumption). split; [exact S' |].
  exact (ready_moved 0 p _ R (moved_of p (set_skip q (pskip p)) used rest A A' S')).
Qed.
Lemma unskipped_delim_goes : forall ch p c rest, ready p -> ahead (plex p) (c :: rest) -> is_delim ch c -> goes (unskipped (parse_delim ch)) p c rest.
Proof.
  intros ch p c rest R A D. destruct (raw_delim_goes ch (set_skip p KS_NONE) c rest A eq_refl D) as (q & E & A' & S). exists (set_skip q (pskip p)). unfold unskipped. rewrite E. split; [reflexivity |]. split; [exact A' |].
  exact (back p q [c] rest R A A' S).
Qed.
(* two delimiters *)
Lemma double_goes : forall a b p g c d rest, ready p -> ahead (plex p) (g ++ c :: d :: rest) -> gap g -> is_delim a c -> is_delim b d -> goes (parse_double a b) p (c, d) rest.
Proof.
  intros a b p g c d rest R A G Da Db. destruct (double_complete p g c (d :: rest) A (gap_kinds p g R G) (solid_kinds p c R (delim_solid _ _ Da)) a b d rest Da eq_refl Db) as (q & E & A').
  exists q. split; [exact E |]. split; [exact A' |]. destruct (wp_inv _ _ _ (fun x q => same_mode p q /\ ready q) (c, d) q (double_wp a b p _ R (fun x q H T Rq => conj (moved_mode _ _ _ (spent_moved _ _ _ T)) Rq)) E) as (S & Rq). auto.
Qed.
Definition after (p : parser) (rest : list cursor) : cursor := nth 0 (kept KS_TRIVIA rest) (eof_cursor p).
Lemma peek_double_at : forall a b p g c rest, ready p -> ahead (plex p) (g ++ c :: rest) -> gap g -> solid c -> peek (peek_double a b) p = Some (tok_is_char (ctok c) a && tok_is_char (ctok (after p rest)) b).
Proof.
  intros a b p g c rest R A G Hc. rewrite (peek_at _ p g c rest R A G Hc). unfold peek_double. destruct (tok_is_char (ctok c) a); [| reflexivity]. cbn [andb].
  rewrite (peek_n_spec p _ 2 A) by lia. rewrite (kept_skipped _ _ _ (gap_kinds p g R G)), kept_cons by exact (solid_kinds p c R Hc). change (N.to_nat 2 - 1)%nat with 1%nat. cbn [nth]. unfold after. now rewrite (ready_skip p R).
Qed.
Lemma after_cons : forall p g c rest, gap g -> solid c -> after p (g ++ c :: rest) = c.
Proof. intros p g c rest G Hc. unfold after. rewrite kept_skipped by now apply gap_trivia. rewrite kept_cons; [reflexivity |]. now rewrite in_trivia. Qed.
