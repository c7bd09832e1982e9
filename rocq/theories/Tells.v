(* A logic for what a parser read: the tokens between two parsers, and what the result writes. Nothing is said of parsers that do not
   return, and what is skipped may be any of whitespace and comments. *)
From Coq Require Import ZifyBool ZifyNat ZifyN Permutation.
From Coq Require Import List.
From Verif Require Import AstSheet SpecSheet SpecLex SpecTrace SpecParser SpecSyntax SpecTraits SpecRules SpecFeatures SpecCursor SpecToken LexBase TokenProofs KindProofs LexFacts LexTrace CursorProofs CursorLex
  ParserProofs ParserProofs2 ParserProofs3 ParserProofs4 CompareProofs SyntaxProofs SyntaxTotal TraitsTotal RulesTotal FeatureProofs FaithProofs Goes.
Open Scope N_scope.
Open Scope list_scope.

Section Logic.
Variable src : text.
Variable f : feature.

Definition onto (p : parser) (cs : list cursor) : Prop := lsrc (plex p) = src /\ lfeat (plex p) = f /\ ahead (plex p) cs /\ only_trivia (pskip p).
Definition tv {A} (cs : list cursor) (K : A -> list cursor -> Prop) (o : option (res A * parser)) : Prop :=
  forall r q, o = Some (r, q) -> exists u rest, cs = u ++ rest /\ onto q rest /\ forall a, r = Ok a -> K a u.
Definition tells {A} (m : P A) (K : A -> list cursor -> Prop) : Prop := forall p cs, onto p cs -> tv cs K (m p).

Lemma onto_skip : forall p cs s, only_trivia s -> onto p cs -> onto (set_skip p s) cs.
Proof. intros p cs s T (A & B & C & D). unfold onto. cbn [plex set_skip pskip]. auto. Qed.
Lemma onto_state : forall p cs s, onto p cs -> onto (set_state p s) cs.
Proof. intros p cs s X. exact X. Qed.
Lemma onto_stop : forall p cs s, onto p cs -> onto (set_stop p s) cs.
Proof. intros p cs s X. exact X. Qed.
Lemma onto_own : forall p cs, onto p cs -> only_trivia (pskip p).
Proof. intros p cs X. exact (proj2 (proj2 (proj2 X))). Qed.
Lemma onto_back : forall p cs q cs', onto p cs -> onto q cs' -> onto (rewind q (checkpoint p)) cs.
Proof.
  intros p cs q cs' (A & B & C & D) (A' & B' & C' & D').
  assert (C2 : ahead (plex (rewind q (checkpoint p))) cs).
  { unfold rewind, lexer_rewind, lexer_checkpoint; cbn. rewrite A', B', <- A, <- B. now destruct (plex p). }
  unfold onto. unfold rewind, lexer_rewind in *. cbn in *. auto.
Qed.

(* rules *)
Lemma tv_none : forall A cs (K : A -> list cursor -> Prop), tv cs K None.
Proof. intros A cs K r q E. discriminate. Qed.
Lemma tv_ok : forall A cs (K : A -> list cursor -> Prop) a q, onto q cs -> K a [] -> tv cs K (Some (Ok a, q)).
Proof. intros A cs K a q O Ka r q' E. injection E as <- <-. exists [], cs. split; [reflexivity |]. split; [exact O |]. intros a' E. injection E as <-. exact Ka. Qed.
Lemma tv_err : forall A cs (K : A -> list cursor -> Prop) e q, onto q cs -> tv cs K (Some (Err e, q)).
Proof. intros A cs K e q O r q' E. injection E as <- <-. exists [], cs. split; [reflexivity |]. split; [exact O |]. intros a' E. discriminate. Qed.
Lemma tv_fails : forall A cs (K : A -> list cursor -> Prop) e q u, onto q u -> (exists v, cs = v ++ u) -> tv cs K (Some (Err e, q)).
Proof. intros A cs K e q u O (v & E0) r q' E. injection E as <- <-. exists v, u. split; [exact E0 |]. split; [exact O |]. intros a' E. discriminate. Qed.
Lemma tv_imp : forall A cs (K K' : A -> list cursor -> Prop) o, tv cs K o -> (forall a u, K a u -> K' a u) -> tv cs K' o.
Proof. intros A cs K K' o T I r q E. destruct (T r q E) as (u & rest & E0 & O & Ka). exists u, rest. split; [exact E0 |]. split; [exact O |]. auto. Qed.
Lemma tells_imp : forall A (m : P A) (K K' : A -> list cursor -> Prop), tells m K -> (forall a u, K a u -> K' a u) -> tells m K'.
Proof. intros A m K K' T I p cs O. exact (tv_imp _ _ _ _ _ (T p cs O) I). Qed.
Lemma tv_shift : forall A cs u rest (K : A -> list cursor -> Prop) o, cs = u ++ rest -> tv rest (fun a v => K a (u ++ v)) o -> tv cs K o.
Proof. intros A cs u rest K o -> T r q E. destruct (T r q E) as (v & rest' & -> & O & Ka). exists (u ++ v), rest'. rewrite <- app_assoc. auto. Qed.
Lemma tv_call : forall A B cs (m : P A) K1 p (K : B -> list cursor -> Prop) (g : res A -> parser -> option (res B * parser)), onto p cs -> tells m K1 ->
  (forall a u q rest, cs = u ++ rest -> onto q rest -> K1 a u -> tv rest (fun b v => K b (u ++ v)) (g (Ok a) q)) ->
  (forall e u q rest, cs = u ++ rest -> onto q rest -> tv rest (fun b v => K b (u ++ v)) (g (Err e) q)) ->
  tv cs K (match m p with None => None | Some (r, q) => g r q end).
Proof.
  intros A B cs m K1 p K g O T X Y. destruct (m p) as [[[a | e] q] |] eqn:E; [| | apply tv_none].
  - destruct (T p cs O _ _ E) as (u & rest & E0 & O' & Ka). apply (tv_shift _ _ u rest _ _ E0). apply X; auto.
  - destruct (T p cs O _ _ E) as (u & rest & E0 & O' & Ka). apply (tv_shift _ _ u rest _ _ E0). apply Y; auto.
Qed.
Lemma tv_bind : forall A B cs (m : P A) (g : A -> P B) K1 (K : B -> list cursor -> Prop) p, onto p cs -> tells m K1 ->
  (forall a u q rest, cs = u ++ rest -> onto q rest -> K1 a u -> tv rest (fun b v => K b (u ++ v)) (g a q)) -> tv cs K (bind m g p).
Proof.
  intros A B cs m g K1 K p O T X. unfold bind. destruct (m p) as [[[a | e] q] |] eqn:E; [| | apply tv_none].
  - destruct (T p cs O _ _ E) as (u & rest & E0 & O' & Ka). apply (tv_shift _ _ u rest _ _ E0). apply X; auto.
  - destruct (T p cs O _ _ E) as (u & rest & E0 & O' & Ka). apply (tv_fails _ _ _ _ _ rest O'). exists u. exact E0.
Qed.
Lemma tv_pmap : forall A B cs (h : A -> B) (m : P A) (K : B -> list cursor -> Prop) p, tv cs (fun a u => K (h a) u) (m p) -> tv cs K (pmap h m p).
Proof.
  intros A B cs h m K p T r q E. unfold pmap, bind, ret in E. destruct (m p) as [[[a | e] q1] |] eqn:Em; [| | discriminate]; injection E as <- <-; destruct (T _ _ eq_refl) as (u & rest & E0 & O' & Ka); exists u, rest;
    (split; [exact E0 |]; split; [exact O' |]); intros a' E; [injection E as <-; auto | discriminate].
Qed.
Lemma tells_pmap : forall A B (h : A -> B) (m : P A) (K : A -> list cursor -> Prop), tells m K -> tells (pmap h m) (fun b u => exists a, b = h a /\ K a u).
Proof. intros A B h m K T p cs O. apply tv_pmap. eapply tv_imp; [exact (T p cs O) |]. intros a u Ka. exists a. auto. Qed.
Lemma tv_use : forall A cs (m : P A) K1 (K : A -> list cursor -> Prop) p, onto p cs -> tells m K1 -> (forall a u, K1 a u -> K a u) -> tv cs K (m p).
Proof. intros A cs m K1 K p O T I. exact (tv_imp _ _ _ _ _ (T p cs O) I). Qed.
Lemma tv_or_peek : forall A cs k (m e : P A) K p, (peek k p = Some true -> tv cs K (m p)) -> (peek k p = Some false -> tv cs K (e p)) -> tv cs K (or_peek k m e p).
Proof. intros A cs k m e K p X Y. unfold or_peek. destruct (peek k p) as [[] |]; [auto | auto | apply tv_none]. Qed.
Lemma tells_if_peek : forall A k (m : P A) K, tells m K -> tells (parse_if_peek k m) (fun o u => match o with Some a => K a u | None => u = [] end).
Proof.
  intros A k m K T p cs O. unfold parse_if_peek. destruct (peek k p) as [[] |]; [| | apply tv_none].
  - apply tv_pmap. exact (T p cs O).
  - apply tv_ok; [exact O | reflexivity].
Qed.
Lemma tells_in_state : forall A s (m : P A) K, tells m K -> tells (in_state s m) K.
Proof. intros A s m K T p cs O r q E. unfold in_state in E. destruct (m (set_state p s)) as [[r1 q1] |] eqn:Em; [| discriminate]. injection E as <- <-. destruct (T (set_state p s) cs O _ _ Em) as (u & rest & E0 & O' & Ka). exists u, rest. auto. Qed.
Lemma tells_in_stop : forall A s (m : P A) K, tells m K -> tells (in_stop s m) K.
Proof. intros A s m K T p cs O r q E. unfold in_stop in E. destruct (m (set_stop p s)) as [[r1 q1] |] eqn:Em; [| discriminate]. injection E as <- <-. destruct (T (set_stop p s) cs O _ _ Em) as (u & rest & E0 & O' & Ka). exists u, rest. auto. Qed.
Lemma tells_unskipped : forall A (m : P A) K, tells m K -> tells (unskipped m) K.
Proof.
  intros A m K T p cs O r q E. unfold unskipped in E. destruct (m (set_skip p KS_NONE)) as [[r1 q1] |] eqn:Em; [| discriminate]. injection E as <- <-.
  destruct (T (set_skip p KS_NONE) cs (onto_skip _ _ _ none_trivia O) _ _ Em) as (u & rest & E0 & O' & Ka). exists u, rest. split; [exact E0 |]. split; [exact (onto_skip _ _ _ (onto_own _ _ O) O') | exact Ka].
Qed.
Lemma tells_try : forall A (m : P A) K, tells m K -> tells (try_parse m) K.
Proof.
  intros A m K T p cs O. unfold try_parse. destruct (m p) as [[[a | e] q] |] eqn:E; [| | apply tv_none]; destruct (T p cs O _ _ E) as (u & rest & E0 & O' & Ka).
  - intros r q' E'. injection E' as <- <-. exists u, rest. auto.
  - apply tv_err. exact (onto_back p cs q rest O O').
Qed.
Lemma tells_fun : forall A (m : parser -> P A) K, (forall p0, tells (m p0) K) -> tells (fun p => m p p) K.
Proof. intros A m K T p cs O. exact (T p p cs O). Qed.

(* ---- tokens ---- *)
Lemma trivia_dropped : forall s l, only_trivia s -> Forall (in_kinds s) l -> Forall droppable l.
Proof. intros s l T F. eapply Forall_impl; [| exact F]. intros c I. unfold droppable, kind_of. destruct (T _ I) as [-> | ->]; cbn; auto. Qed.
Lemma emits_one : forall sk c, Forall droppable sk -> emits false (sk ++ [c]) [c].
Proof. intros sk c F. exists [c], sk, [c]. split; [apply merged_one |]. split; [exact F |]. split; [constructor; [apply re_emitted_refl | constructor] | reflexivity]. Qed.
Lemma next_onto : forall p cs c q, onto p cs -> next p = Some (c, q) -> exists u rest, cs = u ++ rest /\ onto q rest /\ pskip q = pskip p /\ peek_next p = Some c /\
  (ctok c = T_EOF /\ Forall droppable u /\ rest = [] \/ kind_of c <> K_Eof /\ emits false u [c]).
Proof.
  intros p cs c q (A & B & C & D) N. destruct (next_total p cs C) as (c1 & q1 & sk & rest & N1 & E & F & St & Hc & _ & A' & Se). rewrite N in N1. injection N1 as <- <-.
  pose proof (peek_next_spec p sk rest) as Pn. rewrite <- E in Pn. specialize (Pn C F St). rewrite <- Hc in Pn.
  destruct Se as (_ & _ & Sk & _ & S1 & S2). assert (O : onto q (tl rest)) by (unfold onto; rewrite S1, S2, Sk; auto).
  pose proof (trivia_dropped _ _ D F) as Fd. destruct rest as [| d rest]; cbn [tl hd_or_eof] in *.
  - exists sk, []. split; [exact E |]. split; [exact O |]. split; [exact Sk |]. split; [exact Pn |]. left. subst c. auto.
  - subst d. exists (sk ++ [c]), rest. rewrite <- app_assoc. split; [exact E |]. split; [exact O |]. split; [exact Sk |]. split; [exact Pn |]. right.
    split; [| exact (emits_one sk c Fd)]. apply (ahead_kind _ _ C). rewrite E. apply in_or_app. right. now left.
Qed.
Lemma trivia_onto : forall p cs q, onto p cs -> consume_trivia p = Some q -> exists u rest, cs = u ++ rest /\ onto q rest /\ pskip q = pskip p /\ Forall droppable u.
Proof.
  intros p cs q (A & B & C & D) N. destruct (trivia_total p cs C) as (q1 & sk & rest & N1 & E & F & St & _ & A' & Se). rewrite N in N1. injection N1 as <-. destruct Se as (_ & _ & Sk & _ & S1 & S2).
  exists sk, rest. split; [exact E |]. split; [unfold onto; rewrite S1, S2, Sk; auto |]. split; [exact Sk | exact (trivia_dropped _ _ D F)].
Qed.
(* a token that a peeker accepted *)
Definition solid (k : peeker) : Prop := forall p o, k p (Cursor o T_EOF) <> Some true.
Lemma tells_built : forall A k (build : parser -> cursor -> option A), solid k ->
  tells (parse_built k build) (fun a u => exists c p q, emits false u [c] /\ kind_of c <> K_Eof /\ k p c = Some true /\ build q c = Some a /\ lsrc (plex p) = src /\ lsrc (plex q) = src).
Proof.
  intros A k build So p cs O. unfold parse_built. destruct (peek k p) as [b |] eqn:Pk; [| apply tv_none]. destruct (next p) as [[c q] |] eqn:N; [| apply tv_none].
  destruct (next_onto p cs c q O N) as (u & rest & -> & Oq & Sk & Pn & X). unfold peek in Pk. rewrite Pn in Pk. destruct b.
  - destruct X as [(X & _) | (Kc & Em)]; [exfalso; apply (So p (coff c)); rewrite <- Pk; destruct c as [o t]; simpl in X; subst t; reflexivity |]. destruct (build q c) as [x |] eqn:B; [| apply tv_none].
    intros r q' E. injection E as <- <-. exists u, rest. split; [reflexivity |]. split; [exact Oq |]. intros a E. injection E as <-. exists c, p, q. destruct O as (Os & _). pose proof Oq as (Oqs & _). repeat (split; [assumption |]). exact Oqs.
  - apply (tv_fails _ _ _ _ _ rest Oq). eauto.
Qed.
Lemma tells_single : forall A k (g : cursor -> A), solid k -> tells (parse_single k g) (fun a u => exists c p, a = g c /\ emits false u [c] /\ kind_of c <> K_Eof /\ k p c = Some true /\ lsrc (plex p) = src).
Proof.
  intros A k g So. change (parse_single k g) with (parse_built k (fun _ c => Some (g c))). eapply tells_imp; [apply tells_built; exact So |]. intros a u (c & p & q & Em & Kc & Pk & B & S1 & _). injection B as <-. exists c, p. auto.
Qed.
Lemma solid_kind : forall k, k <> K_Eof -> solid (peek_kind k).
Proof. intros k N p o E. unfold peek_kind in E. apply some_inj in E. simpl ctok in E. rewrite tok_is_eof in E by exact N. discriminate. Qed.
Lemma solid_delim : forall ch, solid (peek_delim ch).
Proof. intros k p o E. unfold peek_delim in E. apply some_inj in E. apply andb_prop in E. destruct E as (E & _). simpl ctok in E. rewrite tok_is_eof in E by discriminate. discriminate. Qed.
Lemma solid_set : forall V k (m : list (text * V)), k <> K_Eof -> solid (peek_set k m).
Proof. intros V k m N p o E. unfold peek_set in E. simpl ctok in E. rewrite tok_is_eof in E by exact N. discriminate. Qed.
Lemma solid_dashed : solid peek_dashed_ident.
Proof. intros p o E. unfold peek_dashed_ident in E. apply some_inj in E. apply andb_prop in E. destruct E as (E & _). simpl ctok in E. rewrite tok_is_eof in E by discriminate. discriminate. Qed.
Lemma solid_dimension : forall u w, solid (peek_dimension u w).
Proof. intros u w p o E. unfold peek_dimension in E. simpl ctok in E. rewrite tok_is_eof in E by discriminate. discriminate. Qed.
Lemma solid_any : forall l, Forall solid l -> solid (any_peek l).
Proof. intros l F. induction F as [| k l Sk F IH]; intros p o E; [discriminate |]. cbn [any_peek] in E. destruct (k p (Cursor o T_EOF)) as [[] |] eqn:X; [exact (Sk p o X) | exact (IH p o E) | discriminate]. Qed.
Lemma kind_is : forall c k, kind_of c <> K_Eof -> tok_is (ctok c) k = true -> kind_of c = k.
Proof. intros c k N T. apply tok_is_kind; [apply wf_of_kind; exact N | exact T]. Qed.
Lemma tells_kind : forall k, k <> K_Eof -> tells (parse_kind k) (fun c u => emits false u [c] /\ kind_of c = k).
Proof.
  intros k N. eapply tells_imp; [apply tells_single; exact (solid_kind k N) |]. intros c u (d & p & -> & Em & Kc & Pk & _). split; [exact Em |]. unfold peek_kind in Pk. apply some_inj in Pk. exact (kind_is d k Kc Pk).
Qed.
Lemma delim_is : forall c ch, kind_of c <> K_Eof -> tok_is (ctok c) K_Delim && tok_is_char (ctok c) ch = true -> is_delim ch c.
Proof. intros c ch N T. apply andb_prop in T. destruct T as (T1 & T2). split; [exact (kind_is c _ N T1) | apply tok_is_char_spec; exact T2]. Qed.
Lemma tells_delim : forall ch, tells (parse_delim ch) (fun c u => emits false u [c] /\ is_delim ch c).
Proof.
  intros ch. eapply tells_imp; [apply tells_single; exact (solid_delim ch) |]. intros c u (d & p & -> & Em & Kc & Pk & _). split; [exact Em |]. unfold peek_delim in Pk. apply some_inj in Pk. exact (delim_is d ch Kc Pk).
Qed.
Lemma tells_dashed : tells parse_dashed_ident (fun c u => emits false u [c] /\ kind_of c = K_Ident /\ is_dashed_ident (ctok c) = true).
Proof.
  eapply tells_imp; [apply tells_single; exact solid_dashed |]. intros c u (d & p & -> & Em & Kc & Pk & _). split; [exact Em |]. unfold peek_dashed_ident in Pk. apply some_inj in Pk. apply andb_prop in Pk. split; [exact (kind_is d _ Kc (proj1 Pk)) | apply Pk].
Qed.
Lemma set_word : forall V k (m : list (text * V)) p q c x, kind_of c <> K_Eof -> peek_set k m p c = Some true -> build_set m q c = Some x -> lsrc (plex q) = src -> snd x = c /\ is_word k m src (fst x) (snd x).
Proof.
  intros V k m p q c x N Pk B E. unfold peek_set in Pk. destruct (tok_is (ctok c) k) eqn:T; [| discriminate]. unfold build_set, look_up in B. rewrite E in B. destruct (parse_str_lower c src) as [w |] eqn:L; [| discriminate].
  destruct (map_get m w) as [v |] eqn:Mg; [| discriminate]. injection B as <-. cbn [fst snd]. split; [reflexivity |]. split; [exact (kind_is c k N T) |]. exists w. split; [exact L | exact (map_get_in _ _ _ _ Mg)].
Qed.
Lemma tells_set : forall V k (m : list (text * V)), k <> K_Eof -> tells (parse_set k m) (fun x u => emits false u [snd x] /\ is_word k m src (fst x) (snd x)).
Proof.
  intros V k m N. change (parse_set k m) with (parse_built (peek_set k m) (build_set m)). eapply tells_imp; [apply tells_built; exact (solid_set V k m N) |].
  intros x u (c & p & q & Em & Kc & Pk & B & S1 & S2). destruct (set_word _ _ _ _ _ _ _ Kc Pk B S2) as (<- & W). auto.
Qed.
Lemma tells_whitespace : tells parse_whitespace (fun c u => emits false u [c] /\ kind_of c = K_Whitespace).
Proof.
  intros p cs O. unfold parse_whitespace. destruct (next (set_skip p KS_COMMENTS)) as [[c q] |] eqn:N; [| apply tv_none].
  destruct (next_onto _ cs c q (onto_skip _ _ _ comments_trivia O) N) as (u & rest & -> & Oq & Sk & Pn & X). apply (onto_skip _ _ _ (onto_own _ _ O)) in Oq.
  destruct (tok_is (ctok c) K_Whitespace) eqn:T; cbn [negb]; [| apply (tv_fails _ _ _ _ _ rest Oq); eauto].
  destruct X as [(X & _) | (Kc & Em)]; [exfalso; rewrite X in T; rewrite tok_is_eof in T by discriminate; discriminate |].
  intros r q' E. injection E as <- <-. exists u, rest. split; [reflexivity |]. split; [exact Oq |]. intros a E. injection E as <-. split; [exact Em | exact (kind_is c _ Kc T)].
Qed.
Lemma tells_any : tells Features.parse_any (fun c u => ctok c = T_EOF /\ Forall droppable u \/ emits false u [c] /\ kind_of c <> K_Eof).
Proof.
  intros p cs O. unfold Features.parse_any, parse_single, peek. destruct (peek_next p); [| apply tv_none]. destruct (next p) as [[d q] |] eqn:N; [| apply tv_none].
  destruct (next_onto p cs d q O N) as (u & rest & -> & Oq & Sk & Pn & X). intros r q' E. injection E as <- <-. exists u, rest. split; [reflexivity |]. split; [exact Oq |]. intros a E. injection E as <-. destruct X as [(X & Y & _) | (X & Y)]; auto.
Qed.
Lemma tells_ret : forall A (a : A), tells (ret a) (fun b u => b = a /\ u = []).
Proof. intros A a p cs O. apply tv_ok; [exact O | auto]. Qed.
Lemma tells_fail : forall A e K, tells (@fail A e) K.
Proof. intros A e K p cs O. apply tv_err. exact O. Qed.
Lemma tells_fail_text : forall A c d K, tells (@fail_text A c d) K.
Proof. intros A c d K p cs O. unfold fail_text. destruct (parse_str _ _); [apply tv_err; exact O | apply tv_none]. Qed.
Lemma tells_if_kind : forall k, k <> K_Eof -> tells (if_kind k) (fun o u => emits false u (opt_cursor o) /\ forall c, o = Some c -> kind_of c = k).
Proof.
  intros k N. unfold if_kind. eapply tells_imp; [apply tells_if_peek, tells_kind; exact N |]. intros [c |] u Ku; cbn [opt_cursor] in *.
  - destruct Ku as (Em & Kc). split; [exact Em |]. intros d E. injection E as <-. exact Kc.
  - subst u. split; [apply emits_nil | discriminate].
Qed.
Lemma tells_drop : forall A (m : P A) (g : A -> cursor), tells m (fun c u => emits false u [g c] /\ droppable (g c)) -> tells m (fun c u => emits false u []).
Proof. intros A m g T. eapply tells_imp; [exact T |]. intros a u (Em & D). cbv beta in *.
  destruct Em as (k & d & o & M & F & R & ->). inversion R as [| a' b' k0 o0 Rc R0]; subst. inversion R0; subst. assert (Da : droppable a').
  { destruct Rc as [E | (E & K)]; [rewrite <- E; exact D |]. unfold droppable, kind_of in D |- *. now rewrite <- E. }
  apply emits_dropped. clear - M F Da. revert M F. remember [a'] as l eqn:El. intros M. revert El. induction M as [| x l d cs M IH | x l d cs M IH]; intros El F; [discriminate | |].
  - injection El as -> ->. constructor; [exact Da |]. clear - M F. revert F. remember (@nil cursor) as l eqn:El. revert El. induction M; intros El F; [constructor | discriminate |]. inversion F; subst. constructor; auto.
  - inversion F; subst. constructor; auto.
Qed.
Lemma tells_opt_ok : forall A (m : P A) K, tells m K -> tells (opt_ok m) (fun o u => match o with Some a => K a u | None => True end).
Proof.
  intros A m K T p cs O. unfold opt_ok. destruct (m p) as [[[a | e] q] |] eqn:E; [| | apply tv_none]; destruct (T p cs O _ _ E) as (u & rest & E0 & O' & Ka); intros r q' E'; injection E' as <- <-; exists u, rest; (split; [exact E0 |]; split; [exact O' |]); intros a' E'; injection E' as <-; auto.
Qed.
End Logic.
(* writing the tokens of the parts *)
Lemma emits_then : forall b u o v l, emits false u o -> emits b v l -> emits b (u ++ v) (o ++ l).
Proof. intros b u o v l X Y. exact (emits_app false b _ _ _ _ X Y). Qed.
Lemma emits_cons : forall b u c v l, emits false u [c] -> emits b v l -> emits b (u ++ v) (c :: l).
Proof. intros b u c v l X Y. exact (emits_app false b _ _ _ _ X Y). Qed.
Lemma emits_last : forall b u o, emits b u o -> emits b (u ++ []) o.
Proof. intros b u o X. now rewrite app_nil_r. Qed.
Lemma emits_skip : forall b u v l, emits false u [] -> emits b v l -> emits b (u ++ v) l.
Proof. intros b u v l X Y. exact (emits_app false b _ _ _ _ X Y). Qed.
(* as tv_call, where the parser may be put back after a failure *)
Lemma tv_retry : forall src f A B cs (m : P A) K1 p (K : B -> list cursor -> Prop) (g : res A -> parser -> option (res B * parser)), onto src f p cs -> tells src f m K1 ->
  (forall a u q rest, cs = u ++ rest -> onto src f q rest -> K1 a u -> tv src f rest (fun b v => K b (u ++ v)) (g (Ok a) q)) ->
  (forall e u q rest, cs = u ++ rest -> onto src f q rest -> tv src f cs K (g (Err e) q)) ->
  tv src f cs K (match m p with None => None | Some (r, q) => g r q end).
Proof.
  intros src f A B cs m K1 p K g O T X Y. destruct (m p) as [[[a | e] q] |] eqn:E; [| | apply tv_none].
  - destruct (T p cs O _ _ E) as (u & rest & E0 & O' & Ka). apply (tv_shift _ _ _ _ u rest _ _ E0). apply X; auto.
  - destruct (T p cs O _ _ E) as (u & rest & E0 & O' & Ka). exact (Y e u q rest E0 O').
Qed.
(* the parser's own moves only *)
Definition any_out {A} (a : A) (u : list cursor) : Prop := True.
(* what is read is what is written, if [c]; in the order read, if not [m] *)
Definition wr (c m : bool) (u out : list cursor) : Prop := c = true -> emits m u out.
Lemma wr_emits : forall m u out, emits m u out -> wr true m u out.
Proof. intros m u out X _. exact X. Qed.
Lemma wr_app : forall c m u o c' m' v l, wr c m u o -> wr c' m' v l -> wr (c && c') (m || m') (u ++ v) (o ++ l).
Proof. intros c m u o c' m' v l X Y E. apply andb_prop in E. destruct E as (E1 & E2). apply emits_app; [exact (X E1) | exact (Y E2)]. Qed.
Lemma wr_eq : forall c m u o c' m' o', wr c m u o -> c' = c -> m' = m -> o' = o -> wr c' m' u o'.
Proof. intros; subst; assumption. Qed.
Lemma wr_nil : wr true false [] [].
Proof. intros _. apply emits_nil. Qed.
Lemma wr_chain : forall c m u o c' m' v l c0 m0 o0, wr c m u o -> wr c' m' v l -> c0 = c && c' -> m0 = m || m' -> o0 = o ++ l -> wr c0 m0 (u ++ v) o0.
Proof. intros; subst. now apply wr_app. Qed.

Ltac onto_ := first [eassumption | apply onto_state; onto_ | apply onto_stop; onto_ | apply onto_skip; [first [exact none_trivia | exact comments_trivia | eapply onto_own; eassumption] | onto_] | eapply onto_back; [eassumption | onto_]].
Create HintDb tells.
Ltac tells_ := solve [eauto 4 with tells nocore].
Ltac tl1 :=
  match goal with
  | |- tv _ _ _ _ None => apply tv_none
  | |- tv _ _ _ _ (Some (Err _, _)) => first [apply tv_err; onto_ | eapply tv_fails; [onto_ | eexists; first [eassumption | reflexivity]]]
  | |- tv _ _ _ _ (Some (Ok _, _)) => apply tv_ok; [onto_ |]
  | |- tv _ _ _ _ (ret _ _) => apply tv_ok; [onto_ |]
  | |- tv _ _ _ _ (fail _ _) => apply tv_err; onto_
  | |- tv _ _ _ _ (fail_text _ _ _) => apply tells_fail_text; onto_
  | |- tv _ _ _ _ (bind _ _ _) => eapply tv_bind; [onto_ | tells_ | let a := fresh "a" in let u := fresh "u" in let q := fresh "q" in let r := fresh "r" in let E := fresh "E" in let O := fresh "O" in let K := fresh "K" in
      intros a u q r E O K; cbv beta in K; cbv beta]
  | |- tv _ _ _ _ (pmap _ _ _) => apply tv_pmap; cbv beta
  | |- tv _ _ _ _ (or_peek _ _ _ _) => let Pk := fresh "Pk" in apply tv_or_peek; intro Pk
  | |- tv _ _ _ _ (match ?x with _ => _ end) => first [
      eapply tv_call; [onto_ | tells_ | let a := fresh "a" in let u := fresh "u" in let q := fresh "q" in let r := fresh "r" in let E := fresh "E" in let O := fresh "O" in let K := fresh "K" in
        intros a u q r E O K; cbv beta in K; cbv beta iota | let e := fresh "e" in let u := fresh "u" in let q := fresh "q" in let r := fresh "r" in let E := fresh "E" in let O := fresh "O" in intros e u q r E O; cbv beta iota]
      | let X := fresh "X" in destruct x eqn:X]
  | |- tv _ _ _ _ ((fun _ => _) _) => cbv beta
  | |- tv _ _ _ _ ((match ?x with _ => _ end) _) => let X := fresh "X" in destruct x eqn:X
  | |- tv _ _ _ _ (_ ?p) => eapply tv_use; [onto_ | tells_ | let a := fresh "a" in let u := fresh "u" in let K := fresh "K" in intros a u K; cbv beta in K; cbv beta]
  end.
Ltac tl := repeat tl1.
Ltac conjs := cbv beta iota zeta in *; repeat match goal with H : _ /\ _ |- _ => destruct H | H : exists _, _ |- _ => destruct H | H : (_ * _)%type |- _ => destruct H | H : unit |- _ => destruct H end; cbv beta iota zeta in *; cbn [fst snd] in *; subst.
Ltac wr_one := match goal with
  | H : wr _ _ ?u _ |- wr _ _ ?u _ => exact H
  | H : emits _ ?u _ |- wr _ _ ?u _ => apply wr_emits; exact H
  | |- wr _ _ [] _ => apply wr_nil
  end.
Ltac wr_all := match goal with
  | |- wr _ _ (_ ++ _) _ => first [wr_one | eapply wr_app; [wr_one | wr_all]]
  | |- _ => wr_one
  end.
Ltac bools := cbn [andb orb]; rewrite ?andb_true_r, ?orb_false_r, <- ?andb_assoc, <- ?orb_assoc; cbn [andb orb]; try reflexivity.
Ltac lists := cbn [app opt_cursor flat_map]; rewrite ?app_nil_r, <- ?app_assoc; cbn [app]; rewrite ?app_nil_r; try reflexivity.
Ltac em := conjs; rewrite ?app_nil_r; first [eapply wr_eq; [wr_all | bools | bools | lists] | exact Logic.I].
