(* The logic of Says.v: selectors. *)
From Coq Require Import ZifyBool ZifyNat ZifyN.
From Coq Require Import String.
From Coq Require Import List.
From Verif Require Import AstSheet SpecSheet SpecLex SpecTrace SpecParser SpecSyntax SpecTraits SpecRules SpecFeatures SpecSelectors SpecCursor SpecToken LexBase TokenProofs KindProofs LexFacts LexTrace CursorProofs CursorLex
  ParserProofs ParserProofs2 ParserProofs3 ParserProofs4 CompareProofs SyntaxProofs SyntaxTotal TraitsTotal RulesTotal FeatureProofs FaithProofs FaithTraits FaithRules SelectorProofs3 SelectorProofs4 SelectorProofs8 SelectorProofs9 Goes
  Tells Tells2 Tells3 Tells4 Tells5 Tells6 Tells7 Shows Shows3 Says Says2 SpecTree.
Open Scope N_scope.
Open Scope list_scope.

Section Selectors.
Variable src : text.
Variable f : feature.
Variable all : list cursor.
Notation says := (says src f all).
Notation sv := (sv src f all).
Notation here := (here src f all).

(* ---- with the parser that is left ---- *)
Definition sq {A} (Q : A -> parser -> Prop) (o : option (res A * parser)) : Prop := forall r q, o = Some (r, q) -> here q /\ forall a, r = Ok a -> Q a q.
Lemma sq_none : forall A (Q : A -> parser -> Prop), sq Q None.
Proof. intros A Q r q E. discriminate E. Qed.
Lemma sq_ok : forall A (Q : A -> parser -> Prop) a q, here q -> Q a q -> sq Q (Some (Ok a, q)).
Proof. intros A Q a q H X r q' E. injection E as <- <-. split; [exact H |]. intros a' E. injection E as <-. exact X. Qed.
Lemma sq_err : forall A (Q : A -> parser -> Prop) e q, here q -> sq Q (Some (Err e, q)).
Proof. intros A Q e q H r q' E. injection E as <- <-. split; [exact H |]. intros a' E. discriminate E. Qed.
Lemma sq_bind : forall A B (m : P A) (g : A -> P B) Q1 (Q : B -> parser -> Prop) p, sq Q1 (m p) -> (forall a q, here q -> Q1 a q -> sq Q (g a q)) -> sq Q (bind m g p).
Proof. intros A B m g Q1 Q p S X. unfold bind. destruct (m p) as [[[a | e] q] |] eqn:E; [| | apply sq_none]; destruct (S _ _ eq_refl) as (H' & Qa); [auto | apply sq_err; exact H']. Qed.
Lemma sq_pmap : forall A B (h : A -> B) (m : P A) (Q : B -> parser -> Prop) p, sq (fun a q => Q (h a) q) (m p) -> sq Q (pmap h m p).
Proof. intros A B h m Q p S r q E. unfold pmap, bind, ret in E. destruct (m p) as [[[a | e] q1] |]; [| | discriminate E]; injection E as <- <-; destruct (S _ _ eq_refl) as (H & Qa); (split; [exact H |]); intros b E; [injection E as <-; auto | discriminate E]. Qed.
Lemma sv_sq : forall A (Q : A -> Prop) o, sq (fun a _ => Q a) o -> sv Q o.
Proof. intros A Q o S. exact S. Qed.
Lemma sq_imp : forall A (Q Q' : A -> parser -> Prop) o, sq Q o -> (forall a q, Q a q -> Q' a q) -> sq Q' o.
Proof. intros A Q Q' o S I r q E. destruct (S r q E) as (H & Qa). auto. Qed.

(* [c] is the token before where q is *)
Definition past (c : cursor) (q : parser) : Prop := exists x cs, ahead x (c :: cs) /\ ahead (plex q) cs.
Definition read (p : parser) (c : cursor) (q : parser) : Prop := past c q /\ peek_next p = Some c /\ (pskip p = KS_NONE -> forall b, past b p -> adjacent b c).
Lemma past_skip : forall c q s, past c q -> past c (set_skip q s).
Proof. intros c q s X. exact X. Qed.
Lemma next_read : forall p c q, here p -> next p = Some (c, q) -> here q /\ pskip q = pskip p /\ (ctok c = T_EOF \/ kind_of c <> K_Eof /\ read p c q).
Proof.
  intros p c q H N. split; [exact (here_next src f all p c q H N) |]. destruct H as (pre & cs & _ & O). pose proof O as (_ & _ & A & _). destruct (next_onto src f p cs c q O N) as (u & r & _ & _ & Sk & Pn & X). split; [exact Sk |].
  destruct (next_total p cs A) as (c1 & q1 & sk & rest & N1 & E & F & St & Hc & _ & A' & _). rewrite N in N1. injection N1 as <- <-. destruct X as [(X & _) | (X & _)]; [left; exact X | right]. split; [exact X |].
  destruct rest as [| d rest]; [subst c; elim X; reflexivity |]. cbn [hd_or_eof] in Hc. subst d. cbn [tl] in A'. subst cs. destruct (ahead_app _ _ _ A) as (y & Ay & _). split; [exists y, rest; auto |]. split; [exact Pn |].
  intros E b (x & cs2 & A1 & A2). pose proof (ahead_det _ _ A2 _ A) as Ed. subst cs2. assert (sk = []) as -> by (destruct F as [| a l Ia _]; [reflexivity | unfold in_kinds in Ia; rewrite E in Ia; cbn in Ia; discriminate Ia]). exact (adjacent_in x [] b c rest A1).
Qed.
Lemma q_built : forall A k (build : parser -> cursor -> option A) p, Tells.solid k -> here p ->
  sq (fun a q => exists c, kind_of c <> K_Eof /\ k p c = Some true /\ build q c = Some a /\ read p c q /\ pskip q = pskip p) (parse_built k build p).
Proof.
  intros A k build p So H. unfold parse_built. destruct (peek k p) as [b |] eqn:Pk; [| apply sq_none]. destruct (next p) as [[c q] |] eqn:N; [| apply sq_none]. destruct (next_read p c q H N) as (Hq & Sk & X). destruct b; [| apply sq_err; exact Hq]. destruct (build q c) as [a |] eqn:B; [| apply sq_none]. apply sq_ok; [exact Hq |].
  unfold peek in Pk. destruct (peek_next p) as [d |] eqn:Pn; [| discriminate Pk]. assert (d = c) as ->. { destruct H as (pre & cs & _ & O). destruct (next_onto src f p cs c q O N) as (u & r & _ & _ & _ & Pn' & _). rewrite Pn in Pn'. apply some_inj in Pn'. exact Pn'. }
  destruct X as [X | (X & Rd)]; [exfalso; apply (So p (coff c)); rewrite <- Pk; destruct c as [o t]; simpl in X; subst t; reflexivity |]. eauto 8.
Qed.
Lemma q_kind : forall k p, k <> K_Eof -> here p -> sq (fun c q => kind_of c = k /\ read p c q /\ pskip q = pskip p) (parse_kind k p).
Proof.
  intros k p Nk H. eapply sq_imp; [exact (q_built cursor (peek_kind k) (fun _ c => Some c) p (solid_kind k Nk) H) |]. cbv beta. intros a q (c & Kc & Pk & B & Rd & Sk). injection B as <-. unfold peek_kind in Pk. apply some_inj in Pk. split; [exact (kind_is c k Kc Pk) |]. auto.
Qed.
Lemma q_delim : forall ch p, here p -> sq (fun c q => is_delim ch c /\ read p c q /\ pskip q = pskip p) (parse_delim ch p).
Proof.
  intros ch p H. eapply sq_imp; [exact (q_built cursor (peek_delim ch) (fun _ c => Some c) p (solid_delim ch) H) |]. cbv beta. intros a q (c & Kc & Pk & B & Rd & Sk). injection B as <-. unfold peek_delim in Pk. apply some_inj in Pk. split; [exact (delim_is c ch Kc Pk) |]. auto.
Qed.
Lemma look_word : forall V (m : list (text * V)) q c a, here q -> build_set m q c = Some a -> snd a = c /\ exists w, parse_str_lower c src = Some w /\ In (w, fst a) m.
Proof.
  intros V m q c a H B. unfold build_set, look_up in B. rewrite (here_src _ _ _ _ H) in B. destruct (parse_str_lower c src) as [w |] eqn:E; [| discriminate B]. destruct (map_get m w) as [v |] eqn:G; [| discriminate B]. injection B as <-. split; [reflexivity |]. exists w. split; [reflexivity | exact (map_get_in _ _ _ _ G)].
Qed.
Lemma q_set : forall V k (m : list (text * V)) p, k <> K_Eof -> here p -> sq (fun x q => is_word k m src (fst x) (snd x) /\ read p (snd x) q) (parse_set k m p).
Proof.
  intros V k m p Nk H r q E. destruct (q_built _ (peek_set k m) (build_set m) p (solid_set V k m Nk) H r q E) as (Hq & X). split; [exact Hq |]. intros a Ea. destruct (X a Ea) as (c & Kc & Pk & B & Rd & _). destruct (look_word _ _ _ _ _ Hq B) as (-> & w & Ew & I). split; [| exact Rd].
  split; [| eauto]. unfold peek_set in Pk. destruct (tok_is (ctok c) k) eqn:T; [exact (kind_is c k Kc T) | discriminate Pk].
Qed.
Lemma q_bare : forall k p b, k <> K_Eof -> here p -> past b p -> sq (fun c q => kind_of c = k /\ adjacent b c /\ past c q) (unskipped (parse_kind k) p).
Proof.
  intros k p b Nk H Pb r q E. unfold unskipped in E. pose proof (here_skip _ _ _ _ _ none_trivia H) as H0. pose proof (q_kind k (set_skip p KS_NONE) Nk H0) as X. destruct (parse_kind k (set_skip p KS_NONE)) as [[r1 q1] |]; [| discriminate E]. injection E as <- <-.
  destruct (X _ _ eq_refl) as (H1 & Y). split; [exact (here_skip _ _ _ _ _ (here_own _ _ _ _ H) H1) |]. intros c Ec. destruct (Y c Ec) as (K & (R1 & _ & R2) & _). split; [exact K |]. split; [exact (R2 eq_refl b Pb) | exact R1].
Qed.
Lemma q_bare_delim : forall ch p b, here p -> past b p -> sq (fun c q => is_delim ch c /\ adjacent b c /\ past c q) (unskipped (parse_delim ch) p).
Proof.
  intros ch p b H Pb r q E. unfold unskipped in E. pose proof (here_skip _ _ _ _ _ none_trivia H) as H0. pose proof (q_delim ch (set_skip p KS_NONE) H0) as X. destruct (parse_delim ch (set_skip p KS_NONE)) as [[r1 q1] |]; [| discriminate E]. injection E as <- <-.
  destruct (X _ _ eq_refl) as (H1 & Y). split; [exact (here_skip _ _ _ _ _ (here_own _ _ _ _ H) H1) |]. intros c Ec. destruct (Y c Ec) as (K & (R1 & _ & R2) & _). split; [exact K |]. split; [exact (R2 eq_refl b Pb) | exact R1].
Qed.
Lemma q_double : forall a b p, here p -> sq (fun x q => two a b (fst x) (snd x) /\ past (snd x) q) (parse_double a b p).
Proof.
  intros a b p H. unfold parse_double. eapply sq_bind; [apply q_kind; [discriminate | exact H] |]. cbv beta. intros c q Hq (K & (R1 & _) & _). destruct (tok_is_char (ctok c) a) eqn:Ta; cbn [negb]; [| apply sq_err; exact Hq].
  pose proof (q_kind K_Delim (set_skip q KS_NONE) ltac:(discriminate) (here_skip _ _ _ _ _ none_trivia Hq)) as X. destruct (parse_kind K_Delim (set_skip q KS_NONE)) as [[[d | e] q1] |]; [| | apply sq_none]; cbv zeta; destruct (X _ _ eq_refl) as (H1 & Y); pose proof (here_skip _ _ _ _ _ (here_own _ _ _ _ Hq) H1) as H2; [| apply sq_err; exact H2].
  destruct (tok_is_char (ctok d) b) eqn:Tb; cbn [negb]; [| apply sq_err; exact H2]. apply sq_ok; [exact H2 |]. destruct (Y d eq_refl) as (K1 & (P1 & _ & Ad) & _). cbn [fst snd]. split; [| exact P1]. apply tok_is_char_spec in Ta, Tb. unfold two, is_delim. unfold kind_of in K, K1. split; [auto |]. split; [auto | exact (Ad eq_refl c R1)].
Qed.
Lemma y_double : forall a b, says (parse_double a b) (fun x => two a b (fst x) (snd x)).
Proof. intros a b p H. apply sv_sq. eapply sq_imp; [apply q_double; exact H |]. cbv beta. tauto. Qed.
Lemma q_colons : forall p, here p -> sq (fun x q => kind_of (fst x) = K_Colon /\ kind_of (snd x) = K_Colon /\ adjacent (fst x) (snd x) /\ past (snd x) q) (parse_colon_colon p).
Proof.
  intros p H. unfold parse_colon_colon. eapply sq_bind; [apply q_kind; [discriminate | exact H] |]. cbv beta. intros c q Hq (K & (R1 & _) & _).
  pose proof (q_kind K_Colon (set_skip q KS_NONE) ltac:(discriminate) (here_skip _ _ _ _ _ none_trivia Hq)) as X. destruct (parse_kind K_Colon (set_skip q KS_NONE)) as [[[d | e] q1] |]; [| | apply sq_none]; cbv zeta; destruct (X _ _ eq_refl) as (H1 & Y); pose proof (here_skip _ _ _ _ _ (here_own _ _ _ _ Hq) H1) as H2; [| apply sq_err; exact H2].
  apply sq_ok; [exact H2 |]. destruct (Y d eq_refl) as (K1 & (P1 & _ & Ad) & _). cbn [fst snd]. split; [exact K |]. split; [exact K1 |]. split; [exact (Ad eq_refl c R1) | exact P1].
Qed.
(* the token that is peeked at *)
Lemma first_peek : forall p, here p -> peek_n p 1 = peek_next p.
Proof.
  intros p (pre & cs & _ & (_ & _ & A & _)). rewrite (peek_n_spec p cs 1 A) by lia. change (N.to_nat 1 - 1)%nat with 0%nat. destruct (next_total p cs A) as (c1 & q1 & sk & rest & _ & E & F & St & _ & _). pose proof (peek_next_spec p sk rest) as X. rewrite <- E in X. rewrite (X A F St). subst cs. rewrite (kept_skipped _ _ _ F). f_equal.
  destruct rest as [| d r]; [reflexivity |]. cbn [hd_or_eof]. unfold stops_skip in St. unfold kept. cbn [filter]. unfold in_kinds in St. destruct (kindset_contains (pskip p) (tkind (ctok d))); [exfalso; apply St; reflexivity | reflexivity].
Qed.

(* ---- simple selectors ---- *)
Lemma y_class : says parse_class (fun x => is_delim 46 (fst x) /\ kind_of (snd x) = K_Ident).
Proof. unfold parse_class. eapply says_bind; [apply y_delim |]. intros d Kd. apply says_pmap. eapply says_imp; [apply y_kind; discriminate |]. intros c Kc. auto. Qed.
Lemma y_combinator : says parse_combinator combinator_phrase.
Proof.
  unfold parse_combinator. repeat (apply says_or_peek; [apply says_pmap; first [apply y_delim | eapply says_imp; [apply y_double | intros [a b] K; exact K]] |]). apply says_pmap. apply y_whitespace.
Qed.
Lemma build_ns_phrase : forall q c t, here q -> kind_of c <> K_Eof -> peek_ns_tag q c = Some true -> build_ns_tag q c = Some t -> match t with NTag t => tag_phrase src t | NWildcard c => is_delim 42 c end.
Proof.
  intros q c t H Kc Pk B. unfold build_ns_tag, peek_ns_tag in *. destruct (peek_delim 42 q c) as [[] |] eqn:D; [| | discriminate B].
  - injection B as <-. unfold peek_delim in D. apply some_inj in D. exact (delim_is c 42 Kc D).
  - unfold peek_tag, peek_kind in Pk. apply some_inj in Pk. destruct (build_tag q c) as [x |] eqn:Bt; [| discriminate B]. injection B as <-. destruct (built_word _ _ _ Pk Bt) as (w & Ew). destruct (build_tag_spec _ _ _ (kind_is c _ Kc Pk) Ew) as (t' & B' & _ & Ph). rewrite Bt in B'. apply some_inj in B'. subst t'. rewrite (here_src _ _ _ _ H) in Ph. exact Ph.
Qed.
Lemma q_ns_tag : forall p, here p -> sq (fun t q => (match t with NTag t => tag_phrase src t | NWildcard c => is_delim 42 c end) /\ read p (ns_tag_cursor t) q) (parse_ns_tag p).
Proof.
  intros p H r q E. destruct (q_built _ peek_ns_tag build_ns_tag p solid_ns_tag H r q E) as (Hq & X). split; [exact Hq |]. intros t Et. destruct (X t Et) as (c & Kc & Pk & B & Rd & _). rewrite (ns_tag_built _ _ _ B). split; [| exact Rd]. eapply build_ns_phrase; [exact Hq | exact Kc | exact Pk | exact B].
Qed.
Definition prefix_ok (p : parser) (x : ns_prefix) : Prop :=
  match x with PNone c => is_delim 124 c | PName i c => kind_of i = K_Ident /\ is_delim 124 c /\ adjacent i c /\ peek_next p = Some i | PWildcard s c => two 42 124 s c end.
Lemma q_prefix : forall p, here p -> sq (fun x q => prefix_ok p x) (parse_prefix p).
Proof.
  intros p H. unfold parse_prefix, or_peek. destruct (peek (peek_delim 124) p) as [[] |]; [| | apply sq_none].
  - apply sq_pmap. eapply sq_imp; [apply q_delim; exact H |]. cbv beta. intros c q (K & _). exact K.
  - destruct (peek (peek_delim 42) p) as [[] |]; [| | apply sq_none].
    + eapply sq_bind; [apply q_delim; exact H |]. cbv beta. intros s q Hq (K & (R1 & _) & _). apply sq_pmap. eapply sq_imp; [apply (q_bare_delim 124 q s Hq R1) |]. cbv beta. intros c q2 (K2 & Ad & _). unfold prefix_ok, two. auto.
    + eapply sq_bind; [apply (q_kind K_Ident); [discriminate | exact H] |]. cbv beta. intros s q Hq (K & (R1 & R2 & _) & _). apply sq_pmap. eapply sq_imp; [apply (q_bare_delim 124 q s Hq R1) |]. cbv beta. intros c q2 (K2 & Ad & _). unfold prefix_ok. auto.
Qed.

(* a namespace whose first token is no identifier, or that has an identifier, '|' side by side *)
Lemma star_prefix : forall p x, here p -> peek (peek_double 42 124) p = Some true \/ peek (peek_delim 124) p = Some true -> prefix_ok p x -> forall next, prefix_phrase x next.
Proof.
  intros p x H Pk X next. destruct x as [c | i c | s c]; [exact X | | exact X]. exfalso. destruct X as (Ki & _ & _ & Pn). unfold peek in Pk. rewrite Pn in Pk. pose proof (ident_char i Ki) as Nc. destruct Pk as [Pk | Pk].
  - unfold peek_double in Pk. destruct (tok_is_char (ctok i) 42) eqn:T; [| discriminate Pk]. apply tok_is_char_spec in T. rewrite T in Nc. discriminate Nc.
  - unfold peek_delim in Pk. apply some_inj in Pk. apply andb_prop in Pk. destruct Pk as (_ & T). apply tok_is_char_spec in T. rewrite T in Nc. discriminate Nc.
Qed.
Lemma y_namespace : forall p cs, here p -> onto src f p cs -> ~ bare_pair p cs -> sv (fun x => fst x <> None /\ namespace_phrase src x) (parse_namespace p).
Proof.
  intros p cs H O NB. unfold parse_namespace.
  assert (Pr : peek (peek_double 42 124) p = Some true \/ peek (peek_delim 124) p = Some true -> sv (fun x => fst x <> None /\ namespace_phrase src x) (bind parse_prefix (fun x => pmap (pair (Some x)) parse_ns_tag) p)).
  { intro Pk. apply sv_sq. eapply sq_bind; [apply q_prefix; exact H |]. cbv beta. intros x q Hq Kx. apply sq_pmap. eapply sq_imp; [apply q_ns_tag; exact Hq |]. cbv beta. intros t q2 (Kt & _). cbn [fst]. split; [discriminate |]. unfold namespace_phrase. cbn [fst snd]. split; [exact (star_prefix p x H Pk Kx _) | exact Kt]. }
  unfold or_peek. destruct (peek (peek_double 42 124) p) as [[] |]; [exact (Pr (or_introl eq_refl)) | | apply sv_none]. destruct (peek (peek_delim 124) p) as [[] |]; [exact (Pr (or_intror eq_refl)) | | apply sv_none]. clear Pr.
  unfold bind at 1. pose proof (q_kind K_Ident p ltac:(discriminate) H) as X. destruct (parse_kind K_Ident p) as [[[i | e] q] |] eqn:Ei; [| | apply sv_none]; destruct (X _ _ eq_refl) as (Hq & Y); [| apply sv_err; exact Hq]. destruct (Y i eq_refl) as (Ki & (Pi & _) & Sk). clear X Y. cbv zeta.
  pose proof (here_skip _ _ _ _ _ none_trivia Hq) as H1.
  assert (Last : sv (fun x => fst x <> None /\ namespace_phrase src x) (pmap (pair None) parse_ns_tag (set_skip q KS_NONE))).
  { apply sv_pmap. intros r q2 E. destruct (q_ns_tag _ H1 r q2 E) as (H2 & Z). split; [exact H2 |]. intros t Et. exfalso. destruct (Z t Et) as (Kt & (_ & Pn & _)). apply NB. destruct (ident_onto src f p cs i q O Ei) as (sk & rest & Ec & F & _ & (_ & _ & A & _) & _).
    assert (A1 : ahead (plex (set_skip q KS_NONE)) ([] ++ rest)) by exact A. assert (St : stops_skip (pskip (set_skip q KS_NONE)) rest) by (destruct rest as [| d rest]; [exact Logic.I | unfold stops_skip, in_kinds; cbn; discriminate]). rewrite (peek_next_spec _ [] rest A1 ltac:(constructor) St) in Pn. apply some_inj in Pn.
    destruct rest as [| d rest]; [exfalso; cbn [hd_or_eof] in Pn; destruct t as [t | c]; cbn [ns_tag_cursor] in *; [destruct Kt as (Kt & _); rewrite <- Pn in Kt; discriminate Kt | destruct Kt as (Kt & _); rewrite <- Pn in Kt; discriminate Kt] |]. cbn [hd_or_eof] in Pn. subst d.
    exists sk, i, (ns_tag_cursor t), rest. split; [exact Ec |]. split; [exact F |]. split; [exact Ki |]. destruct t as [t | c]; cbn [ns_tag_cursor]; [left; exact (proj1 Kt) | right; exact Kt]. }
  destruct (peek (peek_delim 124) (set_skip q KS_NONE)) as [[] |]; [| exact Last | apply sv_none]. destruct (peek (peek_double 124 61) (set_skip q KS_NONE)) as [[] |]; [exact Last | | apply sv_none]. clear Last NB O Ei.
  pose proof (q_delim 124 _ H1) as X. destruct (parse_delim 124 (set_skip q KS_NONE)) as [[pipe q2] |]; [| apply sv_none]. destruct (X _ _ eq_refl) as (H2 & Y). pose proof (q_ns_tag q2 H2) as X2. destruct (parse_ns_tag q2) as [[tag q3] |]; [| apply sv_none]. destruct (X2 _ _ eq_refl) as (H3 & Y2).
  pose proof (here_skip _ _ _ _ _ (here_own _ _ _ _ Hq) H3) as H4. destruct pipe as [pipe | e]; [| apply sv_err; exact H4]. destruct tag as [tag | e]; [| apply sv_err; exact H4]. apply sv_ok; [exact H4 |].
  destruct (Y pipe eq_refl) as (Kp & (Pp & _ & Ad) & Sk2). destruct (Y2 tag eq_refl) as (Kt & (_ & _ & Ad2)). split; [discriminate |]. unfold namespace_phrase. cbn [fst snd prefix_phrase]. split; [| exact Kt]. split; [exact Ki |]. split; [exact Kp |]. split; [exact (Ad eq_refl i Pi) | exact (Ad2 Sk2 pipe Pp)].
Qed.
Lemma y_operator : says parse_operator operator_phrase.
Proof.
  intros p H. unfold parse_operator. destruct (peek_n p 1) as [c |]; [| apply sv_none]. cbv zeta.
  repeat match goal with |- Says.sv _ _ _ _ (match ?k p c with _ => _ end) => destruct (k p c) as [[] |]; [apply sv_pmap; lazymatch goal with |- context [parse_delim] => exact (y_delim src f all _ p H) | _ => exact (y_double _ _ p H) end | | apply sv_none] end.
  apply sv_pmap. exact (y_double _ _ p H).
Qed.
Lemma y_attr_value : says parse_attr_value (fun c => kind_of c = K_Ident \/ kind_of c = K_String).
Proof.
  unfold parse_attr_value. eapply says_imp; [apply y_single; apply Tells.solid_any; repeat constructor; apply solid_kind; discriminate |]. cbv beta. intros c (Kc & p & Pk & _). cbn [any_peek] in Pk. unfold peek_kind in Pk. destruct (tok_is (ctok c) K_Ident) eqn:T; [left; exact (kind_is c _ Kc T) |].
  destruct (tok_is (ctok c) K_String) eqn:T2; [right; exact (kind_is c _ Kc T2) | discriminate Pk].
Qed.
Lemma one_of : forall w l, existsb (text_eqb w) l = true -> In w l.
Proof. intros w l E. apply existsb_exists in E. destruct E as (x & I & E). apply text_eqb_spec in E. subst x. exact I. Qed.
Lemma none_of : forall w l, existsb (text_eqb w) l = false -> ~ In w l.
Proof. intros w l E I. assert (X : existsb (text_eqb w) l = true) by (apply existsb_exists; exists w; split; [exact I | apply text_eqb_spec; reflexivity]). rewrite X in E. discriminate E. Qed.
Definition modifier_ok (m : attr_modifier) : Prop :=
  match m with
  | MInsensitive c => kind_of c = K_Ident /\ exists ch, parse_str c src = Some [ch] /\ (ch = 105 \/ ch = 73)
  | MSensitive c => kind_of c = K_Ident /\ exists ch, parse_str c src = Some [ch] /\ (ch = 115 \/ ch = 83)
  end.
Lemma y_modifier : says (parse_built peek_modifier build_modifier) modifier_ok.
Proof.
  eapply says_imp; [apply y_built; exact solid_modifier |]. cbv beta. intros m (c & p & q & Kc & Pk & Sp & B & Sq). unfold peek_modifier, build_modifier in *. rewrite Sp in Pk. rewrite Sq in B. destruct (tok_is (ctok c) K_Ident) eqn:T; [| discriminate Pk]. pose proof (kind_is c _ Kc T) as Ki.
  destruct (parse_str c src) as [w |] eqn:Ew; [| discriminate B]. apply some_inj in Pk. apply one_of in Pk. apply some_inj in B. subst m.
  destruct (existsb (text_eqb w) (map chars ["s"; "S"]%string)) eqn:S.
  - apply one_of in S. cbn [map In] in S. cbn [modifier_ok]. split; [exact Ki |]. destruct S as [<- | [<- | []]]; eexists; (split; [exact Ew |]); auto.
  - apply none_of in S. cbn [map In] in S, Pk. cbn [modifier_ok]. split; [exact Ki |]. destruct Pk as [<- | [<- | [<- | [<- | []]]]]; try (elim S; auto; fail); eexists; (split; [exact Ew |]); auto.
Qed.
Lemma y_attribute_rest : forall open prefix name, kind_of open = K_LeftSquare -> (match prefix with Some x => prefix_phrase x name | None => True end) -> kind_of name = K_Ident -> says (parse_attribute_rest open prefix name) (attribute_phrase src).
Proof.
  intros open prefix name K1 K2 K3. unfold parse_attribute_rest. eapply says_bind; [apply says_if_peek; exact y_operator |]. intros op Ko.
  apply says_bind with (Q1 := fun v => match op, v with Some _, Some c => kind_of c = K_Ident \/ kind_of c = K_String | None, None => True | _, _ => False end).
  { destruct op; [apply says_pmap; exact y_attr_value | apply says_ret; exact Logic.I]. }
  intros v Kv. apply says_bind with (Q1 := fun m => match v, m with None, Some _ => False | _, Some m => modifier_ok m | _, None => True end).
  { destruct v; [| apply says_ret; exact Logic.I]. eapply says_imp; [apply says_if_peek; exact y_modifier |]. intros [m |] Km; exact Km. }
  intros m Km. eapply says_bind; [apply y_if_kind; discriminate |]. intros cl Kc. apply says_ret. unfold attribute_phrase. cbn [aopen aprefix aname aoperator avalue amodifier aclose]. split; [exact K1 |]. split; [exact K2 |]. split; [exact K3 |]. split; [| split; [| exact Kc]].
  - destruct op, v; try contradiction; [auto |]. destruct m; [contradiction | reflexivity].
  - destruct m as [m |]; [| exact Logic.I]. destruct v; [| contradiction]. destruct m; exact Km.
Qed.
Lemma y_attribute : says parse_attribute (attribute_phrase src).
Proof.
  unfold parse_attribute. eapply says_bind; [apply y_kind; discriminate |]. intros o Ko. apply says_bind with (Q1 := fun pr => match pr with Some x => forall next, prefix_phrase x next | None => True end).
  { intros p H. unfold parse_if_peek. destruct (peek (peek_double 42 124) p) as [[] |] eqn:Pk; [| apply sv_ok; [exact H | exact Logic.I] | apply sv_none]. apply sv_pmap, sv_sq. eapply sq_imp; [apply q_prefix; exact H |]. cbv beta. intros x q X. exact (star_prefix p x H (or_introl Pk) X). }
  intros pr Kpr p H. apply sv_sq. eapply sq_bind; [apply q_kind; [discriminate | exact H] |]. cbv beta zeta. intros n q Hq (Kn & (Pn & _) & _). change (sv (attribute_phrase src) match pr with
    | Some _ => parse_attribute_rest o pr n q
    | None => match peek (peek_delim 124) (set_skip q KS_NONE), peek (peek_double 124 61) (set_skip q KS_NONE) with
        | Some true, None => None
        | Some true, Some false =>
            match parse_delim 124 (set_skip q KS_NONE) with
            | None => None
            | Some (pipe, p2) => match parse_kind K_Ident p2 with
                | None => None
                | Some (ident, p3) => match pipe, ident with
                    | Err e, _ => Some (Err e, set_skip p3 (pskip q))
                    | _, Err e => Some (Err e, set_skip p3 (pskip q))
                    | Ok pipe, Ok ident => parse_attribute_rest o (Some (PName n pipe)) ident (set_skip p3 (pskip q))
                    end
                end
            end
        | None, _ => None
        | _, _ => parse_attribute_rest o None n q
        end
    end).
  destruct pr as [pr |]; [exact (y_attribute_rest o (Some pr) n Ko (Kpr n) Kn q Hq) |]. pose proof (y_attribute_rest o None n Ko Logic.I Kn q Hq) as Last. pose proof (here_skip _ _ _ _ _ none_trivia Hq) as H1.
  destruct (peek (peek_delim 124) (set_skip q KS_NONE)) as [[] |]; [| exact Last | apply sv_none]. destruct (peek (peek_double 124 61) (set_skip q KS_NONE)) as [[] |]; [exact Last | | apply sv_none]. clear Last.
  pose proof (q_delim 124 _ H1) as X. destruct (parse_delim 124 (set_skip q KS_NONE)) as [[pipe q2] |]; [| apply sv_none]. destruct (X _ _ eq_refl) as (H2 & Y). pose proof (q_kind K_Ident q2 ltac:(discriminate) H2) as X2. destruct (parse_kind K_Ident q2) as [[i q3] |]; [| apply sv_none]. destruct (X2 _ _ eq_refl) as (H3 & Y2).
  pose proof (here_skip _ _ _ _ _ (here_own _ _ _ _ Hq) H3) as H4. destruct pipe as [pipe | e]; [| apply sv_err; exact H4]. destruct i as [i | e]; [| apply sv_err; exact H4]. destruct (Y pipe eq_refl) as (Kp & (Pp & _ & Ad) & Sk2). destruct (Y2 i eq_refl) as (Ki & (_ & _ & Ad2) & _).
  apply y_attribute_rest; [exact Ko | | exact Ki | exact H4]. cbn [prefix_phrase]. split; [exact Kn |]. split; [exact Kp |]. split; [exact (Ad eq_refl n Pn) | exact (Ad2 Sk2 pipe Pp)].
Qed.

(* ---- pseudo-classes and pseudo-elements ---- *)
Lemma y_class_of : forall V (m : list (text * V)), says (parse_pseudo_class m) (class_phrase m src).
Proof.
  intros V m p H. apply sv_sq. unfold parse_pseudo_class. eapply sq_bind; [apply q_kind; [discriminate | exact H] |]. cbv beta. intros c q Hq (Kc & (Pc & _) & _). eapply sq_bind; [apply q_bare; [discriminate | exact Hq | exact Pc] |]. cbv beta. intros i q2 H2 (Ki & Ad & _).
  unfold look_up. rewrite (here_src _ _ _ _ H2). destruct (parse_str_lower i src) as [w |] eqn:Ew; [| apply sq_none]. destruct (map_get m w) as [v |] eqn:G; [| exact (says_fail_text src f all _ _ _ _ q2 H2)]. apply sq_ok; [exact H2 |]. unfold class_phrase, is_word. split; [exact Kc |]. split; [| exact Ad]. split; [exact Ki |]. exists w. split; [exact Ew | exact (map_get_in _ _ _ _ G)].
Qed.
Lemma y_element_of : forall V (m : list (text * V)), says (parse_pseudo_element m) (element_phrase m src).
Proof.
  intros V m p H. apply sv_sq. unfold parse_pseudo_element. eapply sq_bind; [apply q_colons; exact H |]. cbv beta. intros [c1 c2] q Hq (K1 & K2 & Ad0 & Pc). cbn [fst snd] in *. eapply sq_bind; [apply q_bare; [discriminate | exact Hq | exact Pc] |]. cbv beta. intros i q2 H2 (Ki & Ad & _).
  unfold look_up. rewrite (here_src _ _ _ _ H2). destruct (parse_str_lower i src) as [w |] eqn:Ew; [| apply sq_none]. destruct (map_get m w) as [v |] eqn:G; [| exact (says_fail_text src f all _ _ _ _ q2 H2)]. apply sq_ok; [exact H2 |]. unfold element_phrase, is_word. split; [exact K1 |]. split; [exact K2 |]. split; [| split; [exact Ad0 | exact Ad]]. split; [exact Ki |]. exists w. split; [exact Ew | exact (map_get_in _ _ _ _ G)].
Qed.
Lemma y_pseudo_class : says parse_pseudo_class_ast (fun x => class_phrase (words (vendor_classes (fst x))) src (snd x)).
Proof.
  intros p H. unfold parse_pseudo_class_ast. pose proof (y_class_of _ (words PSEUDO_CLASSES) p H) as X. destruct (parse_pseudo_class (words PSEUDO_CLASSES) p) as [[[x | e] q] |]; [| | apply sv_none]; destruct (X _ _ eq_refl) as (Hq & Y); [apply sv_ok; [exact Hq | exact (Y x eq_refl)] |]. cbv zeta.
  destruct (peek_n _ 2) as [c |]; [| apply sv_none]. match goal with |- Says.sv _ _ _ ?Q (?m _) => cut (says m Q); [intro T; apply T; exact (here_back _ _ _ _ _ H Hq) |] end.
  repeat (eapply says_or_try; [apply y_class_of | intros a Ka; exact Ka |]). apply says_fail_text.
Qed.
Lemma y_pseudo_element : says parse_pseudo_element_ast (fun x => element_phrase (words (vendor_elements (fst x))) src (snd x)).
Proof.
  intros p H. unfold parse_pseudo_element_ast. pose proof (here_skip _ _ _ _ _ none_trivia H) as H0. pose proof (q_colons _ H0) as X. destruct (parse_colon_colon (set_skip p KS_NONE)) as [[cr p1] |] eqn:Ec; [| apply sv_none]. destruct (X _ _ eq_refl) as (H1 & Y).
  pose proof (q_set _ K_Ident (words PSEUDO_ELEMENTS) p1 ltac:(discriminate) H1) as X2. destruct (parse_set K_Ident (words PSEUDO_ELEMENTS) p1) as [[kr p2] |]; [| apply sv_none]. destruct (X2 _ _ eq_refl) as (H2 & Y2). cbv zeta. pose proof (here_skip _ _ _ _ _ (here_own _ _ _ _ H) H2) as H3.
  destruct cr as [[c1 c2] | e]; [| apply sv_err; exact H3]. destruct kr as [[w i] | e].
  - apply sv_ok; [exact H3 |]. destruct (Y _ eq_refl) as (K1 & K2 & Ad & Pc). destruct (Y2 _ eq_refl) as (Kw & (_ & _ & Ad2)). cbn [fst snd] in *. unfold element_phrase. split; [exact K1 |]. split; [exact K2 |]. split; [exact Kw |]. split; [exact Ad |]. apply Ad2; [| exact Pc].
    unfold parse_colon_colon, bind in Ec. destruct (parse_kind K_Colon (set_skip p KS_NONE)) as [[[a | a] b] |] eqn:Ek; [| discriminate Ec | discriminate Ec]. destruct (q_kind K_Colon (set_skip p KS_NONE) ltac:(discriminate) H0 _ _ Ek) as (_ & Z). destruct (Z a eq_refl) as (_ & _ & Sk).
    destruct (parse_kind K_Colon (set_skip b KS_NONE)) as [[[d | d] e] |]; [| discriminate Ec | discriminate Ec]. injection Ec as _ _ <-. exact Sk.
  - destruct (peek_n _ 2) as [c |]; [| apply sv_none]. match goal with |- Says.sv _ _ _ ?Q (?m _) => cut (says m Q); [intro T; apply T; exact (here_back _ _ _ _ _ H H3) |] end.
    repeat (eapply says_or_try; [apply y_element_of | intros a Ka; exact Ka |]). apply says_fail_text.
Qed.
Lemma y_str_lower : forall c, says (p_str_lower c) (fun w => parse_str_lower c src = Some w).
Proof. intros c p H. unfold p_str_lower. rewrite (here_src _ _ _ _ H). destruct (parse_str_lower c src) as [w |]; [apply sv_ok; [exact H | reflexivity] | apply sv_none]. Qed.

(* ---- lists ---- *)
Lemma y_lang : says parse_lang_values (fun l => l <> [] /\ Forall (fun s => (kind_of (fst s) = K_Ident \/ kind_of (fst s) = K_String) /\ opt_kind K_Comma (snd s)) l).
Proof.
  assert (V : says parse_lang_value (fun s => (kind_of (fst s) = K_Ident \/ kind_of (fst s) = K_String) /\ opt_kind K_Comma (snd s))).
  { unfold parse_lang_value. apply says_bind with (Q1 := fun c => kind_of c = K_Ident \/ kind_of c = K_String).
    - apply says_or_peek; (eapply says_imp; [apply y_kind; discriminate |]); cbv beta; auto.
    - intros c Kc. apply says_pmap. eapply says_imp; [apply y_if_kind; discriminate |]. cbv beta. intros o Ko. auto. }
  intros p H. unfold parse_lang_values. generalize (sfuel p) as n. intro n. revert p H. induction n as [| n IH]; [apply says_none |]. cbn [lang_loop]. eapply says_bind; [exact V |]. intros v Kv. apply says_or_peek; [apply says_ret; split; [discriminate | constructor; [exact Kv | constructor]] |].
  apply says_pmap. eapply says_imp; [exact IH |]. cbv beta. intros l (_ & F). split; [discriminate |]. constructor; assumption.
Qed.
Lemma y_part : forall n, says (part_loop n) (Forall (fun c => kind_of c = K_Ident)).
Proof.
  induction n as [| n IH]; [apply says_none |]. cbn [part_loop]. apply says_or_peek; [apply says_ret; constructor |]. eapply says_bind; [apply y_kind; discriminate |]. intros c Kc. apply says_pmap. eapply says_imp; [exact IH |]. cbv beta. intros l F. constructor; assumption.
Qed.
Lemma anb_phrase : forall c x u, anb_out [c] x u -> nth_phrase src x.
Proof. intros c x u (a & b & r & -> & _). cbn [nth_phrase app]. eauto. Qed.
Lemma y_nth : says parse_nth (nth_phrase src).
Proof.
  assert (A : forall c, says (nth_anb c) (nth_phrase src)) by (intro c; eapply says_of; [apply w_nth_anb |]; intros x u K; exact (anb_phrase c x u K)).
  intros p H. unfold parse_nth. destruct (peek (peek_kind K_Number) p) as [[] |]; [| | apply sv_none].
  - apply sv_pmap. eapply sv_imp; [exact (y_single src f all _ solid_css_int p H) |]. cbv beta. intros c (Kc & p' & Pk & _). unfold peek_css_int in Pk. apply some_inj in Pk. apply andb_prop in Pk. split; [exact (kind_is c _ Kc (proj1 Pk)) | apply Pk].
  - destruct (peek (peek_kind K_Ident) p) as [[] |]; [| | apply sv_none].
    + revert p H. eapply says_bind; [apply y_kind; discriminate |]. intros c Kc. eapply says_bind; [apply y_str_lower |]. cbv beta. intros w Ew. destruct (text_eqb w (chars "even"%string)) eqn:E1; [apply text_eqb_spec in E1; subst w; apply says_ret; split; assumption |].
      destruct (text_eqb w (chars "odd"%string)) eqn:E2; [apply text_eqb_spec in E2; subst w; apply says_ret; split; assumption |]. apply A.
    + revert p H. eapply says_bind; [apply y_any |]. intros c _. apply A.
Qed.

Section Lists.
Hypothesis Hstar : stars_clear all.
Variable component_p : P component_ast.
Hypothesis HC : says component_p (component_phrase src).
Notation STOP := KS_LEFT_CURLY_RIGHT_PAREN_OR_SEMICOLON.
Notation STOPC := KS_LEFT_CURLY_RIGHT_PAREN_COMMA_OR_SEMICOLON.
Lemma q_compound_loop : forall n p, here p -> sq (fun l q => Forall (component_phrase src) l /\ at_stop STOPC q = Some true) (compound_loop component_p n p).
Proof.
  induction n as [| n IH]; intros p H; [apply sq_none |]. cbn [compound_loop]. destruct (at_stop STOPC p) as [[] |] eqn:E; [apply sq_ok; [exact H | split; [constructor | exact E]] | | apply sq_none].
  eapply sq_bind; [exact (HC p H) |]. cbv beta. intros x q Hq Kx. apply sq_pmap. eapply sq_imp; [exact (IH q Hq) |]. cbv beta. intros l q2 (F & St). split; [constructor; assumption | exact St].
Qed.
Lemma q_compound : forall p, here p -> sq (fun l q => Forall (component_phrase src) l /\ at_stop STOPC q = Some true) (compound_t component_p p).
Proof. intros p H. unfold compound_t. destruct (consume_trivia p) as [q |] eqn:E; [| apply sq_none]. exact (q_compound_loop _ q (here_trivia _ _ _ _ _ H E)). Qed.
Lemma stopped : forall q, here q -> at_stop STOPC q = Some true -> peek (peek_kind K_Comma) q = Some false -> at_stop STOP q = Some true.
Proof.
  intros q (pre & cs & _ & (_ & _ & A & _)) St Pk. destruct (at_stop_spec STOPC q cs (or_introl eq_refl) A) as (b & E & Hb). rewrite St in E. apply some_inj in E. subst b. destruct Hb as (Hb & _). specialize (Hb eq_refl).
  destruct (at_stop_spec STOP q cs (or_intror eq_refl) A) as (b & E & Hb'). rewrite E. f_equal. apply Hb'. destruct Hb as [Hb | (c & r & Ek & Ic)]; [left; exact Hb | right]. exists c, r. split; [exact Ek |]. apply stop_comma in Ic. destruct Ic as [Ic | Ic]; [exact Ic | elim (not_comma q cs c r A Ek Ic Pk)].
Qed.
Lemma selector_loop_stop : forall n p l q, at_stop STOP p = Some true -> selector_loop (compound_t component_p) n p = Some (Ok l, q) -> l = [].
Proof. intros [| n] p l q St E; [discriminate E |]. cbn [selector_loop] in E. rewrite St in E. injection E as <- _. reflexivity. Qed.
Lemma y_selector_list : says (selector_list_t (compound_t component_p)) (selectors_phrase src).
Proof.
  intros p H. unfold selector_list_t. generalize (sfuel p) as n. intro n. revert p H. induction n as [| n IH]; intros p H; [apply sv_none |]. cbn [selector_loop]. destruct (at_stop STOP p) as [[] |]; [apply sv_ok; [exact H | split; constructor] | | apply sv_none].
  apply sv_sq. eapply sq_bind; [exact (q_compound p H) |]. cbv beta. intros x q Hq (Kx & St). unfold if_kind, parse_if_peek at 1, bind at 1.
  destruct (peek (peek_kind K_Comma) q) as [[] |] eqn:Pk; [| | apply sq_none].
  - pose proof (sv_pmap src f all _ _ Some (parse_kind K_Comma) (opt_kind K_Comma) q) as X. pose proof (X (y_kind src f all K_Comma ltac:(discriminate) q Hq)) as Y. clear X. destruct (pmap Some (parse_kind K_Comma) q) as [[[o | e] q2] |] eqn:Ec; [| | apply sq_none]; destruct (Y _ _ eq_refl) as (H2 & Ko); [| apply sq_err; exact H2]. specialize (Ko o eq_refl).
    assert (No : o <> None) by (unfold pmap, bind, ret in Ec; destruct (parse_kind K_Comma q) as [[[d | d] q3] |]; [injection Ec as <- <-; discriminate | discriminate Ec | discriminate Ec]).
    apply sq_pmap. eapply sq_imp; [exact (IH q2 H2) |]. cbv beta. intros l _ (F & Cb). split; [constructor; assumption |]. destruct l as [| y l]; [exact Ko |]. split; [exact Ko |]. split; [exact No | exact Cb].
  - apply sq_pmap. intros r q2 E. destruct (IH q Hq r q2 E) as (H2 & Y). split; [exact H2 |]. intros l El. subst r. rewrite (selector_loop_stop n q l q2 (stopped q Hq St Pk) E). split; [constructor; [exact Kx | constructor] | exact Logic.I].
Qed.
Lemma y_compound : says (compound_t component_p) (Forall (component_phrase src)).
Proof. intros p H. apply sv_sq. eapply sq_imp; [apply q_compound; exact H |]. cbv beta. tauto. Qed.
Lemma y_class_value : forall ty, says (parse_class_value (selector_list_t (compound_t component_p)) ty) (class_value_phrase src ty).
Proof.
  intros ty. destruct ty; cbn [parse_class_value]; apply says_pmap.
  - eapply says_imp; [apply y_set; discriminate |]. cbv beta. intros w K. constructor. exact K.
  - eapply says_imp; [exact y_selector_list |]. intros l (F & C). constructor; assumption.
  - eapply says_imp; [exact y_lang |]. cbv beta. intros l (Nl & F). constructor; assumption.
  - eapply says_imp; [exact y_nth |]. intros x K. constructor. exact K.
  - eapply says_imp; [apply y_kind; discriminate |]. cbv beta. intros c K. constructor. exact K.
Qed.
Lemma y_functional_class : says (parse_functional_class (selector_list_t (compound_t component_p))) (component_phrase src).
Proof.
  intros p H. unfold parse_functional_class. pose proof (here_skip _ _ _ _ _ none_trivia H) as H0. pose proof (q_kind K_Colon _ ltac:(discriminate) H0) as X. destruct (parse_kind K_Colon (set_skip p KS_NONE)) as [[cr p1] |]; [| apply sv_none]. destruct (X _ _ eq_refl) as (H1 & Y).
  pose proof (q_set _ K_Function named_classes p1 ltac:(discriminate) H1) as X2. destruct (parse_set K_Function named_classes p1) as [[kr p2] |]; [| apply sv_none]. destruct (X2 _ _ eq_refl) as (H2 & Y2). cbv zeta. pose proof (here_skip _ _ _ _ _ (here_own _ _ _ _ H) H2) as H3.
  destruct cr as [c | e]; [| apply sv_err; exact H3]. destruct kr as [[[name ty] fn] | e]; [| apply sv_err; exact H3]. destruct (Y c eq_refl) as (Kc & (Pc & _) & Sk). destruct (Y2 _ eq_refl) as ((Kf & w & Ew & I) & (_ & _ & Ad)). cbn [fst snd] in *.
  unfold named_classes in I. apply in_map_iff in I. destruct I as ([n t] & E & I). cbn [fst] in E. injection E as <- -> ->. refine (says_bind src f all _ _ _ _ _ _ (y_class_value ty) _ _ H3). intros v Kv. eapply says_bind; [apply y_if_kind; discriminate |]. intros cl Kcl. apply says_ret.
  eapply ph_functional_class; [exact Kc | exact (Ad Sk c Pc) | exact Kf | exact Ew | exact I | exact Kv | exact Kcl].
Qed.
Lemma y_functional_element : says (parse_functional_element (compound_t component_p)) (component_phrase src).
Proof.
  unfold parse_functional_element. apply says_bind with (Q1 := fun x => kind_of (fst x) = K_Colon /\ kind_of (snd x) = K_Colon /\ adjacent (fst x) (snd x)).
  { intros p H. apply sv_sq. eapply sq_imp; [apply q_colons; exact H |]. cbv beta. tauto. }
  intros [c1 c2] (K1 & K2 & Ad). cbn [fst snd] in *. eapply says_bind; [apply y_kind; discriminate |]. cbv beta. intros fn Kf. eapply says_bind; [apply y_str_lower |]. cbv beta. intros name Ew. apply says_bind with (Q1 := element_value_phrase src name).
  - destruct (text_eqb name (chars "highlight"%string)) eqn:E1; [apply text_eqb_spec in E1; subst name; apply says_pmap; eapply says_imp; [apply y_kind; discriminate |]; cbv beta; intros c K; constructor; exact K |].
    destruct (text_eqb name (chars "part"%string)) eqn:E2; [apply text_eqb_spec in E2; subst name; apply says_pmap; intros p H; eapply sv_imp; [exact (y_part _ p H) |]; intros l K; constructor; exact K |].
    destruct (text_eqb name (chars "slotted"%string)) eqn:E3; [| apply says_fail]. apply text_eqb_spec in E3. subst name. apply says_pmap. eapply says_imp; [exact y_compound |]. intros l K. constructor. exact K.
  - intros v Kv. eapply says_bind; [apply y_if_kind; discriminate |]. intros cl Kcl. apply says_ret. eapply ph_functional_element; [exact K1 | exact K2 | exact Ad | exact Kf | exact Ew | exact Kv | exact Kcl].
Qed.
(* with no comment before a '*', the '*' that is seen past comments is the next token *)
Lemma star_next : forall p c d q, here p -> peek_n (set_skip p KS_COMMENTS) 1 = Some c -> is_delim 42 c -> next p = Some (d, q) -> is_delim 42 d.
Proof.
  intros p c d q H P1 K N. pose proof (here_skip _ _ _ _ _ comments_trivia H) as H1. rewrite (first_peek _ H1) in P1. destruct H as (pre & cs & Ea & O). pose proof O as (_ & _ & A & Tr). destruct (next_total p cs A) as (c1 & q1 & sk & rest & N1 & E & F & St & Hc & _). rewrite N in N1. injection N1 as <- <-.
  assert (A1 : ahead (plex (set_skip p KS_COMMENTS)) cs) by exact A. destruct (next_total _ cs A1) as (c2 & q2 & sk2 & rest2 & _ & E2 & F2 & St2 & _). pose proof (peek_next_spec (set_skip p KS_COMMENTS) sk2 rest2) as X. rewrite <- E2 in X. specialize (X A1 F2 St2). rewrite P1 in X. apply some_inj in X.
  destruct rest2 as [| x rest2]; cbn [hd_or_eof] in X; [subst c; destruct K as (K & _); discriminate K |]. subst x.
  assert (sk2 = []) as ->. { destruct (list_eq_dec cursor_dec sk2 []) as [-> | Ne]; [reflexivity | exfalso]. destruct (exists_last Ne) as (y & z & ->). apply Forall_app in F2. destruct F2 as (_ & F2). pose proof (Forall_inv F2) as I0. cbn [pskip set_skip] in I0. assert (Kz : kind_of z = K_Comment). { unfold in_kinds, kind_of in *. unfold KS_COMMENTS in I0. apply kindset_new_spec in I0. cbn [In] in I0. destruct I0 as [<- | []]. reflexivity. }
    apply (Hstar (pre ++ y) z c rest2); [rewrite Ea, E2; rewrite <- !app_assoc; reflexivity | exact Kz | exact K]. }
  cbn [app] in E2. subst cs. assert (sk = []) as ->.
  { destruct F as [| y l Iy _]; [reflexivity | exfalso]. cbn [app] in E2. injection E2 as <- _. destruct (Tr _ Iy) as [Z | Z]; destruct K as (K & _); unfold kind_of in *; rewrite K in Z; discriminate Z. }
  cbn [app] in E2. subst rest. cbn [hd_or_eof] in Hc. subst d. exact K.
Qed.

Lemma y_take : forall pk (build : parser -> cursor -> option component_ast) code skip p c, only_trivia skip -> here p -> peek_n p 1 = Some c -> kind_of c <> K_Eof ->
  (forall q x, here q -> pk q c = Some true -> build q c = Some x -> component_phrase src x) -> sv (component_phrase src) (take_component skip pk build code p).
Proof.
  intros pk build code skip p c T H P1 Kc Hb. unfold take_component. destruct (next p) as [[d q] |] eqn:N; [| apply sv_none]. rewrite (first_peek p H) in P1. destruct (next_read p d q H N) as (Hq & _ & _). cbv zeta. pose proof (here_skip _ _ _ _ _ T Hq) as H2.
  assert (d = c) as ->. { destruct H as (pre & cs & _ & O). destruct (next_onto src f p cs d q O N) as (u & r & _ & _ & _ & Pn & _). rewrite P1 in Pn. apply some_inj in Pn. symmetry. exact Pn. }
  destruct (pk (set_skip q skip) c) as [[] |] eqn:Pk; [| | apply sv_none].
  - destruct (build (set_skip q skip) c) as [x |] eqn:B; [| apply sv_none]. apply sv_ok; [exact H2 | exact (Hb _ x H2 Pk B)].
  - unfold fail_lower. destruct (parse_str_lower _ _); [apply sv_err; exact H2 | apply sv_none].
Qed.
Lemma y_component : says (component_t (css_parts component_p)) (component_phrase src).
Proof.
  intros p H. unfold component_t. cbn [sp_type_peek sp_type sp_id_peek sp_id sp_wildcard sp_class sp_ns_type sp_combinator sp_attribute sp_legacy_peek sp_legacy sp_pseudo_class sp_pseudo_element sp_functional_class sp_functional_element css_parts].
  cbv zeta. pose proof (here_skip _ _ _ _ _ comments_trivia H) as H1. destruct (peek_n (set_skip p KS_COMMENTS) 1) as [c |] eqn:P1; [| apply sv_none].
  assert (Cb : says (pmap SCombinator parse_combinator) (component_phrase src)) by (apply says_pmap; eapply says_imp; [exact y_combinator |]; intros x K; constructor; exact K).
  assert (Ns : kind_of c <> K_Eof -> kind_of c <> K_Whitespace -> forall c2, peek_n (set_skip p KS_COMMENTS) 2 = Some c2 -> tok_is_char (ctok c2) 124 = true -> sv (component_phrase src) (pmap SNamespace parse_namespace p)).
  { intros K1 K2 c2 P2 T. apply sv_pmap. pose proof H as (pre & cs & _ & O). eapply sv_imp; [exact (y_namespace p cs H O (not_bare src f p cs c c2 O P1 K1 K2 P2 T)) |]. cbv beta. intros x (K & K'). constructor; assumption. }
  assert (Ot : sv (component_phrase src) (match pmap SCombinator parse_combinator (set_skip p KS_COMMENTS) with None => None | Some (r, q) => match consume_trivia (set_skip q KS_WHITESPACE) with None => None | Some q => Some (r, set_skip q (pskip p)) end end)).
  { pose proof (Cb _ H1) as X. destruct (pmap SCombinator parse_combinator (set_skip p KS_COMMENTS)) as [[r q] |]; [| apply sv_none]. destruct (X _ _ eq_refl) as (Hq & Y). destruct (consume_trivia (set_skip q KS_WHITESPACE)) as [q2 |] eqn:Et; [| apply sv_none].
    pose proof (here_trivia _ _ _ _ _ (here_skip _ _ _ _ _ whitespace_trivia Hq) Et) as H2. intros r' q' E. injection E as <- <-. split; [exact (here_skip _ _ _ _ _ (here_own _ _ _ _ H) H2) | exact Y]. }
  unfold kind_of in Ns. destruct (tkind (ctok c)) eqn:Kc; try exact Ot.
  - (* an identifier *)
    destruct (peek_n (set_skip p KS_COMMENTS) 2) as [c2 |] eqn:P2; [| apply sv_none]. destruct (tok_is_char (ctok c2) 124) eqn:T; [exact (Ns ltac:(discriminate) ltac:(discriminate) c2 eq_refl T) |].
    apply (y_take _ _ _ _ _ c (here_own _ _ _ _ H) H1 P1); [unfold kind_of; rewrite Kc; discriminate |]. intros q x Hq Pk B. destruct (build_tag q c) as [t |] eqn:Bt; [| discriminate B]. cbn [option_map] in B. injection B as <-. unfold peek_tag, peek_kind in Pk. apply some_inj in Pk.
    destruct (built_word _ _ _ Pk Bt) as (w & Ew). destruct (build_tag_spec _ _ _ Kc Ew) as (t' & B' & _ & Ph). rewrite Bt in B'. apply some_inj in B'. subst t'. rewrite (here_src _ _ _ _ Hq) in Ph. constructor. exact Ph.
  - destruct (hash_is_id_like (ctok c)) eqn:Id; [| exact Ot]. apply (y_take _ _ _ _ _ c (here_own _ _ _ _ H) H1 P1); [unfold kind_of; rewrite Kc; discriminate |]. intros q x Hq Pk B. injection B as <-. constructor; assumption.
  - destruct (tchar (ctok c)) as [ch |] eqn:Ch; [| apply sv_none]. destruct (ch =? 46).
    { destruct (peek_n (set_skip p KS_COMMENTS) 2) as [c2 |]; [| apply sv_none]. destruct (tkind (ctok c2)); try (apply sv_err; exact H). apply sv_pmap. eapply sv_imp; [exact (y_class p H) |]. cbv beta. intros x (K1 & K2). constructor; assumption. }
    destruct (ch =? 42) eqn:E42; [| exact (Cb p H)]. destruct (peek_n (set_skip p KS_COMMENTS) 2) as [c2 |] eqn:P2; [| apply sv_none]. destruct (tok_is_char (ctok c2) 124) eqn:T; [exact (Ns ltac:(discriminate) ltac:(discriminate) c2 eq_refl T) |].
    destruct (next p) as [[d q] |] eqn:N; [| apply sv_none]. apply sv_ok; [exact (here_next _ _ _ _ _ _ H N) |]. constructor. apply N.eqb_eq in E42. subst ch. exact (star_next p c d q H P1 (conj Kc Ch) N).
  - destruct (peek_n (set_skip p KS_COMMENTS) 2) as [c2 |]; [| apply sv_none]. destruct (tkind (ctok c2)); try (apply sv_err; exact H1).
    + destruct (peek_pseudo_class _ p c) as [[] |]; [| | apply sv_none]; apply sv_pmap.
      * eapply sv_imp; [exact (y_class_of _ _ p H) |]. intros x K. constructor. exact K.
      * eapply sv_imp; [exact (y_pseudo_class p H) |]. cbv beta. intros [v x] K. constructor. exact K.
    + exact (y_functional_class p H).
    + destruct (peek_n (set_skip p KS_COMMENTS) 3) as [c3 |]; [| apply sv_none]. destruct (tkind (ctok c3)); try (apply sv_err; exact H).
      * apply sv_pmap. eapply sv_imp; [exact (y_pseudo_element p H) |]. cbv beta. intros [v x] K. constructor. exact K.
      * exact (y_functional_element p H).
  - apply sv_pmap. eapply sv_imp; [exact (y_attribute p H) |]. intros x K. constructor. exact K.
Qed.
End Lists.
Lemma y_component_n : stars_clear all -> forall n, says (component_n n) (component_phrase src).
Proof. intros Hs n. induction n as [| n IH]; [apply says_none |]. cbn [component_n]. exact (y_component Hs _ IH). Qed.
Lemma y_selectors : says parse_selectors (selectors_fit src all).
Proof.
  intros p H r q E. assert (Hq : here q). { refine (proj1 (says_of src f all _ _ _ (fun _ => True) (w_selectors src f) _ p H r q E)). intros; exact Logic.I. } split; [exact Hq |]. intros l El Hs. unfold parse_selectors in E.
  exact (proj2 (y_selector_list _ (y_component_n Hs _) p H r q E) l El).
Qed.
End Selectors.
