(* The logic of Tells.v: selectors. *)
From Coq Require Import ZifyBool ZifyNat ZifyN Permutation.
From Coq Require Import String.
From Coq Require Import List.
From Verif Require Import AstSheet SpecSheet SpecLex SpecTrace SpecParser SpecSyntax SpecTraits SpecRules SpecFeatures SpecCursor SpecToken LexBase TokenProofs KindProofs LexFacts LexTrace CursorProofs CursorLex
  ParserProofs ParserProofs2 ParserProofs3 ParserProofs4 CompareProofs SyntaxProofs SyntaxTotal TraitsTotal RulesTotal FeatureProofs FaithProofs FaithTraits FaithRules Goes Tells Tells2 Tells3 Tells4 Tells5.
Open Scope N_scope.
Open Scope list_scope.
Ltac emi := match goal with |- emits ?m ?u ?o => let X := fresh in cut (wr true m u o); [intro X; exact (X eq_refl) | em] end.

Section Selectors.
Variable src : text.
Variable f : feature.
Notation tells := (tells src f).
Notation onto := (onto src f).
Notation tv := (tv src f).
Notation out e := (fun x u => emits false u (e x)).

Lemma k_kind : forall k, k <> K_Eof -> tells (parse_kind k) (fun c u => emits false u [c]).
Proof. intros k N. eapply tells_imp; [apply tells_kind; exact N |]. intros c u (K & _). exact K. Qed.
Lemma k_delim : forall k, tells (parse_delim k) (fun c u => emits false u [c]).
Proof. intros k. eapply tells_imp; [apply tells_delim |]. intros c u (K & _). exact K. Qed.
Lemma k_set : forall V k (m : list (text * V)), k <> K_Eof -> tells (parse_set k m) (fun x u => emits false u [snd x]).
Proof. intros V k m N. eapply tells_imp; [apply tells_set; exact N |]. intros c u (K & _). exact K. Qed.
Lemma k_if : forall k, k <> K_Eof -> tells (if_kind k) (fun o u => emits false u (opt_list o)).
Proof. intros k N. eapply tells_imp; [apply tells_if_kind; exact N |]. intros [c |] u (K & _); exact K. Qed.
Lemma k_white : tells parse_whitespace (fun c u => emits false u [c]).
Proof. eapply tells_imp; [apply tells_whitespace |]. intros c u (K & _). exact K. Qed.
Lemma k_single : forall k, Tells.solid k -> tells (parse_single k (fun c => c)) (fun c u => emits false u [c]).
Proof. exact (w_one src f). Qed.

Lemma w_class : tells parse_class (fun x u => emits false u [fst x; snd x]).
Proof. intros p cs O. unfold parse_class. eapply tv_bind; [exact O | apply k_delim |]. intros d u q r E Oq K. apply tv_pmap. eapply tv_use; [exact Oq | apply k_kind; discriminate |]. intros c v Kc. emi. Qed.
Lemma w_combinator : tells parse_combinator (out combinator_cursors).
Proof.
  intros p cs O. unfold parse_combinator. repeat (apply tv_or_peek; intro); apply tv_pmap; (eapply tv_use; [exact O | first [apply k_delim | apply w_double | apply k_white] |]; intros c v Kc; cbn [combinator_cursors]; exact Kc).
Qed.
Lemma w_prefix : tells parse_prefix (out prefix_cursors).
Proof.
  intros p cs O. unfold parse_prefix. repeat (apply tv_or_peek; intro).
  - apply tv_pmap. eapply tv_use; [exact O | apply k_delim |]. intros c v Kc. exact Kc.
  - eapply tv_bind; [exact O | apply k_delim |]. intros d u q r E Oq K. apply tv_pmap. eapply tv_use; [exact Oq | apply tells_unskipped, k_delim |]. intros c v Kc. cbn [prefix_cursors]. emi.
  - eapply tv_bind; [exact O | apply k_kind; discriminate |]. intros d u q r E Oq K. apply tv_pmap. eapply tv_use; [exact Oq | apply tells_unskipped, k_delim |]. intros c v Kc. cbn [prefix_cursors]. emi.
Qed.
Lemma or_build_cursor : forall l (g : Selectors.word -> tag_t) e p c t, (forall w, tag_cursor (g w) = snd w) -> (forall t, e = Some t -> tag_cursor t = c) -> or_build l g e p c = Some t -> tag_cursor t = c.
Proof.
  intros l g e p c t Hg He E. unfold or_build in E. destruct (peek_set K_Ident (words l) p c) as [[] |]; [| exact (He t E) | discriminate]. destruct (build_set (words l) p c) as [w |] eqn:B; [| discriminate]. injection E as <-. rewrite Hg.
  unfold build_set in B. destruct (look_up (words l) p c) as [[v |] |]; try discriminate. injection B as <-. reflexivity.
Qed.
Lemma tag_built : forall p c t, build_tag p c = Some t -> tag_cursor t = c.
Proof.
  intros p c t E. unfold build_tag in E. revert E. apply or_build_cursor; [reflexivity |]. intros t1. apply or_build_cursor; [reflexivity |]. intros t2. apply or_build_cursor; [reflexivity |]. intros t3 E.
  destruct (peek_custom p c) as [[] |]; [injection E as <-; reflexivity | | discriminate]. revert E. apply or_build_cursor; [reflexivity |]. intros t4. apply or_build_cursor; [reflexivity |]. intros t5 E. injection E as <-. reflexivity.
Qed.
Lemma ns_tag_built : forall p c t, build_ns_tag p c = Some t -> ns_tag_cursor t = c.
Proof.
  intros p c t E. unfold build_ns_tag in E. destruct (peek_delim 42 p c) as [[] |]; [injection E as <-; reflexivity | | discriminate]. destruct (build_tag p c) as [x |] eqn:B; [| discriminate]. injection E as <-. exact (tag_built _ _ _ B).
Qed.
Lemma solid_ns_tag : Tells.solid peek_ns_tag.
Proof.
  intros p o E. unfold peek_ns_tag in E. destruct (peek_delim 42 p (Cursor o T_EOF)) as [[] |] eqn:D; [exact (solid_delim _ _ _ D) | | discriminate]. revert E. apply solid_kind. discriminate.
Qed.
Lemma w_ns_tag : tells parse_ns_tag (fun x u => emits false u [ns_tag_cursor x]).
Proof. eapply tells_imp; [apply tells_built; exact solid_ns_tag |]. intros x u (c & p & q & Em & _ & _ & B & _). rewrite (ns_tag_built _ _ _ B). exact Em. Qed.
Lemma ident_onto : forall p cs i q, onto p cs -> parse_kind K_Ident p = Some (Ok i, q) -> exists sk rest, cs = sk ++ i :: rest /\ Forall (in_kinds (pskip p)) sk /\ kind_of i = K_Ident /\ onto q rest /\ pskip q = pskip p.
Proof.
  intros p cs i q (A & B & C & D) E. destruct (parse_single_kind _ _ _ _ _ _ _ (fun p o => kind_eof K_Ident p o ltac:(discriminate)) C E) as (sk & c & rest & -> & F & _ & K & -> & T & A'). apply some_inj in K.
  destruct (tok_is_in p _ c K_Ident C (or_intror (in_elt _ _ _)) ltac:(discriminate) K) as (_ & K'). destruct T as (u & v & w & _ & _ & _ & _ & _ & (_ & _ & S1 & _ & S2 & S3)).
  exists sk, rest. split; [reflexivity |]. split; [exact F |]. split; [exact K' |]. split; [| exact S1]. unfold onto. rewrite S1, S2, S3. auto.
Qed.
(* two tokens side by side, of which a namespace without a pipe keeps the second *)
Definition bare_pair (p : parser) (cs : list cursor) : Prop := exists sk i t rest, cs = sk ++ i :: t :: rest /\ Forall (in_kinds (pskip p)) sk /\ kind_of i = K_Ident /\ (kind_of t = K_Ident \/ is_delim 42 t).
Lemma w_namespace : forall p cs, onto p cs -> ~ bare_pair p cs -> tv cs (out namespace_cursors) (parse_namespace p).
Proof.
  assert (Pr : tells (bind parse_prefix (fun x => pmap (pair (Some x)) parse_ns_tag)) (out namespace_cursors)).
  { intros p cs O. eapply tv_bind; [exact O | exact w_prefix |]. intros x u q r E Oq K. apply tv_pmap. eapply tv_use; [exact Oq | exact w_ns_tag |]. intros t v Kt. unfold namespace_cursors. cbn [fst snd]. emi. }
  intros p cs O NB. unfold parse_namespace. apply tv_or_peek; intro; [exact (Pr p cs O) |]. apply tv_or_peek; intro; [exact (Pr p cs O) |].
  unfold bind at 1. pose proof (k_kind K_Ident ltac:(discriminate) p cs O) as T. destruct (parse_kind K_Ident p) as [[[i | e] q] |] eqn:Ei; [| | apply tv_none].
  2:{ destruct (T _ _ eq_refl) as (v & r & E & Oq & _). apply (tv_fails _ _ _ _ _ _ _ r Oq). eauto. }
  destruct (ident_onto p cs i q O Ei) as (sk & r & E & F & Ki & Oq & Sk). destruct (T _ _ eq_refl) as (u & r' & E' & Oq' & K). specialize (K i eq_refl). cbv beta in K.
  assert (r' = r) as ->. { destruct Oq as (_ & _ & A1 & _), Oq' as (_ & _ & A2 & _). exact (ahead_det _ _ A1 _ A2). }
  pose proof (onto_skip src f q r _ none_trivia Oq) as O1. cbv zeta.
  assert (Last : tv cs (out namespace_cursors) (pmap (pair None) parse_ns_tag (set_skip q KS_NONE))).
  { apply tv_pmap. unfold parse_ns_tag, parse_built. destruct (peek peek_ns_tag (set_skip q KS_NONE)) as [b |] eqn:Pk; [| apply tv_none]. destruct (next (set_skip q KS_NONE)) as [[c q2] |] eqn:N; [| apply tv_none].
    destruct (next_onto src f _ r c q2 O1 N) as (v & r2 & E2 & O2 & _ & Pn & X). unfold peek in Pk. rewrite Pn in Pk. destruct b.
    - exfalso. apply NB. destruct O1 as (_ & _ & A1 & _). destruct (next_total _ r A1) as (c1 & q1 & sk1 & rest1 & N1 & E1 & F1 & St & Hc & _). rewrite N in N1. injection N1 as <- <-.
      assert (sk1 = []) as -> by (destruct F1 as [| a l Ia _]; [reflexivity | cbn in Ia; discriminate Ia]). cbn [app] in E1. subst rest1.
      destruct X as [(X & _) | (Kc & _)]; [elim (solid_ns_tag (set_skip q KS_NONE) (coff c)); rewrite <- Pk; destruct c; simpl in X; subst; reflexivity |].
      destruct r as [| t r]; [subst c; elim Kc; reflexivity |]. cbn [hd_or_eof] in Hc. subst t. exists sk, i, c, r. split; [exact E |]. split; [exact F |]. split; [exact Ki |]. unfold peek_ns_tag in Pk. destruct (peek_delim 42 (set_skip q KS_NONE) c) as [[] |] eqn:D; [| | discriminate].
      + right. unfold peek_delim in D. apply some_inj in D. exact (delim_is c 42 Kc D).
      + left. unfold peek_tag, peek_kind in Pk. apply some_inj in Pk. exact (kind_is c _ Kc Pk).
    - apply (tv_fails _ _ _ _ _ _ _ r2 O2). exists (u ++ v). rewrite <- app_assoc. congruence. }
  destruct (peek (peek_delim 124) (set_skip q KS_NONE)) as [[] |]; [| exact Last | apply tv_none]. destruct (peek (peek_double 124 61) (set_skip q KS_NONE)) as [[] |]; [exact Last | | apply tv_none].
  apply (tv_shift _ _ _ _ u r _ _ E'). eapply tv_call; [exact O1 | apply k_delim | |].
  - intros pipe v q2 r2 E2 O2 K2. cbv beta iota in *. eapply tv_call; [exact O2 | exact w_ns_tag | |].
    + intros t w q3 r3 E3 O3 K3. cbv beta iota zeta in *. apply tv_ok; [onto_ |]. unfold namespace_cursors. cbn [fst snd prefix_cursors]. emi.
    + intros e w q3 r3 E3 O3. cbv beta iota zeta. apply tv_err. onto_.
  - intros e v q2 r2 E2 O2. cbv beta iota. eapply tv_call; [exact O2 | exact w_ns_tag | |].
    + intros t w q3 r3 E3 O3 K3. cbv beta iota zeta in *. apply tv_err. onto_.
    + intros e' w q3 r3 E3 O3. cbv beta iota zeta. apply tv_err. onto_.
Qed.
(* attributes *)
Lemma w_operator : tells parse_operator (out operator_cursors).
Proof.
  intros p cs O. unfold parse_operator. destruct (peek_n p 1) as [c |]; [| apply tv_none]. cbv zeta.
  repeat match goal with |- tv _ _ (match ?k p c with _ => _ end) => destruct (k p c) as [[] |]; [apply tv_pmap; (eapply tv_use; [exact O | first [apply k_delim | apply w_double] |]; intros x u K; exact K) | | apply tv_none] end.
  apply tv_pmap. eapply tv_use; [exact O | apply w_double |]. intros x u K. exact K.
Qed.
Lemma w_attr_value : tells parse_attr_value (fun c u => emits false u [c]).
Proof. apply k_single. apply Tells.solid_any. repeat constructor; apply solid_kind; discriminate. Qed.
Lemma solid_modifier : Tells.solid peek_modifier.
Proof. intros p o E. unfold peek_modifier in E. simpl ctok in E. rewrite tok_is_eof in E by discriminate. discriminate. Qed.
Lemma w_modifier : tells (parse_built peek_modifier build_modifier) (fun x u => emits false u [modifier_cursor x]).
Proof.
  eapply tells_imp; [apply tells_built; exact solid_modifier |]. intros x u (c & p & q & Em & _ & _ & B & _). unfold build_modifier in B. destruct (parse_str c _) as [w |]; [| discriminate]. injection B as <-.
  match goal with |- context [if ?b then _ else _] => destruct b end; exact Em.
Qed.
Lemma w_attribute_rest : forall open prefix name, tells (parse_attribute_rest open prefix name)
  (fun a u => aopen a = open /\ aprefix a = prefix /\ aname a = name /\ emits false u ((match aoperator a with Some x => operator_cursors x | None => [] end) ++ opt_list (avalue a) ++ (match amodifier a with Some x => [modifier_cursor x] | None => [] end) ++ opt_list (aclose a))).
Proof.
  intros open prefix name p cs O. unfold parse_attribute_rest. eapply tv_bind; [exact O | apply tells_if_peek; exact w_operator |]. intros op u q r E Oq K.
  eapply tv_bind; [exact Oq | instantiate (1 := fun o u => emits false u (opt_list o)) |].
  { destruct op; [| eapply tells_imp; [apply tells_ret |]; intros a v (-> & ->); apply emits_nil]. intros p1 cs1 O1. apply tv_pmap. eapply tv_use; [exact O1 | exact w_attr_value |]. intros c v Kc. exact Kc. }
  intros val u2 q2 r2 E2 O2 K2. eapply tv_bind; [exact O2 | instantiate (1 := fun o u => emits false u (match o with Some x => [modifier_cursor x] | None => [] end)) |].
  { destruct val; [| eapply tells_imp; [apply tells_ret |]; intros a v (-> & ->); apply emits_nil]. eapply tells_imp; [apply tells_if_peek; exact w_modifier |]. intros [x |] v Kv; [exact Kv | subst v; apply emits_nil]. }
  intros md u3 q3 r3 E3 O3 K3. eapply tv_bind; [exact O3 | apply k_if; discriminate |]. intros cl u4 q4 r4 E4 O4 K4. cbv beta in *. apply tv_ok; [exact O4 |]. cbn [aopen aprefix aname aoperator avalue amodifier aclose].
  split; [reflexivity |]. split; [reflexivity |]. split; [reflexivity |]. destruct op; cbv beta iota in K; [emi | subst u; emi].
Qed.
Lemma w_attribute : tells parse_attribute (out attribute_cursors).
Proof.
  intros p cs O. unfold parse_attribute. eapply tv_bind; [exact O | apply k_kind; discriminate |]. intros o u q r E Oq K. eapply tv_bind; [exact Oq | apply tells_if_peek; exact w_prefix |]. intros pr u2 q2 r2 E2 O2 K2.
  eapply tv_bind; [exact O2 | apply k_kind; discriminate |]. intros n u3 q3 r3 E3 O3 K3. cbv beta zeta in *. destruct pr as [pr |].
  - eapply tv_use; [exact O3 | apply w_attribute_rest |]. intros a v (E4 & E5 & E6 & Ka). unfold attribute_cursors. rewrite E4, E5, E6. emi.
  - subst u2. pose proof (onto_skip src f q3 r3 _ none_trivia O3) as O4.
    assert (Last : tv r3 (fun b v => emits false (u ++ [] ++ u3 ++ v) (attribute_cursors b)) (parse_attribute_rest o None n q3)).
    { eapply tv_use; [exact O3 | apply w_attribute_rest |]. intros a v (E4 & E5 & E6 & Ka). unfold attribute_cursors. rewrite E4, E5, E6. emi. }
    destruct (peek (peek_delim 124) (set_skip q3 KS_NONE)) as [[] |]; [| exact Last | apply tv_none]. destruct (peek (peek_double 124 61) (set_skip q3 KS_NONE)) as [[] |]; [exact Last | | apply tv_none].
    eapply tv_call; [exact O4 | apply k_delim | |].
    + intros pipe v q5 r5 E5 O5 K5. cbv beta iota in *. eapply tv_call; [exact O5 | apply (k_kind K_Ident); discriminate | |].
      * intros t w q6 r6 E6 O6 K6. cbv beta iota zeta in *. eapply tv_use; [exact (onto_skip src f _ _ _ (onto_own src f _ _ O3) O6) | apply w_attribute_rest |]. intros a x (E7 & E8 & E9 & Ka). unfold attribute_cursors. rewrite E7, E8, E9. cbn [prefix_cursors]. emi.
      * intros e w q6 r6 E6 O6. cbv beta iota zeta. apply tv_err. onto_.
    + intros e v q5 r5 E5 O5. cbv beta iota. eapply tv_call; [exact O5 | apply (k_kind K_Ident); discriminate | |].
      * intros t w q6 r6 E6 O6 K6. cbv beta iota zeta in *. apply tv_err. onto_.
      * intros e' w q6 r6 E6 O6. cbv beta iota zeta. apply tv_err. onto_.
Qed.
(* pseudo-classes and pseudo-elements *)
Lemma w_pseudo_class_of : forall V (m : list (text * V)), tells (parse_pseudo_class m) (fun x u => emits false u [fst (snd x); snd (snd x)]).
Proof.
  intros V m p cs O. unfold parse_pseudo_class. eapply tv_bind; [exact O | apply k_kind; discriminate |]. intros c u q r E Oq K. eapply tv_bind; [exact Oq | apply tells_unskipped, k_kind; discriminate |]. intros i u2 q2 r2 E2 O2 K2. cbv beta in *.
  destruct (look_up m q2 i) as [[v |] |]; [| apply tells_fail_text; exact O2 | apply tv_none]. apply tv_ok; [exact O2 |]. cbn [fst snd]. emi.
Qed.
Lemma w_pseudo_element_of : forall V (m : list (text * V)), tells (parse_pseudo_element m) (fun x u => emits false u [fst (fst (snd x)); snd (fst (snd x)); snd (snd x)]).
Proof.
  intros V m p cs O. unfold parse_pseudo_element. eapply tv_bind; [exact O | apply w_colon_colon |]. intros c u q r E Oq K. eapply tv_bind; [exact Oq | apply tells_unskipped, k_kind; discriminate |]. intros i u2 q2 r2 E2 O2 K2. cbv beta in *.
  destruct (look_up m q2 i) as [[v |] |]; [| apply tells_fail_text; exact O2 | apply tv_none]. apply tv_ok; [exact O2 |]. cbn [fst snd]. destruct c as [c1 c2]. emi.
Qed.
Lemma w_or_try : forall A B (m : P A) (g : A -> B) (e : P B) K (K' : B -> list cursor -> Prop), tells m K -> (forall a u, K a u -> K' (g a) u) -> tells e K' -> tells (or_try m g e) K'.
Proof.
  intros A B m g e K K' Hm I He p cs O. unfold or_try, try_parse. destruct (m p) as [[[a | x] q] |] eqn:E; [| | apply tv_none]; destruct (Hm p cs O _ _ E) as (u & r & Er & Oq & Ka).
  - apply (tv_shift _ _ _ _ u r _ _ Er). apply tv_ok; [exact Oq |]. rewrite app_nil_r. auto.
  - apply He. exact (onto_back src f _ _ _ _ O Oq).
Qed.
Lemma w_pseudo_class : tells parse_pseudo_class_ast (out pseudo_class_cursors).
Proof.
  assert (I : forall v (a : text * (cursor * cursor)) u, emits false u [fst (snd a); snd (snd a)] -> emits false u (pseudo_class_cursors (v, a))) by (intros v [w [a b]] u K; exact K).
  intros p cs O. unfold parse_pseudo_class_ast. eapply tv_retry; [exact O | apply w_pseudo_class_of | |].
  - intros x u q r E Oq K. apply tv_ok; [exact Oq |]. rewrite app_nil_r. apply I. exact K.
  - intros e u q r E Oq. cbv beta iota zeta. destruct (peek_n _ 2) as [c |]; [| apply tv_none]. match goal with |- Tells.tv _ _ _ ?K (?m _) => cut (tells m K); [intro T; apply T; exact (onto_back src f _ _ _ _ O Oq) |] end.
    repeat (eapply w_or_try; [apply w_pseudo_class_of | apply I |]). apply tells_fail_text.
Qed.
Lemma w_pseudo_element : tells parse_pseudo_element_ast (out pseudo_element_cursors).
Proof.
  assert (I : forall v (a : text * ((cursor * cursor) * cursor)) u, emits false u [fst (fst (snd a)); snd (fst (snd a)); snd (snd a)] -> emits false u (pseudo_element_cursors (v, a))) by (intros v [w [[a b] c]] u K; exact K).
  intros p cs O. unfold parse_pseudo_element_ast. pose proof (onto_skip src f p cs _ none_trivia O) as O0.
  destruct (parse_colon_colon (set_skip p KS_NONE)) as [[cr p1] |] eqn:E1; [| apply tv_none]. destruct (w_colon_colon src f _ cs O0 _ _ E1) as (u & r & Er & Oq & K).
  destruct (parse_set K_Ident (words PSEUDO_ELEMENTS) p1) as [[kr p2] |] eqn:E2; [| apply tv_none]. destruct (k_set _ K_Ident (words PSEUDO_ELEMENTS) ltac:(discriminate) p1 r Oq _ _ E2) as (u2 & r2 & Er2 & O2 & K2). cbv zeta.
  pose proof (onto_skip src f p2 r2 (pskip p) (onto_own src f _ _ O) O2) as O3. subst cs r. destruct cr as [cc | e]; [| apply (tv_fails _ _ _ _ _ _ _ r2 O3); exists (u ++ u2); now rewrite <- app_assoc].
  destruct kr as [[w i] | e].
  - apply (tv_shift _ _ _ _ u _ _ _ eq_refl), (tv_shift _ _ _ _ u2 _ _ _ eq_refl). apply tv_ok; [exact O3 |]. apply I. cbn [fst snd]. specialize (K cc eq_refl). specialize (K2 (w, i) eq_refl). cbv beta in *. destruct cc as [c1 c2]. emi.
  - destruct (peek_n _ 2) as [c |]; [| apply tv_none]. match goal with |- Tells.tv _ _ _ ?K (?m _) => cut (tells m K); [intro T; apply T; exact (onto_back src f _ _ _ _ O O3) |] end.
    repeat (eapply w_or_try; [apply w_pseudo_element_of | apply I |]). apply tells_fail_text.
Qed.
(* An+B *)
Definition anb_out (cursors : list cursor) (x : nth_t) (u : list cursor) : Prop := exists a b r, x = NthAnb a b (cursors ++ r) /\ emits false u r.
Lemma w_b_number : forall a s cursors, tells (nth_b_number a s cursors) (anb_out cursors).
Proof.
  intros a s cursors p cs O. unfold nth_b_number. destruct (peek (peek_kind K_Number) p) as [[] |]; [| | apply tv_none].
  - eapply tv_bind; [exact O | apply k_kind; discriminate |]. intros c u q r E Oq K. cbv beta in *. destruct (is_float _); [apply tv_err; exact Oq |]. destruct (_ && _); [apply tv_err; exact Oq |]. apply tv_ok; [exact Oq |].
    do 3 eexists. split; [reflexivity |]. rewrite app_nil_r. exact K.
  - apply tv_ok; [exact O |]. do 2 eexists. exists []. split; [now rewrite app_nil_r | apply emits_nil].
Qed.
Lemma w_b_sign : forall a s cursors, tells (nth_b_sign a s cursors) (anb_out cursors).
Proof.
  assert (X : forall ch a s cursors, tells (bind (parse_delim ch) (fun c => nth_b_number a s (cursors ++ [c]))) (anb_out cursors)).
  { intros ch a s cursors p cs O. eapply tv_bind; [exact O | apply k_delim |]. intros c u q r E Oq K. eapply tv_use; [exact Oq | apply w_b_number |]. intros x v (y & z & l & -> & Kl). exists y, z, (c :: l). split; [now rewrite <- app_assoc |]. cbv beta in *. emi. }
  intros a s cursors p cs O. unfold nth_b_sign. destruct (s =? 0)%Z; [| exact (w_b_number _ _ _ p cs O)]. destruct (peek (peek_delim 43) p) as [[] |]; [exact (X _ _ _ _ p cs O) | | apply tv_none].
  destruct (peek (peek_delim 45) p) as [[] |]; [exact (X _ _ _ _ p cs O) | exact (w_b_number _ _ _ p cs O) | apply tv_none].
Qed.
Lemma w_nth_a : forall c cursors, tells (nth_a c cursors) (anb_out cursors).
Proof.
  intros c cursors p cs O. unfold nth_a. destruct (negb _); [apply tv_err; exact O |]. destruct (is_float (ctok c)); [apply tv_err; exact O |]. unfold bind, p_str_lower. destruct (parse_str_lower c (lsrc (plex p))) as [w |]; [| apply tv_none].
  destruct (text_eqb w _); [exact (w_b_sign _ _ _ p cs O) |]. destruct (if is_int (ctok c) then _ else _) as [a [| ch rest]]; [apply tv_err; exact O |]. destruct (negb _); [apply tv_err; exact O |].
  destruct (parse_i32 rest) as [b |].
  - apply tv_ok; [exact O |]. exists a, b, []. split; [now rewrite app_nil_r | apply emits_nil].
  - destruct rest; [exact (w_b_sign _ _ _ p cs O) | apply tv_err; exact O].
Qed.
Lemma nth_a_eof : forall c cursors p, ctok c = T_EOF -> exists e, nth_a c cursors p = Some (Err e, p).
Proof. intros c cursors p E. unfold nth_a. rewrite E. cbn. eexists. reflexivity. Qed.
Lemma w_nth_anb : forall c, tells (nth_anb c) (anb_out [c]).
Proof.
  intros c p cs O. unfold nth_anb. destruct (tok_is_char (ctok c) 43); [| exact (w_nth_a _ _ p cs O)]. eapply tv_call; [exact (onto_skip src f _ _ _ none_trivia O) | exact (tells_any src f) | |].
  - intros d u q r E Oq K. cbv beta iota zeta in *. pose proof (onto_skip src f q r _ (onto_own src f _ _ O) Oq) as O2. destruct K as [(K & _) | (K & _)].
    + destruct (nth_a_eof d [c; d] (set_skip q (pskip p)) K) as (e & ->). apply tv_err. exact O2.
    + eapply tv_use; [exact O2 | apply w_nth_a |]. intros x v (y & z & l & -> & Kl). exists y, z, (d :: l). split; [reflexivity | emi].
  - intros e u q r E Oq. cbv beta iota zeta. apply tv_err. onto_.
Qed.
Lemma solid_css_int : Tells.solid peek_css_int.
Proof. intros p o E. unfold peek_css_int in E. apply some_inj in E. apply andb_prop in E. destruct E as (E & _). simpl ctok in E. rewrite tok_is_eof in E by discriminate. discriminate. Qed.
Lemma w_nth : tells parse_nth (out nth_cursors).
Proof.
  intros p cs O. unfold parse_nth. destruct (peek (peek_kind K_Number) p) as [[] |]; [| | apply tv_none].
  - apply tv_pmap. eapply tv_use; [exact O | apply k_single; exact solid_css_int |]. intros c u K. exact K.
  - destruct (peek (peek_kind K_Ident) p) as [[] |]; [| | apply tv_none].
    + eapply tv_bind; [exact O | apply k_kind; discriminate |]. intros c u q r E Oq K. unfold bind, p_str_lower. destruct (parse_str_lower c (lsrc (plex q))) as [w |]; [| apply tv_none]. cbv beta in *.
      destruct (text_eqb w _); [apply tv_ok; [exact Oq | cbn [nth_cursors]; emi] |]. destruct (text_eqb w _); [apply tv_ok; [exact Oq | cbn [nth_cursors]; emi] |]. eapply tv_use; [exact Oq | apply w_nth_anb |]. intros x v (y & z & l & -> & Kl). cbn [nth_cursors]. emi.
    + eapply tv_bind; [exact O | exact (tells_any src f) |]. intros c u q r E Oq K. cbv beta in *. destruct K as [(K & _) | (K & _)].
      * unfold nth_anb. rewrite K. change (tok_is_char T_EOF 43) with false. cbv iota. destruct (nth_a_eof c [c] q K) as (e & ->). apply tv_err. exact Oq.
      * eapply tv_use; [exact Oq | apply w_nth_anb |]. intros x v (y & z & l & -> & Kl). cbn [nth_cursors]. emi.
Qed.
(* the other values *)
Lemma w_lang : forall n, tells (lang_loop n) (fun l u => emits false u (flat_map (fun s : cursor * option cursor => with_comma [fst s] (snd s)) l)).
Proof.
  assert (V : tells parse_lang_value (fun x u => emits false u (with_comma [fst x] (snd x)))).
  { intros p cs O. unfold parse_lang_value. eapply tv_bind; [exact O | instantiate (1 := fun c u => emits false u [c]); intros p1 cs1 O1; apply tv_or_peek; intro; (eapply tv_use; [exact O1 | apply k_kind; discriminate | auto]) |].
    intros c u q r E Oq K. apply tv_pmap. eapply tv_use; [exact Oq | apply k_if; discriminate |]. intros o v Ko. cbv beta in *. cbn [fst snd]. unfold with_comma. emi. }
  induction n as [| n IH]; intros p cs O; [apply tv_none |]. cbn [lang_loop]. eapply tv_bind; [exact O | exact V |]. intros x u q r E Oq K. cbv beta in *. apply tv_or_peek; intro.
  - apply tv_ok; [exact Oq |]. cbn [flat_map]. emi.
  - apply tv_pmap. eapply tv_use; [exact Oq | exact IH |]. intros l v Kl. cbn [flat_map]. emi.
Qed.
Lemma w_part : forall n, tells (part_loop n) (fun l u => emits false u l).
Proof.
  induction n as [| n IH]; intros p cs O; [apply tv_none |]. cbn [part_loop]. apply tv_or_peek; intro; [apply tv_ok; [exact O | apply emits_nil] |]. eapply tv_bind; [exact O | apply k_kind; discriminate |]. intros x u q r E Oq K. cbv beta in *.
  apply tv_pmap. eapply tv_use; [exact Oq | exact IH |]. intros l v Kl. emi.
Qed.
End Selectors.
