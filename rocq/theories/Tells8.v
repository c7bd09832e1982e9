(* The logic of Tells.v: the preludes of the at-rules. *)
From Coq Require Import ZifyBool ZifyNat ZifyN Permutation.
From Coq Require Import String.
From Coq Require Import List.
From Verif Require Import AstSheet SpecSheet SpecWritten SpecLex SpecTrace SpecParser SpecSyntax SpecTraits SpecRules SpecFeatures SpecCursor SpecToken LexBase TokenProofs KindProofs LexFacts LexTrace CursorProofs CursorLex
  ParserProofs ParserProofs2 ParserProofs3 ParserProofs4 CompareProofs SyntaxProofs SyntaxTotal TraitsTotal RulesTotal FeatureProofs FaithProofs FaithTraits FaithRules Goes Tells Tells2 Tells3 Tells4 Tells5 Tells6 Tells7.
Open Scope N_scope.
Open Scope list_scope.

Section Preludes.
Variable src : text.
Variable f : feature.
Notation tells := (tells src f).
Notation onto := (onto src f).
Notation tv := (tv src f).
Notation plainly := (wri (fun _ => true) (fun _ => false)).
Variables loose lossy : text -> bool.
Variable props : properties.
Variable Hp : told_values src f loose lossy props.

Lemma w_cond : forall F (feature_p : P F) ef, tells feature_p (plainly ef) -> rejects src f feature_p -> tells (condition_t feature_p) (wri whole_condition (fun _ => false) (condition_cursors ef)).
Proof.
  intros F feature_p ef H Rj. eapply tells_imp; [exact (w_condition src f _ _ _ _ _ H Rj) |]. intros x u K. unfold wri in *. rewrite forallb_true, existsb_false, andb_true_r in K. exact K.
Qed.
(* supports *)
Lemma w_supports_feature : tells (parse_supports_feature props) (wri (whole_support lossy) (mixed_support loose) supports_feature_cursors).
Proof.
  intros p cs O. unfold parse_supports_feature. eapply tv_bind; [exact O | apply tells_if_kind; discriminate |]. intros open u q r E Oq (K & _). apply tv_or_peek; intro Pk.
  - eapply tv_bind; [exact Oq | apply k_set; discriminate |]. intros [w fn] u2 q2 r2 E2 O2 K2. cbv beta in K2. cbn [snd] in K2. destruct w; [apply tv_none | apply tv_none |].
    eapply tv_bind; [exact O2 | apply w_selectors |]. intros l u3 q3 r3 E3 O3 K3. unfold wri in K3. eapply tv_bind; [exact O3 | apply k_kind; discriminate |]. intros c u4 q4 r4 E4 O4 K4. cbv beta in K4. apply tv_pmap. destruct open as [o |].
    + apply tv_pmap. eapply tv_use; [exact O4 | apply k_kind; discriminate |]. intros c2 v Kc. unfold wri. cbn [supports_feature_cursors opt_cursor whole_support mixed_support] in *. em.
    + apply tv_ok; [exact O4 |]. unfold wri. cbn [supports_feature_cursors opt_cursor whole_support mixed_support] in *. em.
  - destruct open as [o |].
    + eapply tv_bind; [exact Oq | exact (w_property src f loose lossy props Hp) |]. intros d u2 q2 r2 E2 O2 K2. unfold wri in K2. apply tv_pmap. eapply tv_use; [exact O2 | apply tells_if_kind; discriminate |]. intros c v (Kc & _). unfold wri. cbn [supports_feature_cursors opt_cursor whole_support mixed_support] in *. em.
    + destruct (peek_n q 1); [apply tv_err; exact Oq | apply tv_none].
Qed.
Lemma supports_rejects : rejects src f (parse_supports_feature props).
Proof.
  intros p cs O I a q E. unfold parse_supports_feature in E. destruct (bind_inv _ _ _ _ _ _ _ E) as (open & p1 & E1 & E2). unfold peek in I. destruct (peek_next p) as [d |] eqn:N; [| discriminate]. unfold peek_kind in I. apply some_inj in I. unfold tok_is in I. apply N.eqb_eq in I.
  unfold if_kind, parse_if_peek, peek in E1. rewrite N in E1. unfold peek_kind, tok_is in E1. rewrite I in E1. change (kind_code K_Ident =? kind_code K_LeftParen) with false in E1. cbv iota in E1. injection E1 as <- <-.
  destruct (or_peek_inv _ _ _ _ _ _ E2) as [(Pk & _) | (_ & E3)].
  - unfold peek in Pk. rewrite N in Pk. unfold peek_kind, tok_is in Pk. rewrite I in Pk. discriminate Pk.
  - destruct (peek_n p 1); discriminate.
Qed.
Lemma w_supports_condition : tells (parse_supports_condition props) (wri (fun x => whole_condition x && forallb (whole_support lossy) (condition_parts x)) (fun x => existsb (mixed_support loose) (condition_parts x)) (condition_cursors supports_feature_cursors)).
Proof.
  intros p cs O. unfold parse_supports_condition. apply tv_or_peek; intro Pk.
  - apply tv_pmap. eapply tv_use; [exact O | exact w_supports_feature |]. intros x u K. unfold wri in *. cbn [whole_condition condition_parts forallb existsb condition_cursors]. em.
  - exact (w_condition src f _ _ _ _ _ w_supports_feature supports_rejects p cs O).
Qed.
(* media *)
Lemma w_media_condition : tells (condition_t parse_media_feature) (wri whole_condition (fun _ => false) (condition_cursors media_feature_cursors)).
Proof. exact (w_cond _ _ _ (w_media_feature src f) (media_rejects src f)). Qed.
Lemma w_take_type : forall c, tells (take_media_type c) (fun t u => u = [] /\ snd t = c).
Proof.
  intros c p cs O. unfold take_media_type. destruct (peek_media_type p c) as [[] |]; [| apply tells_fail_text; exact O | apply tv_none]. destruct (build_media_type p c) as [t |] eqn:B; [| apply tv_none].
  unfold build_media_type in B. destruct (look_up (words MEDIA_TYPES) p c); [| discriminate]. injection B as <-. apply tv_ok; [exact O | split; reflexivity].
Qed.
Lemma w_query_rest : forall pre ty, tells (query_rest pre ty) (fun q u => mq_pre q = pre /\ mq_type q = ty /\ wr (whole_query q) false u (opt_cursor (mq_and q) ++ match mq_condition q with Some x => condition_cursors media_feature_cursors x | None => [] end)).
Proof.
  intros pre ty p cs O. unfold query_rest. destruct (peek_n p 1) as [c |]; [| apply tv_none]. destruct (if tok_is (ctok c) K_Ident then _ else _) as [[] |]; [| | apply tv_none].
  - eapply tv_bind; [exact O | apply k_kind; discriminate |]. intros a u q r E Oq K. cbv beta in K. apply tv_pmap. eapply tv_use; [exact Oq | exact w_media_condition |]. intros x v Kx. unfold wri in Kx. unfold whole_query. cbn [mq_pre mq_type mq_and mq_condition opt_cursor].
    split; [reflexivity |]. split; [reflexivity |]. em.
  - apply tv_ok; [exact O |]. unfold whole_query. cbn [mq_pre mq_type mq_and mq_condition opt_cursor]. split; [reflexivity |]. split; [reflexivity |]. exact wr_nil.
Qed.
Lemma w_media_query : tells parse_media_query (wri whole_query (fun _ => false) media_query_cursors).
Proof.
  intros p cs O. unfold parse_media_query. apply tv_or_peek; intro Pk.
  - apply tv_pmap. eapply tv_use; [exact O | exact w_media_condition |]. intros x u K. exact K.
  - eapply tv_bind; [exact O | apply k_kind; discriminate |]. intros c u q r E Oq K. cbv beta in *. destruct (peek_set K_Ident (words PRECONDITIONS) q c) as [[] |]; [| | apply tv_none].
    + destruct (build_set (words PRECONDITIONS) q c) as [w |] eqn:B; [| apply tv_none]. assert (snd w = c) as Ew by (unfold build_set in B; destruct (look_up (words PRECONDITIONS) q c) as [[x |] |]; try discriminate; injection B as <-; reflexivity).
      apply tv_or_peek; intro Pk2.
      * eapply tv_bind; [exact Oq | apply k_kind; discriminate |]. intros c2 u2 q2 r2 E2 O2 K2. eapply tv_bind; [exact O2 | apply w_take_type |]. intros t u3 q3 r3 E3 O3 (K3 & Et). subst u3. eapply tv_use; [exact O3 | apply w_query_rest |].
        intros x v (E4 & E5 & Kx). cbv beta in *. unfold wri, media_query_cursors. rewrite E4, E5, Ew, Et. em.
      * eapply tv_use; [exact Oq | apply w_query_rest |]. intros x v (E4 & E5 & Kx). cbv beta in *. unfold wri, media_query_cursors. rewrite E4, E5, Ew. em.
    + eapply tv_bind; [exact Oq | apply w_take_type |]. intros t u3 q3 r3 E3 O3 (K3 & Et). subst u3. cbv beta. destruct (peek (peek_kind K_Ident) q3); [| apply tv_none]. eapply tv_use; [exact O3 | apply w_query_rest |].
      intros x v (E4 & E5 & Kx). cbv beta in *. unfold wri, media_query_cursors. rewrite E4, E5, Et. em.
Qed.
Lemma w_media_queries : tells parse_media_queries (wri (forallb whole_query) (fun _ => false) (flat_map media_query_cursors)).
Proof.
  unfold parse_media_queries. eapply tells_imp; [exact (w_prelude_list src f _ _ _ _ w_media_query _) |]. intros l u K. unfold wri in *. rewrite existsb_false in K. exact K.
Qed.
(* containers *)
Lemma w_container_query : tells (condition_t parse_container_feature) (wri whole_condition (fun _ => false) (condition_cursors (fun x => feature_cursors (snd x)))).
Proof. exact (w_cond _ _ _ (w_container_feature src f) (container_rejects src f)). Qed.
Lemma w_container_condition : tells parse_container_condition (wri whole_container (fun _ => false) container_condition_cursors).
Proof.
  intros p cs O. unfold parse_container_condition. destruct (peek_n p 1) as [c |]; [| apply tv_none]. cbv zeta.
  assert (Un : tv cs (wri whole_container (fun _ => false) container_condition_cursors) (pmap (fun x => ContainerCondition None (Some x)) (condition_t parse_container_feature) p)).
  { apply tv_pmap. eapply tv_use; [exact O | exact w_container_query |]. intros x u K. exact K. }
  destruct (tok_is (ctok c) K_Ident); [| exact Un]. destruct (look_up (words NOT_CONTAINER_NAMES) p c) as [[w |] |]; [exact Un | | apply tv_none].
  eapply tv_bind; [exact O | apply k_kind; discriminate |]. intros n u q r E Oq K. cbv beta in K. apply tv_pmap. eapply tv_use; [exact Oq | apply tells_if_peek; exact w_container_query |]. intros [x |] v Kx; unfold wri in *; unfold whole_container, container_condition_cursors; cbn [cc_name cc_condition opt_cursor].
  - em.
  - subst v. em.
Qed.
Lemma w_container_conditions : tells parse_container_conditions (wri (forallb whole_container) (fun _ => false) (flat_map container_condition_cursors)).
Proof.
  unfold parse_container_conditions. eapply tells_imp; [exact (w_prelude_list src f _ _ _ _ w_container_condition _) |]. intros l u K. unfold wri in *. rewrite existsb_false in K. exact K.
Qed.
(* lists with commas *)
Lemma w_commas : forall A stop (item_p : P A) em, tells item_p (plainly em) -> tells (comma_list_t stop item_p) (plainly (comma_cursors em)).
Proof.
  intros A stop item_p em H. eapply tells_imp; [exact (w_comma_list src f _ _ _ _ H stop) |]. intros l u K. unfold wri, decls_cl in *. rewrite forallb_true in K. unfold decls_mx in K. rewrite existsb_false in K. exact K.
Qed.
(* pages *)
Lemma w_page_selector : tells parse_page_selector (plainly page_selector_cursors).
Proof.
  assert (P1 : tells parse_page_pseudo (fun y u => emits false u [fst (snd y); snd (snd y)])).
  { intros p cs O. unfold parse_page_pseudo. eapply tv_bind; [exact O | apply k_kind; discriminate |]. intros c u q r E Oq K. cbv beta in K. apply tv_pmap. eapply tv_use; [exact Oq | apply tells_unskipped, k_set; discriminate |]. intros w v Kw. cbn [fst snd]. emi. }
  assert (L : forall n, tells (page_pseudo_loop n) (fun l u => emits false u (flat_map (fun y : page_pseudo_class => [fst (snd y); snd (snd y)]) l))).
  { induction n as [| n IH]; intros p cs O; [apply tv_none |]. cbn [page_pseudo_loop]. apply tv_or_peek; intro; [| apply tv_ok; [exact O | apply emits_nil]]. eapply tv_bind; [exact O | exact P1 |]. intros x u q r E Oq K. cbv beta in K. apply tv_pmap.
    eapply tv_use; [exact Oq | exact IH |]. intros l v Kl. cbn [flat_map]. emi. }
  intros p cs O. unfold parse_page_selector. eapply tv_bind; [exact O | apply tells_if_kind; discriminate |]. intros t u q r E Oq (K & _). apply tv_pmap. cbv beta. eapply tv_use; [exact Oq | apply L |]. intros l v Kl. unfold wri, page_selector_cursors. cbn [ps_type ps_pseudos]. em.
Qed.
(* layers *)
Lemma w_layer_name : tells parse_layer_name (plainly layer_name_cursors).
Proof.
  assert (L : forall n, tells (layer_loop n) (fun l u => emits false u (flat_map (fun y : cursor * cursor => [fst y; snd y]) l))).
  { induction n as [| n IH]; intros p cs O; [apply tv_none |]. cbn [layer_loop]. apply tv_or_peek; intro; [| apply tv_ok; [exact O | apply emits_nil]]. eapply tv_bind; [exact O | apply k_delim |]. intros x u q r E Oq K. eapply tv_bind; [exact Oq | apply k_kind; discriminate |]. intros y u2 q2 r2 E2 O2 K2. cbv beta in *. apply tv_pmap.
    eapply tv_use; [exact O2 | exact IH |]. intros l v Kl. cbn [flat_map fst snd]. emi. }
  intros p cs O. unfold parse_layer_name. eapply tv_bind; [exact O | apply k_kind; discriminate |]. intros t u q r E Oq K. cbv beta in *. apply tv_pmap. cbv beta. eapply tv_use; [exact Oq | apply L |]. intros l v Kl. unfold wri, layer_name_cursors. cbn [fst snd]. em.
Qed.
(* keyframes *)
Lemma w_keyframes_name : tells parse_keyframes_name (plainly (fun c => [c])).
Proof.
  intros p cs O. unfold parse_keyframes_name. apply tv_or_peek; intro.
  - eapply tv_use; [exact O | apply k_kind; discriminate |]. intros c u K _. exact K.
  - eapply tv_bind; [exact O | apply k_kind; discriminate |]. intros c u q r E Oq K. cbv beta in *. destruct (parse_str c (lsrc (plex q))) as [w |]; [| apply tv_none]. destruct (existsb _ _); [apply tv_err; exact Oq |]. apply tv_ok; [exact Oq |]. unfold wri. em.
Qed.
Lemma w_keyframe_selector : tells parse_keyframe_selector (plainly (fun y => [keyframe_selector_cursor y])).
Proof.
  intros p cs O. unfold parse_keyframe_selector. eapply tv_bind; [exact O | apply tells_if_peek, k_set; discriminate |]. intros [[[] c] |] u q r E Oq K; cbv beta iota in K; cbn [snd] in K.
  - apply tv_ok; [exact Oq |]. unfold wri. cbn [keyframe_selector_cursor]. em.
  - apply tv_ok; [exact Oq |]. unfold wri. cbn [keyframe_selector_cursor]. em.
  - subst u. eapply tv_bind; [exact Oq | apply k_single; apply solid_dimension |]. intros c u2 q2 r2 E2 O2 K2. cbv beta in *. destruct (f32_upto_100 _); [| apply tv_err; exact O2]. apply tv_ok; [exact O2 |]. unfold wri. cbn [keyframe_selector_cursor]. em.
Qed.
Lemma w_properties_block : tells (declaration_list_t (parse_property props)) (wri (whole_block lossy) (mixed_properties loose) properties_block_cursors).
Proof.
  eapply tells_imp; [exact (w_declaration_list src f _ _ _ _ (w_property src f loose lossy props Hp)) |]. intros [[o l] c] u K. exact K.
Qed.
Lemma w_keyframe : tells (parse_keyframe props) (wri (fun k => whole_block lossy (kf_block k)) (fun k => mixed_properties loose (kf_block k)) keyframe_cursors).
Proof.
  intros p cs O. unfold parse_keyframe. apply tv_pmap. eapply tv_use; [exact O | exact (w_qualified_rule src f _ _ _ _ _ _ _ _ _ _ _ (w_commas _ _ _ _ w_keyframe_selector) w_properties_block (w_bad src f)) |].
  intros [l b] u (u1 & u2 & -> & K1 & K2). unfold wri in *. cbn [fst snd] in *. unfold keyframe_cursors. cbn [kf_selectors kf_block]. em.
Qed.
(* documents *)
Lemma w_document_matcher : tells parse_document_matcher (plainly document_matcher_cursors).
Proof.
  intros p cs O. unfold parse_document_matcher. apply tv_or_peek; intro.
  - apply tv_pmap. eapply tv_use; [exact O | apply k_kind; discriminate |]. intros c u K _. exact K.
  - eapply tv_bind; [exact O | apply k_set; discriminate |]. intros [w fn] u q r E Oq K. eapply tv_bind; [exact Oq | apply k_kind; discriminate |]. intros s u2 q2 r2 E2 O2 K2. eapply tv_bind; [exact O2 | apply k_kind; discriminate |]. intros c u3 q3 r3 E3 O3 K3. cbv beta in *. cbn [snd] in K.
    apply tv_ok; [exact O3 |]. unfold wri. replace (document_matcher_cursors _) with [fn; s; c] by (destruct w; reflexivity). em.
Qed.
End Preludes.
