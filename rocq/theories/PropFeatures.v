(* Theorems for C45 (word sets, pseudo-classes, pseudo-elements), C46 (media-style features) and C47 (condition lists).
   "reads_phrases m ok cur follow" (SpecFeatures.v): in its usual state a parser running m returns exactly the phrases that come
   next, and consumes exactly their tokens. The sets, names and value parsers are arbitrary. *)
From Coq Require Import String.
From Coq Require Import List Lia.
From Verif Require Import Features SpecLex SpecTrace SpecParser SpecSyntax SpecTraits SpecFeatures SpecCursor SpecToken KindProofs LexFacts LexTrace ParserProofs TraitsTotal
  FeatureProofs FeatureProofs2 FeatureProofs3 FeatureProofs4 FeatureProofs5 FeatureProofs6.
Open Scope N_scope.
Open Scope list_scope.

(* every state a parser reaches with its default skip set is a usual one *)
Theorem C45_usual_states : forall src f p, well_behaved (single_line_comments f) src -> ~ In 0 src -> blen src < 4294967296 -> reached_parser src f p -> pskip p = KS_TRIVIA -> usual p.
Proof. exact usual_reached. Qed.
Print Assumptions C45_usual_states.
(* ---- C45 ---- *)
Theorem C45_sets_read_their_words : forall V (m : list (text * V)) k, NoDup (map fst m) -> is_name k -> reads_phrases (parse_set k m) (word_phrase k m) word_cursors anything.
Proof. intros V m k ND Kn. exact (set_phrases m ND k Kn). Qed.
Print Assumptions C45_sets_read_their_words.
Theorem C45_sets_peek_their_words : forall V (m : list (text * V)) k, NoDup (map fst m) -> is_name k -> peeks_phrases (peek_set k m) (word_phrase k m) word_cursors.
Proof. intros V m k ND Kn. exact (set_peeks m ND k Kn). Qed.
Print Assumptions C45_sets_peek_their_words.
(* in any letter case: the next token is read as the member x iff it is of the set's kind and its value, lower-cased, is x's word *)
Theorem C45_any_case_partial : forall V (m : list (text * V)) k src f p pre l t rest v x, NoDup (map fst m) -> is_name k ->
  well_behaved (single_line_comments f) src -> ~ In 0 src -> blen src < 4294967296 -> reached_parser src f p -> pskip p = KS_TRIVIA ->
  sees p (Cursor (blen pre) t :: rest) -> src = pre ++ l -> token_at f pre l t -> stands_for l (tkind t) v -> contains_escape_chars t = false ->
  (exists q, parse_set k m p = Some (Ok (x, Cursor (blen pre) t), q)) <-> tkind t = k /\ In (lower_text v, x) m.
Proof. exact word_any_case. Qed.
Print Assumptions C45_any_case_partial.
Definition two_words : list (text * N) := [(chars "foo", 1); (chars "bar", 2)].
Lemma two_words_nodup : NoDup (map fst two_words).
Proof. repeat constructor; cbn; intuition discriminate. Qed.
(* missing: escapes. "\46oo" is Foo, but is not found *)
Theorem C45_escaped_capital_refuted : exists src t, src = chars "\46oo" /\ token_at no_features [] src t /\ tkind t = K_Ident /\ parse_str (Cursor 0 t) src = Some (chars "Foo") /\
  exists e q, parse_set K_Ident two_words (parser_new src no_features) = Some (Err e, q).
Proof.
  exists (chars "\46oo"), (new_ident false false true 5). split; [reflexivity |]. split; [intro last; eexists; vm_compute; reflexivity |]. split; [reflexivity |]. split; [vm_compute; reflexivity |].
  eexists _, _. vm_compute. reflexivity.
Qed.
Print Assumptions C45_escaped_capital_refuted.
Example C45_case : usual (parser_new (chars " BAR x") no_features) /\ exists c q, parse_set K_Ident two_words (parser_new (chars " BAR x") no_features) = Some (Ok (2, c), q) /\ coff c = 1.
Proof. split; [apply usual_new; [apply ordinary_spec; reflexivity | cbn; intuition discriminate | reflexivity] |]. eexists _, _. split; [vm_compute; reflexivity | reflexivity]. Qed.
Theorem C45_pseudo_classes : forall V (m : list (text * V)), NoDup (map fst m) -> reads_phrases (parse_pseudo_class m) (class_phrase m) class_cursors anything.
Proof. intros V m ND. exact (class_phrases m ND). Qed.
Print Assumptions C45_pseudo_classes.
Theorem C45_pseudo_elements : forall V (m : list (text * V)), NoDup (map fst m) -> reads_phrases (parse_pseudo_element m) (element_phrase m) element_cursors anything.
Proof. intros V m ND. exact (element_phrases m ND). Qed.
Print Assumptions C45_pseudo_elements.
(* their peeks do not look at what lies between the tokens ... *)
Theorem C45_pseudo_class_peek : forall V (m : list (text * V)), NoDup (map fst m) -> forall p, usual p -> exists b, peek (peek_pseudo_class m) p = Some b /\
  (b = true <-> exists colon ident rest v, sees p (colon :: ident :: rest) /\ kind_of colon = K_Colon /\ is_word K_Ident m (lsrc (plex p)) v ident).
Proof. intros V m ND. exact (class_peek m ND). Qed.
Print Assumptions C45_pseudo_class_peek.
Theorem C45_pseudo_element_peek : forall V (m : list (text * V)), NoDup (map fst m) -> forall p, usual p -> exists b, peek (peek_pseudo_element m) p = Some b /\
  (b = true <-> exists c1 c2 ident rest v, sees p (c1 :: c2 :: ident :: rest) /\ kind_of c1 = K_Colon /\ kind_of c2 = K_Colon /\ is_word K_Ident m (lsrc (plex p)) v ident).
Proof. intros V m ND. exact (element_peek m ND). Qed.
Print Assumptions C45_pseudo_element_peek.
(* ... so that what is peeked may fail to parse *)
Theorem C45_peek_then_parse_refuted : exists src, src = chars ": foo" /\ usual (parser_new src no_features) /\ peek (peek_pseudo_class two_words) (parser_new src no_features) = Some true /\
  exists e q, parse_pseudo_class two_words (parser_new src no_features) = Some (Err e, q).
Proof.
  exists (chars ": foo"). split; [reflexivity |]. split; [apply usual_new; [apply ordinary_spec; reflexivity | cbn; intuition discriminate | reflexivity] |]. split; [vm_compute; reflexivity |].
  eexists _, _. vm_compute. reflexivity.
Qed.
Print Assumptions C45_peek_then_parse_refuted.
Example C45_pseudo_case : exists x q, parse_pseudo_element two_words (parser_new (chars "/**/::Foo") no_features) = Some (Ok x, q) /\ fst x = 1 /\ List.length (element_cursors x) = 3%nat.
Proof. eexists _, _. split; [vm_compute; reflexivity |]. split; reflexivity. Qed.
Theorem C45_always_returns : forall V (m : list (text * V)) k n, NoDup (map fst m) -> is_name k ->
  well_behaving 1 n (parse_set k m) /\ well_behaving 2 n (parse_pseudo_class m) /\ well_behaving 3 n (parse_pseudo_element m).
Proof. intros V m k n ND Kn. split; [exact (set_runs m ND k Kn n) |]. split; [exact (class_runs m n) | exact (element_runs m n)]. Qed.
Print Assumptions C45_always_returns.

(* ---- C46 ---- *)
Theorem C46_discrete_features : forall V name (value_p : P V) okv vc, reads_phrases value_p okv vc anything ->
  reads_phrases (discrete_feature_t name value_p) (feature_phrase name okv) (plain_cursors vc) anything.
Proof. exact discrete_phrases. Qed.
Print Assumptions C46_discrete_features.
Theorem C46_boolean_features : forall name, reads_phrases (boolean_feature_t name) (feature_phrase name any_token) (plain_cursors (fun c => [c])) anything.
Proof. exact boolean_phrases. Qed.
Print Assumptions C46_boolean_features.
(* what is returned is one of the four forms, spelled by the tokens consumed *)
Theorem C46_ranged_features_sound : forall F V peek_name (name_p : P F) okn fc legacy (value_p : P V) okv vc,
  reads_phrases name_p okn fc anything -> reads_phrases value_p okv vc anything ->
  forall p f q, usual p -> ranged_feature_t peek_name name_p legacy value_p p = Some (Ok f, q) -> ranged_phrase okn legacy okv (lsrc (plex p)) f /\ took p q (ranged_cursors fc vc f).
Proof. intros F V peek_name name_p okn fc legacy value_p okv vc Hn Hv. exact (ranged_sound peek_name name_p okn fc legacy value_p okv vc Hn Hv). Qed.
Print Assumptions C46_ranged_features_sound.
(* and each form is read, if names and values do not begin with "=" and are told apart by how they begin *)
Theorem C46_ranged_features : forall F V peek_name (name_p : P F) okn fc legacy (value_p : P V) okv vc,
  peeks_phrases peek_name okn fc -> reads_phrases name_p okn fc anything -> reads_phrases value_p okv vc anything ->
  no_equals_first okv vc -> no_equals_first okn fc -> told_apart okv vc okn fc ->
  reads_phrases (ranged_feature_t peek_name name_p legacy value_p) (ranged_phrase okn legacy okv) (ranged_cursors fc vc) anything.
Proof. intros F V peek_name name_p okn fc legacy value_p okv vc Pn Hn Hv Nv Nn Ap. exact (ranged_phrases peek_name name_p okn fc legacy value_p okv vc Pn Hn Hv Nv Nn Ap). Qed.
Print Assumptions C46_ranged_features.
Theorem C46_comparisons : reads_phrases parse_comparison (fun _ => comparison_spelled) comparison_cursors comparison_follow.
Proof. exact comparison_phrases. Qed.
Print Assumptions C46_comparisons.
Theorem C46_plain_features_return : forall V name (value_p : P V) n, (forall m, (m < n)%nat -> well_behaving 0 m value_p) ->
  well_behaving 3 n (discrete_feature_t name value_p) /\ well_behaving 3 n (boolean_feature_t name).
Proof. intros V name value_p n H. split; [exact (discrete_runs V name value_p n H) | exact (boolean_runs name n)]. Qed.
Print Assumptions C46_plain_features_return.
Theorem C46_ranged_features_return : forall F V peek_name (name_p : P F) legacy (value_p : P V) n,
  (forall m, (m < n)%nat -> peeks m peek_name /\ well_behaving 0 m name_p /\ well_behaving 0 m value_p) ->
  (forall p c cs, usable p -> ahead (plex p) cs -> peek_next p = Some c -> peek peek_name p = Some true -> is_name (kind_of c)) ->
  well_behaving 2 n (ranged_feature_t peek_name name_p legacy value_p).
Proof. exact ranged_runs. Qed.
Print Assumptions C46_ranged_features_return.
(* the hypotheses are met by a set of names and number values: (foo >= 1), (1 < foo <= 2), (bar: 3) *)
Lemma number_phrases : reads_phrases (parse_kind K_Number) (fun _ c => kind_of c = K_Number) (fun c => [c]) anything.
Proof. apply phrases_kind. discriminate. Qed.
Lemma no_char : forall t, tkind t <> K_Eof -> ~ In (tkind t) doc_delim_like -> tchar t <> Some 61.
Proof. intros t N D. unfold tchar. destruct (is_delim_like t) eqn:E; [| discriminate]. apply delim_like_spec in E; [contradiction | now apply wf_of_kind]. Qed.
Definition sample_ranged : P (ranged_feature (N * cursor) cursor) := ranged_feature_t (peek_set K_Ident two_words) (parse_set K_Ident two_words) (fun x => fst x =? 2) (parse_kind K_Number).
Example C46_case : reads_phrases sample_ranged (ranged_phrase (word_phrase K_Ident two_words) (fun x => fst x =? 2) (fun _ c => kind_of c = K_Number)) (ranged_cursors word_cursors (fun c => [c])) anything.
Proof.
  apply C46_ranged_features.
  - exact (set_peeks two_words two_words_nodup K_Ident ident_name).
  - exact (set_phrases two_words two_words_nodup K_Ident ident_name).
  - exact number_phrases.
  - intros src c rest K. apply no_char; cbn [app]; unfold kind_of in K; rewrite K; [discriminate | cbn; intuition discriminate].
  - intros src [v c] rest (K & _). apply no_char; cbn [word_cursors app snd]; cbn [snd] in K; unfold kind_of in K; rewrite K; [discriminate | cbn; intuition discriminate].
  - intros src c [v d] r r' K (K' & _) E. cbn in *. injection E as -> _. congruence.
Qed.
Example C46_runs : exists f q, sample_ranged (parser_new (chars "(1 < Foo <= 2)") no_features) = Some (Ok f, q) /\ List.length (ranged_cursors word_cursors (fun c => [c]) f) = 8%nat /\
  exists f2 q2, sample_ranged (parser_new (chars "( bar : 3 )") no_features) = Some (Ok f2, q2) /\ exists e q3, sample_ranged (parser_new (chars "(bar>3)") no_features) = Some (Err e, q3).
Proof. eexists _, _. split; [vm_compute; reflexivity |]. split; [reflexivity |]. eexists _, _. split; [vm_compute; reflexivity |]. eexists _, _. vm_compute. reflexivity. Qed.

(* ---- C47 ---- *)
(* Which conditions are read: with one "and" or "or" at most. Features are any phrases that are not empty, do not begin with
   a condition keyword and have no whitespace inside. *)
Theorem C47_conditions_read_partial : forall F (feature_p : P F) okf fc, reads_phrases feature_p okf fc anything -> no_keyword_first okf fc -> solid okf fc ->
  forall p, usual p ->
  (forall x q, condition_t feature_p p = Some (Ok x, q) -> exists used rest, sees p (used ++ rest) /\ sees q rest /\ took p q used /\ accepted okf fc (lsrc (plex p)) x used rest) /\
  (forall x used rest, sees p (used ++ rest) -> accepted okf fc (lsrc (plex p)) x used rest -> exists q, condition_t feature_p p = Some (Ok x, q) /\ took p q used).
Proof.
  intros F feature_p okf fc Hf Nk So p U. split; [intros x q; exact (condition_sound feature_p okf fc Hf Nk So p x q U) | intros x used rest; exact (condition_complete feature_p okf fc Hf Nk p x used rest U)].
Qed.
Print Assumptions C47_conditions_read_partial.
(* what the parser accepts is documented, but for "f not g" *)
Theorem C47_accepted_is_documented : forall F okf (fc : F -> list cursor) src x used rest, accepted okf fc src x used rest -> (forall kw f, x <> CNot kw f) -> documented okf fc src x used.
Proof.
  intros F okf fc src x used rest Ac Nn. destruct x as [f | kw f | l | l]; cbn in Ac.
  - destruct Ac as (O & -> & _). now constructor.
  - exfalso. exact (Nn kw f eq_refl).
  - destruct Ac as (f & k & f2 & -> & O1 & K & O2 & -> & _). constructor; [| cbn; auto]. constructor; [exact O1 | exact K |]. now constructor.
  - destruct Ac as (f & k & f2 & -> & O1 & K & O2 & -> & _). constructor; [| cbn; auto]. constructor; [exact O1 | exact K |]. now constructor.
Qed.
Print Assumptions C47_accepted_is_documented.
(* missing: the rest of the documented grammar. No condition that begins with "not" is read, *)
Theorem C47_not_refuted : forall F (feature_p : P F) okf fc, reads_phrases feature_p okf fc anything -> no_keyword_first okf fc -> solid okf fc ->
  forall p k f rest, usual p -> keyword_at (lsrc (plex p)) KwNot k -> okf (lsrc (plex p)) f -> sees p (k :: fc f ++ rest) ->
  documented okf fc (lsrc (plex p)) (CNot (KwNot, k) f) (k :: fc f) /\ forall x q, condition_t feature_p p <> Some (Ok x, q).
Proof. intros F feature_p okf fc Hf Nk So p k f rest U K O Sp. split; [now constructor |]. intros x q. exact (leading_not feature_p okf fc Hf Nk So p k (fc f ++ rest) x q U Sp K). Qed.
Print Assumptions C47_not_refuted.
(* nor a chain of three or more with "and"; *)
Theorem C47_long_and_refuted : forall F (feature_p : P F) okf fc, reads_phrases feature_p okf fc anything -> no_keyword_first okf fc -> solid okf fc ->
  forall p l u rest, usual p -> chain okf fc (lsrc (plex p)) KwAnd l u -> (3 <= List.length l)%nat -> sees p (u ++ rest) ->
  documented okf fc (lsrc (plex p)) (CAnd l) u /\ forall x q, condition_t feature_p p <> Some (Ok x, q).
Proof.
  intros F feature_p okf fc Hf Nk So p l u rest U C L Sp. split; [constructor; [exact C | lia] |]. intros x q. inversion C as [f O | f k l1 u1 O K C1]; subst; [cbn in L; lia |].
  inversion C1 as [f1 O1 | f1 k1 l2 u2 O1 K1 C2]; subst; [cbn in L; lia |]. rewrite <- app_assoc in Sp. cbn [app] in Sp. rewrite <- app_assoc in Sp. cbn [app] in Sp.
  exact (chain_of_and feature_p okf fc Hf Nk So p f k f1 k1 _ x q U O K O1 K1 Sp).
Qed.
Print Assumptions C47_long_and_refuted.
(* a chain with "or" is read up to its second feature only; *)
Theorem C47_long_or_refuted : forall F (feature_p : P F) okf fc, reads_phrases feature_p okf fc anything -> no_keyword_first okf fc -> solid okf fc ->
  forall p f k f2 k2 l u rest, usual p -> chain okf fc (lsrc (plex p)) KwOr ((f, Some (KwOr, k)) :: (f2, Some (KwOr, k2)) :: l) (fc f ++ k :: fc f2 ++ k2 :: u) -> sees p ((fc f ++ k :: fc f2 ++ k2 :: u) ++ rest) ->
  exists q, condition_t feature_p p = Some (Ok (COr [(f, Some (KwOr, k)); (f2, None)]), q) /\ sees q (k2 :: u ++ rest).
Proof.
  intros F feature_p okf fc Hf Nk So p f k f2 k2 l u rest U C Sp. inversion C as [| ? ? ? ? O K C1 E1 E2]; subst. inversion C1 as [| ? ? ? ? O1 K1 C2 E3 E4]; subst.
  assert (Sp' : sees p ((fc f ++ k :: fc f2) ++ k2 :: u ++ rest)) by (rewrite <- !app_assoc in *; cbn [app] in *; rewrite <- app_assoc in Sp; exact Sp).
  destruct (condition_complete feature_p okf fc Hf Nk p (COr [(f, Some (KwOr, k)); (f2, None)]) (fc f ++ k :: fc f2) (k2 :: u ++ rest) U Sp') as (q & E & T).
  - exists f, k, f2. repeat split; auto; try apply K. intro B. pose proof (keyword_det _ _ _ _ K1 B). discriminate.
  - exists q. split; [exact E | exact (took_sees _ _ _ _ T Sp')].
Qed.
Print Assumptions C47_long_or_refuted.
(* and "f not g" is read, although documented nowhere, as "not g": the tokens of f are dropped *)
Theorem C47_dropped_feature_refuted : forall F (feature_p : P F) okf fc, reads_phrases feature_p okf fc anything -> no_keyword_first okf fc -> solid okf fc ->
  forall p f k f2 rest, usual p -> okf (lsrc (plex p)) f -> keyword_at (lsrc (plex p)) KwNot k -> okf (lsrc (plex p)) f2 -> sees p ((fc f ++ k :: fc f2) ++ rest) ->
  exists q, condition_t feature_p p = Some (Ok (CNot (KwNot, k) f2), q) /\ took p q (fc f ++ k :: fc f2) /\ condition_cursors fc (CNot (KwNot, k) f2) = k :: fc f2.
Proof.
  intros F feature_p okf fc Hf Nk So p f k f2 rest U O K O2 Sp. destruct (condition_complete feature_p okf fc Hf Nk p (CNot (KwNot, k) f2) (fc f ++ k :: fc f2) rest U Sp) as (q & E & T).
  - split; [reflexivity |]. split; [exact K |]. split; [exact O2 |]. exists f. auto.
  - exists q. auto.
Qed.
Print Assumptions C47_dropped_feature_refuted.
Theorem C47_always_returns : forall F (feature_p : P F) n, well_behaving 1 n feature_p -> well_behaving 1 n (condition_t feature_p).
Proof. exact condition_runs. Qed.
Print Assumptions C47_always_returns.
(* the hypotheses are met: "(a: x)" *)
Definition sample_feature : P (plain_feature cursor) := discrete_feature_t (chars "a") (parse_kind K_Ident).
Definition sample_okf := feature_phrase (chars "a") (fun _ c => kind_of c = K_Ident).
Example C47_case : reads_phrases sample_feature sample_okf (plain_cursors (fun c => [c])) anything /\ no_keyword_first sample_okf (plain_cursors (fun c => [c])) /\ solid sample_okf (plain_cursors (fun c => [c])).
Proof.
  split; [apply C46_discrete_features; apply phrases_kind; discriminate |]. split.
  - intros src f (K & _) kw (K' & _). cbn in K'. congruence.
  - intros src [a b v c] d (K1 & K2 & _ & Hv & K3) I. unfold plain_cursors in I. cbn [fopen fname fvalue fclose] in *.
    assert (G : kind_of d = K_LeftParen \/ kind_of d = K_Ident \/ kind_of d = K_Colon \/ kind_of d = K_RightParen).
    { destruct v as [[colon v] |]; cbn in I; [destruct Hv; intuition (subst; auto) | intuition (subst; auto)]. }
    destruct G as [-> | [-> | [-> | ->]]]; split; discriminate.
Qed.
Example C47_runs : exists x q, condition_t sample_feature (parser_new (chars "(a) AND (a: b) { }") no_features) = Some (Ok (CAnd x), q) /\ List.length x = 2%nat /\
  (exists e q2, condition_t sample_feature (parser_new (chars "not (a)") no_features) = Some (Err e, q2)) /\
  (exists e q3, condition_t sample_feature (parser_new (chars "(a) and (a) and (a)") no_features) = Some (Err e, q3)) /\
  (exists k f q4, condition_t sample_feature (parser_new (chars "(a) not (a:b)") no_features) = Some (Ok (CNot k f), q4) /\ p_at_end q4 = true).
Proof.
  eexists _, _. split; [vm_compute; reflexivity |]. split; [reflexivity |]. split; [eexists _, _; vm_compute; reflexivity |]. split; [eexists _, _; vm_compute; reflexivity |].
  eexists _, _, _. split; [vm_compute; reflexivity | reflexivity].
Qed.
