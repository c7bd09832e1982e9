(* The logic of Says.v: declarations, features and preludes. *)
From Coq Require Import ZifyBool ZifyNat ZifyN.
From Coq Require Import String.
From Coq Require Import List.
From Verif Require Import AstSheet Values SpecSheet SpecLex SpecTrace SpecParser SpecSyntax SpecTraits SpecRules SpecFeatures SpecSelectors SpecCursor SpecToken LexBase TokenProofs KindProofs LexFacts LexTrace CursorProofs CursorLex
  ParserProofs ParserProofs2 ParserProofs3 ParserProofs4 CompareProofs SyntaxProofs SyntaxTotal TraitsTotal RulesTotal FeatureProofs FaithProofs FaithTraits FaithRules SelectorProofs3 SelectorProofs4 SelectorProofs8 SelectorProofs9 Goes
  Tells Tells2 Tells3 Tells4 Tells5 Tells6 Tells7 Shows Shows3 Says Says2 Says3.
From Verif Require DeclProofs ValuesConform DimProofs.
From Verif Require Import SpecConforms SpecDecl SpecTree.
Open Scope N_scope.
Open Scope list_scope.

Section Preludes.
Variable src : text.
Variable f : feature.
Variable all : list cursor.
Notation says := (says src f all).
Notation sv := (sv src f all).
Notation here := (here src f all).
Notation sq := (sq src f all).

(* ---- declarations ---- *)
Lemma y_property : says (parse_property VALUES) (declared src all).
Proof.
  intros p (pre & cs & E & O) r q Em. destruct (DeclProofs.property_spec src f p cs O r q Em) as (u & rest & E0 & O' & K). split.
  - exists (pre ++ u), rest. rewrite <- app_assoc, <- E0. auto.
  - intros d Ed. destruct (K d Ed rest E0) as (value & imp & B & Kn & Kc & I & V). exists pre, u, rest, value, imp. rewrite <- E0. auto 8.
Qed.
Lemma y_style_value : forall n, says (parse_style_value VALUES n) (fun _ => True).
Proof.
  intros n p (pre & cs & E & O) r q Em. destruct (DeclProofs.style_value_spec src f n p cs O r q Em) as (u & rest & E0 & O' & K). split; [| intros; exact Logic.I].
  exists (pre ++ u), rest. rewrite <- app_assoc, <- E0. auto.
Qed.
Lemma font_face_is : forall p d q, here p -> parse_font_face_property VALUES p = Some (Ok d, q) -> parse_property VALUES p = Some (Ok d, q) /\ a_word src FONT_FACE_PROPERTIES (pr_name d).
Proof.
  intros p d q H E. unfold parse_font_face_property in E. unfold parse_property. destruct (pmap_inv _ _ _ _ _ _ _ E) as (x & E1 & ->). clear E. unfold declaration_t in E1. destruct (bind_inv _ _ _ _ _ _ _ E1) as (name & q1 & En & E2). clear E1.
  destruct (y_kind src f all K_Ident ltac:(discriminate) p H _ _ En) as (H1 & Kn). specialize (Kn name eq_refl). destruct (peek_set K_Ident (words FONT_FACE_PROPERTIES) q1 name) as [[] |] eqn:Pk; [| discriminate E2 | discriminate E2]. split.
  - unfold pmap, declaration_t. unfold bind at 1 2. rewrite En. rewrite E2. reflexivity.
  - assert (pr_name (property_of x) = name) as ->. { destruct (bind_inv _ _ _ _ _ _ _ E2) as (colon & q2 & Ec & E3). destruct (bind_inv _ _ _ _ _ _ _ E3) as (v & q3 & Ev & E4). destruct (bind_inv _ _ _ _ _ _ _ E4) as (i & q4 & Ei & E5). injection E5 as <- _. reflexivity. }
    unfold peek_set in Pk. destruct (tok_is (ctok name) K_Ident); [| discriminate Pk]. unfold look_up in Pk. rewrite (here_src _ _ _ _ H1) in Pk. destruct (parse_str_lower name src) as [w |] eqn:Ew; [| discriminate Pk]. cbn [option_map] in Pk. destruct (map_get (words FONT_FACE_PROPERTIES) w) as [v |] eqn:G; [| discriminate Pk].
    exists v. split; [exact Kn |]. exists w. split; [exact Ew | exact (map_get_in _ _ _ _ G)].
Qed.
Lemma y_font_face_property : says (parse_font_face_property VALUES) (fun d => declared src all d /\ a_word src FONT_FACE_PROPERTIES (pr_name d)).
Proof.
  intros p H r q E. assert (X : says (parse_font_face_property VALUES) (fun _ => True)).
  { unfold parse_font_face_property. apply says_pmap. eapply says_imp; [apply (y_declaration src f all _ _ _ (fun _ => True) (fun _ _ => True)); [intros; exact Logic.I | intros; apply y_style_value] |]. intros; exact Logic.I. }
  split; [exact (proj1 (X p H r q E)) |]. intros d ->. destruct (font_face_is p d q H E) as (Ep & W). split; [| exact W]. exact (proj2 (y_property p H _ _ Ep) d eq_refl).
Qed.

(* ---- numbers ---- *)
Lemma y_int : says (parse_single peek_int (fun c => c)) integer.
Proof.
  eapply says_imp; [apply y_single; exact solid_int |]. cbv beta. intros c (Kc & p & Pk & _). unfold peek_int in Pk. apply some_inj in Pk. apply andb_prop in Pk. destruct Pk as (T & I0). split; [exact (kind_is c _ Kc T) | exact I0].
Qed.
Lemma y_number : forall ty, says (parse_number_type ty) (number_fits src ty).
Proof.
  intros []; cbn [parse_number_type].
  - apply says_pmap. eapply says_imp; [apply y_single; exact solid_length |]. cbv beta. intros c (Kc & p & Pk & Hs). exists c. split; [reflexivity |]. unfold peek_length in Pk. destruct (tok_is (ctok c) K_Number && f32_is_zero (tvalue (ctok c))) eqn:B.
    + left. apply andb_prop in B. destruct B as (T & Z). split; [exact (kind_is c _ Kc T) |]. unfold f32_is_zero in Z. apply orb_prop in Z. destruct Z as [Z | Z]; apply N.eqb_eq in Z; auto.
    + right. destruct (ValuesConform.means_units src LENGTH_UNITS p c Hs Kc Pk) as (u & Iu & Kd & U). eauto.
  - apply says_pmap. eapply says_imp; [exact y_int |]. cbv beta. intros c K. exists c. auto.
  - apply says_pmap. eapply says_imp; [apply y_single; exact solid_float |]. cbv beta. intros c (Kc & p & Pk & _). unfold peek_float in Pk. apply some_inj in Pk. apply andb_prop in Pk. destruct Pk as (T & I0). exists c. split; [reflexivity |]. split; [exact (kind_is c _ Kc T) | exact I0].
  - unfold parse_ratio. eapply says_bind; [exact y_int |]. cbv beta. intros n Kn. eapply says_bind; [apply says_if_peek, y_delim |]. intros [s |] Ks.
    + apply says_pmap. eapply says_imp; [exact y_int |]. cbv beta. intros d Kd. exists n. split; [exact Kn |]. right. exists s, d. auto.
    + apply says_ret. exists n. auto.
Qed.

(* ---- features ---- *)
Lemma y_comparison : says parse_comparison comparison_spelled.
Proof.
  intros p H r q E. split.
  - refine (proj1 (says_of src f all _ _ _ (fun _ => True) (w_comparison src f) _ p H r q E)). intros; exact Logic.I.
  - intros x ->. destruct H as (pre & cs & _ & (_ & _ & A & _)). exact (proj1 (comparison_sound p cs x q A E)).
Qed.
Lemma y_plain : forall V name (value_p : P V) (okv : text -> V -> Prop), says value_p (okv src) -> says (discrete_feature_t name value_p) (feature_phrase name okv src).
Proof.
  intros V name value_p okv Hv. unfold discrete_feature_t. eapply says_bind; [apply y_kind; discriminate |]. cbv beta. intros o Ko. eapply says_bind; [apply y_kind; discriminate |]. cbv beta. intros n Kn. eapply says_bind; [apply y_check |]. cbv beta. intros _ En. apply says_or_peek.
  - eapply says_bind; [apply y_kind; discriminate |]. cbv beta. intros c Kc. eapply says_bind; [exact Hv |]. intros v Kv. eapply says_bind; [apply y_kind; discriminate |]. cbv beta. intros d Kd. apply says_ret. unfold feature_phrase. cbn [fopen fname fvalue fclose]. auto 8.
  - eapply says_bind; [apply y_kind; discriminate |]. cbv beta. intros d Kd. apply says_ret. unfold feature_phrase. cbn [fopen fname fvalue fclose]. auto 8.
Qed.
Lemma y_ranged : forall F V peek_name (name_p : P F) legacy (value_p : P V) (okn : text -> F -> Prop) (okv : text -> V -> Prop), says name_p (okn src) -> says value_p (okv src) -> says (ranged_feature_t peek_name name_p legacy value_p) (ranged_phrase okn legacy okv src).
Proof.
  intros F V peek_name name_p legacy value_p okn okv Hn Hv. unfold ranged_feature_t. eapply says_bind; [apply y_kind; discriminate |]. cbv beta. intros o Ko p H. destruct (peek_next p) as [c |]; [| apply sv_none]. revert p H.
  eapply says_bind; [apply says_if_peek; exact Hn |]. intros [name |] Kn.
  - apply says_or_peek.
    + eapply says_bind; [apply y_kind; discriminate |]. cbv beta. intros col Kc. eapply says_bind; [exact Hv |]. intros v Kv. eapply says_bind; [apply y_kind; discriminate |]. cbv beta. intros d Kd. apply says_ret. cbn [ranged_phrase]. auto 8.
    + destruct (legacy name) eqn:L; [apply says_fail_text |]. eapply says_bind; [exact y_comparison |]. intros cmp Kc. eapply says_bind; [exact Hv |]. intros v Kv. eapply says_bind; [apply y_kind; discriminate |]. cbv beta. intros d Kd. apply says_ret. cbn [ranged_phrase]. auto 8.
  - eapply says_bind; [exact Hv |]. intros v Kv. eapply says_bind; [exact y_comparison |]. intros cmp Kc p H. destruct (peek_next p) as [c2 |]; [| apply sv_none]. revert p H. eapply says_bind; [exact Hn |]. intros name Kn2. destruct (legacy name) eqn:L; [apply says_fail |]. apply says_or_peek.
    + eapply says_bind; [exact y_comparison |]. intros cmp2 Kc2. eapply says_bind; [exact Hv |]. intros v2 Kv2. eapply says_bind; [apply y_kind; discriminate |]. cbv beta. intros d Kd. apply says_ret. cbn [ranged_phrase]. auto 10.
    + eapply says_bind; [apply y_kind; discriminate |]. cbv beta. intros d Kd. apply says_ret. cbn [ranged_phrase]. auto 8.
Qed.
Lemma y_feature : forall k, says (parse_feature k) (feature_fits src k).
Proof.
  intros [name values | name | names legacy ty |]; cbn [parse_feature].
  - apply says_pmap. cbn [feature_fits]. apply (y_plain _ name _ (fun _ c => a_word src values c)). apply says_pmap. eapply says_imp; [apply y_set; discriminate |]. cbv beta. intros x K. exists (fst x). exact K.
  - apply says_pmap. cbn [feature_fits]. apply (y_plain _ name _ (fun _ _ => True)). exact (y_any src f all).
  - apply says_pmap. cbn [feature_fits]. apply (y_ranged _ _ _ _ _ _ (fun _ w => in_words names src w) (fun _ l => number_fits src ty l)); [| exact (y_number ty)]. eapply says_imp; [apply y_set; discriminate |]. cbv beta. intros x K. exact K.
  - intros p H. apply sv_err. exact H.
Qed.

(* ---- media ---- *)
Lemma y_hack : says parse_hack (fun cs => media_fits src (MfHack cs)).
Proof.
  unfold parse_hack. eapply says_bind; [apply y_kind; discriminate |]. cbv beta. intros o Ko. eapply says_bind; [apply y_kind; discriminate |]. cbv beta. intros n Kn. eapply says_bind; [apply y_check |]. cbv beta. intros _ En. eapply says_bind; [apply y_kind; discriminate |]. cbv beta. intros c Kc.
  eapply says_bind; [apply y_kind; discriminate |]. cbv beta. intros d Kd. apply says_bind with (Q1 := fun _ => str_slice d src = Some [48; 92; 48]).
  - intros p H. rewrite (here_src _ _ _ _ H). destruct (str_slice d src) as [w |] eqn:Ew; [| apply sv_none]. destruct (text_eqb w [48; 92; 48]) eqn:T; [| apply sv_err; exact H]. apply text_eqb_spec in T. subst w. apply sv_ok; [exact H | reflexivity].
  - intros _ Ed. eapply says_bind; [apply y_kind; discriminate |]. cbv beta. intros e Ke. apply says_ret. cbn [media_fits]. exists o, n, c, d, e. auto 10.
Qed.
Lemma media_row : forall w name k, In (w, (name, k)) MEDIA_FEATURES -> exists names, In (names, k) MEDIA_TABLE /\ name = chars (hd EmptyString names).
Proof.
  intros w name k I. unfold MEDIA_FEATURES in I. apply in_flat_map in I. destruct I as ([names k'] & I & J). apply in_map_iff in J. destruct J as (n & E & _). cbn [fst snd] in E. injection E as _ <- <-. exists names. auto.
Qed.
Lemma y_named_feature : forall w x, In (w, x) MEDIA_FEATURES -> says (named_feature x) (media_fits src).
Proof.
  intros w [name k] I. destruct (media_row w name k I) as (names & It & En). unfold named_feature. apply says_pmap. cbn [fst snd]. eapply says_imp; [exact (y_feature k) |]. intros y K. cbn [media_fits]. exists names, k. auto.
Qed.
Lemma y_match_media : forall c found Q, (forall w x, In (w, x) MEDIA_FEATURES -> says (found x) Q) -> says (match_media c found) Q.
Proof.
  intros c found Q X p H. unfold match_media, look_up. destruct (parse_str_lower c (lsrc (plex p))) as [w |]; [| apply sv_none]. destruct (map_get MEDIA_FEATURES w) as [x |] eqn:G; [| apply sv_err; exact H]. exact (X w x (map_get_in _ _ _ _ G) p H).
Qed.
Lemma y_media_feature : says parse_media_feature (media_fits src).
Proof.
  intros p H. unfold parse_media_feature. destruct (peek_n p 2) as [c |]; [| apply sv_none]. destruct (peek_n p 4) as [c4 |]; [| apply sv_none]. destruct (peek_n p 5) as [c5 |]; [| apply sv_none]. destruct (tok_is (ctok c) K_Ident).
  - refine (y_match_media c _ _ _ p H). intros w x I p1 H1. pose proof (y_named_feature w x I p1 H1) as X. destruct (named_feature x p1) as [[[y | e] q] |]; [| | apply sv_none]; destruct (X _ _ eq_refl) as (Hq & Y); [apply sv_ok; [exact Hq | exact (Y y eq_refl)] |].
    pose proof (y_hack _ (here_back _ _ _ _ _ H Hq)) as Z. destruct (parse_hack (rewind q (checkpoint p))) as [[[h | e2] q2] |]; [| | apply sv_none]; destruct (Z _ _ eq_refl) as (H2 & Y2); [apply sv_ok; [exact H2 | exact (Y2 h eq_refl)] | apply sv_err; exact H2].
  - cbv zeta. destruct (tok_is (ctok (if tok_is (ctok c4) K_Ident then c4 else c5)) K_Ident).
    + refine (y_match_media _ _ _ _ p H). exact y_named_feature.
    + revert p H. eapply says_bind; [apply y_any |]. intros; apply says_fail.
Qed.
Lemma looked : forall (l : list text) p c w, here p -> look_up (words l) p c = Some (Some w) -> parse_str_lower c src = Some w /\ In w l.
Proof.
  intros l p c w H E. unfold look_up in E. rewrite (here_src _ _ _ _ H) in E. destruct (parse_str_lower c src) as [v |]; [| discriminate E]. apply some_inj in E. apply map_get_in in E. unfold words in E. apply in_map_iff in E. destruct E as (x & E & I). injection E as -> ->. auto.
Qed.
Lemma map_get_none : forall V (m : list (text * V)) w v, map_get m w = None -> ~ In (w, v) m.
Proof.
  intros V m w v. induction m as [| (k, x) m IH]; cbn [map_get]; [intros _ [] |]. destruct (text_eqb k w) eqn:E; [discriminate |]. intros G [I | I]; [injection I as -> ->; rewrite (proj2 (text_eqb_spec w w) eq_refl) in E; discriminate E | exact (IH G I)].
Qed.
Lemma unlooked : forall (l : list text) p c, here p -> look_up (words l) p c = Some None -> exists w, parse_str_lower c src = Some w /\ ~ In w l.
Proof.
  intros l p c H E. unfold look_up in E. rewrite (here_src _ _ _ _ H) in E. destruct (parse_str_lower c src) as [v |]; [| discriminate E]. exists v. split; [reflexivity |]. apply some_inj in E. intro I. apply (map_get_none _ _ _ v E). unfold words. apply in_map_iff. exists v. auto.
Qed.
Lemma y_take_type : forall c, kind_of c = K_Ident -> says (take_media_type c) (media_type_fits src).
Proof.
  intros c Kc p H. unfold take_media_type. destruct (peek_media_type p c) as [[] |] eqn:Pk; [| apply says_fail_text; exact H | apply sv_none]. destruct (build_media_type p c) as [[o c'] |] eqn:B; [| apply sv_none]. apply sv_ok; [exact H |].
  unfold peek_media_type in Pk. destruct (tok_is (ctok c) K_Ident); [| discriminate Pk]. destruct (look_up (words NOT_MEDIA_TYPES) p c) as [[x |] |] eqn:L; [discriminate Pk | | discriminate Pk]. destruct (unlooked _ _ _ H L) as (w & Ew & Nw).
  unfold build_media_type in B. destruct (look_up (words MEDIA_TYPES) p c) as [o' |] eqn:L2; [| discriminate B]. cbn [option_map] in B. injection B as -> <-. split; [exact Kc |]. exists w. split; [exact Ew |]. split; [exact Nw |]. cbn [fst]. destruct o as [v |].
  - destruct (looked _ _ _ _ H L2) as (Ev & Iv). rewrite Ew in Ev. apply some_inj in Ev. subst v. auto.
  - destruct (unlooked _ _ _ H L2) as (v & Ev & Iv). rewrite Ew in Ev. apply some_inj in Ev. subst v. exact Iv.
Qed.
Lemma query_parts : forall pre ty and_ cond, (pre <> None \/ ty <> None) -> query_fits src (MediaQuery pre ty and_ cond) <->
  (pre <> None \/ ty <> None) /\ match pre with Some w => in_words PRECONDITIONS src w | None => True end /\ match ty with Some t => media_type_fits src t | None => True end /\
      match and_, cond with
      | None, None => True
      | Some a, Some x => kind_of a = K_Ident /\ eq_ignore_ascii_case a src (chars "and") = Some true /\ condition_fits src (media_fits src) x
      | _, _ => False
      end.
Proof. intros pre ty and_ cond H. destruct pre, ty; try reflexivity. exfalso. tauto. Qed.
Lemma y_query_rest : forall pre ty, (pre <> None \/ ty <> None) -> match pre with Some w => in_words PRECONDITIONS src w | None => True end -> match ty with Some t => media_type_fits src t | None => True end -> says (query_rest pre ty) (query_fits src).
Proof.
  intros pre ty Ne Kp Kt p H. unfold query_rest. destruct (peek_n p 1) as [c |] eqn:P1; [| apply sv_none]. rewrite (here_src _ _ _ _ H).
  destruct (if tok_is (ctok c) K_Ident then eq_ignore_ascii_case c src (chars "and") else Some false) as [[] |] eqn:E; [| | apply sv_none].
  - rewrite (first_peek src f all p H) in P1. apply sv_sq. eapply sq_bind; [apply q_kind; [discriminate | exact H] |]. cbv beta. intros a q Hq (Ka & (_ & Pn & _) & _). rewrite P1 in Pn. apply some_inj in Pn. subst a.
    apply sq_pmap. pose proof (y_condition src f all _ _ y_media_feature q Hq) as X. intros r q2 E2. destruct (X r q2 E2) as (H2 & Y). split; [exact H2 |]. intros x Ex. apply query_parts; [exact Ne |]. split; [exact Ne |]. split; [exact Kp |]. split; [exact Kt |]. split; [exact Ka |]. split; [| exact (Y x Ex)].
    destruct (tok_is (ctok c) K_Ident); [exact E | discriminate E].
  - apply sv_ok; [exact H |]. apply query_parts; auto.
Qed.
Lemma y_media_query : says parse_media_query (query_fits src).
Proof.
  unfold parse_media_query. apply says_or_peek; [apply says_pmap; cbn [query_fits]; exact (y_condition src f all _ _ y_media_feature) |]. eapply says_bind; [apply y_kind; discriminate |]. cbv beta. intros c Kc p H. destruct (peek_set K_Ident (words PRECONDITIONS) p c) as [[] |]; [| | apply sv_none].
  - destruct (build_set (words PRECONDITIONS) p c) as [w |] eqn:B; [| apply sv_none]. destruct (look_word _ _ _ _ _ _ _ _ H B) as (Ec & v & Ev & Iv).
    assert (W : in_words PRECONDITIONS src w) by (unfold in_words, is_word; rewrite Ec; split; [exact Kc | eauto]).
    revert p H B. intros p H _. revert p H. apply says_or_peek.
    + eapply says_bind; [apply y_kind; discriminate |]. cbv beta. intros c2 K2. eapply says_bind; [exact (y_take_type c2 K2) |]. intros t Kt. apply y_query_rest; [left; discriminate | exact W | exact Kt].
    + apply y_query_rest; [left; discriminate | exact W | exact Logic.I].
  - revert p H. eapply says_bind; [exact (y_take_type c Kc) |]. intros t Kt p H. destruct (peek (peek_kind K_Ident) p); [| apply sv_none]. revert p H. apply y_query_rest; [right; discriminate | exact Logic.I | exact Kt].
Qed.
Lemma y_media_queries : says parse_media_queries (fun l => Forall (query_fits src) l /\ l <> []).
Proof. exact (y_prelude_list src f all _ _ y_media_query _). Qed.

(* ---- containers ---- *)
Lemma y_container_feature : says parse_container_feature (fun z => exists k, In (fst z, (fst z, k)) CONTAINER_FEATURES /\ feature_fits src k (snd z)).
Proof.
  unfold parse_container_feature. apply says_or_peek; [apply says_none |]. intros p H. destruct (peek_n p 2) as [c2 |]; [| apply sv_none]. destruct (peek_n p 3) as [c3 |]; [| apply sv_none]. destruct (peek_n p 4) as [c4 |]; [| apply sv_none]. cbv zeta.
  set (c := if tok_is (ctok c2) K_Ident then c2 else if tok_is (ctok c3) K_Ident then c3 else c4). destruct (peek_set K_Ident CONTAINER_FEATURES p c) as [[] |]; [| apply says_fail_text; exact H | apply sv_none].
  destruct (build_set CONTAINER_FEATURES p c) as [[[name k] c'] |] eqn:B; [| apply sv_none]. destruct (look_word _ _ _ _ _ _ _ _ H B) as (_ & w & _ & I). cbn [fst] in I. apply sv_pmap. eapply sv_imp; [exact (y_feature k p H) |]. intros x K. cbn [fst snd]. exists k. split; [| exact K].
  unfold CONTAINER_FEATURES in I. apply in_map_iff in I. destruct I as ([n k'] & E & I). cbn [fst snd] in E. injection E as _ <- <-. unfold CONTAINER_FEATURES. apply in_map_iff. exists (n, k'). split; [reflexivity | exact I].
Qed.
Lemma y_container_condition : says parse_container_condition (container_fits src).
Proof.
  intros p H. unfold parse_container_condition. destruct (peek_n p 1) as [c |] eqn:P1; [| apply sv_none]. cbv zeta. pose proof (y_condition src f all _ _ y_container_feature) as Yc.
  assert (U : says (pmap (fun x => ContainerCondition None (Some x)) (condition_t parse_container_feature)) (container_fits src)).
  { apply says_pmap. eapply says_imp; [exact Yc |]. intros x K. split; [discriminate | exact K]. }
  destruct (tok_is (ctok c) K_Ident); [| exact (U p H)]. destruct (look_up (words NOT_CONTAINER_NAMES) p c) as [[x |] |] eqn:L; [exact (U p H) | | apply sv_none]. destruct (unlooked _ _ _ H L) as (w & Ew & Nw).
  rewrite (first_peek src f all p H) in P1. apply sv_sq. eapply sq_bind; [apply q_kind; [discriminate | exact H] |]. cbv beta. intros a q Hq (Ka & (_ & Pn & _) & _). rewrite P1 in Pn. apply some_inj in Pn. subst a. apply sq_pmap.
  intros r q2 E2. destruct (says_if_peek src f all _ _ _ _ Yc q Hq r q2 E2) as (H2 & Y). split; [exact H2 |]. intros o Eo. specialize (Y o Eo). split; cbn [cc_name cc_condition]; [eauto | exact Y].
Qed.
Lemma y_container_conditions : says parse_container_conditions (fun l => Forall (container_fits src) l /\ l <> []).
Proof. exact (y_prelude_list src f all _ _ y_container_condition _). Qed.

(* ---- supports ---- *)
Lemma supports_word_in : forall w, In (w, SwSelector) SUPPORTS_FUNCTIONS -> w = chars "selector".
Proof. intros w I. unfold SUPPORTS_FUNCTIONS in I. cbn [In] in I. destruct I as [E | [E | [E | []]]]; [discriminate E | discriminate E |]. assert (chars "selector" = w) by exact (f_equal fst E). auto. Qed.
Lemma y_supports_feature : says (parse_supports_feature VALUES) (supports_fits src all).
Proof.
  unfold parse_supports_feature. eapply says_bind; [apply y_if_kind; discriminate |]. intros open Ko. apply says_or_peek.
  - eapply says_bind; [apply y_set; discriminate |]. intros [w fn] (Kf & v & Ev & Iv). cbn [fst snd] in *. destruct w; [apply says_none | apply says_none |]. apply supports_word_in in Iv. subst v.
    eapply says_bind; [apply y_selectors |]. intros l Kl. eapply says_bind; [apply y_kind; discriminate |]. cbv beta. intros c Kc. apply says_pmap. destruct open as [o |].
    + apply says_pmap. eapply says_imp; [apply y_kind; discriminate |]. cbv beta. intros c2 Kc2. cbn [supports_fits]. unfold opt_kind in Ko. auto 8.
    + apply says_ret. cbn [supports_fits]. auto 8.
  - destruct open as [o |].
    + eapply says_bind; [exact y_property |]. intros d Kd. apply says_pmap. eapply says_imp; [apply y_if_kind; discriminate |]. intros c Kc. cbn [supports_fits]. auto.
    + intros p H. destruct (peek_n p 1); [apply sv_err; exact H | apply sv_none].
Qed.
Lemma y_supports_condition : says (parse_supports_condition VALUES) (condition_fits src (supports_fits src all)).
Proof.
  unfold parse_supports_condition. apply says_or_peek; [apply says_pmap; exact y_supports_feature | exact (y_condition src f all _ _ y_supports_feature)].
Qed.

(* ---- pages, layers, keyframes, documents ---- *)
Lemma q_bare_set : forall V (m : list (text * V)) p b, here p -> past b p -> sq (fun x q => is_word K_Ident m src (fst x) (snd x) /\ adjacent b (snd x)) (unskipped (parse_set K_Ident m) p).
Proof.
  intros V m p b H Pb r q E. unfold unskipped in E. pose proof (here_skip _ _ _ _ _ none_trivia H) as H0. pose proof (q_set src f all V K_Ident m (set_skip p KS_NONE) ltac:(discriminate) H0) as X. destruct (parse_set K_Ident m (set_skip p KS_NONE)) as [[r1 q1] |]; [| discriminate E]. injection E as <- <-.
  destruct (X _ _ eq_refl) as (H1 & Y). split; [exact (here_skip _ _ _ _ _ (here_own _ _ _ _ H) H1) |]. intros c Ec. destruct (Y c Ec) as (K & (R1 & _ & R2)). split; [exact K | exact (R2 eq_refl b Pb)].
Qed.
Lemma y_page_pseudo : says parse_page_pseudo (page_pseudo_fits src).
Proof.
  intros p H. unfold parse_page_pseudo. apply sv_sq. eapply sq_bind; [apply q_kind; [discriminate | exact H] |]. cbv beta. intros c q Hq (Kc & (Pc & _) & _). apply sq_pmap. eapply sq_imp; [exact (q_bare_set _ _ q c Hq Pc) |]. cbv beta. intros [v x] _ (K & Ad). split; [exact Kc |]. split; [exact K | exact Ad].
Qed.
Lemma y_page_selector : says parse_page_selector (page_fits src).
Proof.
  unfold parse_page_selector. eapply says_bind; [apply y_if_kind; discriminate |]. intros ty Kt. apply says_pmap. intros p H. eapply sv_imp; [| intros l F; split; [exact Kt | exact F]]. generalize (sfuel p) as n. intro n. revert p H. change (says (page_pseudo_loop n) (Forall (page_pseudo_fits src))). induction n as [| n IH]; cbn [page_pseudo_loop]; [apply says_none |].
  apply says_or_peek; [| apply says_ret; constructor]. eapply says_bind; [exact y_page_pseudo |]. intros x Kx. apply says_pmap. eapply says_imp; [exact IH |]. intros l F. constructor; assumption.
Qed.
Lemma y_page_selectors : says parse_page_selectors (fun l => listed (page_fits src) l /\ l <> []).
Proof. exact (y_comma_list src f all _ _ y_page_selector _). Qed.
Lemma y_layer_name : says parse_layer_name layer_fits.
Proof.
  unfold parse_layer_name. eapply says_bind; [apply y_kind; discriminate |]. cbv beta. intros c Kc. apply says_pmap. intros p H. eapply sv_imp; [| intros l F; split; [exact Kc | exact F]]. generalize (sfuel p) as n. intro n. revert p H.
  change (says (layer_loop n) (Forall (fun y => is_delim 46 (fst y) /\ kind_of (snd y) = K_Ident))). induction n as [| n IH]; cbn [layer_loop]; [apply says_none |].
  apply says_or_peek; [| apply says_ret; constructor]. eapply says_bind; [apply y_delim |]. intros d Kd. eapply says_bind; [apply y_kind; discriminate |]. cbv beta. intros i Ki. apply says_pmap. eapply says_imp; [exact IH |]. intros l F. constructor; [auto | exact F].
Qed.
Lemma y_layer_names : says parse_layer_names (fun l => listed layer_fits l /\ l <> []).
Proof. exact (y_comma_list src f all _ _ y_layer_name _). Qed.
Lemma y_keyframes_name : says parse_keyframes_name (keyframes_name_fits src).
Proof.
  unfold parse_keyframes_name. apply says_or_peek; [eapply says_imp; [apply y_kind; discriminate |]; intros c K; left; exact K |]. eapply says_bind; [apply y_kind; discriminate |]. cbv beta. intros c Kc p H. rewrite (here_src _ _ _ _ H). destruct (parse_str c src) as [w |] eqn:Ew; [| apply sv_none].
  destruct (existsb (text_eqb w) RESERVED_KEYFRAMES) eqn:X; [apply sv_err; exact H |]. apply sv_ok; [exact H |]. right. split; [exact Kc |]. exists w. split; [exact Ew | exact (none_of _ _ X)].
Qed.
Lemma keyframe_word_in : forall w k, In (w, k) KEYFRAME_WORDS -> match k with KwFrom => w = chars "from" | KwTo => w = chars "to" end.
Proof. intros w k I. unfold KEYFRAME_WORDS in I. cbn [In] in I. destruct I as [E | [E | []]]; assert (A := f_equal fst E); assert (B := f_equal snd E); cbn [fst snd] in A, B; subst; reflexivity. Qed.
Lemma y_keyframe_selector : says parse_keyframe_selector (keyframe_selector_fits src).
Proof.
  unfold parse_keyframe_selector. eapply says_bind; [apply says_if_peek, y_set; discriminate |]. cbv beta. intros [[k c] |] K.
  - destruct K as (Kc & w & Ew & Iw). cbn [fst snd] in *. apply keyframe_word_in in Iw. destruct k; subst w; apply says_ret; cbn [keyframe_selector_fits]; auto.
  - eapply says_bind; [apply y_single; apply solid_dimension |]. cbv beta. intros c (Kc & p & Pk & Hs). destruct (f32_upto_100 (tvalue (ctok c))) eqn:U; [| apply says_fail]. apply says_ret. cbn [keyframe_selector_fits]. unfold peek_percent, peek_dimension in Pk. destruct (tok_is (ctok c) K_Dimension) eqn:T; [| discriminate Pk]. split; [exact (kind_is c _ Kc T) |]. split.
    + destruct (unit_eqb (dimension_unit (ctok c)) U_Percent) eqn:Un; [left; apply DimProofs.unit_eqb_eq; exact Un |]. rewrite Hs in Pk. right. exact Pk.
    + unfold f32_upto_100, f32_is_zero in U. apply orb_prop in U. destruct U as [U | U]; [apply orb_prop in U; destruct U as [U | U]; apply N.eqb_eq in U | apply N.leb_le in U]; lia.
Qed.
Lemma y_keyframe : says (parse_keyframe VALUES) (keyframe_fits src all).
Proof.
  unfold parse_keyframe. apply says_pmap. eapply says_imp.
  - apply (y_qualified_rule src f all _ _ _ _ _ _ (fun l => listed (keyframe_selector_fits src) l /\ l <> []) (fun x => block_of_declarations src all x) (fun _ => True)).
    + exact (y_comma_list src f all _ _ y_keyframe_selector _).
    + eapply says_imp; [exact (y_declaration_list src f all _ _ y_property) |]. intros [[o l] c] K. exact K.
    + eapply says_of; [exact (w_bad src f) |]. intros; exact Logic.I.
  - intros [l b] ((F & N) & B). split; [exact F |]. split; [exact N | exact B].
Qed.
Lemma document_word_in : forall w k, In (w, k) DOCUMENT_FUNCTIONS -> match k with DwUrl => w = chars "url" | _ => exists name, In name ["url-prefix"; "domain"; "media-document"; "regexp"]%string /\ w = chars name end.
Proof.
  intros w k I. unfold DOCUMENT_FUNCTIONS in I. cbn [In] in I. destruct I as [E | [E | [E | [E | [E | []]]]]]; assert (A := f_equal fst E); assert (B := f_equal snd E); cbn [fst snd] in A, B; subst; [reflexivity | | | |]; eexists; (split; [| reflexivity]); cbn [In]; auto.
Qed.
Lemma y_document_matcher : says parse_document_matcher (document_fits src).
Proof.
  unfold parse_document_matcher. apply says_or_peek; [apply says_pmap; eapply says_imp; [apply y_kind; discriminate |]; intros c K; exact K |]. eapply says_bind; [apply y_set; discriminate |]. intros [k fn] (Kf & w & Ew & Iw). cbn [fst snd] in *. eapply says_bind; [apply y_kind; discriminate |]. cbv beta. intros s Ks. eapply says_bind; [apply y_kind; discriminate |]. cbv beta. intros c Kc. apply says_ret.
  apply document_word_in in Iw. destruct k; cbn [document_fits]; [subst w; unfold url_call; auto | | | |]; destruct Iw as (name & In_ & ->); exists name; unfold url_call; auto.
Qed.
Lemma y_document_matchers : says parse_document_matchers (fun l => listed (document_fits src) l /\ l <> []).
Proof. exact (y_comma_list src f all _ _ y_document_matcher _). Qed.
End Preludes.
