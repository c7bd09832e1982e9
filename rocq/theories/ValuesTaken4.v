(* Values without functions that are values of a definition are accepted: alternatives, and the names of definitions. *)
From Coq Require Import ZifyBool ZifyNat ZifyN Permutation.
From Coq Require Import String.
From Coq Require Import List.
From Verif Require DimProofs.
From Verif Require Import AstSheet Values SpecSheet SpecLex SpecTrace SpecParser SpecSyntax SpecTraits SpecRules SpecFeatures SpecCursor SpecToken LexBase TokenProofs KindProofs LexFacts LexTrace CursorProofs CursorLex
  ParserProofs ParserProofs2 ParserProofs3 ParserProofs4 CompareProofs SyntaxProofs SyntaxTotal TraitsTotal RulesTotal FeatureProofs FaithProofs FaithTraits FaithRules Goes Goes2 Goes3 SheetTotal ValuesTotal Tells ValuesTold SpecSelectors SpecSelectorText SelectorProofs3 SelectorProofs9 SelectorGoes SpecConforms ValuesConform ValuesConform2 ValuesConform3 ValuesTaken ValuesTaken2 ValuesTaken3.
Open Scope N_scope.
Open Scope list_scope.
Notation length := List.length.

(* the types that are functions only *)
Definition FONLY : list text := map chars ["CalcSize"; "DynamicRangeLimitMix"; "SnapBlock"; "SnapInline"]%string.
Definition fo (w : text) : bool := existsb (text_eqb w) FONLY.
Definition fo_type (t : dtype) : bool := match t with DImage1D => true | DCustom w => fo w | _ => false end.
Definition fo_def (d : def) : bool := match d with DType t => fo_type t | DFunction _ _ => true | _ => false end.
Definition sg_type (sg : text -> bool) (t : dtype) : bool := match t with DCustom w => sg w | DImage1D => false | _ => true end.
Definition item_ok (sg : text -> bool) (d : def) : bool :=
  match d with DIdent w => text_eqb (kebab w) w && text_eqb (lower_text w) w | DType DDashedIdent => false | DType t => sg_type sg t || fo_type t | DFunction _ _ => true | _ => false end.
Definition others_of (l : list def) : list def := filter (fun d => negb (is_keyword d)) l.
Definition alt_ok (sg : text -> bool) (l : list def) : bool :=
  forallb (item_ok sg) l && (negb (takes_custom l) || match others_of l with [] => true | _ => false end) && (length (filter (fun d => negb (fo_def d)) (others_of l)) <=? 1)%nat.
Definition sg_def (sg : text -> bool) (d : def) : bool := match d with DType t => sg_type sg t | DComb l SAlternatives => alt_ok sg l | _ => false end.

Lemma all_some_map : forall A B (h : A -> option B) l r x, all_some (map h l) = Some r -> In x l -> exists y, h x = Some y /\ In y r.
Proof.
  intros A B h l. induction l as [| a l IH]; intros r x E I; [destruct I |]. cbn [map] in E. destruct (all_some_cons _ _ _ _ E) as (y & r' & E1 & E2 & ->). destruct I as [-> | I]; [exists y; split; [exact E1 | left; reflexivity] |]. destruct (IH r' x E2 I) as (z & Ez & Iz). exists z. split; [exact Ez | right; exact Iz].
Qed.
Lemma all_some_back : forall A B (h : A -> option B) l r y, all_some (map h l) = Some r -> In y r -> exists x, h x = Some y /\ In x l.
Proof. intros A B h l r y E I. pose proof (all_some_in _ _ _ E y I) as X. apply in_map_iff in X. destruct X as (x & Ex & Ix). eauto. Qed.

Section Alternatives.
Variable src : text.
Context {mod_ : mode}.
Variable f : feature.
Notation stands := (stands src f).
Notation seen := (seen src).
Notation whole := (whole src f).
Notation good := (good src f).
Notation conforms := (conforms src true).
Notation here := (here src f).
Notation hits := (hits src f).
Notation quiet := (quiet src f).
Notation eats := (eats src f).
Notation plainly := (plainly src).
Notation single := (single src f).
Notation fonly := (fonly src).
Notation tok := (tok src).

Variable env : text -> option ty.
Variable sg : text -> bool.
Hypothesis env_single : forall w x, env w = Some x -> sg w = true -> single (DType (DCustom w)) (ty_peek x) (ty_parse x).
Hypothesis env_fonly : forall w x, env w = Some x -> fo w = true -> fonly (DType (DCustom w)) (ty_peek x).
Hypothesis env_whole : forall w x, env w = Some x -> whole (ty_peek x).

Lemma leaf_whole : forall t, whole (ty_peek (leaf_ty t)).
Proof. intro t. exact (proj1 (leaf_good src f t)). Qed.
Lemma named_whole : forall t x, type_named leaf_ty env t = Some x -> whole (ty_peek x).
Proof. intros t x E. destruct t; cbn [type_named] in E; try (apply some_inj in E; subst x; apply leaf_whole). exact (env_whole _ _ E). Qed.
Lemma named_single : forall t x, type_named leaf_ty env t = Some x -> sg_type sg t = true -> single (DType t) (ty_peek x) (ty_parse x).
Proof.
  intros t x E G. destruct t; cbn [type_named] in E; try (apply some_inj in E; subst x); try (apply single_leaf; reflexivity); cbn [sg_type] in G.
  - exact (single_color src f).
  - exact (single_image src f).
  - discriminate.
  - exact (env_single _ _ E G).
Qed.
Lemma eats_none : forall T m, eats T m -> eats T (bind m (range_check RgNone)).
Proof. intros T m H p g c rest Hh G L Pc Tc. destruct (H p g c rest Hh G L Pc Tc) as (q & E & Hq). exists q. split; [| exact Hq]. unfold bind. rewrite E. reflexivity. Qed.
Lemma steps_single : forall t m, type_steps leaf_ty env t = Some m -> sg_type sg t = true -> exists x, type_named leaf_ty env t = Some x /\ single (DType t) (ty_peek x) m.
Proof.
  intros t m E G. unfold type_steps in E. destruct (range_compiles (type_checks t)) eqn:Rc; [| discriminate]. destruct (type_named leaf_ty env t) as [x |] eqn:Ex; [| discriminate]. cbn [option_map] in E. apply some_inj in E. subst m. exists x. split; [reflexivity |].
  destruct (leaf_token t) eqn:Lt.
  - assert (x = leaf_ty t) by (destruct t; cbn [type_named] in Ex; try discriminate Lt; apply some_inj in Ex; auto). subst x. exact (single_leaf_steps src f t Lt Rc).
  - assert (type_checks t = RgNone) by (destruct t; try discriminate Lt; reflexivity). rewrite H. destruct (named_single t x Ex G) as (S1 & S2 & S3 & S4). split; [exact S1 |]. split; [exact (eats_none _ _ S2) | auto].
Qed.
Lemma image1d_fonly : fonly (DType DImage1D) (ty_peek IMAGE_1D).
Proof.
  split.
  - apply (fonly_named src DImage1D (chars "stripes") (DMult (seq [maybe color; maybe (alt [length_percentage; ty_ "FlexToken"]); maybe color; maybe comma]) MuStar)); [| intros c []]. exists (chars "Image1D"). split; [reflexivity | vm_compute; reflexivity].
  - intros p c T. cbn [ty_peek IMAGE_1D]. unfold peek_named. rewrite T. reflexivity.
Qed.
Lemma def_fonly : forall d k, fo_def d = true -> def_peek leaf_ty env d = Some k -> fonly d k.
Proof.
  intros d k F E. destruct d; try discriminate; cbn [def_peek] in E.
  - apply some_inj in E. subst k. split; [intros cs C Fr; exact (head_function src _ _ (inv_fn src _ _ _ C) Fr C) |]. intros p c T. unfold peek_kind. rewrite T. reflexivity.
  - destruct (type_named leaf_ty env t) as [x |] eqn:Ex; [| discriminate]. cbn [option_map] in E. apply some_inj in E. subst k. destruct t; try discriminate F; cbn [type_named] in Ex; [apply some_inj in Ex; subst x; exact image1d_fonly |]. exact (env_fonly _ _ Ex F).
Qed.
Lemma peek_whole : forall d k, def_peek leaf_ty env d = Some k -> whole k.
Proof.
  intros d k E. assert (X : forall t, option_map ty_peek (type_named leaf_ty env t) = Some k -> whole k) by (intros t Et; destruct (type_named leaf_ty env t) as [x |] eqn:Ex; [| discriminate]; apply some_inj in Et; subst k; exact (named_whole t x Ex)).
  destruct d as [w | w d | t | d | l s | d s | d m | c]; cbn [def_peek] in E; try discriminate; try (apply some_inj in E; subst k; apply whole_kind).
  - exact (X t E).
  - destruct d; try discriminate. exact (X _ E).
  - destruct d; try discriminate. exact (X _ E).
Qed.
Lemma peek_type : forall t k, sg_type sg t = true -> def_peek leaf_ty env (DType t) = Some k -> exists x, type_named leaf_ty env t = Some x /\ k = ty_peek x /\ single (DType t) k (ty_parse x).
Proof. intros t k G E. cbn [def_peek] in E. destruct (type_named leaf_ty env t) as [x |] eqn:Ex; [| discriminate]. apply some_inj in E. subst k. exists x. split; [reflexivity |]. split; [reflexivity | exact (named_single t x Ex G)]. Qed.
Lemma item_cases : forall d, item_ok sg d = true -> (exists w, d = DIdent w /\ kebab w = w /\ lower_text w = w) \/ fo_def d = true \/ exists t, d = DType t /\ sg_type sg t = true /\ t <> DDashedIdent.
Proof.
  intros d E. destruct d; try discriminate; cbn [item_ok] in E.
  - left. apply andb_prop in E. destruct E as (E1 & E2). exists w. split; [reflexivity |]. split; apply text_eqb_spec; assumption.
  - right. left. reflexivity.
  - right. destruct (fo_type t) eqn:F; [left; exact F |]. right. exists t. split; [reflexivity |]. rewrite orb_false_r in E. destruct t; split; try exact E; try discriminate.
Qed.
Lemma not_function : forall c, lasts c -> kind_of c <> K_Function -> tok_is (ctok c) K_Function = false.
Proof. intros c (L & _) N. apply tok_not; assumption. Qed.
Lemma tok_fonly : forall d k c, fonly d k -> tok d c -> False.
Proof. intros d k c (F & _) (C & K). apply (F _ C). apply Forall_cons; [exact K | apply Forall_nil]. Qed.
Lemma free_of : forall c, kind_of c <> K_Function -> free [c].
Proof. intros c K. apply Forall_cons; [exact K | apply Forall_nil]. Qed.

Lemma eats_one_of : forall ds ks ms, all_some (map (def_peek leaf_ty env) ds) = Some ks -> all_some (map (alternative_steps leaf_ty env) ds) = Some ms -> Forall (fun d => fo_def d = true \/ exists t, d = DType t /\ sg_type sg t = true) ds ->
  (length (filter (fun d => negb (fo_def d)) ds) <= 1)%nat -> eats (fun c => exists d, In d ds /\ tok d c) (one_of (List.combine ks ms)).
Proof.
  induction ds as [| d ds IH]; intros ks ms Ek Em F Ln p g c rest Hh G L Pc (d0 & I & T); [destruct I |]. cbn [map] in Ek, Em. apply all_some_cons in Ek. apply all_some_cons in Em. destruct Ek as (k & ks' & Ek1 & Ek2 & ->). destruct Em as (m & ms' & Em1 & Em2 & ->).
  inversion F as [| ? ? F1 F2]; subst. cbn [List.combine one_of]. unfold or_peek. destruct (fo_def d) eqn:Fd.
  - pose proof (def_fonly d k Fd Ek1) as Fo. destruct I as [<- | I]; [elim (tok_fonly _ _ _ Fo T) |]. rewrite (here_peek src f k p g c rest false Hh G L); [| intros; apply Fo, not_function; [exact L | apply T]]. cbn [filter] in Ln. rewrite Fd in Ln. cbn [negb] in Ln. exact (IH ks' ms' Ek2 Em2 F2 Ln p g c rest Hh G L Pc (ex_intro _ d0 (conj I T))).
  - destruct F1 as [F1 | (t & -> & Gt)]; [congruence |]. assert (d0 = DType t).
    { destruct I as [-> | I]; [reflexivity |]. exfalso. cbn [filter] in Ln. rewrite Fd in Ln. cbn [negb length] in Ln. destruct (fo_def d0) eqn:F0.
      - destruct (all_some_map _ _ _ _ _ _ Ek2 I) as (k0 & E0 & _). exact (tok_fonly _ _ _ (def_fonly d0 k0 F0 E0) T).
      - assert (X : In d0 (filter (fun d => negb (fo_def d)) ds)) by (apply filter_In; rewrite F0; auto). destruct (filter _ ds); [destruct X | cbn [length] in Ln; lia]. }
    subst d0. destruct (peek_type t k Gt Ek1) as (x & Ex & -> & Sx). destruct (steps_single t m Em1 Gt) as (x' & Ex' & Sm). rewrite Ex in Ex'. apply some_inj in Ex'. subst x'.
    rewrite (here_peek src f (ty_peek x) p g c rest true Hh G L); [| intros cs Sp Sc; apply (proj1 (proj2 (proj2 Sx)) p cs c Sp Sc L Pc T)]. exact (proj1 (proj2 Sm) p g c rest Hh G L Pc T).
Qed.
Lemma keyword_branch : forall ws (rest : P (list cursor)) (T : cursor -> Prop), Forall (fun w => lower_text w = w) ws -> eats (fun c => T c /\ ~ exists w, In w ws /\ word_of src K_Ident w c) rest ->
  eats T (bind (parse_if_peek (peek_set K_Ident (words ws)) (parse_set K_Ident (words ws))) (fun o => match o with Some w => ret [snd w] | None => rest end)).
Proof.
  intros ws rest T Fl H p g c r Hh G L Pc Tc. destruct (here_next src f p g c r Hh G L) as (q & N & Pn & Hq & Sc). pose proof (proj1 Hh) as S.
  assert (Pk : exists b, peek_set K_Ident (words ws) p c = Some b) by (pose proof (proj1 (solo_words src f ws) p _ c S Sc) as X; unfold peek_words in X; destruct (peek_set K_Ident (words ws) p c) as [b |]; [eauto | contradiction]). destruct Pk as (b & Eb).
  unfold bind. unfold parse_if_peek, peek at 1. rewrite Pn, Eb. destruct b.
  - destruct (peeked_word src f ws p _ c S L Eb) as (w & I & W). rewrite Forall_forall in Fl. destruct (word_lower src K_Ident w c Pc (Fl w I) W) as (K & E). exists q. split; [| exact Hq].
    unfold pmap at 1, bind, parse_set, peek. rewrite Pn, Eb, N. unfold build_set, look_up. destruct Hq as ((S1 & _) & _). rewrite S1, E. pose proof (words_get ws w) as Gw. destruct (map_get (words ws) w); [reflexivity | contradiction].
  - apply (H p g c r Hh G L Pc). split; [exact Tc |]. intro X. rewrite (hits_words src f K_Ident ws Fl p _ c S Sc L Pc X) in Eb. discriminate.
Qed.
Lemma single_alternatives : forall l ks m, alt_ok sg l = true -> all_some (map (def_peek leaf_ty env) l) = Some ks -> alternatives leaf_ty env l = Some m -> single (DComb l SAlternatives) (any_peek ks) m.
Proof.
  intros l ks m O Ek Em. unfold alt_ok in O. apply andb_prop in O. destruct O as (O & O3). apply andb_prop in O. destruct O as (O1 & O2). rewrite forallb_forall in O1. apply Nat.leb_le in O3.
  assert (One : forall cs, conforms (DComb l SAlternatives) cs -> free cs -> exists c, cs = [c]).
  { intros cs C F. destruct (inv_alt src _ _ C) as (d & I & Cd). destruct (all_some_map _ _ _ _ _ _ Ek I) as (k & Ekd & _). destruct (item_cases d (O1 d I)) as [(w & -> & _) | [Fo | (t & -> & Gt & _)]].
    - destruct (inv_word src _ _ Cd) as (c & -> & _). eauto.
    - elim (proj1 (def_fonly d k Fo Ekd) cs Cd F).
    - destruct (peek_type t k Gt Ekd) as (x & _ & _ & Sx). exact (proj1 Sx cs Cd F). }
  assert (Tk : forall c, tok (DComb l SAlternatives) c -> exists d, In d l /\ tok d c /\ ((exists w, d = DIdent w /\ kebab w = w /\ lower_text w = w) \/ exists t, d = DType t /\ sg_type sg t = true /\ t <> DDashedIdent /\ fo_def d = false)).
  { intros c (C & K). destruct (inv_alt src _ _ C) as (d & I & Cd). exists d. split; [exact I |]. split; [split; assumption |]. destruct (all_some_map _ _ _ _ _ _ Ek I) as (k & Ekd & _). destruct (fo_def d) eqn:Fo; [elim (proj1 (def_fonly d k Fo Ekd) _ Cd (free_of c K)) |]. destruct (item_cases d (O1 d I)) as [X | [X | (t & Et & Gt & Nd)]]; [left; exact X | congruence | right; exists t; auto]. }
  split; [exact One |]. split; [| split].
  - assert (Hr : forall c, tok (DComb l SAlternatives) c -> ~ (exists w, In w (keywords_of l) /\ word_of src K_Ident w c) -> exists d, In d l /\ tok d c /\ exists t, d = DType t /\ sg_type sg t = true /\ t <> DDashedIdent /\ fo_def d = false).
    { intros c T N. destruct (Tk c T) as (d & I & Td & [(w & -> & Kw & Lw) | X]); [| exists d; auto]. exfalso. apply N. exists w. split; [unfold keywords_of; apply in_flat_map; exists (DIdent w); split; [exact I | left; exact Kw] |]. destruct Td as (C & _). destruct (inv_word src _ _ C) as (c' & E & W). injection E as <-. exact W. }
    assert (Lw : Forall (fun w => lower_text w = w) (keywords_of l)).
    { apply Forall_forall. intros w I. unfold keywords_of in I. apply in_flat_map in I. destruct I as (d & I & Iw). destruct d as [w0 | | | | | | |]; try solve [destruct Iw]. destruct (item_cases _ (O1 _ I)) as [(w1 & E & Kw & Lw) | [X | (t & E & _)]]; [| discriminate | discriminate]. injection E as ->. destruct Iw as [<- | []]. rewrite Kw. exact Lw. }
    unfold alternatives in Em. fold (others_of l) in Em. destruct (all_some (map (def_peek leaf_ty env) (others_of l))) as [pks |] eqn:Ep; [| discriminate]. destruct (all_some (map (alternative_steps leaf_ty env) (others_of l))) as [sts |] eqn:Es; [| discriminate].
    cbv zeta in Em. set (rest := if takes_custom l then one (peek_kind K_Ident) else match sts with [] => unexpected_ident | [m] => m | _ => one_of (List.combine pks sts) end) in Em.
    assert (Fo : Forall (fun d => fo_def d = true \/ exists t, d = DType t /\ sg_type sg t = true) (others_of l)).
    { apply Forall_forall. intros d I. unfold others_of in I. apply filter_In in I. destruct I as (I & Nk). destruct (item_cases d (O1 d I)) as [(w & -> & _) | [X | (t & -> & Gt & _)]]; [discriminate Nk | left; exact X | right; eauto]. }
    assert (Er : eats (fun c => tok (DComb l SAlternatives) c /\ ~ exists w, In w (keywords_of l) /\ word_of src K_Ident w c) rest).
    { unfold rest. destruct (takes_custom l) eqn:Tc.
      - cbn [negb orb] in O2. destruct (others_of l) as [| d0 os] eqn:Eo; [| discriminate]. eapply eats_imp; [apply eats_one, (hits_kind src f K_Ident) |]. intros c (T & N). cbv beta. destruct (Hr c T N) as (d & I & (Cd & _) & t & -> & Gt & Nd & _).
        assert (t = DCustomIdent). { destruct (is_keyword (DType t)) eqn:Ik; [destruct t; try discriminate; [contradiction | reflexivity] |]. exfalso. assert (X : In (DType t) (others_of l)) by (unfold others_of; apply filter_In; rewrite Ik; auto). rewrite Eo in X. destruct X. }
        subst t. destruct (leaf_one src DCustomIdent eq_refl _ Cd) as (c' & E & Tt & _). injection E as <-. exact Tt.
      - clear O2. assert (Ho : forall c, tok (DComb l SAlternatives) c /\ (~ exists w, In w (keywords_of l) /\ word_of src K_Ident w c) -> exists t, In (DType t) (others_of l) /\ tok (DType t) c /\ sg_type sg t = true).
        { intros c (T & N). destruct (Hr c T N) as (d & I & Td & t & -> & Gt & Nd & _). exists t. split; [| auto]. unfold others_of. apply filter_In. split; [exact I |]. destruct t; try reflexivity; [contradiction |]. exfalso. assert (X : takes_custom l = true) by (unfold takes_custom; apply existsb_exists; eexists; split; [exact I | reflexivity]). congruence. }
        destruct sts as [| m1 [| m2 sts]].
        + intros p g c r Hh G L Pc X. destruct (Ho c X) as (t & I & _). destruct (all_some_map _ _ _ _ _ _ Es I) as (y & _ & []).
        + intros p g c r Hh G L Pc X. destruct (Ho c X) as (t & I & Tt & Gt). destruct (all_some_map _ _ _ _ _ _ Es I) as (y & Ey & [<- | []]). cbn [alternative_steps] in Ey. destruct (steps_single t _ Ey Gt) as (x & _ & Sx). exact (proj1 (proj2 Sx) p g c r Hh G L Pc Tt).
        + eapply eats_imp; [exact (eats_one_of _ _ _ Ep Es Fo O3) |]. intros c X. destruct (Ho c X) as (t & I & Tt & Gt). eauto. }
    destruct (existsb is_keyword l) eqn:Kx.
    + destruct (keywords_of l) as [| w0 ws] eqn:Ew; [discriminate |]. rewrite <- Ew in *. apply some_inj in Em. subst m. exact (keyword_branch _ _ _ Lw Er).
    + apply some_inj in Em. subst m. eapply eats_imp; [exact Er |]. intros c T. split; [exact T |]. intros (w & I & _). unfold keywords_of in I. apply in_flat_map in I. destruct I as (d & I & Iw). destruct d as [w0 | | | | | | |]; try solve [destruct Iw]. assert (X : existsb is_keyword l = true) by (apply existsb_exists; exists (DIdent w0); auto). congruence.
  - intros p cs c S Sc L Pc T. destruct (Tk c T) as (d & I & Td & X). destruct (all_some_map _ _ _ _ _ _ Ek I) as (k & Ekd & Ik).
    assert (Fw : Forall whole ks) by (apply Forall_forall; intros k0 I0; destruct (all_some_back _ _ _ _ _ _ Ek I0) as (d0 & E0 & _); exact (peek_whole d0 k0 E0)).
    apply (hits_any src f ks k (tok d) Fw Ik) with (cs := cs); try assumption. clear p cs c S Sc L Pc T Td. destruct X as [(w & -> & _) | (t & -> & Gt & _)].
    + cbn [def_peek] in Ekd. apply some_inj in Ekd. subst k. eapply hits_imp; [exact (hits_kind src f K_Ident) |]. intros c (C & _). destruct (inv_word src _ _ C) as (c' & E & W). injection E as <-. apply W.
    + destruct (peek_type t k Gt Ekd) as (x & _ & _ & Sx). apply Sx.
  - apply quiet_any. apply Forall_forall. intros k Ik. destruct (all_some_back _ _ _ _ _ _ Ek Ik) as (d & Ekd & I). destruct (item_cases d (O1 d I)) as [(w & -> & _) | [Fo | (t & -> & Gt & _)]].
    + cbn [def_peek] in Ekd. apply some_inj in Ekd. subst k. apply quiet_kind; discriminate.
    + intros p cs c S Sc E. apply (proj2 (def_fonly d k Fo Ekd)). apply quiet_tok; auto; discriminate.
    + destruct (peek_type t k Gt Ekd) as (x & _ & _ & Sx). apply Sx.
Qed.
Lemma single_generated : forall d t, sg_def sg d = true -> generate leaf_ty env d = Some t -> single d (ty_peek t) (ty_parse t).
Proof.
  intros d t G E. destruct d as [| | t0 | | l s | | |]; try discriminate; cbn [generate sg_def] in *.
  - destruct (def_peek leaf_ty env (DType t0)) as [k |] eqn:Ek; [| discriminate]. destruct (type_steps leaf_ty env t0) as [m |] eqn:Em; [| discriminate]. apply some_inj in E. subst t. cbn [ty_peek ty_parse]. destruct (peek_type t0 k G Ek) as (x & Ex & -> & _). destruct (steps_single t0 m Em G) as (x' & Ex' & Sm). rewrite Ex in Ex'. apply some_inj in Ex'. subst x'. exact Sm.
  - destruct s; try discriminate. destruct (all_some (map (def_peek leaf_ty env) l)) as [ks |] eqn:Ek; [| discriminate]. destruct (alternatives leaf_ty env l) as [m |] eqn:Em; [| discriminate]. apply some_inj in E. subst t. exact (single_alternatives l ks m G Ek Em).
Qed.
End Alternatives.
