(* Stylesheets are read: declarations. *)
From Coq Require Import ZifyBool ZifyNat ZifyN.
From Coq Require Import String.
From Coq Require Import List Lia.
From Verif Require Goes.
From Verif Require Import LexTrace AstSheet Values SpecSheet SpecLex SpecTrace SpecParser SpecSyntax SpecTraits SpecRules KindProofs CursorProofs LexBase LexFacts ParserProofs ParserProofs3 CompareProofs
  ParserProofs2 FeatureProofs TraitsTotal SelectorProofs SelectorProofs2 SelectorProofs3 SelectorProofs9 SyntaxTotal SyntaxAccept Keeps RulesTotal SpecSelectors SpecConforms SpecTree SpecAccepts SpecDecl SpecRead SpecSelectorText SelectorGoes SelectorGoes3 SelectorGoes7 PropValues4 Reads.
Open Scope N_scope.
Open Scope list_scope.
Notation length := List.length.

Lemma table_parsed : forallb (fun r => match property_name (chars (fst r)), value_ty 5 (chars (fst r)) with Some _, None => false | _, _ => true end) VALUE_TABLE = true.
Proof. vm_compute. reflexivity. Qed.
Lemma defined_known : forall w, (exists s, defines w s) <-> In w (map fst VALUES).
Proof.
  intro w. unfold VALUES. split.
  - intros (s & r & Ir & En & _). pose proof table_parsed as T. rewrite forallb_forall in T. specialize (T r Ir). rewrite En in T. destruct (value_ty 5 (chars (fst r))) as [t |] eqn:Et; [| discriminate]. apply in_map_iff. exists (w, ty_parse t). split; [reflexivity |]. apply in_flat_map. exists r. split; [exact Ir |]. rewrite En, Et. left. reflexivity.
  - intro I. apply in_map_iff in I. destruct I as ((w', m) & E & I). cbn [fst] in E. subst w'. apply in_flat_map in I. destruct I as (r & Ir & I). destruct (property_name (chars (fst r))) as [n |] eqn:En; [| destruct I]. destruct (value_ty 5 (chars (fst r))) as [t |]; [| destruct I]. destruct I as [E | []]. pose proof (f_equal fst E) as E1. cbn [fst] in E1. subst n. exists (chars (snd r)), r. auto.
Qed.
Lemma not_known : forall w, (forall s, ~ defines w s) -> map_get VALUES w = None.
Proof.
  intros w N. destruct (map_get VALUES w) as [m |] eqn:E; [| reflexivity]. exfalso. assert (I : In w (map fst VALUES)) by (apply (in_map fst _ (w, m)); exact (Goes.map_get_in _ _ _ _ E)). apply defined_known in I. destruct I as (s & D). exact (N s D).
Qed.
Lemma values_text_app : forall ok a b, values_text ok a -> values_text ok b -> values_text ok (a ++ b).
Proof.
  intros ok a b Va. induction Va as [ok | ok c l K V IH | ok c l Pl Ok V IH | ok o a c r Op Ok Va _ Kc Vb IH | ok fn a c r Kf Ok Va _ Kc Vb IH]; intro Vc; cbn [app]; [exact Vc | apply vt_comment; auto | apply vt_plain; auto | |].
  - rewrite <- app_assoc. cbn [app]. apply vt_block; auto.
  - rewrite <- app_assoc. cbn [app]. apply vt_function; auto.
Qed.
Lemma values_text_gap : forall ok g, gap g -> values_text ok g.
Proof. intros ok g G. induction G as [| c g [K | K] G IH]; [apply vt_nil | |]; [| apply vt_comment; assumption]. apply vt_plain; [unfold is_plain; rewrite K; left; reflexivity | left; exact K | exact IH]. Qed.

Section Reads2.
Variable src : text.
Context {mod_ : mode}.
Variable f : feature.
Notation at_ := (at_ src f). Notation takes := (takes src f). Notation takesg := (takesg src f).
Arguments Reads.takes _ {mod_} _ {A}. Arguments Reads.takesg _ {mod_} _ {A}.

Lemma take_set : forall V (m : list (text * V)) k p g c rest w v, at_ p (g ++ c :: rest) -> gap g -> solid c -> kind_of c = k -> k <> K_Eof -> parse_str_lower c src = Some w -> map_get m w = Some v -> takes (parse_set k m) p (eq (v, c)) rest.
Proof.
  intros V m k p g c rest w v Ap G Hc K Ne Ew Gm. pose proof (at_ready src f _ _ Ap) as R. destruct (set_at V m k p g c rest w (at_ahead src f _ _ Ap) (gap_kinds p g R G) (solid_kinds p c R Hc) K Ne) as (q & E & A' & S); [rewrite (at_src src f _ _ Ap); exact Ew |].
  rewrite Gm in E. exists (v, c), q. split; [exact E |]. split; [reflexivity |]. split; [| exact S]. rewrite split_one in Ap. exact (at_moved src f p q (g ++ [c]) rest Ap A' S).
Qed.
Lemma peek_set_here : forall V (m : list (text * V)) k p g c rest w, at_ p (g ++ c :: rest) -> gap g -> solid c -> kind_of c = k -> k <> K_Eof -> parse_str_lower c src = Some w -> peek (peek_set k m) p = Some (match map_get m w with Some _ => true | None => false end).
Proof. intros V m k p g c rest w Ap G Hc K Ne Ew. rewrite (peek_here src f _ p g c rest Ap G Hc). unfold peek_set, look_up. rewrite (tok_kind k c K Ne), (at_src src f _ _ Ap), Ew. destruct (map_get m w); reflexivity. Qed.
Lemma peek_set_other : forall V (m : list (text * V)) k p g c rest, at_ p (g ++ c :: rest) -> gap g -> solid c -> kind_of c <> k -> peek (peek_set k m) p = Some false.
Proof. intros V m k p g c rest Ap G Hc K. rewrite (peek_here src f _ p g c rest Ap G Hc). unfold peek_set. rewrite (tok_not k c K); [reflexivity |]. apply (at_lasts src f p _ c Ap). apply in_or_app. right. left. reflexivity. Qed.
Lemma name_readable : forall p cs c, at_ p cs -> In c cs -> is_name (kind_of c) -> exists w, parse_str_lower c src = Some w.
Proof. intros p cs c Ap I N. destruct Ap as ((E & _ & A & _) & ((_ & (_ & Nr) & _) & _)). destruct (Nr cs c A I N) as (_ & _ & X). rewrite E in X. exact X. Qed.
Lemma peek_words_none : forall l p g c rest, at_ p (g ++ c :: rest) -> gap g -> solid c -> ~ (kind_of c = K_Ident /\ exists w, In w l /\ parse_str_lower c src = Some w) -> peek (peek_set K_Ident (words l)) p = Some false.
Proof.
  intros l p g c rest Ap G Hc N. destruct (kind_eqb (kind_of c) K_Ident) eqn:Ek.
  - apply kind_eqb_eq in Ek. destruct (name_readable p _ c Ap (in_elt c g rest)) as (w & Ew); [rewrite Ek; left; reflexivity |]. rewrite (peek_set_here _ (words l) K_Ident p g c rest w Ap G Hc Ek ltac:(discriminate) Ew). pose proof (words_get l w) as Gw. destruct (map_get (words l) w) as [v |]; [| reflexivity]. exfalso. apply N. split; [exact Ek |]. exists w. split; [apply Gw | exact Ew].
  - apply (peek_set_other _ _ _ p g c rest Ap G Hc). intro K. rewrite K in Ek. discriminate.
Qed.
Lemma peek_computed_here : forall p g c rest, at_ p (g ++ c :: rest) -> gap g -> solid c -> (peek peek_computed p = Some true /\ computed_function src c) \/ (peek peek_computed p = Some false /\ ~ computed_function src c).
Proof.
  intros p g c rest Ap G Hc. unfold peek_computed. destruct (kind_eqb (kind_of c) K_Function) eqn:Ek.
  - apply kind_eqb_eq in Ek. destruct (name_readable p _ c Ap (in_elt c g rest)) as (w & Ew); [rewrite Ek; right; left; reflexivity |]. rewrite (peek_set_here _ (words COMPUTED_FUNCTIONS) K_Function p g c rest w Ap G Hc Ek ltac:(discriminate) Ew). pose proof (words_get COMPUTED_FUNCTIONS w) as Gw. destruct (map_get (words COMPUTED_FUNCTIONS) w) as [v |].
    + left. split; [reflexivity |]. split; [exact Ek |]. exists w. split; [apply Gw | exact Ew].
    + right. split; [reflexivity |]. intros (_ & w' & I & E). rewrite Ew in E. apply some_inj in E. subst w'. exact (Gw I).
  - right. split; [apply (peek_set_other _ _ _ p g c rest Ap G Hc); intro K; rewrite K in Ek; discriminate |]. intros (K & _). rewrite K in Ek. discriminate.
Qed.
Lemma at_moved0 : forall p q cs rest, at_ p cs -> moved 0 p q -> ahead (plex q) rest -> at_ q rest.
Proof.
  intros p q cs rest Ap (used & rest' & A & A' & _ & S) Aq. pose proof (ahead_det _ _ Aq _ A') as E. subst rest'. pose proof (ahead_det _ _ (at_ahead src f _ _ Ap) _ A) as E. subst cs. exact (at_moved src f p q used rest Ap Aq S).
Qed.
(* the end of a declaration in a block *)
Definition stops (c : cursor) : Prop := kind_of c = K_Semicolon \/ kind_of c = K_RightCurly.
Lemma stops_solid : forall c, stops c -> solid c.
Proof. intros c [K | K] [H | H]; congruence. Qed.
Definition halts (c : cursor) : Prop := stops c \/ kind_of c = K_RightParen.
Lemma halts_solid : forall c, halts c -> solid c.
Proof. intros c [St | K]; [exact (stops_solid c St) | intros [H | H]; congruence]. Qed.
Lemma free_reads : forall p u c rest, at_ p (u ++ c :: rest) -> values_text in_value u -> halts c -> takesg parse_free_value p (fun _ => True) (c :: rest).
Proof.
  intros p u c rest Ap V St. unfold parse_free_value. apply takesg_state, takesg_stop. set (p' := set_stop (set_state p ST_NESTED) KS_RIGHT_CURLY_OR_SEMICOLON).
  assert (Ap' : at_ p' (u ++ c :: rest)) by (apply at_stop, at_state; exact Ap).
  destruct (values_accepted in_value u p' (c :: rest) V (at_skip src f _ _ Ap') (at_ahead src f _ _ Ap')) as (vs & q & tr & E & Tr & Aq).
  - intros k (N1 & N2). change (pstop p') with KS_RIGHT_CURLY_OR_SEMICOLON. destruct k; first [reflexivity | elim N1; reflexivity | elim N2; reflexivity].
  - split; [exact (halts_solid c St) |]. change (pstop p') with KS_RIGHT_CURLY_OR_SEMICOLON. destruct St as [[S | S] | S]; rewrite S; [left; vm_compute; reflexivity | left; vm_compute; reflexivity | right]. unfold is_plain, is_opener. cbn [In]. intuition discriminate.
  - exists tr. split; [exact Tr |]. exists vs, q. split; [exact E |]. split; [exact Logic.I |]. destruct (values_run _ p' _ (proj1 (proj2 (proj1 (at_ready src f _ _ Ap')))) (at_ahead src f _ _ Ap') (le_n _)) as (r & q' & E' & M). rewrite E in E'. injection E' as <- <-.
    split; [exact (at_moved0 p' q _ _ Ap' M Aq) | exact (moved_mode _ _ _ M)].
Qed.

Lemma same_of : forall p q cs rest, at_ p cs -> stands src f q rest -> modes p q -> same_mode p q.
Proof. intros p q cs rest Ap (E & F & _) (M1 & M2 & M3). split; [exact M2 |]. split; [exact M1 |]. split; [exact M3 |]. destruct Ap as ((E' & F' & _) & _). split; congruence. Qed.
Lemma peek_wide_none : forall p g c rest, at_ p (g ++ c :: rest) -> gap g -> solid c -> ~ wide_here src c -> peek (peek_set K_Ident (words WIDE_KEYWORDS)) p = Some false.
Proof. intros p g c rest Ap G Hc N. apply (peek_words_none _ p g c rest Ap G Hc). intros (K & w & I & E). apply N. exists w. split; [exact I |]. split; [exact K | left; exact E]. Qed.
Lemma rewound : forall p, plex (rewind p (checkpoint p)) = plex p /\ same_mode p (rewind p (checkpoint p)).
Proof.
  intro p. assert (E : plex (rewind p (checkpoint p)) = plex p) by (unfold rewind, checkpoint; cbn [plex ckcursor]; exact (rewind_restores (plex p) [] (plex p) (av_nil _))). split; [exact E |]. split; [reflexivity |]. split; [reflexivity |]. split; [reflexivity |]. rewrite E. split; reflexivity.
Qed.
Lemma takesg_from : forall A (m : P A) p p' Q rest, same_mode p p' -> takesg m p' Q rest -> exists g, gap g /\ exists x q, m p' = Some (Ok x, q) /\ Q x /\ at_ q (g ++ rest) /\ same_mode p q.
Proof. intros A m p p' Q rest S (g & G & x & q & E & H & Aq & S'). exists g. split; [exact G |]. exists x, q. split; [exact E |]. split; [exact H |]. split; [exact Aq | exact (mode_trans _ _ _ S S')]. Qed.
(* [c] may follow the value [v]: the end of the declaration, or the ! of its importance, or the end of a condition of @supports *)
Definition after_value (v : style_value) (c : cursor) : Prop := (stops c \/ (forall w l, v <> SvKnown w l) /\ kind_of c = K_RightParen) \/ may_be_important v /\ is_delim 33 c.
Lemma after_halts : forall v c, stops c \/ (forall w l, v <> SvKnown w l) /\ kind_of c = K_RightParen -> halts c.
Proof. intros v c [St | (_ & K)]; [left; exact St | right; exact K]. Qed.
Lemma after_solid : forall v c, after_value v c -> solid c.
Proof. intros v c [St | (_ & D)]; [exact (halts_solid c (after_halts v c St)) | exact (delim_solid _ _ D)]. Qed.
Lemma value_reads : forall name v u, value_written src name v u -> kind_of name = K_Ident -> forall p g c rest, at_ p (u ++ g ++ c :: rest) -> gap g -> after_value v c ->
  takesg (parse_style_value VALUES name) p (fun x => outline_value x = v) (c :: rest).
Proof.
  intros name v u W Kn p g c rest Ap G Af. pose proof (after_solid _ _ Af) as Sc. destruct W as [w s d u Cu Ew D Re Cd Cf Fu Un T Ne Nw | g0 w k Cu G0 Wk | u Cu Vt | g0 k r Cu G0 Ck Vt | w g0 k r Cu Ew Nd G0 Sk Nw Nc Vt].
  - assert (Dn : is_dashed_ident (ctok name) = false) by (destruct (is_dashed_ident (ctok name)) eqn:E; [elim Cu; exact E | reflexivity]).
    destruct (C57_declared_value_accepted_partial mod_ name w s d src f p u (g ++ c :: rest) Kn Dn Ew (proj1 (defined_known w) (ex_intro _ s D)) Re D Cd (proj1 Ap) (at_skip src f _ _ Ap) Cf Fu Un T) as (l & q & E & Sq).
    + exists g, (c :: rest). split; [reflexivity |]. split; [exact G |]. destruct Af as [[[K | K] | (N & _)] | (_ & (K & Ch))]; [left; exact K | right; left; exact K | elim (N w []); reflexivity |]. right. right. split; [exact K |]. unfold tok_is_char. rewrite Ch. reflexivity.
    + intro Gr. exfalso. apply Forall_app in Gr. destruct Gr as (_ & Gr). inversion Gr as [| ? ? Gc]; subst. exact (Sc Gc).
    + intros k r Eb (w' & I & (K & E)). apply (Nw k r Eb). exists w'. split; [exact I |]. split; [exact K | exact E].
    + exact Ne.
    + exists g. split; [exact G |]. exists (SvKnown w l), q. split; [exact E |]. split; [reflexivity |]. pose proof (same_of p q _ _ Ap Sq (k_style_value name p _ _ E)) as S. split; [| exact S]. exact (at_moved src f p q u _ Ap (proj1 (proj2 (proj2 Sq))) S).
  - rewrite <- app_assoc in Ap. cbn [app] in Ap. destruct Wk as (I & K & Ew). assert (Sk : solid k) by (intros [H | H]; congruence).
    assert (Dn : is_dashed_ident (ctok name) = false) by (destruct (is_dashed_ident (ctok name)) eqn:E; [elim Cu; exact E | reflexivity]).
    apply (takesg_takes src f _ _ _ _ g); [exact G |]. pose proof (words_get WIDE_KEYWORDS w) as Gw. destruct (map_get (words WIDE_KEYWORDS) w) as [v |] eqn:Em; [| elim (Gw I)]. destruct Gw as (-> & _).
    destruct (take_set _ (words WIDE_KEYWORDS) K_Ident p g0 k _ w w Ap G0 Sk K ltac:(discriminate) Ew Em) as (x & q & E & <- & Aq & S). exists (SvKeyword (w, k)), q. split; [| split; [reflexivity |]; split; assumption].
    unfold parse_style_value. rewrite Dn. unfold bind at 1, parse_if_peek at 1. rewrite (peek_set_here _ (words WIDE_KEYWORDS) K_Ident p g0 k _ w Ap G0 Sk K ltac:(discriminate) Ew), Em. unfold pmap, bind, ret. rewrite E. reflexivity.
  - destruct Af as [St | (F & _)]; [apply after_halts in St | destruct F]. unfold takesg, takes, parse_style_value. rewrite Cu. rewrite app_assoc in Ap.
    apply (takesg_map src f _ _ SvCustom). destruct (free_reads p (u ++ g) c rest Ap (values_text_app _ _ _ Vt (values_text_gap _ g G)) St) as (g' & G' & T). exists g'. split; [exact G' |]. exact (takes_weaken src f _ _ _ _ _ _ (fun _ _ => eq_refl) T).
  - destruct Af as [St | (F & _)]; [apply after_halts in St | destruct F]. assert (Dn : is_dashed_ident (ctok name) = false) by (destruct (is_dashed_ident (ctok name)) eqn:E; [elim Cu; exact E | reflexivity]).
    assert (Sk : solid k) by (intros [H | H]; destruct Ck as (K & _); congruence). assert (Ap' : at_ p (g0 ++ k :: r ++ g ++ c :: rest)) by (rewrite <- app_assoc in Ap; exact Ap).
    assert (P1 : peek (peek_set K_Ident (words WIDE_KEYWORDS)) p = Some false) by (apply (peek_set_other _ _ _ p g0 k _ Ap' G0 Sk); destruct Ck as (K & _); rewrite K; discriminate).
    assert (P2 : peek peek_computed p = Some true) by (destruct (peek_computed_here p g0 k _ Ap' G0 Sk) as [(P2 & _) | (_ & N)]; [exact P2 | elim (N Ck)]).
    unfold takesg, takes, parse_style_value. rewrite Dn. unfold bind at 1, parse_if_peek at 1. rewrite P1. unfold or_peek. rewrite P2. rewrite app_assoc in Ap.
    apply (takesg_map src f _ _ SvComputed). destruct (free_reads p _ c rest Ap (values_text_app _ _ _ Vt (values_text_gap _ g G)) St) as (g' & G' & T). exists g'. split; [exact G' |]. exact (takes_weaken src f _ _ _ _ _ _ (fun _ _ => eq_refl) T).
  - destruct Af as [St | (F & _)]; [apply after_halts in St | destruct F]. assert (Dn : is_dashed_ident (ctok name) = false) by (destruct (is_dashed_ident (ctok name)) eqn:E; [elim Cu; exact E | reflexivity]).
    assert (Ap' : at_ p (g0 ++ k :: r ++ g ++ c :: rest)) by (rewrite <- app_assoc in Ap; exact Ap).
    pose proof (peek_wide_none p g0 k _ Ap' G0 Sk Nw) as P1. assert (P2 : peek peek_computed p = Some false) by (destruct (peek_computed_here p g0 k _ Ap' G0 Sk) as [(_ & N) | (P2 & _)]; [elim (Nc N) | exact P2]).
    unfold takesg, takes, parse_style_value. rewrite Dn. unfold bind at 1, parse_if_peek at 1. rewrite P1. unfold or_peek. rewrite P2. rewrite (tok_kind K_Ident name Kn) by discriminate. unfold look_up. rewrite (at_src src f _ _ Ap), Ew, (not_known w Nd).
    unfold fallback_value. rewrite P2. rewrite app_assoc in Ap.
    pose proof (rewound p) as (Pl & Md). assert (Ar : at_ (rewind p (checkpoint p)) (((g0 ++ k :: r) ++ g) ++ c :: rest)) by (apply (at_moved src f p _ [] _ Ap); [rewrite Pl; exact (at_ahead src f _ _ Ap) | exact Md]).
    apply (takesg_from _ _ p (rewind p (checkpoint p)) _ _ Md).
    apply (takesg_map src f _ _ SvUnknown). destruct (free_reads (rewind p (checkpoint p)) _ c rest Ar (values_text_app _ _ _ Vt (values_text_gap _ g G)) St) as (g' & G' & T). exists g'. split; [exact G' |]. exact (takes_weaken src f _ _ _ _ _ _ (fun _ _ => eq_refl) T).
Qed.
End Reads2.
