(* Stylesheets are read: features and conditions. *)
From Coq Require Import ZifyBool ZifyNat ZifyN.
From Coq Require Import String.
From Coq Require Import List Lia.
From Verif Require Import SpecWords SpecFeatures.
From Verif Require Import LexTrace AstSheet Values SpecSheet SpecLex SpecTrace SpecParser SpecSyntax SpecTraits SpecRules KindProofs CursorProofs LexBase LexFacts ParserProofs ParserProofs3 CompareProofs
  ParserProofs2 FeatureProofs FeatureProofs3 TraitsTotal SelectorProofs SelectorProofs2 SelectorProofs3 SelectorProofs9 SyntaxTotal SyntaxAccept Keeps RulesTotal Goes ValuesTotal ValuesTaken SpecSelectors SpecConforms SpecTree SpecAccepts SpecDecl SpecRead SpecSelectorText SelectorGoes SelectorGoes2 SelectorGoes3 SelectorGoes5 SelectorGoes7 PropValues4 Reads Reads2 Reads3 Reads4.
From Verif Require Tells.
Open Scope N_scope.
Open Scope list_scope.
Notation length := List.length.

Section ReadsFeature.
Variable src : text.
Context {mod_ : mode}.
Variable f : feature.
Notation at_ := (at_ src f). Notation takes := (takes src f). Notation takesg := (takesg src f).
Arguments Reads.takes _ {mod_} _ {A}. Arguments Reads.takesg _ {mod_} _ {A}.

(* ---- spread tokens ---- *)
Lemma spread_inv : forall c l ts, spread (c :: l) ts -> exists g r, ts = g ++ c :: r /\ gap g /\ solid c /\ spread l r.
Proof. intros c l ts W. inversion W as [| g c' l' toks G N W']; subst. exists g, toks. auto. Qed.
Lemma spread_nil_inv : forall ts, spread [] ts -> ts = [].
Proof. intros ts W. inversion W. reflexivity. Qed.
Lemma spread_app_inv : forall a b ts, spread (a ++ b) ts -> exists ta tb, ts = ta ++ tb /\ spread a ta /\ spread b tb.
Proof.
  induction a as [| c a IH]; intros b ts W; cbn [app] in W.
  - exists [], ts. split; [reflexivity |]. split; [apply sp_nil | exact W].
  - destruct (spread_inv _ _ _ W) as (g & r & -> & G & Sc & W'). destruct (IH b r W') as (ta & tb & -> & Wa & Wb). exists (g ++ c :: ta), tb. rewrite <- app_assoc. split; [reflexivity |]. split; [apply sp_cons; assumption | exact Wb].
Qed.
Lemma spread_kept : forall p l ts, ready p -> spread l ts -> kept (pskip p) ts = l.
Proof.
  intros p l ts R W. induction W as [| g c l toks G N W IH]; [reflexivity |]. rewrite (kept_skipped _ _ _ (gap_kinds p g R G)), kept_cons by exact (solid_kinds p c R N). f_equal. exact IH.
Qed.
(* what is left after tokens that were taken *)
Lemma kept_rest : forall p r g c rest, ready p -> gap g -> solid c -> forall pre, pre ++ r = g ++ c :: rest -> kept (pskip p) r = c :: kept (pskip p) rest -> exists g', gap g' /\ r = g' ++ c :: rest.
Proof.
  intros p r g. revert r. induction g as [| d g IH]; intros r c rest R G Sc pre E K; cbn [app] in E.
  - destruct pre as [| x pre]; cbn [app] in E; [exists []; split; [apply Forall_nil | exact E] |]. injection E as -> E. exfalso.
    assert (L : (length (kept (pskip p) r) <= length (kept (pskip p) rest))%nat). { rewrite <- E. rewrite kept_app, app_length. lia. }
    rewrite K in L. cbn [length] in L. lia.
  - inversion G as [| ? ? Hd G']; subst. destruct pre as [| x pre]; cbn [app] in E; [exists (d :: g); split; [exact G | exact E] |]. injection E as -> E. exact (IH r c rest R G' Sc pre E K).
Qed.
(* what a grammar's phrases say, for a parser that has them ahead *)
Lemma phrase_takes : forall A (m : P A) ok cur fo x p ts g c rest, reads_phrases m ok cur fo -> ok src x -> fo x (c :: kept (pskip p) rest) -> spread (cur x) ts -> at_ p (ts ++ g ++ c :: rest) -> gap g -> solid c ->
  takesg m p (eq x) (c :: rest).
Proof.
  intros A m ok cur fo x p ts g c rest H Ox Fo W Ap G Sc. pose proof (at_ready src f _ _ Ap) as R. assert (U : usual p) by (destruct R as (U & _); exact U).
  assert (Sp : sees p (cur x ++ c :: kept (pskip p) rest)).
  { apply sees_kept. exists (ts ++ g ++ c :: rest). split; [exact (at_ahead src f _ _ Ap) |]. rewrite kept_app, (spread_kept p _ _ R W), (kept_skipped _ _ _ (gap_kinds p g R G)), kept_cons by exact (solid_kinds p c R Sc). reflexivity. }
  destruct (proj2 (H p U) x _ ltac:(rewrite (at_src src f _ _ Ap); exact Ox) Fo Sp) as (q & E & T). pose proof (took_mode _ _ _ T) as S.
  pose proof (took_sees _ _ _ _ T Sp) as Sq. destruct T as (cs & new & r & Ah & Aq & _ & Mg & Fn & _). pose proof (ahead_det _ _ (at_ahead src f _ _ Ap) _ Ah) as Ec.
  assert (Kr : kept (pskip p) r = c :: kept (pskip p) rest). { apply sees_kept in Sq. destruct Sq as (r' & Ar & Er). pose proof (ahead_det _ _ Aq _ Ar) as X. subst r'. assert (Es : pskip q = pskip p) by (destruct S as (_ & S2 & _); congruence). rewrite Es in Er. symmetry. exact Er. }
  assert (Hr : exists g', gap g' /\ r = g' ++ c :: rest).
  { clear - R W G Sc Ec Kr. revert cs Ec. induction W as [| g0 d l toks G0 N W IH]; intros cs Ec.
    - cbn [app] in Ec. exact (kept_rest p r g c rest R G Sc cs Ec Kr).
    - rewrite <- app_assoc in Ec. cbn [app] in Ec. revert cs Ec. induction G0 as [| e g0 He G0 IHg]; intros cs Ec; cbn [app] in Ec.
      + destruct cs as [| y cs]; cbn [app] in Ec.
        * exfalso. rewrite Ec in Kr. change (d :: toks ++ g ++ c :: rest) with ([d] ++ toks ++ g ++ c :: rest) in Kr. rewrite !kept_app in Kr. apply (f_equal (@length cursor)) in Kr. rewrite !app_length in Kr.
          rewrite (kept_cons (pskip p) c rest) in Kr by exact (solid_kinds p c R Sc). rewrite (kept_cons (pskip p) d []) in Kr by exact (solid_kinds p d R N). cbn [length] in Kr. lia.
        * injection Ec as -> Ec. exact (IH cs Ec).
      + destruct cs as [| y cs]; cbn [app] in Ec.
        * exfalso. rewrite Ec in Kr. change (e :: g0 ++ d :: toks ++ g ++ c :: rest) with ([e] ++ g0 ++ [d] ++ toks ++ g ++ c :: rest) in Kr. rewrite !kept_app in Kr. apply (f_equal (@length cursor)) in Kr. rewrite !app_length in Kr.
          rewrite (kept_cons (pskip p) c rest) in Kr by exact (solid_kinds p c R Sc). rewrite (kept_cons (pskip p) d []) in Kr by exact (solid_kinds p d R N). cbn [length] in Kr. lia.
        * injection Ec as -> Ec. exact (IHg cs Ec). }
  destruct Hr as (g' & G' & ->). exists g'. split; [exact G' |]. exists x, q. split; [exact E |]. split; [reflexivity |]. rewrite <- Ec in Ap. split; [exact (at_moved src f p q cs _ Ap Aq S) | exact S].
Qed.
(* ---- comparisons ---- *)
Lemma comparison_reads : forall x ts p g c rest, comparison_spelled x -> spread (comparison_cursors x) ts -> at_ p (ts ++ g ++ c :: rest) -> gap g -> solid c -> tchar (ctok c) <> Some 61 -> takesg parse_comparison p (eq x) (c :: rest).
Proof.
  intros x ts p g c rest Cs W Ap G Sc N. apply (phrase_takes _ _ _ _ _ x p ts g c rest comparison_phrases Cs); try assumption. unfold comparison_follow. destruct x; try exact Logic.I; exact N.
Qed.
(* ---- numbers ---- *)
Lemma number_solid : solid_kind K_Number. Proof. repeat split; discriminate. Qed.
Lemma no_char : forall p cs c, at_ p cs -> In c cs -> kind_of c <> K_Delim -> tchar (ctok c) <> Some 61.
Proof.
  intros p cs c Ap I N E. destruct (at_ready src f _ _ Ap) as (_ & Sr). destruct (Sr cs c (at_ahead src f _ _ Ap) I) as (_ & _ & _ & H). destruct H as [K | [T | (ch & Ic & T)]]; [exact (N K) | rewrite E in T; discriminate |].
  rewrite E in T. apply some_inj in T. subst ch. cbn [In] in Ic. repeat (destruct Ic as [Ic | Ic]; [discriminate |]). exact Ic.
Qed.
Definition numeric (c : cursor) : Prop := kind_of c = K_Number \/ kind_of c = K_Dimension.
Lemma numeric_solid : forall c, numeric c -> solid c.
Proof. intros c [K | K]; [exact (solid_of _ _ K number_solid) | exact (solid_of _ _ K dimension_solid)]. Qed.
Lemma at_seen : forall p cs c, at_ p cs -> In c cs -> seen src c.
Proof. intros p cs c ((_ & _ & _ & (F & _) & _) & _) I. rewrite Forall_forall in F. exact (F c I). Qed.
Lemma length_peek : forall p cs c, at_ p cs -> In c cs -> number_fits src NLength [c] -> peek_length p c = Some true.
Proof.
  intros p cs c Ap I (c' & Ec & H). injection Ec as <-. unfold peek_length. destruct H as [(K & Z) | (K & u & Iu & Hu)].
  - rewrite (tok_kind K_Number c K) by discriminate. unfold f32_is_zero. replace ((tvalue (ctok c) =? 0) || (tvalue (ctok c) =? 2147483648)) with true by (destruct Z as [-> | ->]; reflexivity). reflexivity.
  - destruct (_ && _); [reflexivity |]. assert (Iu' : In u LENGTH_UNITS) by exact Iu. revert Iu'. generalize LENGTH_UNITS as l. induction l as [| v l IH]; intros Iu'; [destruct Iu' |]. cbn [map any_peek].
    pose proof (whole_dimension src f v (unit_str v) p cs c (proj1 Ap) (at_seen p cs c Ap I)) as Wh. destruct Iu' as [-> | Iu'].
    + assert (E : peek_dimension u (unit_str u) p c = Some true).
      { unfold peek_dimension. rewrite (tok_kind K_Dimension c K) by discriminate. rewrite (at_src src f _ _ Ap). destruct Hu as [Hu | Hu]; [replace (unit_eqb (dimension_unit (ctok c)) u) with true by (symmetry; apply DimProofs.unit_eqb_eq; exact Hu); reflexivity |]. destruct (unit_eqb _ _); [reflexivity | exact Hu]. }
      rewrite E. reflexivity.
    + destruct (peek_dimension v (unit_str v) p c) as [[] |]; [reflexivity | exact (IH Iu') | elim Wh; reflexivity].
Qed.
Lemma number_head : forall ty l, number_fits src ty l -> exists c r, l = c :: r /\ numeric c.
Proof.
  intros ty l H. destruct ty; cbn [number_fits] in H.
  - destruct H as (c & -> & [(K & _) | (K & _)]); exists c, []; (split; [reflexivity | first [left; exact K | right; exact K]]).
  - destruct H as (c & -> & (K & _)). exists c, []. split; [reflexivity | left; exact K].
  - destruct H as (c & -> & K & _). exists c, []. split; [reflexivity | left; exact K].
  - destruct H as (a & (K & _) & [-> | (s & b & -> & _)]); eexists _, _; (split; [reflexivity | left; exact K]).
Qed.
Lemma in_ahead : forall (g : list cursor) c rest, In c (g ++ c :: rest).
Proof. intros g c rest. apply in_or_app. right. left. reflexivity. Qed.
Lemma int_here : forall p g c rest, at_ p (g ++ c :: rest) -> gap g -> integer c -> takes (parse_single peek_int (fun c => c)) p (eq c) rest.
Proof. intros p g c rest Ap G (K & E). apply (take_single src f _ peek_int (fun c => c) p g c rest Ap G (solid_of _ _ K number_solid)). unfold peek_int. rewrite (tok_kind K_Number c K), E by discriminate. reflexivity. Qed.
Lemma number_reads : forall ty l ts p g c rest, number_fits src ty l -> spread l ts -> at_ p (ts ++ g ++ c :: rest) -> gap g -> solid c -> ~ is_delim 47 c -> takes (parse_number_type ty) p (eq l) (g ++ c :: rest).
Proof.
  intros ty l ts p g c rest H W Ap G Sc Nd. destruct ty.
  - pose proof H as H0. destruct H as (d & -> & H). destruct (spread_inv _ _ _ W) as (g0 & r & -> & G0 & Sd & W'). rewrite (spread_nil_inv _ W') in *. rewrite <- app_assoc in Ap. cbn [app] in Ap. cbn [parse_number_type]. apply takes_map.
    refine (takes_weaken src f _ _ _ _ _ _ _ (take_single src f _ peek_length (fun c => c) p g0 d _ Ap G0 Sd (length_peek p _ d Ap (in_ahead g0 d _) H0))). intros x <-. reflexivity.
  - destruct H as (d & -> & Hi). destruct (spread_inv _ _ _ W) as (g0 & r & -> & G0 & Sd & W'). rewrite (spread_nil_inv _ W') in *. rewrite <- app_assoc in Ap. cbn [app] in Ap. cbn [parse_number_type]. apply takes_map.
    refine (takes_weaken src f _ _ _ _ _ _ _ (int_here p g0 d _ Ap G0 Hi)). intros x <-. reflexivity.
  - destruct H as (d & -> & K & Ef). destruct (spread_inv _ _ _ W) as (g0 & r & -> & G0 & Sd & W'). rewrite (spread_nil_inv _ W') in *. rewrite <- app_assoc in Ap. cbn [app] in Ap. cbn [parse_number_type]. apply takes_map.
    refine (takes_weaken src f _ _ _ _ _ _ _ (take_single src f _ peek_float (fun c => c) p g0 d _ Ap G0 Sd _)); [intros x <-; reflexivity |]. unfold peek_float. rewrite (tok_kind K_Number d K), Ef by discriminate. reflexivity.
  - destruct H as (a & Ha & H). cbn [parse_number_type]. unfold parse_ratio. destruct H as [-> | (s & b & -> & Ds & Hb)].
    + destruct (spread_inv _ _ _ W) as (g0 & r & -> & G0 & Sd & W'). rewrite (spread_nil_inv _ W') in *. rewrite <- app_assoc in Ap. cbn [app] in Ap.
      apply (takes_bind src f _ _ _ _ p (eq a) _ (g ++ c :: rest)); [exact (int_here p g0 a _ Ap G0 Ha) |]. intros x q <- Aq _.
      apply (takes_bind src f _ _ _ _ q (eq None) _ (g ++ c :: rest)); [| intros o q2 <- Aq2 _; apply takes_ret; [exact Aq2 | reflexivity]].
      apply takes_if_not; [| exact Aq | reflexivity]. rewrite (peek_here src f _ q g c rest Aq G Sc). unfold peek_delim. f_equal. destruct (_ && _) eqn:E; [| reflexivity]. elim Nd. apply andb_prop in E. destruct E as (E1 & E2).
      split; [apply (Tells.kind_is c _ ltac:(exact (at_lasts src f _ _ c Aq (in_ahead _ _ _))) E1) |]. exact (proj1 (tok_is_char_spec _ _) E2).
    + destruct (spread_inv _ _ _ W) as (g0 & r & -> & G0 & Sd & W1). destruct (spread_inv _ _ _ W1) as (g1 & r1 & -> & G1 & S1 & W2). destruct (spread_inv _ _ _ W2) as (g2 & r2 & -> & G2 & S2 & W3). rewrite (spread_nil_inv _ W3) in *.
      repeat (rewrite <- app_assoc in Ap; cbn [app] in Ap).
      apply (takes_bind src f _ _ _ _ p (eq a) _ (g1 ++ s :: g2 ++ b :: g ++ c :: rest)); [exact (int_here p g0 a _ Ap G0 Ha) |]. intros x q <- Aq _.
      apply (takes_bind src f _ _ _ _ q (eq (Some s)) _ (g2 ++ b :: g ++ c :: rest)).
      * apply takes_if; [rewrite (peek_here src f _ q g1 s _ Aq G1 S1); exact (is_delim_peek 47 q s Ds) |]. refine (takes_weaken src f _ _ _ _ _ _ _ (take_delim src f 47 q g1 s _ Aq G1 Ds)). intros x <-. reflexivity.
      * intros o q2 <- Aq2 _. apply takes_map. refine (takes_weaken src f _ _ _ _ _ _ _ (int_here q2 g2 b _ Aq2 G2 Hb)). intros x <-. reflexivity.
Qed.

(* ---- ranged features ---- *)
Lemma right_paren : solid_kind K_RightParen. Proof. repeat split; discriminate. Qed.
Lemma left_paren : solid_kind K_LeftParen. Proof. repeat split; discriminate. Qed.
Lemma words_have : forall names w, in_words names src w -> kind_of (snd w) = K_Ident /\ parse_str_lower (snd w) src = Some (fst w) /\ map_get (words names) (fst w) = Some (fst w).
Proof.
  intros names (v & c) (K & w & E & I). cbn [fst snd] in *. unfold words in I. apply in_map_iff in I. destruct I as (w0 & E0 & I0). injection E0 as E1 E2. subst w0 v. split; [exact K |]. split; [exact E |]. pose proof (words_get names w) as X. destruct (map_get (words names) w); [destruct X as (-> & _); reflexivity | contradiction].
Qed.
Lemma name_reads : forall names w p g rest, in_words names src w -> at_ p (g ++ snd w :: rest) -> gap g -> takes (parse_set K_Ident (words names)) p (eq w) rest.
Proof.
  intros names w p g rest H Ap G. destruct (words_have names w H) as (K & E & M). refine (takes_weaken src f _ _ _ _ _ _ _ (take_set src f _ (words names) K_Ident p g (snd w) rest _ _ Ap G (name_solid _ K) K ltac:(discriminate) E M)). intros x <-. destruct w; reflexivity.
Qed.
Lemma name_peeked : forall names w p g rest, in_words names src w -> at_ p (g ++ snd w :: rest) -> gap g -> peek (peek_set K_Ident (words names)) p = Some true.
Proof. intros names w p g rest H Ap G. destruct (words_have names w H) as (K & E & M). rewrite (peek_set_here src f _ (words names) K_Ident p g (snd w) rest _ Ap G (name_solid _ K) K ltac:(discriminate) E), M. reflexivity. Qed.
Lemma comparison_head : forall x, comparison_spelled x -> exists c r, comparison_cursors x = c :: r /\ kind_of c = K_Delim /\ ~ is_delim 47 c.
Proof. intros [c | c | a b | a b | c] H; cbn in *; eexists _, _; (split; [reflexivity |]); (split; [unfold is_delim, kind_of in *; tauto |]); intros (_ & T); unfold is_delim in H; decompose [and] H; congruence. Qed.
Lemma close_reads : forall A (h : cursor -> A) p g c rest, at_ p (g ++ c :: rest) -> gap g -> kind_of c = K_RightParen -> takes (bind (parse_kind K_RightParen) (fun close => ret (h close))) p (eq (h c)) rest.
Proof. intros A h p g c rest Ap G K. apply (takes_bind src f _ _ _ _ p (eq c) _ rest); [exact (take_kind src f K_RightParen p g c rest Ap G K right_paren) |]. intros x q <- Aq _. apply takes_ret; [exact Aq | reflexivity]. Qed.
Lemma kind_no_delim : forall c k ch, kind_of c = k -> k <> K_Delim -> ~ is_delim ch c.
Proof. intros c k ch K N (D & _). unfold kind_of in K. congruence. Qed.
Section Ranged.
Variables (names : list text) (legacy : Selectors.word -> bool) (ty : number_type).
Notation okn := (fun src w => in_words names src w).
Notation okv := (fun src l => number_fits src ty l).
Notation feature_p := (ranged_feature_t (peek_set K_Ident (words names)) (parse_set K_Ident (words names)) legacy (parse_number_type ty)).
Lemma ranged_reads : forall y ts p rest, ranged_phrase okn legacy okv src y -> spread (ranged_cursors (fun w => [snd w]) (fun l => l) y) ts -> at_ p (ts ++ rest) -> takes feature_p p (eq y) rest.
Proof.
  intros y ts p rest H W Ap. unfold ranged_feature_t. destruct y as [open name cmp value close | open value cmp name close | open lv lcmp name rcmp rv close | open name colon value close]; cbn [ranged_phrase ranged_cursors] in H, W.
  - destruct H as (Ko & Hn & Hl & Hc & Hv & Kc). destruct (spread_inv _ _ _ W) as (g0 & r0 & -> & G0 & S0 & W0). cbn [app] in W0. destruct (spread_inv _ _ _ W0) as (g1 & r1 & -> & G1 & S1 & W1).
    destruct (spread_app_inv _ _ _ W1) as (tc & r2 & -> & Wc & W2). destruct (spread_app_inv _ _ _ W2) as (tv & r3 & -> & Wv & W3). destruct (spread_inv _ _ _ W3) as (g4 & r4 & -> & G4 & S4 & W4). rewrite (spread_nil_inv _ W4) in *.
    repeat (rewrite <- app_assoc in Ap; cbn [app] in Ap). pose proof (number_head ty value Hv) as (d & rv & Ev & Nd). destruct (comparison_head cmp Hc) as (e & rc & Ec & Ke & _). assert (Wc' := Wc). rewrite Ec in Wc'. destruct (spread_inv _ _ _ Wc') as (ge & re & Ete & Ge & Se & _).
    assert (Wv' := Wv). rewrite Ev in Wv'. destruct (spread_inv _ _ _ Wv') as (gd & rd & Etd & Gd & Sd & Wd).
    apply (takes_bind src f _ _ _ _ p (eq open) _ (g1 ++ snd name :: tc ++ tv ++ g4 ++ close :: rest)); [exact (take_kind src f K_LeftParen p g0 open _ Ap G0 Ko left_paren) |]. intros x q <- Aq _. unfold Reads.takes. rewrite (next_here src f q g1 _ _ Aq G1 S1).
    apply (takes_bind src f _ _ _ _ q (eq (Some name)) _ (tc ++ tv ++ g4 ++ close :: rest)).
    { apply takes_if; [exact (name_peeked names name q g1 _ Hn Aq G1) |]. refine (takes_weaken src f _ _ _ _ _ _ _ (name_reads names name q g1 _ Hn Aq G1)). intros x <-. reflexivity. }
    intros o q2 <- Aq2 _. assert (Aq2' := Aq2). rewrite Ete in Aq2'. rewrite <- app_assoc in Aq2'. cbn [app] in Aq2'.
    apply (takes_or src f _ _ _ _ q2 false); [rewrite (peek_kind_here src f K_Colon q2 ge e _ Aq2' Ge Se), Ke; reflexivity |]. rewrite Hl.
    rewrite Etd in Aq2. rewrite <- app_assoc in Aq2. cbn [app] in Aq2.
    assert (Nc : tchar (ctok d) <> Some 61) by (apply (no_char q2 _ d Aq2); [rewrite app_assoc; apply in_ahead | destruct Nd as [K | K]; rewrite K; discriminate]).
    apply (takesg_bind src f _ _ _ _ q2 (eq cmp) _ (d :: rd ++ g4 ++ close :: rest)); [exact (comparison_reads cmp tc q2 gd d _ Hc Wc Aq2 Gd Sd Nc) |]. intros g5 x q3 G5 <- Aq3 _.
    assert (Wv5 : spread value (g5 ++ d :: rd)) by (rewrite Ev; apply sp_cons; assumption).
    apply (takes_bind src f _ _ _ _ q3 (eq value) _ (g4 ++ close :: rest)); [apply (number_reads ty value (g5 ++ d :: rd) q3 g4 close rest Hv Wv5); [rewrite <- app_assoc; exact Aq3 | exact G4 | exact S4 | exact (kind_no_delim close _ 47 Kc ltac:(discriminate))] |]. intros x q4 <- Aq4 _.
    exact (close_reads _ _ q4 g4 close rest Aq4 G4 Kc).
  - destruct H as (Ko & Hv & Hc & Hn & Hl & Kc). destruct (spread_inv _ _ _ W) as (g0 & r0 & -> & G0 & S0 & W0). destruct (spread_app_inv _ _ _ W0) as (tv & r1 & -> & Wv & W1). destruct (spread_app_inv _ _ _ W1) as (tc & r2 & -> & Wc & W2). cbn [app] in W2.
    destruct (spread_inv _ _ _ W2) as (g3 & r3 & -> & G3 & S3 & W3). destruct (spread_inv _ _ _ W3) as (g4 & r4 & -> & G4 & S4 & W4). rewrite (spread_nil_inv _ W4) in *. repeat (rewrite <- app_assoc in Ap; cbn [app] in Ap).
    pose proof (number_head ty value Hv) as (d & rv & Ev & Nd). destruct (comparison_head cmp Hc) as (e & rc & Ec & Ke & N47). assert (Wc' := Wc). rewrite Ec in Wc'. destruct (spread_inv _ _ _ Wc') as (ge & re & Ete & Ge & Se & _).
    assert (Wv' := Wv). rewrite Ev in Wv'. destruct (spread_inv _ _ _ Wv') as (gd & rd & Etd & Gd & Sd & Wd). destruct (words_have names name Hn) as (Kn & _).
    apply (takes_bind src f _ _ _ _ p (eq open) _ (tv ++ tc ++ g3 ++ snd name :: g4 ++ close :: rest)); [exact (take_kind src f K_LeftParen p g0 open _ Ap G0 Ko left_paren) |]. intros x q <- Aq _.
    assert (Aq' := Aq). rewrite Etd in Aq'. rewrite <- app_assoc in Aq'. cbn [app] in Aq'. unfold Reads.takes. rewrite (next_here src f q gd d _ Aq' Gd Sd).
    apply (takes_bind src f _ _ _ _ q (eq None) _ (tv ++ tc ++ g3 ++ snd name :: g4 ++ close :: rest)).
    { apply takes_if_not; [| exact Aq | reflexivity]. apply (peek_set_other src f _ _ _ q gd d _ Aq' Gd Sd). destruct Nd as [K | K]; rewrite K; discriminate. }
    intros o q2 <- Aq2 _. assert (Aq2' := Aq2). rewrite Ete in Aq2'. repeat (rewrite <- app_assoc in Aq2'; cbn [app] in Aq2').
    apply (takes_bind src f _ _ _ _ q2 (eq value) _ (ge ++ e :: re ++ g3 ++ snd name :: g4 ++ close :: rest)); [exact (number_reads ty value tv q2 ge e _ Hv Wv Aq2' Ge Se N47) |]. intros x q3 <- Aq3 _.
    assert (Aq3' : at_ q3 (tc ++ g3 ++ snd name :: g4 ++ close :: rest)) by (rewrite Ete; rewrite <- app_assoc; exact Aq3).
    assert (Nc : tchar (ctok (snd name)) <> Some 61) by (apply (no_char q3 _ _ Aq3'); [rewrite app_assoc; apply in_ahead | rewrite Kn; discriminate]).
    apply (takesg_bind src f _ _ _ _ q3 (eq cmp) _ (snd name :: g4 ++ close :: rest)); [exact (comparison_reads cmp tc q3 g3 _ _ Hc Wc Aq3' G3 S3 Nc) |]. intros g5 x q4 G5 <- Aq4 _. unfold Reads.takes. rewrite (next_here src f q4 g5 _ _ Aq4 G5 S3).
    apply (takes_bind src f _ _ _ _ q4 (eq name) _ (g4 ++ close :: rest)); [exact (name_reads names name q4 g5 _ Hn Aq4 G5) |]. intros x q5 <- Aq5 _. rewrite Hl.
    apply (takes_or src f _ _ _ _ q5 false); [rewrite (peek_kind_here src f K_Delim q5 g4 close _ Aq5 G4 S4), Kc; reflexivity |]. exact (close_reads _ _ q5 g4 close rest Aq5 G4 Kc).
  - destruct H as (Ko & Hv & Hc & Hn & Hl & Hc2 & Hv2 & Kc). destruct (spread_inv _ _ _ W) as (g0 & r0 & -> & G0 & S0 & W0). destruct (spread_app_inv _ _ _ W0) as (tv & r1 & -> & Wv & W1). destruct (spread_app_inv _ _ _ W1) as (tc & r2 & -> & Wc & W2). cbn [app] in W2.
    destruct (spread_inv _ _ _ W2) as (g3 & r3 & -> & G3 & S3 & W3). destruct (spread_app_inv _ _ _ W3) as (tc2 & r5 & -> & Wc2 & W5). destruct (spread_app_inv _ _ _ W5) as (tv2 & r6 & -> & Wv2 & W6).
    destruct (spread_inv _ _ _ W6) as (g4 & r4 & -> & G4 & S4 & W4). rewrite (spread_nil_inv _ W4) in *. repeat (rewrite <- app_assoc in Ap; cbn [app] in Ap).
    pose proof (number_head ty lv Hv) as (d & rv0 & Ev & Nd). destruct (comparison_head lcmp Hc) as (e & rc & Ec & Ke & N47). assert (Wc' := Wc). rewrite Ec in Wc'. destruct (spread_inv _ _ _ Wc') as (ge & re & Ete & Ge & Se & _).
    assert (Wv' := Wv). rewrite Ev in Wv'. destruct (spread_inv _ _ _ Wv') as (gd & rd & Etd & Gd & Sd & Wd). destruct (words_have names name Hn) as (Kn & _).
    pose proof (number_head ty rv Hv2) as (d2 & rv2 & Ev2 & Nd2). destruct (comparison_head rcmp Hc2) as (e2 & rc2 & Ec2 & Ke2 & _). assert (Wc2' := Wc2). rewrite Ec2 in Wc2'. destruct (spread_inv _ _ _ Wc2') as (ge2 & re2 & Ete2 & Ge2 & Se2 & _).
    assert (Wv2' := Wv2). rewrite Ev2 in Wv2'. destruct (spread_inv _ _ _ Wv2') as (gd2 & rd2 & Etd2 & Gd2 & Sd2 & Wd2).
    set (tl := tc2 ++ tv2 ++ g4 ++ close :: rest) in *.
    apply (takes_bind src f _ _ _ _ p (eq open) _ (tv ++ tc ++ g3 ++ snd name :: tl)); [exact (take_kind src f K_LeftParen p g0 open _ Ap G0 Ko left_paren) |]. intros x q <- Aq _.
    assert (Aq' := Aq). rewrite Etd in Aq'. rewrite <- app_assoc in Aq'. cbn [app] in Aq'. unfold Reads.takes. rewrite (next_here src f q gd d _ Aq' Gd Sd).
    apply (takes_bind src f _ _ _ _ q (eq None) _ (tv ++ tc ++ g3 ++ snd name :: tl)).
    { apply takes_if_not; [| exact Aq | reflexivity]. apply (peek_set_other src f _ _ _ q gd d _ Aq' Gd Sd). destruct Nd as [K | K]; rewrite K; discriminate. }
    intros o q2 <- Aq2 _. assert (Aq2' := Aq2). rewrite Ete in Aq2'. repeat (rewrite <- app_assoc in Aq2'; cbn [app] in Aq2').
    apply (takes_bind src f _ _ _ _ q2 (eq lv) _ (ge ++ e :: re ++ g3 ++ snd name :: tl)); [exact (number_reads ty lv tv q2 ge e _ Hv Wv Aq2' Ge Se N47) |]. intros x q3 <- Aq3 _.
    assert (Aq3' : at_ q3 (tc ++ g3 ++ snd name :: tl)) by (rewrite Ete; rewrite <- app_assoc; exact Aq3).
    assert (Nc : tchar (ctok (snd name)) <> Some 61) by (apply (no_char q3 _ _ Aq3'); [rewrite app_assoc; apply in_ahead | rewrite Kn; discriminate]).
    apply (takesg_bind src f _ _ _ _ q3 (eq lcmp) _ (snd name :: tl)); [exact (comparison_reads lcmp tc q3 g3 _ _ Hc Wc Aq3' G3 S3 Nc) |]. intros g5 x q4 G5 <- Aq4 _. unfold Reads.takes. rewrite (next_here src f q4 g5 _ _ Aq4 G5 S3).
    apply (takes_bind src f _ _ _ _ q4 (eq name) _ tl); [exact (name_reads names name q4 g5 _ Hn Aq4 G5) |]. intros x q5 <- Aq5 _. rewrite Hl. unfold tl in *. assert (Aq5' := Aq5). rewrite Ete2 in Aq5'. repeat (rewrite <- app_assoc in Aq5'; cbn [app] in Aq5').
    apply (takes_or src f _ _ _ _ q5 true); [rewrite (peek_kind_here src f K_Delim q5 ge2 e2 _ Aq5' Ge2 Se2), Ke2; reflexivity |].
    rewrite Etd2 in Aq5. rewrite <- app_assoc in Aq5. cbn [app] in Aq5.
    assert (Nc2 : tchar (ctok d2) <> Some 61) by (apply (no_char q5 _ d2 Aq5); [rewrite app_assoc; apply in_ahead | destruct Nd2 as [K | K]; rewrite K; discriminate]).
    apply (takesg_bind src f _ _ _ _ q5 (eq rcmp) _ (d2 :: rd2 ++ g4 ++ close :: rest)); [exact (comparison_reads rcmp tc2 q5 gd2 d2 _ Hc2 Wc2 Aq5 Gd2 Sd2 Nc2) |]. intros g6 x q6 G6 <- Aq6 _.
    assert (Wv6 : spread rv (g6 ++ d2 :: rd2)) by (rewrite Ev2; apply sp_cons; assumption).
    apply (takes_bind src f _ _ _ _ q6 (eq rv) _ (g4 ++ close :: rest)); [apply (number_reads ty rv (g6 ++ d2 :: rd2) q6 g4 close rest Hv2 Wv6); [rewrite <- app_assoc; exact Aq6 | exact G4 | exact S4 | exact (kind_no_delim close _ 47 Kc ltac:(discriminate))] |]. intros x q7 <- Aq7 _.
    exact (close_reads _ _ q7 g4 close rest Aq7 G4 Kc).
  - destruct H as (Ko & Hn & Kl & Hv & Kc). destruct (spread_inv _ _ _ W) as (g0 & r0 & -> & G0 & S0 & W0). cbn [app] in W0. destruct (spread_inv _ _ _ W0) as (g1 & r1 & -> & G1 & S1 & W1).
    destruct (spread_inv _ _ _ W1) as (g2 & r2 & -> & G2 & S2 & W2). destruct (spread_app_inv _ _ _ W2) as (tv & r3 & -> & Wv & W3). destruct (spread_inv _ _ _ W3) as (g4 & r4 & -> & G4 & S4 & W4). rewrite (spread_nil_inv _ W4) in *.
    repeat (rewrite <- app_assoc in Ap; cbn [app] in Ap).
    apply (takes_bind src f _ _ _ _ p (eq open) _ (g1 ++ snd name :: g2 ++ colon :: tv ++ g4 ++ close :: rest)); [exact (take_kind src f K_LeftParen p g0 open _ Ap G0 Ko left_paren) |]. intros x q <- Aq _. unfold Reads.takes. rewrite (next_here src f q g1 _ _ Aq G1 S1).
    apply (takes_bind src f _ _ _ _ q (eq (Some name)) _ (g2 ++ colon :: tv ++ g4 ++ close :: rest)).
    { apply takes_if; [exact (name_peeked names name q g1 _ Hn Aq G1) |]. refine (takes_weaken src f _ _ _ _ _ _ _ (name_reads names name q g1 _ Hn Aq G1)). intros x <-. reflexivity. }
    intros o q2 <- Aq2 _. apply (takes_or src f _ _ _ _ q2 true); [rewrite (peek_kind_here src f K_Colon q2 g2 colon _ Aq2 G2 S2), Kl; reflexivity |].
    apply (takes_bind src f _ _ _ _ q2 (eq colon) _ (tv ++ g4 ++ close :: rest)); [exact (take_kind src f K_Colon q2 g2 colon _ Aq2 G2 Kl solid_colon) |]. intros x q3 <- Aq3 _.
    apply (takes_bind src f _ _ _ _ q3 (eq value) _ (g4 ++ close :: rest)); [exact (number_reads ty value tv q3 g4 close rest Hv Wv Aq3 G4 S4 (kind_no_delim close _ 47 Kc ltac:(discriminate))) |]. intros x q4 <- Aq4 _.
    exact (close_reads _ _ q4 g4 close rest Aq4 G4 Kc).
Qed.
End Ranged.

(* ---- other features ---- *)
Lemma check_reads : forall c w p cs, at_ p cs -> eq_ignore_ascii_case c src w = Some true -> takes (check_name c w) p (fun _ => True) cs.
Proof. intros c w p cs Ap E. exists Datatypes.tt, p. unfold check_name. rewrite (at_src src f _ _ Ap), E. split; [reflexivity |]. split; [exact Logic.I |]. split; [exact Ap | apply mode_refl]. Qed.
Lemma any_reads : forall p g c rest, at_ p (g ++ c :: rest) -> gap g -> solid c -> takes Features.parse_any p (eq c) rest.
Proof. intros p g c rest Ap G Sc. exact (take_single src f _ _ (fun c => c) p g c rest Ap G Sc eq_refl). Qed.
Lemma plain_reads : forall V name (value_p : P V) (okv : text -> V -> Prop) (vc : V -> list cursor) (y : plain_feature V) ts p rest,
  (forall v us, okv src v -> spread (vc v) us -> forall q rest, at_ q (us ++ rest) -> takes value_p q (eq v) rest) ->
  feature_phrase name okv src y -> spread (plain_cursors vc y) ts -> at_ p (ts ++ rest) -> takes (discrete_feature_t name value_p) p (eq y) rest.
Proof.
  intros V name value_p okv vc y ts p rest Hv (Ko & Kn & En & Ov & Kc) W Ap. unfold discrete_feature_t, plain_cursors in *.
  destruct (spread_inv _ _ _ W) as (g0 & r0 & -> & G0 & S0 & W0). destruct (spread_inv _ _ _ W0) as (g1 & r1 & -> & G1 & S1 & W1). destruct y as [open n o close]. cbn [fopen fname fvalue fclose] in *.
  destruct o as [(colon & v) |].
  - destruct Ov as (Kl & Ov). cbn [app] in W1. destruct (spread_inv _ _ _ W1) as (g2 & r2 & -> & G2 & S2 & W2). destruct (spread_app_inv _ _ _ W2) as (tv & r3 & -> & Wv & W3). destruct (spread_inv _ _ _ W3) as (g4 & r4 & -> & G4 & S4 & W4). rewrite (spread_nil_inv _ W4) in *.
    repeat (rewrite <- app_assoc in Ap; cbn [app] in Ap).
    apply (takes_bind src f _ _ _ _ p (eq open) _ (g1 ++ n :: g2 ++ colon :: tv ++ g4 ++ close :: rest)); [exact (take_kind src f K_LeftParen p g0 open _ Ap G0 Ko left_paren) |]. intros x q <- Aq _.
    apply (takes_bind src f _ _ _ _ q (eq n) _ (g2 ++ colon :: tv ++ g4 ++ close :: rest)); [exact (take_kind src f K_Ident q g1 n _ Aq G1 Kn solid_ident) |]. intros x q2 <- Aq2 _.
    apply (takes_bind src f _ _ _ _ q2 (fun _ => True) _ (g2 ++ colon :: tv ++ g4 ++ close :: rest)); [exact (check_reads n name q2 _ Aq2 En) |]. intros x q3 _ Aq3 _.
    apply (takes_or src f _ _ _ _ q3 true); [rewrite (peek_kind_here src f K_Colon q3 g2 colon _ Aq3 G2 S2), Kl; reflexivity |].
    apply (takes_bind src f _ _ _ _ q3 (eq colon) _ (tv ++ g4 ++ close :: rest)); [exact (take_kind src f K_Colon q3 g2 colon _ Aq3 G2 Kl solid_colon) |]. intros x0 q4 <- Aq4 _.
    apply (takes_bind src f _ _ _ _ q4 (eq v) _ (g4 ++ close :: rest)); [exact (Hv v tv Ov Wv q4 _ Aq4) |]. intros x1 q5 <- Aq5 _. exact (close_reads _ _ q5 g4 close rest Aq5 G4 Kc).
  - cbn [app] in W1. destruct (spread_inv _ _ _ W1) as (g4 & r4 & -> & G4 & S4 & W4). rewrite (spread_nil_inv _ W4) in *. repeat (rewrite <- app_assoc in Ap; cbn [app] in Ap).
    apply (takes_bind src f _ _ _ _ p (eq open) _ (g1 ++ n :: g4 ++ close :: rest)); [exact (take_kind src f K_LeftParen p g0 open _ Ap G0 Ko left_paren) |]. intros x q <- Aq _.
    apply (takes_bind src f _ _ _ _ q (eq n) _ (g4 ++ close :: rest)); [exact (take_kind src f K_Ident q g1 n _ Aq G1 Kn solid_ident) |]. intros x q2 <- Aq2 _.
    apply (takes_bind src f _ _ _ _ q2 (fun _ => True) _ (g4 ++ close :: rest)); [exact (check_reads n name q2 _ Aq2 En) |]. intros x q3 _ Aq3 _.
    apply (takes_or src f _ _ _ _ q3 false); [rewrite (peek_kind_here src f K_Colon q3 g4 close _ Aq3 G4 S4), Kc; reflexivity |]. exact (close_reads _ _ q3 g4 close rest Aq3 G4 Kc).
Qed.
Lemma feature_reads : forall k y ts p rest, feature_fits src k y -> spread (feature_cursors y) ts -> at_ p (ts ++ rest) -> takes (parse_feature k) p (eq y) rest.
Proof.
  intros k y ts p rest H W Ap. destruct k as [name values | name | names legacy ty |]; destruct y as [y | y]; try contradiction; cbn [feature_fits feature_cursors parse_feature] in *; apply takes_map.
  - refine (takes_weaken src f _ _ _ _ _ _ _ (plain_reads _ name (pmap snd (parse_set K_Ident (words values))) (fun _ c => a_word src values c) (fun c => [c]) y ts p rest _ H W Ap)); [intros x <-; reflexivity |].
    intros v us (w & Hw) U q r Aq. destruct (spread_inv _ _ _ U) as (g & r0 & -> & G & Sv & U'). rewrite (spread_nil_inv _ U') in *. rewrite <- app_assoc in Aq. cbn [app] in Aq. apply takes_map.
    refine (takes_weaken src f _ _ _ _ _ _ _ (name_reads values (w, v) q g r Hw Aq G)). intros x <-. reflexivity.
  - refine (takes_weaken src f _ _ _ _ _ _ _ (plain_reads _ name Features.parse_any (fun _ _ => True) (fun c => [c]) y ts p rest _ H W Ap)); [intros x <-; reflexivity |].
    intros v us _ U q r Aq. destruct (spread_inv _ _ _ U) as (g & r0 & -> & G & Sv & U'). rewrite (spread_nil_inv _ U') in *. rewrite <- app_assoc in Aq. cbn [app] in Aq. exact (any_reads q g v r Aq G Sv).
  - refine (takes_weaken src f _ _ _ _ _ _ _ (ranged_reads names (fun w => existsb (text_eqb (fst w)) legacy) ty y ts p rest H W Ap)). intros x <-. reflexivity.
Qed.
(* ---- where the name is ---- *)
Lemma peeked : forall p l ts rest n, at_ p (ts ++ rest) -> spread l ts -> (1 <= n)%nat -> peek_n p (N.of_nat n) = Some (nth (n - 1) (l ++ kept (pskip p) rest) (eof_cursor p)).
Proof.
  intros p l ts rest n Ap W Hn. rewrite (peek_n_spec p _ _ (at_ahead src f _ _ Ap)) by lia. rewrite Nat2N.id, kept_app, (spread_kept p l ts (at_ready src f _ _ Ap) W). reflexivity.
Qed.
Lemma in_spread : forall l ts c, spread l ts -> In c l -> In c ts.
Proof. intros l ts c W. induction W as [| g d l ts G N W IH]; intros I; [destruct I |]. destruct I as [-> | I]; [apply in_ahead |]. apply in_or_app. right. right. exact (IH I). Qed.
Definition single_value (k : feature_kind) : bool := match k with FRanged _ _ NRatio => false | _ => true end.
Lemma single_media : forallb (fun r => single_value (snd r)) css_media_features = true.
Proof. vm_compute. reflexivity. Qed.
(* the second, the fourth or the fifth token is the name, and those before it that are looked at are no names *)
Definition ident_at (l : list cursor) (c : cursor) : Prop :=
  nth_error l 1 = Some c \/ exists c2 c4, nth_error l 1 = Some c2 /\ kind_of c2 <> K_Ident /\ nth_error l 3 = Some c4 /\ (c4 = c \/ kind_of c4 <> K_Ident /\ nth_error l 4 = Some c).
Lemma feature_name_at : forall k y, feature_fits src k y -> single_value k = true -> kind_of (feature_name y) = K_Ident /\ ident_at (feature_cursors y) (feature_name y).
Proof.
  intros k y H Sk. destruct k as [name values | name | names legacy ty |]; destruct y as [y | y]; try contradiction; cbn [feature_fits feature_cursors feature_name] in *.
  - destruct H as (_ & Kn & _). split; [exact Kn | left; reflexivity].
  - destruct H as (_ & Kn & _). split; [exact Kn | left; reflexivity].
  - assert (Nv : forall l, number_fits src ty l -> exists d, l = [d] /\ kind_of d <> K_Ident). { intros l Hl. destruct ty; try discriminate; destruct Hl as (d & -> & Hd); exists d; (split; [reflexivity |]); [destruct Hd as [(K & _) | (K & _)] | destruct Hd as (K & _) | destruct Hd as (K & _)]; rewrite K; discriminate. }
    assert (Nc : forall cmp d n r o, comparison_spelled cmp -> kind_of d <> K_Ident -> ident_at (o :: [d] ++ comparison_cursors cmp ++ n :: r) n).
    { intros cmp d n r o Hc Kd. right. destruct cmp as [c | c | a b | a b | c]; cbn in Hc.
      1, 2, 5: exists d, n; (split; [reflexivity |]); (split; [exact Kd |]); (split; [reflexivity | left; reflexivity]).
      all: exists d, b; (split; [reflexivity |]); (split; [exact Kd |]); (split; [reflexivity |]); right; (split; [destruct Hc as (_ & (K & _) & _); unfold kind_of; rewrite K; discriminate | reflexivity]). }
    destruct y as [open n cmp value close | open value cmp n close | open lv lcmp n rcmp rv close | open n colon value close]; cbn [ranged_phrase ranged_cursors] in *.
    + destruct H as (_ & Hn & _). split; [exact (proj1 (words_have names n Hn)) | left; reflexivity].
    + destruct H as (_ & Hv & Hc & Hn & _). split; [exact (proj1 (words_have names n Hn)) |]. destruct (Nv value Hv) as (d & -> & Kd). exact (Nc cmp d (snd n) [close] open Hc Kd).
    + destruct H as (_ & Hv & Hc & Hn & _). split; [exact (proj1 (words_have names n Hn)) |]. destruct (Nv lv Hv) as (d & -> & Kd). exact (Nc lcmp d (snd n) _ open Hc Kd).
    + destruct H as (_ & Hn & _). split; [exact (proj1 (words_have names n Hn)) | left; reflexivity].
Qed.
Lemma nth_of : forall (l r : list cursor) i d c, nth_error l i = Some c -> nth i (l ++ r) d = c.
Proof. intros l r i d c E. apply nth_error_nth. rewrite nth_error_app1; [exact E |]. apply nth_error_Some. rewrite E. discriminate. Qed.
(* ---- media features ---- *)
Lemma media_names_apart : ValuesTaken.apart (map fst MEDIA_FEATURES) = true.
Proof. vm_compute. reflexivity. Qed.
Lemma media_table : MEDIA_FEATURES = flat_map (fun row => map (fun n => (chars n, (chars (hd EmptyString (fst row)), snd row))) (fst row)) css_media_features.
Proof. reflexivity. Qed.
Lemma media_get : forall names k w, In (names, k) css_media_features -> In w (map chars names) -> map_get MEDIA_FEATURES w = Some (chars (hd EmptyString names), k).
Proof.
  intros names k w I Iw. apply apart_get; [exact media_names_apart |]. rewrite media_table. apply in_flat_map. exists (names, k). split; [exact I |]. cbn [fst snd]. apply in_map_iff in Iw. destruct Iw as (n & <- & In_). apply in_map_iff. exists n. split; [reflexivity | exact In_].
Qed.
Lemma takes_eq : forall A (m m' : P A) p (Q : A -> Prop) rest, m p = m' p -> takes m' p Q rest -> takes m p Q rest.
Proof. intros A m m' p Q rest E (x & q & E' & K). exists x, q. split; [rewrite E; exact E' | exact K]. Qed.
Lemma media_feature_reads : forall x ts, media_feature_written src x ts -> forall p rest, at_ p (ts ++ rest) -> takes parse_media_feature p (eq x) rest.
Proof.
  intros x ts [names k y w toks I Ew Iw Hf W] p rest Ap. pose proof (media_get names k w I Iw) as M. pose proof single_media as Sm. rewrite forallb_forall in Sm. destruct (feature_name_at k y Hf (Sm _ I)) as (Kn & At). set (c := feature_name y) in *.
  assert (T : takes (named_feature (chars (hd EmptyString names), k)) p (eq (MfFeature (chars (hd EmptyString names)) y)) rest).
  { unfold named_feature. cbn [fst snd]. apply takes_map. refine (takes_weaken src f _ _ _ _ _ _ _ (feature_reads k y toks p rest Hf W Ap)). intros z <-. reflexivity. }
  destruct T as (z & q & Ez & <- & K). exists (MfFeature (chars (hd EmptyString names)) y), q. split; [| split; [reflexivity | exact K]]. unfold parse_media_feature.
  pose proof (peeked p _ _ rest 2 Ap W ltac:(lia)) as P2. pose proof (peeked p _ _ rest 4 Ap W ltac:(lia)) as P4. pose proof (peeked p _ _ rest 5 Ap W ltac:(lia)) as P5. cbn [N.of_nat Pos.of_succ_nat Pos.succ Nat.sub] in P2, P4, P5. rewrite P2, P4, P5.
  assert (Nn : forall d, In d (feature_cursors y) -> kind_of d <> K_Ident -> tok_is (ctok d) K_Ident = false).
  { intros d Id Kd. apply tok_not; [exact Kd |]. apply (at_lasts src f p _ d Ap). apply in_or_app. left. exact (in_spread _ _ _ W Id). }
  destruct At as [E2 | (c2 & c4 & E2 & N2 & E4 & H)].
  - rewrite (nth_of _ _ _ _ _ E2), (tok_kind K_Ident c Kn) by discriminate. unfold match_media, look_up. rewrite (at_src src f _ _ Ap), Ew, M, Ez. reflexivity.
  - rewrite (nth_of _ _ _ _ _ E2), (Nn c2 (nth_error_In _ _ E2) N2), (nth_of _ _ _ _ _ E4). destruct H as [-> | (N4 & E5)].
    + rewrite (tok_kind K_Ident c Kn) by discriminate. cbv zeta. rewrite (tok_kind K_Ident c Kn) by discriminate. unfold match_media, look_up. rewrite (at_src src f _ _ Ap), Ew, M. exact Ez.
    + rewrite (Nn c4 (nth_error_In _ _ E4) N4), (nth_of _ _ _ _ _ E5). cbv zeta. rewrite (tok_kind K_Ident c Kn) by discriminate. unfold match_media, look_up. rewrite (at_src src f _ _ Ap), Ew, M. exact Ez.
Qed.
(* ---- features of containers ---- *)
Lemma container_names_apart : ValuesTaken.apart (map fst CONTAINER_FEATURES) = true.
Proof. vm_compute. reflexivity. Qed.
Lemma early_name : forall k y, feature_fits src k y -> In (feature_name y) (firstn 4 (feature_cursors y)) ->
  kind_of (feature_name y) = K_Ident /\ exists o l, feature_cursors y = o :: l /\ kind_of o = K_LeftParen /\
  (nth_error l 0 = Some (feature_name y) \/ exists c2 c3, nth_error l 0 = Some c2 /\ kind_of c2 <> K_Ident /\ nth_error l 1 = Some c3 /\ kind_of c3 <> K_Ident /\ nth_error l 2 = Some (feature_name y)).
Proof.
  intros k y H Ie. destruct k as [name values | name | names legacy ty |]; destruct y as [y | y]; try contradiction; cbn [feature_fits feature_cursors feature_name] in *.
  - destruct H as (Ko & Kn & _). split; [exact Kn |]. exists (fopen y). eexists. split; [reflexivity |]. split; [exact Ko | left; reflexivity].
  - destruct H as (Ko & Kn & _). split; [exact Kn |]. exists (fopen y). eexists. split; [reflexivity |]. split; [exact Ko | left; reflexivity].
  - assert (Nv : forall l, number_fits src ty l -> (exists d, l = [d] /\ kind_of d <> K_Ident) \/ exists a b d, l = [a; b; d] /\ kind_of a <> K_Ident /\ kind_of b <> K_Ident /\ kind_of d <> K_Ident).
    { intros l Hl. destruct ty; cbn [number_fits] in Hl; [left | left | left |]; try (destruct Hl as (d & -> & Hd); exists d; (split; [reflexivity |]); [destruct Hd as [(K & _) | (K & _)] || destruct Hd as (K & _); rewrite K; discriminate]).
      destruct Hl as (a & (Ka & _) & [-> | (s & b & -> & (Ks & _) & (Kb & _))]); [left | right]; [exists a; split; [reflexivity | rewrite Ka; discriminate] |]. exists a, s, b. split; [reflexivity |]. split; [rewrite Ka; discriminate |]. split; [unfold kind_of; rewrite Ks; discriminate | rewrite Kb; discriminate]. }
    assert (Nc : forall value cmp n r o, number_fits src ty value -> comparison_spelled cmp -> kind_of n = K_Ident -> kind_of o = K_LeftParen -> In n (firstn 4 (o :: value ++ comparison_cursors cmp ++ n :: r)) ->
      nth_error (value ++ comparison_cursors cmp ++ n :: r) 0 = Some n \/ exists c2 c3, nth_error (value ++ comparison_cursors cmp ++ n :: r) 0 = Some c2 /\ kind_of c2 <> K_Ident /\ nth_error (value ++ comparison_cursors cmp ++ n :: r) 1 = Some c3 /\ kind_of c3 <> K_Ident /\ nth_error (value ++ comparison_cursors cmp ++ n :: r) 2 = Some n).
    { intros value cmp n r o Hv Hc Kn Ko I4. destruct (Nv value Hv) as [(d & -> & Kd) | (a & b & d & -> & Ka & Kb & Kd)].
      - destruct cmp as [c | c | a b | a b | c]; cbn in Hc.
        1, 2, 5: right; exists d, c; (split; [reflexivity |]); (split; [exact Kd |]); (split; [reflexivity |]); (split; [destruct Hc as (K & _); unfold kind_of; rewrite K; discriminate | reflexivity]).
        all: exfalso; cbn [app comparison_cursors firstn In] in I4; destruct Hc as ((K1 & _) & (K2 & _) & _); repeat (destruct I4 as [I4 | I4]; [subst n; unfold kind_of in *; congruence |]); exact I4.
      - exfalso. cbn [app firstn In] in I4. repeat (destruct I4 as [I4 | I4]; [subst n; congruence |]). exact I4. }
    destruct y as [open n cmp value close | open value cmp n close | open lv lcmp n rcmp rv close | open n colon value close]; cbn [ranged_phrase ranged_cursors] in *.
    + destruct H as (Ko & Hn & _). split; [exact (proj1 (words_have names n Hn)) |]. exists open. eexists. split; [reflexivity |]. split; [exact Ko | left; reflexivity].
    + destruct H as (Ko & Hv & Hc & Hn & _). pose proof (proj1 (words_have names n Hn)) as Kn. split; [exact Kn |]. exists open. eexists. split; [reflexivity |]. split; [exact Ko |]. exact (Nc value cmp (snd n) [close] open Hv Hc Kn Ko Ie).
    + destruct H as (Ko & Hv & Hc & Hn & _). pose proof (proj1 (words_have names n Hn)) as Kn. split; [exact Kn |]. exists open. eexists. split; [reflexivity |]. split; [exact Ko |]. exact (Nc lv lcmp (snd n) _ open Hv Hc Kn Ko Ie).
    + destruct H as (Ko & Hn & _). split; [exact (proj1 (words_have names n Hn)) |]. exists open. eexists. split; [reflexivity |]. split; [exact Ko | left; reflexivity].
Qed.
Lemma container_feature_reads : forall x ts, container_feature_written src x ts -> forall p rest, at_ p (ts ++ rest) -> takes parse_container_feature p (eq x) rest.
Proof.
  intros x ts [name k y toks I Ew Hf Ie W] p rest Ap. assert (M : map_get CONTAINER_FEATURES name = Some (name, k)) by (apply apart_get; [exact container_names_apart | exact I]).
  destruct (early_name k y Hf Ie) as (Kn & o & l & El & Ko & At). set (c := feature_name y) in *. assert (W' := W). rewrite El in W'. destruct (spread_inv _ _ _ W') as (g0 & r0 & Et & G0 & S0 & _).
  assert (Ap' := Ap). rewrite Et in Ap'. rewrite <- app_assoc in Ap'. cbn [app] in Ap'. unfold parse_container_feature. apply (takes_or src f _ _ _ _ p false); [rewrite (peek_kind_here src f K_Function p g0 o _ Ap' G0 S0), Ko; reflexivity |].
  assert (T : takes (pmap (pair name) (parse_feature k)) p (eq (name, y)) rest).
  { apply takes_map. refine (takes_weaken src f _ _ _ _ _ _ _ (feature_reads k y toks p rest Hf W Ap)). intros z <-. reflexivity. }
  destruct T as (z & q & Ez & <- & K). exists (name, y), q. split; [| split; [reflexivity | exact K]].
  pose proof (peeked p _ _ rest 2 Ap W ltac:(lia)) as P2. pose proof (peeked p _ _ rest 3 Ap W ltac:(lia)) as P3. pose proof (peeked p _ _ rest 4 Ap W ltac:(lia)) as P4. cbn [N.of_nat Pos.of_succ_nat Pos.succ Nat.sub] in P2, P3, P4. rewrite El in P2, P3, P4. cbv beta. rewrite P2, P3, P4. cbn [app nth].
  assert (Nn : forall d, In d l -> kind_of d <> K_Ident -> tok_is (ctok d) K_Ident = false).
  { intros d Id Kd. apply tok_not; [exact Kd |]. apply (at_lasts src f p _ d Ap). apply in_or_app. left. apply (in_spread _ _ _ W). rewrite El. right. exact Id. }
  assert (F : peek_set K_Ident CONTAINER_FEATURES p c = Some true /\ build_set CONTAINER_FEATURES p c = Some ((name, k), c)).
  { unfold peek_set, build_set, look_up. rewrite (tok_kind K_Ident c Kn), (at_src src f _ _ Ap), Ew, M by discriminate. split; reflexivity. }
  destruct F as (F1 & F2). destruct At as [E2 | (c2 & c3 & E2 & N2 & E3 & N3 & E4)].
  - rewrite (nth_of _ _ _ _ _ E2), (tok_kind K_Ident c Kn) by discriminate. cbv zeta. rewrite F1, F2. exact Ez.
  - rewrite (nth_of _ _ _ _ _ E2), (Nn c2 (nth_error_In _ _ E2) N2), (nth_of _ _ _ _ _ E3), (Nn c3 (nth_error_In _ _ E3) N3), (nth_of _ _ _ _ _ E4). cbv zeta. rewrite F1, F2. exact Ez.
Qed.

(* ---- conditions ---- *)
Definition opens (ts : list cursor) : Prop := exists g c r, ts = g ++ c :: r /\ gap g /\ solid c /\ kind_of c = K_LeftParen.
Lemma feature_opens : forall k y ts, feature_fits src k y -> spread (feature_cursors y) ts -> opens ts.
Proof.
  intros k y ts H W. assert (E : exists o l, feature_cursors y = o :: l /\ kind_of o = K_LeftParen).
  { destruct k as [name values | name | names legacy ty |]; destruct y as [y | y]; try contradiction; cbn [feature_fits feature_cursors] in *.
    - destruct H as (Ko & _). eexists _, _. split; [reflexivity | exact Ko].
    - destruct H as (Ko & _). eexists _, _. split; [reflexivity | exact Ko].
    - destruct y; destruct H as (Ko & _); eexists _, _; (split; [reflexivity | exact Ko]). }
  destruct E as (o & l & El & Ko). rewrite El in W. destruct (spread_inv _ _ _ W) as (g & r & -> & G & Sc & _). exists g, o, r. auto.
Qed.
Section Conditions.
Context {F : Type} (item : F -> list cursor -> Prop) (item_p : P F).
Hypothesis (Ir : forall x t, item x t -> forall p rest, at_ p (t ++ rest) -> takes item_p p (eq x) rest) (Io : forall x t, item x t -> opens t).
Lemma no_keyword : forall p g c rest, at_ p (g ++ c :: rest) -> gap g -> solid c -> kind_of c <> K_Ident -> peek_set K_Ident CONDITION_KEYWORDS p c = Some false.
Proof. intros p g c rest Ap G Sc K. unfold peek_set. rewrite (tok_not K_Ident c K); [reflexivity |]. exact (at_lasts src f p _ c Ap (in_ahead _ _ _)). Qed.
Lemma second_reads : forall x0 kw y u p g c rest, item y u -> at_ p (u ++ g ++ c :: rest) -> gap g -> solid c -> kind_of c <> K_Ident ->
  takes (fun p => condition_loop item_p (sfuel p) x0 kw p) p (eq [(x0, Some kw); (y, None)]) (g ++ c :: rest).
Proof.
  intros x0 kw y u p g c rest Iy Ap G Sc K. unfold Reads.takes. assert (E : exists n, sfuel p = S n) by (unfold sfuel; exists (2 * pfuel p + 1)%nat; lia). destruct E as (n & ->). cbn [condition_loop].
  apply (takes_bind src f _ _ _ _ p (eq y) _ (g ++ c :: rest)); [exact (Ir y u Iy p _ Ap) |]. intros z q <- Aq _. unfold Reads.takes. rewrite (next_here src f q g c rest Aq G Sc), (no_keyword q g c rest Aq G Sc K).
  eexists _, q. split; [reflexivity |]. split; [reflexivity |]. split; [exact Aq | apply mode_refl].
Qed.
Lemma condition_reads : forall x ts, condition_written src item x ts -> forall p g c rest, at_ p (ts ++ g ++ c :: rest) -> gap g -> solid c -> kind_of c <> K_Ident -> takes (condition_t item_p) p (eq x) (g ++ c :: rest).
Proof.
  intros x ts W p g c rest Ap G Sc K.
  assert (H : forall y t more, item y t -> at_ p (t ++ more) -> exists d, peek_next p = Some d /\ peek_set K_Ident CONDITION_KEYWORDS p d = Some false).
  { intros y t more Iy Aq. destruct (Io y t Iy) as (g0 & d & r & -> & G0 & Sd & Kd). rewrite <- app_assoc in Aq. cbn [app] in Aq. exists d. split; [exact (next_here src f p g0 d _ Aq G0 Sd) |]. apply (no_keyword p g0 d _ Aq G0 Sd). rewrite Kd. discriminate. }
  unfold Reads.takes, condition_t. destruct W as [x t Ix | x t g1 k y u Ix G1 Kk Ek Iy | x t g1 k y u Ix G1 Kk Ek Iy].
  - destruct (H x t _ Ix Ap) as (d & -> & ->). apply (takes_bind src f _ _ _ _ p (eq x) _ (g ++ c :: rest)); [exact (Ir x t Ix p _ Ap) |]. intros z q <- Aq _.
    apply (takes_bind src f _ _ _ _ q (eq None) _ (g ++ c :: rest)); [| intros o q2 <- Aq2 _; apply takes_ret; [exact Aq2 | reflexivity]].
    apply takes_if_not; [rewrite (peek_here src f _ q g c rest Aq G Sc); exact (no_keyword q g c rest Aq G Sc K) | exact Aq | reflexivity].
  - rewrite <- app_assoc in Ap. cbn [app] in Ap. rewrite <- app_assoc in Ap. cbn [app] in Ap. destruct (H x t _ Ix Ap) as (d & -> & ->). apply (takes_bind src f _ _ _ _ p (eq x) _ (g1 ++ k :: u ++ g ++ c :: rest)); [exact (Ir x t Ix p _ Ap) |]. intros z q <- Aq _.
    apply (takes_bind src f _ _ _ _ q (eq (Some (KwAnd, k))) _ (u ++ g ++ c :: rest)).
    + apply takes_if; [rewrite (peek_set_here src f _ CONDITION_KEYWORDS K_Ident q g1 k _ _ Aq G1 (name_solid _ Kk) Kk ltac:(discriminate) Ek); reflexivity |].
      refine (takes_weaken src f _ _ _ _ _ _ _ (take_set src f _ CONDITION_KEYWORDS K_Ident q g1 k _ _ KwAnd Aq G1 (name_solid _ Kk) Kk ltac:(discriminate) Ek eq_refl)). intros z <-. reflexivity.
    + intros o q2 <- Aq2 _. change (takes (pmap CAnd (fun p => condition_loop item_p (sfuel p) x (KwAnd, k) p)) q2 (eq (CAnd [(x, Some (KwAnd, k)); (y, None)])) (g ++ c :: rest)). apply takes_map.
      refine (takes_weaken src f _ _ _ _ _ _ _ (second_reads x (KwAnd, k) y u q2 g c rest Iy Aq2 G Sc K)). intros z <-. reflexivity.
  - rewrite <- app_assoc in Ap. cbn [app] in Ap. rewrite <- app_assoc in Ap. cbn [app] in Ap. destruct (H x t _ Ix Ap) as (d & -> & ->). apply (takes_bind src f _ _ _ _ p (eq x) _ (g1 ++ k :: u ++ g ++ c :: rest)); [exact (Ir x t Ix p _ Ap) |]. intros z q <- Aq _.
    apply (takes_bind src f _ _ _ _ q (eq (Some (KwOr, k))) _ (u ++ g ++ c :: rest)).
    + apply takes_if; [rewrite (peek_set_here src f _ CONDITION_KEYWORDS K_Ident q g1 k _ _ Aq G1 (name_solid _ Kk) Kk ltac:(discriminate) Ek); reflexivity |].
      refine (takes_weaken src f _ _ _ _ _ _ _ (take_set src f _ CONDITION_KEYWORDS K_Ident q g1 k _ _ KwOr Aq G1 (name_solid _ Kk) Kk ltac:(discriminate) Ek eq_refl)). intros z <-. reflexivity.
    + intros o q2 <- Aq2 _. change (takes (pmap COr (fun p => condition_loop item_p (sfuel p) x (KwOr, k) p)) q2 (eq (COr [(x, Some (KwOr, k)); (y, None)])) (g ++ c :: rest)). apply takes_map.
      refine (takes_weaken src f _ _ _ _ _ _ _ (second_reads x (KwOr, k) y u q2 g c rest Iy Aq2 G Sc K)). intros z <-. reflexivity.
Qed.
Lemma condition_opens : forall x ts, condition_written src item x ts -> opens ts.
Proof.
  intros x ts [y t Iy | y t g k z u Iy _ _ _ _ | y t g k z u Iy _ _ _ _]; [exact (Io y t Iy) | |]; destruct (Io y t Iy) as (g0 & d & r & -> & G0 & Sd & Kd); exists g0, d, (r ++ g ++ k :: u); rewrite <- app_assoc; auto.
Qed.
End Conditions.
Lemma media_condition_reads : forall x ts, condition_written src (media_feature_written src) x ts -> opens ts /\ forall p g c rest, at_ p (ts ++ g ++ c :: rest) -> gap g -> solid c -> kind_of c <> K_Ident -> takes (condition_t parse_media_feature) p (eq x) (g ++ c :: rest).
Proof.
  assert (Io : forall x t, media_feature_written src x t -> opens t) by (intros x t [names k y w toks _ _ _ Hf W]; exact (feature_opens k y toks Hf W)).
  intros x ts W. split; [exact (condition_opens _ Io x ts W) | exact (condition_reads _ _ media_feature_reads Io x ts W)].
Qed.
Lemma container_condition_reads : forall x ts, condition_written src (container_feature_written src) x ts -> opens ts /\ forall p g c rest, at_ p (ts ++ g ++ c :: rest) -> gap g -> solid c -> kind_of c <> K_Ident -> takes (condition_t parse_container_feature) p (eq x) (g ++ c :: rest).
Proof.
  assert (Io : forall x t, container_feature_written src x t -> opens t) by (intros x t [name k y toks _ _ Hf _ W]; exact (feature_opens k y toks Hf W)).
  intros x ts W. split; [exact (condition_opens _ Io x ts W) | exact (condition_reads _ _ container_feature_reads Io x ts W)].
Qed.
End ReadsFeature.
