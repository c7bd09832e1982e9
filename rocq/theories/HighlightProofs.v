(* The highlighter inserts what SpecHighlight.v says, and the marks do not overlap. *)
From Coq Require Import ZifyBool ZifyNat ZifyN Permutation.
From Coq Require Import String.
From Coq Require Import List.
From Verif Require Import Highlight SpecLex SpecTrace SpecParser SpecSyntax SpecTraits SpecFeatures SpecSelectors SpecLspDoc LexBase Shows Shows2 Shows3 Shows4 SpecHighlight.
Open Scope N_scope.
Open Scope list_scope.

(* ---- the highlighter inserts the marks ---- *)
Definition near (c : cursor) : Prop := coff c < DUMMY_OFFSET.
Definition fit (src : text) (m : mark) : Prop := true_mark src m /\ Forall near (mark_cursors m).
Lemma near_span : forall c, near c -> cspan c = Span (coff c) (token_end c).
Proof. intros c Nc. unfold near in Nc. unfold cspan, span_new, cend. replace (coff c =? DUMMY_OFFSET) with false by lia. reflexivity. Qed.
Lemma each_some : forall A (f : A -> inserts) (g : A -> list highlight) l, (forall x, In x l -> f x = Some (g x)) -> each f l = Some (flat_map g l).
Proof.
  intros A f g. induction l as [| x l IH]; intro H; [reflexivity |]. cbn [each flat_map]. rewrite (H x (or_introl eq_refl)). fold (each f l). rewrite IH; [reflexivity |]. intros y Iy. apply H. now right.
Qed.
Lemma each_none : forall A (f : A -> inserts) x l, In x l -> f x = None -> each f l = None.
Proof.
  intros A f x. induction l as [| y l IH]; intros Ix E; [destruct Ix |]. cbn [each]. fold (each f l). destruct Ix as [-> | Ix]; [rewrite E; reflexivity |]. rewrite (IH Ix E). destruct (f y); reflexivity.
Qed.
Lemma map_flat_map : forall A B C (h : B -> C) (g : A -> list B) l, map h (flat_map g l) = flat_map (fun x => map h (g x)) l.
Proof. intros. induction l as [| x l IH]; [reflexivity |]. cbn [flat_map]. rewrite map_app, IH. reflexivity. Qed.
Lemma each_marks : forall A src (f : A -> inserts) (g : A -> list mark) l, (forall x, In x l -> Forall (fit src) (g x) -> f x = Some (map shown (g x))) -> Forall (fit src) (flat_map g l) -> each f l = Some (map shown (flat_map g l)).
Proof.
  intros A src f g l H F. rewrite map_flat_map. apply each_some. intros x Ix. apply H; [exact Ix |]. rewrite Forall_forall in *. intros m Im. apply F. apply in_flat_map. eauto.
Qed.
Lemma then_marks : forall src a b x y, (Forall (fit src) x -> a = Some (map shown x)) -> (Forall (fit src) y -> b = Some (map shown y)) -> Forall (fit src) (x ++ y) -> then_ a b = Some (map shown (x ++ y)).
Proof. intros src a b x y A B F. apply Forall_app in F. destruct F as (Fx & Fy). rewrite (A Fx), (B Fy), map_app. reflexivity. Qed.

Lemma one_near : forall src m c, fit src m -> mark_cursors m = [c] -> cspan c = Span (coff c) (token_end c).
Proof. intros src m c (_ & F) E. rewrite E in F. inversion F; subst. apply near_span. assumption. Qed.
Lemma tag_shown : forall src t, fit src (MTag t) -> visit_tag t = shown (MTag t).
Proof. intros src t F. unfold visit_tag, insert_one. rewrite (one_near src _ _ F eq_refl). destruct t; reflexivity. Qed.
Lemma class_shown : forall src x, fit src (MClass x) -> visit_pseudo_class x = shown (MClass x).
Proof.
  intros src (v & w & colon & ident) (T & F). cbn [mark_cursors] in F. inversion F as [| ? ? Nc F1]; subst. inversion F1 as [| ? ? Ni F2]; subst. unfold visit_pseudo_class. rewrite (near_span _ Nc), (near_span _ Ni).
  destruct T as (_ & _ & Ad). unfold adjacent in Ad. 
  assert (E : span_add (Span (coff colon) (token_end colon)) (Span (coff ident) (token_end ident)) = Span (coff colon) (token_end ident)); [| rewrite E; destruct v; reflexivity]. unfold span_add, token_end. cbn [sstart send]. f_equal.
  - destruct (coff colon <? coff ident) eqn:E; [reflexivity |]. lia.
  - destruct (coff ident + tlen (ctok ident) <? coff colon + tlen (ctok colon)) eqn:E; [lia | reflexivity].
Qed.
Lemma punctuation_shown : forall src c, fit src (MPunctuation c) -> insert_one c SK_PUNCTUATION 0 = shown (MPunctuation c).
Proof. intros src c F. unfold insert_one. rewrite (one_near src _ _ F eq_refl). reflexivity. Qed.
Lemma name_shown : forall src c b, fit src (MName c b) -> insert_one c SK_DECLARATION (name_modifier b c) = shown (MName c b).
Proof. intros src c b F. unfold insert_one. rewrite (one_near src _ _ F eq_refl). unfold shown, name_modifier, shown_span, shown_kind, shown_modifier. f_equal. destruct b, (is_dashed_ident (ctok c)); reflexivity. Qed.
Lemma registered_shown : forall src c, fit src (MRegistered c) -> insert_one c SK_DECLARATION SM_CUSTOM = shown (MRegistered c).
Proof. intros src c F. unfold insert_one. rewrite (one_near src _ _ F eq_refl). reflexivity. Qed.
Lemma two_fit : forall src a b, Forall (fit src) [a; b] -> fit src a /\ fit src b.
Proof. intros src a b F. inversion F as [| ? ? A F1]; subst. inversion F1; subst. auto. Qed.

Lemma selectors_shown : forall src l, Forall (fit src) (selectors_marks l) -> accept_selectors l = Some (map shown (selectors_marks l)).
Proof.
  intros src l. apply each_marks. intros [s o] _. cbn [fst]. apply each_marks. intros x _ F. destruct x; try reflexivity; cbn [component_marks accept_component map] in *; inversion F as [| ? ? A ?]; subst.
  - rewrite (tag_shown src _ A). reflexivity.
  - rewrite (class_shown src _ A). reflexivity.
Qed.
Lemma property_shown : forall src d, Forall (fit src) (property_marks d) -> accept_property d = Some (map shown (property_marks d)).
Proof.
  intros src d F. apply two_fit in F. destruct F as (A & B). unfold accept_property, property_marks. cbn [map]. rewrite <- (name_shown src _ _ A), <- (punctuation_shown src _ B). reflexivity.
Qed.
Lemma registered_decl_shown : forall src d, Forall (fit src) (registered_marks d) -> accept_registered d = Some (map shown (registered_marks d)).
Proof.
  intros src d F. apply two_fit in F. destruct F as (A & B). unfold accept_registered, registered_marks. cbn [map]. rewrite <- (name_shown src _ _ A), <- (punctuation_shown src _ B). reflexivity.
Qed.
Lemma properties_shown : forall src l, Forall (fit src) (properties_marks l) -> accept_properties l = Some (map shown (properties_marks l)).
Proof. intros src l. apply each_marks. intros x _. apply property_shown. Qed.
Lemma block_shown : forall src b, Forall (fit src) (block_marks b) -> accept_block b = Some (map shown (block_marks b)).
Proof. intros src [[o l] c]. apply properties_shown. Qed.
Lemma support_shown : forall src x, Forall (fit src) (support_marks x) -> accept_feature x = Some (map shown (support_marks x)).
Proof. intros src x. destruct x; [apply selectors_shown | apply property_shown]. Qed.
Lemma flat_map_map : forall A B C (h : B -> list C) (g : A -> B) l, flat_map h (map g l) = flat_map (fun x => h (g x)) l.
Proof. intros. induction l as [| x l IH]; [reflexivity |]. cbn [map flat_map]. rewrite IH. reflexivity. Qed.
Lemma condition_shown : forall src x, Forall (fit src) (flat_map support_marks (features x)) -> accept_condition x = Some (map shown (flat_map support_marks (features x))).
Proof.
  intros src x. destruct x as [y | n y | l | l]; cbn [features accept_condition flat_map]; rewrite ?app_nil_r; try apply support_shown; rewrite flat_map_map; apply each_marks; intros z _; apply support_shown.
Qed.
Lemma braces_shown : forall src open close, Forall (fit src) (MPunctuation open :: curly close) -> visit_style_declaration open close = Some (map shown (MPunctuation open :: curly close)).
Proof.
  intros src open close F. inversion F as [| ? ? A F1]; subst. unfold visit_style_declaration. cbn [map]. rewrite <- (punctuation_shown src _ A). destruct close as [c |]; [| reflexivity]. cbn [curly map] in *. inversion F1 as [| ? ? B ?]; subst. rewrite <- (punctuation_shown src _ B). reflexivity.
Qed.

(* induction over a rule and the rules in its block *)
Lemma rule_induction : forall K : css_rule -> Prop, (forall r, (forall s, In s (inner_rules r) -> K s) -> K r) -> forall r, K r.
Proof.
  intros K H. fix go 1. intro r. apply H. assert (G : forall l, (forall s : css_rule, In s l -> K s) -> forall s, In s l -> K s) by auto.
  destruct r; cbn [inner_rules]; try (intros s []);
    match goal with l : list css_rule |- _ => revert l; fix go2 1; intros [| x l] s Is; [destruct Is | destruct Is as [<- | Is]; [apply go | exact (go2 l s Is)]] end.
Qed.
Lemma rule_shown : forall src r, (forall s, within r s -> ~ unfinished s) -> Forall (fit src) (rule_marks r) -> accept_rule r = Some (map shown (rule_marks r)).
Proof.
  intros src r. induction r as [r IH] using rule_induction. intros W.
  assert (In_ : Forall (fit src) (flat_map rule_marks (inner_rules r)) -> each accept_rule (inner_rules r) = Some (map shown (flat_map rule_marks (inner_rules r)))).
  { apply each_marks. intros s Is. apply IH; [exact Is |]. intros t Wt. apply W. exact (within_block r s t Is Wt). }
  pose proof (W r (within_self r)) as U. clear W IH. destruct r; cbn [inner_rules accept_rule rule_marks] in *; try (intros _; reflexivity); try exact In_; try (exfalso; apply U; exact Logic.I).
  - apply each_marks. intros k _. apply block_shown.
  - apply then_marks; [apply properties_shown |]. apply each_marks. intros k _. apply block_shown.
  - change (MRegistered name :: ?x) with ([MRegistered name] ++ x). apply then_marks; [| apply each_marks; intros k _; apply registered_decl_shown]. intro F. inversion F as [| ? ? A ?]; subst. rewrite (registered_shown src _ A). reflexivity.
  - apply then_marks; [apply condition_shown | exact In_].
  - apply then_marks; [apply selectors_shown |]. apply then_marks; [apply braces_shown |]. apply then_marks; [apply properties_shown | exact In_].
Qed.
Lemma rule_panics : forall r s, within r s -> unfinished s -> accept_rule r = None.
Proof.
  intros r s W U. induction W as [r | r s t Is W IH].
  - destruct r; try destruct U; reflexivity.
  - specialize (IH U). destruct r; try destruct Is; cbn [accept_rule inner_rules] in *; rewrite (each_none _ _ s _ Is IH); try reflexivity.
    + destruct (accept_condition query); reflexivity.
    + destruct (accept_selectors selectors); [| reflexivity]. destruct (visit_style_declaration open close); [| reflexivity]. destruct (accept_properties decls); reflexivity.
Qed.
(* ---- the marks of a stylesheet ---- *)
Lemma in_selectors_marks : forall l m, In m (selectors_marks l) <-> in_selectors l m.
Proof.
  intros l m. unfold selectors_marks, in_selectors, compound_marks. rewrite in_flat_map. split.
  - intros ([s o] & Is & I). cbn [fst] in I. apply in_flat_map in I. destruct I as (x & Ix & I). exists s, o, x. split; [exact Is |]. split; [exact Ix |]. destruct x; cbn [component_marks In] in I; try tauto; destruct I as [<- | []]; eauto.
  - intros (s & o & x & Is & Ix & C). exists (s, o). split; [exact Is |]. cbn [fst]. apply in_flat_map. exists x. split; [exact Ix |]. destruct C as [(t & -> & ->) | (c & -> & ->)]; now left.
Qed.
Lemma in_property_marks : forall d m, In m (property_marks d) <-> in_property d m.
Proof. intros d m. unfold property_marks, in_property. cbn [In]. split; [intros [H | [H | []]] | intros [H | H]]; auto. Qed.
Lemma in_properties_marks : forall l m, In m (properties_marks l) <-> in_properties l m.
Proof.
  intros l m. unfold properties_marks, decls_marks, in_properties. rewrite in_flat_map. split.
  - intros ([d s] & Id & I). apply in_property_marks in I. eauto.
  - intros (d & s & Id & I). exists (d, s). split; [exact Id |]. apply in_property_marks. exact I.
Qed.
Lemma in_support_marks : forall l m, In m (flat_map support_marks l) <-> exists x, In x l /\ match x with SfSelector _ _ l _ _ => in_selectors l m | SfProperty _ d _ => in_property d m end.
Proof.
  intros l m. rewrite in_flat_map. split; intros (x & Ix & H); exists x; (split; [exact Ix |]); destruct x; cbn [support_marks] in *; first [apply in_selectors_marks | apply in_property_marks]; exact H.
Qed.
Lemma own_marks : forall r m, In m (rule_marks r) <-> own_mark r m \/ exists s, In s (inner_rules r) /\ In m (rule_marks s).
Proof.
  assert (Z : forall A m, In m [] <-> False \/ exists s : A, In s [] /\ In m (@nil mark)) by (intros A m; split; [intros [] | intros [[] | (s & [] & _)]]).
  assert (Y : forall m, In m [] <-> False \/ exists s : css_rule, In s [] /\ In m (rule_marks s)) by (intros m; split; [intros [] | intros [[] | (s & [] & _)]]).
  assert (X : forall m l, In m (flat_map rule_marks l) <-> False \/ exists s : css_rule, In s l /\ In m (rule_marks s)) by (intros m l; rewrite in_flat_map; tauto).
  assert (Nn : forall m (K : Prop), (exists s : css_rule, In s [] /\ In m (rule_marks s)) -> K) by (intros m K (s & [] & _)).
  intros r m. destruct r; cbn [rule_marks own_mark inner_rules]; try apply Y; try apply X.
  - rewrite in_flat_map. split; [intros (k & Ik & H); left; exists k; split; [exact Ik | apply in_properties_marks; exact H] | intros [(k & Ik & H) | H]; [| exact (Nn _ _ H)]; exists k; split; [exact Ik | apply in_properties_marks; exact H]].
  - rewrite in_app_iff, in_properties_marks, in_flat_map. split.
    + intros [H | (k & Ik & H)]; left; [now left | right; exists k; split; [exact Ik | apply in_properties_marks; exact H]].
    + intros [[H | (k & Ik & H)] | H]; [now left | right; exists k; split; [exact Ik | apply in_properties_marks; exact H] | exact (Nn _ _ H)].
  - unfold decls_marks. cbn [In]. rewrite in_flat_map. split.
    + intros [<- | ([d s] & Id & H)]; left; [now left | right; exists d, s; split; [exact Id |]]. cbn [fst registered_marks In] in H. unfold in_registered. destruct H as [H | [H | []]]; auto.
    + intros [[-> | (d & s & Id & H)] | H]; [now left | right; exists (d, s); split; [exact Id |] | exact (Nn _ _ H)]. cbn [fst registered_marks In]. destruct H as [H | H]; auto.
  - rewrite in_app_iff, in_support_marks, in_flat_map. reflexivity.
  - rewrite in_app_iff, in_selectors_marks. cbn [app In]. rewrite !in_app_iff, in_properties_marks, in_flat_map.
    assert (B : In m (curly close) <-> exists c, close = Some c /\ m = MPunctuation c) by (destruct close as [c |]; cbn [curly In]; [split; [intros [<- | []]; eauto | intros (d & E & ->); injection E as <-; now left] | split; [intros [] | intros (d & E & _); discriminate E]]).
    rewrite B. split; [intros [H | [H | [H | [H | H]]]]; auto 6 | intros [[H | [H | [H | H]]] | H]; auto 6].
Qed.
Lemma marks_within : forall r m, In m (rule_marks r) <-> exists s, within r s /\ own_mark s m.
Proof.
  intros r m. split.
  - induction r as [r IH] using rule_induction. intro H. apply own_marks in H. destruct H as [H | (s & Is & H)]; [exists r; split; [constructor | exact H] |]. destruct (IH s Is H) as (t & W & O). exists t. split; [exact (within_block r s t Is W) | exact O].
  - intros (s & W & O). induction W as [r | r s t Is W IH]; apply own_marks; [now left | right; eauto].
Qed.
Lemma sheet_marks : forall l m, In m (flat_map rule_marks l) <-> sheet_mark l m.
Proof.
  intros l m. unfold sheet_mark. rewrite in_flat_map. split.
  - intros (r & Ir & H). apply marks_within in H. destruct H as (s & W & O). eauto.
  - intros (r & s & Ir & W & O). exists r. split; [exact Ir |]. apply marks_within. eauto.
Qed.
Lemma sheet_shown : forall src l, (forall r s, In r l -> within r s -> ~ unfinished s) -> Forall (fit src) (flat_map rule_marks l) -> accept_sheet l = Some (map shown (flat_map rule_marks l)).
Proof. intros src l W. apply each_marks. intros r Ir. apply rule_shown. intros s Ws. exact (W r s Ir Ws). Qed.
Lemma sheet_panics : forall l r s, In r l -> within r s -> unfinished s -> accept_sheet l = None.
Proof. intros l r s Ir W U. apply (each_none _ _ r); [exact Ir |]. exact (rule_panics r s W U). Qed.
Lemma unfinished_dec : forall r, (exists s, within r s /\ unfinished s) \/ forall s, within r s -> ~ unfinished s.
Proof.
  intro r. induction r as [r IH] using rule_induction. assert (D : unfinished r \/ ~ unfinished r) by (destruct r; cbn [unfinished]; tauto). destruct D as [D | D]; [left; exists r; split; [constructor | exact D] |].
  assert (L : (exists s t, In s (inner_rules r) /\ within s t /\ unfinished t) \/ forall s t, In s (inner_rules r) -> within s t -> ~ unfinished t).
  { clear D. induction (inner_rules r) as [| x l IHl]; [right; intros s t [] |]. destruct (IH x (or_introl eq_refl)) as [(t & W & U) | Nu]; [left; exists x, t; split; [now left | auto] |].
    destruct IHl as [(s & t & Is & W & U) | Nl]; [intros s Is; apply IH; now right | left; exists s, t; split; [now right | auto] |]. right. intros s t [<- | Is] W; [exact (Nu t W) | exact (Nl s t Is W)]. }
  destruct L as [(s & t & Is & W & U) | L]; [left; exists t; split; [exact (within_block r s t Is W) | exact U] |]. right. intros s W. inversion W as [| ? y ? Iy Wy]; subst; [exact D | exact (L y s Iy Wy)].
Qed.
Lemma sheet_dec : forall l, (exists r s, In r l /\ within r s /\ unfinished s) \/ forall r s, In r l -> within r s -> ~ unfinished s.
Proof.
  induction l as [| r l IH]; [right; intros r s [] |]. destruct (unfinished_dec r) as [(s & W & U) | Nu]; [left; exists r, s; split; [now left | auto] |].
  destruct IH as [(r' & s & Ir & W & U) | Nl]; [left; exists r', s; split; [now right | auto] |]. right. intros r' s [<- | Ir] W; [exact (Nu s W) | exact (Nl r' s Ir W)].
Qed.
(* ---- tokens of a text do not overlap ---- *)
Definition apart (a b : cursor) : Prop := token_end a <= coff b \/ token_end b <= coff a.
Lemma tiled : forall o l cs, tiles o l cs -> forall c, In c cs -> exists p w r, l = p ++ w ++ r /\ w <> [] /\ coff c = o + blen p /\ tlen (ctok c) = blen w.
Proof.
  intros o l cs T. induction T as [o | o p r t cs Np L T IH]; intros c Ic; [destruct Ic |]. destruct Ic as [<- | Ic].
  - exists [], p, r. cbn [app coff ctok blen]. split; [reflexivity |]. split; [exact Np |]. split; [lia | exact L].
  - destruct (IH c Ic) as (p' & w & r' & -> & Nw & E1 & E2). exists (p ++ p'), w, r'. rewrite blen_app, <- app_assoc. split; [reflexivity |]. split; [exact Nw |]. split; [lia | exact E2].
Qed.
Lemma blen_pos : forall w, w <> [] -> 0 < blen w.
Proof. intros [| c w] Nw; [congruence |]. cbn [blen]. unfold len_utf8. destruct (c <? 128); [lia |]. destruct (c <? 2048); [lia |]. destruct (c <? 65536); lia. Qed.
Lemma tiled_order : forall o l cs, tiles o l cs -> forall a c1 b c2 d, cs = a ++ c1 :: b ++ c2 :: d -> token_end c1 <= coff c2.
Proof.
  intros o l cs T. induction T as [o | o p r t cs Np L T IH]; intros a c1 b c2 d E; [destruct a; discriminate E |]. destruct a as [| x a].
  - injection E as <- E. unfold token_end. cbn [coff ctok]. rewrite L. destruct (tiled _ _ _ T c2) as (p' & w & r' & _ & _ & E1 & _); [rewrite E; apply in_or_app; right; now left |]. lia.
  - injection E as <- E. exact (IH a c1 b c2 d E).
Qed.
Lemma tiled_apart : forall o l cs c1 c2, tiles o l cs -> In c1 cs -> In c2 cs -> c1 <> c2 -> apart c1 c2.
Proof.
  intros o l cs c1 c2 T I1 I2 Ne. apply in_split in I1. destruct I1 as (a & b & E). rewrite E in I2. apply in_app_or in I2. destruct I2 as [I2 | [-> | I2]]; [| congruence |].
  - apply in_split in I2. destruct I2 as (a1 & a2 & ->). right. rewrite <- app_assoc in E. exact (tiled_order _ _ _ T a1 c2 a2 c1 b E).
  - apply in_split in I2. destruct I2 as (b1 & b2 & ->). left. exact (tiled_order _ _ _ T a c1 b1 c2 b2 E).
Qed.
Lemma tiled_nodup : forall o l cs, tiles o l cs -> NoDup cs.
Proof.
  intros o l cs T. induction T as [o | o p r t cs Np L T IH]; constructor; [| exact IH]. intro I. destruct (tiled _ _ _ T _ I) as (p' & w & r' & _ & _ & E1 & _). cbn [coff] in E1. pose proof (blen_pos p Np). lia.
Qed.
Lemma among_in : forall l u, among l u -> forall c, In c l -> In c u.
Proof. intros l u A c I. specialize (A c). unfold count in A. apply (count_occ_In cursor_dec) in I. apply (count_occ_In cursor_dec). lia. Qed.
Lemma among_nodup : forall l u, among l u -> NoDup u -> NoDup l.
Proof. intros l u A Nu. apply (NoDup_count_occ cursor_dec). intro c. pose proof (proj1 (NoDup_count_occ cursor_dec u) Nu c). specialize (A c). unfold count in A. lia. Qed.
(* a mark from the tokens of a text *)
Lemma marks_placed : forall src cs m, tiles 0 src cs -> true_mark src m -> (forall c, In c (mark_cursors m) -> In c cs) -> placed src m.
Proof.
  intros src cs m T Tm I. assert (G : forall c, In c cs -> exists p w r, src = p ++ w ++ r /\ w <> [] /\ Span (coff c) (token_end c) = Span (blen p) (blen (p ++ w))).
  { intros c Ic. destruct (tiled _ _ _ T c Ic) as (p & w & r & E & Nw & E1 & E2). exists p, w, r. split; [exact E |]. split; [exact Nw |]. unfold token_end. rewrite E1, E2, blen_app. reflexivity. }
  destruct m as [t | (v & x & colon & ident) | c | c b | c]; try (apply G, I; now left).
  destruct (tiled _ _ _ T colon (I _ (or_introl eq_refl))) as (p & w & r & E & Nw & E1 & E2). destruct (tiled _ _ _ T ident (I _ (or_intror (or_introl eq_refl)))) as (p' & w' & r' & E' & Nw' & E1' & E2').
  destruct Tm as (_ & _ & Ad). unfold adjacent in Ad.
  assert (P : p' = p ++ w /\ w' ++ r' = r).
  { rewrite app_assoc in E. assert (B : blen p' = blen (p ++ w)) by (rewrite blen_app; lia). rewrite E in E'. clear - E' B. revert E' B. generalize (p ++ w), (w' ++ r'). intros a s. revert p'. induction a as [| c a IH]; intros [| d p'] E B.
    - split; [reflexivity | symmetry; exact E].
    - cbn [blen] in B. unfold len_utf8 in B. destruct (d <? 128); [lia |]. destruct (d <? 2048); [lia |]. destruct (d <? 65536); lia.
    - cbn [blen] in B. unfold len_utf8 in B. destruct (c <? 128); [lia |]. destruct (c <? 2048); [lia |]. destruct (c <? 65536); lia.
    - injection E as -> E. cbn [blen] in B. destruct (IH p' E ltac:(lia)) as (-> & ->). auto. }
  destruct P as (-> & <-). exists p, (w ++ w'), r'. split; [rewrite E, <- app_assoc; reflexivity |]. split; [destruct w; [congruence | discriminate] |]. unfold shown_span, token_end. rewrite !blen_app in *. f_equal; lia.
Qed.
Lemma marks_apart : forall src cs a b, tiles 0 src cs -> true_mark src a -> true_mark src b -> (forall c, In c (mark_cursors a) -> In c cs) -> (forall c, In c (mark_cursors b) -> In c cs) ->
  (forall c, In c (mark_cursors a) -> ~ In c (mark_cursors b)) -> disjoint (shown_span a) (shown_span b).
Proof.
  intros src cs a b T Ta Tb Ia Ib D.
  assert (A : forall c d, In c (mark_cursors a) -> In d (mark_cursors b) -> apart c d) by (intros c d Ic Id; apply (tiled_apart 0 src cs); auto; intro E; subst d; exact (D c Ic Id)).
  assert (Pa : forall c, In c (mark_cursors a) -> coff c < token_end c) by (intros c Ic; destruct (tiled _ _ _ T c (Ia c Ic)) as (? & w & ? & _ & Nw & _ & E2); unfold token_end; pose proof (blen_pos w Nw); lia).
  assert (Pb : forall c, In c (mark_cursors b) -> coff c < token_end c) by (intros c Ic; destruct (tiled _ _ _ T c (Ib c Ic)) as (? & w & ? & _ & Nw & _ & E2); unfold token_end; pose proof (blen_pos w Nw); lia).
  assert (Sa : exists x y, In x (mark_cursors a) /\ In y (mark_cursors a) /\ shown_span a = Span (coff x) (token_end y) /\ (x = y \/ coff y = token_end x)).
  { destruct a as [t | (v & x & colon & ident) | c | c k | c]; try (eexists _, _; split; [now left |]; split; [now left |]; split; [reflexivity | now left]). exists colon, ident. cbn [mark_cursors In]. destruct Ta as (_ & _ & Ad). auto 8. }
  assert (Sb : exists x y, In x (mark_cursors b) /\ In y (mark_cursors b) /\ shown_span b = Span (coff x) (token_end y) /\ (x = y \/ coff y = token_end x)).
  { destruct b as [t | (v & x & colon & ident) | c | c k | c]; try (eexists _, _; split; [now left |]; split; [now left |]; split; [reflexivity | now left]). exists colon, ident. cbn [mark_cursors In]. destruct Tb as (_ & _ & Ad). auto 8. }
  destruct Sa as (x & y & Ix & Iy & -> & Exy). destruct Sb as (z & t & Iz & It & -> & Ezt). unfold disjoint. cbn [sstart send].
  pose proof (A x z Ix Iz) as A1. pose proof (A x t Ix It) as A2. pose proof (A y z Iy Iz) as A3. pose proof (A y t Iy It) as A4. pose proof (Pa x Ix). pose proof (Pa y Iy). pose proof (Pb z Iz). pose proof (Pb t It). unfold apart in *.
  destruct Exy as [<- | Exy], Ezt as [<- | Ezt]; lia.
Qed.
(* ---- no highlight is lost in the map ---- *)
Lemma span_eqb_spec : forall a b, span_eqb a b = true -> a = b.
Proof. intros [a b] [c d] E. unfold span_eqb in E. cbn [sstart send] in E. apply andb_prop in E. f_equal; lia. Qed.
Lemma collect_keeps : forall l m, NoDup (map hspan l ++ map hspan m) -> Permutation (fold_left map_insert l m) (l ++ m).
Proof.
  induction l as [| h l IH]; intros m Nd; [reflexivity |]. cbn [map app] in Nd. inversion Nd as [| ? ? Ni Nd']; subst. cbn [fold_left].
  assert (E : map_insert m h = h :: m).
  { unfold map_insert. f_equal. assert (F : forall x, In x m -> negb (span_eqb (hspan x) (hspan h)) = true).
    { intros x Ix. destruct (span_eqb (hspan x) (hspan h)) eqn:S; [| reflexivity]. exfalso. apply Ni. apply in_or_app. right. rewrite <- (span_eqb_spec _ _ S). apply in_map. exact Ix. }
    clear - F. induction m as [| x m IHm]; [reflexivity |]. cbn [filter]. rewrite (F x (or_introl eq_refl)), IHm; [reflexivity |]. intros y Iy. apply F. now right. }
  rewrite E, IH; [symmetry; apply Permutation_middle |]. cbn [map]. exact (Permutation_NoDup (Permutation_middle _ _ _) Nd).
Qed.
Lemma collect_perm : forall l, NoDup (map hspan l) -> Permutation (collect l) l.
Proof. intros l Nd. unfold collect. rewrite (collect_keeps l []) by (rewrite app_nil_r; exact Nd). rewrite app_nil_r. reflexivity. Qed.
Lemma nodup_right : forall (a b : list cursor), NoDup (a ++ b) -> NoDup b.
Proof. induction a as [| x a IH]; intros b Nd; [exact Nd |]. cbn [app] in Nd. inversion Nd; subst. auto. Qed.
Lemma marks_split : forall ms, NoDup (marked ms) -> forall a b c m m', ms = a ++ m :: b ++ m' :: c -> forall x, In x (mark_cursors m) -> ~ In x (mark_cursors m').
Proof.
  intros ms Nd a b c m m' -> x I I'. unfold marked in Nd. rewrite flat_map_app in Nd. cbn [flat_map] in Nd. rewrite flat_map_app in Nd. cbn [flat_map] in Nd. apply nodup_right in Nd.
  clear - Nd I I'. apply in_split in I. destruct I as (u & v & E). rewrite E in Nd. rewrite <- app_assoc in Nd. apply nodup_right in Nd. cbn [app] in Nd. inversion Nd as [| ? ? Ni _]; subst. apply Ni. apply in_or_app. right. apply in_or_app. right. apply in_or_app. now left.
Qed.
Section Marks.
Variable src : text.
Variable cs : list cursor.
Variable ms : list mark.
Hypothesis T : tiles 0 src cs.
Hypothesis Sh : sh src ms cs.
Lemma marks_in : forall m c, In m ms -> In c (mark_cursors m) -> In c cs.
Proof. intros m c Im Ic. apply (among_in _ _ (proj2 Sh)). unfold marked. apply in_flat_map. eauto. Qed.
Lemma marks_true : forall m, In m ms -> true_mark src m.
Proof. intros m. apply Forall_forall. exact (proj1 Sh). Qed.
Lemma marks_nodup : NoDup (marked ms).
Proof. exact (among_nodup _ _ (proj2 Sh) (tiled_nodup _ _ _ T)). Qed.
Lemma marks_disjoint : forall m m', In m ms -> In m' ms -> m <> m' -> disjoint (shown_span m) (shown_span m').
Proof.
  intros m m' I I' Ne. apply (marks_apart src cs); [exact T | exact (marks_true m I) | exact (marks_true m' I') | intros c; exact (marks_in m c I) | intros c; exact (marks_in m' c I') |].
  destruct (in_split _ _ I) as (a & b & E). rewrite E in I'. apply in_app_or in I'. destruct I' as [I' | [-> | I']]; [| congruence |].
  - destruct (in_split _ _ I') as (a1 & a2 & ->). rewrite <- app_assoc in E. intros c Ic Ic'. exact (marks_split ms marks_nodup a1 a2 b m' m E c Ic' Ic).
  - destruct (in_split _ _ I') as (b1 & b2 & ->). exact (marks_split ms marks_nodup a b1 b2 m m' E).
Qed.
Lemma mark_some : forall m, exists c l, mark_cursors m = c :: l.
Proof. intros [t | (v & x & colon & ident) | c | c b | c]; eexists _, _; reflexivity. Qed.
Lemma marks_spans : NoDup (map shown_span ms).
Proof.
  assert (Nm : NoDup ms).
  { pose proof marks_nodup as Nd. clear - Nd. induction ms as [| m l IH]; constructor.
    - intro I. destruct (in_split _ _ I) as (a & b & ->). destruct (mark_some m) as (c & r & E). apply (marks_split (m :: a ++ m :: b) Nd [] a b m m eq_refl c); rewrite E; now left.
    - apply IH. unfold marked in *. cbn [flat_map] in Nd. exact (nodup_right _ _ Nd). }
  pose proof marks_disjoint as D. assert (Ps : forall m, In m ms -> sstart (shown_span m) < send (shown_span m)).
  { intros m I. destruct (marks_placed src cs m T (marks_true m I) (fun c => marks_in m c I)) as (p & w & r & _ & Nw & ->). cbn [sstart send]. rewrite blen_app. pose proof (blen_pos w Nw). lia. }
  clear T Sh. induction ms as [| m l IH]; [constructor |]. cbn [map]. inversion Nm as [| ? ? Ni Nl]; subst. constructor.
  - intro I. apply in_map_iff in I. destruct I as (m' & E & I'). assert (Ne : m <> m') by (intro X; subst m'; exact (Ni I')). pose proof (D m m' (or_introl eq_refl) (or_intror I') Ne) as Dm. rewrite E in Dm. pose proof (Ps m (or_introl eq_refl)). unfold disjoint in Dm. lia.
  - apply IH; [exact Nl | intros a b Ia Ib; apply D; now right | intros a Ia; apply Ps; now right].
Qed.
Lemma marks_fit : blen src < 4294967295 -> Forall (fit src) ms.
Proof.
  intro B. apply Forall_forall. intros m I. split; [exact (marks_true m I) |]. apply Forall_forall. intros c Ic. destruct (tiled _ _ _ T c (marks_in m c I Ic)) as (p & w & r & E & _ & E1 & _). unfold near, DUMMY_OFFSET. rewrite E, blen_app in B. lia.
Qed.
Lemma marks_collected : Permutation (collect (map shown ms)) (map shown ms).
Proof. apply collect_perm. rewrite map_map. exact marks_spans. Qed.
Lemma marks_boundary : forall m, In m ms -> on_boundary src (shown m).
Proof. intros m I. destruct (marks_placed src cs m T (marks_true m I) (fun c => marks_in m c I)) as (p & w & r & E & _ & S). exists p, (w ++ r). split; [exact E |]. cbn [shown hspan]. rewrite S. reflexivity. Qed.
End Marks.
