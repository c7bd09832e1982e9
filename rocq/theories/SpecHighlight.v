(* What the highlighter is to show (C59): the marks of a stylesheet, and how each is shown. *)
From Coq Require Import List.
From Verif Require Import AstSheet LspDoc SpecParser SpecTraits SpecSyntax SpecFeatures SpecSelectors.
Open Scope N_scope.
Open Scope list_scope.

(* a mark: a tag, a pseudo-class, a brace or a colon, the name of a declaration (and whether its value was not understood), the name
   of a property that is registered *)
Inductive mark : Type := MTag (t : tag_t) | MClass (x : pseudo_class_t) | MPunctuation (c : cursor) | MName (c : cursor) (unknown : bool) | MRegistered (c : cursor).
Definition mark_cursors (m : mark) : list cursor :=
  match m with MTag t => [tag_cursor t] | MClass (_, (_, (colon, ident))) => [colon; ident] | MPunctuation c | MName c _ | MRegistered c => [c] end.

(* ---- where the marks are ---- *)
(* the rules in the block of a rule; those of @-moz-document are not visited *)
Definition inner_rules (r : css_rule) : list css_rule :=
  match r with
  | RContainer _ _ _ l _ | RDocument _ _ _ l _ | RLayer _ _ _ l _ | RSupports _ _ _ l _ | RStyle _ _ _ l _ => l
  | _ => []
  end.
Inductive within : css_rule -> css_rule -> Prop :=
  | within_self : forall r, within r r
  | within_block : forall r s t, In s (inner_rules r) -> within s t -> within r t.
Definition unknown_value (v : style_value) : bool := match v with SvUnknown _ => true | _ => false end.
Definition unknown_registered (v : registered_value) : bool := match v with PvUnknown _ => true | _ => false end.
Definition in_property (d : property) (m : mark) : Prop := m = MName (pr_name d) (unknown_value (pr_value d)) \/ m = MPunctuation (pr_colon d).
Definition in_properties (l : list (property * option cursor)) (m : mark) : Prop := exists d s, In (d, s) l /\ in_property d m.
Definition in_registered (d : registered) (m : mark) : Prop := m = MName (rg_name d) (unknown_registered (rg_value d)) \/ m = MPunctuation (rg_colon d).
(* the tags and pseudo-classes of a selector; not those of functional pseudo-classes or with a namespace *)
Definition in_selectors (l : supports_selectors) (m : mark) : Prop :=
  exists s comma x, In (s, comma) l /\ In x s /\ ((exists t, x = STag t /\ m = MTag t) \/ (exists c, x = SPseudoClass c /\ m = MClass c)).
Definition features (x : condition supports_feature) : list supports_feature := match x with CIs y | CNot _ y => [y] | CAnd l | COr l => map fst l end.
Definition block_properties (b : properties_block) : list (property * option cursor) := let '(_, l, _) := b in l.
(* the marks of a rule, but for those of the rules in its block *)
Definition own_mark (r : css_rule) (m : mark) : Prop :=
  match r with
  | RStyle selectors open decls _ close => in_selectors selectors m \/ m = MPunctuation open \/ (exists c, close = Some c /\ m = MPunctuation c) \/ in_properties decls m
  | RKeyframes _ _ _ frames _ => exists k, In k frames /\ in_properties (block_properties (kf_block k)) m
  | RPage _ _ _ decls rules _ => in_properties decls m \/ exists k, In k rules /\ in_properties (block_properties (mg_block k)) m
  | RProperty _ name _ decls _ => m = MRegistered name \/ exists d s, In (d, s) decls /\ in_registered d m
  | RSupports _ query _ _ _ => exists x, In x (features query) /\ match x with SfSelector _ _ l _ _ => in_selectors l m | SfProperty _ d _ => in_property d m end
  | _ => False
  end.
Definition sheet_mark (l : list css_rule) (m : mark) : Prop := exists r s, In r l /\ within r s /\ own_mark s m.
(* the rules the highlighter has no code for *)
Definition unfinished (r : css_rule) : Prop := match r with RMedia _ _ _ _ _ _ | RWebkitKeyframes _ _ _ _ _ => True | _ => False end.

(* ---- how a mark is shown: the positions in SemanticKind and SemanticModifier, which the server announces by name ---- *)
Definition shown_kind (m : mark) : N := match m with MTag _ => 1 | MClass _ => 7 | MName _ _ | MRegistered _ => 14 | MPunctuation _ => 18 end.
Definition unknown_bit : N := 1.
Definition deprecated_bit : N := 2.
Definition experimental_bit : N := 4.
Definition custom_bit : N := 16.
Definition shown_modifier (m : mark) : N :=
  match m with
  | MTag (TUnknown _) => unknown_bit
  | MTag (THtmlNonConforming _) => deprecated_bit
  | MTag (THtmlNonStandard _) => experimental_bit
  | MTag (TCustomElement _) => custom_bit
  | MTag _ => 0
  | MClass (VStandard, _) => 0
  | MClass _ => deprecated_bit
  | MPunctuation _ => 0
  | MName c unknown => (if unknown then unknown_bit else 0) + (if is_dashed_ident (ctok c) then custom_bit else 0)
  | MRegistered _ => custom_bit
  end.
(* from the start of its first token to the end of its last *)
Definition token_end (c : cursor) : N := coff c + tlen (ctok c).
Definition shown_span (m : mark) : span :=
  match m with
  | MTag t => Span (coff (tag_cursor t)) (token_end (tag_cursor t))
  | MClass (_, (_, (colon, ident))) => Span (coff colon) (token_end ident)
  | MPunctuation c | MName c _ | MRegistered c => Span (coff c) (token_end c)
  end.
Definition shown (m : mark) : highlight := Highlight (shown_span m) (shown_kind m) (shown_modifier m).

(* ---- what is true of a mark of a text ---- *)
Definition true_mark (src : text) (m : mark) : Prop :=
  match m with
  | MTag t => tag_phrase src t
  | MClass (v, x) => class_phrase (words (vendor_classes v)) src x
  | MPunctuation c => In (kind_of c) [K_LeftCurly; K_RightCurly; K_Colon]
  | MName c _ => kind_of c = K_Ident
  | MRegistered c => kind_of c = K_Ident /\ is_dashed_ident (ctok c) = true
  end.
Definition disjoint (a b : span) : Prop := send a <= sstart b \/ send b <= sstart a.
(* it is shown on a stretch of the text, which is not empty and starts and ends between characters *)
Definition placed (src : text) (m : mark) : Prop := exists p w r, src = p ++ w ++ r /\ w <> [] /\ shown_span m = Span (blen p) (blen (p ++ w)).
(* a stylesheet without the rules the highlighter has no code for *)
Definition finished (l : list css_rule) : Prop := forall r s, In r l -> within r s -> ~ unfinished s.
