(* Theorems for C61 (what the nodes of the tree of a stylesheet are). The vocabulary is in SpecTree.v. *)
From Coq Require Import String.
From Coq Require Import List Lia.
From Verif Require DeclProofs.
From Verif Require Import AstSheet Values SpecSheet SpecLex SpecTrace SpecParser SpecSyntax SpecTraits SpecFeatures SpecSelectors KindProofs LexTrace LexFacts CursorProofs ParserProofs ParserProofs2 ParserProofs3 CompareProofs FaithProofs Tells Says Says5 SpecWritten SpecConforms SpecDecl SpecTree.
Open Scope N_scope.
Open Scope list_scope.

(* ---- C61 ---- *)
(* [tokens] are those from where the parser is; with a new parser they are the tokens of the text. The rules that are returned are
   made of tokens as CSS has it for their kind, at every depth. *)
Theorem C61_stylesheet : forall p tokens rules q, ahead (plex p) tokens -> skips_trivia p -> parse_sheet VALUES p = Some (Ok rules, q) -> Forall (rule_fits (lsrc (plex p)) tokens false) rules.
Proof.
  intros p tokens rules q A T E. refine (proj2 (y_parse_sheet (lsrc (plex p)) (lfeat (plex p)) tokens p _ _ _ E) rules eq_refl). exists [], tokens. split; [reflexivity |]. exact (conj eq_refl (conj eq_refl (conj A T))).
Qed.
Print Assumptions C61_stylesheet.
Theorem C61_rule : forall p tokens r q, ahead (plex p) tokens -> skips_trivia p -> parse_css_rule VALUES p = Some (Ok r, q) -> rule_fits (lsrc (plex p)) tokens false r.
Proof.
  intros p tokens r q A T E. refine (proj2 (y_css_rule (lsrc (plex p)) (lfeat (plex p)) tokens p _ _ _ E) r eq_refl). exists [], tokens. split; [reflexivity |]. exact (conj eq_refl (conj eq_refl (conj A T))).
Qed.
Print Assumptions C61_rule.
Theorem C61_nested_rule : forall p tokens r q, ahead (plex p) tokens -> skips_trivia p -> parse_nested_rule VALUES p = Some (Ok r, q) -> rule_fits (lsrc (plex p)) tokens true r.
Proof.
  intros p tokens r q A T E. refine (proj2 (y_nested_rule (lsrc (plex p)) (lfeat (plex p)) tokens p _ _ _ E) r eq_refl). exists [], tokens. split; [reflexivity |]. exact (conj eq_refl (conj eq_refl (conj A T))).
Qed.
Print Assumptions C61_nested_rule.

(* ---- the limits: what hdx reads otherwise than CSS has it ---- *)
Definition sheet_of (s : string) : option (list css_rule) := match parse_sheet VALUES (parser_new (chars s) no_features) with Some (Ok l, _) => Some l | _ => None end.
Definition commas {A} (l : list (A * option cursor)) : list bool := map (fun x => match snd x with Some _ => true | None => false end) l.
(* the items of a list need no comma between them *)
Theorem C61_comma_refuted : match sheet_of "@keyframes x{from to{}} @page a b{} @layer a b;" with
  | Some [RKeyframes _ _ _ [k] _; RPage _ (Some pages) _ _ _ _; RLayerNames _ (Some names) _] => (commas (kf_selectors k), commas pages, commas names) = ([false; false], [false; false], [false; false])
  | _ => False end.
Proof. vm_compute. reflexivity. Qed.
Print Assumptions C61_comma_refuted.
(* and the queries of @media may have none; "not" is a query of its own before a feature *)
Theorem C61_media_list_refuted : (exists r, sheet_of "@media print, screen{}" = Some [RUnknownAt r]) /\
  match sheet_of "@media print screen{} @media not (hover){}" with
  | Some [RMedia _ [MediaQuery None (Some _) None None; MediaQuery None (Some _) None None] _ _ _ _; RMedia _ [MediaQuery (Some _) None None None; MediaQuery None None None (Some _)] _ _ _ _] => True
  | _ => False end.
Proof. split; [eexists; vm_compute; reflexivity | vm_compute; exact Logic.I]. Qed.
Print Assumptions C61_media_list_refuted.
(* a feature before "not" is lost *)
Theorem C61_not_refuted : match sheet_of "@media (grid) not (hover){}" with Some [RMedia _ [MediaQuery None None None (Some (CNot _ (MfFeature w _)))] _ _ _ _] => w = chars "hover" | _ => False end.
Proof. vm_compute. reflexivity. Qed.
Print Assumptions C61_not_refuted.
(* domain(), media-document() and regexp() are url-prefix() *)
Theorem C61_document_refuted : match sheet_of "@document domain('a') regexp('b') media-document('c'){}" with Some [RDocument _ [(DmUrlPrefix _ _ _, None); (DmUrlPrefix _ _ _, None); (DmUrlPrefix _ _ _, None)] _ _ _] => True | _ => False end.
Proof. vm_compute. exact Logic.I. Qed.
Print Assumptions C61_document_refuted.
(* at the block of a rule, a bracket of another kind closes *)
Theorem C61_bracket_refuted : match sheet_of "@x (a]{}" with Some [RUnknownAt (AtRule _ (Some [_; CvBlock _ open _ (Some close)]) _)] => (tkind open, tkind close) = (K_LeftParen, K_RightSquare) | _ => False end.
Proof. vm_compute. reflexivity. Qed.
Print Assumptions C61_bracket_refuted.
(* after a rule with "|=" where a selector is expected, a comment before '*' is the universal selector *)
Theorem C61_wildcard_refuted : match sheet_of "a|=b{} /**/*{}" with Some [_; RStyle [(SWildcard c :: _, _)] _ _ _ _] => kind_of c = K_Comment | _ => False end.
Proof. vm_compute. reflexivity. Qed.
Print Assumptions C61_wildcard_refuted.

(* the name of a container and its condition are two conditions *)
Theorem C61_container_refuted : match sheet_of "@container f (width > 2px){}" with Some [RContainer _ [ContainerCondition (Some _) None; ContainerCondition None (Some _)] _ _ _] => True | _ => False end.
Proof. vm_compute. exact Logic.I. Qed.
Print Assumptions C61_container_refuted.
(* words of CSS that no custom identifier may be, and the reserved words in capitals, name keyframes and containers *)
Theorem C61_names_refuted : match sheet_of "@keyframes revert{} @keyframes None{} @container inherit{}" with
  | Some [RKeyframes _ (Some _) _ _ _; RKeyframes _ (Some _) _ _ _; RContainer _ [ContainerCondition (Some _) None] _ _ _] => True | _ => False end.
Proof. vm_compute. exact Logic.I. Qed.
Print Assumptions C61_names_refuted.
(* features that hdx has in its table but never reads *)
Theorem C61_feature_refuted : match sheet_of "@media (-moz-mac-graphite-theme){} @media (aspect-ratio: 1/1){} @media (resolution: 1dppx){} @media (update: slow){} @media (-webkit-max-device-pixel-ratio: 1.5){}" with
  | Some [RUnknownAt _; RUnknownAt _; RUnknownAt _; RUnknownAt _; RUnknownAt _] => True | _ => False end.
Proof. vm_compute. exact Logic.I. Qed.
Print Assumptions C61_feature_refuted.

(* ---- cases ---- *)
Definition tree_text : text := chars "@charset ""utf-8""; @layer a.b, c; @layer d { e { color: red } } @media screen and (min-width: 4px) { a > b:is(c, #d)::before { color: red !important; & e { float: left } } } @container f (width > 2px) { f { --g: {h} } } @supports selector(a > b) { @font-face { font-family: x } } @keyframes k { from, 50% { width: 1px } to { width: 2px } } @page q:first { margin-top: 1px; @top-left { color: red } } @property --p { syntax: ""*""; inherits: false } @document url(a) { * { float: none } } @x y { z: 1 }".
Definition rule_sort (r : css_rule) : N :=
  match r with RCharset _ _ _ _ => 0 | RContainer _ _ _ _ _ => 1 | RDocument _ _ _ _ _ => 2 | RMozDocument _ _ _ _ _ => 3 | RFontFace _ _ _ _ => 4 | RKeyframes _ _ _ _ _ => 5 | RWebkitKeyframes _ _ _ _ _ => 6 | RLayerNames _ _ _ => 7 | RLayer _ _ _ _ _ => 8
  | RMedia _ _ _ _ _ _ => 9 | RPage _ _ _ _ _ _ => 10 | RProperty _ _ _ _ _ => 11 | RSupports _ _ _ _ _ => 12 | RUnknownAt _ => 13 | RStyle _ _ _ _ _ => 14 | RUnknown _ => 15 | RBad _ => 16 end.
Fixpoint clear_stars (l : list cursor) : bool :=
  match l with c :: r => match r with d :: _ => negb (kind_eqb (kind_of c) K_Comment && tok_is_char (ctok d) 42) | [] => true end && clear_stars r | [] => true end.
Lemma clear_stars_spec : forall l, clear_stars l = true -> stars_clear l.
Proof.
  intros l H pre c d post -> K (_ & D). induction pre as [| x pre IH]; cbn [app clear_stars] in H.
  - rewrite K in H. cbn [kind_eqb] in H. assert (T : tok_is_char (ctok d) 42 = true) by (apply tok_is_char_spec; exact D). rewrite T in H. vm_compute in H. discriminate H.
  - apply andb_prop in H. apply IH, H.
Qed.
Example C61_case : exists p tokens rules q, p = parser_new tree_text no_features /\ ahead (plex p) tokens /\ skips_trivia p /\ parse_sheet VALUES p = Some (Ok rules, q) /\ map rule_sort rules = [0; 7; 8; 9; 1; 12; 5; 10; 11; 2; 13] /\ stars_clear tokens.
Proof.
  assert (G : match parse_sheet VALUES (parser_new tree_text no_features) with Some (Ok l, _) => map rule_sort l | _ => [] end = [0; 7; 8; 9; 1; 12; 5; 10; 11; 2; 13]) by (vm_compute; reflexivity).
  destruct (parse_sheet VALUES (parser_new tree_text no_features)) as [[[l | e] q] |] eqn:E; [| discriminate G | discriminate G]. assert (L : match lex tree_text no_features with Some cs => clear_stars cs | None => false end = true) by (vm_compute; reflexivity). destruct (lex tree_text no_features) as [cs |] eqn:Lx; [| discriminate L].
  exists (parser_new tree_text no_features), cs, l, q. split; [reflexivity |]. split; [apply lex_ahead; [apply ordinary_spec; vm_compute; reflexivity | exact Lx] |]. split; [intros k Ik; apply DeclProofs.trivia_kinds; exact Ik |]. split; [exact E |]. split; [exact G | exact (clear_stars_spec _ L)].
Qed.
