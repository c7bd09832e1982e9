(* csskit_highlight/src/lib.rs and css.rs (TokenHighlighter), and the Visitable implementations of css_ast that drive it.
   - Only the Visit methods that TokenHighlighter overrides (css.rs:10-82) have an effect: visit_tag, visit_pseudo_class,
     visit_style_declaration, visit_property, visit_property_rule and visit_property_rule_property; the others are the empty defaults
     of visit/mod.rs:19-31 and are left out. [None] is a panic: the accept of a @media rule (media/mod.rs:50-52) and of a
     @-webkit-keyframes rule (webkit.rs:46-48) is todo!().
   - A highlight is the record of LspDoc.v: its kind is the number of the SemanticKind (lib.rs:15-44), its modifier the bits of the
     SemanticModifier (lib.rs:53-61). The HashMap is the list of its values; their order is not that of the HashMap. *)
From Coq Require Import List.
From Verif Require Export AstSheet Values Minify LspDoc.
Open Scope N_scope.
Open Scope list_scope.

(* lib.rs:15-44 *)
Definition SK_TAG : N := 1.
Definition SK_PSEUDO_CLASS : N := 7.
Definition SK_DECLARATION : N := 14.
Definition SK_PUNCTUATION : N := 18.
(* lib.rs:53-61; SemanticModifier::none() is 0 *)
Definition SM_UNKNOWN : N := 1.
Definition SM_DEPRECATED : N := 2.
Definition SM_EXPERIMENTAL : N := 4.
Definition SM_CUSTOM : N := 16.

(* what a run of accept inserts, in order *)
Definition inserts : Type := option (list highlight).
Definition then_ (a b : inserts) : inserts := match a, b with Some x, Some y => Some (x ++ y) | _, _ => None end.
Definition each {A} (f : A -> inserts) : list A -> inserts := fix go l := match l with [] => Some [] | x :: r => then_ (f x) (go r) end.
Definition insert_one (c : cursor) (kind modifier : N) : highlight := Highlight (cspan c) kind modifier.

(* css.rs:11-34, tag.rs:60-65 *)
Definition visit_tag (t : tag_t) : highlight :=
  insert_one (tag_cursor t) SK_TAG
    (match t with
     | THtmlNonConforming _ => SM_DEPRECATED
     | THtml _ => 0
     | THtmlNonStandard _ => SM_EXPERIMENTAL
     | TSvg _ => 0
     | TMathml _ => 0
     | TCustomElement _ => SM_CUSTOM
     | TUnknown _ => SM_UNKNOWN
     end).
(* css.rs:36-46, pseudo_class.rs:146-161, macros/pseudo_class.rs:88-103 *)
Definition visit_pseudo_class (x : pseudo_class_t) : highlight :=
  let '(v, (_, (colon, ident))) := x in
  Highlight (span_add (cspan colon) (cspan ident)) SK_PSEUDO_CLASS (match v with VWebkit | VMoz | VO | VMs => SM_DEPRECATED | VStandard => 0 end).
(* selector/mod.rs:227-244 and the accept of each component *)
Definition accept_component (x : component_ast) : inserts :=
  match x with STag t => Some [visit_tag t] | SPseudoClass c => Some [visit_pseudo_class c] | _ => Some [] end.
(* selector/mod.rs:75-82, 107-114 *)
Definition accept_selectors (l : supports_selectors) : inserts := each (fun s => each accept_component (fst s)) l.
(* css.rs:55-66, properties/mod.rs:135-140 *)
Definition name_modifier (unknown : bool) (name : cursor) : N :=
  N.lor (if unknown then SM_UNKNOWN else 0) (if is_dashed_ident (ctok name) then SM_CUSTOM else 0).
Definition accept_property (d : property) : inserts :=
  Some [insert_one (pr_name d) SK_DECLARATION (name_modifier (match pr_value d with SvUnknown _ => true | _ => false end) (pr_name d));
        insert_one (pr_colon d) SK_PUNCTUATION 0].
(* css.rs:73-82, property.rs:124-128 *)
Definition accept_registered (d : registered) : inserts :=
  Some [insert_one (rg_name d) SK_DECLARATION (name_modifier (match rg_value d with PvUnknown _ => true | _ => false end) (rg_name d));
        insert_one (rg_colon d) SK_PUNCTUATION 0].
Definition accept_properties (l : list (property * option cursor)) : inserts := each (fun x => accept_property (fst x)) l.
Definition accept_block (b : properties_block) : inserts := let '(_, l, _) := b in accept_properties l.
(* supports.rs:184-201, 294-303 *)
Definition accept_feature (x : supports_feature) : inserts :=
  match x with SfSelector _ _ l _ _ => accept_selectors l | SfProperty _ d _ => accept_property d end.
Definition accept_condition (x : condition supports_feature) : inserts :=
  match x with
  | CIs y => accept_feature y
  | CNot _ y => accept_feature y
  | CAnd l => each (fun y => accept_feature (fst y)) l
  | COr l => each (fun y => accept_feature (fst y)) l
  end.
(* css.rs:48-53 *)
Definition visit_style_declaration (open : cursor) (close : option cursor) : inserts :=
  Some (insert_one open SK_PUNCTUATION 0 :: match close with Some c => [insert_one c SK_PUNCTUATION 0] | None => [] end).
(* stylesheet.rs:200-216, stylerule.rs:209-226 and the accept of each rule. The query of @container, the matchers of @document, the
   names of @layer and the selectors of @page and of keyframes have nothing to show *)
Fixpoint accept_rule (r : css_rule) : inserts :=
  match r with
  | RCharset _ _ _ _ => Some []                                                    (* charset.rs:51-55 *)
  | RContainer _ _ _ rules _ => each accept_rule rules                             (* container/mod.rs:51-61 *)
  | RDocument _ _ _ rules _ => each accept_rule rules                              (* document.rs:47-53, 202-208 *)
  | RMozDocument _ _ _ _ _ => Some []                                              (* moz.rs:45-49 *)
  | RFontFace _ _ _ _ => Some []                                                   (* font_face.rs:40-45, 78-84, 138-143 *)
  | RKeyframes _ _ _ frames _ => each (fun k => accept_block (kf_block k)) frames  (* keyframes.rs:44-49, 126-132, 162-168, 237-243 *)
  | RWebkitKeyframes _ _ _ _ _ => None                                             (* webkit.rs:45-49 *)
  | RLayerNames _ _ _ => Some []                                                   (* layer.rs:51-59, 159-165 *)
  | RLayer _ _ _ rules _ => each accept_rule rules                                 (* layer.rs:51-59, 159-165, 199-205 *)
  | RMedia _ _ _ _ _ _ => None                                                     (* media/mod.rs:49-53 *)
  | RPage _ _ _ decls rules _ =>                                                   (* page.rs:50-58, 253-262, 315-320, 357-363 *)
      then_ (accept_properties decls) (each (fun m => accept_block (mg_block m)) rules)
  | RProperty _ name _ decls _ =>                                                  (* css.rs:68-71, property.rs:48-55 *)
      then_ (Some [insert_one name SK_DECLARATION SM_CUSTOM]) (each (fun x => accept_registered (fst x)) decls)
  | RSupports _ query _ rules _ => then_ (accept_condition query) (each accept_rule rules)   (* supports.rs:75-81, 114-120 *)
  | RUnknownAt _ => Some []                                                        (* stylesheet.rs:100-104 *)
  | RStyle selectors open decls rules close =>                                     (* stylerule.rs:55-61, 104-114 *)
      then_ (accept_selectors selectors) (then_ (visit_style_declaration open close) (then_ (accept_properties decls) (each accept_rule rules)))
  | RUnknown _ => Some []                                                          (* stylesheet.rs:123-127 *)
  | RBad _ => Some []                                                              (* stylerule.rs:220 *)
  end.
(* stylesheet.rs:41-48 *)
Definition accept_sheet (l : list css_rule) : inserts := each accept_rule l.

(* lib.rs:110-126: HashMap::insert; a highlight with the same span is replaced *)
Definition span_eqb (a b : span) : bool := (sstart a =? sstart b) && (send a =? send b).
Definition map_insert (m : list highlight) (h : highlight) : list highlight := h :: filter (fun x => negb (span_eqb (hspan x) (hspan h))) m.
Definition collect (l : list highlight) : list highlight := fold_left map_insert l [].
(* [TokenHighlighter::new()], [stylesheet.accept(&mut highlighter)], [highlighter.highlights()] *)
Definition highlight_sheet (l : list css_rule) : option (list highlight) := option_map collect (accept_sheet l).
(* lib.rs:115-117 *)
Definition get_highlight (m : list highlight) (s : span) : option highlight := List.find (fun h => span_eqb (hspan h) s) m.
(* csskit_lsp/src/service.rs:72, 78-84: the highlights of a document; Some None: it has no output *)
Definition document_highlights (src : text) : option (option (list highlight)) :=
  match parse_source src with
  | None => None
  | Some r => match routput r with None => Some None | Some l => option_map Some (highlight_sheet l) end
  end.
(* service.rs:78-97 *)
Definition document_reply (src : text) : option (option (list (highlight * N * N))) :=
  match document_highlights src with
  | None => None
  | Some None => Some None
  | Some (Some hs) => option_map Some (highlight_reply src hs)
  end.
