(* css_ast/src: the rules (rules/*.rs), stylerule.rs and stylesheet.rs, by instantiating the traits of Traits.v.
   - [css_rule] is both Rule (stylesheet.rs:129-147) and NestedGroupRule (stylerule.rs:129-147): the variants of the second are
     among those of the first, but for BadDeclaration ([RBad]). The struct of each rule and of its block is inlined.
   - [props] is the grammar of property values, as in Ast.v. Recursion takes fuel. *)
From Coq Require Import String.
From Coq Require Import List.
From Verif Require Export Ast.
Open Scope N_scope.
Open Scope list_scope.

(* rules/property.rs:92-141 *)
Inductive registered_value : Type :=
  | PvInitial (l : list cval) | PvSyntax (c : cursor) | PvInherits (w : Selectors.word) | PvUnknown (l : list cval).
Record registered : Type := Registered { rg_name : cursor; rg_colon : cursor; rg_value : registered_value }.
(* rules/page.rs:264-270 *)
Record margin_rule : Type := MarginRule { mg_at : cursor; mg_block : properties_block }.

(* stylesheet.rs:129-147, stylerule.rs:129-147 *)
Inductive css_rule : Type :=
  | RCharset (at_ space string : cursor) (semi : option cursor)
  | RContainer (at_ : cursor) (query : list container_condition) (open : cursor) (rules : list css_rule) (close : option cursor)
  | RDocument (at_ : cursor) (matchers : list (document_matcher * option cursor)) (open : cursor) (rules : list css_rule) (close : option cursor)
  | RMozDocument (at_ : cursor) (matchers : list (document_matcher * option cursor)) (open : cursor) (rules : list css_rule) (close : option cursor)
  | RFontFace (at_ open : cursor) (decls : list property) (close : option cursor)
  | RKeyframes (at_ : cursor) (name : option cursor) (open : cursor) (frames : list keyframe) (close : option cursor)
  | RWebkitKeyframes (at_ name open : cursor) (frames : list keyframe) (close : option cursor)
  | RLayerNames (at_ : cursor) (names : option (list (layer_name * option cursor))) (semi : cursor)
  | RLayer (at_ : cursor) (names : option (list (layer_name * option cursor))) (open : cursor) (rules : list css_rule) (close : option cursor)
  | RMedia (at_ : cursor) (query : list media_query) (open : cursor) (decls : list (property * option cursor)) (rules : list css_rule) (close : option cursor)
  | RPage (at_ : cursor) (selectors : option (list (page_selector * option cursor))) (open : cursor) (decls : list (property * option cursor)) (rules : list margin_rule) (close : option cursor)
  | RProperty (at_ name open : cursor) (decls : list (registered * option cursor)) (close : option cursor)
  | RSupports (at_ : cursor) (query : condition supports_feature) (open : cursor) (rules : list css_rule) (close : option cursor)
  | RUnknownAt (r : rule)
  | RStyle (selectors : supports_selectors) (open : cursor) (decls : list (property * option cursor)) (rules : list css_rule) (close : option cursor)
  | RUnknown (r : rule)
  | RBad (l : list cval).

(* [if let Some(x) = prelude { Ok(..) } else { Err(MissingAtRulePrelude(..))? }]; the span of the diagnostic is not kept *)
Definition with_prelude {Pr B A} (build : cursor -> Pr -> B -> A) (m : P (cursor * option Pr * B)) : P A :=
  bind m (fun x => let '(at_, prelude, b) := x in
    match prelude with Some v => ret (build at_ v b) | None => fail (D_Other E_MISSING_PRELUDE at_) end).

(* rules/charset.rs:20-38 *)
Definition parse_charset : P css_rule :=
  bind (parse_kind K_AtKeyword) (fun at_ =>
  bind (fun p => match eq_ignore_ascii_case at_ (lsrc (plex p)) (chars "charset") with
                 | None => None
                 | Some true => Some (Ok tt, p)
                 | Some false => fail_text E_UNEXPECTED_AT_RULE at_ p
                 end) (fun _ =>
  bind parse_whitespace (fun space =>
  bind (parse_kind K_String) (fun string =>
  bind (opt_ok (parse_kind K_Semicolon)) (fun semi => ret (RCharset at_ space string semi)))))).
(* container/mod.rs:25-41, 71-80 *)
Definition parse_container (rule_p : P css_rule) : P css_rule :=
  with_prelude (fun at_ query b => let '(open, rules, close) := b in RContainer at_ query open rules close)
    (at_rule_t (Some (chars "container")) parse_container_conditions (rule_list_t rule_p)).
(* document.rs:21-37, 179-188 *)
Definition parse_document (rule_p : P css_rule) : P css_rule :=
  with_prelude (fun at_ m b => let '(open, rules, close) := b in RDocument at_ m open rules close)
    (at_rule_t (Some (chars "document")) parse_document_matchers (rule_list_t rule_p)).
(* moz.rs:19-35 *)
Definition parse_moz_document (rule_p : P css_rule) : P css_rule :=
  with_prelude (fun at_ m b => let '(open, rules, close) := b in RMozDocument at_ m open rules close)
    (at_rule_t (Some (chars "-moz-document")) parse_document_matchers (rule_list_t rule_p)).
(* font_face.rs:96-125 *)
Definition FONT_FACE_PROPERTIES : list text := map chars
  ["ascent-override"; "descent-override"; "font-display"; "font-family"; "font-feature-settings"; "font-language-override";
   "font-named-instance"; "font-style"; "font-variation-settings"; "font-weight"; "font-width"; "line-gap-override"; "src"; "unicode-range"]%string.
Definition parse_font_face_property (props : properties) : P property :=
  pmap property_of (declaration_t (peek_set K_Ident (words FONT_FACE_PROPERTIES)) (parse_style_value props)).
(* font_face.rs:20-31, 55-64 *)
Definition parse_font_face (props : properties) : P css_rule :=
  pmap (fun x => let '(at_, _, (open, decls, close)) := x in RFontFace at_ open decls close)
    (at_rule_t (Some (chars "font-face")) no_prelude_allowed (rule_list_t (parse_font_face_property props))).
(* keyframes.rs:21-32, 103-112 *)
Definition parse_keyframes (props : properties) : P css_rule :=
  pmap (fun x => let '(at_, name, (open, frames, close)) := x in RKeyframes at_ name open frames close)
    (at_rule_t (Some (chars "keyframes")) parse_keyframes_name (rule_list_t (parse_keyframe props))).
(* webkit.rs:19-35 *)
Definition parse_webkit_keyframes (props : properties) : P css_rule :=
  with_prelude (fun at_ name b => let '(open, frames, close) := b in RWebkitKeyframes at_ name open frames close)
    (at_rule_t (Some (chars "-webkit-keyframes")) parse_keyframes_name (rule_list_t (parse_keyframe props))).
(* layer.rs:138-146 *)
Definition optional_layer_block (rule_p : P css_rule) : P (cursor + cursor * list css_rule * option cursor) :=
  bind (if_kind K_Semicolon) (fun semi => match semi with Some c => ret (inl c) | None => pmap inr (rule_list_t rule_p) end).
(* layer.rs:22-39 *)
Definition parse_layer (rule_p : P css_rule) : P css_rule :=
  bind (at_rule_t (Some (chars "layer")) parse_layer_names (optional_layer_block rule_p)) (fun x =>
    let '(at_, names, b) := x in
    match b with
    | inl semi => ret (RLayerNames at_ names semi)
    | inr (open, rules, close) =>
        match names with
        | Some (n :: _ :: _) => fail (D_Other E_LAYER_NAMES (fst (fst n)))
        | _ => ret (RLayer at_ names open rules close)
        end
    end).
(* media/mod.rs:23-39, 64-74 *)
Definition parse_media (props : properties) (rule_p : P css_rule) : P css_rule :=
  with_prelude (fun at_ query b => let '(open, decls, rules, close) := b in RMedia at_ query open decls rules close)
    (at_rule_t (Some (chars "media")) parse_media_queries (block_t peek_declaration (parse_property props) rule_p)).
(* page.rs:277-306, 331-340 *)
Definition MARGIN_NAMES : list text := map chars
  ["top-left-corner"; "top-left"; "top-center"; "top-right"; "top-right-corner"; "right-top"; "right-middle"; "right-bottom";
   "bottom-right-corner"; "bottom-right"; "bottom-center"; "bottom-left"; "bottom-left-corner"; "left-bottom"; "left-middle"; "left-top"]%string.
Definition parse_margin_rule (props : properties) : P margin_rule :=
  bind (at_rule_t None no_prelude_allowed (declaration_list_t (parse_property props))) (fun x p =>
    let '(at_, _, b) := x in
    match peek_set K_AtKeyword (words MARGIN_NAMES) p at_ with
    | None => None
    | Some true => Some (Ok (MarginRule at_ b), p)
    | Some false => fail_text E_UNEXPECTED_AT_RULE at_ p
    end).
(* page.rs:27-38, 223-233 *)
Definition parse_page (props : properties) : P css_rule :=
  pmap (fun x => let '(at_, selectors, (open, decls, rules, close)) := x in RPage at_ selectors open decls rules close)
    (at_rule_t (Some (chars "page")) parse_page_selectors (declaration_rule_list_t (parse_property props) (parse_margin_rule props))).
(* property.rs:130-155 *)
Inductive registered_word : Set := RwInitial | RwInherits | RwSyntax.
Definition REGISTERED_NAMES : list (text * registered_word) :=
  [(chars "initial-value", RwInitial); (chars "inherits", RwInherits); (chars "syntax", RwSyntax)].
Definition INHERITS_VALUES : list text := map chars ["true"; "false"]%string.
Definition parse_registered_value (name : cursor) : P registered_value := fun p =>
  match peek_set K_Ident REGISTERED_NAMES p name with
  | None => None
  | Some false => pmap PvUnknown parse_component_values p
  | Some true =>
      match build_set REGISTERED_NAMES p name with
      | None => None
      | Some (RwInitial, _) => pmap PvInitial parse_component_values p
      | Some (RwInherits, _) => pmap PvInherits (parse_set K_Ident (words INHERITS_VALUES)) p
      | Some (RwSyntax, _) => pmap PvSyntax (parse_kind K_String) p
      end
  end.
(* property.rs:101-114 *)
Definition parse_registered : P registered :=
  bind (declaration_t (fun _ _ => Some true) parse_registered_value) (fun x => let '(name, colon, value, important) := x in
    match important with Some (bang, _) => fail (D_Other E_DISALLOWED_IMPORTANT bang) | None => ret (Registered name colon value) end).
(* property.rs:22-38, 66-75 *)
Definition parse_property_rule : P css_rule :=
  with_prelude (fun at_ name b => let '(open, decls, close) := b in RProperty at_ name open decls close)
    (at_rule_t (Some (chars "property")) parse_dashed_ident (declaration_list_t parse_registered)).
(* supports.rs:49-65, 91-100 *)
Definition parse_supports (props : properties) (rule_p : P css_rule) : P css_rule :=
  with_prelude (fun at_ query b => let '(open, rules, close) := b in RSupports at_ query open rules close)
    (at_rule_t (Some (chars "supports")) (parse_supports_condition props) (rule_list_t rule_p)).

(* stylerule.rs:35-46, 74-84 *)
Definition parse_style_rule (props : properties) (nested_p : P css_rule) : P css_rule :=
  pmap (fun x => let '(selectors, (open, decls, rules, close)) := x in RStyle selectors open decls rules close)
    (qualified_rule_t parse_selectors (block_t peek_declaration (parse_property props) nested_p) parse_bad_declaration).
(* stylesheet.rs:88-92, 111-115 *)
Definition parse_unknown_at : P css_rule := pmap RUnknownAt (fun p => at_rule_of (block_of (rule_fuel (sfuel p))) p).
Definition parse_unknown_qualified : P css_rule := pmap RUnknown (fun p => qualified_rule_of (block_of (rule_fuel (sfuel p))) p).

(* stylesheet.rs:50-81; the rules that are still Todo are in the table *)
Definition AT_RULES (props : properties) (rule_p : P css_rule) : list (text * P css_rule) := map (fun x => (chars (fst x), snd x)) [
  ("charset", parse_charset); ("color-profile", parse_todo); ("container", parse_container rule_p); ("counter-style", parse_todo);
  ("font-face", parse_font_face props); ("font-feature-values", parse_todo); ("font-palette-values", parse_todo); ("import", parse_todo);
  ("keyframes", parse_keyframes props); ("layer", parse_layer rule_p); ("media", parse_media props rule_p); ("namespace", parse_todo);
  ("page", parse_page props); ("property", parse_property_rule); ("scope", parse_todo); ("starting-style", parse_todo);
  ("supports", parse_supports props rule_p); ("document", parse_document rule_p); ("-webkit-keyframes", parse_webkit_keyframes props);
  ("-moz-document", parse_moz_document rule_p) ]%string.
(* stylerule.rs:117-127; the rules inside them are Rules, not NestedGroupRules *)
Definition NESTED_AT_RULES (props : properties) (rule_p : P css_rule) : list (text * P css_rule) := map (fun x => (chars (fst x), snd x)) [
  ("container", parse_container rule_p); ("layer", parse_layer rule_p); ("media", parse_media props rule_p); ("scope", parse_todo);
  ("supports", parse_supports props rule_p) ]%string.
(* stylesheet.rs:152-172, stylerule.rs:152-172 *)
Definition at_rule_by_name (rules : list (text * P css_rule)) : P css_rule := fun p =>
  match peek_n p 1 with
  | None => None
  | Some c =>
      match look_up rules p c with
      | None => None
      | Some None => parse_unknown_at p
      | Some (Some m) =>
          match m p with
          | None => None
          | Some (Ok r, q) => Some (Ok r, q)
          | Some (Err _, q) => parse_unknown_at (rewind q (checkpoint p))
          end
      end
  end.
(* stylesheet.rs:173-178 *)
Definition rule_by_selector (style_p : P css_rule) : P css_rule := fun p =>
  match style_p p with
  | None => None
  | Some (Ok r, q) => Some (Ok r, q)
  | Some (Err _, q) => parse_unknown_qualified (rewind q (checkpoint p))
  end.
(* stylerule.rs:173-186 *)
Definition nested_by_selector (style_p : P css_rule) : P css_rule := fun p =>
  match rule_by_selector style_p p with
  | None => None
  | Some (Ok r, q) => Some (Ok r, q)
  | Some (Err _, q) => pmap RBad (in_state ST_NESTED parse_bad_declaration) (rewind q (checkpoint p))
  end.
(* stylesheet.rs:149-180 and (with [nested]) stylerule.rs:149-188 *)
Fixpoint css_rule_n (props : properties) (n : nat) (nested : bool) (p : parser) {struct n} : option (res css_rule * parser) :=
  match n with
  | O => None
  | S n' =>
      let rule_p := css_rule_n props n' false in
      let style_p := parse_style_rule props (css_rule_n props n' true) in
      or_peek (peek_kind K_AtKeyword)
        (at_rule_by_name (if nested then NESTED_AT_RULES props rule_p else AT_RULES props rule_p))
        (if nested then nested_by_selector style_p else rule_by_selector style_p) p
  end.
Definition parse_css_rule (props : properties) : P css_rule := fun p => css_rule_n props (sfuel p) false p.
Definition parse_nested_rule (props : properties) : P css_rule := fun p => css_rule_n props (sfuel p) true p.
(* stylesheet.rs:23-31 *)
Definition parse_sheet (props : properties) : P (list css_rule) := sheet_t (parse_css_rule props).

(* the ToCursors implementations of the same files *)
Definition registered_cursors (d : registered) : list cursor :=
  rg_name d :: rg_colon d :: match rg_value d with PvInitial l | PvUnknown l => cvs_cursors l | PvSyntax c => [c] | PvInherits w => [snd w] end.
Definition margin_cursors (m : margin_rule) : list cursor := mg_at m :: properties_block_cursors (mg_block m).
Definition names_cursors (names : option (list (layer_name * option cursor))) : list cursor :=
  match names with Some l => comma_cursors layer_name_cursors l | None => [] end.
Fixpoint css_rule_cursors (r : css_rule) : list cursor :=
  match r with
  | RCharset at_ space string semi => at_ :: space :: string :: opt_cursor semi
  | RContainer at_ query open rules close => at_ :: flat_map container_condition_cursors query ++ open :: flat_map css_rule_cursors rules ++ opt_cursor close
  | RDocument at_ m open rules close | RMozDocument at_ m open rules close =>
      at_ :: comma_cursors document_matcher_cursors m ++ open :: flat_map css_rule_cursors rules ++ opt_cursor close
  | RFontFace at_ open decls close => at_ :: open :: flat_map property_cursors decls ++ opt_cursor close
  | RKeyframes at_ name open frames close => at_ :: opt_cursor name ++ open :: flat_map keyframe_cursors frames ++ opt_cursor close
  | RWebkitKeyframes at_ name open frames close => at_ :: name :: open :: flat_map keyframe_cursors frames ++ opt_cursor close
  | RLayerNames at_ names semi => at_ :: names_cursors names ++ [semi]
  | RLayer at_ names open rules close => at_ :: names_cursors names ++ open :: flat_map css_rule_cursors rules ++ opt_cursor close
  | RMedia at_ query open decls rules close =>
      at_ :: flat_map media_query_cursors query ++ open :: properties_cursors decls ++ flat_map css_rule_cursors rules ++ opt_cursor close
  | RPage at_ selectors open decls rules close =>
      at_ :: (match selectors with Some l => comma_cursors page_selector_cursors l | None => [] end) ++
      open :: properties_cursors decls ++ flat_map margin_cursors rules ++ opt_cursor close
  | RProperty at_ name open decls close => at_ :: name :: open :: comma_cursors registered_cursors decls ++ opt_cursor close
  | RSupports at_ query open rules close => at_ :: condition_cursors supports_feature_cursors query ++ open :: flat_map css_rule_cursors rules ++ opt_cursor close
  | RUnknownAt r | RUnknown r => rule_cursors r
  | RStyle selectors open decls rules close =>
      selectors_cursors selectors ++ open :: properties_cursors decls ++ flat_map css_rule_cursors rules ++ opt_cursor close
  | RBad l => cvs_cursors l
  end.
(* stylesheet.rs:33-39 *)
Definition sheet_cursors (l : list css_rule) : list cursor := flat_map css_rule_cursors l.
