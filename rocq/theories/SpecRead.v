(* C62: stylesheets as CSS writes them: which tokens a tree may be written with. [toks] are all the tokens of the source, whitespace
   and comments included. The words and tables are those of SpecWords.v, SpecTree.v and SpecDecl.v. *)
From Coq Require Import String.
From Coq Require Import List.
From Verif Require Import SpecWords.
From Verif Require Import AstSheet Values SpecLex SpecParser SpecSyntax SpecTraits SpecFeatures SpecSelectors SpecConforms SpecAccepts SpecDecl SpecTree SpecSelectorText SpecPage.
Open Scope N_scope.
Open Scope list_scope.

(* ---- a tree without the values of its declarations: of a value only its kind is kept, and the name of the property it is for
   (what the values are is said by C53, C55, C57 and C60) ---- *)
Definition outline_value (v : style_value) : style_value :=
  match v with SvKnown w _ => SvKnown w [] | SvCustom _ => SvCustom [] | SvComputed _ => SvComputed [] | SvUnknown _ => SvUnknown [] | SvKeyword w => SvKeyword w end.
Definition outline_property (d : property) : property := Property (pr_name d) (pr_colon d) (outline_value (pr_value d)) (pr_important d).
Definition outline_declarations : list (property * option cursor) -> list (property * option cursor) := map (fun x => (outline_property (fst x), snd x)).
Definition outline_frame (k : keyframe) : keyframe := let '(open, l, close) := kf_block k in Keyframe (kf_selectors k) (open, outline_declarations l, close).
Definition outline_registered (d : registered) : registered :=
  Registered (rg_name d) (rg_colon d) (match rg_value d with PvInitial _ => PvInitial [] | PvUnknown _ => PvUnknown [] | v => v end).
Definition outline_feature (x : supports_feature) : supports_feature := match x with SfProperty open d close => SfProperty open (outline_property d) close | _ => x end.
Definition outline_query (q : condition supports_feature) : condition supports_feature :=
  match q with
  | CIs x => CIs (outline_feature x)
  | CNot k x => CNot k (outline_feature x)
  | CAnd l => CAnd (map (fun y => (outline_feature (fst y), snd y)) l)
  | COr l => COr (map (fun y => (outline_feature (fst y), snd y)) l)
  end.
Definition outline_margin (m : margin_rule) : margin_rule := let '(open, l, close) := mg_block m in MarginRule (mg_at m) (open, outline_declarations l, close).
Fixpoint outline (r : css_rule) : css_rule :=
  match r with
  | RContainer at_ query open rules close => RContainer at_ query open (map outline rules) close
  | RDocument at_ m open rules close => RDocument at_ m open (map outline rules) close
  | RMozDocument at_ m open rules close => RMozDocument at_ m open (map outline rules) close
  | RFontFace at_ open decls close => RFontFace at_ open (map outline_property decls) close
  | RKeyframes at_ name open frames close => RKeyframes at_ name open (map outline_frame frames) close
  | RWebkitKeyframes at_ name open frames close => RWebkitKeyframes at_ name open (map outline_frame frames) close
  | RLayer at_ names open rules close => RLayer at_ names open (map outline rules) close
  | RMedia at_ query open decls rules close => RMedia at_ query open (outline_declarations decls) (map outline rules) close
  | RPage at_ selectors open decls margins close => RPage at_ selectors open (outline_declarations decls) (map outline_margin margins) close
  | RProperty at_ name open decls close => RProperty at_ name open (map (fun x => (outline_registered (fst x), snd x)) decls) close
  | RSupports at_ query open rules close => RSupports at_ (outline_query query) open (map outline rules) close
  | RStyle selectors open decls rules close => RStyle selectors open (outline_declarations decls) (map outline rules) close
  | _ => r
  end.

Section Written.
Variable src : text.
(* "@" and a name, in any case *)
Definition at_word (w : string) (c : cursor) : Prop := kind_of c = K_AtKeyword /\ parse_str_lower c src = Some (chars w) /\ eq_ignore_ascii_case c src (chars w) = Some true.
Definition wide_here (c : cursor) : Prop := exists w, In w CSS_WIDE /\ kind_of c = K_Ident /\ (parse_str_lower c src = Some w \/ eq_ignore_ascii_case c src w = Some true).
(* a kind that may stand in the value of any declaration, outside of brackets *)
Definition in_value (k : kind) : Prop := k <> K_Semicolon /\ k <> K_RightCurly.

(* ---- declarations ---- *)
Inductive value_written (name : cursor) : style_value -> list cursor -> Prop :=
  (* a value of the definition of the property, without functions and escapes; [reached] leaves out 36 properties (SpecAccepts.v) *)
  | vw_known w s d u : ~ custom_name name -> parse_str_lower name src = Some w -> defines w s -> reached w = true -> css_def s = Some d -> conforms src true d (bare u) ->
      functionless u -> Forall (unescaped src) (bare u) -> trimmed u -> bare u <> [] -> (forall c r, bare u = c :: r -> ~ wide_here c) -> value_written name (SvKnown w []) u
  | vw_wide g w c : ~ custom_name name -> gap g -> wide_word src w c -> value_written name (SvKeyword (w, c)) (g ++ [c])
  (* any component values, for a custom property ... *)
  | vw_custom u : custom_name name -> values_text in_value u -> value_written name (SvCustom []) u
  (* ... after a function that any value may have ... *)
  | vw_computed g c r : ~ custom_name name -> gap g -> computed_function src c -> values_text in_value (g ++ c :: r) -> value_written name (SvComputed []) (g ++ c :: r)
  (* ... and for a property without a definition *)
  | vw_unknown w g c r : ~ custom_name name -> parse_str_lower name src = Some w -> (forall s, ~ defines w s) -> gap g -> ~ trivia_token c -> ~ wide_here c -> ~ computed_function src c ->
      values_text in_value (g ++ c :: r) -> value_written name (SvUnknown []) (g ++ c :: r).
(* importance is part of a value that may be any component values *)
Definition may_be_important (v : style_value) : Prop := match v with SvKnown _ _ | SvKeyword _ => True | _ => False end.
Inductive declaration_written : property -> list cursor -> Prop :=
  | dw_plain name g colon value u : kind_of name = K_Ident -> gap g -> kind_of colon = K_Colon -> value_written name value u ->
      declaration_written (Property name colon value None) (name :: g ++ colon :: u)
  | dw_important name g colon value u g1 bang g2 word : kind_of name = K_Ident -> gap g -> kind_of colon = K_Colon -> value_written name value u -> may_be_important value ->
      gap g1 -> gap g2 -> important src bang word ->
      declaration_written (Property name colon value (Some (bang, word))) (name :: g ++ colon :: u ++ g1 ++ bang :: g2 ++ [word]).
(* declarations with semicolons between them, and perhaps after the last *)
Inductive declarations_written : list (property * option cursor) -> list cursor -> Prop :=
  | ds_none g : gap g -> declarations_written [] g
  | ds_last g d t g' : gap g -> declaration_written d t -> gap g' -> declarations_written [(d, None)] (g ++ t ++ g')
  | ds_cons g d t g' semi l toks : gap g -> declaration_written d t -> gap g' -> kind_of semi = K_Semicolon -> declarations_written l toks ->
      declarations_written ((d, Some semi) :: l) (g ++ t ++ g' ++ semi :: toks).

(* ---- preludes; each ends before the gap that follows it ---- *)
(* items with commas between them *)
Inductive commas_written {A} (item : A -> list cursor -> Prop) : list (A * option cursor) -> list cursor -> Prop :=
  | cw_one g x t : gap g -> item x t -> commas_written item [(x, None)] (g ++ t)
  | cw_cons g x t g' comma l toks : gap g -> item x t -> gap g' -> kind_of comma = K_Comma -> commas_written item l toks -> commas_written item ((x, Some comma) :: l) (g ++ t ++ g' ++ comma :: toks).
(* a.b.c *)
Inductive layer_tail_written : list (cursor * cursor) -> list cursor -> Prop :=
  | lt_none : layer_tail_written [] []
  | lt_cons g dot g' name l toks : gap g -> is_delim 46 dot -> gap g' -> kind_of name = K_Ident -> layer_tail_written l toks -> layer_tail_written ((dot, name) :: l) (g ++ dot :: g' ++ name :: toks).
Inductive layer_written : layer_name -> list cursor -> Prop :=
  | lw_name first l toks : kind_of first = K_Ident -> layer_tail_written l toks -> layer_written (first, l) (first :: toks).
Inductive frame_selector_written : keyframe_selector -> list cursor -> Prop :=
  | fs_of x : keyframe_selector_fits src x -> frame_selector_written x [keyframe_selector_cursor x].
(* these tokens, with whitespace and comments before any of them *)
Inductive spread : list cursor -> list cursor -> Prop :=
  | sp_nil : spread [] []
  | sp_cons g c l toks : gap g -> ~ trivia_token c -> spread l toks -> spread (c :: l) (g ++ c :: toks).
Definition feature_name (y : feature_ast) : cursor :=
  match y with FaPlain x => fname x | FaRanged x => match x with RLeft _ w _ _ _ | RRight _ _ _ w _ | RRange _ _ _ w _ _ _ | RLegacy _ w _ _ _ => snd w end end.
(* a feature of the table under one of the names of its row *)
Inductive media_feature_written : media_feature -> list cursor -> Prop :=
  | mfw_feature names k y w toks : In (names, k) css_media_features -> parse_str_lower (feature_name y) src = Some w -> In w (map chars names) -> feature_fits src k y -> spread (feature_cursors y) toks ->
      media_feature_written (MfFeature (chars (hd EmptyString names)) y) toks.
(* a feature of containers whose name is one of its first four tokens: of "(100px <= width)" it is the fifth *)
Inductive container_feature_written : text * feature_ast -> list cursor -> Prop :=
  | cfw_feature name k y toks : In (name, (name, k)) css_container_features -> parse_str_lower (feature_name y) src = Some name -> feature_fits src k y -> In (feature_name y) (firstn 4 (feature_cursors y)) ->
      spread (feature_cursors y) toks -> container_feature_written (name, y) toks.
(* one feature, or two with "and" or "or" between them ("not" and longer conditions are not read: C47) *)
Inductive condition_written {F} (item : F -> list cursor -> Prop) : condition F -> list cursor -> Prop :=
  | cn_is x t : item x t -> condition_written item (CIs x) t
  | cn_and x t g k y u : item x t -> gap g -> kind_of k = K_Ident -> parse_str_lower k src = Some (chars "and") -> item y u -> condition_written item (CAnd [(x, Some (KwAnd, k)); (y, None)]) (t ++ g ++ k :: u)
  | cn_or x t g k y u : item x t -> gap g -> kind_of k = K_Ident -> parse_str_lower k src = Some (chars "or") -> item y u -> condition_written item (COr [(x, Some (KwOr, k)); (y, None)]) (t ++ g ++ k :: u).
(* a media type, perhaps after "not" or "only" *)
Inductive media_type_written : option Selectors.word -> option text * cursor -> list cursor -> Prop :=
  | mt_type t : media_type_fits src t -> media_type_written None t [snd t]
  | mt_prefixed w g t : in_words css_media_prefixes src w -> gap g -> media_type_fits src t -> media_type_written (Some w) t (snd w :: g ++ [snd t]).
Inductive query_written : media_query -> list cursor -> Prop :=
  | qw_type pre t ts : media_type_written pre t ts -> query_written (MediaQuery pre (Some t) None None) ts
  | qw_and pre t ts g a x us : media_type_written pre t ts -> gap g -> kind_of a = K_Ident -> eq_ignore_ascii_case a src (chars "and") = Some true -> condition_written media_feature_written x us ->
      query_written (MediaQuery pre (Some t) (Some a) (Some x)) (ts ++ g ++ a :: us)
  | qw_condition x ts : condition_written media_feature_written x ts -> query_written (MediaQuery None None None (Some x)) ts.
(* a name, or a condition (both together are not read) *)
Inductive container_written : container_condition -> list cursor -> Prop :=
  | ctw_name name w : kind_of name = K_Ident -> parse_str_lower name src = Some w -> ~ In w css_not_container_names -> container_written (ContainerCondition (Some name) None) [name]
  | ctw_condition x ts : condition_written container_feature_written x ts -> container_written (ContainerCondition None (Some x)) ts.
(* selector(), perhaps in parentheses, or a declaration in parentheses; of a property that is known the value is not read (below) *)
Inductive supports_written : supports_feature -> list cursor -> Prop :=
  | spw_selector function sel ts g paren : kind_of function = K_Function -> parse_str_lower function src = Some (chars "selector") -> list_laid src sel ts -> gap g -> kind_of paren = K_RightParen ->
      supports_written (SfSelector None function sel paren None) (function :: ts ++ g ++ [paren])
  | spw_parens open g0 function sel ts g paren g' close : kind_of open = K_LeftParen -> gap g0 -> kind_of function = K_Function -> parse_str_lower function src = Some (chars "selector") -> list_laid src sel ts -> gap g ->
      kind_of paren = K_RightParen -> gap g' -> kind_of close = K_RightParen -> supports_written (SfSelector (Some open) function sel paren (Some close)) (open :: g0 ++ function :: ts ++ g ++ paren :: g' ++ [close])
  | spw_declaration open g0 name g colon value u g' close : kind_of open = K_LeftParen -> gap g0 -> kind_of name = K_Ident -> gap g -> kind_of colon = K_Colon -> value_written name value u -> (forall w l, value <> SvKnown w l) ->
      gap g' -> kind_of close = K_RightParen -> supports_written (SfProperty open (Property name colon value None) (Some close)) (open :: g0 ++ name :: g ++ colon :: u ++ g' ++ [close]).
(* url(...), or a string in url() or url-prefix() *)
Inductive document_written : document_matcher -> list cursor -> Prop :=
  | dcw_url c : kind_of c = K_Url -> document_written (DmUrl c) [c]
  | dcw_function a g b g' c : url_call src "url" a b c -> gap g -> gap g' -> document_written (DmUrlFunction a b c) (a :: g ++ b :: g' ++ [c])
  | dcw_prefix a g b g' c : url_call src "url-prefix" a b c -> gap g -> gap g' -> document_written (DmUrlPrefix a b c) (a :: g ++ b :: g' ++ [c]).
(* the descriptors of @property but for "initial-value", which takes what follows it (below) *)
Inductive descriptor_written : registered -> list cursor -> Prop :=
  | rdw_inherits name g colon g' v : kind_of name = K_Ident -> parse_str_lower name src = Some (chars "inherits") -> gap g -> kind_of colon = K_Colon -> gap g' -> in_words css_inherits src v ->
      descriptor_written (Registered name colon (PvInherits v)) (name :: g ++ colon :: g' ++ [snd v])
  | rdw_syntax name g colon g' string : kind_of name = K_Ident -> parse_str_lower name src = Some (chars "syntax") -> gap g -> kind_of colon = K_Colon -> gap g' -> kind_of string = K_String ->
      descriptor_written (Registered name colon (PvSyntax string)) (name :: g ++ colon :: g' ++ [string]).
Inductive descriptors_written : list (registered * option cursor) -> list cursor -> Prop :=
  | rds_none g : gap g -> descriptors_written [] g
  | rds_last g d t g' : gap g -> descriptor_written d t -> gap g' -> descriptors_written [(d, None)] (g ++ t ++ g')
  | rds_cons g d t g' semi l toks : gap g -> descriptor_written d t -> gap g' -> kind_of semi = K_Semicolon -> descriptors_written l toks -> descriptors_written ((d, Some semi) :: l) (g ++ t ++ g' ++ semi :: toks).
(* in the block of @page: "@" and the name of a margin box, in any case, and declarations *)
Inductive margin_written : margin_rule -> list cursor -> Prop :=
  | mw_of at_ name g open l body close : kind_of at_ = K_AtKeyword -> parse_str_lower at_ src = Some name -> In name css_page_margins -> gap g -> kind_of open = K_LeftCurly -> declarations_written l body -> kind_of close = K_RightCurly ->
      margin_written (MarginRule at_ (open, l, Some close)) (at_ :: g ++ open :: body ++ [close]).
(* declarations and margin boxes in any order; a semicolon after a declaration that has more after it *)
Inductive page_items_written : list (property * option cursor) -> list margin_rule -> list cursor -> Prop :=
  | pi_none g : gap g -> page_items_written [] [] g
  | pi_last g d t g' : gap g -> declaration_written d t -> gap g' -> page_items_written [(d, None)] [] (g ++ t ++ g')
  | pi_declaration g d t g' semi decls margins toks : gap g -> declaration_written d t -> gap g' -> kind_of semi = K_Semicolon -> page_items_written decls margins toks ->
      page_items_written ((d, Some semi) :: decls) margins (g ++ t ++ g' ++ semi :: toks)
  | pi_margin g m t decls margins toks : gap g -> margin_written m t -> page_items_written decls margins toks -> page_items_written decls (m :: margins) (g ++ t ++ toks).

(* ---- rules ---- *)
Inductive frame_written : keyframe -> list cursor -> Prop :=
  | fw_frame sel ts g open l body close : commas_written frame_selector_written sel ts -> gap g -> kind_of open = K_LeftCurly -> declarations_written l body -> kind_of close = K_RightCurly ->
      frame_written (Keyframe sel (open, l, Some close)) (ts ++ g ++ open :: body ++ [close]).
Inductive frames_written : list keyframe -> list cursor -> Prop :=
  | fsw_none g : gap g -> frames_written [] g
  | fsw_cons g x t l toks : gap g -> frame_written x t -> frames_written l toks -> frames_written (x :: l) (g ++ t ++ toks).
(* the first token of the selectors of a style rule is not a name that begins with "--"; in the block of another rule the first
   tokens are also not a name and a colon, which begin a declaration *)
Definition no_declaration (inside : bool) (toks : list cursor) : Prop :=
  exists c r, toks = c :: r /\ ~ trivia_token c /\ is_dashed_ident (ctok c) = false /\
  (inside = true -> kind_of c = K_Ident -> forall g d r', r = g ++ d :: r' -> gap g -> ~ trivia_token d -> kind_of d <> K_Colon).

(* [nested]: in the block of a style rule. [inside]: in a block that may have declarations *)
Inductive rule_written : bool -> bool -> css_rule -> list cursor -> Prop :=
  | rw_charset inside at_ space g string g' semi : at_word "charset" at_ -> kind_of space = K_Whitespace -> gap g -> kind_of string = K_String -> gap g' -> kind_of semi = K_Semicolon ->
      rule_written false inside (RCharset at_ space string (Some semi)) (at_ :: space :: g ++ string :: g' ++ [semi])
  | rw_layer_names nested inside at_ names ts g semi : at_word "layer" at_ -> commas_written layer_written names ts -> gap g -> kind_of semi = K_Semicolon ->
      rule_written nested inside (RLayerNames at_ (Some names) semi) (at_ :: ts ++ g ++ [semi])
  | rw_layer nested inside at_ name ts g open rules body close : at_word "layer" at_ -> commas_written layer_written [(name, None)] ts -> gap g -> kind_of open = K_LeftCurly -> rules_written rules body ->
      kind_of close = K_RightCurly -> rule_written nested inside (RLayer at_ (Some [(name, None)]) open rules (Some close)) (at_ :: ts ++ g ++ open :: body ++ [close])
  | rw_layer_unnamed nested inside at_ g open rules body close : at_word "layer" at_ -> gap g -> kind_of open = K_LeftCurly -> rules_written rules body -> kind_of close = K_RightCurly ->
      rule_written nested inside (RLayer at_ None open rules (Some close)) (at_ :: g ++ open :: body ++ [close])
  | rw_media nested inside at_ g0 q ts g open decls rules body close : at_word "media" at_ -> gap g0 -> query_written q ts -> gap g -> kind_of open = K_LeftCurly -> items_written false decls rules body ->
      kind_of close = K_RightCurly -> rule_written nested inside (RMedia at_ [q] open decls rules (Some close)) (at_ :: g0 ++ ts ++ g ++ open :: body ++ [close])
  | rw_container nested inside at_ g0 q ts g open rules body close : at_word "container" at_ -> gap g0 -> container_written q ts -> gap g -> kind_of open = K_LeftCurly -> rules_written rules body ->
      kind_of close = K_RightCurly -> rule_written nested inside (RContainer at_ [q] open rules (Some close)) (at_ :: g0 ++ ts ++ g ++ open :: body ++ [close])
  | rw_supports nested inside at_ g0 x ts g open rules body close : at_word "supports" at_ -> gap g0 -> supports_written x ts -> gap g -> kind_of open = K_LeftCurly -> rules_written rules body ->
      kind_of close = K_RightCurly -> rule_written nested inside (RSupports at_ (CIs x) open rules (Some close)) (at_ :: g0 ++ ts ++ g ++ open :: body ++ [close])
  | rw_document inside at_ l ts g open rules body close : at_word "document" at_ -> commas_written document_written l ts -> gap g -> kind_of open = K_LeftCurly -> rules_written rules body ->
      kind_of close = K_RightCurly -> rule_written false inside (RDocument at_ l open rules (Some close)) (at_ :: ts ++ g ++ open :: body ++ [close])
  | rw_moz_document inside at_ l ts g open rules body close : at_word "-moz-document" at_ -> commas_written document_written l ts -> gap g -> kind_of open = K_LeftCurly -> rules_written rules body ->
      kind_of close = K_RightCurly -> rule_written false inside (RMozDocument at_ l open rules (Some close)) (at_ :: ts ++ g ++ open :: body ++ [close])
  | rw_property inside at_ g0 name g open l body close : at_word "property" at_ -> gap g0 -> custom_name name -> kind_of name = K_Ident -> gap g -> kind_of open = K_LeftCurly -> descriptors_written l body ->
      kind_of close = K_RightCurly -> rule_written false inside (RProperty at_ name open l (Some close)) (at_ :: g0 ++ name :: g ++ open :: body ++ [close])
  | rw_webkit_keyframes inside at_ g0 name g open frames body close : at_word "-webkit-keyframes" at_ -> gap g0 -> keyframes_name_fits src name -> gap g -> kind_of open = K_LeftCurly -> frames_written frames body ->
      kind_of close = K_RightCurly -> rule_written false inside (RWebkitKeyframes at_ name open frames (Some close)) (at_ :: g0 ++ name :: g ++ open :: body ++ [close])
  | rw_keyframes inside at_ g0 name g open frames body close : at_word "keyframes" at_ -> gap g0 -> keyframes_name_fits src name -> gap g -> kind_of open = K_LeftCurly -> frames_written frames body -> kind_of close = K_RightCurly ->
      rule_written false inside (RKeyframes at_ (Some name) open frames (Some close)) (at_ :: g0 ++ name :: g ++ open :: body ++ [close])
  | rw_font_face inside at_ g open l body close : at_word "font-face" at_ -> gap g -> kind_of open = K_LeftCurly -> declarations_written l body -> Forall (fun x => a_word src css_font_descriptors (pr_name (fst x))) l ->
      kind_of close = K_RightCurly -> rule_written false inside (RFontFace at_ open (map fst l) (Some close)) (at_ :: g ++ open :: body ++ [close])
  | rw_page inside at_ g open decls margins body close : at_word "page" at_ -> gap g -> kind_of open = K_LeftCurly -> page_items_written decls margins body -> kind_of close = K_RightCurly ->
      rule_written false inside (RPage at_ None open decls margins (Some close)) (at_ :: g ++ open :: body ++ [close])
  | rw_page_selected inside at_ l ts g open decls margins body close : at_word "page" at_ -> pages_written src l ts -> gap g -> kind_of open = K_LeftCurly -> page_items_written decls margins body ->
      kind_of close = K_RightCurly -> rule_written false inside (RPage at_ (Some l) open decls margins (Some close)) (at_ :: ts ++ g ++ open :: body ++ [close])
  | rw_style nested inside sel ts g open decls rules body close : list_laid src sel ts -> no_declaration inside ts -> gap g -> kind_of open = K_LeftCurly -> items_written true decls rules body ->
      kind_of close = K_RightCurly -> rule_written nested inside (RStyle sel open decls rules (Some close)) (ts ++ g ++ open :: body ++ [close])
(* the block of a style rule or @media: declarations and rules in any order; a semicolon after a declaration that has more after it *)
with items_written : bool -> list (property * option cursor) -> list css_rule -> list cursor -> Prop :=
  | iw_none nested g : gap g -> items_written nested [] [] g
  | iw_semicolon nested g semi decls rules toks : gap g -> kind_of semi = K_Semicolon -> items_written nested decls rules toks -> items_written nested decls rules (g ++ semi :: toks)
  | iw_last nested g d t g' : gap g -> declaration_written d t -> gap g' -> items_written nested [(d, None)] [] (g ++ t ++ g')
  | iw_declaration nested g d t g' semi decls rules toks : gap g -> declaration_written d t -> gap g' -> kind_of semi = K_Semicolon -> items_written nested decls rules toks ->
      items_written nested ((d, Some semi) :: decls) rules (g ++ t ++ g' ++ semi :: toks)
  | iw_rule nested g r t decls rules toks : gap g -> rule_written nested true r t -> items_written nested decls rules toks -> items_written nested decls (r :: rules) (g ++ t ++ toks)
(* the block of other rules *)
with rules_written : list css_rule -> list cursor -> Prop :=
  | rsw_none g : gap g -> rules_written [] g
  | rsw_cons g r t rules toks : gap g -> rule_written false false r t -> rules_written rules toks -> rules_written (r :: rules) (g ++ t ++ toks).
(* a stylesheet may have <!-- and --> between its rules *)
Inductive sheet_written : list css_rule -> list cursor -> Prop :=
  | sw_none g : gap g -> sheet_written [] g
  | sw_cdo g c rules toks : gap g -> kind_of c = K_CdcOrCdo -> sheet_written rules toks -> sheet_written rules (g ++ c :: toks)
  | sw_cons g r t rules toks : gap g -> rule_written false false r t -> sheet_written rules toks -> sheet_written (r :: rules) (g ++ t ++ toks).
End Written.
Scheme rule_written_mut := Minimality for rule_written Sort Prop with items_written_mut := Minimality for items_written Sort Prop with rules_written_mut := Minimality for rules_written Sort Prop.
Combined Scheme written_mut from rule_written_mut, items_written_mut, rules_written_mut.
