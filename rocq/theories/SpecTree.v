(* C61: what each node of the tree of a stylesheet is made of. The words and tables are those of CSS that css_ast/src/rules names. *)
From Coq Require Import String.
From Coq Require Import List.
From Verif Require Import SpecWords.
From Verif Require Import AstSheet Values SpecLex SpecParser SpecSyntax SpecTraits SpecFeatures SpecSelectors SpecConforms SpecAccepts SpecDecl.
Open Scope N_scope.
Open Scope list_scope.

Section Tree.
Variable src : text.              (* the text *)
Variable all : list cursor.       (* its tokens *)

(* ---- declarations ---- *)
(* [d] is written in the text: these tokens are its name, colon, value and importance, and the value is one of its property (SpecDecl.v) *)
Definition declared (d : property) : Prop :=
  exists before used after value imp, all = before ++ used ++ after /\ bare used = pr_name d :: pr_colon d :: value ++ imp /\ kind_of (pr_name d) = K_Ident /\ kind_of (pr_colon d) = K_Colon /\
    importance src (pr_important d) imp /\ value_of src (pr_name d) value (imp ++ bare after) (pr_value d).
Definition ended {A} (ok : A -> Prop) (l : list (A * option cursor)) : Prop := Forall (fun x => ok (fst x) /\ opt_kind K_Semicolon (snd x)) l.
Definition listed {A} (ok : A -> Prop) (l : list (A * option cursor)) : Prop := Forall (fun x => ok (fst x) /\ opt_kind K_Comma (snd x)) l.
Definition curly (open : cursor) (close : option cursor) : Prop := kind_of open = K_LeftCurly /\ opt_kind K_RightCurly close.
Definition block_of_declarations (b : properties_block) : Prop := let '(open, l, close) := b in curly open close /\ ended declared l.
Definition at_named (w : string) (c : cursor) : Prop := kind_of c = K_AtKeyword /\ eq_ignore_ascii_case c src (chars w) = Some true.
Definition a_word (l : list text) (c : cursor) : Prop := exists w, is_word K_Ident (words l) src w c.

(* ---- selectors ---- *)
(* no comment stands right before a '*' *)
Definition stars_clear : Prop := forall pre c d post, all = pre ++ c :: d :: post -> kind_of c = K_Comment -> ~ is_delim 42 d.
Definition selectors_fit (l : list (list component_ast * option cursor)) : Prop := stars_clear -> selectors_phrase src l.

(* ---- features and conditions ---- *)
Definition integer (c : cursor) : Prop := kind_of c = K_Number /\ is_int (ctok c) = true.
Definition number_fits (ty : number_type) (l : list cursor) : Prop :=
  match ty with
  | NLength => exists c, l = [c] /\ (kind_of c = K_Number /\ (tvalue (ctok c) = 0 \/ tvalue (ctok c) = 2147483648) \/
      kind_of c = K_Dimension /\ exists u, In u css_length_units /\ (dimension_unit (ctok c) = u \/ eq_ignore_ascii_case c src (unit_str u) = Some true))
  | NInt => exists c, l = [c] /\ integer c
  | NFloat => exists c, l = [c] /\ kind_of c = K_Number /\ is_float (ctok c) = true
  | NRatio => exists a, integer a /\ (l = [a] \/ exists s b, l = [a; s; b] /\ is_delim 47 s /\ integer b)
  end.
Definition feature_fits (k : feature_kind) (x : feature_ast) : Prop :=
  match k, x with
  | FDiscrete name values, FaPlain x => feature_phrase name (fun _ c => a_word values c) src x
  | FBoolean name, FaPlain x => feature_phrase name (fun _ _ => True) src x
  | FRanged names legacy ty, FaRanged x => ranged_phrase (fun _ w => in_words names src w) (fun w => existsb (text_eqb (fst w)) legacy) (fun _ l => number_fits ty l) src x
  | _, _ => False
  end.
(* "not" f | f "and" f ... | f "or" f ... *)
Fixpoint chained {F} (okf : F -> Prop) (l : list (F * option condition_kw)) : Prop :=
  match l with
  | [] => False
  | [(x, o)] => okf x /\ o = None
  | (x, o) :: r => okf x /\ (exists kw k, o = Some (kw, k) /\ keyword_at src kw k) /\ chained okf r
  end.
Definition condition_fits {F} (okf : F -> Prop) (x : condition F) : Prop :=
  match x with
  | CIs y => okf y
  | CNot (kw, k) y => kw = KwNot /\ keyword_at src KwNot k /\ okf y
  | CAnd l => chained okf l /\ exists y k r, l = (y, Some (KwAnd, k)) :: r /\ r <> []
  | COr l => chained okf l /\ exists y k r, l = (y, Some (KwOr, k)) :: r /\ r <> []
  end.
(* a media feature has a name of the table, the first of its row; the hack is "(min-width:0\0)" *)
Definition media_fits (x : media_feature) : Prop :=
  match x with
  | MfFeature name y => exists names k, In (names, k) css_media_features /\ name = chars (hd EmptyString names) /\ feature_fits k y
  | MfHack cs => exists o n c d e, cs = [o; n; c; d; e] /\ kind_of o = K_LeftParen /\ kind_of n = K_Ident /\ eq_ignore_ascii_case n src (chars "min-width") = Some true /\ kind_of c = K_Colon /\
      kind_of d = K_Dimension /\ str_slice d src = Some [48; 92; 48] /\ kind_of e = K_RightParen
  end.
Definition media_type_fits (t : option text * cursor) : Prop :=
  kind_of (snd t) = K_Ident /\ exists w, parse_str_lower (snd t) src = Some w /\ ~ In w css_not_media_types /\ match fst t with Some v => v = w /\ In w css_media_types | None => ~ In w css_media_types end.
(* a condition | ("not" | "only")? type? ("and" condition)? with at least one of the first two *)
Definition query_fits (q : media_query) : Prop :=
  match q with
  | MediaQuery None None None (Some x) => condition_fits media_fits x
  | MediaQuery pre ty and_ cond =>
      (pre <> None \/ ty <> None) /\ match pre with Some w => in_words css_media_prefixes src w | None => True end /\ match ty with Some t => media_type_fits t | None => True end /\
      match and_, cond with
      | None, None => True
      | Some a, Some x => kind_of a = K_Ident /\ eq_ignore_ascii_case a src (chars "and") = Some true /\ condition_fits media_fits x
      | _, _ => False
      end
  end.
Definition container_fits (x : container_condition) : Prop :=
  match cc_name x with
  | Some c => kind_of c = K_Ident /\ exists w, parse_str_lower c src = Some w /\ ~ In w css_not_container_names
  | None => cc_condition x <> None
  end /\
  match cc_condition x with
  | Some y => condition_fits (fun z => exists k, In (fst z, (fst z, k)) css_container_features /\ feature_fits k (snd z)) y
  | None => True
  end.
(* "(" declaration ")" | selector( selectors ), also in parentheses *)
Definition supports_fits (x : supports_feature) : Prop :=
  match x with
  | SfProperty open d close => kind_of open = K_LeftParen /\ declared d /\ opt_kind K_RightParen close
  | SfSelector open function selectors close outer =>
      kind_of function = K_Function /\ parse_str_lower function src = Some (chars "selector") /\ selectors_fit selectors /\ kind_of close = K_RightParen /\
      match open, outer with Some o, Some c => kind_of o = K_LeftParen /\ kind_of c = K_RightParen | None, None => True | _, _ => False end
  end.

(* ---- the other preludes ---- *)
Definition page_pseudo_fits (x : page_pseudo_class) : Prop := class_phrase css_page_pseudos src x.
Definition page_fits (x : page_selector) : Prop := opt_kind K_Ident (ps_type x) /\ Forall page_pseudo_fits (ps_pseudos x).
Definition layer_fits (x : layer_name) : Prop := kind_of (fst x) = K_Ident /\ Forall (fun y => is_delim 46 (fst y) /\ kind_of (snd y) = K_Ident) (snd x).
Definition keyframes_name_fits (c : cursor) : Prop := kind_of c = K_String \/ kind_of c = K_Ident /\ exists w, parse_str c src = Some w /\ ~ In w css_not_keyframes.
(* "from" | "to" | a percentage from 0 to 100 (1120403456 is 100.0; the sign bit is the highest) *)
Definition keyframe_selector_fits (x : keyframe_selector) : Prop :=
  match x with
  | KsFrom c => kind_of c = K_Ident /\ parse_str_lower c src = Some (chars "from")
  | KsTo c => kind_of c = K_Ident /\ parse_str_lower c src = Some (chars "to")
  | KsPercent c => kind_of c = K_Dimension /\ (dimension_unit (ctok c) = U_Percent \/ eq_ignore_ascii_case c src (chars "%") = Some true) /\
      (tvalue (ctok c) <= 1120403456 \/ tvalue (ctok c) = 2147483648)
  end.
Definition keyframe_fits (k : keyframe) : Prop := listed keyframe_selector_fits (kf_selectors k) /\ kf_selectors k <> [] /\ block_of_declarations (kf_block k).
Definition url_call (name : string) (function string close : cursor) : Prop :=
  kind_of function = K_Function /\ parse_str_lower function src = Some (chars name) /\ kind_of string = K_String /\ kind_of close = K_RightParen.
(* what is written domain(), media-document() or regexp() is also read as a prefix *)
Definition document_fits (x : document_matcher) : Prop :=
  match x with
  | DmUrl c => kind_of c = K_Url
  | DmUrlFunction a b c => url_call "url" a b c
  | DmUrlPrefix a b c => exists name, In name ["url-prefix"; "domain"; "media-document"; "regexp"]%string /\ url_call name a b c
  | _ => False
  end.
Definition margin_fits (m : margin_rule) : Prop := kind_of (mg_at m) = K_AtKeyword /\ (exists w, is_word K_AtKeyword (words css_page_margins) src w (mg_at m)) /\ block_of_declarations (mg_block m).

(* ---- what hdx knows no more of: component values, and rules of them (a bracket may be closed by another one) ---- *)
Inductive value_fits : cval -> Prop :=
  | vf_token k c : kind_of c = k -> In k (K_Whitespace :: [K_Number; K_Dimension; K_Ident; K_AtKeyword; K_Hash; K_String; K_Url; K_Delim; K_Colon; K_Semicolon; K_Comma]) -> value_fits (CvToken k c)
  | vf_block start opening values closing : is_opener (tkind opening) -> Forall value_fits values -> (forall t, closing = Some t -> is_closer (tkind t)) ->
      value_fits (CvBlock start opening values closing)
  | vf_function name values closing : kind_of name = K_Function -> Forall value_fits values -> opt_kind K_RightParen closing -> value_fits (CvFunction name values closing).
Definition values_fit (l : list cval) : Prop := Forall value_fits l.
Definition declaration_fits (d : declaration) : Prop :=
  kind_of (dname d) = K_Ident /\ kind_of (dcolon d) = K_Colon /\ values_fit (dvalue d) /\ (forall b w, dimportant d = Some (b, w) -> important src b w).
Inductive generic_fits : rule -> Prop :=
  | gf_at name prelude body : kind_of name = K_AtKeyword -> (forall l, prelude = Some l -> values_fit l) -> generic_body body -> generic_fits (AtRule name prelude body)
  | gf_qualified prelude body : values_fit prelude -> generic_block body -> generic_fits (QualifiedRule prelude body)
with generic_block : block -> Prop :=
  | gf_block start opening decls rules closing : curly opening closing -> ended declaration_fits decls -> Forall generic_fits rules -> generic_block (Block start opening decls rules closing)
with generic_body : block + option cursor -> Prop :=
  | gf_with b : generic_block b -> generic_body (inl b)
  | gf_without semi : opt_kind K_Semicolon semi -> generic_body (inr semi).
(* @property: "initial-value" has any value, "inherits" true or false, "syntax" a string; nothing is important *)
Definition registered_fits (d : registered) : Prop :=
  kind_of (rg_name d) = K_Ident /\ kind_of (rg_colon d) = K_Colon /\ exists w, parse_str_lower (rg_name d) src = Some w /\
  match rg_value d with
  | PvInitial l => w = chars "initial-value" /\ values_fit l
  | PvInherits v => w = chars "inherits" /\ in_words css_inherits src v
  | PvSyntax c => w = chars "syntax" /\ kind_of c = K_String
  | PvUnknown l => values_fit l /\ ~ In w (map chars ["initial-value"; "inherits"; "syntax"]%string)
  end.

(* ---- rules ---- *)
(* [nested] is for the rules in the block of a style rule: fewer at-rules are read there, and what is no rule is kept as RBad *)
Inductive rule_fits : bool -> css_rule -> Prop :=
  | rf_charset at_ space string semi : at_named "charset" at_ -> kind_of space = K_Whitespace -> kind_of string = K_String -> opt_kind K_Semicolon semi ->
      rule_fits false (RCharset at_ space string semi)
  | rf_container nested at_ query open rules close : at_named "container" at_ -> Forall container_fits query -> query <> [] -> curly open close -> Forall (rule_fits false) rules ->
      rule_fits nested (RContainer at_ query open rules close)
  | rf_document at_ m open rules close : at_named "document" at_ -> listed document_fits m -> m <> [] -> curly open close -> Forall (rule_fits false) rules ->
      rule_fits false (RDocument at_ m open rules close)
  | rf_moz_document at_ m open rules close : at_named "-moz-document" at_ -> listed document_fits m -> m <> [] -> curly open close -> Forall (rule_fits false) rules ->
      rule_fits false (RMozDocument at_ m open rules close)
  | rf_font_face at_ open decls close : at_named "font-face" at_ -> curly open close -> Forall (fun d => declared d /\ a_word css_font_descriptors (pr_name d)) decls ->
      rule_fits false (RFontFace at_ open decls close)
  | rf_keyframes at_ name open frames close : at_named "keyframes" at_ -> (forall c, name = Some c -> keyframes_name_fits c) -> curly open close -> Forall keyframe_fits frames ->
      rule_fits false (RKeyframes at_ name open frames close)
  | rf_webkit_keyframes at_ name open frames close : at_named "-webkit-keyframes" at_ -> keyframes_name_fits name -> curly open close -> Forall keyframe_fits frames ->
      rule_fits false (RWebkitKeyframes at_ name open frames close)
  | rf_layer_names nested at_ names semi : at_named "layer" at_ -> (forall l, names = Some l -> listed layer_fits l /\ l <> []) -> kind_of semi = K_Semicolon ->
      rule_fits nested (RLayerNames at_ names semi)
  | rf_layer nested at_ names open rules close : at_named "layer" at_ -> (forall l, names = Some l -> listed layer_fits l /\ List.length l = 1%nat) -> curly open close -> Forall (rule_fits false) rules ->
      rule_fits nested (RLayer at_ names open rules close)
  | rf_media nested at_ query open decls rules close : at_named "media" at_ -> Forall query_fits query -> query <> [] -> curly open close -> ended declared decls -> Forall (rule_fits false) rules ->
      rule_fits nested (RMedia at_ query open decls rules close)
  | rf_page at_ selectors open decls margins close : at_named "page" at_ -> (forall l, selectors = Some l -> listed page_fits l /\ l <> []) -> curly open close -> ended declared decls -> Forall margin_fits margins ->
      rule_fits false (RPage at_ selectors open decls margins close)
  | rf_property at_ name open decls close : at_named "property" at_ -> kind_of name = K_Ident -> is_dashed_ident (ctok name) = true -> curly open close -> ended registered_fits decls ->
      rule_fits false (RProperty at_ name open decls close)
  | rf_supports nested at_ query open rules close : at_named "supports" at_ -> condition_fits supports_fits query -> curly open close -> Forall (rule_fits false) rules ->
      rule_fits nested (RSupports at_ query open rules close)
  | rf_style nested selectors open decls rules close : selectors_fit selectors -> curly open close -> ended declared decls -> Forall (rule_fits true) rules ->
      rule_fits nested (RStyle selectors open decls rules close)
  | rf_unknown_at nested name prelude body : generic_fits (AtRule name prelude body) -> rule_fits nested (RUnknownAt (AtRule name prelude body))
  | rf_unknown nested prelude body : generic_fits (QualifiedRule prelude body) -> rule_fits nested (RUnknown (QualifiedRule prelude body))
  | rf_bad l : values_fit l -> rule_fits true (RBad l).
End Tree.
