(* The selectors that a syntax tree may stand for: which tokens each node is made of. Words are read as the word sets read them. *)
From Coq Require Import String.
From Coq Require Import List.
From Verif Require Import SpecWords.
From Verif Require Import Selectors SpecParser SpecSyntax SpecTraits SpecFeatures.
Open Scope N_scope.
Open Scope list_scope.

(* ---- the parsers selectors are read from ---- *)
(* the text of a number, a dimension and a colon, and the character of a delimiter, can be read; a token that has a character and is
   no delimiter is one of : ; , [ ] ( ) { } *)
Definition signs_readable (p : parser) : Prop := forall cs c, ahead (plex p) cs -> In c cs ->
  (kind_of c = K_Number \/ kind_of c = K_Dimension -> exists v, parse_str_lower c (lsrc (plex p)) = Some v) /\
  (kind_of c = K_Colon -> exists v, parse_str c (lsrc (plex p)) = Some v) /\ (kind_of c = K_Delim -> tchar (ctok c) <> None) /\
  (kind_of c = K_Delim \/ tchar (ctok c) = None \/ exists ch, In ch [58; 59; 44; 91; 93; 40; 41; 123; 125] /\ tchar (ctok c) = Some ch).
Definition ready (p : parser) : Prop := usual p /\ signs_readable p.
(* what was read between p and q are the tokens [used], in that order, and tokens p skips; the settings of p are in place *)
Definition spent (p q : parser) (used : list cursor) : Prop :=
  exists cs skipped rest, ahead (plex p) (cs ++ rest) /\ ahead (plex q) rest /\ merged used skipped cs /\ Forall (in_kinds (pskip p)) skipped /\ same_mode p q.

(* ---- nodes ---- *)
Definition in_words (l : list text) (src : text) (x : word) : Prop := is_word K_Ident (words l) src (fst x) (snd x).
(* HTML: valid custom element names. A lower-case letter, then these characters, a '-' among them; eight names are reserved *)
Definition pcen_char (c : char) : Prop :=
  c = 45 \/ c = 46 \/ 48 <= c <= 57 \/ c = 95 \/ 97 <= c <= 122 \/ c = 0xB7 \/ 0xC0 <= c <= 0xD6 \/ 0xD8 <= c <= 0xF6 \/ 0xF8 <= c <= 0x37D \/
  0x37F <= c <= 0x1FFF \/ 0x200C <= c <= 0x200D \/ 0x203F <= c <= 0x2040 \/ 0x2070 <= c <= 0x218F \/ 0x2C00 <= c <= 0x2FEF \/ 0x3001 <= c <= 0xD7FF \/
  0xF900 <= c <= 0xFDCF \/ 0xFDF0 <= c <= 0xFFFD \/ 0x10000 <= c <= 0xEFFFF.
Definition custom_name (w : text) : Prop :=
  ~ In w html_not_custom /\ exists a r, w = a :: r /\ 97 <= a <= 122 /\ Forall pcen_char r /\ In 45 r.
(* the kind of a tag: the first of these that its name, lower-cased, belongs to *)
Definition tag_phrase (src : text) (t : tag_t) : Prop :=
  kind_of (tag_cursor t) = K_Ident /\ exists w, parse_str_lower (tag_cursor t) src = Some w /\
  match t with
  | THtml x => fst x = w /\ In w html_elements
  | TSvg x => fst x = w /\ ~ In w html_elements /\ In w svg_elements
  | TMathml x => fst x = w /\ ~ In w html_elements /\ ~ In w svg_elements /\ In w mathml_elements
  | TCustomElement _ => ~ In w html_elements /\ ~ In w svg_elements /\ ~ In w mathml_elements /\ custom_name w
  | THtmlNonConforming x => fst x = w /\ ~ In w html_elements /\ ~ In w svg_elements /\ ~ In w mathml_elements /\ ~ custom_name w /\ In w html_obsolete
  | THtmlNonStandard x => fst x = w /\ ~ In w html_elements /\ ~ In w svg_elements /\ ~ In w mathml_elements /\ ~ custom_name w /\ ~ In w html_obsolete /\ In w html_experimental
  | TUnknown _ => ~ In w html_elements /\ ~ In w svg_elements /\ ~ In w mathml_elements /\ ~ custom_name w /\ ~ In w html_obsolete /\ ~ In w html_experimental
  end.
Definition two (x y : char) (a b : cursor) : Prop := is_delim x a /\ is_delim y b /\ adjacent a b.
Definition combinator_phrase (x : combinator_t) : Prop :=
  match x with
  | CChild c => is_delim 62 c
  | CNextSibling c => is_delim 43 c
  | CSubsequentSibling c => is_delim 126 c
  | CNesting c => is_delim 38 c
  | CColumn a b => two 124 124 a b
  | CDescendant c => kind_of c = K_Whitespace
  end.
(* a namespace prefix before the name [next] *)
Definition prefix_phrase (x : ns_prefix) (next : cursor) : Prop :=
  match x with
  | PNone p => is_delim 124 p
  | PName i p => kind_of i = K_Ident /\ is_delim 124 p /\ adjacent i p /\ adjacent p next
  | PWildcard s p => two 42 124 s p
  end.
Definition namespace_phrase (src : text) (x : namespace_t) : Prop :=
  match fst x with Some y => prefix_phrase y (ns_tag_cursor (snd x)) | None => True end /\
  match snd x with NTag t => tag_phrase src t | NWildcard c => is_delim 42 c end.
Definition operator_phrase (x : attr_operator) : Prop :=
  match x with
  | AExact c => is_delim 61 c
  | ASpaceList a b => two 126 61 a b
  | ALangPrefix a b => two 124 61 a b
  | APrefix a b => two 94 61 a b
  | ASuffix a b => two 36 61 a b
  | AContains a b => two 42 61 a b
  end.
Definition opt_kind (k : kind) (o : option cursor) : Prop := match o with Some c => kind_of c = k | None => True end.
(* '[' prefix? name (operator (ident | string) ('i' | 's')?)? ']'; the ']' may be absent *)
Definition attribute_phrase (src : text) (a : attribute_t) : Prop :=
  kind_of (aopen a) = K_LeftSquare /\ (match aprefix a with Some x => prefix_phrase x (aname a) | None => True end) /\ kind_of (aname a) = K_Ident /\
  (match aoperator a, avalue a with
   | None, None => amodifier a = None
   | Some o, Some v => operator_phrase o /\ (kind_of v = K_Ident \/ kind_of v = K_String)
   | _, _ => False
   end) /\
  (match amodifier a with
   | None => True
   | Some (MInsensitive c) => kind_of c = K_Ident /\ exists ch, parse_str c src = Some [ch] /\ (ch = 105 \/ ch = 73)
   | Some (MSensitive c) => kind_of c = K_Ident /\ exists ch, parse_str c src = Some [ch] /\ (ch = 115 \/ ch = 83)
   end) /\ opt_kind K_RightSquare (aclose a).
Definition vendor_classes (v : vendor) : list text :=
  match v with VStandard => css_pseudo_classes | VWebkit => WEBKIT_PSEUDO_CLASSES | VMoz => MOZ_PSEUDO_CLASSES | VMs => MS_PSEUDO_CLASSES | VO => O_PSEUDO_CLASSES end.
Definition vendor_elements (v : vendor) : list text :=
  match v with VStandard => css_pseudo_elements | VWebkit => WEBKIT_PSEUDO_ELEMENTS | VMoz => MOZ_PSEUDO_ELEMENTS | VMs => MS_PSEUDO_ELEMENTS | VO => O_PSEUDO_ELEMENTS end.
Definition nth_phrase (src : text) (x : nth_t) : Prop :=
  match x with
  | NthOdd c => kind_of c = K_Ident /\ parse_str_lower c src = Some (chars "odd")
  | NthEven c => kind_of c = K_Ident /\ parse_str_lower c src = Some (chars "even")
  | NthInteger c => kind_of c = K_Number /\ is_int (ctok c) = true
  | NthAnb _ _ cs => exists c r, cs = c :: r
  end.
(* the commas of a list are commas, and only the last entry may be without one *)
Fixpoint commas_between {A} (l : list (A * option cursor)) : Prop :=
  match l with [] => True | [(_, o)] => opt_kind K_Comma o | (_, o) :: r => opt_kind K_Comma o /\ o <> None /\ commas_between r end.

Inductive component_phrase (src : text) : component_ast -> Prop :=
  | ph_id : forall c, kind_of c = K_Hash -> hash_is_id_like (ctok c) = true -> component_phrase src (SId c)
  | ph_class : forall dot name, is_delim 46 dot -> kind_of name = K_Ident -> component_phrase src (SClass dot name)
  | ph_tag : forall t, tag_phrase src t -> component_phrase src (STag t)
  | ph_wildcard : forall c, is_delim 42 c -> component_phrase src (SWildcard c)
  | ph_combinator : forall x, combinator_phrase x -> component_phrase src (SCombinator x)
  | ph_attribute : forall a, attribute_phrase src a -> component_phrase src (SAttribute a)
  | ph_pseudo_class : forall v x, class_phrase (words (vendor_classes v)) src x -> component_phrase src (SPseudoClass (v, x))
  | ph_pseudo_element : forall v x, element_phrase (words (vendor_elements v)) src x -> component_phrase src (SPseudoElement (v, x))
  | ph_legacy : forall x, class_phrase (words css_legacy_elements) src x -> component_phrase src (SLegacy x)
  | ph_namespace : forall x, fst x <> None -> namespace_phrase src x -> component_phrase src (SNamespace x)
  | ph_functional_class : forall name ty colon function value close, kind_of colon = K_Colon -> adjacent colon function -> kind_of function = K_Function ->
      parse_str_lower function src = Some name -> In (name, ty) css_functional_classes -> class_value_phrase src ty value -> opt_kind K_RightParen close ->
      component_phrase src (SFunctionalClass name colon function value close)
  | ph_functional_element : forall c1 c2 function name value close, kind_of c1 = K_Colon -> kind_of c2 = K_Colon -> adjacent c1 c2 ->
      kind_of function = K_Function -> parse_str_lower function src = Some name -> element_value_phrase src name value -> opt_kind K_RightParen close ->
      component_phrase src (SFunctionalElement (c1, c2) function value close)
with class_value_phrase (src : text) : value_type -> class_value -> Prop :=
  | cv_dir : forall w, in_words css_dir_values src w -> class_value_phrase src TyDir (VDir w)
  | cv_selectors : forall l, Forall (fun s => Forall (component_phrase src) (fst s)) l -> commas_between l -> class_value_phrase src TySelectors (VSelectors l)
  | cv_lang : forall l, l <> [] -> Forall (fun s => (kind_of (fst s) = K_Ident \/ kind_of (fst s) = K_String) /\ opt_kind K_Comma (snd s)) l -> class_value_phrase src TyLang (VLang l)
  | cv_nth : forall x, nth_phrase src x -> class_value_phrase src TyNth (VNth x)
  | cv_ident : forall c, kind_of c = K_Ident -> class_value_phrase src TyIdent (VIdent c)
with element_value_phrase (src : text) : text -> element_value -> Prop :=
  | ev_highlight : forall c, kind_of c = K_Ident -> element_value_phrase src (chars "highlight") (VHighlight c)
  | ev_part : forall l, Forall (fun c => kind_of c = K_Ident) l -> element_value_phrase src (chars "part") (VPart l)
  | ev_slotted : forall l, Forall (component_phrase src) l -> element_value_phrase src (chars "slotted") (VSlotted l).
Definition compound_phrase (src : text) (l : list component_ast) : Prop := Forall (component_phrase src) l.
Definition selectors_phrase (src : text) (l : list (list component_ast * option cursor)) : Prop := Forall (fun s => compound_phrase src (fst s)) l /\ commas_between l.
