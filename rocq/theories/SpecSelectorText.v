(* Which tokens a selector may be written with: the layouts of a selector tree (CSS Selectors 4, section 18, without comments
   between the simple selectors of a complex selector). [toks] are all the tokens of the source, trivia included. *)
From Coq Require Import String.
From Coq Require Import List.
From Verif Require Import SpecWords.
From Verif Require Import Selectors SpecLex SpecF32 SpecParser SpecSyntax SpecTraits SpecFeatures SpecSelectors.
Open Scope N_scope.
Open Scope list_scope.

Definition white_token (c : cursor) : Prop := kind_of c = K_Whitespace.
Definition trivia_token (c : cursor) : Prop := kind_of c = K_Whitespace \/ kind_of c = K_Comment.
Definition gap (l : list cursor) : Prop := Forall trivia_token l.
(* the first token that is no comment is not '|' *)
Definition no_pipe (l : list cursor) : Prop := forall comments c r, l = comments ++ c :: r -> Forall (fun c => kind_of c = K_Comment) comments -> kind_of c <> K_Comment -> tchar (ctok c) <> Some 124.
Definition descends (x : component_ast) : Prop := exists w, x = SCombinator (CDescendant w).
(* what may follow: no '|' after a name, which would make it a namespace; whitespace is for the next selector *)
Definition follows (x : component_ast) (next : list cursor) : Prop :=
  match x with
  | STag _ | SWildcard _ => no_pipe next
  | SCombinator (CDescendant _) => exists c r, next = c :: r /\ ~ trivia_token c
  | _ => True
  end.
(* '[' prefix? name (operator value modifier?)? ']', trivia anywhere but inside the prefix and the operator *)
Definition attribute_laid (src : text) (a : attribute_t) (toks : list cursor) : Prop :=
  attribute_phrase src a /\ (forall pipe, aprefix a <> Some (PNone pipe)) /\ exists g1 g2 g3 g4 g5 close, gap g1 /\ gap g2 /\ gap g3 /\ gap g4 /\ gap g5 /\ aclose a = Some close /\
  toks = aopen a :: g1 ++ (match aprefix a with Some x => prefix_cursors x | None => [] end) ++ aname a ::
    (match aoperator a, avalue a with Some o, Some v => g2 ++ operator_cursors o ++ g3 ++ [v] | _, _ => [] end) ++
    (match amodifier a with Some m => g4 ++ [modifier_cursor m] | None => [] end) ++ g5 ++ [close].
(* values separated by commas *)
Inductive lang_laid : list (cursor * option cursor) -> list cursor -> Prop :=
  | lang_one : forall g c, gap g -> kind_of c = K_Ident \/ kind_of c = K_String -> lang_laid [(c, None)] (g ++ [c])
  | lang_cons : forall g c g' comma l toks, gap g -> kind_of c = K_Ident \/ kind_of c = K_String -> gap g' -> kind_of comma = K_Comma -> lang_laid l toks ->
      lang_laid ((c, Some comma) :: l) (g ++ c :: g' ++ comma :: toks).
Inductive idents_laid : list cursor -> list cursor -> Prop :=
  | idents_none : idents_laid [] []
  | idents_cons : forall g c l toks, gap g -> kind_of c = K_Ident -> idents_laid l toks -> idents_laid (c :: l) (g ++ c :: toks).

(* ---- An+B (CSS Syntax 3, section 6.2, the grammar in tokens) ---- *)
(* the value of a number token without its sign *)
Definition magnitude (c : cursor) : Z := f32_as_i32 (f32_abs (tvalue (ctok c))).
Definition integer_token (c : cursor) : Prop := kind_of c = K_Number /\ is_int (ctok c) = true.
(* <signless-integer>, and a <signed-integer> with a plus *)
Definition signless (c : cursor) : Prop := integer_token c /\ has_sign (ctok c) = false.
Definition with_plus (c : cursor) : Prop := integer_token c /\ has_sign (ctok c) = true /\ N.testbit (tvalue (ctok c)) 31 = false.
(* the tokens up to the one with the "n", the factor A they say, and what the text of that token has after the "n" *)
Inductive anb_head (src : text) : list cursor -> Z -> text -> Prop :=
  | head_dimension : forall c tail, kind_of c = K_Dimension -> is_int (ctok c) = true -> parse_str_lower c src = Some (110 :: tail) -> anb_head src [c] (f32_as_i32 (tvalue (ctok c))) tail
  | head_n : forall c tail, kind_of c = K_Ident -> parse_str_lower c src = Some (110 :: tail) -> anb_head src [c] 1 tail
  | head_plus_n : forall plus c tail, is_delim 43 plus -> kind_of c = K_Ident -> parse_str_lower c src = Some (110 :: tail) -> anb_head src [plus; c] 1 tail
  | head_minus_n : forall c tail, kind_of c = K_Ident -> parse_str_lower c src = Some (45 :: 110 :: tail) -> anb_head src [c] (-1) tail.
(* A, B, the tokens that say them, and all the tokens they are written with. Left out: -n- and a space, and a B with a minus after a
   space (PropNth.v shows that hdx does not read them) *)
Inductive anb_laid (src : text) : Z -> Z -> list cursor -> list cursor -> Prop :=
  | anb_alone : forall a cs, anb_head src cs a [] -> anb_laid src a 0 cs cs
  | anb_digits : forall a cs ds, anb_head src cs a (45 :: ds) -> digits1 ds -> (int_of ds <= 2 ^ 31)%Z -> anb_laid src a (- int_of ds) cs cs
  | anb_dash : forall a cs g m, anb_head src cs a [45] -> (forall c, cs = [c] -> parse_str_lower c src <> Some [45; 110; 45]) -> gap g -> signless m -> anb_laid src a (- magnitude m) (cs ++ [m]) (cs ++ g ++ [m])
  | anb_signed : forall a cs g m, anb_head src cs a [] -> gap g -> with_plus m -> anb_laid src a (magnitude m) (cs ++ [m]) (cs ++ g ++ [m])
  | anb_apart : forall a cs g sign z g' m, anb_head src cs a [] -> gap g -> is_delim 43 sign /\ z = 1%Z \/ is_delim 45 sign /\ z = (-1)%Z -> gap g' -> signless m ->
      anb_laid src a (z * magnitude m) (cs ++ [sign; m]) (cs ++ g ++ sign :: g' ++ [m]).

Inductive laid (src : text) : component_ast -> list cursor -> Prop :=
  | laid_id : forall c, kind_of c = K_Hash -> hash_is_id_like (ctok c) = true -> laid src (SId c) [c]
  | laid_class : forall dot name, is_delim 46 dot -> kind_of name = K_Ident -> laid src (SClass dot name) [dot; name]
  | laid_tag : forall t, tag_phrase src t -> laid src (STag t) [tag_cursor t]
  | laid_wildcard : forall c, is_delim 42 c -> laid src (SWildcard c) [c]
  | laid_combinator : forall x, combinator_phrase x -> (forall w, x <> CDescendant w) -> laid src (SCombinator x) (combinator_cursors x)
  | laid_descendant : forall w more, white_token w -> Forall white_token more -> laid src (SCombinator (CDescendant w)) (w :: more)
  | laid_attribute : forall a toks, attribute_laid src a toks -> laid src (SAttribute a) toks
  | laid_pseudo_class : forall v x, class_phrase (words (vendor_classes v)) src x -> ~ In (fst x) css_legacy_elements -> laid src (SPseudoClass (v, x)) (class_cursors x)
  | laid_pseudo_element : forall v x, element_phrase (words (vendor_elements v)) src x -> laid src (SPseudoElement (v, x)) (element_cursors x)
  | laid_legacy : forall x, class_phrase (words css_legacy_elements) src x -> laid src (SLegacy x) (class_cursors x)
  | laid_namespace : forall x, fst x <> None -> (forall pipe, fst x <> Some (PNone pipe)) -> namespace_phrase src x -> laid src (SNamespace x) (namespace_cursors x)
  | laid_functional_class : forall name ty colon function value close toks g, kind_of colon = K_Colon -> kind_of function = K_Function ->
      parse_str_lower function src = Some name -> In (name, ty) css_functional_classes -> value_laid src ty value toks -> gap g -> kind_of close = K_RightParen ->
      laid src (SFunctionalClass name colon function value (Some close)) (colon :: function :: toks ++ g ++ [close])
  | laid_functional_element : forall c1 c2 function name value close toks g, kind_of c1 = K_Colon -> kind_of c2 = K_Colon -> kind_of function = K_Function ->
      parse_str_lower function src = Some name -> element_laid src name value toks -> gap g -> kind_of close = K_RightParen ->
      laid src (SFunctionalElement (c1, c2) function value (Some close)) (c1 :: c2 :: function :: toks ++ g ++ [close])
with value_laid (src : text) : value_type -> class_value -> list cursor -> Prop :=
  | laid_dir : forall w g, gap g -> in_words css_dir_values src w -> value_laid src TyDir (VDir w) (g ++ [snd w])
  | laid_selectors : forall l toks, list_laid src l toks -> value_laid src TySelectors (VSelectors l) toks
  | laid_lang : forall l toks, lang_laid l toks -> value_laid src TyLang (VLang l) toks
  | laid_odd : forall g c, gap g -> kind_of c = K_Ident -> parse_str_lower c src = Some (chars "odd") -> value_laid src TyNth (VNth (NthOdd c)) (g ++ [c])
  | laid_even : forall g c, gap g -> kind_of c = K_Ident -> parse_str_lower c src = Some (chars "even") -> value_laid src TyNth (VNth (NthEven c)) (g ++ [c])
  | laid_integer : forall g c, gap g -> kind_of c = K_Number -> is_int (ctok c) = true -> value_laid src TyNth (VNth (NthInteger c)) (g ++ [c])
  | laid_anb : forall g a b cs toks, gap g -> anb_laid src a b cs toks -> value_laid src TyNth (VNth (NthAnb a b cs)) (g ++ toks)
  | laid_ident : forall g c, gap g -> kind_of c = K_Ident -> value_laid src TyIdent (VIdent c) (g ++ [c])
with element_laid (src : text) : text -> element_value -> list cursor -> Prop :=
  | laid_highlight : forall g c, gap g -> kind_of c = K_Ident -> element_laid src (chars "highlight") (VHighlight c) (g ++ [c])
  | laid_part : forall l toks, idents_laid l toks -> element_laid src (chars "part") (VPart l) toks
  | laid_slotted : forall g l toks, gap g -> complex_laid src l toks -> element_laid src (chars "slotted") (VSlotted l) (g ++ toks)
(* simple selectors and combinators one after the other; whitespace at neither end *)
with complex_laid (src : text) : list component_ast -> list cursor -> Prop :=
  | laid_first : forall l toks, chain_laid src l toks -> (forall x r, l = x :: r -> ~ descends x) -> complex_laid src l toks
with chain_laid (src : text) : list component_ast -> list cursor -> Prop :=
  | laid_last : forall x toks, laid src x toks -> ~ descends x -> chain_laid src [x] toks
  | laid_cons : forall x toks l toks', laid src x toks -> follows x toks' -> chain_laid src l toks' -> chain_laid src (x :: l) (toks ++ toks')
with list_laid (src : text) : list (list component_ast * option cursor) -> list cursor -> Prop :=
  | laid_one : forall g x toks, gap g -> complex_laid src x toks -> list_laid src [(x, None)] (g ++ toks)
  | laid_more : forall g x toks g' comma l toks', gap g -> complex_laid src x toks -> gap g' -> kind_of comma = K_Comma -> list_laid src l toks' ->
      list_laid src ((x, Some comma) :: l) (g ++ toks ++ g' ++ comma :: toks').
(* what may follow a list: a '{', ')' or ';', with or without trivia before it, or the end *)
Definition list_ends (rest : list cursor) : Prop :=
  rest = [] \/ exists g c r, rest = g ++ c :: r /\ gap g /\ (kind_of c = K_LeftCurly \/ kind_of c = K_RightParen \/ kind_of c = K_Semicolon).

(* ---- the words of Selectors 4, CSS Pseudo-Elements 4 and CSS Scoping ---- *)
Definition SELECTOR_FUNCTIONS : list text := map chars ["is"; "not"; "where"; "has"; "host"; "host-context"]%string.
Definition NTH_FUNCTIONS : list text := map chars ["nth-child"; "nth-last-child"; "nth-of-type"; "nth-last-of-type"; "nth-col"; "nth-last-col"]%string.
(* the argument a function takes *)
Definition function_takes (name : text) (ty : value_type) : Prop :=
  match ty with
  | TySelectors => In name SELECTOR_FUNCTIONS
  | TyNth => In name NTH_FUNCTIONS
  | TyDir => name = chars "dir"
  | TyLang => name = chars "lang"
  | TyIdent => name = chars "state"
  end.
Definition STANDARD_CLASSES : list text := map chars
  ["any-link"; "link"; "visited"; "local-link"; "target"; "target-within"; "scope"; "hover"; "active"; "focus"; "focus-visible"; "focus-within";
   "current"; "past"; "future"; "playing"; "paused"; "modal"; "fullscreen"; "picture-in-picture"; "popover-open"; "enabled"; "disabled"; "read-only"; "read-write";
   "placeholder-shown"; "autofill"; "default"; "checked"; "indeterminate"; "blank"; "valid"; "invalid"; "in-range"; "out-of-range"; "required"; "optional";
   "root"; "empty"; "first-child"; "last-child"; "only-child"; "first-of-type"; "last-of-type"; "only-of-type"; "defined"; "host"]%string.
Definition STANDARD_ELEMENTS : list text := map chars
  ["first-line"; "first-letter"; "before"; "after"; "selection"; "target-text"; "spelling-error"; "grammar-error"; "marker"; "placeholder";
   "file-selector-button"; "backdrop"; "cue"; "view-transition"]%string.
(* the pseudo-elements that may be written with one colon *)
Definition ONE_COLON_ELEMENTS : list text := map chars ["first-line"; "first-letter"; "before"; "after"]%string.
