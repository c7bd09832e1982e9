(* css_ast/src: properties/mod.rs, the units that media and container features use, and the preludes of the rules in
   css_ast/src/rules (media, container, supports, page, layer, keyframes, document).
   - the grammar of the property values (css_ast/src/values and csskit_proc_macro) is a parameter: [props] gives, for each
     known property name, a parser; a value it accepts is the cursors it writes.
   - a T![x] field is the cursor it keeps; a variant of a word enum is its word and cursor.
   - [None] is a panic (todo!() included) or a loop that outlives its fuel. *)
From Coq Require Import String.
From Coq Require Import List.
From Verif Require Export Selectors Syntax.
Open Scope N_scope.
Open Scope list_scope.

(* codes of [D_Other] *)
Definition E_MISSING_PRELUDE : N := 30.
Definition E_RESERVED_KEYFRAME : N := 31.
Definition E_OUT_OF_BOUNDS : N := 32.
Definition E_LAYER_NAMES : N := 33.
Definition E_DISALLOWED_IMPORTANT : N := 34.
Definition E_UNIMPLEMENTED : N := 35.

(* lib.rs:29-38 (Todo) *)
Definition parse_todo {A} : P A := fail (D_Other E_UNIMPLEMENTED (dummy_cursor T_EOF)).

(* ---- properties/mod.rs ---- *)
(* mod.rs:147-163 *)
Inductive style_value : Type :=
  | SvKeyword (w : Selectors.word) | SvCustom (l : list cval) | SvComputed (l : list cval) | SvUnknown (l : list cval)
  | SvKnown (name : text) (cs : list cursor).
Definition properties : Type := list (text * P (list cursor)).
(* mod.rs:169-175 *)
Definition WIDE_KEYWORDS : list text := map chars ["initial"; "inherit"; "unset"; "revert"; "revert-layer"]%string.
(* mod.rs:40-57 *)
Definition COMPUTED_FUNCTIONS : list text := map chars
  ["var"; "calc"; "min"; "max"; "clamp"; "round"; "mod"; "rem"; "sin"; "cos"; "tan"; "asin"; "atan"; "atan2"; "pow"; "sqrt";
   "hypot"; "log"; "exp"; "abs"; "sign"]%string.
Definition peek_computed : peeker := peek_set K_Function (words COMPUTED_FUNCTIONS).
(* mod.rs:19-28, 59-68, 80-89: the three are the same text *)
Definition parse_free_value : P (list cval) := in_state ST_NESTED (in_stop KS_RIGHT_CURLY_OR_SEMICOLON parse_component_values).
(* mod.rs:211: [p.at_end() || p.peek_n(1) == KindSet::RIGHT_CURLY_OR_SEMICOLON || p.peek::<T![!]>()] *)
Definition value_ends (p : parser) : option bool :=
  if p_at_end p then Some true else
  match peek_n p 1 with
  | None => None
  | Some c => if tok_in (ctok c) KS_RIGHT_CURLY_OR_SEMICOLON then Some true else peek (peek_delim 33) p
  end.
(* mod.rs:222-228; [ck] is the checkpoint before the value *)
Definition fallback_value (ck : checkpoint_t) : P style_value := fun p =>
  match peek peek_computed p with
  | None => None
  | Some true => pmap SvComputed parse_free_value (rewind p ck)
  | Some false => pmap SvUnknown parse_free_value (rewind p ck)
  end.
(* mod.rs:186-230 *)
Definition parse_style_value (props : properties) (name : cursor) : P style_value := fun p =>
  if is_dashed_ident (ctok name) then pmap SvCustom parse_free_value p else
  bind (parse_if_peek (peek_set K_Ident (words WIDE_KEYWORDS)) (parse_set K_Ident (words WIDE_KEYWORDS))) (fun kw =>
  match kw with
  | Some w => ret (SvKeyword w)
  | None =>
      or_peek peek_computed (pmap SvComputed parse_free_value) (fun p =>
        let ck := checkpoint p in
        match (if tok_is (ctok name) K_Ident then look_up props p name else Some None) with
        | None => None
        | Some None => fallback_value ck p
        | Some (Some value_p) =>
            match value_p p with
            | None => None
            | Some (Err _, q) => fallback_value ck q
            | Some (Ok cs, q) =>
                match value_ends q with
                | None => None
                | Some true =>
                    match parse_str_lower name (lsrc (plex q)) with None => None | Some w => Some (Ok (SvKnown w cs), q) end
                | Some false => fallback_value ck q
                end
            end
        end)
  end) p.
(* mod.rs:232-250 *)
Definition style_value_cursors (v : style_value) : list cursor :=
  match v with SvKeyword w => [snd w] | SvCustom l | SvComputed l | SvUnknown l => cvs_cursors l | SvKnown _ cs => cs end.
(* mod.rs:100-133; the peek of Property (mod.rs:107-111) is that of syntax::Declaration *)
Record property : Type := Property { pr_name : cursor; pr_colon : cursor; pr_value : style_value; pr_important : option (cursor * cursor) }.
Definition property_of (x : cursor * cursor * style_value * option (cursor * cursor)) : property :=
  let '(name, colon, value, important) := x in Property name colon value important.
Definition parse_property (props : properties) : P property :=
  pmap property_of (declaration_t (fun _ _ => Some true) (parse_style_value props)).
Definition pair_cursors (o : option (cursor * cursor)) : list cursor := match o with Some (a, b) => [a; b] | None => [] end.
Definition property_cursors (d : property) : list cursor :=
  pr_name d :: pr_colon d :: style_value_cursors (pr_value d) ++ pair_cursors (pr_important d).
Definition properties_cursors (l : list (property * option cursor)) : list cursor :=
  flat_map (fun d => property_cursors (fst d) ++ opt_cursor (snd d)) l.

(* ---- units ---- *)
(* units/length.rs:13-74 *)
Definition LENGTH_UNITS : list unit_t :=
  [U_Em; U_Rem; U_Ex; U_Rex; U_Cap; U_Rcap; U_Ch; U_Rch; U_Ic; U_Ric; U_Lh; U_Rlh; U_Vw; U_Svw; U_Lvw; U_Dvw; U_Vh; U_Svh; U_Lvh; U_Dvh;
   U_Vi; U_Svi; U_Lvi; U_Dvi; U_Vb; U_Svb; U_Lvb; U_Dvb; U_Vmin; U_Svmin; U_Lvmin; U_Dvmin; U_Vmax; U_Svmax; U_Lvmax; U_Dvmax;
   U_Cm; U_Mm; U_Q; U_In; U_Pc; U_Pt; U_Px; U_Cqw; U_Cqh; U_Cqi; U_Cqb; U_Cqmin; U_Cqmax].
(* f32 bit patterns: [v == 0.0] and [(0.0..=100.0).contains(&v)] (100.0 is 0x42c80000) *)
Definition f32_is_zero (v : N) : bool := (v =? 0) || (v =? 2147483648).
Definition f32_upto_100 (v : N) : bool := f32_is_zero v || (v <=? 1120403456).
(* units/length.rs:130-140; a length is the cursor of its token *)
Definition peek_length : peeker := fun p c =>
  if tok_is (ctok c) K_Number && f32_is_zero (tvalue (ctok c)) then Some true
  else any_peek (map (fun u => peek_dimension u (unit_str u)) LENGTH_UNITS) p c.
(* units/int.rs:26-30, units/float.rs:26-30 *)
Definition peek_int : peeker := fun _ c => Some (tok_is (ctok c) K_Number && is_int (ctok c)).
Definition peek_float : peeker := fun _ c => Some (tok_is (ctok c) K_Number && is_float (ctok c)).
(* types/ratio.rs:24-32 *)
Definition parse_ratio : P (list cursor) :=
  bind (parse_single peek_int (fun c => c)) (fun numerator =>
  bind (parse_if_peek (peek_delim 47) (parse_delim 47)) (fun slash =>
  match slash with
  | None => ret [numerator]
  | Some s => pmap (fun d => [numerator; s; d]) (parse_single peek_int (fun c => c))
  end)).
Inductive number_type : Set := NLength | NInt | NFloat | NRatio.
Definition parse_number_type (ty : number_type) : P (list cursor) :=
  match ty with
  | NLength => pmap (fun c => [c]) (parse_single peek_length (fun c => c))
  | NInt => pmap (fun c => [c]) (parse_single peek_int (fun c => c))
  | NFloat => pmap (fun c => [c]) (parse_single peek_float (fun c => c))
  | NRatio => parse_ratio
  end.

(* ---- rules/media ---- *)
(* media/features/*.rs: what a feature type is. A ranged feature has its keywords and those that are legacy. *)
Inductive feature_kind : Type :=
  | FDiscrete (name : text) (values : list text) | FBoolean (name : text)
  | FRanged (names : list text) (legacy : list text) (ty : number_type) | FTodo.
Inductive feature_ast : Type :=
  | FaPlain (f : plain_feature cursor) | FaRanged (f : ranged_feature Selectors.word (list cursor)).
(* a keyword that is legacy: RangedFeatureKeyword::is_legacy of the types *)
Definition parse_feature (k : feature_kind) : P feature_ast :=
  match k with
  | FDiscrete name values => pmap FaPlain (discrete_feature_t name (pmap snd (parse_set K_Ident (words values))))
  | FBoolean name => pmap FaPlain (boolean_feature_t name)
  | FRanged names legacy ty =>
      pmap FaRanged (ranged_feature_t (peek_set K_Ident (words names)) (parse_set K_Ident (words names))
        (fun w => existsb (text_eqb (fst w)) legacy) (parse_number_type ty))
  | FTodo => parse_todo
  end.
Definition feature_cursors (f : feature_ast) : list cursor :=
  match f with FaPlain f => plain_cursors (fun c => [c]) f | FaRanged f => ranged_cursors (fun w => [snd w]) (fun l => l) f end.
Definition discrete (name : string) (values : list string) : feature_kind := FDiscrete (chars name) (map chars values).
Definition ranged (a max min : string) (ty : number_type) : feature_kind := FRanged (map chars [a; max; min]) (map chars [max; min]) ty.
Definition PIXEL_RATIO_MOZ : feature_kind :=
  ranged "-moz-device-pixel-ratio" "-moz-max-device-pixel-ratio" "-moz-min-device-pixel-ratio" NFloat.
(* media/mod.rs:369-439, with the types of media/features/*.rs: the names dispatched on, and the feature *)
Definition MEDIA_TABLE : list (list string * feature_kind) := [
  (["any-hover"], discrete "any-hover" ["none"; "hover"]);
  (["any-pointer"], discrete "any-pointer" ["none"; "coarse"; "fine"]);
  (["aspect-ratio"; "max-aspect-ratio"; "min-aspect-ratio"], FTodo);
  (["color"; "max-color"; "min-color"], ranged "color" "max-color" "min-color" NInt);
  (["color-gamut"], discrete "color-gamut" ["srgb"; "p3"; "rec2020"]);
  (["color-index"; "max-color-index"; "min-color-index"], ranged "color-index" "max-color-index" "min-color-index" NInt);
  (["device-aspect-ratio"; "max-device-aspect-ratio"; "min-device-aspect-ratio"], FTodo);
  (["device-height"; "max-device-height"; "min-device-height"], ranged "device-height" "max-device-height" "min-device-height" NLength);
  (["device-width"; "max-device-width"; "min-device-width"], ranged "device-width" "max-device-width" "min-device-width" NLength);
  (["display-mode"], discrete "display-mode" ["fullscreen"; "standalone"; "minimal-ui"; "browser"; "picture-in-picture"]);
  (["dynamic-range"], discrete "dynamic-range" ["standard"; "high"]);
  (["environment-blending"], discrete "environment-blending" ["opaque"; "additive"; "subtractive"]);
  (["forced-colors"], discrete "forced-colors" ["none"; "active"]);
  (["grid"], FBoolean (chars "grid"));
  (["height"; "max-height"; "min-height"], ranged "height" "max-height" "min-height" NLength);
  (["horizontal-viewport-segments"; "max-horizontal-viewport-segments"; "min-horizontal-viewport-segments"],
    ranged "horizontal-viewport-segments" "max-horizontal-viewport-segments" "min-horizontal-viewport-segments" NInt);
  (["hover"], discrete "hover" ["none"; "hover"]);
  (["inverted-colors"], discrete "inverted-colors" ["none"; "inverted"]);
  (["monochrome"; "max-monochrome"; "min-monochrome"], ranged "monochrome" "max-monochrome" "min-monochrome" NInt);
  (["nav-controls"], discrete "nav-controls" ["none"; "back"]);
  (["orientation"], discrete "orientation" ["portrait"; "landscape"]);
  (["overflow-block"], discrete "overflow-block" ["none"; "scroll"; "paged"]);
  (["overflow-inline"], discrete "overflow-inline" ["none"; "scroll"]);
  (["pointer"], discrete "pointer" ["none"; "coarse"; "fine"]);
  (["prefers-color-scheme"], discrete "prefers-color-scheme" ["light"; "dark"]);
  (["prefers-contrast"], discrete "prefers-contrast" ["no-preference"; "less"; "more"; "custom"]);
  (["prefers-reduced-data"], discrete "prefers-reduced-data" ["no-preference"; "reduce"]);
  (["prefers-reduced-motion"], discrete "prefers-reduced-motion" ["no-preference"; "reduce"]);
  (["prefers-reduced-transparency"], discrete "prefers-reduced-transparency" ["no-preference"; "reduce"]);
  (["resolution"; "max-resolution"; "min-resolution"], FTodo);
  (["scan"], discrete "scan" ["interlace"; "progressive"]);
  (["scripting"], discrete "scripting" ["none"; "initial-only"; "enabled"]);
  (["update"], FTodo);
  (["vertical-viewport-segments"; "max-vertical-viewport-segments"; "min-vertical-viewport-segments"],
    ranged "vertical-viewport-segments" "max-vertical-viewport-segments" "min-vertical-viewport-segments" NInt);
  (["video-color-gamut"], discrete "video-color-gamut" ["srgb"; "p3"; "rec2020"]);
  (["video-dynamic-range"], discrete "video-dynamic-range" ["standard"; "high"]);
  (["width"; "max-width"; "min-width"], ranged "width" "max-width" "min-width" NLength);
  (["-webkit-animation"], discrete "-webkit-animation" ["true"; "false"]);
  (["-webkit-device-pixel-ratio"], ranged "-webkit-device-pixel-ratio" "-webkit-max-device-pixel-ratio" "-webkit-min-device-pixel-ratio" NFloat);
  (["-webkit-transform-2d"], discrete "-webkit-transform-2d" ["true"; "false"]);
  (["-webkit-transform-3d"], discrete "-webkit-transform-3d" ["true"; "false"]);
  (["-webkit-transition"], discrete "-webkit-transition" ["true"; "false"]);
  (["-webkit-video-playable-inline"], discrete "-webkit-video-playable-inline" ["true"; "false"]);
  (["-moz-device-orientation"], discrete "-moz-device-orientation" ["portrait"; "landscape"]);
  (["-moz-device-pixel-ratio"; "max--moz-device-pixel-ratio"; "min--moz-device-pixel-ratio"], PIXEL_RATIO_MOZ);
  (["-moz-mac-graphite-theme"], PIXEL_RATIO_MOZ);
  (["-moz-maemo-classic"], PIXEL_RATIO_MOZ);
  (["-moz-images-in-menus"], PIXEL_RATIO_MOZ);
  (["-moz-os-version"], PIXEL_RATIO_MOZ);
  (["-ms-high-contrast"], discrete "-ms-high-contrast" ["none"; "active"]);
  (["-ms-view-state"], discrete "-ms-view-state" ["snapped"; "fullscreen-portrait"; "fullscreen-landscape"]);
  (["-ms-ime-align"], discrete "-ms-ime-align" ["auto"]);
  (["-ms-device-pixel-ratio"], ranged "-ms-device-pixel-ratio" "-ms-max-device-pixel-ratio" "-ms-min-device-pixel-ratio" NFloat);
  (["-ms-column-count"], ranged "-ms-column-count" "-ms-max-column-count" "-ms-min-column-count" NInt);
  (["-o-device-pixel-ratio"], ranged "-o-device-pixel-ratio" "-o-max-device-pixel-ratio" "-o-min-device-pixel-ratio" NFloat)
  ]%string.
(* the variant of MediaFeature is the first name of its row; the parser gets it with the feature *)
Definition MEDIA_FEATURES : list (text * (text * feature_kind)) :=
  flat_map (fun row => map (fun n => (chars n, (chars (hd EmptyString (fst row)), snd row))) (fst row)) MEDIA_TABLE.
(* media/features/hack.rs:6-28 *)
Definition parse_hack : P (list cursor) :=
  bind (parse_kind K_LeftParen) (fun open =>
  bind (parse_kind K_Ident) (fun keyword =>
  bind (check_name keyword (chars "min-width")) (fun _ =>
  bind (parse_kind K_Colon) (fun colon =>
  bind (parse_kind K_Dimension) (fun dimension =>
  bind (fun p => match str_slice dimension (lsrc (plex p)) with
                 | None => None
                 | Some w => if text_eqb w [48; 92; 48] then Some (Ok tt, p) else Some (Err (D_Unexpected dimension), p)
                 end) (fun _ =>
  bind (parse_kind K_RightParen) (fun close => ret [open; keyword; colon; dimension; close]))))))).
(* media/mod.rs:301-311 *)
Inductive media_feature : Type := MfFeature (name : text) (f : feature_ast) | MfHack (cs : list cursor).
Definition media_feature_cursors (f : media_feature) : list cursor := match f with MfFeature _ f => feature_cursors f | MfHack cs => cs end.
(* media/mod.rs:319-329; the outer Err returns from MediaFeature::parse *)
Definition match_media (c : cursor) (found : text * feature_kind -> P media_feature) : P media_feature := fun p =>
  match look_up MEDIA_FEATURES p c with
  | None => None
  | Some None => Some (Err (D_Other E_UNEXPECTED_IDENT c), p)
  | Some (Some f) => found f p
  end.
Definition named_feature (f : text * feature_kind) : P media_feature := pmap (MfFeature (fst f)) (parse_feature (snd f)).
(* media/mod.rs:315-353; the code looks at the 4th and 5th token only where it needs them (looking has no effect) *)
Definition parse_media_feature : P media_feature := fun p =>
  match peek_n p 2, peek_n p 4, peek_n p 5 with
  | Some c, Some c4, Some c5 =>
      if tok_is (ctok c) K_Ident then
        match_media c (fun f p1 =>
          match named_feature f p1 with
          | None => None
          | Some (Ok x, q) => Some (Ok x, q)
          | Some (Err e, q) =>
              match parse_hack (rewind q (checkpoint p)) with
              | None => None
              | Some (Ok h, q') => Some (Ok (MfHack h), q')
              | Some (Err _, q') => Some (Err e, q')
              end
          end) p
      else
        let c := if tok_is (ctok c4) K_Ident then c4 else c5 in
        if tok_is (ctok c) K_Ident then match_media c named_feature p
        else bind Features.parse_any (fun c => fail (D_Unexpected c)) p
  | _, _, _ => None
  end.
(* media/mod.rs:116 *)
Definition PRECONDITIONS : list text := map chars ["not"; "only"]%string.
(* media/mod.rs:128-160: the variants All, Print, Screen are their words; Custom is any other word *)
Definition MEDIA_TYPES : list text := map chars ["all"; "print"; "screen"]%string.
Definition NOT_MEDIA_TYPES : list text := map chars ["only"; "not"; "and"; "or"; "layer"]%string.
Definition peek_media_type : peeker := fun p c =>
  if tok_is (ctok c) K_Ident then option_map (fun o => match o with Some _ => false | None => true end) (look_up (words NOT_MEDIA_TYPES) p c)
  else Some false.
Definition build_media_type (p : parser) (c : cursor) : option (option text * cursor) :=
  option_map (fun o => (o, c)) (look_up (words MEDIA_TYPES) p c).
(* media/mod.rs:179-222 *)
Record media_query : Type := MediaQuery
  { mq_pre : option Selectors.word; mq_type : option (option text * cursor); mq_and : option cursor; mq_condition : option (condition media_feature) }.
(* [if MediaType::peek(p, c) { media_type = Some(MediaType::build(p, c)) } else { Err(..)? }] *)
Definition take_media_type (c : cursor) : P (option text * cursor) := fun p =>
  match peek_media_type p c with
  | None => None
  | Some true => match build_media_type p c with None => None | Some t => Some (Ok t, p) end
  | Some false => fail_text E_UNEXPECTED_IDENT c p
  end.
Definition query_rest (pre : option Selectors.word) (ty : option (option text * cursor)) : P media_query := fun p =>
  match peek_n p 1 with
  | None => None
  | Some c =>
      match (if tok_is (ctok c) K_Ident then eq_ignore_ascii_case c (lsrc (plex p)) (chars "and") else Some false) with
      | None => None
      | Some true =>
          bind (parse_kind K_Ident) (fun a => pmap (fun x => MediaQuery pre ty (Some a) (Some x)) (condition_t parse_media_feature)) p
      | Some false => Some (Ok (MediaQuery pre ty None None), p)
      end
  end.
Definition parse_media_query : P media_query :=
  or_peek (peek_kind K_LeftParen) (pmap (fun x => MediaQuery None None None (Some x)) (condition_t parse_media_feature))
  (bind (parse_kind K_Ident) (fun c p =>
   match peek_set K_Ident (words PRECONDITIONS) p c with
   | None => None
   | Some true =>
       match build_set (words PRECONDITIONS) p c with
       | None => None
       | Some w =>
           or_peek (peek_kind K_Ident)
             (bind (parse_kind K_Ident) (fun c2 => bind (take_media_type c2) (fun t => query_rest (Some w) (Some t))))
             (query_rest (Some w) None) p
       end
   | Some false => bind (take_media_type c) (fun t p => match peek (peek_kind K_Ident) p with None => None | Some _ => query_rest None (Some t) p end) p
   end)).
Definition media_query_cursors (q : media_query) : list cursor :=
  (match mq_pre q with Some w => [snd w] | None => [] end) ++ (match mq_type q with Some t => [snd t] | None => [] end) ++
  opt_cursor (mq_and q) ++ (match mq_condition q with Some x => condition_cursors media_feature_cursors x | None => [] end).
(* media/mod.rs:96-106 *)
Definition parse_media_queries : P (list media_query) := prelude_list_t KS_LEFT_CURLY_OR_SEMICOLON parse_media_query.

(* ---- rules/container ---- *)
(* container/mod.rs:333-345, container/features.rs:10-79 *)
Definition CONTAINER_FEATURES : list (text * (text * feature_kind)) := map (fun x => (chars (fst x), (chars (fst x), snd x))) [
  ("width", FRanged [chars "width"] [] NLength); ("height", FRanged [chars "height"] [] NLength);
  ("inline-size", FRanged [chars "inline-size"] [] NLength); ("block-size", FRanged [chars "block-size"] [] NLength);
  ("aspect-ratio", FRanged [chars "aspect-ratio"] [] NRatio);
  ("orientation", discrete "orientation" ["portrait"; "landscape"]) ]%string.
(* container/mod.rs:267-301; the first branch is todo!(). Style and ScrollState are never built. The code looks at the 3rd and
   4th token only where it needs them. *)
Definition parse_container_feature : P (text * feature_ast) :=
  or_peek (peek_kind K_Function) (fun _ => None) (fun p =>
  match peek_n p 2, peek_n p 3, peek_n p 4 with
  | Some c2, Some c3, Some c4 =>
      let c := if tok_is (ctok c2) K_Ident then c2 else if tok_is (ctok c3) K_Ident then c3 else c4 in
      match peek_set K_Ident CONTAINER_FEATURES p c with
      | None => None
      | Some true =>
          match build_set CONTAINER_FEATURES p c with
          | None => None
          | Some ((name, k), _) => pmap (pair name) (parse_feature k) p
          end
      | Some false => fail_text E_UNEXPECTED_IDENT c p
      end
  | _, _, _ => None
  end).
(* container/mod.rs:116-139, 169-179 *)
Record container_condition : Type := ContainerCondition { cc_name : option cursor; cc_condition : option (condition (text * feature_ast)) }.
Definition NOT_CONTAINER_NAMES : list text := map chars ["none"; "and"; "not"; "or"]%string.
Definition parse_container_condition : P container_condition := fun p =>
  match peek_n p 1 with
  | None => None
  | Some c =>
      let query := condition_t parse_container_feature in
      let unnamed := pmap (fun x => ContainerCondition None (Some x)) query in
      if tok_is (ctok c) K_Ident then
        match look_up (words NOT_CONTAINER_NAMES) p c with
        | None => None
        | Some (Some _) => unnamed p
        | Some None =>
            bind (parse_kind K_Ident) (fun name =>
            pmap (ContainerCondition (Some name)) (parse_if_peek (any_peek [peek_kind K_Function; peek_kind K_Ident]) query)) p
        end
      else unnamed p
  end.
Definition container_condition_cursors (x : container_condition) : list cursor :=
  opt_cursor (cc_name x) ++ match cc_condition x with Some y => condition_cursors (fun f => feature_cursors (snd f)) y | None => [] end.
(* container/mod.rs:98-106 *)
Definition parse_container_conditions : P (list container_condition) := prelude_list_t KS_LEFT_CURLY_OR_SEMICOLON parse_container_condition.

(* ---- rules/supports.rs ---- *)
(* supports.rs:205-212; font-tech() and font-format() are todo!() *)
Definition supports_selectors : Type := list (list component_ast * option cursor).
Inductive supports_feature : Type :=
  | SfSelector (open : option cursor) (function : cursor) (selectors : supports_selectors) (close : cursor) (outer : option cursor)
  | SfProperty (open : cursor) (d : property) (close : option cursor).
Inductive supports_word : Set := SwFontTech | SwFontFormat | SwSelector.
Definition SUPPORTS_FUNCTIONS : list (text * supports_word) :=
  [(chars "font-tech", SwFontTech); (chars "font-format", SwFontFormat); (chars "selector", SwSelector)].
(* supports.rs:214-245 *)
Definition parse_supports_feature (props : properties) : P supports_feature :=
  bind (if_kind K_LeftParen) (fun open =>
  or_peek (peek_kind K_Function)
    (bind (parse_set K_Function SUPPORTS_FUNCTIONS) (fun kw =>
     match kw with
     | (SwSelector, function) =>
         bind parse_selectors (fun selectors =>
         bind (parse_kind K_RightParen) (fun close =>
         pmap (SfSelector open function selectors close)
           (match open with Some _ => pmap Some (parse_kind K_RightParen) | None => ret None end)))
     | _ => fun _ => None
     end))
    (match open with
     | Some o => bind (parse_property props) (fun d => pmap (SfProperty o d) (if_kind K_RightParen))
     | None => fun p => match peek_n p 1 with None => None | Some c => Some (Err (D_Unexpected c), p) end
     end)).
(* supports.rs:147-154 *)
Definition parse_supports_condition (props : properties) : P (condition supports_feature) :=
  or_peek (any_peek [peek_kind K_Function; peek_kind K_LeftParen]) (pmap CIs (parse_supports_feature props))
    (condition_t (parse_supports_feature props)).
(* supports.rs:247-292 *)
Definition supports_feature_cursors (f : supports_feature) : list cursor :=
  match f with
  | SfSelector open function selectors close outer => opt_cursor open ++ function :: selectors_cursors selectors ++ close :: opt_cursor outer
  | SfProperty open d close => open :: property_cursors d ++ opt_cursor close
  end.

(* ---- rules/page.rs ---- *)
(* page.rs:93-113, 143-170 *)
Inductive page_pseudo : Set := PpLeft | PpRight | PpFirst | PpBlank.
Definition PAGE_PSEUDOS : list (text * page_pseudo) :=
  [(chars "left", PpLeft); (chars "right", PpRight); (chars "first", PpFirst); (chars "blank", PpBlank)].
Definition page_pseudo_class : Type := page_pseudo * (cursor * cursor).
Record page_selector : Type := PageSelector { ps_type : option cursor; ps_pseudos : list page_pseudo_class }.
Definition parse_page_pseudo : P page_pseudo_class :=
  bind (parse_kind K_Colon) (fun colon => pmap (fun w => (fst w, (colon, snd w))) (unskipped (parse_set K_Ident PAGE_PSEUDOS))).
Fixpoint page_pseudo_loop (n : nat) : P (list page_pseudo_class) :=
  match n with
  | O => fun _ => None
  | S n' => or_peek (peek_kind K_Colon) (bind parse_page_pseudo (fun x => pmap (cons x) (page_pseudo_loop n'))) (ret [])
  end.
Definition parse_page_selector : P page_selector :=
  bind (if_kind K_Ident) (fun ty => pmap (PageSelector ty) (fun p => page_pseudo_loop (sfuel p) p)).
Definition page_selector_cursors (x : page_selector) : list cursor :=
  opt_cursor (ps_type x) ++ flat_map (fun y => [fst (snd y); snd (snd y)]) (ps_pseudos x).
(* page.rs:60-72 *)
Definition parse_page_selectors : P (list (page_selector * option cursor)) := comma_list_t KS_LEFT_CURLY_OR_SEMICOLON parse_page_selector.
(* specificity.rs:8-34; the fields are u8 *)
Record specificity : Set := Specificity { spec_a : N; spec_b : N; spec_c : N }.
Definition spec_add (x y : specificity) : specificity :=
  Specificity (N.lor (spec_a x) (spec_a y)) (N.lor (spec_b x) (spec_b y)) (N.lor (spec_c x) (spec_c y)).
(* page.rs:195-204, 126-135 *)
Definition pseudo_specificity (x : page_pseudo) : specificity :=
  match x with PpBlank | PpFirst => Specificity 0 1 0 | PpLeft | PpRight => Specificity 0 0 1 end.
Definition page_specificity (x : page_selector) : specificity :=
  let s := fold_left (fun s y => spec_add s (pseudo_specificity (fst y))) (ps_pseudos x) (Specificity 0 0 0) in
  match ps_type x with Some _ => spec_add s (Specificity 1 0 0) | None => s end.

(* ---- rules/layer.rs:97-113, 63-73 ---- *)
Definition layer_name : Type := cursor * list (cursor * cursor).
Fixpoint layer_loop (n : nat) : P (list (cursor * cursor)) :=
  match n with
  | O => fun _ => None
  | S n' =>
      or_peek (peek_delim 46)
        (bind (parse_delim 46) (fun dot => bind (parse_kind K_Ident) (fun ident => pmap (cons (dot, ident)) (layer_loop n'))))
        (ret [])
  end.
Definition parse_layer_name : P layer_name := bind (parse_kind K_Ident) (fun first => pmap (pair first) (fun p => layer_loop (sfuel p) p)).
Definition layer_name_cursors (x : layer_name) : list cursor := fst x :: flat_map (fun y => [fst y; snd y]) (snd x).
Definition parse_layer_names : P (list (layer_name * option cursor)) := comma_list_t KS_LEFT_CURLY_OR_SEMICOLON parse_layer_name.

(* ---- rules/keyframes.rs ---- *)
(* keyframes.rs:58-84: the variant is the kind of the token *)
Definition RESERVED_KEYFRAMES : list text := map chars ["default"; "initial"; "inherit"; "unset"; "none"]%string.
Definition parse_keyframes_name : P cursor :=
  or_peek (peek_kind K_String) (parse_kind K_String)
  (bind (parse_kind K_Ident) (fun c p =>
   match parse_str c (lsrc (plex p)) with
   | None => None
   | Some w => if existsb (text_eqb w) RESERVED_KEYFRAMES then Some (Err (D_Other E_RESERVED_KEYFRAME c), p) else Some (Ok c, p)
   end)).
(* keyframes.rs:245-279 *)
Inductive keyframe_selector : Set := KsFrom (c : cursor) | KsTo (c : cursor) | KsPercent (c : cursor).
Inductive keyframe_word : Set := KwFrom | KwTo.
Definition KEYFRAME_WORDS : list (text * keyframe_word) := [(chars "from", KwFrom); (chars "to", KwTo)].
Definition peek_percent : peeker := peek_dimension U_Percent (chars "%").
Definition parse_keyframe_selector : P keyframe_selector :=
  bind (parse_if_peek (peek_set K_Ident KEYFRAME_WORDS) (parse_set K_Ident KEYFRAME_WORDS)) (fun kw =>
  match kw with
  | Some (KwFrom, c) => ret (KsFrom c)
  | Some (KwTo, c) => ret (KsTo c)
  | None =>
      bind (parse_single peek_percent (fun c => c)) (fun c =>
      if f32_upto_100 (tvalue (ctok c)) then ret (KsPercent c) else fail (D_Other E_OUT_OF_BOUNDS c))
  end).
Definition keyframe_selector_cursor (x : keyframe_selector) : cursor := match x with KsFrom c | KsTo c | KsPercent c => c end.
(* keyframes.rs:172-182 *)
Definition parse_keyframe_selectors : P (list (keyframe_selector * option cursor)) := comma_list_t KS_LEFT_CURLY_OR_SEMICOLON parse_keyframe_selector.
(* keyframes.rs:134-153, 203-220 *)
Definition properties_block : Type := cursor * list (property * option cursor) * option cursor.
Record keyframe : Type := Keyframe { kf_selectors : list (keyframe_selector * option cursor); kf_block : properties_block }.
Definition parse_keyframe (props : properties) : P keyframe :=
  pmap (fun x => Keyframe (fst x) (snd x))
    (qualified_rule_t parse_keyframe_selectors (declaration_list_t (parse_property props)) parse_bad_declaration).
Definition comma_cursors {A} (f : A -> list cursor) (l : list (A * option cursor)) : list cursor := flat_map (fun x => f (fst x) ++ opt_cursor (snd x)) l.
Definition properties_block_cursors (b : properties_block) : list cursor :=
  let '(open, l, close) := b in open :: properties_cursors l ++ opt_cursor close.
Definition keyframe_cursors (x : keyframe) : list cursor :=
  comma_cursors (fun y => [keyframe_selector_cursor y]) (kf_selectors x) ++ properties_block_cursors (kf_block x).

(* ---- rules/document.rs:88-145; Domain, MediaDocument and Regexp are never built ---- *)
Inductive document_word : Set := DwUrl | DwUrlPrefix | DwDomain | DwMediaDocument | DwRegexp.
Definition DOCUMENT_FUNCTIONS : list (text * document_word) :=
  [(chars "url", DwUrl); (chars "url-prefix", DwUrlPrefix); (chars "domain", DwDomain); (chars "media-document", DwMediaDocument); (chars "regexp", DwRegexp)].
Inductive document_matcher : Set :=
  | DmUrl (c : cursor) | DmUrlFunction (function string close : cursor) | DmUrlPrefix (function string close : cursor)
  | DmDomain (function string close : cursor) | DmMediaDocument (function string close : cursor) | DmRegexp (function string close : cursor).
Definition parse_document_matcher : P document_matcher :=
  or_peek (peek_kind K_Url) (pmap DmUrl (parse_kind K_Url))
  (bind (parse_set K_Function DOCUMENT_FUNCTIONS) (fun kw =>
   bind (parse_kind K_String) (fun string =>
   bind (parse_kind K_RightParen) (fun close =>
   ret (match kw with (DwUrl, f) => DmUrlFunction f string close | (_, f) => DmUrlPrefix f string close end))))).
Definition document_matcher_cursors (x : document_matcher) : list cursor :=
  match x with
  | DmUrl c => [c]
  | DmUrlFunction a b c | DmUrlPrefix a b c | DmDomain a b c | DmMediaDocument a b c | DmRegexp a b c => [a; b; c]
  end.
Definition parse_document_matchers : P (list (document_matcher * option cursor)) := comma_list_t KS_LEFT_CURLY_OR_SEMICOLON parse_document_matcher.
