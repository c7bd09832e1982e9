(* The words and units of CSS, from its specifications, that SpecConforms.v, SpecSelectors.v and SpecTree.v are about. They are written
   here a second time, independently of the tables of the model. *)
From Coq Require Import String.
From Coq Require Import List.
From Verif Require Import Ast.
Open Scope N_scope.
Open Scope list_scope.

(* css-color-4: named colors, the two other keywords, system colors, color spaces *)
Definition css_named_colors : list text := map chars ["aliceblue"; "antiquewhite"; "aqua"; "aquamarine"; "azure"; "beige"; "bisque"; "black"; "blanchedalmond"; "blue";
  "blueviolet"; "brown"; "burlywood"; "cadetblue"; "chartreuse"; "chocolate"; "coral"; "cornflowerblue"; "cornsilk"; "crimson"; "cyan"; "darkblue"; "darkcyan";
  "darkgoldenrod"; "darkgray"; "darkgreen"; "darkgrey"; "darkkhaki"; "darkmagenta"; "darkolivegreen"; "darkorange"; "darkorchid"; "darkred"; "darksalmon"; "darkseagreen";
  "darkslateblue"; "darkslategray"; "darkslategrey"; "darkturquoise"; "darkviolet"; "deeppink"; "deepskyblue"; "dimgray"; "dimgrey"; "dodgerblue"; "firebrick";
  "floralwhite"; "forestgreen"; "fuchsia"; "gainsboro"; "ghostwhite"; "gold"; "goldenrod"; "gray"; "green"; "greenyellow"; "grey"; "honeydew"; "hotpink"; "indianred";
  "indigo"; "ivory"; "khaki"; "lavender"; "lavenderblush"; "lawngreen"; "lemonchiffon"; "lightblue"; "lightcoral"; "lightcyan"; "lightgoldenrodyellow"; "lightgray";
  "lightgreen"; "lightgrey"; "lightpink"; "lightsalmon"; "lightseagreen"; "lightskyblue"; "lightslategray"; "lightslategrey"; "lightsteelblue"; "lightyellow"; "lime";
  "limegreen"; "linen"; "magenta"; "maroon"; "mediumaquamarine"; "mediumblue"; "mediumorchid"; "mediumpurple"; "mediumseagreen"; "mediumslateblue"; "mediumspringgreen";
  "mediumturquoise"; "mediumvioletred"; "midnightblue"; "mintcream"; "mistyrose"; "moccasin"; "navajowhite"; "navy"; "oldlace"; "olive"; "olivedrab"; "orange";
  "orangered"; "orchid"; "palegoldenrod"; "palegreen"; "paleturquoise"; "palevioletred"; "papayawhip"; "peachpuff"; "peru"; "pink"; "plum"; "powderblue"; "purple";
  "rebeccapurple"; "red"; "rosybrown"; "royalblue"; "saddlebrown"; "salmon"; "sandybrown"; "seagreen"; "seashell"; "sienna"; "silver"; "skyblue"; "slateblue";
  "slategray"; "slategrey"; "snow"; "springgreen"; "steelblue"; "tan"; "teal"; "thistle"; "tomato"; "turquoise"; "violet"; "wheat"; "white"; "whitesmoke"; "yellow";
  "yellowgreen"]%string.
Definition css_color_keywords : list text := map chars ["currentcolor"; "transparent"]%string.
Definition css_system_colors : list text := map chars ["accentcolor"; "accentcolortext"; "activetext"; "buttonborder"; "buttonface"; "buttontext"; "canvas"; "canvastext";
  "field"; "fieldtext"; "graytext"; "highlight"; "highlighttext"; "linktext"; "mark"; "marktext"; "selecteditem"; "selecteditemtext"; "visitedtext"]%string.
Definition css_color_spaces : list text := map chars ["srgb"; "srgb-linear"; "display-p3"; "a98-rgb"; "prophoto-rgb"; "rec2020"; "xyz"; "xyz-d50"; "xyz-d65"]%string.
(* css-backgrounds-3, css-values-4, css-images-3 *)
Definition css_line_styles : list string := ["none"; "hidden"; "dotted"; "dashed"; "solid"; "double"; "groove"; "ridge"; "inset"; "outset"]%string.
Definition css_position_keywords : list text := map chars ["left"; "right"; "center"; "top"; "bottom"]%string.
Definition css_sides : list text := map chars ["bottom"; "top"; "left"; "right"]%string.
Definition css_radial_extents : list text := map chars ["closest-corner"; "closest-side"; "farthest-corner"; "farthest-side"]%string.
Definition css_radial_shapes : list text := map chars ["circle"; "ellipse"]%string.
Definition css_repetitions : list string := ["repeat"; "space"; "round"; "no-repeat"]%string.
Definition css_repeat_axes : list text := map chars ["repeat-x"; "repeat-y"]%string.
(* css-anchor-position-1, position-area *)
Definition css_area_x : list text := map chars ["left"; "center"; "right"; "span-left"; "span-right"; "x-start"; "x-end"; "span-x-start"; "span-x-end"; "x-self-start";
  "x-self-end"; "span-x-self-start"; "span-x-self-end"; "span-all"]%string.
Definition css_area_y : list text := map chars ["top"; "center"; "bottom"; "span-top"; "span-bottom"; "y-start"; "y-end"; "span-y-start"; "span-y-end"; "y-self-start";
  "y-self-end"; "span-y-self-start"; "span-y-self-end"; "span-all"]%string.
Definition css_area_block : list text := map chars ["block-start"; "center"; "block-end"; "span-block-start"; "span-block-end"; "span-all"]%string.
Definition css_area_inline : list text := map chars ["inline-start"; "center"; "inline-end"; "span-inline-start"; "span-inline-end"; "span-all"]%string.
Definition css_area_self_block : list text := map chars ["self-block-start"; "center"; "self-block-end"; "span-self-block-start"; "span-self-block-end";
  "span-all"]%string.
Definition css_area_self_inline : list text := map chars ["self-inline-start"; "center"; "self-inline-end"; "span-self-inline-start"; "span-self-inline-end";
  "span-all"]%string.
Definition css_area_any : list text := map chars ["start"; "center"; "end"; "span-start"; "span-end"; "span-all"]%string.
Definition css_area_self_any : list text := map chars ["self-start"; "center"; "self-end"; "span-self-start"; "span-self-end"; "span-all"]%string.
(* css-values-4 and css-contain-3: the units of length *)
Definition css_length_units : list unit_t := [U_Em; U_Rem; U_Ex; U_Rex; U_Cap; U_Rcap; U_Ch; U_Rch; U_Ic; U_Ric; U_Lh; U_Rlh; U_Vw; U_Svw; U_Lvw; U_Dvw; U_Vh; U_Svh;
  U_Lvh; U_Dvh; U_Vi; U_Svi; U_Lvi; U_Dvi; U_Vb; U_Svb; U_Lvb; U_Dvb; U_Vmin; U_Svmin; U_Lvmin; U_Dvmin; U_Vmax; U_Svmax; U_Lvmax; U_Dvmax; U_Cm; U_Mm; U_Q; U_In; U_Pc;
  U_Pt; U_Px; U_Cqw; U_Cqh; U_Cqi; U_Cqb; U_Cqmin; U_Cqmax].
(* mediaqueries-5: words before a media type, the media types, and the words that are none *)
Definition css_media_prefixes : list text := map chars ["not"; "only"]%string.
Definition css_media_types : list text := map chars ["all"; "print"; "screen"]%string.
Definition css_not_media_types : list text := map chars ["only"; "not"; "and"; "or"; "layer"]%string.
(* css-contain-3: what no container is named; css-page-3; css-animations-1; css-fonts-4; css-properties-values-api-1 *)
Definition css_not_container_names : list text := map chars ["none"; "and"; "not"; "or"]%string.
Definition css_page_pseudos : list (text * page_pseudo) := [(chars "left", PpLeft); (chars "right", PpRight); (chars "first", PpFirst); (chars "blank", PpBlank)].
Definition css_page_margins : list text := map chars ["top-left-corner"; "top-left"; "top-center"; "top-right"; "top-right-corner"; "right-top"; "right-middle";
  "right-bottom"; "bottom-right-corner"; "bottom-right"; "bottom-center"; "bottom-left"; "bottom-left-corner"; "left-bottom"; "left-middle"; "left-top"]%string.
Definition css_not_keyframes : list text := map chars ["default"; "initial"; "inherit"; "unset"; "none"]%string.
Definition css_font_descriptors : list text := map chars ["ascent-override"; "descent-override"; "font-display"; "font-family"; "font-feature-settings";
  "font-language-override"; "font-named-instance"; "font-style"; "font-variation-settings"; "font-weight"; "font-width"; "line-gap-override"; "src";
  "unicode-range"]%string.
Definition css_inherits : list text := map chars ["true"; "false"]%string.
(* selectors-4 and the specifications that add to it: of these, hdx knows *)
Definition css_pseudo_classes : list text := (map chars ["active"; "any-link"; "autofill"; "blank"; "checked"; "current"; "default"; "defined"; "disabled"; "empty";
  "enabled"; "first"; "first-child"; "first-of-type"; "fullscreen"; "future"; "focus"; "focus-visible"; "focus-within"; "host"; "hover"; "indeterminate"; "in-range";
  "invalid"; "last-child"; "last-of-type"; "left"; "link"; "local-link"; "modal"; "only-child"; "only-of-type"; "optional"; "out-of-range"; "past"; "picture-in-picture";
  "placeholder-shown"; "popover-open"; "paused"; "playing"; "read-only"; "read-write"; "required"; "right"; "root"; "scope"; "target"; "target-within"; "valid";
  "visited"])%string.
Definition css_functional_classes : list (text * value_type) := [(chars "dir", TyDir); (chars "has", TySelectors); (chars "host", TySelectors); (chars "host-context",
  TySelectors); (chars "is", TySelectors); (chars "lang", TyLang); (chars "not", TySelectors); (chars "nth-child", TyNth); (chars "nth-col", TyNth); (chars
  "nth-last-child", TyNth); (chars "nth-last-col", TyNth); (chars "nth-last-of-type", TyNth); (chars "nth-of-type", TyNth); (chars "state", TyIdent); (chars "where",
  TySelectors)].
Definition css_dir_values : list text := map chars ["rtl"; "ltr"]%string.
Definition css_pseudo_elements : list text := (map chars ["after"; "backdrop"; "before"; "cue"; "cue-region"; "first-letter"; "first-line"; "file-selector-button";
  "grammar-error"; "marker"; "placeholder"; "selection"; "spelling-error"; "target-text"; "view-transition"])%string.
Definition css_legacy_elements : list text := (map chars ["after"; "before"; "first-letter"; "first-line"])%string.
(* the elements of HTML (with some that are obsolete), the obsolete ones, experimental ones, those of SVG 2 and of MathML *)
Definition html_elements : list text := (map chars ["a"; "abbr"; "address"; "area"; "article"; "aside"; "audio"; "b"; "base"; "bdi"; "bdo"; "big"; "blockquote"; "body";
  "br"; "button"; "canvas"; "caption"; "center"; "cite"; "code"; "col"; "colgroup"; "data"; "datalist"; "dd"; "del"; "details"; "dfn"; "dialog"; "dir"; "div"; "dl"; "dt";
  "em"; "embed"; "fieldset"; "figcaption"; "figure"; "font"; "footer"; "form"; "frame"; "frameset"; "h1"; "h2"; "h3"; "h4"; "h5"; "h6"; "head"; "header"; "hgroup"; "hr";
  "html"; "i"; "iframe"; "img"; "input"; "ins"; "kbd"; "label"; "legend"; "li"; "link"; "main"; "map"; "mark"; "marquee"; "menu"; "menuitem"; "meta"; "meter"; "nav";
  "nobr"; "noembed"; "noframes"; "noscript"; "object"; "ol"; "optgroup"; "option"; "output"; "p"; "param"; "picture"; "plaintext"; "pre"; "progress"; "q"; "rb"; "rp";
  "rt"; "rtc"; "ruby"; "s"; "samp"; "script"; "search"; "section"; "select"; "slot"; "small"; "source"; "span"; "strike"; "strong"; "style"; "sub"; "summary"; "sup";
  "table"; "tbody"; "td"; "template"; "textarea"; "tfoot"; "th"; "thead"; "time"; "title"; "tr"; "track"; "tt"; "u"; "ul"; "var"; "video"; "wbr"; "xmp"])%string.
Definition html_obsolete : list text := (map chars ["acronym"; "applet"; "basefont"; "bgsound"; "big"; "blink"; "center"; "dir"; "font"; "frame"; "frameset"; "isindex";
  "keygen"; "listing"; "marquee"; "menuitem"; "multicol"; "nextid"; "nobr"; "noembed"; "noframes"; "param"; "plaintext"; "rb"; "rtc"; "spacer"; "strike"; "tt";
  "xmp"])%string.
Definition html_experimental : list text := (map chars ["fencedframe"; "portal"; "permission"; "selectedcontent"])%string.
Definition svg_elements : list text := (map chars ["a"; "animate"; "animatemotion"; "animatetransform"; "circle"; "clippath"; "defs"; "desc"; "discard"; "ellipse";
  "feblend"; "fecolormatrix"; "fecomponenttransfer"; "fecomposite"; "feconvolvematrix"; "fediffuselighting"; "fedisplacementmap"; "fedistantlight"; "fedropshadow";
  "feflood"; "fefunca"; "fefuncb"; "fefuncg"; "fefuncr"; "fegaussianblur"; "feimage"; "femerge"; "femergenode"; "femorphology"; "feoffset"; "fepointlight";
  "fespecularlighting"; "fespotlight"; "fetile"; "feturbulence"; "filter"; "foreignobject"; "g"; "image"; "line"; "lineargradient"; "marker"; "mask"; "metadata"; "mpath";
  "path"; "pattern"; "polygon"; "polyline"; "radialgradient"; "rect"; "script"; "set"; "stop"; "style"; "svg"; "switch"; "symbol"; "text"; "textpath"; "title"; "tspan";
  "use"; "view"])%string.
Definition mathml_elements : list text := (map chars ["abs"; "and"; "annotation"; "annotation-xml"; "apply"; "approx"; "arg"; "bind"; "bvar"; "card"; "cartesianproduct";
  "cbytes"; "ceiling"; "cerror"; "ci"; "cn"; "codomain"; "compose"; "condition"; "conjugate"; "cs"; "csymbol"; "curl"; "declare"; "degree"; "determinant"; "diff";
  "divergence"; "divide"; "domain"; "domainofapplication"; "emptyset"; "eq"; "equivalent"; "exists"; "exp"; "factorial"; "factorof"; "floor"; "fn"; "forall"; "gcd";
  "geq"; "grad"; "gt"; "ident"; "image"; "imaginary"; "img"; "implies"; "in"; "int"; "intersect"; "interval"; "inverse"; "lambda"; "laplacian"; "lcm"; "leq"; "limit";
  "list"; "ln"; "log"; "logbase"; "lowlimit"; "lt"; "maction"; "maligngroup"; "malignmark"; "math"; "matrix"; "matrixrow"; "max"; "mean"; "median"; "menclose"; "merror";
  "mfenced"; "mfrac"; "mfraction"; "mglyph"; "mi"; "min"; "minus"; "mlabeledtr"; "mlongdiv"; "mmultiscripts"; "mn"; "mo"; "mode"; "moment"; "momentabout"; "mover";
  "mpadded"; "mphantom"; "mprescripts"; "mroot"; "mrow"; "ms"; "mscarries"; "mscarry"; "msgroup"; "msline"; "mspace"; "msqrt"; "msrow"; "mstack"; "mstyle"; "msub";
  "msubsup"; "msup"; "mtable"; "mtd"; "mtext"; "mtr"; "munder"; "munderover"; "neq"; "none"; "not"; "notin"; "notprsubset"; "notsubset"; "or"; "otherwise";
  "outerproduct"; "partialdiff"; "piece"; "piecewise"; "plus"; "power"; "product"; "prsubset"; "quotient"; "real"; "reln"; "rem"; "root"; "scalarproduct"; "sdev";
  "selector"; "semantics"; "sep"; "set"; "setdiff"; "share"; "sin"; "subset"; "sum"; "tendsto"; "times"; "transpose"; "union"; "uplimit"; "variance"; "vector";
  "vectorproduct"; "xo"])%string.
(* HTML, valid custom element names: the reserved ones *)
Definition html_not_custom : list text := map chars ["annotation-xml"; "color-profile"; "font-face"; "font-face-src"; "font-face-uri"; "font-face-format";
  "font-face-name"; "missing-glyph"]%string.
(* mediaqueries-5: every feature with its names and its values; the vendors' after it. The names of a range feature are its name and
   those of the two bounds *)
Definition css_discrete (name : string) (values : list string) : feature_kind := FDiscrete (chars name) (map chars values).
Definition css_range (a max min : string) (ty : number_type) : feature_kind := FRanged (map chars [a; max; min]) (map chars [max; min]) ty.
Definition css_media_features : list (list string * feature_kind) := [
  (["any-hover"], css_discrete "any-hover" ["none"; "hover"]);
  (["any-pointer"], css_discrete "any-pointer" ["none"; "coarse"; "fine"]);
  (["aspect-ratio"; "max-aspect-ratio"; "min-aspect-ratio"], FTodo);
  (["color"; "max-color"; "min-color"], css_range "color" "max-color" "min-color" NInt);
  (["color-gamut"], css_discrete "color-gamut" ["srgb"; "p3"; "rec2020"]);
  (["color-index"; "max-color-index"; "min-color-index"], css_range "color-index" "max-color-index" "min-color-index" NInt);
  (["device-aspect-ratio"; "max-device-aspect-ratio"; "min-device-aspect-ratio"], FTodo);
  (["device-height"; "max-device-height"; "min-device-height"], css_range "device-height" "max-device-height" "min-device-height" NLength);
  (["device-width"; "max-device-width"; "min-device-width"], css_range "device-width" "max-device-width" "min-device-width" NLength);
  (["display-mode"], css_discrete "display-mode" ["fullscreen"; "standalone"; "minimal-ui"; "browser"; "picture-in-picture"]);
  (["dynamic-range"], css_discrete "dynamic-range" ["standard"; "high"]);
  (["environment-blending"], css_discrete "environment-blending" ["opaque"; "additive"; "subtractive"]);
  (["forced-colors"], css_discrete "forced-colors" ["none"; "active"]);
  (["grid"], FBoolean (chars "grid"));
  (["height"; "max-height"; "min-height"], css_range "height" "max-height" "min-height" NLength);
  (["horizontal-viewport-segments"; "max-horizontal-viewport-segments"; "min-horizontal-viewport-segments"],
    css_range "horizontal-viewport-segments" "max-horizontal-viewport-segments" "min-horizontal-viewport-segments" NInt);
  (["hover"], css_discrete "hover" ["none"; "hover"]);
  (["inverted-colors"], css_discrete "inverted-colors" ["none"; "inverted"]);
  (["monochrome"; "max-monochrome"; "min-monochrome"], css_range "monochrome" "max-monochrome" "min-monochrome" NInt);
  (["nav-controls"], css_discrete "nav-controls" ["none"; "back"]);
  (["orientation"], css_discrete "orientation" ["portrait"; "landscape"]);
  (["overflow-block"], css_discrete "overflow-block" ["none"; "scroll"; "paged"]);
  (["overflow-inline"], css_discrete "overflow-inline" ["none"; "scroll"]);
  (["pointer"], css_discrete "pointer" ["none"; "coarse"; "fine"]);
  (["prefers-color-scheme"], css_discrete "prefers-color-scheme" ["light"; "dark"]);
  (["prefers-contrast"], css_discrete "prefers-contrast" ["no-preference"; "less"; "more"; "custom"]);
  (["prefers-reduced-data"], css_discrete "prefers-reduced-data" ["no-preference"; "reduce"]);
  (["prefers-reduced-motion"], css_discrete "prefers-reduced-motion" ["no-preference"; "reduce"]);
  (["prefers-reduced-transparency"], css_discrete "prefers-reduced-transparency" ["no-preference"; "reduce"]);
  (["resolution"; "max-resolution"; "min-resolution"], FTodo);
  (["scan"], css_discrete "scan" ["interlace"; "progressive"]);
  (["scripting"], css_discrete "scripting" ["none"; "initial-only"; "enabled"]);
  (["update"], FTodo);
  (["vertical-viewport-segments"; "max-vertical-viewport-segments"; "min-vertical-viewport-segments"],
    css_range "vertical-viewport-segments" "max-vertical-viewport-segments" "min-vertical-viewport-segments" NInt);
  (["video-color-gamut"], css_discrete "video-color-gamut" ["srgb"; "p3"; "rec2020"]);
  (["video-dynamic-range"], css_discrete "video-dynamic-range" ["standard"; "high"]);
  (["width"; "max-width"; "min-width"], css_range "width" "max-width" "min-width" NLength);
  (["-webkit-animation"], css_discrete "-webkit-animation" ["true"; "false"]);
  (["-webkit-device-pixel-ratio"], css_range "-webkit-device-pixel-ratio" "-webkit-max-device-pixel-ratio" "-webkit-min-device-pixel-ratio" NFloat);
  (["-webkit-transform-2d"], css_discrete "-webkit-transform-2d" ["true"; "false"]);
  (["-webkit-transform-3d"], css_discrete "-webkit-transform-3d" ["true"; "false"]);
  (["-webkit-transition"], css_discrete "-webkit-transition" ["true"; "false"]);
  (["-webkit-video-playable-inline"], css_discrete "-webkit-video-playable-inline" ["true"; "false"]);
  (["-moz-device-orientation"], css_discrete "-moz-device-orientation" ["portrait"; "landscape"]);
  (["-moz-device-pixel-ratio"; "max--moz-device-pixel-ratio"; "min--moz-device-pixel-ratio"], css_range "-moz-device-pixel-ratio" "-moz-max-device-pixel-ratio" "-moz-min-device-pixel-ratio" NFloat);
  (["-moz-mac-graphite-theme"], css_range "-moz-device-pixel-ratio" "-moz-max-device-pixel-ratio" "-moz-min-device-pixel-ratio" NFloat);
  (["-moz-maemo-classic"], css_range "-moz-device-pixel-ratio" "-moz-max-device-pixel-ratio" "-moz-min-device-pixel-ratio" NFloat);
  (["-moz-images-in-menus"], css_range "-moz-device-pixel-ratio" "-moz-max-device-pixel-ratio" "-moz-min-device-pixel-ratio" NFloat);
  (["-moz-os-version"], css_range "-moz-device-pixel-ratio" "-moz-max-device-pixel-ratio" "-moz-min-device-pixel-ratio" NFloat);
  (["-ms-high-contrast"], css_discrete "-ms-high-contrast" ["none"; "active"]);
  (["-ms-view-state"], css_discrete "-ms-view-state" ["snapped"; "fullscreen-portrait"; "fullscreen-landscape"]);
  (["-ms-ime-align"], css_discrete "-ms-ime-align" ["auto"]);
  (["-ms-device-pixel-ratio"], css_range "-ms-device-pixel-ratio" "-ms-max-device-pixel-ratio" "-ms-min-device-pixel-ratio" NFloat);
  (["-ms-column-count"], css_range "-ms-column-count" "-ms-max-column-count" "-ms-min-column-count" NInt);
  (["-o-device-pixel-ratio"], css_range "-o-device-pixel-ratio" "-o-max-device-pixel-ratio" "-o-min-device-pixel-ratio" NFloat)
  ]%string.
(* css-contain-3 *)
Definition css_container_features : list (text * (text * feature_kind)) := map (fun x => (chars (fst x), (chars (fst x), snd x))) [
  ("width", FRanged [chars "width"] [] NLength); ("height", FRanged [chars "height"] [] NLength);
  ("inline-size", FRanged [chars "inline-size"] [] NLength); ("block-size", FRanged [chars "block-size"] [] NLength);
  ("aspect-ratio", FRanged [chars "aspect-ratio"] [] NRatio);
  ("orientation", css_discrete "orientation" ["portrait"; "landscape"]) ]%string.
