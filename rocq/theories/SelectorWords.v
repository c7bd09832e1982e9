(* The word tables of css_ast/src/selector, copied from the source. A variant of one of these enums stands for its word. *)
From Coq Require Import String.
From Coq Require Import List.
From Verif Require Export Features.
Open Scope string_scope.
Open Scope list_scope.

(* css_ast/src/selector/pseudo_class.rs:11-62 *)
Definition PSEUDO_CLASSES : list text := map chars
  ["active"; "any-link"; "autofill"; "blank"; "checked"; "current"; "default"; "defined"; "disabled"; "empty"; "enabled"; "first";
   "first-child"; "first-of-type"; "fullscreen"; "future"; "focus"; "focus-visible"; "focus-within"; "host"; "hover";
   "indeterminate"; "in-range"; "invalid"; "last-child"; "last-of-type"; "left"; "link"; "local-link"; "modal"; "only-child";
   "only-of-type"; "optional"; "out-of-range"; "past"; "picture-in-picture"; "placeholder-shown"; "popover-open"; "paused";
   "playing"; "read-only"; "read-write"; "required"; "right"; "root"; "scope"; "target"; "target-within"; "valid"; "visited"].
(* css_ast/src/selector/webkit.rs:212-225 *)
Definition WEBKIT_PSEUDO_CLASSES : list text := map chars
  ["-webkit-animating-full-screen-transition"; "-webkit-any-link"; "-webkit-autofill"; "-webkit-autofill-and-obscured";
   "-webkit-autofill-strong-password"; "-webkit-autofill-strong-password-viewable"; "-webkit-drag"; "-webkit-full-page-media";
   "-webkit-full-screen"; "-webkit-full-screen-ancestor"; "-webkit-full-screen-controls-hidden"; "-webkit-full-screen-document"].
(* css_ast/src/selector/moz.rs:164-192 *)
Definition MOZ_PSEUDO_CLASSES : list text := map chars
  ["-moz-any"; "-moz-any-link"; "-moz-broken"; "-moz-drag-over"; "-moz-first-node"; "-moz-focusring"; "-moz-full-screen";
   "-moz-full-screen-ancestor"; "-moz-handler-blocked"; "-moz-handler-crashed"; "-moz-handler-disabled"; "-moz-last-node";
   "-moz-loading"; "-moz-lwtheme"; "-moz-lwtheme-brighttext"; "-moz-lwtheme-darktext"; "-moz-native-anonymous";
   "-moz-only-whitespace"; "-moz-placeholder-shown"; "-moz-read-only"; "-moz-read-write"; "-moz-submit-invalid"; "-moz-suppressed";
   "-moz-ui-invalid"; "-moz-ui-valid"; "-moz-user-disabled"; "-moz-window-inactive"].
(* css_ast/src/selector/ms.rs:35-35 *)
Definition MS_PSEUDO_CLASSES : list text := map chars
  ["-ms-fullscreen"; "-ms-input-placeholder"].
(* css_ast/src/selector/o.rs:25-25 *)
Definition O_PSEUDO_CLASSES : list text := map chars
  ["-o-prefocus"].
(* css_ast/src/selector/pseudo_element.rs:13-29 *)
Definition PSEUDO_ELEMENTS : list text := map chars
  ["after"; "backdrop"; "before"; "cue"; "cue-region"; "first-letter"; "first-line"; "file-selector-button"; "grammar-error";
   "marker"; "placeholder"; "selection"; "spelling-error"; "target-text"; "view-transition"].
(* css_ast/src/selector/pseudo_element.rs:128-133 *)
Definition LEGACY_PSEUDO_ELEMENTS : list text := map chars
  ["after"; "before"; "first-letter"; "first-line"].
(* css_ast/src/selector/webkit.rs:14-78 *)
Definition WEBKIT_PSEUDO_ELEMENTS : list text := map chars
  ["-webkit-calendar-picker-indicator"; "-webkit-caps-lock-indicator"; "-webkit-color-swatch"; "-webkit-color-swatch-wrapper";
   "-webkit-contacts-auto-fill-button"; "-webkit-credentials-auto-fill-button"; "-webkit-credit-card-auto-fill-button";
   "-webkit-date-and-time-value"; "-webkit-datetime-edit"; "-webkit-datetime-edit-day-field"; "-webkit-datetime-edit-fields-wrapper";
   "-webkit-datetime-edit-hour-field"; "-webkit-datetime-edit-meridiem-field"; "-webkit-datetime-edit-millisecond-field";
   "-webkit-datetime-edit-minute"; "-webkit-datetime-edit-minute-field"; "-webkit-datetime-edit-month-field";
   "-webkit-datetime-edit-second-field"; "-webkit-datetime-edit-text"; "-webkit-datetime-edit-year-field"; "-webkit-details-marker";
   "-webkit-file-upload-button"; "-webkit-generic-cue-root"; "-webkit-input-placeholder"; "-webkit-inner-spin-button";
   "-webkit-list-button"; "-webkit-media-text-track-container"; "-webkit-media-text-track-display";
   "-webkit-media-text-track-display-backdrop"; "-webkit-media-text-track-region"; "-webkit-media-text-track-region-container";
   "-webkit-meter-bar"; "-webkit-meter-even-less-good-value"; "-webkit-meter-inner-element"; "-webkit-meter-optimum-value";
   "-webkit-meter-suboptimum-value"; "-webkit-outer-spin-button"; "-webkit-progress-bar"; "-webkit-progress-inner-element";
   "-webkit-progress-value"; "-webkit-resizer"; "-webkit-scrollbar"; "-webkit-scrollbar-button"; "-webkit-scrollbar-corner";
   "-webkit-scrollbar-thumb"; "-webkit-scrollbar-track"; "-webkit-scrollbar-track-piece"; "-webkit-search-cancel-button";
   "-webkit-search-decoration"; "-webkit-search-results-button"; "-webkit-slider-container"; "-webkit-slider-runnable-track";
   "-webkit-slider-thumb"; "-webkit-password-auto-fill-button"; "-webkit-textfield-decoration-container";
   "-webkit-validation-bubble"; "-webkit-validation-bubble-arrow"; "-webkit-validation-bubble-arrow-clipper";
   "-webkit-validation-bubble-body"; "-webkit-validation-bubble-heading"; "-webkit-validation-bubble-icon";
   "-webkit-validation-bubble-message"; "-webkit-validation-bubble-text-block"].
(* css_ast/src/selector/moz.rs:15-90 *)
Definition MOZ_PSEUDO_ELEMENTS : list text := map chars
  ["-moz-anonymous-block"; "-moz-anonymous-item"; "-moz-anonymous-positioned-block"; "-moz-block-inside-inline-wrapper";
   "-moz-block-ruby-content"; "-moz-button-content"; "-moz-canvas"; "-moz-cell-content"; "-moz-color-swatch"; "-moz-column-content";
   "-moz-column-set"; "-moz-column-span-wrapper"; "-moz-dropdown-list"; "-moz-fieldset-content"; "-moz-first-letter-continuation";
   "-moz-focus-inner"; "-moz-focus-outer"; "-moz-frameset-blank"; "-moz-hframeset-border"; "-moz-html-canvas-content";
   "-moz-inline-table"; "-moz-line-frame"; "-moz-list-bullet"; "-moz-list-number"; "-moz-mathml-anonymous-block";
   "-moz-number-spin-box"; "-moz-number-spin-down"; "-moz-number-spin-up"; "-moz-oof-placeholder"; "-moz-page"; "-moz-page-break";
   "-moz-page-content"; "-moz-page-sequence"; "-moz-pagebreak"; "-moz-pagecontent"; "-moz-placeholder"; "-moz-printed-sheet";
   "-moz-progress-bar"; "-moz-range-progress"; "-moz-range-thumb"; "-moz-range-track"; "-moz-reveal"; "-moz-ruby"; "-moz-ruby-base";
   "-moz-ruby-base-container"; "-moz-ruby-text"; "-moz-ruby-text-container"; "-moz-scrolled-canvas"; "-moz-scrolled-content";
   "-moz-scrolled-page-sequence"; "-moz-search-clear-button"; "-moz-selection"; "-moz-svg-foreign-content";
   "-moz-svg-marker-anon-child"; "-moz-svg-marker-outer-svg-anon-child"; "-moz-svg-text"; "-moz-table"; "-moz-table-cell";
   "-moz-table-column"; "-moz-table-column-group"; "-moz-table-outer"; "-moz-table-row"; "-moz-table-row-group";
   "-moz-table-wrapper"; "-moz-text-control-editing-root"; "-moz-text-control-preview"; "-moz-tree-cell"; "-moz-tree-checkbox";
   "-moz-tree-drop-feedback"; "-moz-tree-indentation"; "-moz-tree-separator"; "-moz-vframeset-border"; "-moz-viewport";
   "-moz-viewport-scroll"].
(* css_ast/src/selector/ms.rs:7-26 *)
Definition MS_PSEUDO_ELEMENTS : list text := map chars
  ["-ms-backdrop"; "-ms-browse"; "-ms-check"; "-ms-clear"; "-ms-expand"; "-ms-fill"; "-ms-fill-upper"; "-ms-fill-lower";
   "-ms-input-placeholder"; "-ms-placeholder"; "-ms-reveal"; "-ms-selection"; "-ms-thumb"; "-ms-ticks-after"; "-ms-ticks-before";
   "-ms-tooltip"; "-ms-track"; "-ms-value"].
(* css_ast/src/selector/o.rs:7-16 *)
Definition O_PSEUDO_ELEMENTS : list text := map chars
  ["-o-inner-spin-button"; "-o-outer-spin-button"; "-o-placeholder"; "-o-scrollbar"; "-o-scrollbar-thumb"; "-o-scrollbar-track";
   "-o-scrollbar-track-piece"; "-o-selection"].
(* css_ast/src/selector/tag.rs:169-300 *)
Definition HTML_TAGS : list text := map chars
  ["a"; "abbr"; "address"; "area"; "article"; "aside"; "audio"; "b"; "base"; "bdi"; "bdo"; "big"; "blockquote"; "body"; "br";
   "button"; "canvas"; "caption"; "center"; "cite"; "code"; "col"; "colgroup"; "data"; "datalist"; "dd"; "del"; "details"; "dfn";
   "dialog"; "dir"; "div"; "dl"; "dt"; "em"; "embed"; "fieldset"; "figcaption"; "figure"; "font"; "footer"; "form"; "frame";
   "frameset"; "h1"; "h2"; "h3"; "h4"; "h5"; "h6"; "head"; "header"; "hgroup"; "hr"; "html"; "i"; "iframe"; "img"; "input"; "ins";
   "kbd"; "label"; "legend"; "li"; "link"; "main"; "map"; "mark"; "marquee"; "menu"; "menuitem"; "meta"; "meter"; "nav"; "nobr";
   "noembed"; "noframes"; "noscript"; "object"; "ol"; "optgroup"; "option"; "output"; "p"; "param"; "picture"; "plaintext"; "pre";
   "progress"; "q"; "rb"; "rp"; "rt"; "rtc"; "ruby"; "s"; "samp"; "script"; "search"; "section"; "select"; "slot"; "small"; "source";
   "span"; "strike"; "strong"; "style"; "sub"; "summary"; "sup"; "table"; "tbody"; "td"; "template"; "textarea"; "tfoot"; "th";
   "thead"; "time"; "title"; "tr"; "track"; "tt"; "u"; "ul"; "var"; "video"; "wbr"; "xmp"].
(* css_ast/src/selector/tag.rs:310-340 *)
Definition HTML_NON_CONFORMING_TAGS : list text := map chars
  ["acronym"; "applet"; "basefont"; "bgsound"; "big"; "blink"; "center"; "dir"; "font"; "frame"; "frameset"; "isindex"; "keygen";
   "listing"; "marquee"; "menuitem"; "multicol"; "nextid"; "nobr"; "noembed"; "noframes"; "param"; "plaintext"; "rb"; "rtc";
   "spacer"; "strike"; "tt"; "xmp"].
(* css_ast/src/selector/tag.rs:349-358 *)
Definition HTML_NON_STANDARD_TAGS : list text := map chars
  ["fencedframe"; "portal"; "permission"; "selectedcontent"].
(* css_ast/src/selector/tag.rs:368-433 *)
Definition SVG_TAGS : list text := map chars
  ["a"; "animate"; "animatemotion"; "animatetransform"; "circle"; "clippath"; "defs"; "desc"; "discard"; "ellipse"; "feblend";
   "fecolormatrix"; "fecomponenttransfer"; "fecomposite"; "feconvolvematrix"; "fediffuselighting"; "fedisplacementmap";
   "fedistantlight"; "fedropshadow"; "feflood"; "fefunca"; "fefuncb"; "fefuncg"; "fefuncr"; "fegaussianblur"; "feimage"; "femerge";
   "femergenode"; "femorphology"; "feoffset"; "fepointlight"; "fespecularlighting"; "fespotlight"; "fetile"; "feturbulence";
   "filter"; "foreignobject"; "g"; "image"; "line"; "lineargradient"; "marker"; "mask"; "metadata"; "mpath"; "path"; "pattern";
   "polygon"; "polyline"; "radialgradient"; "rect"; "script"; "set"; "stop"; "style"; "svg"; "switch"; "symbol"; "text"; "textpath";
   "title"; "tspan"; "use"; "view"].
(* css_ast/src/selector/tag.rs:443-602 *)
Definition MATHML_TAGS : list text := map chars
  ["abs"; "and"; "annotation"; "annotation-xml"; "apply"; "approx"; "arg"; "bind"; "bvar"; "card"; "cartesianproduct"; "cbytes";
   "ceiling"; "cerror"; "ci"; "cn"; "codomain"; "compose"; "condition"; "conjugate"; "cs"; "csymbol"; "curl"; "declare"; "degree";
   "determinant"; "diff"; "divergence"; "divide"; "domain"; "domainofapplication"; "emptyset"; "eq"; "equivalent"; "exists"; "exp";
   "factorial"; "factorof"; "floor"; "fn"; "forall"; "gcd"; "geq"; "grad"; "gt"; "ident"; "image"; "imaginary"; "img"; "implies";
   "in"; "int"; "intersect"; "interval"; "inverse"; "lambda"; "laplacian"; "lcm"; "leq"; "limit"; "list"; "ln"; "log"; "logbase";
   "lowlimit"; "lt"; "maction"; "maligngroup"; "malignmark"; "math"; "matrix"; "matrixrow"; "max"; "mean"; "median"; "menclose";
   "merror"; "mfenced"; "mfrac"; "mfraction"; "mglyph"; "mi"; "min"; "minus"; "mlabeledtr"; "mlongdiv"; "mmultiscripts"; "mn"; "mo";
   "mode"; "moment"; "momentabout"; "mover"; "mpadded"; "mphantom"; "mprescripts"; "mroot"; "mrow"; "ms"; "mscarries"; "mscarry";
   "msgroup"; "msline"; "mspace"; "msqrt"; "msrow"; "mstack"; "mstyle"; "msub"; "msubsup"; "msup"; "mtable"; "mtd"; "mtext"; "mtr";
   "munder"; "munderover"; "neq"; "none"; "not"; "notin"; "notprsubset"; "notsubset"; "or"; "otherwise"; "outerproduct";
   "partialdiff"; "piece"; "piecewise"; "plus"; "power"; "product"; "prsubset"; "quotient"; "real"; "reln"; "rem"; "root";
   "scalarproduct"; "sdev"; "selector"; "semantics"; "sep"; "set"; "setdiff"; "share"; "sin"; "subset"; "sum"; "tendsto"; "times";
   "transpose"; "union"; "uplimit"; "variance"; "vector"; "vectorproduct"; "xo"].
