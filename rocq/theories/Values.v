(* css_ast/src/values: the value definitions, as they are written in the #[value("..")] attributes, and the properties they give.
   VALUE_TABLE is copied from the source (341 attributes; the comment is the line of the attribute). *)
From Coq Require Import String.
From Coq Require Import List.
From Verif Require Export Types.
Open Scope N_scope.
Open Scope list_scope.

Definition VALUE_TABLE : list (string * string) := [
  (* values/align/mod.rs *)
  ("RowGapStyleValue", " normal | <length-percentage [0,∞]> "); (* 102 *)
  ("ColumnGapStyleValue", " normal | <length-percentage [0,∞]> "); (* 112 *)
  ("GapStyleValue", " <'row-gap'> <'column-gap'>? "); (* 122 *)
  (* values/anchor_position/mod.rs *)
  ("AnchorNameStyleValue", " none | <dashed-ident># "); (* 12 *)
  ("AnchorScopeStyleValue", " none | all | <dashed-ident># "); (* 22 *)
  ("PositionAnchorStyleValue", " auto | <anchor-name> "); (* 32 *)
  ("PositionAreaStyleValue", " none | <position-area> "); (* 42 *)
  ("PositionTryOrderStyleValue", " normal | <try-size> "); (* 72 *)
  (* values/animations/mod.rs *)
  ("AnimationIterationCountStyleValue", " <single-animation-iteration-count># "); (* 42 *)
  ("AnimationDirectionStyleValue", " <single-animation-direction># "); (* 52 *)
  ("AnimationPlayStateStyleValue", " <single-animation-play-state># "); (* 62 *)
  ("AnimationDelayStyleValue", " <time># "); (* 72 *)
  ("AnimationFillModeStyleValue", " <single-animation-fill-mode># "); (* 82 *)
  ("AnimationCompositionStyleValue", " <single-animation-composition># "); (* 102 *)
  (* values/backgrounds/mod.rs *)
  ("BackgroundColorStyleValue", " <color> "); (* 12 *)
  ("BackgroundRepeatStyleValue", " <repeat-style># "); (* 32 *)
  ("BackgroundAttachmentStyleValue", " <attachment># "); (* 42 *)
  ("BackgroundClipStyleValue", " <bg-clip># "); (* 62 *)
  ("BackgroundOriginStyleValue", " <visual-box># "); (* 72 *)
  ("BorderImageSourceStyleValue", " none | <image> "); (* 102 *)
  ("BackgroundRepeatXStyleValue", " <repetition># "); (* 162 *)
  ("BackgroundRepeatYStyleValue", " <repetition># "); (* 172 *)
  ("BackgroundRepeatBlockStyleValue", " <repetition># "); (* 182 *)
  ("BackgroundRepeatInlineStyleValue", " <repetition># "); (* 192 *)
  (* values/borders/mod.rs *)
  ("BorderTopColorStyleValue", " <color> | <image-1D> "); (* 12 *)
  ("BorderRightColorStyleValue", " <color> | <image-1D> "); (* 22 *)
  ("BorderBottomColorStyleValue", " <color> | <image-1D> "); (* 32 *)
  ("BorderLeftColorStyleValue", " <color> | <image-1D> "); (* 42 *)
  ("BorderBlockStartColorStyleValue", " <color> | <image-1D> "); (* 52 *)
  ("BorderBlockEndColorStyleValue", " <color> | <image-1D> "); (* 62 *)
  ("BorderInlineStartColorStyleValue", " <color> | <image-1D> "); (* 72 *)
  ("BorderInlineEndColorStyleValue", " <color> | <image-1D> "); (* 82 *)
  ("BorderBlockColorStyleValue", " <'border-top-color'>{1,2} "); (* 102 *)
  ("BorderInlineColorStyleValue", " <'border-top-color'>{1,2} "); (* 112 *)
  ("BorderTopStyleStyleValue", " <line-style> "); (* 122 *)
  ("BorderRightStyleStyleValue", " <line-style> "); (* 132 *)
  ("BorderBottomStyleStyleValue", " <line-style> "); (* 142 *)
  ("BorderLeftStyleStyleValue", " <line-style> "); (* 152 *)
  ("BorderBlockStartStyleStyleValue", " <line-style> "); (* 162 *)
  ("BorderBlockEndStyleStyleValue", " <line-style> "); (* 172 *)
  ("BorderInlineStartStyleStyleValue", " <line-style> "); (* 182 *)
  ("BorderInlineEndStyleStyleValue", " <line-style> "); (* 192 *)
  ("BorderBlockStyleStyleValue", " <'border-top-style'>{1,2} "); (* 202 *)
  ("BorderInlineStyleStyleValue", " <'border-top-style'>{1,2} "); (* 212 *)
  ("BorderTopWidthStyleValue", " <line-width> "); (* 222 *)
  ("BorderRightWidthStyleValue", " <line-width> "); (* 232 *)
  ("BorderBottomWidthStyleValue", " <line-width> "); (* 242 *)
  ("BorderLeftWidthStyleValue", " <line-width> "); (* 252 *)
  ("BorderBlockStartWidthStyleValue", " <line-width> "); (* 262 *)
  ("BorderBlockEndWidthStyleValue", " <line-width> "); (* 272 *)
  ("BorderInlineStartWidthStyleValue", " <line-width> "); (* 282 *)
  ("BorderInlineEndWidthStyleValue", " <line-width> "); (* 292 *)
  ("BorderBlockWidthStyleValue", " <'border-top-width'>{1,2} "); (* 302 *)
  ("BorderInlineWidthStyleValue", " <'border-top-width'>{1,2} "); (* 312 *)
  ("BorderTopStyleValue", " <line-width> || <line-style> || <color> "); (* 322 *)
  ("BorderRightStyleValue", " <line-width> || <line-style> || <color> "); (* 332 *)
  ("BorderBottomStyleValue", " <line-width> || <line-style> || <color> "); (* 342 *)
  ("BorderLeftStyleValue", " <line-width> || <line-style> || <color> "); (* 352 *)
  ("BorderBlockStartStyleValue", " <line-width> || <line-style> || <color> "); (* 362 *)
  ("BorderBlockEndStyleValue", " <line-width> || <line-style> || <color> "); (* 372 *)
  ("BorderInlineStartStyleValue", " <line-width> || <line-style> || <color> "); (* 382 *)
  ("BorderInlineEndStyleValue", " <line-width> || <line-style> || <color> "); (* 392 *)
  ("BorderBlockStyleValue", " <'border-block-start'> "); (* 402 *)
  ("BorderInlineStyleValue", " <'border-block-start'> "); (* 412 *)
  ("BorderTopLeftRadiusStyleValue", " <length-percentage [0,∞]>{1,2} "); (* 422 *)
  ("BorderTopRightRadiusStyleValue", " <length-percentage [0,∞]>{1,2} "); (* 432 *)
  ("BorderBottomRightRadiusStyleValue", " <length-percentage [0,∞]>{1,2} "); (* 442 *)
  ("BorderBottomLeftRadiusStyleValue", " <length-percentage [0,∞]>{1,2} "); (* 452 *)
  ("BorderStartStartRadiusStyleValue", " <length-percentage [0,∞]>{1,2} "); (* 462 *)
  ("BorderStartEndRadiusStyleValue", " <length-percentage [0,∞]>{1,2} "); (* 472 *)
  ("BorderEndStartRadiusStyleValue", " <length-percentage [0,∞]>{1,2} "); (* 482 *)
  ("BorderEndEndRadiusStyleValue", " <length-percentage [0,∞]>{1,2} "); (* 492 *)
  ("BoxShadowBlurStyleValue", " <length [0,∞]># "); (* 692 *)
  ("BoxShadowSpreadStyleValue", " <length># "); (* 702 *)
  (* values/box/mod.rs *)
  ("MarginTopStyleValue", " <length-percentage> | auto "); (* 12 *)
  ("MarginRightStyleValue", " <length-percentage> | auto "); (* 22 *)
  ("MarginBottomStyleValue", " <length-percentage> | auto "); (* 32 *)
  ("MarginLeftStyleValue", " <length-percentage> | auto "); (* 42 *)
  ("MarginStyleValue", " <'margin-top'>{1,4} "); (* 52 *)
  ("PaddingTopStyleValue", " <length-percentage [0,∞]> "); (* 62 *)
  ("PaddingRightStyleValue", " <length-percentage [0,∞]> "); (* 72 *)
  ("PaddingBottomStyleValue", " <length-percentage [0,∞]> "); (* 82 *)
  ("PaddingLeftStyleValue", " <length-percentage [0,∞]> "); (* 92 *)
  ("PaddingStyleValue", " <'padding-top'>{1,4} "); (* 102 *)
  (* values/break/mod.rs *)
  ("BreakBeforeStyleValue", " auto | avoid | always | all | avoid-page | page | left | right | recto | verso | avoid-column | column | avoid-region | region "); (* 12 *)
  ("BreakAfterStyleValue", " auto | avoid | always | all | avoid-page | page | left | right | recto | verso | avoid-column | column | avoid-region | region "); (* 22 *)
  ("BreakInsideStyleValue", " auto | avoid | avoid-page | avoid-column | avoid-region "); (* 32 *)
  ("OrphansStyleValue", " <integer [1,∞]> "); (* 42 *)
  ("WidowsStyleValue", " <integer [1,∞]> "); (* 52 *)
  ("BoxDecorationBreakStyleValue", " slice | clone "); (* 62 *)
  ("MarginBreakStyleValue", " auto | keep | discard "); (* 72 *)
  (* values/cascade/mod.rs *)
  ("AllStyleValue", " initial | inherit | unset | revert | revert-layer "); (* 12 *)
  (* values/color/mod.rs *)
  ("ColorStyleValue", " <color> "); (* 12 *)
  ("OpacityStyleValue", " <opacity-value> "); (* 22 *)
  (* values/color_adjust/mod.rs *)
  ("ForcedColorAdjustStyleValue", " auto | none | preserve-parent-color "); (* 22 *)
  ("PrintColorAdjustStyleValue", " economy | exact "); (* 32 *)
  ("ColorAdjustStyleValue", " <'print-color-adjust'> "); (* 42 *)
  (* values/color_hdr/mod.rs *)
  ("DynamicRangeLimitStyleValue", " standard | high | constrained-high | <dynamic-range-limit-mix()> "); (* 12 *)
  (* values/contain/mod.rs *)
  ("ContentVisibilityStyleValue", " visible | auto | hidden "); (* 22 *)
  (* values/content/mod.rs *)
  ("BookmarkLevelStyleValue", " none | <integer [1,∞]> "); (* 42 *)
  ("BookmarkStateStyleValue", " open | closed "); (* 62 *)
  (* values/display/mod.rs *)
  ("OrderStyleValue", " <integer> "); (* 22 *)
  ("VisibilityStyleValue", " visible | hidden | collapse "); (* 32 *)
  ("ReadingFlowStyleValue", " normal | flex-visual | flex-flow | grid-rows | grid-columns | grid-order "); (* 42 *)
  (* values/exclusions/mod.rs *)
  ("WrapFlowStyleValue", " auto | both | start | end | minimum | maximum | clear "); (* 12 *)
  ("WrapThroughStyleValue", " wrap | none "); (* 22 *)
  (* values/flexbox/mod.rs *)
  ("FlexDirectionStyleValue", " row | row-reverse | column | column-reverse "); (* 12 *)
  ("FlexWrapStyleValue", " nowrap | wrap | wrap-reverse "); (* 22 *)
  ("FlexFlowStyleValue", " <'flex-direction'> || <'flex-wrap'> "); (* 32 *)
  ("FlexGrowStyleValue", " <number [0,∞]> "); (* 52 *)
  ("FlexShrinkStyleValue", " <number [0,∞]> "); (* 62 *)
  ("FlexBasisStyleValue", " content | <'width'> "); (* 72 *)
  ("JustifyContentStyleValue", " flex-start | flex-end | center | space-between | space-around "); (* 82 *)
  ("AlignItemsStyleValue", " flex-start | flex-end | center | baseline | stretch "); (* 92 *)
  ("AlignSelfStyleValue", " auto | flex-start | flex-end | center | baseline | stretch "); (* 102 *)
  ("AlignContentStyleValue", " flex-start | flex-end | center | space-between | space-around | stretch "); (* 112 *)
  (* values/fonts/mod.rs *)
  ("FontWidthStyleValue", " normal | <percentage [0,∞]> | ultra-condensed | extra-condensed | condensed | semi-condensed | semi-expanded | expanded | extra-expanded | ultra-expanded "); (* 32 *)
  ("FontSynthesisWeightStyleValue", " auto | none "); (* 82 *)
  ("FontSynthesisStyleStyleValue", " auto | none "); (* 92 *)
  ("FontSynthesisSmallCapsStyleValue", " auto | none "); (* 102 *)
  ("FontSynthesisPositionStyleValue", " auto | none "); (* 112 *)
  ("FontKerningStyleValue", " auto | normal | none "); (* 132 *)
  ("FontVariantPositionStyleValue", " normal | sub | super "); (* 152 *)
  ("FontVariantCapsStyleValue", " normal | small-caps | all-small-caps | petite-caps | all-petite-caps | unicase | titling-caps "); (* 162 *)
  ("FontLanguageOverrideStyleValue", " normal | <string> "); (* 222 *)
  ("FontOpticalSizingStyleValue", " auto | none "); (* 232 *)
  ("FontVariantEmojiStyleValue", " normal | text | emoji | unicode "); (* 262 *)
  (* values/gcpm/mod.rs *)
  ("RunningStyleValue", " <custom-ident> "); (* 22 *)
  ("FootnoteDisplayStyleValue", " block | inline | compact "); (* 32 *)
  ("FootnotePolicyStyleValue", " auto | line | block "); (* 42 *)
  (* values/grid/mod.rs *)
  ("MasonryDirectionStyleValue", " row | column | row-reverse | column-reverse "); (* 162 *)
  ("MasonryFillStyleValue", " normal | reverse "); (* 172 *)
  ("MasonryFlowStyleValue", " <'masonry-direction'> || <'masonry-fill'> "); (* 182 *)
  (* values/images/mod.rs *)
  ("ImageRenderingStyleValue", " auto | smooth | high-quality | pixelated | crisp-edges "); (* 42 *)
  (* values/inline/mod.rs *)
  ("DominantBaselineStyleValue", " auto | text-bottom | alphabetic | ideographic | middle | central | mathematical | hanging | text-top "); (* 12 *)
  ("BaselineSourceStyleValue", " auto | first | last "); (* 34 *)
  ("AlignmentBaselineStyleValue", " baseline | text-bottom | alphabetic | ideographic | middle | central | mathematical | text-top "); (* 44 *)
  ("LineHeightStyleValue", " normal | <number [0,∞]> | <length-percentage [0,∞]> "); (* 64 *)
  ("TextBoxTrimStyleValue", " none | trim-start | trim-end | trim-both "); (* 94 *)
  ("InlineSizingStyleValue", " normal | stretch "); (* 114 *)
  ("InitialLetterWrapStyleValue", " none | first | all | grid | <length-percentage> "); (* 144 *)
  (* values/line_grid/mod.rs *)
  ("LineGridStyleValue", " match-parent | create "); (* 12 *)
  ("LineSnapStyleValue", " none | baseline | contain "); (* 22 *)
  ("BoxSnapStyleValue", " none | block-start | block-end | center | baseline | last-baseline "); (* 32 *)
  (* values/lists/mod.rs *)
  ("ListStyleImageStyleValue", " <image> | none "); (* 12 *)
  ("ListStylePositionStyleValue", " inside | outside "); (* 32 *)
  ("MarkerSideStyleValue", " match-self | match-parent "); (* 52 *)
  (* values/logical/mod.rs *)
  ("BlockSizeStyleValue", " <'width'> "); (* 12 *)
  ("InlineSizeStyleValue", " <'width'> "); (* 22 *)
  ("MinBlockSizeStyleValue", " <'min-width'> "); (* 32 *)
  ("MinInlineSizeStyleValue", " <'min-width'> "); (* 42 *)
  ("MaxBlockSizeStyleValue", " <'max-width'> "); (* 52 *)
  ("MaxInlineSizeStyleValue", " <'max-width'> "); (* 62 *)
  ("MarginBlockStartStyleValue", " <'margin-top'> "); (* 72 *)
  ("MarginBlockEndStyleValue", " <'margin-top'> "); (* 82 *)
  ("MarginInlineStartStyleValue", " <'margin-top'> "); (* 92 *)
  ("MarginInlineEndStyleValue", " <'margin-top'> "); (* 102 *)
  ("MarginBlockStyleValue", " <'margin-top'>{1,2} "); (* 112 *)
  ("MarginInlineStyleValue", " <'margin-top'>{1,2} "); (* 122 *)
  ("PaddingBlockStartStyleValue", " <'padding-top'> "); (* 132 *)
  ("PaddingBlockEndStyleValue", " <'padding-top'> "); (* 142 *)
  ("PaddingInlineStartStyleValue", " <'padding-top'> "); (* 152 *)
  ("PaddingInlineEndStyleValue", " <'padding-top'> "); (* 162 *)
  ("PaddingBlockStyleValue", " <'padding-top'>{1,2} "); (* 172 *)
  ("PaddingInlineStyleValue", " <'padding-top'>{1,2} "); (* 182 *)
  (* values/multicol/mod.rs *)
  ("ColumnWidthStyleValue", " auto | <length [0,∞]> "); (* 12 *)
  ("ColumnCountStyleValue", " auto | <integer [1,∞]> "); (* 22 *)
  ("ColumnsStyleValue", " <'column-width'> || <'column-count'> "); (* 32 *)
  ("ColumnRuleColorStyleValue", " <color> "); (* 42 *)
  ("ColumnRuleStyleStyleValue", " <line-style> "); (* 52 *)
  ("ColumnRuleWidthStyleValue", " <line-width> "); (* 62 *)
  ("ColumnRuleStyleValue", " <'column-rule-width'> || <'column-rule-style'> || <'column-rule-color'> "); (* 72 *)
  ("ColumnSpanStyleValue", " none | <integer [1,∞]> | all | auto "); (* 82 *)
  ("ColumnFillStyleValue", " auto | balance | balance-all "); (* 92 *)
  (* values/nav/mod.rs *)
  ("SpatialNavigationContainStyleValue", " auto | contain "); (* 12 *)
  ("SpatialNavigationActionStyleValue", " auto | focus | scroll "); (* 22 *)
  ("SpatialNavigationFunctionStyleValue", " normal | grid "); (* 32 *)
  (* values/overflow/mod.rs *)
  ("OverflowXStyleValue", " visible | hidden | clip | scroll | auto "); (* 12 *)
  ("OverflowYStyleValue", " visible | hidden | clip | scroll | auto "); (* 22 *)
  ("OverflowBlockStyleValue", " visible | hidden | clip | scroll | auto "); (* 32 *)
  ("OverflowInlineStyleValue", " visible | hidden | clip | scroll | auto "); (* 42 *)
  ("OverflowStyleValue", " <'overflow-block'>{1,2} "); (* 52 *)
  ("ScrollBehaviorStyleValue", " auto | smooth "); (* 72 *)
  ("OverflowClipMarginTopStyleValue", " <visual-box> || <length [0,∞]> "); (* 102 *)
  ("OverflowClipMarginRightStyleValue", " <visual-box> || <length [0,∞]> "); (* 112 *)
  ("OverflowClipMarginBottomStyleValue", " <visual-box> || <length [0,∞]> "); (* 122 *)
  ("OverflowClipMarginLeftStyleValue", " <visual-box> || <length [0,∞]> "); (* 132 *)
  ("OverflowClipMarginBlockStartStyleValue", " <visual-box> || <length [0,∞]> "); (* 142 *)
  ("OverflowClipMarginInlineStartStyleValue", " <visual-box> || <length [0,∞]> "); (* 152 *)
  ("OverflowClipMarginBlockEndStyleValue", " <visual-box> || <length [0,∞]> "); (* 162 *)
  ("OverflowClipMarginInlineEndStyleValue", " <visual-box> || <length [0,∞]> "); (* 172 *)
  ("OverflowClipMarginInlineStyleValue", " <visual-box> || <length [0,∞]> "); (* 182 *)
  ("OverflowClipMarginBlockStyleValue", " <visual-box> || <length [0,∞]> "); (* 192 *)
  ("BlockEllipsisStyleValue", " none | auto | <string> "); (* 202 *)
  ("WebkitLineClampStyleValue", " none | <integer [1,∞]> "); (* 222 *)
  ("MaxLinesStyleValue", " none | <integer [1,∞]> "); (* 232 *)
  ("ContinueStyleValue", " auto | discard "); (* 242 *)
  ("ScrollMarkerGroupStyleValue", " none | before | after "); (* 252 *)
  (* values/overscroll/mod.rs *)
  ("OverscrollBehaviorXStyleValue", " contain | none | auto "); (* 22 *)
  ("OverscrollBehaviorYStyleValue", " contain | none | auto "); (* 32 *)
  ("OverscrollBehaviorInlineStyleValue", " contain | none | auto "); (* 42 *)
  ("OverscrollBehaviorBlockStyleValue", " contain | none | auto "); (* 52 *)
  (* values/page/mod.rs *)
  ("PageStyleValue", " auto | <custom-ident> "); (* 12 *)
  (* values/page_floats/mod.rs *)
  ("FloatReferenceStyleValue", " inline | column | region | page "); (* 12 *)
  ("FloatStyleValue", " block-start | block-end | inline-start | inline-end | snap-block | <snap-block()> | snap-inline | <snap-inline()> | left | right | top | bottom | none "); (* 22 *)
  ("ClearStyleValue", " inline-start | inline-end | block-start | block-end | left | right | top | bottom | both-inline | both-block | both | none "); (* 32 *)
  ("FloatDeferStyleValue", " <integer> | last | none "); (* 42 *)
  ("FloatOffsetStyleValue", " <length-percentage> "); (* 52 *)
  (* values/position/mod.rs *)
  ("PositionStyleValue", " static | relative | absolute | sticky | fixed "); (* 12 *)
  ("TopStyleValue", " auto | <length-percentage> "); (* 22 *)
  ("RightStyleValue", " auto | <length-percentage> "); (* 32 *)
  ("BottomStyleValue", " auto | <length-percentage> "); (* 42 *)
  ("LeftStyleValue", " auto | <length-percentage> "); (* 52 *)
  ("InsetBlockStartStyleValue", " auto | <length-percentage> "); (* 62 *)
  ("InsetInlineStartStyleValue", " auto | <length-percentage> "); (* 72 *)
  ("InsetBlockEndStyleValue", " auto | <length-percentage> "); (* 82 *)
  ("InsetInlineEndStyleValue", " auto | <length-percentage> "); (* 92 *)
  ("InsetBlockStyleValue", " <'top'>{1,2} "); (* 102 *)
  ("InsetInlineStyleValue", " <'top'>{1,2} "); (* 112 *)
  ("InsetStyleValue", " <'top'>{1,4} "); (* 122 *)
  ("OverlayStyleValue", " none | auto "); (* 132 *)
  (* values/regions/mod.rs *)
  ("RegionFragmentStyleValue", " auto | break "); (* 32 *)
  (* values/rhythm/mod.rs *)
  ("BlockStepSizeStyleValue", " none | <length [0,∞]> "); (* 12 *)
  ("BlockStepInsertStyleValue", " margin-box | padding-box | content-box "); (* 22 *)
  ("BlockStepAlignStyleValue", " auto | center | start | end "); (* 32 *)
  ("BlockStepRoundStyleValue", " up | down | nearest "); (* 42 *)
  ("BlockStepStyleValue", " <'block-step-size'> || <'block-step-insert'> || <'block-step-align'> || <'block-step-round'> "); (* 52 *)
  ("LineHeightStepStyleValue", " <length [0,∞]> "); (* 62 *)
  (* values/round_display/mod.rs *)
  ("BorderBoundaryStyleValue", " none | parent | display "); (* 12 *)
  (* values/ruby/mod.rs *)
  ("RubyMergeStyleValue", " separate | merge | auto "); (* 22 *)
  ("RubyAlignStyleValue", " start | center | space-between | space-around "); (* 32 *)
  ("RubyOverhangStyleValue", " auto | none "); (* 42 *)
  (* values/scroll_anchoring/mod.rs *)
  ("OverflowAnchorStyleValue", " auto | none "); (* 12 *)
  (* values/scroll_snap/mod.rs *)
  ("ScrollSnapStopStyleValue", " normal | always "); (* 52 *)
  ("ScrollPaddingTopStyleValue", " auto | <length-percentage [0,∞]> "); (* 62 *)
  ("ScrollPaddingRightStyleValue", " auto | <length-percentage [0,∞]> "); (* 72 *)
  ("ScrollPaddingBottomStyleValue", " auto | <length-percentage [0,∞]> "); (* 82 *)
  ("ScrollPaddingLeftStyleValue", " auto | <length-percentage [0,∞]> "); (* 92 *)
  ("ScrollPaddingInlineStartStyleValue", " auto | <length-percentage [0,∞]> "); (* 102 *)
  ("ScrollPaddingBlockStartStyleValue", " auto | <length-percentage [0,∞]> "); (* 112 *)
  ("ScrollPaddingInlineEndStyleValue", " auto | <length-percentage [0,∞]> "); (* 122 *)
  ("ScrollPaddingBlockEndStyleValue", " auto | <length-percentage [0,∞]> "); (* 132 *)
  ("ScrollMarginTopStyleValue", " <length> "); (* 162 *)
  ("ScrollMarginRightStyleValue", " <length> "); (* 172 *)
  ("ScrollMarginBottomStyleValue", " <length> "); (* 182 *)
  ("ScrollMarginLeftStyleValue", " <length> "); (* 192 *)
  ("ScrollMarginBlockStartStyleValue", " <length> "); (* 202 *)
  ("ScrollMarginInlineStartStyleValue", " <length> "); (* 212 *)
  ("ScrollMarginBlockEndStyleValue", " <length> "); (* 222 *)
  ("ScrollMarginInlineEndStyleValue", " <length> "); (* 232 *)
  ("ScrollMarginBlockStyleValue", " <length>{1,2} "); (* 242 *)
  ("ScrollMarginInlineStyleValue", " <length>{1,2} "); (* 252 *)
  ("ScrollStartTargetStyleValue", " none | auto "); (* 262 *)
  (* values/scrollbars/mod.rs *)
  ("ScrollbarColorStyleValue", " auto | <color>{2} "); (* 12 *)
  ("ScrollbarWidthStyleValue", " auto | thin | none "); (* 22 *)
  (* values/shapes/mod.rs *)
  ("ShapeImageThresholdStyleValue", " <opacity-value> "); (* 22 *)
  ("ShapeMarginStyleValue", " <length-percentage [0,∞]> "); (* 32 *)
  ("ShapePaddingStyleValue", " <length-percentage [0,∞]> "); (* 52 *)
  (* values/size_adjust/mod.rs *)
  ("TextSizeAdjustStyleValue", " auto | none | <percentage [0,∞]> "); (* 12 *)
  (* values/sizing/mod.rs *)
  ("WidthStyleValue", " auto | <length-percentage [0,∞]> | min-content | max-content | fit-content(<length-percentage [0,∞]>) | <calc-size()> | stretch | fit-content "); (* 12 *)
  ("HeightStyleValue", " auto | <length-percentage [0,∞]> | min-content | max-content | fit-content(<length-percentage [0,∞]>) | <calc-size()> | stretch | fit-content "); (* 22 *)
  ("MinWidthStyleValue", " auto | <length-percentage [0,∞]> | min-content | max-content | fit-content(<length-percentage [0,∞]>) | <calc-size()> | stretch | fit-content "); (* 32 *)
  ("MinHeightStyleValue", " auto | <length-percentage [0,∞]> | min-content | max-content | fit-content(<length-percentage [0,∞]>) | <calc-size()> | stretch | fit-content "); (* 42 *)
  ("MaxWidthStyleValue", " none | <length-percentage [0,∞]> | min-content | max-content | fit-content(<length-percentage [0,∞]>) | <calc-size()> | stretch | fit-content "); (* 52 *)
  ("MaxHeightStyleValue", " none | <length-percentage [0,∞]> | min-content | max-content | fit-content(<length-percentage [0,∞]>) | <calc-size()> | stretch | fit-content "); (* 62 *)
  ("BoxSizingStyleValue", " content-box | border-box "); (* 72 *)
  (* values/speech/mod.rs *)
  ("VoiceBalanceStyleValue", " <number> | left | center | right | leftwards | rightwards "); (* 22 *)
  ("SpeakStyleValue", " auto | never | always "); (* 32 *)
  ("PauseBeforeStyleValue", " <time [0s,∞]> | none | x-weak | weak | medium | strong | x-strong "); (* 52 *)
  ("PauseAfterStyleValue", " <time [0s,∞]> | none | x-weak | weak | medium | strong | x-strong "); (* 62 *)
  ("PauseStyleValue", " <'pause-before'> <'pause-after'>? "); (* 72 *)
  ("RestBeforeStyleValue", " <time [0s,∞]> | none | x-weak | weak | medium | strong | x-strong "); (* 82 *)
  ("RestAfterStyleValue", " <time [0s,∞]> | none | x-weak | weak | medium | strong | x-strong "); (* 92 *)
  ("RestStyleValue", " <'rest-before'> <'rest-after'>? "); (* 102 *)
  ("VoiceStressStyleValue", " normal | strong | moderate | none | reduced "); (* 182 *)
  ("VoiceDurationStyleValue", " auto | <time [0s,∞]> "); (* 192 *)
  (* values/tables/mod.rs *)
  ("TableLayoutStyleValue", " auto | fixed "); (* 12 *)
  ("BorderCollapseStyleValue", " separate | collapse "); (* 22 *)
  ("CaptionSideStyleValue", " top | bottom "); (* 42 *)
  ("EmptyCellsStyleValue", " show | hide "); (* 52 *)
  (* values/text/mod.rs *)
  ("WordBreakStyleValue", " normal | break-all | keep-all | manual | auto-phrase | break-word "); (* 42 *)
  ("LineBreakStyleValue", " auto | loose | normal | strict | anywhere "); (* 52 *)
  ("HyphensStyleValue", " none | manual | auto "); (* 62 *)
  ("OverflowWrapStyleValue", " normal | break-word | anywhere "); (* 72 *)
  ("WordWrapStyleValue", " normal | break-word | anywhere "); (* 82 *)
  ("TextAlignStyleValue", " start | end | left | right | center | <string> | justify | match-parent | justify-all "); (* 92 *)
  ("TextAlignAllStyleValue", " start | end | left | right | center | <string> | justify | match-parent "); (* 102 *)
  ("TextAlignLastStyleValue", " auto | start | end | left | right | center | justify | match-parent "); (* 112 *)
  ("WordSpacingStyleValue", " normal | <length-percentage> "); (* 132 *)
  ("LetterSpacingStyleValue", " normal | <length-percentage> "); (* 142 *)
  ("WhiteSpaceCollapseStyleValue", " collapse | discard | preserve | preserve-breaks | preserve-spaces | break-spaces "); (* 182 *)
  ("TextWrapModeStyleValue", " wrap | nowrap "); (* 202 *)
  ("WrapInsideStyleValue", " auto | avoid "); (* 212 *)
  ("WrapBeforeStyleValue", " auto | avoid | avoid-line | avoid-flex | line | flex "); (* 222 *)
  ("WrapAfterStyleValue", " auto | avoid | avoid-line | avoid-flex | line | flex "); (* 232 *)
  ("TextWrapStyleStyleValue", " auto | balance | stable | pretty | avoid-orphans "); (* 242 *)
  ("TextWrapStyleValue", " <'text-wrap-mode'> || <'text-wrap-style'> "); (* 252 *)
  ("HyphenateCharacterStyleValue", " auto | <string> "); (* 262 *)
  ("HyphenateLimitZoneStyleValue", " <length-percentage> "); (* 272 *)
  ("HyphenateLimitLinesStyleValue", " no-limit | <integer> "); (* 292 *)
  ("HyphenateLimitLastStyleValue", " none | always | column | page | spread "); (* 302 *)
  ("TextGroupAlignStyleValue", " none | start | end | left | right | center "); (* 312 *)
  ("LinePaddingStyleValue", " <length> "); (* 322 *)
  (* values/text_decor/mod.rs *)
  ("TextDecorationStyleStyleValue", " solid | double | dotted | dashed | wavy "); (* 22 *)
  ("TextDecorationColorStyleValue", " <color> "); (* 32 *)
  ("TextEmphasisColorStyleValue", " <color> "); (* 72 *)
  ("TextDecorationThicknessStyleValue", " auto | from-font | <length-percentage> "); (* 112 *)
  ("TextUnderlineOffsetStyleValue", " auto | <length-percentage> "); (* 122 *)
  ("TextDecorationSkipStyleValue", " none | auto "); (* 142 *)
  ("TextDecorationSkipBoxStyleValue", " none | all "); (* 162 *)
  ("TextDecorationSkipInkStyleValue", " auto | none | all "); (* 182 *)
  (* values/transforms/mod.rs *)
  ("TransformBoxStyleValue", " content-box | border-box | fill-box | stroke-box | view-box "); (* 32 *)
  ("TransformStyleStyleValue", " flat | preserve-3d "); (* 72 *)
  ("BackfaceVisibilityStyleValue", " visible | hidden "); (* 102 *)
  (* values/transitions/mod.rs *)
  ("TransitionDurationStyleValue", " <time [0s,∞]># "); (* 22 *)
  ("TransitionDelayStyleValue", " <time># "); (* 42 *)
  ("TransitionBehaviorStyleValue", " <transition-behavior-value># "); (* 62 *)
  (* values/ui/mod.rs *)
  ("OutlineWidthStyleValue", " <line-width> "); (* 22 *)
  ("OutlineStyleStyleValue", " auto | <outline-line-style> "); (* 32 *)
  ("OutlineColorStyleValue", " auto | <color> | <image-1D> "); (* 42 *)
  ("OutlineOffsetStyleValue", " <length> "); (* 52 *)
  ("ResizeStyleValue", " none | both | horizontal | vertical | block | inline "); (* 62 *)
  ("CaretColorStyleValue", " auto | <color> "); (* 84 *)
  ("CaretAnimationStyleValue", " auto | manual "); (* 94 *)
  ("CaretShapeStyleValue", " auto | bar | block | underscore "); (* 104 *)
  ("CaretStyleValue", " <'caret-color'> || <'caret-animation'> || <'caret-shape'> "); (* 114 *)
  ("UserSelectStyleValue", " auto | text | none | contain | all "); (* 164 *)
  ("PointerEventsStyleValue", " auto | none "); (* 174 *)
  ("AccentColorStyleValue", " auto | <color> "); (* 184 *)
  ("AppearanceStyleValue", " none | auto | base | <compat-auto> | <compat-special> "); (* 194 *)
  ("FieldSizingStyleValue", " fixed | content "); (* 204 *)
  ("InputSecurityStyleValue", " auto | none "); (* 214 *)
  (* values/values/mod.rs *)
  ("InterpolateSizeStyleValue", " numeric-only | allow-keywords "); (* 12 *)
  (* values/view_transitions/mod.rs *)
  ("ViewTransitionNameStyleValue", " none | <custom-ident> "); (* 12 *)
  ("ViewTransitionGroupStyleValue", " normal | contain | nearest | <custom-ident> "); (* 32 *)
  (* values/viewport/mod.rs *)
  ("ZoomStyleValue", " <number [0,∞]> || <percentage [0,∞]> "); (* 12 *)
  (* values/will_change/mod.rs *)
  ("WillChangeStyleValue", " auto | <animateable-feature># "); (* 12 *)
  (* values/writing_modes/mod.rs *)
  ("DirectionStyleValue", " ltr | rtl "); (* 12 *)
  ("UnicodeBidiStyleValue", " normal | embed | isolate | bidi-override | isolate-override | plaintext "); (* 22 *)
  ("WritingModeStyleValue", " horizontal-tb | vertical-rl | vertical-lr | sideways-rl | sideways-lr "); (* 32 *)
  ("TextOrientationStyleValue", " mixed | upright | sideways ") (* 42 *)
]%string.
(* each with its definition parsed *)
Definition VALUE_DEFS : list (text * option def) := map (fun r => (chars (fst r), parse_def (chars (snd r)))) VALUE_TABLE.
(* the type of a Rust name: definitions name each other, at most [n] deep *)
Fixpoint value_ty (n : nat) (name : text) : option ty :=
  match map_get NAMED_TYPES name with
  | Some t => Some t
  | None =>
      match n with
      | O => None
      | S n => match map_get VALUE_DEFS name with Some (Some d) => generate leaf_ty (value_ty n) d | _ => None end
      end
  end.
(* build.rs:152-162: the property that a type is the value of. Of types that are no style values the name is not asked *)
Definition STYLE_VALUE : text := chars "StyleValue".
Fixpoint without_suffix (l : text) : option text :=
  if text_eqb l STYLE_VALUE then Some [] else match l with c :: r => option_map (cons c) (without_suffix r) | [] => None end.
Definition starts_webkit (l : text) : bool := text_eqb (firstn 6 l) (chars "webkit").
Definition property_name (w : text) : option text :=
  option_map (fun n => let k := kebab n in if starts_webkit k then 45 :: k else k) (without_suffix w).
(* build.rs:164-169 with properties/mod.rs:186-230: the properties and the parsers of their values *)
Definition VALUES : properties :=
  flat_map (fun r => match property_name (chars (fst r)), value_ty 5 (chars (fst r)) with Some n, Some t => [(n, ty_parse t)] | _, _ => [] end) VALUE_TABLE.
