# Formal model of keithamus/hdx (csskit) in Rocq/Coq 8.16

Everything is under `rocq/theories`. The layout separates what must be read to trust the result from what need not be:

* **Model files**: executable Gallina following the Rust function by function. Each definition cites file and lines, and
  states its simplifications. `Chars Units Token F32 Lexer Span Cursor Parser Syntax Write Nth` and, for the language
  server, `LspFrame LspMessage LspJson LspHandler LspDoc LspThreads`, plus the later files listed below.
* **Spec files** (`Spec*.v`): small, written from the English property / CSS Syntax / LSP / IEEE 754, sharing with the model
  only characters, texts, enumerations and record types, never its scanners.
* **Proof files** (`*Proofs*.v`, `Lex*.v`, `*Facts.v`, ...): lemmas; need not be read to trust the result.
* **Property files** (`Prop*.v`): the theorems `Cnn_...`, `Print Assumptions` after each, and non-vacuity `Example`s.

When the full statement is false of the code, a `..._refuted` theorem gives a witness (in the model, from a concrete
source text) and the strongest restriction proved is named `..._partial`. `MANIFEST.json` maps properties to theorems.

## Conventions of the model

* A source text is a `list N` of Unicode scalar values; byte offsets are recomputed from UTF-8 lengths, and a slice at a
  non-boundary or out of range is an explicit `None` (Rust panics). A theorem that states `... = Some ...` therefore states
  absence of panics.
* A loop is a fixpoint on fuel, and running out of fuel is also `None`. Every theorem concluding `Some` thereby proves
  termination within that fuel; fuel is always a function of the source length, justified by the totality theorems.
* Lengths and offsets are unbounded `N`; the documented limits (4 GB source, 24 bit token length, 12 bit url parts, ...)
  appear as hypotheses where they matter, and wherever the code packs a value into a bit-field the mask is in the model,
  so overflow is visible (C05's documented limit is refuted that way).
* A parser is a function `parser -> option (result * parser)` on a record of exactly the fields of `Parser<'a>` that can be
  observed (lexer, errors, trivia, skip, stop, state). Parser combinators are the Rust `?` operator.
* Generic code is modelled either at every instance (single-token types) or with the type parameters' operations as
  universally quantified arguments (rules, lists, `parse_entirely`, LSP `Handler`, the highlighter).
* `well_behaved` (SpecLex.v) collects the inputs outside which the lexer itself is defective, each with its own refuted
  theorem: (1) no backslash directly before a non-ASCII character, (2) the documented size limits, (3) no number followed by
  `sv`, `svm`, `svma`, `svmi`, (4) no non-ASCII/NUL single-line comment. NUL-freeness is a separate hypothesis where used.

## Properties: model, method, result

The full English statements are in `properties.jsonl`. "proved": the full statement; "partial": see the note.

* **C01 Token facts survive packing** (partial). *Model and method:* bit-exact `Token` words (Token.v); disjoint bit-field lemmas. *Result:* All constructors. Partial only for the single quote of an unclosed string (reported as None) and the NUMBER_ZERO constant, both refuted with witnesses.
* **C02 Kinds decode to what was encoded, class predicates match their documentation** (partial). *Model and method:* kind bits and class masks; finite sweep over the 32 codes lifted by `forallb_forall`. *Result:* Kind coding and delim/cdc/empty classes as documented. is_ident_like, is_int/float/has_sign, is_trivia, is_bad accept more kinds than documented: exact lists proved, documentation refuted.
* **C03 KindSet is a set of kinds** (proved). *Model and method:* `KindSet` as a 32 bit word; bit lemmas.
* **C04 Dimension units: code, text and length agree** (partial). *Model and method:* the three unit tables, entry by entry; finite sweep. *Result:* All units except svmin/svmax whose texts are swapped in the code (refuted).
* **C05 Lexing makes progress and ends** (partial). *Model and method:* `read_next_token`, `advance`; every scanner consumes a non-empty prefix, induction on the suffix order. *Result:* For every source outside the listed defects (well_behaved); refuted at exactly the documented 16,777,216 limit, where the packed length wraps to 0.
* **C06 Tokens tile the source; the lexer never panics** (partial). *Model and method:* as C05, with slicing as `option`; induction over the trace of the lexer. *Result:* Contiguity, character boundaries, coverage and no panic for every well_behaved source and every reachable lexer; panics on a backslash before a non-ASCII character and on non-ASCII single-line comments are proved.
* **C07 Rewinding a lexer replays it** (proved). *Model and method:* lexer state and checkpoints. *Result:* Unconditional.
* **C08 Whitespace tokens are maximal runs with exact style bits** (proved). *Model and method:* whitespace scanner = maximal run (SpecLex.run).
* **C09 SeparateWhitespace yields homogeneous runs** (proved). *Model and method:* as C08 with the separate-whitespace feature.
* **C10 Block comments end at the first terminator** (proved). *Model and method:* comment scanner against `block_comment`.
* **C11 Single-line comments end at the line end** (partial). *Model and method:* single-line comments. *Result:* ASCII comments; NUL and non-ASCII refuted.
* **C12 String tokens** (partial). *Model and method:* string scanner against the relation `string_body`. *Result:* NUL-free strings, escapes ASCII; escaped NUL refuted. Quote style of an unclosed single-quoted string is refuted in C01.
* **C13 Ident-like tokens: extent and flags** (partial). *Model and method:* ident scanner against `ident_pieces`; flags as `existsb` over pieces. *Result:* NUL-free text, ASCII after backslash. is_lower_case differs from the statement for dashes/digits in ident and function tokens (refuted).
* **C14 Numbers are the longest CSS number** (partial). *Model and method:* number scanner against the CSS number grammar `longest_number`. *Result:* Within the documented limits (strictly below).
* **C15 Number values are correctly rounded** (proved). *Model and method:* decimal to binary32 conversion as exact integer arithmetic (F32.v); proved to round to nearest, ties to even. *Result:* Rust's str::parse::<f32> is external; its documented behaviour is computed exactly in F32.v and proved to be round-to-nearest-even.
* **C16 Dimension units are recognised exactly** (partial). *Model and method:* the unit state machine of `consume_dimension_unit`, against the table of unit names. *Result:* Sound for every spelling; complete except units spelt with a capital D (refuted) and sv, svm, svma, svmi (refuted).
* **C17 url( is recognised exactly** (partial). *Model and method:* the url-aware ident scanner and url scanner, against `url_body`. *Result:* Plain spelling of url in any case, any body; functions whose first three characters differ from url. Over-recognition, five spaces and long escapes refuted.
* **C18 Punctuation tokens carry their character** (partial). *Model and method:* `SINGLE_CHAR_TOKENS` and delimiter constants. *Result:* Constants and lexed punctuation; '.' and '+' refuted.
* **C19 Escapes decode to valid characters and both escape scanners agree** (partial). *Model and method:* `parse_escape_sequence` against `escape_value`; agreement with the lexer's scanner. *Result:* Decoding and consumed length proved for every escape; agreement with the lexer's scanner except before non-ASCII characters (refuted there).
* **C20 parse_str returns the CSS value of the token** (partial). *Model and method:* `Cursor::parse_str` against the independent relation `stands_for`. *Result:* All lexed ident/function/at-keyword/hash/string/url tokens of NUL-free sources; value specified independently and unique.
* **C21 parse_str_lower is the ASCII lower-casing of parse_str** (partial). *Model and method:* `parse_str_lower`. *Result:* Exact result proved; equals lower-casing unless the token is flagged lower-case and has escapes or is an unclosed url (both refuted).
* **C22 eq_ignore_ascii_case agrees with parse_str_lower** (partial). *Model and method:* `eq_ignore_ascii_case`. *Result:* Proved for tokens without escapes; for escaped non-string tokens it is shown to be a case-sensitive comparison (claim refuted).
* **C23 Separator insertion keeps token boundaries** (partial). *Model and method:* `needs_separator_for`, the sink, and the lexer: if the text after a token changes without touching its boundary the token is the same (RestProofs, JoinProofs), then case analysis on pairs of kinds. *Result:* Proved for every pair of tokens and texts outside the exclusions listed field by field in SpecWrite.apart (open escape, unclosed string/url/comment, bad string, dash after a name, exponent, -->, <!--, //, url( without its quote, adjacent whitespace), for whole sequences, and end to end through the sink; every exclusion is a real merge, proved in the _refuted theorems, so the full statement is false of the code. Hypotheses: well_behaved (C01 notes), no NUL.
* **C24 Span algebra** (proved). *Model and method:* `Span`, `SourceOffset`; linear arithmetic. *Result:* The extra _refuted theorem records that Span::DUMMY is not neutral for +.
* **C25 line_and_column** (proved). *Model and method:* `line_and_column`; induction on the text. *Result:* For spans starting on a character boundary; the extra _refuted theorem shows the boundary is needed.
* **C26 Peeking predicts and does not disturb** (partial). *Model and method:* `Parser::peek_*`, `next`; induction on the tokens ahead. *Result:* peek_next, peek_n (n>=1), next_is_stop, peek_next_including_whitespace and consume_trivia predict next on every reached parser; peek_n(0) panics and next_is_stop loops for ever with Eof in the skip set (refuted theorems).
* **C27 No token is lost: consumed cursors and trivia partition the stream** (proved). *Model and method:* histories of parser operations as an inductive relation; invariant: emitted + trivia = tokens passed. *Result:* Per step and for every history of next / consume_trivia / set_skip: outputs merged with trivia are the lexed tokens up to the current position; with the default skip set trivia are exactly whitespace and comments; every reached parser stands on a token boundary.
* **C28 Parser checkpoints restore the parser** (partial). *Model and method:* checkpoints with their u16 counters. *Result:* Rewind restores lexer, errors and trivia exactly when the counts fit (always for sources below 65536 tokens); refuted for 65536 or more trivia (u16 counter) and for skip / stop / state, which a checkpoint does not hold.
* **C29 parse_entirely accounts for the whole input** (partial). *Model and method:* `parse_entirely` for an arbitrary parse function. *Result:* Exact result of parse_entirely for any parse function; trailing trivia alone are not recorded (refuted theorem).
* **C30 Component values are preserved token for token** (proved). *Model and method:* ComponentValue(s), SimpleBlock, FunctionBlock parsers and ToCursors (Syntax.v); induction on fuel. *Result:* C30_values_preserved and C30_one_value_preserved: for every parser reached over a well-behaved source, the tokens consumed and not put in the trivia list are the cursors emitted, in order; C30_same_tokens: the tokens are the same, only the offset of a simple block's brackets may differ. C30_bracket_offsets_refuted shows those offsets are indeed not the source's.
* **C31 Block and function parsing terminates and ends at a closer** (partial). *Model and method:* same model; bracket grammar in SpecSyntax.v. *Result:* C31_always_returns: every input returns. C31_block_shape/function_shape: what was consumed is a bracketed sequence up to a closing bracket, or, unclosed, up to the end of input or a token no component value starts with. C31_*_accepted: properly bracketed text is accepted up to its own closer. Refuted parts of the English claim: a block closes on any closing bracket, '-->' ends a block, and an unclosed function followed by a comment is an error.
* **C32 Printing cursors reproduces the source** (partial). *Model and method:* `write_str` including f32 Display; printing then parsing an f32 is the identity (DisplayProofs). *Result:* Whole-source theorem for well_behaved sources below 4 GB: writing never panics, the token texts concatenate to the source, and every token except numbers and known-unit dimensions is written as its own text. Finite numbers keep their value (C32_number_respelled, full); dimensions keep value and unit except svmin/svmax. Refuted parts: svmin is written svmax, 1e39 is written 'inf', +1px loses its sign, 1.0 becomes the integer 1.
* **C33 The formatting sink writes every cursor, in order, with separators only where required** (proved). *Model and method:* CursorFmtSink, CursorVecSink, an arbitrary failing writer. *Result:* For every cursor list whose cursors can be written and every writer (including one that fails at any point). CursorVecSink puts separators in the same places, but its SEPARATOR cursor cannot be written back: refuted.
* **C34 LSP framing round-trips** (proved). *Model and method:* byte-level reader and writer (BufRead, httparse from their documentation), induction on the stream. *Result:* Framing and message text both ways, for all sequences of bodies/messages; headers in any case/order, no leak, prefix stability, streams cut anywhere. httparse, serde_json and BufRead are modelled from their documentation. Refuted edge cases: EOF inside headers reported as a clean end, empty body, three headers, unknown header, two lengths. Strings are read as RFC 8259 spells them (escapes, surrogate pairs), and only those (C34_strings_are_read); values and messages in any JSON layout, floats apart and nothing else (C34_json_texts_are_read, C34_only_json_is_read, C34_messages_in_any_layout).
* **C35 JSON-RPC ids and error codes survive** (proved). *Model and method:* messages as JSON values, JSON text printer and parser. *Result:* All i32 codes, all ids and messages that Message can hold. Refuted: -32800 has two names; Ok(null) cannot be read back; ids outside i32 turn a request into a notification; arrays accepted as messages.
* **C36 Request/notification discipline** (partial). *Model and method:* dispatch state machine for an arbitrary Handler; induction over histories. *Result:* For every Handler implementation and every history of disciplined messages (requests do not use notification methods and conversely). Without that hypothesis the claim is false of the code: the refuted theorems show an unanswered request and an answered notification; requests before initialize are dropped without an error response.
* **C37 Document sync follows the LSP edit semantics** (partial). *Model and method:* rope edits with char/line indices; induction over histories of several documents. *Result:* End to end from didOpen/didChange JSON to the stored text, for all histories over several documents, for BMP texts without VT/FF/NEL/LS/PS. Outside that set the code is wrong (refuted theorems), as for out-of-range positions.
* **C38 Semantic token deltas decode to absolute positions** (partial). *Model and method:* the delta encoder against an LSP decoder. *Result:* Deltas decode to line/character column for all texts and highlight sets on character boundaries, no underflow; these are LSP positions for BMP texts without lone CR. Lengths are bytes: right for ASCII only. The highlighter itself is a parameter.
* **C39 The document thread answers highlights for the latest commit** (partial). *Model and method:* two-thread transition system over rendezvous channels; invariant over all schedules, measure for termination. *Result:* Transition system of the handler thread and one thread per opened document over rendezvous channels; safety in every schedule, termination of every schedule, no deadlock if every document has output. The deadlock for documents without output is a refuted theorem. A panic of the parser is not modelled.
* **C40 An+B is parsed to the right integers** (partial). *Model and method:* `Nth::parse` on the lexer and parser models; the tokens of every An+B spelling are computed (NthLex), then the parser is followed. *Result:* Full An+B grammar of CSS Syntax 6 for unescaped spellings, any signs, spacing, letter case, in any source, with the parser left right after B; integers of magnitude up to 2^24; even/odd and plain integers likewise. Missing: the two misread spellings (whitespace before an attached minus: 2n -1 gives +1; -n- 1 is rejected), integers above 2^24 (read through f32, off by one), escaped spellings, NUL, inputs outside well_behaved; all but the last three are refuted by theorems. The code also accepts n5, 2n 5, 2n-, +-n (C40_invalid_accepted_refuted).
* **C41 Comparison operators** (proved). *Model and method:* `Comparison::parse`. *Result:* Sound and complete description of Comparison::parse; `> =` is rejected (refuted theorem).
* **C42 Pairs of brackets** (proved). *Model and method:* `PairWise`.
* **C43 Parsing returns** (partial). *Model and method:* the provided methods of `css_parse/src/traits`, as functions of the implementor's parsers (Traits.v), and their use in `css_parse/src/syntax` (Syntax.v). Induction on the number of tokens ahead; each loop turn consumes a token, and the fuel given exceeds the tokens of the source. *Result:* All sources that are well_behaved, NUL-free and below 4 GB; trait methods for any implementor. Missing: the two prelude-list traits with an item that can succeed without consuming (they run for ever at the end of the input: C43_prelude_list_hangs_refuted); depth of the Rust stack.
* **C44 Parsing loses no token** (partial). *Model and method:* `to_cursors` and the parsers of `css_parse/src/syntax` over the traits of Traits.v. A relation between the tokens read and those emitted, closed under sequencing; induction over loops and fuel. *Result:* Stated for trees of any shape: in order when no block mixes declarations and rules, up to permutation otherwise. Missing (refuted by theorems): order in mixed blocks, semicolons, offsets of braces after trivia. Says nothing when parsing returns an error.
* **C45 Word sets, pseudo-classes and pseudo-elements read exactly their words** (partial). *Model and method:* Model: Features.v (the macros' Peek/Build/Parse implementations as functions of the word table). Specification: SpecFeatures.v (reads_phrases, is_word, class_phrase, element_phrase). Proof: peek_next/next agree on the kept tokens (C26/C27), parse_str_lower is the lower-cased value (C21). *Result:* C45_any_case_partial excludes tokens with escapes (C45_escaped_capital_refuted: \46oo is not recognised as foo). C45_pseudo_class_peek/C45_pseudo_element_peek say exactly what the peeks answer; C45_peek_then_parse_refuted: ': foo' is peeked but does not parse.
* **C46 Boolean, discrete and ranged features read exactly their documented forms** (proved). *Model and method:* Model: Features.v. Proof: composition of exact phrase readers; '<' and '>' not followed by '=' by no_equals_first; names and values told apart by their beginnings. *Result:* C46_ranged_features needs names and values that do not begin with '=' and that are told apart by how they begin; C46_case shows an implementor for which this holds.
* **C47 Feature condition lists are read as documented** (partial). *Model and method:* Model: Features.v condition_t. Specification: documented (the grammar of the doc comment) and accepted (what is read). Proof: exact characterisation both ways, then the differences from the documented grammar as theorems for every implementor. *Result:* C47_conditions_read_partial: exact, for what the code reads (single features and chains of two). The rest of the documented grammar is refuted, for every feature parser: a leading 'not' is never accepted, chains of three or more 'and' are rejected, 'or' chains stop after the second feature, and 'f not g' is accepted with the tokens of f dropped.
* **C48 Parsing selectors returns** (proved). *Model and method:* A weakest-precondition calculus over the parser monad (SelectorProofs2); every component parser gets a total-correctness rule on the visible tokens; the mutual nesting by induction on fuel with fuel bounded by the tokens ahead (SelectorProofs8/9). *Result:* The statement is proved in full; its limit: _refuted: after an error the skip set may be changed (`a: b`, `a|=b`).
* **C49 Selector trees are well-formed and lose no token** (proved). *Model and method:* Same calculus; [spent] composes along sequencing, rewinding and skip-set changes; SpecSelectors gives the token shape of each node independently of the parser. *Result:* The statement is proved in full; its limits: _refuted: non-selectors are accepted (`,`, `a,`, `> > a`, `[a`, `:is(a`, `*| a`); `a > b` has descendant combinators around its child combinator.
* **C50 Type selectors are classified by their name** (proved). *Model and method:* Case analysis on the chain of sets with uniqueness of the classification; the character loop by induction against the PCENChar ranges.
* **C51 Selectors written as the grammar says are read as the tree they are** (partial). *Model and method:* SpecSelectorText.v defines the layouts as mutual inductive relations between trees and raw tokens, without reference to the parser; SelectorGoes*.v proves that the parser follows every layout, by mutual induction with fuel bounded by the tokens. *Result:* _partial: the spellings of An+B that C40 refutes, comments between the simple selectors of one compound, and unclosed forms are not layouts. _refuted: `|a`, `[|a]`, `a||b`, `a/**/::before`, `a/**/:is(b)`, `a/**/` are refused although valid; `:nth-child(2n+1 of a)` is not read as one selector. The numbers of an An+B are tied to the characters of their tokens: an integer token is digits with or without a sign, and says what they say (up to 2^24).
* **C52 Parsing a stylesheet returns** (partial). *Model and method:* AstSheet.v/Ast.v model the rules; Goes*.v is a program logic (returns, only moves forwards, counts tokens) that does not depend on the skip set; SheetReadable.v shows that every token's text can be read. *Result:* _partial: [acceptable] leaves out @page rules with anything but names, colons and commas (whitespace, say) between `@page` and '{', font-tech( / font-format( functions, functions between @container and '{', unclosed comments, NUL, and the lexer's own limits (well_behaved, url_limits). Each of the first three is shown to be needed: _refuted theorems give texts on which the parser never returns or panics.
* **C53 A parsed stylesheet loses no token** (partial). *Model and method:* Tells*.v is a program logic for what a parser read between two positions, independent of the skip set and of termination; each parser of Ast.v/AstSheet.v gets a rule saying what its result writes. *Result:* _partial: trees with a condition containing `not` and an @charset without semicolon are excluded ([whole]); _refuted theorems show that those lose tokens. The parsers of property values (css_ast/src/values, generated) are a parameter assumed faithful.
* **C54 Every property's value is parsed or refused** (partial). *Model and method:* Def.v models the definition language and what the macro generates, Types.v the hand-written types, Values.v is the table copied from the source. ValuesTotal.v proves generation preserves termination and progress (the logic of Goes.v) for any definition, then instantiates it with the table. *Result:* C54_stylesheets_return_partial inherits C52's conditions on the text (acceptable). calc-size()'s todo!() is shown unreachable: the alternative fit-content( comes first and takes every function.
* **C55 A parsed property value writes back the tokens it was read from** (partial). *Model and method:* ValuesTold.v proves, in the logic of Tells.v, for any definition what the generated parser and writer do, and computes from the definition whether the order is kept; Tells4/8/9.v carry the exceptions through declarations, @supports, @page and @keyframes. *Result:* Partial: nothing is said of border-image-source and list-style-image beyond reading forwards; the order is not claimed for the 31 properties in REORDERED; and C53's exceptions (not-conditions, @charset). The exceptions are shown real by C55_order_refuted and C55_gradient_refuted.
* **C56 A property accepts only values of its definition** (partial). *Model and method:* SpecConforms.v gives an independent reader of definitions (CSS precedences) and the inductive relation conforms. ValuesConform.v proves it of each hand-written type and ValuesConform2.v of whatever parser the macro generates from any definition; ValuesConform3.v checks by computation that the macro reads every definition of the table as CSS does, and goes through the table. *Result:* Partial: in 19 properties (UNENFORCED) numeric ranges are not enforced (C56_ranges_refuted); hdx's own notions of <percentage>, <number> and <string> (token_of) and of the hand-written types (HAND_WRITTEN), and a missing closing parenthesis (C56_unclosed_refuted), are part of the specification. The macro reads other definitions wrongly (C56_precedence_refuted).
* **C57 A property accepts the values of its definition** (partial). *Model and method:* ValuesTaken.v to ValuesTaken7.v: for every type an account of the tokens that its Peek answers true to (hits), of the ends it answers false to (quiet) and of what its Parse takes (eats), for the types of one token; then alternatives by cases, X{a,b}, X Y? and X# by induction over the tokens; the class of definitions is decided by a function (clear_of) that is evaluated on the table. PropValues4.v has the theorems. *Result:* Missing: values with functions or escapes, and the 36 properties of UNREACHED: for a || b the claim is false (C57_any_order_refuted: flex-flow: wrap row), as for lists after a keyword (C57_list_after_keyword_refuted). The tokens of the types are hdx's, not those of CSS (C57_css_values_refuted: flex-grow: 1, zoom: 50%, strings and dotted are refused). C57_functions_refuted: <image-1D> after <color> and positions in repeating-radial-gradient() are never read.
* **C58 Minifying keeps the tokens of a stylesheet** (partial). *Model and method:* Minify.v puts the parser of stylesheets (with the 341 properties) and the formatting sink together. MinifyProofs.v: every cursor of the tree is an item found in some text (written as it was spelled, or as the number that reads back, F32 display proofs of C32), whitespace next to whitespace is one item; the items are pairwise apart (C23), so that the text has their tokens at their places (induction over the items and the trace of the lexer). With C55 the tokens of the tree are those of the source. C58_minify_returns uses the totality proofs of C52/C54. *Result:* Missing: texts with a backslash; the damages above, shown real by C58_damage_refuted (margin:1px -0px becomes one dimension 1px-0px, 1px +2px becomes 1px2px, 1e30 gets longer) and C58_merged_refuted; that the minified text has the same tree.
* **C59 Syntax highlighting shows what the stylesheet says** (partial). *Model and method:* Highlight.v models accept for every rule and the visitor's methods; SpecHighlight.v lists the marks of a tree and how each is shown. Shows*.v: a Hoare logic over the parser of stylesheets by which the marks of every result are true of the text and their tokens are, counted with multiplicity, among the tokens read. HighlightProofs.v: nested induction over rules (accept inserts the marks; panics iff an unfinished rule is within), the tokens tile the text, so that marks are disjoint and the map loses none. With C38 the reply decodes. *Result:* C59_document_returns_partial needs the texts of C52 (acceptable). Refuted: @media and @-webkit-keyframes panic (C59_unfinished_refuted); nothing is shown in @-moz-document, in functional pseudo-classes, for namespaced tags, classes, ids, attributes, pseudo-elements, at-keywords (C59_not_shown_refuted).
* **C60 A declaration is a name, a colon, a value of its property and perhaps !important** (proved). *Model and method:* SpecDecl.v says what a value is in terms of the published grammars (css_def, conforms of C54). The Hoare logic of C54 gives the conformance of a known value; Keeps.v is a second Hoare logic (every parser of values returns its modes); DeclProofs.v joins them, with the specification of component values of C43 for the free values. *Result:* The statement is proved in full (numeric ranges as in C56). Limits, as theorems: Refuted: `!important` of a custom property, an unknown value or a computed value is swallowed by the value (C60_important_refuted); a CSS-wide keyword need not be the whole value (C60_keyword_alone_refuted); a known value before trailing whitespace at the end of the text is unknown (C60_value_at_end_refuted); a computed function that is not first does not always make the value computed (C60_computed_refuted).
* **C61 Every node of the tree of a stylesheet is what CSS has for a node of its kind** (partial). *Model and method:* SpecTree.v is an inductive predicate on trees, from the grammars of CSS and the tables of hdx. Says..Says5 are a Hoare logic: for every parser, what it returns satisfies the predicate and where it is left is further along the same tokens. The values are those of C54 and C60, the selectors those of C48, the features those of C46. *Result:* Selectors are described when no comment stands right before a `*` (C61_wildcard_refuted: after `a|=b{}` such a comment is the universal selector, for the skip set is left changed). Refuted: commas of lists may be left out (C61_comma_refuted); `@media print, screen` is not read (C61_media_list_refuted); `(grid) not (hover)` loses `grid` (C61_not_refuted); domain(), regexp() and media-document() become url-prefix() (C61_document_refuted); a bracket may be closed by another kind (C61_bracket_refuted). A container's name and its condition are two conditions (C61_container_refuted); `@keyframes revert`, `@keyframes None`, `@container inherit` are accepted (C61_names_refuted); some features of the table are never read (C61_feature_refuted).
* **C62 A stylesheet written as CSS says is read rule for rule** (partial). *Model and method:* SpecRead.v gives, as inductive relations, which tokens a tree is written with. Reads..Reads8 are a total-correctness logic (`takes`: returns, the result satisfies Q, and exactly the given tokens remain) and one lemma per production, tied together by mutual induction over the derivations; loops have enough fuel because every turn uses a token. Values rest on C57, selectors on C51. *Result:* Partial: covered are @charset, @layer in its three forms, @media with a type, with features (one, or two joined by and/or), or with both, @container with a name or with features, @supports selector(), (selector()) and declarations whose value is not one of a known property, @document and @-moz-document, @property with inherits and syntax, @keyframes and @-webkit-keyframes, @font-face, @page with selectors, declarations and margin boxes, style rules with nesting, and declarations with !important, with the values of C57, CSS-wide words, and any values for custom, unknown and computed ones. The values themselves are compared by kind only (C53, C55 and C57 say what they are). Left out: the initial value of @property. Refuted: media query lists and features without a value (C62_media_queries_refuted), longer and negated conditions, a container's name before its condition, features of ratios and resolutions (C62_conditions_refuted), nested selectors such as `b:hover` (C62_nested_rule_refuted), a second semicolon before a rule (C62_semicolons_refuted), descriptors after an initial value (C62_registered_refuted), @supports with a known value, with not, and, or, or nested parentheses (C62_supports_refuted), domain(), media-document() and regexp() in @document (C62_document_refuted), a semicolon of its own in @page (C62_page_refuted).
* **C63 Page selectors are read as written and compared as CSS Paged Media says** (partial). *Model and method:* SpecPage.v says, as inductive relations on tokens, how page selectors are written, and which of two is less specific by counting. Reading: induction over the derivation in the calculus of C51 (`goes`). Order: the sum of specificities is shown to be the bitwise or, i.e. whether each count is positive, by induction over the pseudo-classes. *Result:* _partial: the specificity and the order hold for selectors with at most one of :first/:blank and at most one of :left/:right; beyond that the addition is a bitwise or, and C63_order_refuted shows :first:blank ordered before :first:left, and :first as specific as :blank:first. Reading is proved in full (C63_page_selectors_read); C63_accepted_refuted: whitespace before a pseudo-class and the name `auto` are accepted. The Rust fields are u8: as they never exceed 1, nothing overflows.

## What is modelled

| crate | modelled | not modelled |
|-------|----------|--------------|
| css_lexer | `token.rs`, `kind.rs`, `kindset.rs`, `dimension_unit.rs`, `constants.rs` (tables), `private.rs`, `lib.rs` (Lexer), `syntax/*` (escapes, ident tests, whitespace), `cursor.rs`, `span.rs`, `source_offset.rs`, `comment_style.rs`, `whitespace_style.rs`, `quote_style.rs`, `pairwise.rs`, `feature.rs` as three booleans | `Serialize`, `Debug`/`Display` impls, miette conversions, `VisitNext` |
| css_parse | `parser.rs`, `parser_checkpoint.rs`, `traits/parse.rs`, `traits/peek.rs`, single-token types and two-delimiter types of `token_macros.rs`, `comparison.rs`, `traits/{block,declaration,style_sheet}.rs`, `traits/rules/*`, `traits/lists/*` (provided methods, `feature_condition_list.rs` included), word-set macros, `macros/pseudo_{class,element}.rs`, `traits/{boolean,discrete,ranged}_feature.rs`, `traits/selectors.rs`, `syntax/*`, `cursor_fmt_sink.rs`, `cursor_vec_sink.rs` | `diagnostics.rs` texts (a diagnostic is its kind and cursor), `Vec` allocation in the bump arena, `debug_assert`s, `last_cursor` assertions |
| css_ast | `selector/*.rs` (parsing and ToCursors; `moz.rs`/`webkit.rs` functional pseudos, which no selector reaches, are left out), `units/{int,float,length}.rs`, `properties/mod.rs`, `stylesheet.rs`, `stylerule.rs`, `rules/*.rs` and `rules/{media,container,supports}/*` (parsing and ToCursors; the rules whose parser is a `todo!()` or missing are read as unknown rules, as the code does), `specificity.rs`, the property grammars (`values/**/*.rs`: the 341 definitions as text in `Types.v`/`Values.v`, expanded by the modelled macro; hand-written types such as `color`, `image`, gradients), `visit/mod.rs` and every `accept` | `Visitable` methods that no visitor in the repository overrides |
| csskit_lsp | `jsonrpc/{message,request,response,notification,id,error_code}.rs`, `server.rs` reader/handler/writer loops, `server/handler.rs`, `service.rs` | `tracing_layer.rs`, `$/setTrace`, failures of the writer, panics inside the css parser |
| csskit_proc_macro | `def.rs` (the value definition parser and the code it generates), `Def.v` | `initial.rs`, `inherited.rs` (trait impls that no parser uses), token-stream plumbing |
| csskit_highlight | `lib.rs`, `css.rs` (`Highlight.v`) | ANSI rendering |
| csskit, csskit_wasm | `minify`, `build` of one file (`Minify.v`) | terminal output, file system, wasm-bindgen, the commands that are `todo!()` |

## External code, modelled from its documentation

* `str::parse::<f32>` (correct rounding, inf on overflow), `f32` Display (shortest digits that read back, never in scientific
  notation), `f32 as i32`, `f32::abs`, `i32::from_str`, `char`/`str` methods, `u32`/`u16` casts.
* `std::io::BufRead::read_until`/`read_exact`, `httparse::parse_headers` with two headers, `serde`/`serde_json` (derive
  encodings of the message types; printing and parsing of JSON text, floats being printed and read by arbitrary functions),
  `ropey::Rope` (a list of characters with ropey's line breaks), crossbeam rendezvous channels, lsp-types shapes.
* Universally quantified instead of modelled: the LSP `Handler`'s results, url decoding and capabilities (C36-C39 also quantify over
  the css parser and highlighter behind semantic tokens; C59_served puts hdx's own in their place).

## Trusted base

* Coq 8.16.1's kernel, including its `vm_compute` conversion.
* Axioms: none. `Print Assumptions` follows every theorem in `Prop*.v` and every one prints
  "Closed under the global context" (the build log shows it). Axioms that tools list for loaded libraries (ssreflect's
  under/over constants) are not used by any theorem.
* The reading of the Rust text into the model files, and the specification files.
* Not covered by any theorem: native stack depth (recursion in the Rust parser is assumed not to exhaust the stack), memory
  exhaustion, texts of 4 GB and more.

## Defects found (each is a `_refuted` theorem)

* Lexer: panic on a backslash before a non-ASCII character; panic on non-ASCII single-line comments; NUL ends a
  single-line comment; unclosed single-quoted string reports no quote; a 16,777,216-byte token wraps to length 0; `1svmin`
  and `1svmax` are swapped; capital `D` units are unknown; url recognition accepts other three-letter names, wraps
  at five spaces and long escapes; `.` and `+` delimiters differ from the constants.
* Text of tokens: escaped capitals are not lower-cased / compared; an unterminated comment loses characters.
* Writing: `1e39` is written `inf`; `+1px` loses its sign (and `a +1px` becomes `a1px`); `svmin` becomes `svmax`; missing
  separators (C23 list); a separator is swallowed by a preceding hex escape; `CursorVecSink`'s separator cannot be written.
* Parser: checkpoints count trivia in u16 and do not hold skip/stop/state; `peek_n(0)` panics; `next_is_stop` loops when
  Eof is skipped; trailing trivia are dropped by `parse_entirely`.
* Component values: a block closes on any closing bracket; `-->` ends a block; an unclosed function before a comment is an
  error; bracket cursors have the wrong offset after trivia.
* Traits: `PreludeList` and `CommaSeparatedPreludeList` loop for ever on an item that succeeds without consuming.
* Words and conditions: escaped capitals in keywords are not recognised; `: foo` is peeked as a pseudo-class but does not
  parse; conditions that begin with `not`, chains of three `and`s, and everything after the second `or` feature are not read;
  `f not g` drops `f`.
* An+B: `2n -1` is read as `2n+1`; `-n- 1` is rejected; `n5`, `2n 5`, `2n-`, `+-n` are accepted; integers above 2^24 change.
* Stylesheets: `@page 1`, `@page a` at the end of the file, and `@page {}` after a refused selector are read for ever; `font-tech()`,
  `font-format()` in @supports and any function in @container are a `todo!()`.
* Selectors: errors leave the skip set changed; `,`, `a,`, `> > a`, `[a`, `:is(a`, `*| a` are accepted; `a > b` is five components.
* Language server: the final request without its headers complete looks like a clean end; three headers or an unknown header
  are errors; requests with a notification's method are never answered and notifications may be answered; requests before
  `initialize` are dropped; columns are characters instead of UTF-16 units; form feed etc. count as line ends; lengths are
  bytes; a document that produces no output deadlocks the server.
* Values: `a || b` is read in one order only for some properties (`flex-flow: wrap row`); lists after a keyword; ranges are not
  enforced in 19 properties; `flex-grow: 1`, `zoom: 50%`, strings, `dotted` are refused; `<color> <image-1D>` never read;
  unclosed functions are values; the macro reads `a b || c` and the like with the wrong precedence (no definition in use does).
* Declarations: `!important` of a custom property, an unknown value or a computed value is part of its value; a known value before
  trailing whitespace at the end of the text is unknown; `inherit 1px` is read as `inherit` and the rest is left.
* Minifying: `1px -0px` becomes `1px-0px`, `1px +2px` becomes `1px2px`; `1e30` gets longer.
* Highlighting: @media and @-webkit-keyframes panic; functional pseudo-classes and @-moz-document are not visited.
* Trees: after `a|=b{}` nothing is skipped any more, so in `/**/*{}` the comment is a universal selector; `@keyframes x{from to{}}`
  and `@layer a b;` are read without commas; `@media print, screen` is unknown; `@media not (hover)` is two queries; domain(),
  regexp() and media-document() are read as url-prefix(); `(a}` is a block; `@container f (width > 2px)` is two conditions;
  `@keyframes revert`, `@keyframes None`, `@container inherit` are accepted; `(aspect-ratio: 1/1)`, `(resolution: 1dppx)`,
  `(update: slow)`, `(-moz-mac-graphite-theme)` are never read.
* Pages: `:first:blank` is ordered before `:first:left`, and `:blank:first` is as specific as `:first` (specificities are added with
  a bitwise or); whitespace before a page pseudo-class and the page name `auto` are accepted; a semicolon of its own in @page or in a
  margin box makes an unknown at-rule.
* Conditions: of a known property in @supports the value is not read; `@supports not`, `and`, `or` and nested parentheses are unknown
  at-rules; the initial value of @property takes the descriptors after it; `b:hover{}` in a style rule is a declaration.
