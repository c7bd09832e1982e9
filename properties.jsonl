{"id": "C01", "title": "Token facts survive packing", "statement": "Every fact handed to a token constructor (kind, length, float/sign/escape/dashed/lower-case/close-quote/paren flags, comment style, whitespace style, dimension unit, numeric length, url leading/trailing length, f32 bits, char) is read back unchanged by the public accessors, within the documented size limits (number < 2^24 bytes, dimension number/unit and url leading/trailing < 4096 bytes, everything else < 2^32).", "quantifier": "all constructor arguments: all lengths within the documented limits, all flags, all units, all styles, all 32-bit value patterns", "why_tests_cant": "2^64 packed words; tests pick a handful of lengths and flags and cannot see bit-field overlap for the others", "anchors": ["crates/css_lexer/src/token.rs: Token::new_*, kind, len, leading_len, trailing_len, value, dimension_unit, comment_style, whitespace_style, quote_style"]}
{"id": "C02", "title": "Kinds decode to what was encoded, class predicates match their documentation", "statement": "Kind codes are pairwise distinct and decode back; is_delim_like, is_ident_like, is_bad, is_trivia, is_int/is_float/has_sign, is_cdc answer exactly for the kinds their documentation lists.", "quantifier": "all tokens the lexer can build (all kinds, all flags)", "why_tests_cant": "the predicates are bit masks over 32 possible kind codes combined with 3 flag bits; unit tests only check positive examples", "anchors": ["crates/css_lexer/src/kind.rs: Kind::from_bits", "crates/css_lexer/src/token.rs: is_bad, is_trivia, is_ident_like, is_delim_like, is_int, is_float, has_sign, is_cdc"]}
{"id": "C03", "title": "KindSet is a set of kinds", "statement": "KindSet::new(ks).contains(k) holds iff k is one of ks; add adds exactly one kind; NONE contains nothing, ANY contains everything; comparing a token with a KindSet is membership of its kind.", "quantifier": "all lists of kinds and all kinds", "why_tests_cant": "2^22 sets; tests check one", "anchors": ["crates/css_lexer/src/kindset.rs: KindSet::new, add, contains, contains_bits"]}
{"id": "C04", "title": "Dimension units: code, text and length agree", "statement": "For each known unit, decoding its code returns it, len() is the byte length of its text, and the text is the unit's own CSS spelling, so printing a dimension does not change its unit.", "quantifier": "all 64 units", "why_tests_cant": "no test enumerates the table; the svmax/svmin swap in the shipped table shows it", "anchors": ["crates/css_lexer/src/dimension_unit.rs: DimensionUnit::len, From<u8>, From<DimensionUnit> for &str"]}
{"id": "C05", "title": "Lexing makes progress and ends", "statement": "advance() on a source that is not exhausted returns a non-EOF token of positive length; on an exhausted source it returns EOF for ever and does not move; so any source is exhausted after at most as many advances as it has bytes.", "quantifier": "all UTF-8 sources and all feature sets, all numbers of calls", "why_tests_cant": "a zero-length token anywhere in any input hangs every consumer; tests sample inputs", "anchors": ["crates/css_lexer/src/lib.rs: Lexer::advance, at_end", "crates/css_lexer/src/private.rs: read_next_token"]}
{"id": "C06", "title": "Tokens tile the source; the lexer never panics", "statement": "For every source the successive tokens' byte ranges are contiguous, start and end on character boundaries, cover the source exactly (concatenating the slices gives the source back) and lexing does not panic.", "quantifier": "all UTF-8 sources (within the documented size limits) and feature sets", "why_tests_cant": "each scanner keeps its own byte count separate from the iterator; only a proof covers every mix of multi-byte characters, escapes and token kinds", "anchors": ["crates/css_lexer/src/private.rs: CharsConsumer, read_next_token", "crates/css_lexer/src/lib.rs: Lexer::advance", "crates/css_lexer/src/cursor.rs: str_slice"]}
{"id": "C07", "title": "Rewinding a lexer replays it", "statement": "rewind(checkpoint()) restores the lexer: from there the same tokens are produced in the same order with the same offsets, however many tokens were consumed in between; reading tokens depends only on source, features and offset.", "quantifier": "all sources, features, histories of advances", "why_tests_cant": "needs all histories", "anchors": ["crates/css_lexer/src/lib.rs: checkpoint, rewind, hop, advance"]}
{"id": "C08", "title": "Whitespace tokens are maximal runs with exact style bits", "statement": "Without SeparateWhitespace a whitespace token covers exactly the maximal run of space, tab, LF, CR, FF at its position and its style has the Space/Tab/Newline bit iff the run has such a character; two whitespace tokens are never adjacent.", "quantifier": "all sources and positions", "why_tests_cant": "unbounded runs and contexts", "anchors": ["crates/css_lexer/src/private.rs: consume_whitespace, read_next_token", "crates/css_lexer/src/whitespace_style.rs"]}
{"id": "C09", "title": "SeparateWhitespace yields homogeneous runs", "statement": "With SeparateWhitespace every whitespace token consists of only spaces, only tabs or only newline characters, is maximal for that class and has exactly one style bit.", "quantifier": "all sources and positions", "why_tests_cant": "unbounded runs and contexts", "anchors": ["crates/css_lexer/src/private.rs: read_next_token (TAB/SPACE/LF arms), consume_same", "crates/css_lexer/src/feature.rs: SeparateWhitespace"]}
{"id": "C10", "title": "Block comments end at the first terminator", "statement": "A token starting with /* is a comment that extends to and includes the first */ after the opening two characters, or to the end of the source if there is none; its style is decided by the third character as documented. Without SingleLineComments, // is two slashes.", "quantifier": "all sources and positions", "why_tests_cant": "all comment bodies", "anchors": ["crates/css_lexer/src/private.rs: read_next_token ('/' arm)", "crates/css_lexer/src/comment_style.rs"]}
{"id": "C11", "title": "Single-line comments end at the line end", "statement": "With SingleLineComments a token starting with // is a comment covering exactly the text up to (excluding) the next LF, CR, FF or the end of the source.", "quantifier": "all sources and positions", "why_tests_cant": "all comment bodies, including multi-byte text", "anchors": ["crates/css_lexer/src/private.rs: read_next_token ('/' arm)"]}
{"id": "C12", "title": "String tokens", "statement": "A quote starts a String token that ends at the first unescaped matching quote (has_close_quote) or at the end of the source (no close quote), or a BadString ending before the first unescaped newline; quote_style names the opening quote; the escape flag is set iff a backslash or NUL occurs inside.", "quantifier": "all sources and positions", "why_tests_cant": "unbounded bodies, escapes, nested other-quotes", "anchors": ["crates/css_lexer/src/private.rs: consume_string_token", "crates/css_lexer/src/token.rs: new_string, quote_style, has_close_quote"]}
{"id": "C13", "title": "Ident-like tokens: extent and flags", "statement": "An ident/at-keyword/hash/function token covers the longest ident sequence of the CSS grammar (ident code points and valid escapes) plus its @, # or ( character; is_dashed_ident iff it starts with --, is_lower_case iff no ASCII upper-case letter and no non-ASCII ident character occurs (outside escapes), escape flag iff an escape (or NUL) occurs.", "quantifier": "all sources and positions", "why_tests_cant": "unbounded identifiers and escapes", "anchors": ["crates/css_lexer/src/private.rs: consume_ident_sequence, consume_ident_sequence_finding_url_keyword, consume_ident_like_token, consume_hash_token", "crates/css_lexer/src/syntax/identifier.rs"]}
{"id": "C14", "title": "Numbers are the longest CSS number", "statement": "A number token (and the numeric part of a dimension) is the longest prefix matching [+-]?([0-9]*\\.)?[0-9]+([eE][+-]?[0-9]+)? ; has_sign iff it starts with a sign; is_float iff it has a '.' or an exponent.", "quantifier": "all sources and positions", "why_tests_cant": "unbounded digit strings; boundary cases such as 1.e3, 1e+, +.5, 1..2", "anchors": ["crates/css_lexer/src/private.rs: consume_numeric_token, is_number_start"]}
{"id": "C15", "title": "Number values are correctly rounded", "statement": "value() of a number token is the f32 nearest (ties to even) to the decimal number in the source; integers up to 2^24 are exact; the sign of the value is the sign in the source.", "quantifier": "all digit strings and exponents", "why_tests_cant": "infinitely many decimals", "anchors": ["crates/css_lexer/src/private.rs: consume_numeric_token", "crates/css_lexer/src/token.rs: value"]}
{"id": "C16", "title": "Dimension units are recognised exactly", "statement": "A number directly followed by an ident sequence is a dimension whose unit is the known unit iff the ident sequence, without escapes, equals that unit's name ASCII-case-insensitively, otherwise Unknown; a number followed by % is a percentage.", "quantifier": "all sources; all unit spellings and casings and suffixes", "why_tests_cant": "the recogniser is a 500-line hand-unrolled decision tree", "anchors": ["crates/css_lexer/src/private.rs: consume_ident_sequence_finding_known_dimension, consume_numeric_token", "crates/css_lexer/src/dimension_unit.rs"]}
{"id": "C17", "title": "url( is recognised exactly", "statement": "An unquoted-url token is produced iff the function name is url (ASCII-case-insensitive, after decoding escapes) and the first non-whitespace character after ( is not a quote; otherwise a function token is produced. Url tokens end at the first ) or the end of source; malformed ones become BadUrl up to the next unescaped ).", "quantifier": "all sources and positions", "why_tests_cant": "all names, escape spellings and amounts of whitespace", "anchors": ["crates/css_lexer/src/private.rs: consume_ident_sequence_finding_url_keyword, consume_ident_like_token, consume_url_sequence, consume_remnants_of_bad_url"]}
{"id": "C18", "title": "Punctuation tokens carry their character", "statement": "For every single-character token (delims, colon, semicolon, comma, brackets) char() is the source character, len() its UTF-8 length, and a lexed punctuation token equals the public Token constant for that character.", "quantifier": "all characters and contexts", "why_tests_cant": "1.1M code points", "anchors": ["crates/css_lexer/src/constants.rs: SINGLE_CHAR_TOKENS", "crates/css_lexer/src/token.rs: new_delim, char, Token::PERIOD, Token::PLUS"]}
{"id": "C19", "title": "Escapes decode to valid characters and both escape scanners agree", "statement": "parse_escape_sequence returns a Unicode scalar value that is never NUL-from-hex nor a surrogate, maps zero, surrogate and out-of-range hex to U+FFFD, and consumes exactly the bytes that the lexer's escape scanner counted for the same escape.", "quantifier": "all character sequences after a backslash", "why_tests_cant": "two independently written scanners must agree on every input", "anchors": ["crates/css_lexer/src/private.rs: consume_escape_sequence", "crates/css_lexer/src/syntax/parse_escape.rs"]}
{"id": "C20", "title": "parse_str returns the CSS value of the token", "statement": "For ident, function, at-keyword, hash, string, url tokens produced by the lexer, Cursor::parse_str returns the token's inner text with every escape replaced by its code point, escaped newlines in strings removed and NUL replaced by U+FFFD; without escapes it is exactly the source slice between the leading and trailing parts; it does not panic.", "quantifier": "all sources and lexed tokens", "why_tests_cant": "unbounded texts with escapes at every position", "anchors": ["crates/css_lexer/src/cursor.rs: parse_str", "crates/css_lexer/src/token.rs: leading_len, trailing_len"]}
{"id": "C21", "title": "parse_str_lower is the ASCII lower-casing of parse_str", "statement": "For every lexed ident-like or string token parse_str_lower equals parse_str with ASCII letters lower-cased.", "quantifier": "all sources and lexed tokens", "why_tests_cant": "the function trusts the token's lower-case flag", "anchors": ["crates/css_lexer/src/cursor.rs: parse_str_lower", "crates/css_lexer/src/token.rs: is_lower_case"]}
{"id": "C22", "title": "eq_ignore_ascii_case agrees with parse_str_lower", "statement": "For a lower-case ASCII keyword k and a lexed ident-like token, eq_ignore_ascii_case(k) holds iff parse_str_lower equals k.", "quantifier": "all sources, tokens, keywords", "why_tests_cant": "escape spellings and lengths", "anchors": ["crates/css_lexer/src/cursor.rs: eq_ignore_ascii_case"]}
{"id": "C23", "title": "Separator insertion keeps token boundaries", "statement": "If needs_separator_for(second) is false for two adjacent tokens, writing their texts next to each other and lexing gives back tokens with the same boundaries (no merge).", "quantifier": "all pairs of tokens and their texts", "why_tests_cant": "infinite set of texts for each of 22x22 kind pairs", "anchors": ["crates/css_lexer/src/token.rs: needs_separator_for", "crates/css_parse/src/cursor_fmt_sink.rs"]}
{"id": "C24", "title": "Span algebra", "statement": "span + span is the least span containing both; contains is a partial order; len/is_empty/with_end are consistent; cursor spans have length len() and end at end_offset.", "quantifier": "all spans and cursors", "why_tests_cant": "all offsets", "anchors": ["crates/css_lexer/src/span.rs: Span::add, contains, len, is_empty, with_end", "crates/css_lexer/src/cursor.rs: span, end_offset", "crates/css_lexer/src/source_offset.rs: as_span"]}
{"id": "C25", "title": "line_and_column", "statement": "For a span starting on a character boundary, line is the number of \\n before it and column the number of characters since the last \\n (or start).", "quantifier": "all sources and boundary offsets", "why_tests_cant": "all texts", "anchors": ["crates/css_lexer/src/span.rs: SpanContents::line_and_column"]}
{"id": "C26", "title": "Peeking predicts and does not disturb", "statement": "peek_next/peek_n return the cursor that the corresponding next() call would return, skipping the same kinds, and peeking changes nothing observable.", "quantifier": "all sources, skip sets, parser states, n", "why_tests_cant": "all states", "anchors": ["crates/css_parse/src/parser.rs: peek_next, peek_n, next, next_is_stop, consume_trivia"]}
{"id": "C27", "title": "No token is lost: consumed cursors and trivia partition the stream", "statement": "Over any sequence of next() calls (with any skip sets), the returned cursors merged with the trivia list in offset order are exactly the lexer's tokens up to the current offset, each once; trivia are exactly those whose kind was in the skip set; next returns Eof only at the end.", "quantifier": "all sources, all sequences of next/set_skip/consume_trivia calls", "why_tests_cant": "all histories", "anchors": ["crates/css_parse/src/parser.rs: next, consume_trivia, set_skip"]}
{"id": "C28", "title": "Parser checkpoints restore the parser", "statement": "rewind(checkpoint()) after any amount of parsing restores offset, errors and trivia exactly, so speculative parsing is invisible.", "quantifier": "all parser states and histories between checkpoint and rewind", "why_tests_cant": "counters are stored in u8/u16; failures need >255 errors or >65535 trivia", "anchors": ["crates/css_parse/src/parser.rs: checkpoint, rewind", "crates/css_parse/src/parser_checkpoint.rs", "crates/css_parse/src/traits/parse.rs: try_parse"]}
{"id": "C29", "title": "parse_entirely accounts for the whole input", "statement": "parse_entirely returns an output and no errors only if the parser function succeeded and nothing but trivia remained; otherwise at least one error is reported; all remaining tokens are recorded in trivia in order.", "quantifier": "all sources and all parse functions", "why_tests_cant": "all parse functions", "anchors": ["crates/css_parse/src/parser.rs: parse_entirely", "crates/css_parse/src/parser_return.rs"]}
{"id": "C30", "title": "Component values are preserved token for token", "statement": "Parsing a list of component values (blocks, functions, preserved tokens) and emitting its cursors gives exactly the non-trivia tokens consumed, in order, none dropped or duplicated.", "quantifier": "all token sequences, all nesting depths", "why_tests_cant": "recursive grammar, unbounded nesting", "anchors": ["crates/css_parse/src/syntax/component_value.rs", "crates/css_parse/src/syntax/simple_block.rs", "crates/css_parse/src/syntax/function_block.rs", "crates/css_parse/src/syntax/component_values.rs"]}
{"id": "C31", "title": "Block and function parsing terminates and ends at a closer", "statement": "Parsing a simple block or function consumes a balanced sequence up to a closing token or end of input, and terminates for every input.", "quantifier": "all token sequences, all nesting depths", "why_tests_cant": "unbounded nesting; mismatched closers", "anchors": ["crates/css_parse/src/syntax/simple_block.rs", "crates/css_parse/src/syntax/function_block.rs", "crates/css_parse/src/token_macros.rs: PairWiseStart, PairWiseEnd"]}
{"id": "C32", "title": "Printing cursors reproduces the source", "statement": "Writing each lexed token of a source through Cursor::write_str reproduces the source text for every kind except numbers and known-unit dimensions, which are re-spelled with the same value and unit.", "quantifier": "all sources", "why_tests_cant": "all texts", "anchors": ["crates/css_lexer/src/cursor.rs: write_str, str_slice"]}
{"id": "C33", "title": "The formatting sink writes every cursor, in order, with separators only where required", "statement": "CursorFmtSink writes the cursors it is given in order; it inserts exactly one space between two consecutive cursors iff needs_separator_for says so.", "quantifier": "all cursor sequences", "why_tests_cant": "all sequences", "anchors": ["crates/css_parse/src/cursor_fmt_sink.rs", "crates/css_parse/src/traits/cursor_sink.rs", "crates/css_parse/src/cursor_vec_sink.rs"]}
{"id": "C34", "title": "LSP framing round-trips", "statement": "A stream produced by writing any sequence of messages is read back as the same sequence of bodies, after which the reader reports end of stream; no byte of one message leaks into another, for any body text including CRLFs and multi-byte text; a JSON string in a message is the string its characters and escapes spell, and what spells no string is refused.", "quantifier": "all sequences of message bodies", "why_tests_cant": "arbitrary bodies and concatenations", "anchors": ["crates/csskit_lsp/src/jsonrpc/message.rs: Message::read, Message::write"]}
{"id": "C35", "title": "JSON-RPC ids and error codes survive", "statement": "Error codes decode to the integer they were encoded from; every response to a request carries that request's id.", "quantifier": "all i32 codes, all ids, all messages", "why_tests_cant": "2^32 codes", "anchors": ["crates/csskit_lsp/src/jsonrpc/error_code.rs", "crates/csskit_lsp/src/jsonrpc/message.rs: from_result, id", "crates/csskit_lsp/src/server/handler.rs: handle"]}
{"id": "C36", "title": "Request/notification discipline", "statement": "Every request is answered exactly once with its own id, notifications are never answered, and nothing is processed before initialize.", "quantifier": "all message histories", "why_tests_cant": "all histories", "anchors": ["crates/csskit_lsp/src/server/handler.rs: Handler::handle", "crates/csskit_lsp/src/service.rs: initialized, initialize", "crates/csskit_lsp/src/server.rs"]}
{"id": "C37", "title": "Document sync follows the LSP edit semantics", "statement": "After didOpen and any sequence of didChange events with in-range positions, the server's text equals the client's text (each change replaces exactly the given range); a change without a range replaces the whole text.", "quantifier": "all documents and edit histories", "why_tests_cant": "all edit histories", "anchors": ["crates/csskit_lsp/src/service.rs: on_did_open_text_document, on_did_change_text_document"]}
{"id": "C38", "title": "Semantic token deltas decode to absolute positions", "statement": "The (deltaLine, deltaStart) stream returned for a document decodes, per the LSP rule, to the line and column of each highlight in document order; subtraction never underflows.", "quantifier": "all documents and highlight sets", "why_tests_cant": "all orders of spans", "anchors": ["crates/csskit_lsp/src/service.rs: File::new (Highlight arm), semantic_tokens_full_request"]}
{"id": "C39", "title": "The document thread answers highlights for the latest commit", "statement": "In every interleaving of the service and document threads, a highlight request is answered once, with highlights of the most recently committed text.", "quantifier": "all call histories and schedules of the two threads", "why_tests_cant": "all schedules", "anchors": ["crates/csskit_lsp/src/service.rs: File::new, commit, get_highlights"]}
{"id": "C40", "title": "An+B is parsed to the right integers", "statement": "Nth accepts the An+B grammar and yields the A and B written in the source.", "quantifier": "all An+B spellings", "why_tests_cant": "all integers, signs and spacings", "anchors": ["crates/css_ast/src/selector/nth.rs: Nth::parse"]}
{"id": "C41", "title": "Comparison operators", "statement": "A comparison parses <, >, =, <=, >= to the operator written, and its cursors are the tokens consumed.", "quantifier": "all token sequences", "why_tests_cant": "adjacent/non-adjacent delimiters", "anchors": ["crates/css_parse/src/comparison.rs", "crates/css_parse/src/token_macros.rs: custom_double_delim"]}
{"id": "C42", "title": "Pairs of brackets", "statement": "to_pairwise maps each opener (including functions) and closer to its pair; start() and end() are that pair's opener and closer.", "quantifier": "all tokens", "why_tests_cant": "all kinds", "anchors": ["crates/css_lexer/src/pairwise.rs"]}
{"id": "C43", "title": "Parsing returns", "statement": "Parsing a stylesheet, a rule, a block, a declaration or the remains of a bad declaration, from any parser a user can hold, returns (a value or an error) without panicking or looping; it only moves forward, a rule, block or declaration returned has consumed at least one token, and the parser's state, stop set and skip set are as before. The provided methods of the block, declaration, rule and list traits have the same property for every implementor whose own parsers have it.", "quantifier": "all sources, all parser histories, all implementors of the traits", "why_tests_cant": "termination and absence of panics over all token sequences and all implementations; hangs need a particular token at a particular point", "anchors": ["crates/css_parse/src/traits/block.rs", "crates/css_parse/src/traits/declaration.rs", "crates/css_parse/src/traits/rules/*.rs", "crates/css_parse/src/traits/lists/*.rs", "crates/css_parse/src/traits/style_sheet.rs", "crates/css_parse/src/syntax/*.rs"]}
{"id": "C44", "title": "Parsing loses no token", "statement": "The tokens consumed by successfully parsing a stylesheet, rule, block or declaration are exactly those its to_cursors emits, plus whitespace, comments, semicolons and <!-- -->; a stylesheet that parses has read its whole source. The emitted order is the source order except that a block writes its declarations before its rules. The provided methods of the traits have the same property for every implementor whose own parsers have it.", "quantifier": "all sources, parser positions, nesting depths; all implementors of the traits", "why_tests_cant": "must hold for every tree shape and every recovery path (rewinds, skipped trivia)", "anchors": ["crates/css_parse/src/syntax/*.rs: Parse and ToCursors", "crates/css_parse/src/traits/block.rs", "crates/css_parse/src/traits/rules/*.rs", "crates/css_parse/src/traits/lists/*.rs", "crates/css_parse/src/traits/style_sheet.rs"]}
{"id": "C45", "title": "Word sets, pseudo-classes and pseudo-elements read exactly their words", "statement": "A type made with keyword_set!, function_set! or atkeyword_set! parses a token iff it is of the set's kind and its text, whatever its letter case, is one of the set's words; it then returns the member of that word and consumes exactly that token (with trivia before it); peeking answers exactly whether parsing would succeed. A pseudo_class! type parses ':' and a word with nothing between, a pseudo_element! type '::' and a word with nothing between.", "quantifier": "all word sets without duplicate words, all token kinds with a name, all sources and all parser states with the default skip set", "why_tests_cant": "the sets are macro parameters and the parser states are unbounded; the case-folding relies on flags computed by the lexer for every possible spelling", "anchors": ["crates/css_parse/src/token_macros.rs:keyword_set", "crates/css_parse/src/token_macros.rs:function_set", "crates/css_parse/src/token_macros.rs:atkeyword_set", "crates/css_parse/src/macros/pseudo_class.rs", "crates/css_parse/src/macros/pseudo_element.rs"]}
{"id": "C46", "title": "Boolean, discrete and ranged features read exactly their documented forms", "statement": "A BooleanFeature or DiscreteFeature named n parses exactly '(' n ')' and '(' n ':' value ')', the name in any letter case; a RangedFeature parses exactly the four documented forms (name cmp value; value cmp name; value cmp name cmp value; name ':' value), a min-/max- name only in the last; the result is spelled by exactly the tokens consumed; parsing always returns.", "quantifier": "all feature names, all implementors' name and value parsers, all sources and usual parser states", "why_tests_cant": "the traits are parameterised by the implementor's parsers; tests fix one implementor and a few inputs", "anchors": ["crates/css_parse/src/traits/boolean_feature.rs:BooleanFeature", "crates/css_parse/src/traits/discrete_feature.rs:DiscreteFeature", "crates/css_parse/src/traits/ranged_feature.rs:RangedFeature"]}
{"id": "C47", "title": "Feature condition lists are read as documented", "statement": "FeatureConditionList::parse_condition reads 'not f', a chain f and f and ..., a chain f or f or ..., or a single feature, and nothing else; the result carries every token consumed.", "quantifier": "all implementors' feature parsers (reading non-empty phrases that do not begin with a condition keyword), all sources and usual parser states", "why_tests_cant": "chains are unbounded and the feature parser is arbitrary", "anchors": ["crates/css_parse/src/traits/lists/feature_condition_list.rs:FeatureConditionList::parse_condition"]}
{"id": "C48", "title": "Parsing selectors returns", "statement": "Parsing a selector list, a compound selector or a selector component from any parser a user can hold (default skip set) returns a tree or an error, never panicking or looping, whatever the nesting of :is(), :not(), ::slotted() etc.; when it returns a tree, the parser's state, skip and stop sets are those before.", "quantifier": "all sources without NUL whose lexing does not panic, all parser positions, all nesting depths", "why_tests_cant": "termination and absence of panics over all token sequences; several unwraps and skip-set changes depend on which tokens are visible under two different skip sets", "anchors": ["crates/css_parse/src/traits/selectors.rs:SelectorList::parse_selector_list", "crates/css_parse/src/traits/selectors.rs:CompoundSelector::parse_compound_selector", "crates/css_parse/src/traits/selectors.rs:SelectorComponent::parse_selector_component", "crates/css_ast/src/selector/*.rs"]}
{"id": "C49", "title": "Selector trees are well-formed and lose no token", "statement": "When a selector list, compound or component is parsed, the tokens consumed are exactly those of the tree's cursors, in source order, interleaved only with skipped whitespace and comments; each node is made of the tokens CSS prescribes for it (an id of an identifier-like hash, a class of '.' and an identifier, an attribute of '[' ... ']', a pseudo-class of ':' and a known name next to it, and so on); commas separate the compounds; a list ends before '{', ')' or ';' or at the end of the source.", "quantifier": "all sources, parser positions and selectors, nested to any depth", "why_tests_cant": "infinitely many selectors; the parser re-reads tokens under changing skip sets, which can lose or duplicate tokens for particular trivia placements", "anchors": ["crates/css_parse/src/traits/selectors.rs", "crates/css_ast/src/selector/mod.rs:ToCursors", "crates/css_ast/src/selector/attribute.rs", "crates/css_ast/src/selector/namespace.rs", "crates/css_ast/src/selector/functional_pseudo_class.rs", "crates/css_ast/src/selector/functional_pseudo_element.rs"]}
{"id": "C50", "title": "Type selectors are classified by their name", "statement": "An identifier parsed as a type selector becomes an HTML, SVG, MathML, custom-element, non-conforming, non-standard or unknown tag according to the first of these sets its lower-cased name belongs to; it becomes a custom element iff it is in none of the first three and is a valid custom element name of the HTML standard (a lower-case letter, then PCENChars with a hyphen among them, and not one of the eight reserved names).", "quantifier": "all identifiers and all source positions", "why_tests_cant": "the custom-name test is over all of Unicode and all lengths; the classification is over all names", "anchors": ["crates/css_ast/src/selector/tag.rs"]}
{"id": "C51", "title": "Selectors written as the grammar says are read as the tree they are", "statement": "If the tokens ahead of a parser are a layout of a list of selectors (compounds separated by commas; type, universal, id, class, attribute, pseudo-class, pseudo-element, legacy pseudo-element, namespaced and functional selectors nested to any depth, with whitespace and comments where the grammar allows them inside brackets, functions and lists) followed by '{', ')', ';' or the end, then parsing a selector list succeeds, returns exactly that list, and leaves the parser right after it; so no layout has two readings.", "quantifier": "all selector trees, all their layouts, all sources and parser positions, any nesting depth", "why_tests_cant": "acceptance of infinitely many selectors; each component is chosen by peeking under a different skip set than it is parsed with", "anchors": ["crates/css_parse/src/traits/selectors.rs:SelectorComponent::parse_selector_component", "crates/css_parse/src/traits/selectors.rs:CompoundSelector::parse_compound_selector", "crates/css_parse/src/traits/selectors.rs:SelectorList::parse_selector_list", "crates/css_ast/src/selector/*.rs"]}
{"id": "C52", "title": "Parsing a stylesheet returns", "statement": "Parsing any text as a StyleSheet terminates without a panic, with a result and the parser at a later token boundary (also under parse_entirely, and for one rule from any position, with whatever trivia the parser skips), and every rule that is parsed consumes at least one token.", "quantifier": "all source texts of less than 4 GB, all lexer features, all parser positions, every list of property value parsers that return", "why_tests_cant": "termination of nested loops over unboundedly deep rules, with recovery by rewinding and with a skip set that errors leave changed, on every text", "anchors": ["crates/css_ast/src/stylesheet.rs:StyleSheet", "crates/css_ast/src/stylerule.rs:StyleRule", "crates/css_ast/src/rules/*.rs", "crates/css_ast/src/properties/mod.rs:Property", "crates/css_parse/src/traits/**"]}
{"id": "C53", "title": "A parsed stylesheet loses no token", "statement": "When a text is parsed as a StyleSheet, the tree that comes back writes (ToCursors) exactly the tokens of the text: nothing but whitespace, comments, semicolons and <!-- --> is left out, no token is written twice or made up, and the order is the order of the source unless a block has both declarations and rules. The same holds for one rule parsed from anywhere, at the top level or nested.", "quantifier": "all source texts, all lexer features, all parser positions and trivia skip sets, every list of property value parsers that return the tokens they read", "why_tests_cant": "every combination of nested rules, preludes, selectors, conditions and error recoveries by rewinding; a dropped or duplicated token in any branch of any of them is a corrupted file after formatting or minifying", "anchors": ["crates/css_ast/src/stylesheet.rs:StyleSheet", "crates/css_ast/src/stylerule.rs:StyleRule", "crates/css_ast/src/rules/*.rs", "crates/css_ast/src/selector/**", "crates/css_ast/src/properties/mod.rs", "crates/css_parse/src/traits/**"]}
{"id": "C54", "title": "Every property's value is parsed or refused", "statement": "The values of all 341 properties of hdx are parsed by code that the #[value] macro generates from a value definition. Every definition in the source is accepted by the macro, gives code, and gives a property of its own. Wherever in a stylesheet such a value is parsed, the parser comes back with a value or an error, having only moved forwards: no panic, no endless loop. So parsing a stylesheet with hdx's own properties returns.", "quantifier": "all properties, all source texts (within C52's conditions), all positions and trivia skip sets", "why_tests_cant": "341 generated parsers, each over every token sequence; nested comma lists, `||` groups, gradients and colour functions loop on data, and one todo!() (calc-size) sits behind an alternative", "anchors": ["crates/csskit_proc_macro/src/def.rs:Def::parse,generate_parse_trait_implementation", "crates/csskit_proc_macro/src/value.rs", "crates/css_ast/build.rs", "crates/css_ast/src/values/**", "crates/css_ast/src/types/**", "crates/css_ast/src/units/**", "crates/css_ast/src/properties/mod.rs"]}
{"id": "C55", "title": "A parsed property value writes back the tokens it was read from", "statement": "For each of hdx's 341 properties: when its value is accepted, what is written for it is the tokens that were read, but for whitespace and comments, and (31 properties with || or && aside) in the order in which they were read. No token is lost, and none is made up, except in two properties with gradients. A stylesheet with hdx's own properties is therefore written back with its tokens, as C53 says of any faithful table of values.", "quantifier": "all properties, all token sequences, all positions and trivia skip sets; all stylesheets", "why_tests_cant": "341 generated parsers, each over every token sequence: a part that is parsed but not written, or written twice, shows up only for the inputs that reach it", "anchors": ["crates/csskit_proc_macro/src/def.rs:generate_parse_trait_implementation,generate_tocursors_trait_implementation", "crates/css_ast/src/values/**", "crates/css_ast/src/types/**", "crates/css_ast/src/stylesheet.rs:ToCursors"]}
{"id": "C56", "title": "A property accepts only values of its definition", "statement": "For each of hdx's 341 properties: what its parser accepts, whitespace and comments aside, is a value of the definition written in the source, with the meaning the CSS value definition syntax gives it: keywords in any case, juxtaposition, ||, |, ?, +, #, {a,b}, functions, the numeric ranges, and the named types. The definition is read with the precedences of CSS. A declaration in a stylesheet gets a value of its property only for such tokens; all others become unknown values.", "quantifier": "all 341 properties, all token sequences, all positions and trivia skip sets", "why_tests_cant": "each property accepts infinitely many token sequences; a part taken twice, a count or a bound off by one, a keyword outside the list show up only for particular inputs of particular properties", "anchors": ["crates/csskit_proc_macro/src/def.rs:Def,generate_parse_trait_implementation,generate_additional_impl", "crates/css_ast/src/values/**", "crates/css_ast/src/types/**", "crates/css_ast/src/properties/mod.rs:StyleValue::parse_declaration_value"]}
{"id": "C57", "title": "A property accepts the values of its definition", "statement": "If the tokens after the colon of a declaration, whitespace and comments aside, are a value of the definition of the property, then the parser of the property accepts them, goes over exactly these tokens and the declaration gets a value of its property, not unknown tokens; together with C56 a property accepts exactly the values of its definition.", "quantifier": "all 341 properties (36 left out, listed in UNREACHED), all texts, all positions of the parser in them, all values of the definition without functions and escapes, with any whitespace and comments before and between the tokens, and every end (the text's, a semicolon, a brace or a !)", "why_tests_cant": "The values of a definition are unboundedly many (numbers, lists with commas, names, spacing, case): a test tries some of them for some of the properties.", "anchors": ["crates/css_value_definition_parser (def.rs: Parse/Peek generation)", "crates/css_ast/src/values/*/mod.rs", "crates/css_ast/src/properties/mod.rs: StyleValue::parse_declaration_value"]}
{"id": "C58", "title": "Minifying keeps the tokens of a stylesheet", "statement": "The text that minify returns, read again, has the tokens of the stylesheet: apart from whitespace, comments, semicolons and <!-- --> none is lost, made up or changed, and they stand in their order (declarations come before nested rules where a block mixes them); names, strings, URLs, delimiters and unknown dimensions are spelled as they were, numbers and dimensions keep value, unit and sign. Spaces are added only where the separator rule asks for one. build writes what minify returns, and both come back and refuse exactly the texts without a tree.", "quantifier": "all texts (valid UTF-8 below 4 GiB, no NUL, no backslash, within the lexer's documented limits) that minify accepts and whose tree has none of the listed damages (values of C55 that lose a token, an unclosed last token, infinite numbers, + before a known dimension, svmin/svmax, and the neighbours that C23 lists)", "why_tests_cant": "Whether two neighbours merge depends on every pair of token kinds, spellings and on the values the tree reorders; the sheets are unboundedly long.", "anchors": ["crates/csskit_wasm/src/lib.rs: minify", "crates/csskit/src/main.rs: Build", "crates/css_parse/src/parser_return.rs", "crates/css_parse/src/cursor_fmt_sink.rs", "crates/css_lexer/src/cursor.rs: write_str", "crates/css_ast/src/stylesheet.rs"]}
{"id": "C59", "title": "Syntax highlighting shows what the stylesheet says", "statement": "The highlights of a document are exactly those of its marks: each tag, pseudo-class, declaration name, registered property name, colon and brace of the rules that the highlighter visits is shown once, under its own span, with its kind and modifiers (unknown, deprecated, experimental, custom), and nothing else is shown. Every mark is true of the text (an identifier of that class of tags, a colon with the known name directly after it, a brace or colon) and covers whole tokens; no two marks overlap and none displaces another. The highlighter panics exactly when it visits an @media or @-webkit-keyframes rule. Otherwise the language server sends every mark once, in document order, with deltas that decode to the line and column of its start.", "quantifier": "all texts (below 4 GiB, within the lexer's documented limits) that have a tree, with rules nested to any depth", "why_tests_cant": "Rules nest without bound and the spans are keys of a map: whether two highlights collide depends on every pair of nodes of the tree.", "anchors": ["crates/csskit_highlight/src/css.rs", "crates/csskit_highlight/src/lib.rs", "crates/css_ast/src/visit/mod.rs", "crates/css_ast/src/stylerule.rs: accept", "crates/css_ast/src/selector/mod.rs: accept", "crates/css_ast/src/rules/: accept", "crates/csskit_lsp/src/service.rs: semantic_tokens_full_request"]}
{"id": "C60", "title": "A declaration is a name, a colon, a value of its property and perhaps !important", "statement": "A parsed declaration is, whitespace and comments aside, an identifier, a colon, the tokens of its value and possibly `! important` (any case), and these are exactly the tokens taken. The value is custom exactly for custom properties; a CSS-wide keyword is that keyword; a value of the property is one by the property's published grammar and is followed by the end, `;`, `}` or `!`; a computed value has a computed function. The first token decides a CSS-wide keyword or a computed function. A value of any tokens has balanced brackets, no `;` outside them, and stops only at the end, `;`, `}` or a token that no value can hold. `!important` after another value is always found. The parser is left in the modes that it had, also after an error.", "quantifier": "all token sequences, for every one of the 341 properties of the table, from every parser state that skips whitespace and comments", "why_tests_cant": "Every property has its own grammar with tokens in any number and order; the parser tries the grammar, rewinds and falls back, so a correct answer depends on all the paths of all the grammars.", "anchors": ["crates/css_ast/src/properties/mod.rs: Property, StyleValue", "crates/css_parse/src/traits/declaration.rs: Declaration", "crates/css_parse/src/syntax/bang_important.rs", "crates/css_ast/src/values/"]}
{"id": "C61", "title": "Every node of the tree of a stylesheet is what CSS has for a node of its kind", "statement": "Every rule that parsing returns, at every depth, is made as its kind demands: @charset has whitespace and a string; @media at least one query, each a media type (no reserved word) with `only`/`not` and `and`, or a condition over features of the media table with values of the feature's type; @container names that are not reserved and conditions over container features; @supports a declaration or selector(); @layer one name for a block and dotted names; @keyframes a name that is not reserved and frames with `from`, `to` or percentages from 0 to 100; @page selectors with page pseudo-classes, margin rules with names of the table; @font-face only its descriptors; @property a dashed name and its descriptors; @document matchers; style rules a selector list that is one by the grammar. Every declaration in them is one in the sense of C60, that is, its value is one of its property. Blocks open with `{` and close with `}` or the end of the text. What is none of these is component values.", "quantifier": "all token sequences, all rule kinds and all depths of nesting, from every parser state that skips whitespace and comments", "why_tests_cant": "Rules nest without bound, and each of the rule kinds, preludes, features, selectors and property values is tried, rewound and tried as something else; a wrong node can come from any combination.", "anchors": ["crates/css_ast/src/stylesheet.rs: Rule", "crates/css_ast/src/rules/", "crates/css_ast/src/stylerule.rs: StyleRule, NestedGroupRule", "crates/css_ast/src/selector/", "crates/css_parse/src/traits/"]}
{"id": "C62", "title": "A stylesheet written as CSS says is read rule for rule", "statement": "If the tokens of a text within the lexer's limits are a stylesheet as CSS writes it, made of rules whose preludes, selectors, declarations and blocks are laid out by the grammar with whitespace and comments wherever CSS allows them, then parsing succeeds and returns exactly those rules, in that order and nesting, with exactly those tokens in their places: none is dropped, merged, read as another kind, or taken for a declaration. In particular the same tokens are never written for two different lists of rules.", "quantifier": "all texts within the lexer's limits whose comments are closed, and all lists of rules, of any length and depth, whose tokens those are", "why_tests_cant": "A rule is read right only if every alternative tried before it gives up and every parser before it stops at the right token, in each context, at each depth, with every layout; tests fix one layout.", "anchors": ["crates/css_ast/src/stylesheet.rs: StyleSheet, Rule", "crates/css_ast/src/rules/", "crates/css_ast/src/stylerule.rs", "crates/css_parse/src/traits/: StyleSheet, QualifiedRule, AtRule, Block, DeclarationList, RuleList, Declaration"]}
{"id": "C63", "title": "Page selectors are read as written and compared as CSS Paged Media says", "statement": "A list of page selectors (a page name, pseudo-classes :left, :right, :first and :blank, or both, separated by commas, with whitespace and comments around the commas and at the ends) before a block or a semicolon parses to exactly those selectors, and parsing stops right after the last one. The specificity reported for a page selector is the triple of CSS Paged Media: whether it names a page, the number of :first and :blank, the number of :left and :right; and ordering two specificities orders the selectors: smaller exactly when less specific, equal exactly when equally specific.", "quantifier": "all lists of page selectors of any length, each with any number of pseudo-classes, at any place of any source; all pairs of page selectors", "why_tests_cant": "A test compares two selectors; the order must be right for all pairs, and the loop over pseudo-classes and commas must stop at the right token for every length.", "anchors": ["crates/css_ast/src/rules/page.rs: PageSelectorList, PageSelector, PagePseudoClass", "crates/css_ast/src/specificity.rs: Specificity, ToSpecificity", "crates/css_parse/src/traits/lists/comma_separated_prelude_list.rs"]}
