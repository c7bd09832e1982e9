(* css_lexer/src/token.rs, kind.rs, kindset.rs, comment_style.rs, whitespace_style.rs, quote_style.rs, pairwise.rs.
   A Token is modelled bit-exactly as its two u32 words. debug_assert!s are not modelled. f32 values are modelled by
   their bit patterns ([f32::to_bits]/[from_bits] are the identity). *)
From Verif Require Export Chars Units.

(* kind.rs:6-240 (enum Kind) *)
Inductive kind : Set :=
  | K_Eof | K_Whitespace | K_Comment | K_CdcOrCdo | K_Number | K_Dimension | K_BadString | K_BadUrl
  | K_Ident | K_Function | K_AtKeyword | K_Hash | K_String | K_Url
  | K_Delim | K_Colon | K_Semicolon | K_Comma | K_LeftSquare | K_RightSquare | K_LeftParen | K_RightParen
  | K_LeftCurly | K_RightCurly.

Definition all_kinds : list kind :=
  [K_Eof; K_Whitespace; K_Comment; K_CdcOrCdo; K_Number; K_Dimension; K_BadString; K_BadUrl;
   K_Ident; K_Function; K_AtKeyword; K_Hash; K_String; K_Url;
   K_Delim; K_Colon; K_Semicolon; K_Comma; K_LeftSquare; K_RightSquare; K_LeftParen; K_RightParen;
   K_LeftCurly; K_RightCurly].

(* [kind as u8], discriminants in kind.rs *)
Definition kind_code (k : kind) : N :=
  match k with
  | K_Eof => 0 | K_Whitespace => 1 | K_Comment => 2 | K_CdcOrCdo => 3
  | K_Number => 4 | K_Dimension => 5 | K_BadString => 6 | K_BadUrl => 7
  | K_Ident => 8 | K_Function => 9 | K_AtKeyword => 10 | K_Hash => 11
  | K_String => 12 | K_Url => 13
  | K_Delim => 16 | K_Colon => 17 | K_Semicolon => 18 | K_Comma => 19
  | K_LeftSquare => 20 | K_RightSquare => 21 | K_LeftParen => 22 | K_RightParen => 23
  | K_LeftCurly => 24 | K_RightCurly => 25
  end.

(* kind.rs: Kind::from_bits *)
Definition kind_from_bits (b : N) : kind :=
  match b with
  | 1 => K_Whitespace | 2 => K_Comment | 3 => K_CdcOrCdo | 4 => K_Number | 5 => K_Dimension
  | 6 => K_BadString | 7 => K_BadUrl | 8 => K_Ident | 9 => K_Function | 10 => K_AtKeyword | 11 => K_Hash
  | 12 => K_String | 13 => K_Url | 16 => K_Delim | 17 => K_Colon | 18 => K_Semicolon | 19 => K_Comma
  | 20 => K_LeftSquare | 21 => K_RightSquare | 22 => K_LeftParen | 23 => K_RightParen
  | 24 => K_LeftCurly | 25 => K_RightCurly
  | _ => K_Eof
  end.

(* derived PartialEq on Kind *)
Definition kind_eqb (a b : kind) : bool := kind_code a =? kind_code b.

(* kindset.rs: struct KindSet(u32) *)
Notation kindset := N (only parsing).
(* kindset.rs:58-67 (KindSet::new) *)
Definition kindset_new (ks : list kind) : kindset :=
  fold_left (fun u k => N.lor u (N.shiftl 1 (kind_code k mod 32))) ks 0.
(* kindset.rs:72-74 *)
Definition kindset_add (s : kindset) (k : kind) : kindset := N.lor s (N.shiftl 1 (kind_code k mod 32)).
(* kindset.rs:77-79 *)
Definition kindset_contains (s : kindset) (k : kind) : bool :=
  negb (N.land s (N.shiftl 1 (kind_code k mod 32)) =? 0).
(* kindset.rs:81-83 *)
Definition kindset_contains_bits (s : kindset) (b : N) : bool :=
  negb (N.land s (N.shiftl 1 (b mod 32)) =? 0).
(* kindset.rs:19-53 *)
Definition KS_NONE : kindset := kindset_new [].
Definition KS_TRIVIA : kindset := kindset_new [K_Whitespace; K_Comment].
Definition KS_WHITESPACE : kindset := kindset_new [K_Whitespace].
Definition KS_COMMENTS : kindset := kindset_new [K_Comment].
Definition KS_RIGHT_CURLY_OR_SEMICOLON : kindset := kindset_new [K_RightCurly; K_Semicolon].
Definition KS_LEFT_CURLY_OR_SEMICOLON : kindset := kindset_new [K_LeftCurly; K_Semicolon].
Definition KS_LEFT_CURLY_RIGHT_PAREN_OR_SEMICOLON : kindset := kindset_new [K_LeftCurly; K_RightParen; K_Semicolon].
Definition KS_LEFT_CURLY_RIGHT_PAREN_COMMA_OR_SEMICOLON : kindset :=
  kindset_new [K_LeftCurly; K_RightParen; K_Comma; K_Semicolon].
Definition KS_ANY : kindset := 4294967295.

(* comment_style.rs:35-66 *)
Inductive comment_style : Set :=
  | CS_Block | CS_BlockStar | CS_BlockBang | CS_BlockPound | CS_BlockHeading | CS_Single | CS_SingleStar | CS_SingleBang.
Definition comment_code (s : comment_style) : N :=
  match s with CS_Block => 0 | CS_BlockStar => 1 | CS_BlockBang => 2 | CS_BlockPound => 3 | CS_BlockHeading => 4
             | CS_Single => 5 | CS_SingleStar => 6 | CS_SingleBang => 7 end.
(* comment_style.rs:84-96 *)
Definition comment_from_bits (b : N) : option comment_style :=
  match b with 0 => Some CS_Block | 1 => Some CS_BlockStar | 2 => Some CS_BlockBang | 3 => Some CS_BlockPound
             | 4 => Some CS_BlockHeading | 5 => Some CS_Single | 6 => Some CS_SingleStar | 7 => Some CS_SingleBang
             | _ => None end.
(* comment_style.rs:69-72 *)
Definition comment_is_block (s : comment_style) : bool :=
  match s with CS_Block | CS_BlockStar | CS_BlockBang | CS_BlockPound | CS_BlockHeading => true | _ => false end.

(* whitespace_style.rs: bitmask_enum over u8 *)
Notation whitespace := N (only parsing).
Definition WS_none : whitespace := 0.
Definition WS_Space : whitespace := 1.
Definition WS_Tab : whitespace := 2.
Definition WS_Newline : whitespace := 4.
(* whitespace_style.rs:36-38 *)
Definition whitespace_from_bits (b : N) : whitespace := N.land b 7.

(* quote_style.rs:27-40 *)
Inductive quote_style : Set := QS_None | QS_Single | QS_Double.

(* token.rs:226 (struct Token(u32, u32)) *)
Record token : Set := Tok { w0 : N; w1 : N }.
Definition token_eqb (a b : token) : bool := (w0 a =? w0 b) && (w1 a =? w1 b).

(* token.rs:234-236 *)
Definition u32_mask : N := 4294967295.
Definition KIND_MASK : N := 4278190080.        (* !((1 << 24) - 1) *)
Definition LENGTH_MASK : N := 16777215.        (* (1 << 24) - 1 *)
Definition HALF_LENGTH_MASK : N := 4294963200. (* !((1 << 12) - 1) *)

(* u32 shift-left: bits above 31 are lost *)
Definition shl32 (x n : N) : N := N.land (N.shiftl x n) u32_mask.
Definition b2n (b : bool) : N := if b then 1 else 0.

(* token.rs:228-232 *)
Definition T_default : token := Tok (shl32 (kind_code K_Whitespace) 24) 0.
(* token.rs:240 *)
Definition T_EOF : token := Tok 0 0.
(* token.rs:243 *)
Definition T_CDO : token := Tok (N.land (shl32 (kind_code K_CdcOrCdo) 24) KIND_MASK) 4.
(* token.rs:246 *)
Definition T_CDC : token := Tok (N.land (shl32 (N.lor (kind_code K_CdcOrCdo) 32) 24) KIND_MASK) 3.
(* token.rs:259 *)
Definition T_NUMBER_ZERO : token := Tok (N.land (shl32 (N.lor (kind_code K_Number) 128) 24) KIND_MASK) 1.
(* shared shape of token.rs:262-349 *)
Definition const_char (k : kind) (c : char) : token :=
  Tok (N.land (shl32 (N.lor (kind_code k) 32) 24) KIND_MASK) c.
Definition T_COLON : token := const_char K_Colon 58. (* token.rs:262 : *)
Definition T_SEMICOLON : token := const_char K_Semicolon 59. (* token.rs:265 ; *)
Definition T_COMMA : token := const_char K_Comma 44. (* token.rs:268 , *)
Definition T_LEFT_SQUARE : token := const_char K_LeftSquare 91. (* token.rs:271 [ *)
Definition T_RIGHT_SQUARE : token := const_char K_RightSquare 93. (* token.rs:274 ] *)
Definition T_LEFT_PAREN : token := const_char K_LeftParen 40. (* token.rs:277  *)
Definition T_RIGHT_PAREN : token := const_char K_RightParen 41. (* token.rs:280 ) *)
Definition T_LEFT_CURLY : token := const_char K_LeftCurly 123. (* token.rs:283 { *)
Definition T_RIGHT_CURLY : token := const_char K_RightCurly 125. (* token.rs:286 } *)
Definition T_BANG : token := const_char K_Delim 33. (* token.rs:289 ! *)
Definition T_HASH : token := const_char K_Delim 35. (* token.rs:292 # *)
Definition T_DOLLAR : token := const_char K_Delim 36. (* token.rs:295 $ *)
Definition T_PERCENT : token := const_char K_Delim 37. (* token.rs:298 % *)
Definition T_AMPERSAND : token := const_char K_Delim 38. (* token.rs:301 & *)
Definition T_ASTERISK : token := const_char K_Delim 42. (* token.rs:304  *)
Definition T_PLUS : token := const_char K_Delim 43. (* token.rs:307 + *)
Definition T_DASH : token := const_char K_Delim 45. (* token.rs:310 - *)
Definition T_PERIOD : token := const_char K_Delim 46. (* token.rs:313 . *)
Definition T_SLASH : token := const_char K_Delim 47. (* token.rs:316 / *)
Definition T_LESS_THAN : token := const_char K_Delim 60. (* token.rs:319 < *)
Definition T_EQUALS : token := const_char K_Delim 61. (* token.rs:322 = *)
Definition T_GREATER_THAN : token := const_char K_Delim 62. (* token.rs:325 > *)
Definition T_QUESTION : token := const_char K_Delim 63. (* token.rs:328 ? *)
Definition T_AT : token := const_char K_Delim 64. (* token.rs:331 @ *)
Definition T_BACKSLASH : token := const_char K_Delim 92. (* token.rs:334 \ *)
Definition T_CARET : token := const_char K_Delim 94. (* token.rs:337 ^ *)
Definition T_UNDERSCORE : token := const_char K_Delim 95. (* token.rs:340 _ *)
Definition T_BACKTICK : token := const_char K_Delim 96. (* token.rs:343 ` *)
Definition T_PIPE : token := const_char K_Delim 124. (* token.rs:346 | *)
Definition T_TILDE : token := const_char K_Delim 126. (* token.rs:349 ~ *)

(* token.rs:353-355 *)
Definition dummy (k : kind) : token := Tok (shl32 (kind_code k) 24) 0.

(* token.rs:365-368 *)
Definition new_whitespace (style : whitespace) (len : N) : token :=
  let flags := N.lor (kind_code K_Whitespace) (shl32 style 5) in
  Tok (N.land (shl32 flags 24) KIND_MASK) len.
(* token.rs:372-375 *)
Definition new_comment (style : comment_style) (len : N) : token :=
  let flags := N.lor (kind_code K_Comment) (shl32 (comment_code style) 5) in
  Tok (N.land (shl32 flags 24) KIND_MASK) len.
(* token.rs:379-382 *)
Definition new_number (is_float has_sign : bool) (len value : N) : token :=
  let flags := N.lor (N.lor (kind_code K_Number) (shl32 (b2n is_float) 5)) (shl32 (b2n has_sign) 6) in
  Tok (N.lor (N.land (shl32 flags 24) KIND_MASK) (N.land len LENGTH_MASK)) value.
(* token.rs:386-400 *)
Definition new_dimension (is_float has_sign : bool) (num_len unit_len value : N) (unit : unit_t) : token :=
  let num_len := N.land (shl32 num_len 12) HALF_LENGTH_MASK in
  let is_known_unit := if unit_eqb unit U_Unknown then 0 else 128 in
  let known_or_len := if unit_eqb unit U_Unknown then unit_len else unit_code unit in
  let flags := N.lor (N.lor (N.lor (kind_code K_Dimension) is_known_unit) (shl32 (b2n is_float) 5))
                     (shl32 (b2n has_sign) 6) in
  Tok (N.lor (N.land (shl32 flags 24) KIND_MASK) (N.land (N.lor num_len known_or_len) LENGTH_MASK)) value.
(* token.rs:405-407 *)
Definition new_bad_string (len : N) : token := Tok (N.land (shl32 (kind_code K_BadString) 24) KIND_MASK) len.
(* token.rs:412-414 *)
Definition new_bad_url (len : N) : token := Tok (N.land (shl32 (kind_code K_BadUrl) 24) KIND_MASK) len.
(* shared shape of token.rs:418-459: three flags at bits 5, 6, 7 *)
Definition flags3 (k : kind) (f5 f6 f7 : bool) : N :=
  N.lor (N.lor (N.lor (kind_code k) (shl32 (b2n f5) 5)) (shl32 (b2n f6) 6)) (shl32 (b2n f7) 7).
(* token.rs:418-424 *)
Definition new_ident (contains_non_lower_ascii dashed contains_escape : bool) (len : N) : token :=
  Tok (N.land (shl32 (flags3 K_Ident contains_non_lower_ascii dashed contains_escape) 24) KIND_MASK) len.
(* token.rs:428-434 *)
Definition new_function (contains_non_lower_ascii dashed contains_escape : bool) (len : N) : token :=
  Tok (N.land (shl32 (flags3 K_Function contains_non_lower_ascii dashed contains_escape) 24) KIND_MASK) len.
(* token.rs:438-444 *)
Definition new_atkeyword (contains_non_lower_ascii dashed contains_escape : bool) (len : N) : token :=
  Tok (N.land (shl32 (flags3 K_AtKeyword contains_non_lower_ascii dashed contains_escape) 24) KIND_MASK) len.
(* token.rs:448-459 *)
Definition new_hash (contains_non_lower_ascii first_is_ascii contains_escape : bool) (len : N) : token :=
  Tok (N.land (shl32 (flags3 K_Hash contains_non_lower_ascii first_is_ascii contains_escape) 24) KIND_MASK) len.
(* token.rs:463-469 *)
Definition new_string (quotes : quote_style) (has_close_quote contains_escape : bool) (len : N) : token :=
  let q := match quotes with QS_Double => true | _ => false end in
  Tok (N.land (shl32 (flags3 K_String q has_close_quote contains_escape) 24) KIND_MASK) len.
(* token.rs:473-487 *)
Definition new_url (ends_with_paren ws_after_open contains_escape : bool) (leading trailing len : N) : token :=
  let leading := N.land (shl32 leading 12) HALF_LENGTH_MASK in
  Tok (N.lor (N.land (shl32 (flags3 K_Url ends_with_paren ws_after_open contains_escape) 24) KIND_MASK)
             (N.land (N.lor leading trailing) LENGTH_MASK)) len.
(* token.rs:491-496 *)
Definition new_delim (c : char) : token :=
  let len := len_utf8 c in
  let flags := N.lor (kind_code K_Delim) (shl32 len 5) in
  Tok (N.lor (N.land (shl32 flags 24) KIND_MASK) (N.land len LENGTH_MASK)) c.

(* token.rs:500-502 *)
Definition kind_bits (t : token) : N := N.land (N.shiftr (w0 t) 24) 31.
(* token.rs:506-508 *)
Definition tkind (t : token) : kind := kind_from_bits (kind_bits t).
(* token.rs:512-514 *)
Definition first_bit (t : token) : bool := N.shiftr (w0 t) 31 =? 1.
(* token.rs:518-520 *)
Definition second_bit (t : token) : bool := N.land (N.shiftr (w0 t) 30) 1 =? 1.
(* token.rs:524-526 *)
Definition third_bit (t : token) : bool := N.land (N.shiftr (w0 t) 29) 1 =? 1.
(* token.rs:530-532 *)
Definition is_ident_like (t : token) : bool :=
  (N.land (kind_bits t) 24 =? 8) && negb (kind_bits t =? kind_code K_String).
(* token.rs:538-540 *)
Definition is_delim_like (t : token) : bool := N.land (kind_bits t) 16 =? 16.
(* token.rs:544-546 *)
Definition token_is_empty (t : token) : bool := kind_bits t =? kind_code K_Eof.
(* token.rs:671-678 *)
Definition dimension_unit (t : token) : unit_t :=
  if negb (first_bit t) || negb (kind_bits t =? kind_code K_Dimension) then U_Unknown
  else unit_of_u8 (N.land (N.land (w0 t) 4095) 255).
(* token.rs:620-629 *)
Definition numeric_len (t : token) : N :=
  if kind_bits t =? kind_code K_Dimension then N.shiftr (N.land (w0 t) LENGTH_MASK) 12
  else if first_bit t then N.shiftr (N.land (w0 t) LENGTH_MASK) 16
  else N.land (w0 t) LENGTH_MASK.
(* token.rs:550-580 *)
Definition tlen (t : token) : N :=
  if kind_bits t =? kind_code K_Eof then 0
  else if is_delim_like t then N.shiftr (w0 t) 29
  else if kind_bits t =? kind_code K_Number then numeric_len t
  else if kind_bits t =? kind_code K_Dimension then
    if first_bit t then numeric_len t + unit_len (dimension_unit t)
    else N.shiftr (N.land (w0 t) LENGTH_MASK) 12 + N.land (w0 t) 4095 (* !HALF_LENGTH_MASK *)
  else w1 t.
(* token.rs:586-591 *)
Definition tchar (t : token) : option char :=
  if is_delim_like t then (if valid_char (w1 t) then Some (w1 t) else None) else None.
(* token.rs:595-612 *)
Definition is_numeric_kind (t : token) : bool := N.land (kind_bits t) 28 =? 4.
Definition is_int (t : token) : bool := is_numeric_kind t && negb (third_bit t).
Definition is_float (t : token) : bool := is_numeric_kind t && third_bit t.
Definition has_sign (t : token) : bool := is_numeric_kind t && second_bit t.
(* token.rs:636-639: the f32's bits *)
Definition tvalue (t : token) : N := w1 t.
(* token.rs:645-651 *)
Definition whitespace_style (t : token) : whitespace :=
  if kind_bits t =? kind_code K_Whitespace then whitespace_from_bits (N.shiftr (w0 t) 29) else WS_none.
(* token.rs:657-663 *)
Definition comment_style_of (t : token) : option comment_style :=
  if kind_bits t =? kind_code K_Comment then comment_from_bits (N.shiftr (w0 t) 29) else None.
(* token.rs:684-693 *)
Definition tquote_style (t : token) : quote_style :=
  if kind_bits t =? kind_code K_String then
    if third_bit t then QS_Double else if second_bit t then QS_Single else QS_None
  else QS_None.
(* token.rs:701-704 *)
Definition has_close_quote (t : token) : bool := second_bit t.
(* token.rs:708-710 *)
Definition can_escape (t : token) : bool :=
  (kind_bits t =? kind_code K_String) || (kind_bits t =? kind_code K_Dimension) || is_ident_like t.
(* token.rs:716-721 *)
Definition contains_escape_chars (t : token) : bool :=
  if kind_bits t =? kind_code K_Dimension then negb (first_bit t) else can_escape t && first_bit t.
(* token.rs:727-730 *)
Definition is_dashed_ident (t : token) : bool := second_bit t.
(* token.rs:734-736 *)
Definition is_lower_case (t : token) : bool := is_ident_like t && negb (third_bit t).
(* token.rs:740-742 *)
Definition is_trivia (t : token) : bool := N.land (kind_bits t) 3 =? kind_bits t.
(* token.rs:748-751 *)
Definition url_has_leading_space (t : token) : bool := second_bit t.
(* token.rs:757-760 *)
Definition url_has_closing_paren (t : token) : bool := third_bit t.
(* token.rs:766-769 *)
Definition hash_is_id_like (t : token) : bool := second_bit t.
(* token.rs:773-775 *)
Definition is_bad (t : token) : bool := N.land (N.lor (kind_bits t) 1) 25 =? 1.
(* token.rs:779-781 *)
Definition is_cdc (t : token) : bool := (kind_bits t =? kind_code K_CdcOrCdo) && third_bit t.
(* token.rs:794-802 *)
Definition leading_len (t : token) : N :=
  match tkind t with
  | K_AtKeyword | K_Hash | K_String => 1
  | K_Dimension => numeric_len t
  | K_Comment => 2
  | K_Url => N.shiftr (N.land (w0 t) LENGTH_MASK) 12
  | _ => 0
  end.
(* token.rs:813-821. [comment_style().unwrap()] cannot fail on a Comment: the 3-bit style always decodes. *)
Definition trailing_len (t : token) : N :=
  match tkind t with
  | K_Function => 1
  | K_String => b2n (has_close_quote t)
  | K_Comment => match comment_style_of t with Some s => if comment_is_block s then 2 else 0 | None => 0 end
  | K_Url => N.land (w0 t) 4095 (* !HALF_LENGTH_MASK *)
  | _ => 0
  end.

(* token.rs:1006-1010: Token == Kind *)
Definition tok_is (t : token) (k : kind) : bool := kind_bits t =? kind_code k.
(* token.rs:1018-1022: Token == KindSet *)
Definition tok_in (t : token) (s : kindset) : bool := kindset_contains_bits s (kind_bits t).
(* token.rs:1060-1064: Token == char *)
Definition tok_is_char (t : token) (c : char) : bool :=
  match tchar t with Some d => d =? c | None => false end.

(* f32 comparison [value < 0.0] on bit patterns: sign bit set, not zero, not NaN. *)
Definition f32_lt_zero (bits : N) : bool :=
  N.testbit bits 31 && negb (N.land bits 2147483647 =? 0) && (N.land bits 2147483647 <=? 2139095040).

(* [matches!(second.char(), Some(c))] *)
Definition char_is (t : token) (c : char) : bool := tok_is_char t c.

Definition kind_in (k : kind) (ks : list kind) : bool := existsb (kind_eqb k) ks.

(* token.rs:877-927 *)
Definition needs_separator_for (first second : token) : bool :=
  let k2 := tkind second in
  let unsigned_or_neg := negb (has_sign second) || f32_lt_zero (tvalue second) in
  match tkind first with
  | K_Ident =>
      (kind_in k2 [K_Number; K_Dimension] && unsigned_or_neg)
      || kind_in k2 [K_Ident; K_Function; K_Url; K_BadUrl]
      || char_is second 40
      || is_cdc second
  | K_AtKeyword | K_Hash | K_Dimension =>
      (kind_in k2 [K_Number; K_Dimension] && unsigned_or_neg)
      || kind_in k2 [K_Ident; K_Function; K_Url; K_BadUrl]
      || is_cdc second
  | K_Number =>
      kind_in k2 [K_Ident; K_Function; K_Url; K_BadUrl; K_Number; K_Dimension]
      || char_is second 37 || is_cdc second
  | _ =>
      match tchar first with
      | Some 35 (* # *) =>
          kind_in k2 [K_Ident; K_Function; K_Url; K_BadUrl; K_Number; K_Dimension]
          || char_is second 45 || is_cdc second
      | Some 45 (* - *) =>
          kind_in k2 [K_Ident; K_Function; K_Url; K_BadUrl; K_Number; K_Dimension]
          || char_is second 45 || is_cdc second
      | Some 64 (* @ *) =>
          kind_in k2 [K_Ident; K_Function; K_Url; K_BadUrl] || char_is second 45 || is_cdc second
      | Some 46 (* . *) => kind_in k2 [K_Number; K_Dimension]
      | Some 43 (* + *) => kind_in k2 [K_Number; K_Dimension]
      | Some 47 (* / *) => char_is second 42 || char_is second 47
      | _ => false
      end
  end.

(* pairwise.rs:36-40 *)
Inductive pairwise : Set := PW_Paren | PW_Curly | PW_Square.
(* pairwise.rs:43-53, token.rs:831-833 *)
Definition to_pairwise (t : token) : option pairwise :=
  match tkind t with
  | K_LeftParen | K_Function => Some PW_Paren
  | K_LeftCurly => Some PW_Curly
  | K_LeftSquare => Some PW_Square
  | K_RightParen => Some PW_Paren
  | K_RightCurly => Some PW_Curly
  | K_RightSquare => Some PW_Square
  | _ => None
  end.
(* pairwise.rs:55-61 *)
Definition pair_start (p : pairwise) : token :=
  match p with PW_Paren => T_LEFT_PAREN | PW_Curly => T_LEFT_CURLY | PW_Square => T_LEFT_SQUARE end.
(* pairwise.rs:63-69 *)
Definition pair_end (p : pairwise) : token :=
  match p with PW_Paren => T_RIGHT_PAREN | PW_Curly => T_RIGHT_CURLY | PW_Square => T_RIGHT_SQUARE end.

(* css_lexer/src/constants.rs:4-133, transcribed entry by entry. *)
Definition SINGLE_CHAR_TOKENS : list token := [
  T_EOF; T_EOF; T_EOF; T_EOF; T_EOF; T_EOF; T_EOF; T_EOF;
  T_EOF; T_EOF; T_EOF; T_EOF; T_EOF; T_EOF; T_EOF; T_EOF;
  T_EOF; T_EOF; T_EOF; T_EOF; T_EOF; T_EOF; T_EOF; T_EOF;
  T_EOF; T_EOF; T_EOF; T_EOF; T_EOF; T_EOF; T_EOF; T_EOF;
  T_EOF; T_BANG; T_EOF; T_EOF; T_DOLLAR; T_PERCENT; T_AMPERSAND; T_EOF;
  T_LEFT_PAREN; T_RIGHT_PAREN; T_ASTERISK; T_EOF; T_COMMA; T_EOF; T_EOF; T_EOF;
  T_EOF; T_EOF; T_EOF; T_EOF; T_EOF; T_EOF; T_EOF; T_EOF;
  T_EOF; T_EOF; T_COLON; T_SEMICOLON; T_EOF; T_EQUALS; T_GREATER_THAN; T_QUESTION;
  T_EOF; T_EOF; T_EOF; T_EOF; T_EOF; T_EOF; T_EOF; T_EOF;
  T_EOF; T_EOF; T_EOF; T_EOF; T_EOF; T_EOF; T_EOF; T_EOF;
  T_EOF; T_EOF; T_EOF; T_EOF; T_EOF; T_EOF; T_EOF; T_EOF;
  T_EOF; T_EOF; T_EOF; T_LEFT_SQUARE; T_EOF; T_RIGHT_SQUARE; T_CARET; T_EOF;
  T_BACKTICK; T_EOF; T_EOF; T_EOF; T_EOF; T_EOF; T_EOF; T_EOF;
  T_EOF; T_EOF; T_EOF; T_EOF; T_EOF; T_EOF; T_EOF; T_EOF;
  T_EOF; T_EOF; T_EOF; T_EOF; T_EOF; T_EOF; T_EOF; T_EOF;
  T_EOF; T_EOF; T_EOF; T_LEFT_CURLY; T_PIPE; T_RIGHT_CURLY; T_TILDE; T_EOF].
