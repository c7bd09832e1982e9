(* Characters and UTF-8 text.
   A Rust [char] is modelled by its scalar value (N); a [&str] by the list of its chars. Byte offsets are recovered
   from the UTF-8 length of each char, so slicing at a byte offset is an explicit partial function. *)
From Coq Require Export NArith ZArith List Bool Lia.
Export ListNotations.
Open Scope N_scope.

Notation char := N (only parsing).
Notation text := (list N) (only parsing).

(* Rust's [char::len_utf8] (core library): bytes of the UTF-8 encoding. *)
Definition len_utf8 (c : char) : N :=
  if c <? 128 then 1 else if c <? 2048 then 2 else if c <? 65536 then 3 else 4.

(* [str::len]: byte length. *)
Fixpoint blen (l : text) : N :=
  match l with [] => 0 | c :: r => len_utf8 c + blen r end.

(* Values a Rust [char] can have: Unicode scalar values. *)
Definition valid_char (c : char) : bool :=
  (c <? 55296) || ((57344 <=? c) && (c <=? 1114111)).

(* [&s[n..]]: None is the panic "byte index is not a char boundary / out of range". *)
Fixpoint drop_bytes (n : N) (l : text) {struct l} : option text :=
  if n =? 0 then Some l else
  match l with
  | [] => None
  | c :: r => if n <? len_utf8 c then None else drop_bytes (n - len_utf8 c) r
  end.

(* [&s[..n]]. *)
Fixpoint take_bytes (n : N) (l : text) {struct l} : option text :=
  if n =? 0 then Some [] else
  match l with
  | [] => None
  | c :: r => if n <? len_utf8 c then None else
              match take_bytes (n - len_utf8 c) r with Some t => Some (c :: t) | None => None end
  end.

(* [&s[a..b]]: panics when a > b, out of range, or not on boundaries. *)
Definition slice (s : text) (a b : N) : option text :=
  if b <? a then None else
  match drop_bytes a s with Some r => take_bytes (b - a) r | None => None end.

(* css_lexer/src/syntax/mod.rs:9-19 *)
Definition EOFc : char := 0.
Definition FF : char := 12.
Definition CR : char := 13.
Definition LF : char := 10.
Definition TAB : char := 9.
Definition SPACE : char := 32.
(* std::char::REPLACEMENT_CHARACTER *)
Definition REPLACEMENT : char := 65533.

(* css_lexer/src/syntax/mod.rs:26-29 *)
Definition is_newline (c : char) : bool := (c =? CR) || (c =? LF) || (c =? FF).
(* css_lexer/src/syntax/mod.rs:21-24 *)
Definition is_whitespace (c : char) : bool := (c =? SPACE) || (c =? TAB) || is_newline c.
(* css_lexer/src/syntax/mod.rs:31-34 *)
Definition is_sign (c : char) : bool := (c =? 43) || (c =? 45).
(* css_lexer/src/syntax/mod.rs:36-39 *)
Definition is_quote (c : char) : bool := (c =? 39) || (c =? 34).
(* css_lexer/src/syntax/mod.rs:41-44 *)
Definition is_escape_sequence (c c2 : char) : bool := (c =? 92) && negb (is_newline c2).

(* core: char::is_ascii, is_ascii_digit, is_ascii_hexdigit, to_ascii_lowercase *)
Definition is_ascii (c : char) : bool := c <? 128.
Definition is_ascii_digit (c : char) : bool := (48 <=? c) && (c <=? 57).
Definition is_ascii_hexdigit (c : char) : bool :=
  is_ascii_digit c || ((97 <=? c) && (c <=? 102)) || ((65 <=? c) && (c <=? 70)).
Definition is_ascii_upper (c : char) : bool := (65 <=? c) && (c <=? 90).
Definition to_ascii_lowercase (c : char) : char := if is_ascii_upper c then c + 32 else c.

Section Tables.
  Let t := true. Let f := false.
(* css_lexer/src/syntax/identifier.rs:9-14, transcribed entry by entry. *)
Definition ASCII_LOWER : list bool := [
   f; f; f; f; f; f; f; f; f; f; f; f; f; f; f; f;
   f; f; f; f; f; f; f; f; f; f; f; f; f; f; f; f;
   f; f; f; f; f; f; f; f; f; f; f; f; f; f; f; f;
   f; f; f; f; f; f; f; f; f; f; f; f; f; f; f; f;
   f; f; f; f; f; f; f; f; f; f; f; f; f; f; f; f;
   f; f; f; f; f; f; f; f; f; f; f; f; f; f; f; f;
   f; t; t; t; t; t; t; t; t; t; t; t; t; t; t; t;
   t; t; t; t; t; t; t; t; t; t; t; f; f; f; f; f].

(* css_lexer/src/syntax/identifier.rs:16-21, transcribed entry by entry. *)
Definition ASCII_START : list bool := [
   f; f; f; f; f; f; f; f; f; f; f; f; f; f; f; f;
   f; f; f; f; f; f; f; f; f; f; f; f; f; f; f; f;
   f; f; f; f; f; f; f; f; f; f; f; f; f; f; f; f;
   f; f; f; f; f; f; f; f; f; f; f; f; f; f; f; f;
   f; t; t; t; t; t; t; t; t; t; t; t; t; t; t; t;
   t; t; t; t; t; t; t; t; t; t; t; f; f; f; f; t;
   f; t; t; t; t; t; t; t; t; t; t; t; t; t; t; t;
   t; t; t; t; t; t; t; t; t; t; t; f; f; f; f; f].

(* css_lexer/src/syntax/identifier.rs:23-28, transcribed entry by entry. *)
Definition ASCII_CONTINUE : list bool := [
   f; f; f; f; f; f; f; f; f; f; f; f; f; f; f; f;
   f; f; f; f; f; f; f; f; f; f; f; f; f; f; f; f;
   f; f; f; f; f; f; f; f; f; f; f; f; f; t; f; f;
   t; t; t; t; t; t; t; t; t; t; f; f; f; f; f; f;
   f; t; t; t; t; t; t; t; t; t; t; t; t; t; t; t;
   t; t; t; t; t; t; t; t; t; t; t; f; f; f; f; t;
   f; t; t; t; t; t; t; t; t; t; t; t; t; t; t; t;
   t; t; t; t; t; t; t; t; t; t; t; f; f; f; f; f].

End Tables.

(* identifier.rs:31-33, 36-38. The Rust indexing panics for c >= 128; every caller guards with is_ascii, so the
   out-of-table default is never observed. *)
Definition is_ident_ascii_start (c : char) : bool := nth (N.to_nat c) ASCII_START false.
Definition is_ident_ascii (c : char) : bool := nth (N.to_nat c) ASCII_CONTINUE false.

(* identifier.rs:41-53 *)
Definition in_range (lo hi c : N) : bool := (lo <=? c) && (c <=? hi).
Definition is_non_ascii (c : char) : bool :=
  if 65536 <=? c then true else
  (c =? 183) || (c =? 8204) || (c =? 8205) || (c =? 8255) || (c =? 8256) ||
  in_range 192 214 c || in_range 216 246 c ||
  in_range 248 893 c || in_range 895 8191 c ||
  in_range 8304 8591 c || in_range 11264 12271 c ||
  in_range 12289 55295 c || in_range 63744 64975 c ||
  in_range 65008 65533 c.

(* identifier.rs:56-61 *)
Definition is_ident_start (c : char) : bool := if is_ascii c then is_ident_ascii_start c else is_non_ascii c.
(* identifier.rs:64-69 *)
Definition is_ident (c : char) : bool := if is_ascii c then is_ident_ascii c else is_non_ascii c.
(* identifier.rs:72-74 *)
Definition is_ident_ascii_lower (c : char) : bool := is_ascii c && nth (N.to_nat c) ASCII_LOWER false.
(* identifier.rs:77-82 *)
Definition is_ident_start_sequence (c c2 c3 : char) : bool :=
  if c =? 45 then (c2 =? 45) || is_ident_start c2 || is_escape_sequence c2 c3
  else is_ident_start c || is_escape_sequence c c2.

(* css_lexer/src/syntax/url.rs:1-3 *)
Definition is_non_printable (c : char) : bool :=
  (c <=? 8) || (c =? 11) || in_range 14 31 c || (c =? 127).
